(** Property C86: the yield to maturity of bonds at par and of products valued with a flat curve. *)
From Coq Require Import Reals Lra Lia List Bool ZArith.
From Verif Require Import Num Py Spec MPlans MDates MCurve MRateCurve MOption MCashflow MBracket MPricer
  SDates SRateCurve SCashflow SPricer SBracket SYield LBase LSort LPlans LDates LDateCurve LCashflow LRateCurve LAccrued LPricer
  LPricer2 LBracket LYield PBracket PCashflow PPricer PYield PParity.
Import ListNotations.
Open Scope R_scope.

Section Par.
  Context {D P : Type} (DS : DateSys R D P) (DC : DayCounts R D) (tm : D -> R) (L : DateLaws DS tm).
  Context (count : dcspec R D) (tau : D -> D -> R) (A : additive (dc_apply count) tau).
  Implicit Types (h : heap R D P) (p : @product D) (v : D) (fl : list (D * R)) (y z : R).

  (** lists i and j are the legs of a bond issued at v: the redemptions of the plan, and the
      interest with rate c on what is outstanding *)
  Definition bond_legs h (i j : nat) v (dates : list D) (plan : list R) (pc : dcspec R D) (c : R) : Prop :=
    exists l1 l2 orig, nth_error (h_lists h) i = Some (mkHL l1 HNone) /\ fixed_new dates (Many plan) orig = Ok l1 /\
      nth_error (h_lists h) j = Some (mkHL l2 (HForward (fun _ => FwNone))) /\
      ratelist_new dates (Many (outstanding plan (Rsum plan) false)) (Some v) pc None None c FwNone = Ok l2.

  (** all periods from v on have the length u, for interest and for discounting *)
  Definition regular v (dates : list D) (pc : dcspec R D) (u : R) : Prop :=
    0 < u /\ NoDup (map tm dates) /\
    (forall k d, nth_error dates k = Some d -> tau v d = INR (S k) * u /\ d_leb v d = true) /\
    (forall s e, period v dates s e -> pay_count pc s e = Ok u).

  Lemma exp_times x n : exp (INR n * x) = exp x ^ n.
  Proof.
    induction n as [|n IH]; [cbn; rewrite Rmult_0_l; apply exp_0|]. rewrite S_INR, Rmult_plus_distr_r, Rmult_1_l, exp_plus, IH. cbn. ring.
  Qed.
  Fixpoint left_over (N : R) (l : list R) : list R := match l with [] => [] | x :: l' => N :: left_over (N - x) l' end.
  Lemma outstanding_left l : forall N, l <> [] -> outstanding l N false = left_over N l.
  Proof.
    induction l as [|x l IH]; intros N NE; [congruence|]. destruct l as [|y l]; [reflexivity|].
    specialize (IH (N - x) ltac:(discriminate)). unfold outstanding in IH |- *. cbn [left_over] in IH |- *. rewrite <- IH.
    change (removelast (x :: y :: l)) with (x :: removelast (y :: l)). cbn [outstanding_loop]. f_equal. f_equal; [cbn; lra|].
    f_equal. cbn. lra.
  Qed.
  Lemma left_length l : forall N, length (left_over N l) = length l.
  Proof. induction l; intros; cbn; auto. Qed.

  Lemma par_sum v u c z : 0 < u -> exp (- (z * u)) * (1 + c * u) = 1 -> forall plan dates k N,
    length dates = length plan ->
    (forall i d, nth_error dates i = Some d -> tau v d = INR (S (k + i)) * u) ->
    yield_value tau v (combine dates plan) z + yield_value tau v (combine dates (map (fun x => (c + 0) * u * x) (left_over N plan))) z
      = exp (- (z * u)) ^ k * N - exp (- (z * u)) ^ (k + length plan) * (N - Rsum plan).
  Proof.
    intros HU HQ. set (q := exp (- (z * u))) in *. induction plan as [|x plan IH]; intros [|d dates] k N LEN HT; try discriminate.
    - cbn. rewrite Nat.add_0_r. ring.
    - cbn [left_over map combine]. rewrite !yield_value_cons. injection LEN as LEN.
      assert (T0 : exp (- (z * tau v d)) = q ^ (S k)).
      { unfold q. rewrite <- exp_times. f_equal. rewrite (HT 0%nat d eq_refl). rewrite Nat.add_0_r. ring. }
      rewrite T0. specialize (IH dates (S k) (N - x) LEN).
      assert (HT' : forall i d, nth_error dates i = Some d -> tau v d = INR (S (S k + i)) * u).
      { intros i d' Hi. rewrite (HT (S i) d' Hi). do 2 f_equal. lia. }
      specialize (IH HT'). cbn [length Rsum]. replace (k + S (length plan))%nat with (S k + length plan)%nat by lia.
      match goal with |- _ + ?b + (_ + ?d) = _ => set (Y1 := b) in *; set (Y2 := d) in * end.
      assert (E : Y1 = q ^ S k * (N - x) - q ^ (S k + length plan) * (N - x - Rsum plan) - Y2) by lra.
      rewrite E. cbn [pow]. replace (N - (x + Rsum plan)) with (N - x - Rsum plan) by ring.
      assert (Q2 : q * (c * u) = 1 - q) by lra.
      transitivity (q * q ^ k * N + (q * (c * u)) * q ^ k * N - q ^ (S k + length plan) * (N - x - Rsum plan)); [cbn; ring|].
      rewrite Q2. cbn. ring.
  Qed.

  Lemma bond_flows fuel flr h i j v dates plan pc c u dom lo :
    bond_legs h i j v dates plan pc c -> regular v dates pc u -> plan <> [] ->
    length dates = length plan /\
    product_flows fuel flr h v (PrLegs [i; j] dom lo)
      (combine dates plan ++ combine dates (map (fun x => (c + 0) * u * x) (left_over (Rsum plan) plan))).
  Proof.
    intros (l1 & l2 & orig & H1 & E1 & H2 & E2) (HU & ND & HT & HC) NE.
    destruct (C37_fixed DS DC tm L fuel flr dates plan orig l1 E1 ND) as (LEN & D1 & Q1 & _).
    destruct (C38_periods DS tm L _ _ _ _ _ _ _ _ _ E2 ND) as (_ & D2 & _).
    rewrite (outstanding_left plan _ NE) in E2.
    assert (AL : filter (fun d => d_leb v d) dates = dates).
    { assert (AD : forall d, In d dates -> d_leb v d = true).
      { intros d I. destruct (In_nth_error _ _ I) as [k Hk]. apply (HT k d Hk). }
      clear -AD. induction dates as [|d ds IH]; [reflexivity|]. cbn [filter]. rewrite (AD d (or_introl eq_refl)). f_equal. apply IH. intros. apply AD. now right. }
    assert (FC : forall (a : list R), length a = length dates -> map fst (combine dates a) = dates).
    { intros a. revert dates AL D1 D2 HT ND E1 E2 LEN Q1 HC. clear. intros dates _ _ _ _ _ _ _ _ _ _. revert a.
      induction dates as [|d ds IH]; intros [|x a] LE; try discriminate; [reflexivity|]. cbn. f_equal. apply IH. now injection LE. }
    assert (NI : forall (a : list R) d x, In (d, x) (combine dates a) -> exists k, nth_error dates k = Some d /\ nth_error a k = Some x).
    { clear. intros a. revert a. induction dates as [|d0 ds IH]; intros [|x0 a] d x I; try contradiction. cbn in I. destruct I as [I|I].
      - injection I as <- <-. now exists 0%nat.
      - destruct (IH a d x I) as [k Hk]. now exists (S k). }
    split; [congruence|]. exists [combine dates plan; combine dates (map (fun x => (c + 0) * u * x) (left_over (Rsum plan) plan))].
    split; [|cbn; now rewrite app_nil_r]. constructor; [|constructor; [|constructor]].
    - exists l1. split; [|split].
      + unfold fixed_new in E1. cbn [spread_arg] in E1. destruct (cf_new_inv _ _ _ _ _ _ E1) as [_ ->].
        eexists. exists LNone. split; [exact H1|]. split; reflexivity.
      + unfold due. rewrite D1, AL. now apply FC.
      + intros d a I. destruct (NI plan d a I) as (k & Hd & Ha). apply (Q1 k d a Hd Ha d). apply (eqb_refl (L:=L)).
    - exists l2. split; [|split].
      + assert (AT : cf_attr l2 = LForward FwNone).
        { unfold ratelist_new in E2. cbn [start_dates bind] in E2. destruct (rate_payoffs _ _ _ _ _ _ _); [|discriminate]. cbn [bind] in E2.
          destruct (cf_new_inv _ _ _ _ _ _ E2) as [_ ->]. reflexivity. }
        eexists. exists (LForward FwNone). split; [exact H2|]. cbn [hl_list hl_attr]. split; [|reflexivity]. rewrite <- AT. now destruct l2.
      + unfold due. rewrite D2, AL. apply FC. rewrite map_length, left_length. auto.
      + intros d a Ia. destruct (NI _ d a Ia) as (k & Hd & Ha). rewrite nth_error_map in Ha.
        destruct (nth_error (left_over (Rsum plan) plan) k) as [x|] eqn:Hx; [|discriminate]. injection Ha as <-.
        destruct (nth_error (v :: dates) k) as [s|] eqn:Hs.
        2:{ apply nth_error_None in Hs. assert (k < length dates)%nat by (apply nth_error_Some; congruence). cbn in Hs. lia. }
        assert (NF : forall x : D, moved_back x None x) by (intros; apply moved_offset, offset_none; exact I).
        refine (C38_flow DS DC tm L fuel flr dates _ v pc None None c FwNone l2 E2 ND k s d x s d s 0 u Hs Hd Hx (NF s) (NF d) (NF s) _ _ d (eqb_refl (L:=L) d)).
        * reflexivity.
        * apply HC. exists k. auto.
  Qed.

  (** with the yield ln(1 + c u) / u the flows are worth the redemptions, whatever the plan and
      the sign of the rate ... *)
  Theorem C86_par_value : forall fuel flr h i j v dates plan pc c u dom lo,
    bond_legs h i j v dates plan pc c -> regular v dates pc u -> plan <> [] -> 0 < 1 + c * u ->
    exists fl, product_flows fuel flr h v (PrLegs [i; j] dom lo) fl /\ yield_value tau v fl (ln (1 + c * u) / u) = Rsum plan.
  Proof.
    intros fuel flr h i j v dates plan pc c u dom lo B RG NE C1.
    destruct (bond_flows fuel flr h i j v dates plan pc c u dom lo B RG NE) as (LEN & F). pose proof RG as (HU & _ & HT & _).
    eexists. split; [exact F|]. unfold yield_value. rewrite map_app, Rsum_app.
    pose proof (par_sum v u c (ln (1 + c * u) / u) HU) as S0. unfold yield_value in S0. rewrite S0 with (k := 0%nat); [cbn; ring| |exact LEN|].
    - replace (- (ln (1 + c * u) / u * u)) with (- ln (1 + c * u)) by (field; lra). rewrite exp_Ropp, exp_ln by exact C1. field. lra.
    - intros k d Hk. apply (HT k d Hk).
  Qed.

  (** ... so this is the yield to maturity at par of a bond with non-negative payments *)
  Theorem C86_par_yield : forall n flr h i j v dates plan pc c u dom lo precision a b origin tenor y h',
    bond_legs h i j v dates plan pc c -> regular v dates pc u -> 0 <= c -> (forall x, In x plan -> 0 <= x) -> 0 < Rsum plan ->
    get_yield_to_maturity (S (S n)) flr (PrLegs [i; j] dom lo) (Some v) (Rsum plan) precision a b None origin count tenor h = (Ok y, h') ->
    h' = h /\ Rabs (y - ln (1 + c * u) / u) < precision / 2.
  Proof.
    intros n flr h i j v dates plan pc c u dom lo precision a b origin tenor y h' B RG C0 PO SP H.
    assert (NE : plan <> []) by (intros ->; cbn in SP; lra). pose proof RG as (HU & _ & HT & _).
    assert (C1 : 0 < 1 + c * u) by (assert (0 <= c * u) by (apply Rmult_le_pos; lra); lra).
    destruct (bond_flows (S (S n)) flr h i j v dates plan pc c u dom lo B RG NE) as (LEN & F).
    set (fl := combine dates plan ++ combine dates (map (fun x => (c + 0) * u * x) (left_over (Rsum plan) plan))) in *.
    assert (V : yield_value tau v fl (ln (1 + c * u) / u) = Rsum plan).
    { unfold fl, yield_value. rewrite map_app, Rsum_app.
      pose proof (par_sum v u c (ln (1 + c * u) / u) HU) as S0. unfold yield_value in S0. rewrite S0 with (k := 0%nat); [cbn; ring| |exact LEN|].
      - replace (- (ln (1 + c * u) / u * u)) with (- ln (1 + c * u)) by (field; lra). rewrite exp_Ropp, exp_ln by exact C1. field. lra.
      - intros k d Hk. apply (HT k d Hk). }
    assert (TP : forall d, In d dates -> 0 < tau v d).
    { intros d I. destruct (In_nth_error _ _ I) as [k Hk]. destruct (HT k d Hk) as [-> _]. apply Rmult_lt_0_compat; [apply lt_0_INR; lia|exact HU]. }
    assert (LO : forall l N, (forall x, In x l -> 0 <= x) -> Rsum l <= N -> forall x, In x (left_over N l) -> 0 <= x).
    { clear. induction l as [|p l IH]; intros N Q LE x I; [contradiction|]. assert (P0 : 0 <= p) by (apply Q; now left).
      assert (S0 : 0 <= Rsum l). { assert (Q' : forall x, In x l -> 0 <= x) by (intros; apply Q; now right). clear -Q'. induction l as [|a l IH]; cbn; [lra|].
        assert (0 <= a) by (apply Q'; now left). assert (0 <= Rsum l) by (apply IH; intros; apply Q'; now right). lra. }
      cbn [Rsum] in LE. destruct I as [<-|I]; [lra|]. apply (IH (N - p)); auto; [|lra]. intros; apply Q; now right. }
    assert (NN : forall d x, In (d, x) fl -> 0 <= x /\ 0 <= tau v d).
    { intros d x I. unfold fl in I. apply in_app_or in I. assert (Id : In d dates) by (destruct I as [I|I]; now apply in_combine_l in I).
      split; [|left; auto]. destruct I as [I|I]; apply in_combine_r in I; [auto|]. apply in_map_iff in I. destruct I as [w [<- I]].
      apply Rmult_le_pos; [apply Rmult_le_pos; lra|]. apply (LO plan (Rsum plan)); auto. lra. }
    assert (ST : exists d x, In (d, x) fl /\ 0 < x /\ 0 < tau v d).
    { assert (EP : exists k d x, nth_error dates k = Some d /\ nth_error plan k = Some x /\ 0 < x).
      { clear -SP LEN PO. revert dates LEN. induction plan as [|p l IH]; intros [|d ds] LEN; try discriminate; [cbn in SP; lra|].
        assert (P0 : 0 <= p) by (apply PO; now left). cbn [Rsum] in SP. destruct (Rlt_dec 0 p) as [Lp|Np].
        - now exists 0%nat, d, p.
        - destruct (IH ltac:(intros; apply PO; now right) ltac:(lra) ds ltac:(now injection LEN)) as (k & d' & x & Q). now exists (S k), d', x. }
      destruct EP as (k & d & x & Hd & Hx & Px). exists d, x. split; [|split; [exact Px|apply TP; eapply nth_error_In; eauto]].
      unfold fl. apply in_or_app. left. clear -Hd Hx. revert dates plan Hd Hx. induction k as [|k IH]; intros [|d0 ds] [|p l] Hd Hx; try discriminate.
      - injection Hd as ->. injection Hx as ->. now left.
      - right. now apply IH. }
    split; [apply (C45_root DS DC tm L count tau A n flr h _ v fl (Rsum plan) precision a b origin tenor y h' F H)|].
    destruct (C45_root DS DC tm L count tau A n flr h _ v fl (Rsum plan) precision a b origin tenor y h' F H) as (_ & _ & z & _ & Vz & Q).
    replace (ln (1 + c * u) / u) with z; [exact Q|].
    destruct (Rtotal_order z (ln (1 + c * u) / u)) as [LT|[E|GT]]; [|exact E|].
    - pose proof (yield_strict tau v fl NN ST _ _ LT). lra.
    - pose proof (yield_strict tau v fl NN ST _ _ GT). lra.
  Qed.

  (** a product valued with a flat zero rate curve yields the rate of the curve *)
  Theorem C86_flat_curve : forall n flr h k disc r c0 t0 p v fl target h1 precision a b origin tenor y h',
    rc_new CZeroRate [v] [r] None c0 count t0 = Ok disc -> nth_error (h_curves h) k = Some disc ->
    product_flows (S (S n)) flr h v p fl ->
    (forall d x, In (d, x) fl -> 0 <= x /\ 0 <= tau v d) -> (exists d x, In (d, x) fl /\ 0 < x /\ 0 < tau v d) ->
    get_present_value (S (S n)) flr p k (Some v) h = (Ok target, h1) ->
    get_yield_to_maturity (S (S n)) flr p (Some v) target precision a b None origin count tenor h1 = (Ok y, h') ->
    h' = h /\ Rabs (y - r) < precision / 2.
  Proof.
    intros n flr h k disc r c0 t0 p v fl target h1 precision a b origin tenor y h' ND Hk F NN ST PV H.
    destruct (flat_local (L:=L) count tau A v r t0 c0) as (c & E & DF). rewrite ND in E. injection E as <-.
    unfold get_present_value, bindS, get_curve in PV. rewrite (nth_res_some _ _ _ Hk) in PV.
    rewrite (product_flows_pv _ _ disc v p h fl (fun d => exp (- (r * tau v d))) F) in PV by (intros; apply DF).
    injection PV as <- <-.
    destruct (C45_root DS DC tm L count tau A n flr h p v fl _ precision a b origin tenor y h' F H) as (HH & _ & z & _ & Vz & Q).
    split; [exact HH|]. replace r with z; [exact Q|].
    fold (yield_value tau v fl r) in Vz.
    destruct (Rtotal_order z r) as [LT|[E|GT]]; [|exact E|].
    - pose proof (yield_strict tau v fl NN ST _ _ LT). lra.
    - pose proof (yield_strict tau v fl NN ST _ _ GT). lra.
  Qed.
End Par.
Print Assumptions C86_par_value.
Print Assumptions C86_par_yield.
Print Assumptions C86_flat_curve.

(** "yield-to-maturity at par gives coupon rate" (pricer.py:177): not so.  A two year bond with
    yearly coupons of ten percent, default bounds and precision; this is also an instance of
    the hypotheses above. *)
#[local] Instance no_counts {D} : DayCounts R D := [].
Theorem C86_coupon_rate_refuted : exists l1 l2,
  fixed_new (DS := FloatDates (T:=R)) [1; 2] (Many [0; 100]) None = Ok l1 /\
  ratelist_new (DS := FloatDates (T:=R)) [1; 2] (Many [100; 100]) (Some 0) DcDefault None None (1/10) FwNone = Ok l2 /\
  let h := mkH [] [] [mkHL l1 HNone; mkHL l2 (HForward (fun _ => FwNone))] in
  exists n, forall fuel, (n <= fuel)%nat -> exists y,
    get_yield_to_maturity fuel None (PrLegs [0%nat; 1%nat] [1; 2] None) (Some 0) 100 (1/10000000) (-(1/10)) (2/10) None None DcDefault None h = (Ok y, h) /\
    Rabs (y - ln (11/10)) < 1/10000000 /\ Rabs (y - 1/10) > 9/10000.
Proof.
  destruct (fixed_new (DS := FloatDates (T:=R)) [1; 2] (Many [0; 100]) None) as [l1|] eqn:E1; [|discriminate].
  destruct (C38_total FloatDates [1; 2] [100; 100] 0 DcDefault None None (1/10) FwNone I) as (T & _ & _).
  destruct (T ltac:(cbn; lia)) as (l2 & E2). clear T. exists l1, l2. split; [reflexivity|]. split; [exact E2|]. cbv zeta.
  set (h := mkH [] [] _).
  assert (SP : Rsum [0; 100] = 100) by (cbn; lra).
  assert (B : bond_legs FloatDates h 0 1 0 [1; 2] [0; 100] DcDefault (1/10)).
  { exists l1, l2, None. split; [reflexivity|]. split; [exact E1|]. split; [reflexivity|].
    replace (outstanding [0; 100] (Rsum [0; 100]) false) with [100; 100]; [exact E2|].
    unfold outstanding. cbn. repeat f_equal; lra. }
  assert (RG : regular FloatDates (fun d => d) (fun a b => b - a) 0 [1; 2] DcDefault 1).
  { split; [lra|]. split; [repeat constructor; cbn; intuition lra|]. split.
    - intros [|[|[|k]]] d Hd; cbn in Hd; try discriminate; injection Hd as <-; (split; [cbn; lra|]); cbn; unfold Rleb; destruct (Rle_dec _ _); lra || reflexivity.
    - intros s e [[|[|[|k]]] [H1 H2]]; cbn in H1, H2; try discriminate; injection H1 as <-; injection H2 as <-;
        [change (@Ok R (1 - 0) = Ok 1)|change (@Ok R (2 - 1) = Ok 1)]; f_equal; lra. }
  assert (LN : ln (1 + 1/10 * 1) / 1 = ln (11/10)) by (replace (1 + 1/10 * 1) with (11/10) by lra; lra).
  assert (U : ln (11/10) < 99/1000).
  { rewrite <- (ln_exp (99/1000)). apply ln_increasing; [lra|]. replace (99/1000) with (99/2000 + 99/2000) by lra. rewrite exp_plus.
    pose proof (exp_ineq1 (99/2000) ltac:(lra)). apply Rlt_le_trans with ((1 + 99/2000) * (1 + 99/2000)); [lra|]. apply Rmult_le_compat; lra. }
  assert (U0 : 0 < ln (11/10)) by (rewrite <- ln_1; apply ln_increasing; lra).
  set (fl := combine [1; 2] [0; 100] ++ combine [1; 2] (map (fun x => (1/10 + 0) * 1 * x) (left_over (Rsum [0; 100]) [0; 100]))).
  assert (F : forall fuel, product_flows (DS := FloatDates (T:=R)) (DC := no_counts) fuel None h 0 (PrLegs [0%nat; 1%nat] [1; 2] None) fl).
  { intros fuel. now apply (bond_flows FloatDates no_counts (fun d => d) float_laws (fun a b => b - a) fuel None h 0 1 0 [1; 2] [0; 100] DcDefault (1/10) 1 [1; 2] None B RG). }
  assert (V : yield_value (fun a b : R => b - a) 0 fl (ln (11/10)) = 100).
  { rewrite <- LN, <- SP. unfold fl, yield_value. rewrite map_app, Rsum_app.
    pose proof (par_sum (fun a b : R => b - a) 0 1 (1/10) (ln (1 + 1/10 * 1) / 1) ltac:(lra)) as S0. unfold yield_value in S0.
    rewrite S0 with (k := 0%nat); [cbn; ring| |reflexivity|].
    - replace (- (ln (1 + 1/10 * 1) / 1 * 1)) with (- ln (1 + 1/10 * 1)) by field. rewrite exp_Ropp, exp_ln by lra. field.
    - destruct RG as (_ & _ & HT & _). intros k d Hk. apply (HT k d Hk). }
  assert (NN : forall d x, In (d, x) fl -> 0 <= x /\ 0 <= (fun a b : R => b - a) 0 d).
  { intros d x J. cbn in J. repeat destruct J as [J|J]; try (injection J as <- <-; lra); contradiction. }
  assert (ST : exists d x, In (d, x) fl /\ 0 < x /\ 0 < (fun a b : R => b - a) 0 d).
  { exists 2, 100. split; [cbn; auto|]. lra. }
  destruct (C45_returns FloatDates no_counts (fun d => d) float_laws DcDefault _ float_additive None h (PrLegs [0%nat; 1%nat] [1; 2] None) 0
    fl 100 (1/10000000) (-(1/10)) (2/10) None None 0%nat (fun fuel _ => F fuel) ltac:(lra)) as (n & HN).
  { right. pose proof (yield_strict (fun a b : R => b - a) 0 fl NN ST (-(1/10)) (ln (11/10)) ltac:(lra)).
    pose proof (yield_strict (fun a b : R => b - a) 0 fl NN ST (ln (11/10)) (2/10) ltac:(lra)). lra. }
  exists (S (S n)). intros fuel LE. destruct (HN fuel ltac:(lia)) as (y & Hy). exists y. split; [exact Hy|].
  destruct fuel as [|[|m]]; [lia|lia|].
  pose proof Hy as Hy'. rewrite <- SP in Hy'.
  destruct (C86_par_yield FloatDates no_counts (fun d => d) float_laws DcDefault _ float_additive m None h 0 1 0 [1; 2] [0; 100] DcDefault (1/10) 1 [1; 2] None
    (1/10000000) (-(1/10)) (2/10) None None y h B RG ltac:(lra) ltac:(cbn; intuition lra) ltac:(lra) Hy') as (_ & Q).
  rewrite LN in Q. apply Rabs_def2 in Q. split; [apply Rabs_def1; lra|].
  rewrite Rabs_left; lra.
Qed.
Print Assumptions C86_coupon_rate_refuted.

(** instance of C86_flat_curve: the flows 5 at 1 and 105 at 2, zero rate 2 percent *)
Example C86_flat_instance : exists l disc,
  fixed_new (DS := FloatDates (T:=R)) [1; 2] (Many [5; 105]) None = Ok l /\
  rc_new (DS := FloatDates (T:=R)) CZeroRate [0] [2/100] None None DcDefault None = Ok disc /\
  let h := mkH [disc] [] [mkHL l HNone] in
  exists n, forall fuel, (n <= fuel)%nat -> exists target y,
    get_present_value fuel None (PrList 0) 0 (Some 0) h = (Ok target, h) /\
    get_yield_to_maturity fuel None (PrList 0) (Some 0) target (1/1000) 0 1 None None DcDefault None h = (Ok y, h) /\
    Rabs (y - 2/100) < 1/2000.
Proof.
  assert (ND : NoDup (map (fun d : R => d) [1; 2])) by (repeat constructor; cbn; intuition lra).
  destruct (fixed_new (DS := FloatDates (T:=R)) [1; 2] (Many [5; 105]) None) as [l|] eqn:E; [|discriminate].
  destruct (flat_local (L:=float_laws) DcDefault _ (default_additive (DC := no_counts) (L:=float_laws)) 0 (2/100) None None) as (disc & ED & DF).
  exists l, disc. split; [reflexivity|]. split; [exact ED|]. cbv zeta. set (h := mkH [disc] [] [mkHL l HNone]).
  assert (F : forall fuel, product_flows (DC := no_counts) fuel None h 0 (PrList 0) [(1, 5); (2, 105)]).
  { intros fuel. exists l.
    destruct (C37_fixed FloatDates no_counts (fun d => d) float_laws fuel None [1; 2] [5; 105] None l E ND) as (_ & HD & Q & _).
    split; [|split].
    - unfold fixed_new in E. cbn [spread_arg] in E. destruct (cf_new_inv _ _ _ _ _ _ E) as [_ ->].
      eexists. exists LNone. split; [reflexivity|]. split; reflexivity.
    - unfold due. rewrite HD. cbn [map fst filter d_leb FloatDates nleb Rnum]. unfold Rleb.
      destruct (Rle_dec 0 1), (Rle_dec 0 2); try lra. reflexivity.
    - intros d a [I|[I|[]]]; injection I as <- <-.
      + apply (Q 0%nat 1 5 eq_refl eq_refl 1). apply (eqb_refl (L:=float_laws)).
      + apply (Q 1%nat 2 105 eq_refl eq_refl 2). apply (eqb_refl (L:=float_laws)). }
  set (tau := fun a b : R => b - a).
  assert (PO : forall d x, In (d, x) [(1, 5); (2, 105)] -> 0 <= x /\ 0 <= tau 0 d).
  { intros d x [I|[I|[]]]; injection I as <- <-; unfold tau; lra. }
  assert (ST : exists d x, In (d, x) [(1, 5); (2, 105)] /\ 0 < x /\ 0 < tau 0 d).
  { exists 2, 105. split; [cbn; auto|]. unfold tau; lra. }
  set (target := yield_value tau 0 [(1, 5); (2, 105)] (2/100)).
  destruct (C45_returns FloatDates no_counts (fun d => d) float_laws DcDefault tau float_additive None h (PrList 0) 0
    [(1, 5); (2, 105)] target (1/1000) 0 1 None None 0%nat (fun fuel _ => F fuel) ltac:(lra)) as (n & HN).
  { right. pose proof (yield_strict tau 0 _ PO ST 0 (2/100) ltac:(lra)). pose proof (yield_strict tau 0 _ PO ST (2/100) 1 ltac:(lra)). unfold target. lra. }
  exists (S (S n)). intros fuel LE. destruct (HN fuel ltac:(lia)) as (y & Hy). destruct fuel as [|[|m]]; [lia|lia|].
  exists target, y.
  assert (PV : get_present_value (S (S m)) None (PrList 0) 0 (Some 0) h = (Ok target, h)).
  { unfold get_present_value, bindS, get_curve. rewrite (nth_res_some (h_curves h) 0 disc eq_refl).
    now rewrite (product_flows_pv _ _ disc 0 _ h _ (fun d => exp (- (2/100 * tau 0 d))) (F _)) by (intros; apply DF). }
  split; [exact PV|]. split; [exact Hy|].
  destruct (C86_flat_curve FloatDates no_counts (fun d => d) float_laws DcDefault tau float_additive m None h 0 disc (2/100) None None (PrList 0) 0 _ target h
    (1/1000) 0 1 None None y h ED eq_refl (F _) PO ST PV Hy) as [_ Q]. lra.
Qed.
