(** Properties C94 and C95: how yields and present values respond to prices and rates
    (pricer.py:139-208 and 368-430). *)
From Coq Require Import Reals Lra Lia List Bool ZArith.
From Verif Require Import Num Py Spec SInterpolation SCurve SDates SRateCurve SPricer SBracket SYield LBase MInterpolation MDates MCurve MRateCurve
  MOption MCashflow MBracket MPricer LSort LDates LInterpolation LCurve LCurve2 LDateCurve LRateCurve LRateCurve3 LCashflow LTable LPricer LPricer2
  LPricer3 LBracket LYield LCast PCashflow PPricer PPricer2 PPricer3 PYield PBuckets.
Import ListNotations.
Open Scope R_scope.

Section Yield.
  Context {D P : Type} (DS : DateSys R D P) (DC : DayCounts R D) (tm : D -> R) (L : DateLaws DS tm).
  Context (count : dcspec R D) (tau : D -> D -> R) (A : additive (dc_apply count) tau).
  Implicit Types (h : heap R D P) (p : @product D) (v : D) (fl : list (D * R)) (y z : R).

  (** y is a yield to maturity found for the target price, with the given precision *)
  Definition yield_of (n : nat) flr h p v (target precision y : R) : Prop :=
    exists a b origin tenor h',
      get_yield_to_maturity (S (S n)) flr p (Some v) target precision a b None origin count tenor h = (Ok y, h').

  (** payments at v or later, none of them negative, at least one positive and later *)
  Definition pays_later v fl : Prop :=
    (forall d x, In (d, x) fl -> 0 <= x /\ 0 <= tau v d) /\ (exists d x, In (d, x) fl /\ 0 < x /\ 0 < tau v d).

  Lemma yield_order v fl z1 z2 : pays_later v fl -> yield_value tau v fl z1 < yield_value tau v fl z2 -> z2 < z1.
  Proof.
    intros [NN ST] LT. destruct (Rtotal_order z1 z2) as [H|[->|H]]; [|lra|lra].
    pose proof (yield_strict tau v fl NN ST _ _ H). lra.
  Qed.
  Lemma yield_inj v fl z1 z2 : pays_later v fl -> yield_value tau v fl z1 = yield_value tau v fl z2 -> z1 = z2.
  Proof.
    intros PL E. destruct (Rtotal_order z1 z2) as [H|[H|H]]; [|auto|]; destruct PL as [NN ST];
      pose proof (yield_strict tau v fl NN ST _ _ H); lra.
  Qed.
  Lemma near y1 z1 y2 z2 e1 e2 : Rabs (y1 - z1) < e1 / 2 -> Rabs (y2 - z2) < e2 / 2 ->
    (z1 - z2) - (e1 + e2) / 2 < y1 - y2 < (z1 - z2) + (e1 + e2) / 2.
  Proof. unfold Rabs. destruct (Rcase_abs (y1 - z1)), (Rcase_abs (y2 - z2)); lra. Qed.

  (** * C94: the higher the price, the lower the yield (up to the precisions) *)
  Theorem C94_price_up : forall n m flr h p v fl t1 t2 e1 e2 y1 y2,
    product_flows (S (S n)) flr h v p fl -> product_flows (S (S m)) flr h v p fl -> pays_later v fl ->
    yield_of n flr h p v t1 e1 y1 -> yield_of m flr h p v t2 e2 y2 -> t1 < t2 ->
    y2 < y1 + (e1 + e2) / 2.
  Proof.
    intros n m flr h p v fl t1 t2 e1 e2 y1 y2 F1 F2 PL (a1 & b1 & o1 & te1 & h1 & H1) (a2 & b2 & o2 & te2 & h2 & H2) LT.
    destruct (C45_root DS DC tm L count tau A _ _ _ _ _ _ _ _ _ _ _ _ _ _ F1 H1) as (_ & _ & z1 & _ & V1 & N1).
    destruct (C45_root DS DC tm L count tau A _ _ _ _ _ _ _ _ _ _ _ _ _ _ F2 H2) as (_ & _ & z2 & _ & V2 & N2).
    pose proof (yield_order v fl z1 z2 PL ltac:(lra)). pose proof (near _ _ _ _ _ _ N1 N2). lra.
  Qed.

  (** the result does not depend on the bounds of the search, the keyword arguments of the
      curve and the depth of the recursion *)
  Theorem C94_same_yield : forall n m flr h p v fl t e1 e2 y1 y2,
    product_flows (S (S n)) flr h v p fl -> product_flows (S (S m)) flr h v p fl -> pays_later v fl ->
    yield_of n flr h p v t e1 y1 -> yield_of m flr h p v t e2 y2 ->
    Rabs (y1 - y2) < (e1 + e2) / 2.
  Proof.
    intros n m flr h p v fl t e1 e2 y1 y2 F1 F2 PL (a1 & b1 & o1 & te1 & h1 & H1) (a2 & b2 & o2 & te2 & h2 & H2).
    destruct (C45_root DS DC tm L count tau A _ _ _ _ _ _ _ _ _ _ _ _ _ _ F1 H1) as (_ & _ & z1 & _ & V1 & N1).
    destruct (C45_root DS DC tm L count tau A _ _ _ _ _ _ _ _ _ _ _ _ _ _ F2 H2) as (_ & _ & z2 & _ & V2 & N2).
    assert (E : z1 = z2) by (apply (yield_inj v fl); [auto|lra]). pose proof (near _ _ _ _ _ _ N1 N2).
    apply Rabs_def1; lra.
  Qed.

  (** how values change with the yield: by factors between those of the first and the last
      payment *)
  Lemma yield_factor v fl first last z1 z2 : (forall d x, In (d, x) fl -> 0 <= x /\ first <= tau v d <= last) -> z2 <= z1 ->
    yield_value tau v fl z1 * exp ((z1 - z2) * first) <= yield_value tau v fl z2 /\
    yield_value tau v fl z2 <= yield_value tau v fl z1 * exp ((z1 - z2) * last).
  Proof.
    intros B LE. assert (MI : forall x y : R, x <= y -> exp x <= exp y).
    { intros x y [H|H]; [left; now apply exp_increasing|subst; lra]. }
    induction fl as [|[d a] fl IH]; [cbn; lra|]. rewrite !yield_value_cons.
    destruct IH as [I1 I2]; [intros; apply B; now right|]. destruct (B d a (or_introl eq_refl)) as (NA & T1 & T2).
    assert (Q1 : exp (- (z1 * tau v d)) * exp ((z1 - z2) * first) <= exp (- (z2 * tau v d))).
    { rewrite <- exp_plus. apply MI. assert ((z1 - z2) * first <= (z1 - z2) * tau v d) by (apply Rmult_le_compat_l; lra). lra. }
    assert (Q2 : exp (- (z2 * tau v d)) <= exp (- (z1 * tau v d)) * exp ((z1 - z2) * last)).
    { rewrite <- exp_plus. apply MI. assert ((z1 - z2) * tau v d <= (z1 - z2) * last) by (apply Rmult_le_compat_l; lra). lra. }
    apply (Rmult_le_compat_r a) in Q1; auto. apply (Rmult_le_compat_r a) in Q2; auto. lra.
  Qed.

  (** a price higher by the factor t2 / t1 lowers the yield by at least ln (t2 / t1) divided by
      the time to the last payment, and at most by it divided by the time to the first one *)
  Theorem C94_duration : forall n m flr h p v fl t1 t2 e1 e2 y1 y2 first last,
    product_flows (S (S n)) flr h v p fl -> product_flows (S (S m)) flr h v p fl ->
    (forall d x, In (d, x) fl -> 0 <= x /\ first <= tau v d <= last) -> 0 < first ->
    yield_of n flr h p v t1 e1 y1 -> yield_of m flr h p v t2 e2 y2 -> 0 < t1 <= t2 ->
    ln (t2 / t1) / last - (e1 + e2) / 2 < y1 - y2 < ln (t2 / t1) / first + (e1 + e2) / 2.
  Proof.
    intros n m flr h p v fl t1 t2 e1 e2 y1 y2 first last F1 F2 B PF (a1 & b1 & o1 & te1 & h1 & H1) (a2 & b2 & o2 & te2 & h2 & H2) [P1 LE].
    destruct (C45_root DS DC tm L count tau A _ _ _ _ _ _ _ _ _ _ _ _ _ _ F1 H1) as (_ & _ & z1 & _ & V1 & N1).
    destruct (C45_root DS DC tm L count tau A _ _ _ _ _ _ _ _ _ _ _ _ _ _ F2 H2) as (_ & _ & z2 & _ & V2 & N2).
    assert (NN : forall d x, In (d, x) fl -> 0 <= x /\ 0 <= tau v d) by (intros d x I; destruct (B d x I) as (? & ? & ?); split; lra).
    assert (ST : exists d x, In (d, x) fl /\ 0 < x /\ 0 < tau v d).
    { rewrite <- V1 in P1. clear -P1 B PF. induction fl as [|[d a] fl IH]; [cbn in P1; lra|].
      destruct (B d a (or_introl eq_refl)) as (NA & T1 & T2). destruct NA as [PA|ZA].
      - exists d, a. split; [now left|]. split; lra.
      - rewrite yield_value_cons, <- ZA in P1. destruct IH as (d' & a' & I & Q); [intros; apply B; now right|lra|].
        exists d', a'. split; [now right|exact Q]. }
    assert (LAST : first <= last) by (destruct ST as (d & x & I & _); destruct (B d x I) as (_ & ? & ?); lra).
    assert (ZO : z2 <= z1).
    { destruct (Rle_lt_dec z2 z1) as [Hz|Hz]; [exact Hz|]. pose proof (yield_strict tau v fl NN ST _ _ Hz). lra. }
    destruct (yield_factor v fl first last z1 z2 B ZO) as [Q1 Q2]. rewrite V1, V2 in Q1, Q2.
    assert (R1 : (z1 - z2) * first <= ln (t2 / t1)).
    { rewrite <- (ln_exp ((z1 - z2) * first)). assert (exp ((z1 - z2) * first) <= t2 / t1).
      { apply Rmult_le_reg_l with t1; auto. replace (t1 * (t2 / t1)) with t2 by (field; lra). lra. }
      destruct H as [H|H]; [left; apply ln_increasing; [apply exp_pos|auto]|rewrite H; lra]. }
    assert (R2 : ln (t2 / t1) <= (z1 - z2) * last).
    { rewrite <- (ln_exp ((z1 - z2) * last)). assert (t2 / t1 <= exp ((z1 - z2) * last)).
      { apply Rmult_le_reg_l with t1; auto. replace (t1 * (t2 / t1)) with t2 by (field; lra). lra. }
      destruct H as [H|H]; [left; apply ln_increasing; [apply Rdiv_lt_0_compat; lra|auto]|rewrite H; lra]. }
    pose proof (near _ _ _ _ _ _ N1 N2) as NE.
    assert (S1 : ln (t2 / t1) / last <= z1 - z2).
    { apply Rmult_le_reg_r with last; [lra|]. replace (ln (t2 / t1) / last * last) with (ln (t2 / t1)) by (field; lra). lra. }
    assert (S2 : z1 - z2 <= ln (t2 / t1) / first).
    { apply Rmult_le_reg_r with first; [lra|]. replace (ln (t2 / t1) / first * first) with (ln (t2 / t1)) by (field; lra). lra. }
    lra.
  Qed.

  (** a single payment x at d: the yield is ln (x / price) per year *)
  Theorem C94_single : forall n flr h p v d x t pr y,
    product_flows (S (S n)) flr h v p [(d, x)] -> 0 < x -> 0 < t -> 0 < tau v d ->
    yield_of n flr h p v t pr y -> Rabs (y - ln (x / t) / tau v d) < pr / 2.
  Proof.
    intros n flr h p v d x t pr y F PX PT TD (a & b & o & te & h1 & H).
    destruct (C45_root DS DC tm L count tau A _ _ _ _ _ _ _ _ _ _ _ _ _ _ F H) as (_ & _ & z & _ & V & N).
    replace (ln (x / t) / tau v d) with z; [exact N|]. unfold yield_value in V. cbn [map Rsum fst snd] in V.
    assert (E : x / t = exp (z * tau v d)).
    { rewrite <- V. rewrite exp_Ropp. pose proof (exp_pos (z * tau v d)). field. lra. }
    rewrite E, ln_exp. field. lra.
  Qed.

  (** larger payments for the same price: a larger yield *)
  Theorem C94_more : forall n m flr h p q v fl fl' t e1 e2 y1 y2,
    product_flows (S (S n)) flr h v p fl -> product_flows (S (S m)) flr h v q fl' -> pays_later v fl ->
    Forall2 (fun a b => fst a = fst b /\ snd a <= snd b) fl fl' ->
    yield_of n flr h p v t e1 y1 -> yield_of m flr h q v t e2 y2 ->
    y1 < y2 + (e1 + e2) / 2.
  Proof.
    intros n m flr h p q v fl fl' t e1 e2 y1 y2 F1 F2 PL FO (a1 & b1 & o1 & te1 & h1 & H1) (a2 & b2 & o2 & te2 & h2 & H2).
    destruct (C45_root DS DC tm L count tau A _ _ _ _ _ _ _ _ _ _ _ _ _ _ F1 H1) as (_ & _ & z1 & _ & V1 & N1).
    destruct (C45_root DS DC tm L count tau A _ _ _ _ _ _ _ _ _ _ _ _ _ _ F2 H2) as (_ & _ & z2 & _ & V2 & N2).
    assert (LE : yield_value tau v fl z2 <= yield_value tau v fl' z2).
    { clear -FO. induction FO as [|[d a] [d' a'] fl fl' [E LE] FO IH]; [cbn; lra|]. cbn [fst snd] in *. subst d'.
      rewrite !yield_value_cons. pose proof (Rmult_le_compat_l _ _ _ (Rlt_le _ _ (exp_pos (- (z2 * tau v d)))) LE). lra. }
    assert (z1 <= z2).
    { destruct (Rle_lt_dec z1 z2) as [Hz|Hz]; [exact Hz|]. destruct PL as [NN ST]. pose proof (yield_strict tau v fl NN ST _ _ Hz). lra. }
    pose proof (near _ _ _ _ _ _ N1 N2). lra.
  Qed.

  (** k times the payments for k times the price: the same yield *)
  Theorem C94_scaled : forall n m flr h p q v fl k t e1 e2 y1 y2,
    product_flows (S (S n)) flr h v p fl -> product_flows (S (S m)) flr h v q (map (fun da => (fst da, k * snd da)) fl) ->
    pays_later v fl -> k <> 0 ->
    yield_of n flr h p v t e1 y1 -> yield_of m flr h q v (k * t) e2 y2 ->
    Rabs (y1 - y2) < (e1 + e2) / 2.
  Proof.
    intros n m flr h p q v fl k t e1 e2 y1 y2 F1 F2 PL NK (a1 & b1 & o1 & te1 & h1 & H1) (a2 & b2 & o2 & te2 & h2 & H2).
    destruct (C45_root DS DC tm L count tau A _ _ _ _ _ _ _ _ _ _ _ _ _ _ F1 H1) as (_ & _ & z1 & _ & V1 & N1).
    destruct (C45_root DS DC tm L count tau A _ _ _ _ _ _ _ _ _ _ _ _ _ _ F2 H2) as (_ & _ & z2 & _ & V2 & N2).
    assert (E : yield_value tau v (map (fun da => (fst da, k * snd da)) fl) z2 = k * yield_value tau v fl z2).
    { clear. induction fl as [|[d a] fl IH]; [cbn; lra|]. cbn [map fst snd]. rewrite !yield_value_cons, IH. lra. }
    rewrite E in V2. apply Rmult_eq_reg_l in V2; auto.
    assert (EZ : z1 = z2) by (apply (yield_inj v fl); [auto|lra]). pose proof (near _ _ _ _ _ _ N1 N2).
    apply Rabs_def1; lra.
  Qed.
End Yield.
Print Assumptions C94_price_up.
Print Assumptions C94_same_yield.
Print Assumptions C94_duration.
Print Assumptions C94_single.
Print Assumptions C94_more.
Print Assumptions C94_scaled.

(** * C95: basis point values *)
Section Bpv.
  Context {D P : Type} (DS : DateSys R D P) (tm : D -> R) (DC : DayCounts R D) (L : DateLaws DS tm).
  Implicit Types (h : heap R D P) (c : rcurve R D P).

  (** list i holds the amounts at distinct dates, curve k is a zero rate curve with origin o,
      year fraction tau and zero rates z *)
  Definition fixed_book h (i k : nat) (dates : list D) (amounts : list R) o tau z : Prop :=
    (exists c, nth_error (h_curves h) k = Some c /\ zero_curve DS DC c o tau z) /\
    (exists l origin, nth_error (h_lists h) i = Some (mkHL l HNone) /\ fixed_new dates (Many amounts) origin = Ok l) /\
    NoDup (map tm dates).

  (** the present value in terms of the flows, and the sum of the times to payment weighted with
      the present values of the payments ("dollar duration"), or their squares *)
  Definition flow_sum (o : D) (tau : D -> D -> R) (z : D -> R) (dates : list D) (amounts : list R) (w : R -> R) : R :=
    Rsum (map (fun da => if d_leb o (fst da) then snd da * exp (- (z (fst da) * tau o (fst da))) * w (tau o (fst da)) else 0)
              (combine dates amounts)).

  Lemma bpv_form n flr h i k dates amounts o tau z shift : fixed_book h i k dates amounts o tau z -> shift <> 0 ->
    returns (get_present_value (S (S n)) flr (PrList i) k (Some o)) h (flow_sum o tau z dates amounts (fun _ => 1)) /\
    returns (get_basis_point_value (S (S n)) flr (PrList i) k (Some o) None shift) h
      (flow_sum o tau z dates amounts (fun t => (exp (- (shift * t)) - 1) / shift * (1 / 10000))).
  Proof.
    intros ((c & Hk & Z) & HL & ND) NZ.
    assert (S : setup DS tm DC h i k dates amounts c o tau z [o] shift).
    { constructor; auto; [repeat constructor|discriminate]. }
    destruct (risk_figures DS tm DC L n flr h i k dates amounts c o tau z [o] shift S) as (bs & _ & _ & _ & _ & _ & RB & _).
    destruct HL as (l & og & Hi & HN). destruct Z as (K & SP & HO & A & DV & V).
    assert (T0 : tau o o = 0) by (apply (tau_eq A), eqb_refl). split.
    - pose proof (C40_pairs DS DC tm L (2 + n) flr h i k c o l dates amounts og (fun d => exp (- (z d * tau o d))) Hk Hi (or_introl HN) ND) as H.
      unfold pairs_value in H. unfold flow_sum. erewrite map_ext; [apply H|].
      + intros d _ _. unfold get_discount_factor, interest_only. rewrite K. cbn [is_interest Nat.add].
        rewrite (flat_factor (L:=L) c o tau HO A n o d (z o) (z d)); [do 3 f_equal; rewrite T0; lra|rewrite K; now left|exact DV|apply V|apply V].
      + intros p. cbv beta. destruct (d_leb o (fst p)); lra.
    - unfold returns in *. rewrite RB. unfold flow_sum. do 2 f_equal.
      replace (Rsum (map (fun p => today DS o tau z p * (exp (- (shift * tau o (fst p))) - 1)) (combine dates amounts)) / shift * (1 / 10000))
        with (Rsum (map (fun p => today DS o tau z p * (exp (- (shift * tau o (fst p))) - 1)) (combine dates amounts)) * (/ shift * (1 / 10000))) by (field; auto).
      rewrite <- Rsum_factor. apply Rsum_ext. intros p _. unfold today. destruct (d_leb o (fst p)); field; auto.
  Qed.

  (** payments which are not negative, dates in order *)
  Lemma flow_sum_le o tau z dates amounts w w' : (forall a, In a amounts -> 0 <= a) ->
    (forall d, In d dates -> d_leb o d = true -> w (tau o d) <= w' (tau o d)) ->
    flow_sum o tau z dates amounts w <= flow_sum o tau z dates amounts w'.
  Proof.
    intros NN W. unfold flow_sum. apply Rsum_le. intros [d a] I. cbn [fst snd]. destruct (d_leb o d) eqn:E; [|lra].
    apply Rmult_le_compat_l; [|apply W; auto; eapply in_combine_l; eauto].
    apply Rmult_le_pos; [apply NN; eapply in_combine_r; eauto|left; apply exp_pos].
  Qed.
  Lemma flow_sum_scale o tau z dates amounts w k :
    flow_sum o tau z dates amounts (fun t => w t * k) = flow_sum o tau z dates amounts w * k.
  Proof.
    unfold flow_sum. rewrite <- Rsum_factor. apply Rsum_ext. intros p _. destruct (d_leb o (fst p)); lra.
  Qed.
  Lemma flow_sum_plus o tau z dates amounts w w' :
    flow_sum o tau z dates amounts (fun t => w t + w' t) = flow_sum o tau z dates amounts w + flow_sum o tau z dates amounts w'.
  Proof.
    unfold flow_sum. induction (combine dates amounts) as [|p l IH]; cbn [map Rsum]; [lra|]. rewrite IH. destruct (d_leb o (fst p)); lra.
  Qed.

  Lemma later_time h i k dates amounts o tau z d : fixed_book h i k dates amounts o tau z -> monotone tau -> d_leb o d = true -> 0 <= tau o d.
  Proof.
    intros ((c & _ & (_ & _ & _ & A & _)) & _) MO LE. apply leb_inv in LE. destruct (Req_dec (tm o) (tm d)) as [EQ|NQ].
    - right. symmetry. apply (tau_eq A). now apply eqb_t.
    - left. apply MO. apply ltb_t. lra.
  Qed.

  (** the basis point value of payments which are not negative is not positive, whatever the
      shift *)
  Theorem C95_sign : forall n flr h i k dates amounts o tau z shift,
    fixed_book h i k dates amounts o tau z -> monotone tau -> (forall a, In a amounts -> 0 <= a) -> shift <> 0 ->
    exists bpv, returns (get_basis_point_value (S (S n)) flr (PrList i) k (Some o) None shift) h bpv /\ bpv <= 0.
  Proof.
    intros n flr h i k dates amounts o tau z shift B MO NN NZ.
    destruct (bpv_form n flr h i k dates amounts o tau z shift B NZ) as [_ RB]. eexists. split; [exact RB|].
    apply Rle_trans with (flow_sum o tau z dates amounts (fun t => 0)).
    - apply flow_sum_le; auto. intros d Id LE. pose proof (later_time _ _ _ _ _ _ _ _ d B MO LE) as T.
      set (t := tau o d) in *. assert ((exp (- (shift * t)) - 1) / shift <= 0); [|lra].
      destruct (Rtotal_order shift 0) as [N|[N|N]]; [|lra|].
      + assert (0 <= exp (- (shift * t)) - 1).
        { pose proof (exp_ineq1_le (- (shift * t))). assert (0 <= - shift * t) by (apply Rmult_le_pos; lra). lra. }
        assert (0 <= (exp (- (shift * t)) - 1) * / (- shift)) by (apply Rmult_le_pos; [auto|left; apply Rinv_0_lt_compat; lra]).
        replace ((exp (- (shift * t)) - 1) / shift) with (- ((exp (- (shift * t)) - 1) * / (- shift))) by (field; lra). lra.
      + assert (exp (- (shift * t)) <= 1).
        { assert (0 <= shift * t) by (apply Rmult_le_pos; lra). destruct H as [H|H].
          - pose proof (exp_increasing (- (shift * t)) 0 ltac:(lra)) as X. rewrite exp_0 in X. lra.
          - rewrite <- H, Ropp_0, exp_0. lra. }
        assert (0 <= (1 - exp (- (shift * t))) * / shift) by (apply Rmult_le_pos; [lra|left; apply Rinv_0_lt_compat; lra]).
        unfold Rdiv. lra.
    - unfold flow_sum. rewrite Rsum_zero; [lra|]. intros p _. destruct (d_leb o (fst p)); lra.
  Qed.

  (** it is minus the sum of times to payment weighted with the values of the payments, times a
      basis point, up to a term of the order of the shift; and a present value of which no
      part is paid before [first] or after [last] has at least [first] and at most [last]
      times itself as this sum *)
  Theorem C95_duration : forall n flr h i k dates amounts o tau z shift,
    fixed_book h i k dates amounts o tau z -> monotone tau -> (forall a, In a amounts -> 0 <= a) -> 0 < shift ->
    exists bpv, returns (get_basis_point_value (S (S n)) flr (PrList i) k (Some o) None shift) h bpv /\
      - flow_sum o tau z dates amounts (fun t => t) / 10000 <= bpv /\
      bpv <= - flow_sum o tau z dates amounts (fun t => t) / 10000 + shift / 10000 * flow_sum o tau z dates amounts (fun t => t * t).
  Proof.
    intros n flr h i k dates amounts o tau z shift B MO NN NZ.
    destruct (bpv_form n flr h i k dates amounts o tau z shift B ltac:(lra)) as [_ RB]. eexists. split; [exact RB|].
    assert (IS : 0 < / shift) by now apply Rinv_0_lt_compat. split.
    - replace (- flow_sum o tau z dates amounts (fun t => t) / 10000) with (flow_sum o tau z dates amounts (fun t => t) * (- (1/10000))) by lra.
      rewrite <- (flow_sum_scale o tau z dates amounts (fun t => t)). apply flow_sum_le; auto. intros d Id LE.
      pose proof (exp_ineq1_le (- (shift * tau o d))).
      assert (- tau o d <= (exp (- (shift * tau o d)) - 1) / shift); [|lra].
      apply Rmult_le_reg_r with shift; auto. replace ((exp (- (shift * tau o d)) - 1) / shift * shift) with (exp (- (shift * tau o d)) - 1) by (field; lra). lra.
    - replace (- flow_sum o tau z dates amounts (fun t => t) / 10000) with (flow_sum o tau z dates amounts (fun t => t) * (- (1/10000))) by lra.
      rewrite (Rmult_comm (shift / 10000)). rewrite <- (flow_sum_scale o tau z dates amounts (fun t => t)), <- (flow_sum_scale o tau z dates amounts (fun t => t * t)), <- flow_sum_plus.
      apply flow_sum_le; auto. intros d Id LE. pose proof (later_time _ _ _ _ _ _ _ _ d B MO LE) as T.
      set (t := tau o d) in *. assert (X : 0 <= shift * t) by (apply Rmult_le_pos; lra). pose proof (exp_neg_above (shift * t) X).
      assert ((exp (- (shift * t)) - 1) / shift <= - t + shift * (t * t)); [|lra].
      apply Rmult_le_reg_r with shift; auto. replace ((exp (- (shift * t)) - 1) / shift * shift) with (exp (- (shift * t)) - 1) by (field; lra). lra.
  Qed.
  Theorem C95_bounds : forall n flr h i k dates amounts o tau z shift first last,
    fixed_book h i k dates amounts o tau z -> monotone tau -> (forall a, In a amounts -> 0 <= a) -> 0 < shift ->
    (forall d, In d dates -> d_leb o d = true -> first <= tau o d <= last) ->
    exists pv pv' bpv, returns (get_present_value (S (S n)) flr (PrList i) k (Some o)) h pv /\
      returns (get_basis_point_value (S (S n)) flr (PrList i) k (Some o) None shift) h bpv /\
      pv' = pv + 10000 * shift * bpv /\ - (last * pv) / 10000 <= bpv <= - (first * pv') / 10000.
  Proof.
    intros n flr h i k dates amounts o tau z shift first last B MO NN PS FL.
    destruct (bpv_form n flr h i k dates amounts o tau z shift B ltac:(lra)) as [RP RB]. do 3 eexists. split; [exact RP|]. split; [exact RB|].
    split; [reflexivity|]. assert (IS : 0 < / shift) by now apply Rinv_0_lt_compat. split.
    - replace (- (last * flow_sum o tau z dates amounts (fun _ => 1)) / 10000) with (flow_sum o tau z dates amounts (fun _ => 1) * (- last / 10000)) by lra.
      rewrite <- (flow_sum_scale o tau z dates amounts (fun _ => 1)). apply flow_sum_le; auto. intros d Id LE.
      pose proof (exp_ineq1_le (- (shift * tau o d))). destruct (FL d Id LE) as [_ F2].
      assert (- last <= (exp (- (shift * tau o d)) - 1) / shift); [|lra].
      apply Rmult_le_reg_r with shift; auto. replace ((exp (- (shift * tau o d)) - 1) / shift * shift) with (exp (- (shift * tau o d)) - 1) by (field; lra).
      assert (shift * tau o d <= shift * last) by (apply Rmult_le_compat_l; lra). lra.
    - set (w := fun t => (exp (- (shift * t)) - 1) / shift * (1 / 10000)).
      replace (- (first * (flow_sum o tau z dates amounts (fun _ => 1) + 10000 * shift * flow_sum o tau z dates amounts w)) / 10000)
        with (flow_sum o tau z dates amounts (fun _ => 1) * (- first / 10000) + flow_sum o tau z dates amounts w * (- first * shift)) by lra.
      rewrite <- (flow_sum_scale o tau z dates amounts (fun _ => 1)), <- (flow_sum_scale o tau z dates amounts w), <- flow_sum_plus.
      apply flow_sum_le; auto. intros d Id LE. unfold w. set (t := tau o d). destruct (FL d Id LE) as [F1 _]. fold t in F1.
      pose proof (exp_pos (- (shift * t))) as EP.
      assert (Q : (exp (- (shift * t)) - 1) / shift <= - (t * exp (- (shift * t)))).
      { apply Rmult_le_reg_r with shift; auto. replace ((exp (- (shift * t)) - 1) / shift * shift) with (exp (- (shift * t)) - 1) by (field; lra).
        pose proof (exp_ineq1_le (shift * t)) as X. apply (Rmult_le_compat_l (exp (- (shift * t)))) in X; [|lra].
        rewrite <- exp_plus in X. replace (- (shift * t) + shift * t) with 0 in X by lra. rewrite exp_0 in X. lra. }
      assert (Q2 : first * exp (- (shift * t)) <= t * exp (- (shift * t))) by (apply Rmult_le_compat_r; lra).
      replace (1 * (- first / 10000) + (exp (- (shift * t)) - 1) / shift * (1 / 10000) * (- first * shift)) with (- (first * exp (- (shift * t))) / 10000) by (field; lra).
      lra.
  Qed.

  (** larger shifts give smaller basis point values in absolute terms *)
  Theorem C95_convex : forall n flr h i k dates amounts o tau z s1 s2,
    fixed_book h i k dates amounts o tau z -> monotone tau -> (forall a, In a amounts -> 0 <= a) -> 0 < s1 <= s2 ->
    exists b1 b2, returns (get_basis_point_value (S (S n)) flr (PrList i) k (Some o) None s1) h b1 /\
      returns (get_basis_point_value (S (S n)) flr (PrList i) k (Some o) None s2) h b2 /\ b1 <= b2.
  Proof.
    intros n flr h i k dates amounts o tau z s1 s2 B MO NN [P1 LE].
    destruct (bpv_form n flr h i k dates amounts o tau z s1 B ltac:(lra)) as [_ R1].
    destruct (bpv_form n flr h i k dates amounts o tau z s2 B ltac:(lra)) as [_ R2].
    eexists. eexists. split; [exact R1|]. split; [exact R2|]. apply flow_sum_le; auto. intros d Id LD. set (t := tau o d).
    assert ((exp (- (s1 * t)) - 1) / s1 <= (exp (- (s2 * t)) - 1) / s2); [|lra].
    assert (W : 0 <= s1 / s2 <= 1).
    { split; [apply Rlt_le, Rdiv_lt_0_compat; lra|]. apply Rmult_le_reg_r with s2; [lra|]. replace (s1 / s2 * s2) with s1 by (field; lra). lra. }
    pose proof (exp_below (s1 / s2) (- (s2 * t)) W) as X. replace (s1 / s2 * - (s2 * t)) with (- (s1 * t)) in X by (field; lra).
    apply Rmult_le_reg_r with s1; auto. replace ((exp (- (s1 * t)) - 1) / s1 * s1) with (exp (- (s1 * t)) - 1) by (field; lra).
    replace ((exp (- (s2 * t)) - 1) / s2 * s1) with (s1 / s2 * (exp (- (s2 * t)) - 1)) by (field; lra). exact X.
  Qed.

  (** the basis point value of a leg list is the sum of those of its legs, for all products and
      shifted curves *)
  Theorem C95_legs : forall fuel flr h legs dom lo k v delta shift disc bpv,
    plain_curves h (deltas k delta) -> shift <> 0 -> nth_error (h_curves h) k = Some disc ->
    (returns (get_basis_point_value fuel flr (PrLegs legs dom lo) k (Some v) delta shift) h bpv <->
     exists xs, Forall2 (fun i x => returns (get_basis_point_value fuel flr (PrList i) k (Some v) delta shift) h x) legs xs /\
       bpv = Rsum xs).
  Proof.
    intros fuel flr h legs dom lo k v delta shift disc bpv PC NZ Hk.
    destruct (bpv_uniform DS DC tm L k delta shift h PC NZ) as (h1 & SB & Q).
    assert (Hk1 : exists disc1, nth_error (h_curves h1) k = Some disc1).
    { destruct SB as (_ & _ & N & S). destruct (in_dec Nat.eq_dec k (deltas k delta)) as [I|NI].
      - destruct (S k disc I Hk) as (s & E & _). eauto.
      - rewrite (N k NI). eauto. }
    destruct Hk1 as [disc1 Hk1]. rewrite Q. split.
    - intros (p0 & p1 & R0 & R1 & ->). apply (C40_legs DS DC fuel flr h legs dom lo k disc v p0 Hk) in R0.
      apply (C40_legs DS DC fuel flr h1 legs dom lo k disc1 v p1 Hk1) in R1.
      destruct R0 as (xs & F0 & ->). destruct R1 as (ys & F1 & ->).
      exists (map (fun xy => (snd xy - fst xy) / shift * (1 / 10000)) (combine xs ys)). split.
      + revert ys F1. induction F0 as [|i x legs xs H0 F0 IH]; intros ys F1; inversion F1; subst; cbn [combine map]; constructor; auto.
        apply Q. exists x, y. auto.
      + clear -F0 F1 NZ. revert ys F1. induction F0 as [|i x legs xs H0 F0 IH]; intros ys F1; inversion F1; subst; cbn [combine map Rsum fst snd]; [field; auto|].
        rewrite <- (IH _ H4). field. auto.
    - intros (xs & F & ->). 
      assert (G : exists ys zs, Forall2 (fun i y => returns (get_present_value fuel flr (PrList i) k (Some v)) h y) legs ys /\
        Forall2 (fun i y => returns (get_present_value fuel flr (PrList i) k (Some v)) h1 y) legs zs /\ Rsum xs = (Rsum zs - Rsum ys) / shift * (1 / 10000)).
      { clear -F Q NZ. induction F as [|i x legs xs H0 F (ys & zs & F1 & F2 & E)].
        - exists [], []. split; [constructor|]. split; [constructor|]. cbn [Rsum]. field. auto.
        - apply Q in H0. destruct H0 as (p0 & p1 & R0 & R1 & ->). exists (p0 :: ys), (p1 :: zs). split; [constructor; auto|]. split; [constructor; auto|].
          cbn [Rsum]. rewrite E. field. auto. }
      destruct G as (ys & zs & F1 & F2 & E). exists (Rsum ys), (Rsum zs). split; [|split; [|exact E]].
      + apply (C40_legs DS DC fuel flr h legs dom lo k disc v _ Hk). eauto.
      + apply (C40_legs DS DC fuel flr h1 legs dom lo k disc1 v _ Hk1). eauto.
  Qed.
End Bpv.
Print Assumptions C95_sign.
Print Assumptions C95_duration.
Print Assumptions C95_bounds.
Print Assumptions C95_convex.
Print Assumptions C95_legs.

(** * Instances *)
#[local] Instance no_registry5 {D} : DayCounts R D := [].
Section Instance.
  Let tauR (a b : R) : R := b - a.
  Let tau0 : additive (dc_apply (DS:=FloatDates (T:=R)) DcDefault) tauR := float_additive.

  Lemma list_in_heap (hl : list (hlist R R (fperiod R))) i (dates amounts : list R) l fuel :
    fixed_new (DS:=FloatDates (T:=R)) dates (Many amounts) None = Ok l -> NoDup dates -> (forall d, In d dates -> 0 < d) ->
    nth_error hl i = Some (mkHL l HNone) ->
    product_flows fuel None (mkH [] [] hl) 0 (PrList i) (combine dates amounts).
  Proof.
    intros E ND PO Hi. rewrite <- (map_id dates) in ND.
    destruct (C37_fixed FloatDates no_registry5 (fun d => d) float_laws fuel None dates amounts None l E ND) as (LEN & HD & Q & _).
    exists l. split; [|split].
    - unfold fixed_new in E. cbn [spread_arg] in E. destruct (cf_new_inv _ _ _ _ _ _ E) as [_ ->].
      eexists. exists LNone. split; [exact Hi|]. split; reflexivity.
    - unfold due. rewrite HD, map_fst_combine by (symmetry; exact LEN). symmetry. clear -PO. induction dates as [|d ds IH]; [reflexivity|].
      cbn [filter]. change (d_leb 0 d) with (Rleb 0 d). unfold Rleb. destruct (Rle_dec 0 d) as [|N]; [|exfalso; apply N; left; apply PO; now left].
      f_equal. apply IH. intros x I. apply PO. now right.
    - intros d a I. apply In_nth_error in I. destruct I as [m Hm].
      destruct (nth_combine _ _ _ _ _ Hm) as [A B]. apply (Q m d a A B). apply (eqb_refl (L:=float_laws)).
  Qed.

  (** a two year bond with coupon 5 at the prices 95 and 100, one with coupon 6, ten times the
      bond, and a single payment: all the searches return, and the theorems say *)
  Example C94_instance : exists n y1 y2 y3 y4 y5 l0 l1 l2 l3,
    fixed_new (DS:=FloatDates (T:=R)) [1; 2] (Many [5; 105]) None = Ok l0 /\
    fixed_new (DS:=FloatDates (T:=R)) [1; 2] (Many [6; 105]) None = Ok l1 /\
    fixed_new (DS:=FloatDates (T:=R)) [1; 2] (Many [10 * 5; 10 * 105]) None = Ok l2 /\
    fixed_new (DS:=FloatDates (T:=R)) [2] (Many [105]) None = Ok l3 /\
    let h := mkH [] [] [mkHL l0 HNone; mkHL l1 HNone; mkHL l2 HNone; mkHL l3 HNone] in
    let eps := 1 / 10000000 in
    yield_of FloatDates no_registry5 DcDefault n None h (PrList 0) 0 95 eps y1 /\
    yield_of FloatDates no_registry5 DcDefault n None h (PrList 0) 0 100 eps y2 /\
    yield_of FloatDates no_registry5 DcDefault n None h (PrList 1) 0 100 eps y3 /\
    yield_of FloatDates no_registry5 DcDefault n None h (PrList 2) 0 (10 * 100) eps y4 /\
    yield_of FloatDates no_registry5 DcDefault n None h (PrList 3) 0 100 eps y5 /\
    y2 < y1 + (eps + eps) / 2 /\ ln (100 / 95) / 2 - (eps + eps) / 2 < y1 - y2 < ln (100 / 95) / 1 + (eps + eps) / 2 /\
    y2 < y3 + (eps + eps) / 2 /\ Rabs (y2 - y4) < (eps + eps) / 2 /\ Rabs (y5 - ln (105 / 100) / (2 - 0)) < eps / 2.
  Proof.
    assert (MK : forall dates amounts, length dates = length amounts ->
      exists l, fixed_new (DS:=FloatDates) (P:=fperiod R) dates (Many amounts) None = Ok l).
    { intros dates amounts LE. unfold fixed_new. cbn [spread_arg]. rewrite cf_new_ok by (now rewrite map_length). eauto. }
    destruct (MK [1; 2] [5; 105] eq_refl) as [l0 E0]. destruct (MK [1; 2] [6; 105] eq_refl) as [l1 E1].
    destruct (MK [1; 2] [10 * 5; 10 * 105] eq_refl) as [l2 E2]. destruct (MK [2] [105] eq_refl) as [l3 E3].
    set (h := mkH [] [] [mkHL l0 HNone; mkHL l1 HNone; mkHL l2 HNone; mkHL l3 HNone]).
    assert (N2 : NoDup [1; 2]) by (repeat constructor; simpl; intuition lra). assert (N1 : NoDup [2]) by (repeat constructor; intros []).
    assert (P2 : forall d, In d [1; 2] -> 0 < d) by (intros d [<-|[<-|[]]]; lra). assert (P1 : forall d, In d [2] -> 0 < d) by (intros d [<-|[]]; lra).
    assert (F0 : forall fuel, product_flows fuel None h 0 (PrList 0) [(1, 5); (2, 105)]) by (intro; exact (list_in_heap (h_lists h) 0%nat [1; 2] [5; 105] l0 fuel E0 N2 P2 eq_refl)).
    assert (F1 : forall fuel, product_flows fuel None h 0 (PrList 1) [(1, 6); (2, 105)]) by (intro; exact (list_in_heap (h_lists h) 1%nat [1; 2] [6; 105] l1 fuel E1 N2 P2 eq_refl)).
    assert (F2 : forall fuel, product_flows fuel None h 0 (PrList 2) [(1, 10 * 5); (2, 10 * 105)]) by (intro; exact (list_in_heap (h_lists h) 2%nat [1; 2] [10 * 5; 10 * 105] l2 fuel E2 N2 P2 eq_refl)).
    assert (F3 : forall fuel, product_flows fuel None h 0 (PrList 3) [(2, 105)]) by (intro; exact (list_in_heap (h_lists h) 3%nat [2] [105] l3 fuel E3 N1 P1 eq_refl)).
    assert (H2 : exp (- (1 * 2)) < 1/3).
    { rewrite exp_Ropp. pose proof (exp_ineq1 (1 * 2) ltac:(lra)). 
      pose proof (Rinv_lt_contravar 3 (exp (1 * 2)) ltac:(apply Rmult_lt_0_compat; [lra|apply exp_pos]) ltac:(lra)). lra. }
    assert (H1 : exp (- (1 * 1)) < 1). { pose proof (exp_increasing (- (1 * 1)) 0 ltac:(lra)) as X. rewrite exp_0 in X. exact X. }
    assert (Z : forall t, exp (- (0 * t)) = 1) by (intro t; rewrite Rmult_0_l, Ropp_0; apply exp_0).
    assert (SE : forall p fl t, (forall fuel, product_flows fuel None h 0 p fl) ->
      yield_value tauR 0 fl 1 <= t <= yield_value tauR 0 fl 0 ->
      exists n, forall m, (n <= m)%nat -> exists y, yield_of FloatDates no_registry5 DcDefault m None h p 0 t (1 / 10000000) y).
    { intros p fl t F B.
      destruct (C45_returns FloatDates no_registry5 (fun d => d) float_laws DcDefault tauR tau0 None h p 0 fl t (1 / 10000000) 0 1 None None 0%nat
        (fun fuel _ => F fuel) ltac:(lra) ltac:(right; exact B)) as [n HN].
      exists n. intros m LE. destruct (HN (S (S m)) ltac:(lia)) as [y Hy]. exists y. unfold yield_of. eauto 8. }
    assert (V2 : forall a b x, yield_value tauR 0 [(1, a); (2, b)] x = exp (- (x * 1)) * a + exp (- (x * 2)) * b).
    { intros a b x. unfold yield_value, tauR. cbn [map Rsum fst snd]. rewrite !Rminus_0_r. lra. }
    assert (V1 : forall b x, yield_value tauR 0 [(2, b)] x = exp (- (x * 2)) * b).
    { intros b x. unfold yield_value, tauR. cbn [map Rsum fst snd]. rewrite !Rminus_0_r. lra. }
    destruct (SE (PrList 0) _ 95 F0) as [n1 S1]; [rewrite !V2, !Z; lra|]. destruct (SE (PrList 0) _ 100 F0) as [n2 S2]; [rewrite !V2, !Z; lra|].
    destruct (SE (PrList 1) _ 100 F1) as [n3 S3]; [rewrite !V2, !Z; lra|]. destruct (SE (PrList 2) _ (10 * 100) F2) as [n4 S4]; [rewrite !V2, !Z; lra|].
    destruct (SE (PrList 3) _ 100 F3) as [n5 S5]; [rewrite !V1, !Z; lra|].
    set (n := (n1 + n2 + n3 + n4 + n5)%nat). destruct (S1 n ltac:(unfold n; lia)) as [y1 Y1]. destruct (S2 n ltac:(unfold n; lia)) as [y2 Y2].
    destruct (S3 n ltac:(unfold n; lia)) as [y3 Y3]. destruct (S4 n ltac:(unfold n; lia)) as [y4 Y4]. destruct (S5 n ltac:(unfold n; lia)) as [y5 Y5].
    assert (PL : pays_later tauR 0 [(1, 5); (2, 105)]).
    { split; [intros d x [[= <- <-]|[[= <- <-]|[]]]; unfold tauR; lra|]. exists 2, 105. split; [right; now left|]. unfold tauR. lra. }
    exists n, y1, y2, y3, y4, y5, l0, l1, l2, l3. cbv zeta. do 9 (split; [assumption|]).
    split; [|split; [|split; [|split]]].
    - exact (C94_price_up _ _ _ float_laws _ _ tau0 _ _ _ _ _ _ _ _ _ _ _ _ _ (F0 (S (S n))) (F0 (S (S n))) PL Y1 Y2 ltac:(lra)).
    - apply (C94_duration _ _ _ float_laws _ _ tau0 _ _ _ _ _ _ _ _ _ _ _ _ _ 1 2 (F0 (S (S n))) (F0 (S (S n)))); auto; try lra.
      intros d x [[= <- <-]|[[= <- <-]|[]]]; unfold tauR; lra.
    - refine (C94_more _ _ _ float_laws _ _ tau0 _ _ _ _ _ _ _ _ _ _ _ _ _ _ (F0 (S (S n))) (F1 (S (S n))) PL _ Y2 Y3). repeat constructor; cbn; lra.
    - exact (C94_scaled _ _ _ float_laws _ _ tau0 _ _ _ _ _ _ _ _ 10 _ _ _ _ _ (F0 (S (S n))) (F2 (S (S n))) PL ltac:(lra) Y2 Y4).
    - refine (C94_single _ _ _ float_laws _ _ tau0 _ _ _ _ _ _ _ _ _ _ (F3 (S (S n))) _ _ _ Y5); unfold tauR; lra.
  Qed.

  (** 100 in a year and 50 in two years, zero rates between one and three percent *)
  Example C95_instance : exists (c : rcurve R R (fperiod R)) l z,
    rc_new CZeroRate [0; 2] [1/100; 3/100] None None DcDefault None = Ok c /\ fixed_new [1; 2] (Many [100; 50]) None = Ok l /\
    let h := mkH [c] [] [mkHL l HNone] in
    fixed_book FloatDates (fun x => x) no_registry5 h 0 0 [1; 2] [100; 50] 0 tauR z /\ monotone (DS:=FloatDates) tauR /\
    (forall a, In a [100; 50] -> 0 <= a) /\ (forall d, In d [1; 2] -> 1 <= tauR 0 d <= 2) /\ plain_curves h (deltas 0 None).
  Proof.
    assert (N : NoDup [1; 2]) by (repeat constructor; simpl; intuition lra).
    destruct (bucket_setup [1; 2] [100; 50] [1; 2; 3] eq_refl N) as (c & l & z & E1 & E2 & S); [repeat constructor; lra|discriminate|].
    exists c, l, z. split; auto. split; auto. cbv zeta. destruct S as [S1 S2 S3 S4 _ _ S7]. split; [|split; [|split; [|split]]].
    - split; [eauto|]. split; auto.
    - intros a b. change (0 < b - a <-> Rltb a b = true). rewrite Rltb_true. split; lra.
    - intros a [<-|[<-|[]]]; lra.
    - intros d [<-|[<-|[]]]; unfold tauR; lra.
    - split; [repeat constructor; intros []|]. intros k [<-|[]]. exists c, 0. split; [reflexivity|]. destruct S2 as (_ & A & B & _). auto.
  Qed.
End Instance.
