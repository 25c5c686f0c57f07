(** Property C92: bucketed deltas and the basis point value (pricer.py:433-578, whose
    documentation says that the bucketed deltas sum up to the flat bpv). *)
From Coq Require Import Reals Lra Lia List Bool ZArith.
From Verif Require Import Num Py Spec SInterpolation SCurve SDates SRateCurve SPricer LBase MInterpolation MDates MCurve MRateCurve
  MOption MCashflow MBracket MPricer LSort LDates LInterpolation LCurve LCurve2 LDateCurve LRateCurve LRateCurve3 LCashflow LTable LPricer LPricer2
  LPricer3 LCast PPricer PPricer2 PPricer3.
Import ListNotations.
Open Scope R_scope.

(** * Sums *)
Lemma Rsum_swap {A B} (f : A -> B -> R) (l : list A) (m : list B) :
  Rsum (map (fun a => Rsum (map (f a) m)) l) = Rsum (map (fun b => Rsum (map (fun a => f a b) l)) m).
Proof.
  induction l as [|a l IH]; cbn [map Rsum].
  - symmetry. now apply Rsum_zero.
  - rewrite IH. symmetry. apply (Rsum_plus (f a) (fun b => Rsum (map (fun a => f a b) l))).
Qed.
Lemma Rsum_le {A} (f g : A -> R) l : (forall x, In x l -> f x <= g x) -> Rsum (map f l) <= Rsum (map g l).
Proof.
  induction l as [|a l IH]; intros H; cbn [map Rsum]; [lra|].
  assert (f a <= g a) by (apply H; now left). assert (Rsum (map f l) <= Rsum (map g l)) by (apply IH; intros; apply H; now right). lra.
Qed.
Lemma Rsum_factor {A} (f : A -> R) k l : Rsum (map (fun x => f x * k) l) = Rsum (map f l) * k.
Proof. induction l as [|a l IH]; cbn [map Rsum]; [lra|]. rewrite IH. lra. Qed.
Lemma Rsum_diff {A} (f g : A -> R) l : Rsum (map f l) - Rsum (map g l) = Rsum (map (fun x => f x - g x) l).
Proof. induction l as [|a l IH]; cbn [map Rsum]; [lra|]. rewrite <- IH. lra. Qed.

(** * The exponential is convex *)
Lemma exp_below w x : 0 <= w <= 1 -> exp (w * x) - 1 <= w * (exp x - 1).
Proof.
  intros [W0 W1].
  assert (T : forall a b, exp a + exp a * (b - a) <= exp b).
  { intros a b. replace (exp b) with (exp a * exp (b - a)) by (rewrite <- exp_plus; f_equal; lra).
    pose proof (exp_pos a). pose proof (exp_ineq1_le (b - a)).
    assert (exp a * (1 + (b - a)) <= exp a * exp (b - a)) by (apply Rmult_le_compat_l; lra). lra. }
  pose proof (T (w * x) x) as H1. pose proof (T (w * x) 0) as H0. rewrite exp_0 in H0.
  assert (w * (exp (w * x) + exp (w * x) * (x - w * x)) <= w * exp x) by (apply Rmult_le_compat_l; lra).
  assert ((1 - w) * (exp (w * x) + exp (w * x) * (0 - w * x)) <= (1 - w) * 1) by (apply Rmult_le_compat_l; lra). lra.
Qed.
Lemma exp_neg_above x : 0 <= x -> exp (- x) <= 1 - x + x * x.
Proof.
  intro H. rewrite exp_Ropp. pose proof (exp_ineq1_le x). pose proof (exp_pos x).
  apply Rle_trans with (/ (1 + x)); [apply Rinv_le_contravar; lra|].
  assert (/ (1 + x) * (1 + x) = 1) by (field; lra). assert (0 < / (1 + x)) by (apply Rinv_0_lt_compat; lra).
  apply Rmult_le_reg_r with (1 + x); [lra|]. rewrite H2. assert (0 <= x * x * x) by (repeat apply Rmult_le_pos; auto). lra.
Qed.

Section Buckets.
  Context {D P : Type} (DS : DateSys R D P) (tm : D -> R) (DC : DayCounts R D) (L : DateLaws DS tm).
  Implicit Types (h : heap R D P) (c : rcurve R D P).

  (** a zero rate curve without spread: origin o, year fraction tau, zero rate [z d] at d *)
  Definition zero_curve c (o : D) (tau : D -> D -> R) (z : D -> R) : Prop :=
    rc_cls c = CZeroRate /\ rc_spread c = None /\ rc_origin c = Some o /\ additive (rc_yf c) tau /\
    date_values c /\ forall d, rc_call c d = Ok (z d).

  (** today's value of the flow a at d; flows before the origin are worth nothing *)
  Definition today (o : D) (tau : D -> D -> R) (z : D -> R) (da : D * R) : R :=
    if d_leb o (fst da) then snd da * exp (- (z (fst da) * tau o (fst da))) else 0.

  (** list i holds the given amounts at the given distinct dates, the curve k is a zero rate
      curve, the shift is not zero, the grid increases *)
  Record setup h (i k : nat) (dates : list D) (amounts : list R) c o tau z (grid : list D) (shift : R) : Prop := {
    su_curve : nth_error (h_curves h) k = Some c;
    su_zero : zero_curve c o tau z;
    su_list : exists l origin, nth_error (h_lists h) i = Some (mkHL l HNone) /\ fixed_new dates (Many amounts) origin = Ok l;
    su_dates : NoDup (map tm dates);
    su_grid : increasing (map tm grid);
    su_some : grid <> [];
    su_shift : shift <> 0 }.

  Lemma hat_weight (ts : list R) n x j t y : piecewise_linear (combine ts (spike x n j)) t y ->
    exists w, 0 <= w <= 1 /\ y = w * x.
  Proof.
    assert (V : forall a v, In (a, v) (combine ts (spike x n j)) -> v = 0 \/ v = x).
    { intros a v I. apply in_combine_r in I. unfold spike in I. apply in_map_iff in I. destruct I as (m & <- & _).
      destruct (Nat.eqb m j); auto. }
    assert (W : forall v, v = 0 \/ v = x -> exists w, 0 <= w <= 1 /\ v = w * x).
    { intros v [->| ->]; [exists 0|exists 1]; split; lra. }
    intros [(a & ya & b & yb & (Ia & Ib & LT & _) & Hx & ->)|[(a & Ia & _)|(b & Ib & _)]].
    - destruct (W ya (V _ _ Ia)) as (wa & Wa & ->). destruct (W yb (V _ _ Ib)) as (wb & Wb & ->).
      set (q := (t - a) / (b - a)). assert (Q : 0 <= q <= 1).
      { assert (q * (b - a) = t - a) by (unfold q; field; lra). split; apply Rmult_le_reg_r with (b - a); lra. }
      exists (wa + (wb - wa) * q). split; [|unfold chord; fold q; lra].
      assert (0 <= wa * (1 - q)) by (apply Rmult_le_pos; lra). assert (0 <= wb * q) by (apply Rmult_le_pos; lra).
      assert (wa * (1 - q) <= 1 * (1 - q)) by (apply Rmult_le_compat_r; lra). assert (wb * q <= 1 * q) by (apply Rmult_le_compat_r; lra).
      split; lra.
    - exact (W y (V _ _ Ia)).
    - exact (W y (V _ _ Ib)).
  Qed.

  (** both risk figures as sums over flows and buckets *)
  Lemma risk_figures n flr h i k dates amounts c o tau z grid shift :
    setup h i k dates amounts c o tau z grid shift ->
    exists bs : list (D -> R), length bs = length grid /\
      (forall d, Rsum (map (fun b => b d) bs) = shift) /\
      (forall d b, In b bs -> exists w, 0 <= w <= 1 /\ b d = w * shift) /\
      (forall d, In (tm d) (map tm grid) -> exists i, forall j b, nth_error bs j = Some b -> b d = if Nat.eqb i j then shift else 0) /\
      (forall j d b, nth_error bs j = Some b -> piecewise_linear (combine (map tm grid) (spike shift (length grid) j)) (tm d) (b d)) /\
      returns (get_basis_point_value (S (S n)) flr (PrList i) k (Some o) None shift) h
        (Rsum (map (fun p => today o tau z p * (exp (- (shift * tau o (fst p))) - 1)) (combine dates amounts)) / shift * (1 / 10000)) /\
      returns (get_bucketed_delta (S (S n)) flr (PrList i) k (Some o) None (Some grid) shift) h
        (map (fun b => Rsum (map (fun p => today o tau z p * (exp (- (b (fst p) * tau o (fst p))) - 1)) (combine dates amounts)) / shift * (1 / 10000)) bs).
  Proof.
    intros [Hk (K & SP & HO & A & DV & V) (l & og & Hi & HN) ND INC NE NZ].
    assert (PC : plain_curves h (deltas k None)).
    { split; [repeat constructor; intros []|]. intros j [<-|[]]. eauto. }
    destruct (C48_value DS DC tm L (S (S n)) flr (PrList i) k (Some o) None shift h PC NZ) as (h1 & SB1 & BPV).
    destruct (C49_buckets DS DC tm L (S (S n)) flr (PrList i) k (Some o) None grid shift h PC NZ NE INC) as (bs & hs & LB & NB & PB & SB & FB & DEL); [eauto|].
    assert (LS : forall j, length (map tm grid) = length (spike shift (length grid) j)) by (intro; unfold spike; now rewrite !map_length, seq_length).
    assert (DT : forall j, distinct (combine (map tm grid) (spike shift (length grid) j))).
    { intro j. unfold distinct. rewrite map_fst_combine by apply LS. now apply incr_nodup. }
    assert (DB : forall a b f, tm a = tm b -> In f bs -> f a = f b).
    { intros a b f E I. apply In_nth_error in I. destruct I as [j Hj].
      apply (pl_fun _ (tm b) _ _ (DT j)); [rewrite <- E|]; now apply PB. }
    assert (T0 : tau o o = 0) by (apply (tau_eq A), eqb_refl).
    assert (PV0 : returns (get_present_value (S (S n)) flr (PrList i) k (Some o)) h (Rsum (map (today o tau z) (combine dates amounts)))).
    { pose proof (C40_pairs DS DC tm L (S (S n)) flr h i k c o l dates amounts og (fun d => exp (- (z d * tau o d))) Hk Hi (or_introl HN) ND) as H.
      unfold pairs_value in H. erewrite map_ext; [apply H|].
      - intros d _ _. unfold get_discount_factor, interest_only. rewrite K. cbn [is_interest].
        rewrite (flat_factor (L:=L) c o tau HO A n o d (z o) (z d)); [do 3 f_equal; rewrite T0; lra|rewrite K; now left|exact DV|apply V|apply V].
      - intros p. unfold today. destruct (d_leb o (fst p)); lra. }
    assert (PV1 : forall b h', shifted_by h [k] b h' -> (forall a e, d_eqb a e = true -> b a = b e) ->
      returns (get_present_value (S (S n)) flr (PrList i) k (Some o)) h'
        (Rsum (map (fun p => today o tau z p * exp (- (b (fst p) * tau o (fst p)))) (combine dates amounts)))).
    { intros b h' (HM & HL & HO' & HC) HB. destruct (HC k c (or_introl eq_refl) Hk) as (s & Es & _ & Vs).
      set (c' := mkR (rc_cls c) (rc_dc c) (rc_tenor0 c) (Some s)) in *.
      assert (V' : forall d, rc_call c' d = Ok (z d + b d)) by (intro d; apply Vs, V).
      pose proof (C40_pairs DS DC tm L (S (S n)) flr h' i k c' o l dates amounts og (fun d => exp (- ((z d + b d) * tau o d))) Es
        ltac:(rewrite HL; exact Hi) (or_introl HN) ND) as H.
      unfold pairs_value in H. erewrite map_ext; [apply H|].
      - intros d _ _. unfold get_discount_factor, interest_only. cbn [c' rc_cls]. rewrite K. cbn [is_interest].
        rewrite (flat_factor (L:=L) c' o tau HO A n o d (z o + b o) (z d + b d)); [do 3 f_equal; rewrite T0; lra|cbn [c' rc_cls]; rewrite K; now left| |apply V'|apply V'].
        intros x y E. rewrite !V'. do 2 f_equal; [|now apply HB]. specialize (DV x y E). rewrite !V in DV. now injection DV.
      - intros p. unfold today. destruct (d_leb o (fst p)); [|lra]. rewrite (Rmult_comm _ (snd p)), Rmult_assoc, <- exp_plus. do 2 f_equal. lra. }
    exists bs. split; [exact LB|]. split; [exact SB|]. split; [|split; [|split; [|split]]].
    - intros d b I. apply In_nth_error in I. destruct I as [j Hj]. exact (hat_weight _ _ _ _ _ _ (PB j d b Hj)).
    - intros d Id. apply in_map_iff in Id. destruct Id as (g & Eg & Ig). apply In_nth_error in Ig. destruct Ig as [m Hm].
      exists m. intros j b Hj. rewrite <- (NB m j g b Hm Hj). apply DB; [auto|]. eapply nth_error_In; eauto.
    - exact PB.
    - apply BPV. eexists. eexists. split; [exact PV0|]. split; [apply (PV1 _ _ SB1); auto|]. f_equal. f_equal.
      rewrite Rsum_diff. apply Rsum_ext. intros p _. lra.
    - apply DEL. exists (Rsum (map (today o tau z) (combine dates amounts))).
      exists (map (fun b => Rsum (map (fun p => today o tau z p * exp (- (b (fst p) * tau o (fst p)))) (combine dates amounts))) bs).
      split; [exact PV0|]. split.
      + assert (G : forall b, In b bs -> forall a e, d_eqb a e = true -> b a = b e) by (intros b I a e E; apply DB; [now apply eqb_inv|exact I]).
        clear -FB PV1 G. change (deltas k None) with [k] in FB. revert G. induction FB as [|b h' bs hs S F IH]; intros G; cbn [map]; constructor.
        * apply PV1; auto. apply G. now left.
        * apply IH. intros b' I. apply G. now right.
      + rewrite map_map. apply map_ext. intros b. f_equal. f_equal. rewrite Rsum_diff. apply Rsum_ext. intros p _. lra.
  Qed.

  (** the difference of the basis point value and the sum of the bucketed deltas *)
  Lemma risk_difference (bs : list (D -> R)) (ps : list (D * R)) o tau z shift : shift <> 0 ->
    Rsum (map (fun p => today o tau z p * (exp (- (shift * tau o (fst p))) - 1)) ps) / shift * (1 / 10000) -
    Rsum (map (fun b => Rsum (map (fun p => today o tau z p * (exp (- (b (fst p) * tau o (fst p))) - 1)) ps) / shift * (1 / 10000)) bs) =
    Rsum (map (fun p => today o tau z p * ((exp (- (shift * tau o (fst p))) - 1) -
      Rsum (map (fun b : D -> R => exp (- (b (fst p) * tau o (fst p))) - 1) bs))) ps) / shift * (1 / 10000).
  Proof.
    intro NZ.
    rewrite (map_ext (fun b => Rsum (map (fun p => today o tau z p * (exp (- (b (fst p) * tau o (fst p))) - 1)) ps) / shift * (1 / 10000))
      (fun b => Rsum (map (fun p => today o tau z p * (exp (- (b (fst p) * tau o (fst p))) - 1)) ps) * (/ shift * (1 / 10000)))) by (intro; field; auto).
    rewrite Rsum_factor, Rsum_swap.
    rewrite (map_ext (fun p => today o tau z p * (exp (- (shift * tau o (fst p))) - 1 - Rsum (map (fun b : D -> R => exp (- (b (fst p) * tau o (fst p))) - 1) bs)))
      (fun p => today o tau z p * (exp (- (shift * tau o (fst p))) - 1) -
        Rsum (map (fun b : D -> R => today o tau z p * (exp (- (b (fst p) * tau o (fst p))) - 1)) bs))).
    - rewrite <- (Rsum_diff (fun p => today o tau z p * (exp (- (shift * tau o (fst p))) - 1))). field. auto.
    - intros p. rewrite Rmult_minus_distr_l. f_equal.
      rewrite (map_ext (fun b : D -> R => today o tau z p * (exp (- (b (fst p) * tau o (fst p))) - 1)) (fun b => (exp (- (b (fst p) * tau o (fst p))) - 1) * today o tau z p)) by (intro; lra).
      rewrite Rsum_factor. lra.
  Qed.

  (** the sum over one bucket only *)
  Lemma Rsum_one {A} (f : A -> R) i : forall l (m : nat), (forall j b, nth_error l j = Some b -> (m + j)%nat <> i -> f b = 0) ->
    (m <= i)%nat -> (i < m + length l)%nat -> forall v, (forall b, nth_error l (i - m) = Some b -> f b = v) -> Rsum (map f l) = v.
  Proof.
    induction l as [|a l IH]; intros m Z LE LT v V; cbn [length] in LT; [lia|]. cbn [map Rsum].
    destruct (Nat.eq_dec m i) as [->|NE].
    - rewrite (V a) by (rewrite Nat.sub_diag; reflexivity). rewrite Rsum_zero; [lra|]. intros x I.
      apply In_nth_error in I. destruct I as [j Hj]. apply (Z (S j) x Hj). lia.
    - rewrite (Z 0%nat a eq_refl) by lia. rewrite (IH (S m)) with (v := v); try lia; [lra| |].
      + intros j b Hj NQ. apply (Z (S j) b Hj). lia.
      + intros b Hb. apply V. replace (i - m)%nat with (S (i - S m)) by lia. exact Hb.
  Qed.

  (** * C92: all payments on grid dates: the deltas add up to the basis point value *)
  Theorem C92_on_grid : forall n flr h i k dates amounts c o tau z grid shift,
    setup h i k dates amounts c o tau z grid shift ->
    (forall d, In d dates -> d_leb o d = true -> In (tm d) (map tm grid)) ->
    exists bpv xs, returns (get_basis_point_value (S (S n)) flr (PrList i) k (Some o) None shift) h bpv /\
      returns (get_bucketed_delta (S (S n)) flr (PrList i) k (Some o) None (Some grid) shift) h xs /\
      length xs = length grid /\ Rsum xs = bpv.
  Proof.
    intros n flr h i k dates amounts c o tau z grid shift S G.
    destruct (risk_figures n flr h i k dates amounts c o tau z grid shift S) as (bs & LB & SB & WB & NB & _ & R1 & R2).
    eexists. eexists. split; [exact R1|]. split; [exact R2|]. split; [now rewrite map_length|].
    apply Rminus_diag_uniq_sym. rewrite risk_difference by apply (su_shift _ _ _ _ _ _ _ _ _ _ _ S).
    rewrite Rsum_zero; [lra|]. intros [d a] I. cbn [fst]. unfold today. cbn [fst snd]. destruct (d_leb o d) eqn:E; [|lra].
    destruct (NB d (G d (in_combine_l _ _ _ _ I) E)) as [m Hm].
    assert (LT : (m < length bs)%nat).
    { destruct (Nat.lt_ge_cases m (length bs)) as [|GE]; auto. exfalso. apply (su_shift _ _ _ _ _ _ _ _ _ _ _ S).
      rewrite <- (SB d). apply Rsum_zero. intros b Ib. apply In_nth_error in Ib. destruct Ib as [j Hj].
      rewrite (Hm j b Hj). assert (j < length bs)%nat by (apply nth_error_Some; congruence).
      destruct (Nat.eqb_spec m j); [lia|reflexivity]. }
    rewrite (Rsum_one _ m bs 0) with (v := exp (- (shift * tau o d)) - 1); try lia; [lra| |].
    - intros j b Hj NE. rewrite (Hm j b Hj). destruct (Nat.eqb_spec m j); [lia|].
      replace (- (0 * tau o d)) with 0 by lra. rewrite exp_0. lra.
    - intros b Hb. rewrite Nat.sub_0_r in Hb. rewrite (Hm m b Hb), Nat.eqb_refl. reflexivity.
  Qed.

  (** in general, for payments which are not negative: they add up to at most the basis point
      value, and fall short of it by no more than a second order term *)
  Theorem C92_any_grid : forall n flr h i k dates amounts c o tau z grid shift,
    setup h i k dates amounts c o tau z grid shift -> 0 < shift -> monotone tau ->
    (forall a, In a amounts -> 0 <= a) ->
    exists bpv xs, returns (get_basis_point_value (S (S n)) flr (PrList i) k (Some o) None shift) h bpv /\
      returns (get_bucketed_delta (S (S n)) flr (PrList i) k (Some o) None (Some grid) shift) h xs /\
      length xs = length grid /\
      0 <= bpv - Rsum xs <= shift / 10000 * Rsum (map (fun p => today o tau z p * (tau o (fst p) * tau o (fst p))) (combine dates amounts)).
  Proof.
    intros n flr h i k dates amounts c o tau z grid shift S PS MO NN.
    destruct (risk_figures n flr h i k dates amounts c o tau z grid shift S) as (bs & LB & SB & WB & NB & _ & R1 & R2).
    eexists. eexists. split; [exact R1|]. split; [exact R2|]. split; [now rewrite map_length|].
    rewrite risk_difference by lra.
    set (g := fun p : D * R => exp (- (shift * tau o (fst p))) - 1 - Rsum (map (fun b : D -> R => exp (- (b (fst p) * tau o (fst p))) - 1) bs)).
    assert (TP : forall p, In p (combine dates amounts) -> 0 <= today o tau z p /\ (d_leb o (fst p) = false -> today o tau z p = 0)).
    { intros [d a] I. unfold today. cbn [fst snd]. destruct (d_leb o d); [|split; [lra|auto]]. split; [|discriminate].
      apply Rmult_le_pos; [apply NN; eapply in_combine_r; eauto|left; apply exp_pos]. }
    assert (G : forall p, d_leb o (fst p) = true -> 0 <= g p <= shift * shift * (tau o (fst p) * tau o (fst p))).
    { intros [d a] LE. unfold g. cbn [fst] in *. set (t := tau o d). assert (T : 0 <= t).
      { apply leb_inv in LE. destruct (Req_dec (tm o) (tm d)) as [EQ|NQ].
        - right. symmetry. destruct S as [_ (_ & _ & _ & A & _) _ _ _ _ _]. apply (tau_eq A). now apply eqb_t.
        - left. apply MO. apply ltb_t. lra. }
      assert (WS : exists ws, Forall2 (fun (b : D -> R) w => b d = w * shift /\ 0 <= w <= 1) bs ws /\ Rsum ws = 1).
      { assert (exists ws, Forall2 (fun (b : D -> R) w => b d = w * shift /\ 0 <= w <= 1) bs ws) as [ws F].
        { clear -WB. induction bs as [|b bs IH]; [exists []; constructor|].
          destruct IH as [ws F]; [intros; apply WB; now right|]. destruct (WB d b (or_introl eq_refl)) as (w & W & E).
          exists (w :: ws). constructor; auto. }
        exists ws. split; auto. specialize (SB d). assert (E : Rsum (map (fun b => b d) bs) = Rsum ws * shift).
        { clear -F. induction F as [|b w bs ws [E _] F IH]; cbn [map Rsum]; [lra|]. rewrite E, IH. lra. }
        rewrite SB in E. apply Rmult_eq_reg_r with shift; lra. }
      destruct WS as (ws & F & S1).
      assert (B : Rsum (map (fun b : D -> R => exp (- (b d * t)) - 1) bs) <= Rsum ws * (exp (- (shift * t)) - 1) /\
                  Rsum ws * (- (shift * t)) <= Rsum (map (fun b : D -> R => exp (- (b d * t)) - 1) bs)).
      { clear -F. induction F as [|b w bs ws [E W] F [I1 I2]]; cbn [map Rsum]; [lra|]. rewrite E.
        replace (- (w * shift * t)) with (w * - (shift * t)) by lra.
        pose proof (exp_below w (- (shift * t)) W). pose proof (exp_ineq1_le (w * - (shift * t))). split; lra. }
      rewrite S1 in B. assert (X : 0 <= shift * t) by (apply Rmult_le_pos; lra). pose proof (exp_neg_above (shift * t) X). split; lra. }
    assert (Q : forall p, In p (combine dates amounts) -> 0 <= today o tau z p * g p <=
        today o tau z p * (tau o (fst p) * tau o (fst p)) * (shift * shift)).
    { intros p I. destruct (TP p I) as [T1 T2]. destruct (d_leb o (fst p)) eqn:E; [|rewrite T2 by auto; lra].
      destruct (G p E) as [G1 G2]. split; [now apply Rmult_le_pos|].
      apply Rle_trans with (today o tau z p * (shift * shift * (tau o (fst p) * tau o (fst p)))); [now apply Rmult_le_compat_l|lra]. }
    assert (K : 0 < / shift * (1 / 10000)) by (apply Rmult_lt_0_compat; [now apply Rinv_0_lt_compat|lra]).
    change (fun p : D * R => today o tau z p * (exp (- (shift * tau o (fst p))) - 1 - _)) with (fun p => today o tau z p * g p).
    set (X := Rsum (map (fun p => today o tau z p * g p) (combine dates amounts))).
    replace (X / shift * (1 / 10000)) with (X * (/ shift * (1 / 10000))) by (field; lra). split.
    - apply Rmult_le_pos; [|lra]. apply Rle_trans with (Rsum (map (fun _ => 0) (combine dates amounts))).
      + rewrite Rsum_zero; auto. lra.
      + apply Rsum_le. intros p I. now apply Q.
    - apply Rle_trans with (Rsum (map (fun p => today o tau z p * (tau o (fst p) * tau o (fst p)) * (shift * shift)) (combine dates amounts)) * (/ shift * (1 / 10000))).
      + apply Rmult_le_compat_r; [lra|]. apply Rsum_le. intros p I. now apply Q.
      + rewrite Rsum_factor. right. field. lra.
  Qed.
End Buckets.
Print Assumptions C92_on_grid.
Print Assumptions C92_any_grid.

Lemma Rlt_of_diff x y : 0 < y - x -> x < y.
Proof. lra. Qed.
(** * A curve with linear zero rates, 100 in the middle of the first period *)
#[local] Instance no_registry4 {D} : DayCounts R D := [].
Section Instance.
  Let fdates : DateSys R R (fperiod R) := FloatDates.
  Let tauR (a b : R) : R := b - a.

  Lemma bucket_setup (dates amounts grid : list R) : length dates = length amounts -> NoDup dates -> increasing grid -> grid <> [] ->
    exists (c : rcurve R R (fperiod R)) l z,
      rc_new CZeroRate [0; 2] [1/100; 3/100] None None DcDefault None = Ok c /\ fixed_new dates (Many amounts) None = Ok l /\
      setup FloatDates (fun x => x) no_registry4 (mkH [c] [] [mkHL l HNone]) 0 0 dates amounts c 0 tauR z grid (1/10000).
  Proof.
    intros HL ND INC NE. pose proof (default_additive (L:=float_laws) (DC:=no_registry4)) as A.
    destruct (rc_new_linear (L:=float_laws) DcDefault _ A CZeroRate [0; 2] [1/100; 3/100] None 0 None) as [c [E [B [V V']]]]; auto.
    { reflexivity. } { repeat constructor; simpl; intuition lra. } { discriminate. }
    destruct B as [B1 [B2 [B3 [B4 [B5 [B6 [B7 [B8 [B9 B10]]]]]]]]].
    assert (exists l, fixed_new (DS:=FloatDates) (P:=fperiod R) dates (Many amounts) None = Ok l) as [l E1].
    { unfold fixed_new. cbn [spread_arg]. rewrite cf_new_ok by (now rewrite map_length). eauto. }
    assert (exists z, forall d, rc_call c d = Ok (z d)) as [z Hz].
    { exists (fun d => value_of (rc_call c d)). intro d. apply value_of_ok. destruct (V' d) as [y [Ey _]]. exists y. exact Ey. }
    exists c, l, z. split; [exact E|]. split; [exact E1|]. constructor; auto.
    - unfold zero_curve. do 4 (split; [assumption|]). split; [|exact Hz]. intros a b Q. apply (law_eqb (DateLaws:=float_laws)) in Q. now rewrite Q.
    - exists l, None. auto.
    - now rewrite map_id.
    - now rewrite map_id.
    - lra.
  Qed.

  (** 100 in a year and 50 in two years, grid 1, 2, 3: the deltas add up; grid 0, 3: almost *)
  Example C92_instance : exists (c : rcurve R R (fperiod R)) l z,
    rc_new CZeroRate [0; 2] [1/100; 3/100] None None DcDefault None = Ok c /\ fixed_new [1; 2] (Many [100; 50]) None = Ok l /\
    let h := mkH [c] [] [mkHL l HNone] in
    setup FloatDates (fun x => x) no_registry4 h 0 0 [1; 2] [100; 50] c 0 tauR z [1; 2; 3] (1/10000) /\
    setup FloatDates (fun x => x) no_registry4 h 0 0 [1; 2] [100; 50] c 0 tauR z [0; 3] (1/10000) /\
    (forall d, In d [1; 2] -> In d [1; 2; 3]) /\ monotone (DS:=FloatDates) tauR /\ (forall a, In a [100; 50] -> 0 <= a).
  Proof.
    assert (N : NoDup [1; 2]) by (repeat constructor; simpl; intuition lra).
    destruct (bucket_setup [1; 2] [100; 50] [1; 2; 3] eq_refl N) as (c & l & z & E1 & E2 & S); [repeat constructor; lra|discriminate|].
    exists c, l, z. split; auto. split; auto. split; auto. split; [|split; [|split]].
    - destruct S as [S1 S2 S3 S4 _ _ S7]. constructor; auto; [|discriminate]. repeat constructor; lra.
    - intros d [<-|[<-|[]]]; simpl; auto.
    - intros a b. change (0 < b - a <-> Rltb a b = true). rewrite Rltb_true. split; lra.
    - intros a [<-|[<-|[]]]; lra.
  Qed.

  (** REFUTED in general: on the default grid, the dates 0 and 2 of the curve, a payment after
      one year has bucketed deltas which add up to less than the basis point value *)
  Theorem C92_sum_refuted : exists (c : rcurve R R (fperiod R)) l bpv xs,
    rc_new CZeroRate [0; 2] [1/100; 3/100] None None DcDefault None = Ok c /\ fixed_new [1] (Many [100]) None = Ok l /\
    let h := mkH [c] [] [mkHL l HNone] in
    returns (get_basis_point_value 2 None (PrList 0) 0 (Some 0) None (1/10000)) h bpv /\
    returns (get_bucketed_delta 2 None (PrList 0) 0 (Some 0) None None (1/10000)) h xs /\ Rsum xs < bpv.
  Proof.
    assert (N : NoDup [1]) by (repeat constructor; simpl; intuition lra).
    destruct (bucket_setup [1] [100] [0; 2] eq_refl N) as (c & l & z & E1 & E2 & S); [repeat constructor; lra|discriminate|].
    destruct (risk_figures _ _ _ float_laws 0 None _ _ _ _ _ _ _ _ _ _ _ S) as (bs & LB & SB & WB & _ & PB & R1 & R2).
    exists c, l. eexists. eexists. split; [exact E1|]. split; [exact E2|]. split; [exact R1|]. split.
    - unfold returns. rewrite (C49_default_grid FloatDates no_registry4 2 None (PrList 0) 0 (Some 0) None (1/10000) _ c).
      + assert (RD : rc_domain c = [0; 2]).
        { pose proof (default_additive (L:=float_laws) (DC:=no_registry4)) as A.
          destruct (rc_new_linear (L:=float_laws) DcDefault _ A CZeroRate [0; 2] [1/100; 3/100] None 0 None) as [c' [E' [B _]]]; auto.
          { reflexivity. } { repeat constructor; simpl; intuition lra. } { discriminate. }
          assert (c' = c) by congruence. subst c'. apply B. }
        rewrite RD. exact R2.
      + reflexivity.
      + destruct S as [_ (_ & _ & HO & _) _ _ _ _ _]. intro Q. unfold rc_origin, dc_origin in HO. unfold rc_domain in Q. rewrite Q in HO.
        pose proof (default_additive (L:=float_laws) (DC:=no_registry4)) as A.
        destruct (rc_new_linear (L:=float_laws) DcDefault _ A CZeroRate [0; 2] [1/100; 3/100] None 0 None) as [c' [E' [B _]]]; auto.
        { reflexivity. } { repeat constructor; simpl; intuition lra. } { discriminate. }
        assert (c' = c) by congruence. subst c'. destruct B as (_ & B2 & _). unfold rc_domain in B2. rewrite Q in B2. discriminate.
    - destruct bs as [|b0 [|b1 [|]]]; try discriminate.
      assert (Q : forall j b, nth_error [b0; b1] j = Some b -> b 1 = 1/20000).
      { intros j b Hj. assert (J : (j < 2)%nat) by (apply (proj1 (nth_error_Some [b0; b1] j)); congruence).
        apply (pl_fun (combine [0; 2] (spike (1/10000) 2 j)) 1); [repeat constructor; simpl; intuition lra|exact (PB j 1 b Hj)|].
        left. exists 0, (if Nat.eqb 0 j then 1/10000 else 0), 2, (if Nat.eqb 1 j then 1/10000 else 0). split; [|split; [lra|]].
        - split; [now left|]. split; [right; now left|]. split; [lra|]. intros x y [[= <- _]|[[= <- _]|[]]]; lra.
        - unfold chord. destruct j as [|[|]]; [| |lia]; cbn [Nat.eqb]; lra. }
      cbn [map Rsum combine]. cbn [fst snd]. rewrite (Q 0%nat b0 eq_refl), (Q 1%nat b1 eq_refl).
      set (A := today _ _ _ _ _). assert (PA : 0 < A).
      { unfold A, today. cbn [fst snd]. change (d_leb 0 1) with (Rleb 0 1). unfold Rleb. destruct (Rle_dec 0 1); [|lra].
        apply Rmult_lt_0_compat; [lra|apply exp_pos]. }
      set (e := exp (- (1 / 20000 * tauR 0 1))).
      assert (EE : exp (- (1 / 10000 * tauR 0 1)) = e * e) by (unfold e; rewrite <- exp_plus; f_equal; unfold tauR; lra). rewrite EE.
      assert (E1' : e < 1). { pose proof (exp_increasing (- (1 / 20000 * tauR 0 1)) 0) as X. rewrite exp_0 in X. apply X. unfold tauR. lra. }
      assert (0 < A * ((1 - e) * (1 - e))) by (apply Rmult_lt_0_compat; [auto|apply Rmult_lt_0_compat; lra]).
      apply Rlt_of_diff. match goal with |- 0 < ?x => replace x with (A * ((1 - e) * (1 - e))) by field end. lra.
  Qed.
End Instance.
Print Assumptions C92_sum_refuted.
