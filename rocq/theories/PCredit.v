(** Properties C30 - C33: credit curves and volatility curves
    (dcf/curves/creditcurve.py, dcf/curves/volatilitycurve.py). *)
From Coq Require Import Reals Lra Lia List Bool ZArith.
From Verif Require Import Num Py Spec SInterpolation SCurve SDates SRateCurve LBase LCompounding MCompounding MInterpolation MDates
  MCurve MRateCurve LDates LFuel LCurve LCurve2 LDateCurve LRateCurve LRateCurve2 LRateCurve3 LRateCurve4 LCredit.
Import ListNotations.
Open Scope R_scope.

#[local] Instance no_registry {D} : DayCounts R D := [].

(** * C30 *)
(** the smallest positive normal float, sys.float_info.min *)
Definition tiny : R := / IZR (2 ^ 1022).

(** survival probability and default probability curves built from any data with no date
    before the origin: probabilities strictly between 0 and 1 at all later dates, and the
    data (1 - data for default probabilities) at the data points, clamped *)
Theorem C30_survival_prob : forall {D P} (DS : DateSys R D P) (tm : D -> R) (DC : DayCounts R D),
  DateLaws DS tm -> forall (count : dcspec R D) tau, additive (dc_apply count) tau -> monotone tau ->
  forall k (ds : list D) (ys : list R) orig o (tenor : option P), k = CSurvival \/ k = CDefault ->
  length ds = length ys -> NoDup (map tm ds) ->
  (forall d, In d ds -> d_leb o d = true) -> (exists d, In d ds /\ d_ltb o d = true) ->
  match orig with Some x => Some x | None => hd_error ds end = Some o ->
  exists c, rc_new k ds ys None orig count tenor = Ok c /\
    (forall t fuel, d_ltb o t = true -> exists p, get_survival_prob1 (S fuel) c t = Ok p /\ 0 < p < 1) /\
    (forall d y fuel, In (d, y) (combine ds ys) -> exists p,
       get_survival_prob1 (S fuel) c d = Ok p /\ 0 < p < 1 /\
       let q := match k with CDefault => 1 - y | _ => y end in
       (tiny <= q <= 1 - tiny -> p = q) /\ (q < tiny -> p = tiny) /\ (1 - tiny < q -> p = 1 - tiny)).
Proof.
  intros D P DS tm DC L count tau A M k ds ys orig o tenor K HL ND GE [d1 [I1 G1]] HO.
  assert (KP : prob_cls k) by (unfold prob_cls; tauto).
  assert (PK : is_probability k = true) by (destruct K as [-> | ->]; reflexivity).
  assert (POS : forall y, In y (survival_data k ys) -> 0 < y < 1).
  { intros y I. apply survival_data_range in I. pose proof fmin_pos. lra. }
  destruct (rc_new_rate (L:=L) count tau A k ds ys (survival_data k ys) orig o tenor) as [c [E [B [V [V' _]]]]]; auto.
  { now apply prepare_ok. } { now rewrite survival_data_length. }
  { exists d1. split; auto. apply ltb_inv in G1. lra. }
  { intros y I. now apply POS. }
  exists c. split; auto. destruct B as [B1 [_ [B3 [_ [_ [_ [_ [_ [B9 B10]]]]]]]]].
  assert (G : forall t p fuel, rc_call c t = Ok p -> get_survival_prob1 (S fuel) c t = Ok p).
  { intros t p fuel H. unfold get_survival_prob1, from_origin. rewrite B3. unfold get_survival_prob, credit_only. rewrite B1.
    replace (is_credit k) with true by (destruct K as [-> | ->]; reflexivity).
    apply prob_origin; auto; [rewrite B1; auto|]. unfold at_origin. rewrite B3. apply law_is_refl. }
  split.
  - intros t fuel Ht. pose proof (proj2 (M o t) Ht) as Tp. apply ltb_inv in Ht.
    destruct (V' t) as [r [Er PL]]; [lra|]. exists (exp (- r * tau o t)). split; [now apply G|].
    assert (0 < r) as Rp.
    { refine (pl_above _ _ _ 0 _ PL). intros a b I. unfold transform in I. apply in_map_iff in I.
      destruct I as [[x y] [Ex I]]. simpl in Ex. inversion Ex; subst a b. unfold without_zero in I. apply filter_In in I.
      destruct I as [I N]. simpl in N.
      assert (exists d, In d ds /\ x = tau o d /\ In y (survival_data k ys)) as [d [Id [-> Iy]]].
      { apply in_combine_l in I as Ix. apply in_combine_r in I. apply in_map_iff in Ix. destruct Ix as [d [<- Id]]. eauto. }
      assert (0 < tau o d).
      { apply M, ltb_t. pose proof (GE d Id) as H. apply leb_inv in H.
        destruct (Req_dec (tm o) (tm d)) as [Eq|Ne]; [|lra]. exfalso. assert (tau o d = 0) as H0 by (apply (tau_eq A), eqb_t; auto).
        rewrite H0 in N. revert N. destruct (Req_EM_T 0 0); simpl; [discriminate|congruence]. }
      pose proof (POS y Iy) as [Y1 Y2]. apply Rmult_lt_0_compat; [|now apply Rinv_0_lt_compat].
      pose proof (ln_increasing y 1 Y1 Y2) as H1. rewrite ln_1 in H1. lra. }
    split; [apply exp_pos|]. apply Rlt_le_trans with (exp 0); [|rewrite exp_0; lra]. apply exp_increasing.
    assert (0 < r * tau o t) by now apply Rmult_lt_0_compat. lra.
  - intros d y fuel I. apply (survival_data_in k) in I as I'. pose proof (V _ _ I') as Hv.
    exists (clamp (T:=R) (if is_default k then 1 - y else y)). split; [now apply G|].
    pose proof (clamp_range (if is_default k then 1 - y else y)) as CR. pose proof fmin_pos as F1. pose proof fmin_small as F2.
    split; [lra|]. cbv zeta. replace (match k with CDefault => 1 - y | _ => y end) with (if is_default k then 1 - y else y)
      by (destruct K as [-> | ->]; reflexivity).
    change tiny with fmin. split; [apply clamp_id|]. split; intro Hq; rewrite clamp_val.
    + rewrite Rmin_left, Rmax_left by lra. reflexivity.
    + rewrite Rmin_right, Rmax_right by lra. reflexivity.
Qed.
Print Assumptions C30_survival_prob.

(** C30 refuted before the origin: the rate is positive there, too, so that the
    survival "probability" exceeds 1 *)
Theorem C30_before_origin_refuted : forall {D P} (DS : DateSys R D P) (tm : D -> R) (DC : DayCounts R D),
  DateLaws DS tm -> forall (count : dcspec R D) tau, additive (dc_apply count) tau -> monotone tau ->
  forall k (ds : list D) (ys : list R) orig o (tenor : option P), k = CSurvival \/ k = CDefault ->
  length ds = length ys -> NoDup (map tm ds) ->
  (forall d, In d ds -> d_leb o d = true) -> (exists d, In d ds /\ d_ltb o d = true) ->
  match orig with Some x => Some x | None => hd_error ds end = Some o ->
  exists c, rc_new k ds ys None orig count tenor = Ok c /\
    forall t fuel, d_ltb t o = true -> exists p, get_survival_prob1 (S fuel) c t = Ok p /\ 1 < p.
Proof.
  intros D P DS tm DC L count tau A M k ds ys orig o tenor K HL ND GE [d1 [I1 G1]] HO.
  assert (KP : prob_cls k) by (unfold prob_cls; tauto).
  assert (PK : is_probability k = true) by (destruct K as [-> | ->]; reflexivity).
  assert (POS : forall y, In y (survival_data k ys) -> 0 < y < 1).
  { intros y I. apply survival_data_range in I. pose proof fmin_pos. lra. }
  destruct (rc_new_rate (L:=L) count tau A k ds ys (survival_data k ys) orig o tenor) as [c [E [B [V [V' _]]]]]; auto.
  { now apply prepare_ok. } { now rewrite survival_data_length. }
  { exists d1. split; auto. apply ltb_inv in G1. lra. }
  { intros y I. now apply POS. }
  exists c. split; auto. destruct B as [B1 [_ [B3 [_ [_ [_ [_ [_ [B9 B10]]]]]]]]].
  assert (G : forall t p fuel, rc_call c t = Ok p -> get_survival_prob1 (S fuel) c t = Ok p).
  { intros t p fuel H. unfold get_survival_prob1, from_origin. rewrite B3. unfold get_survival_prob, credit_only. rewrite B1.
    replace (is_credit k) with true by (destruct K as [-> | ->]; reflexivity).
    apply prob_origin; auto; [rewrite B1; auto|]. unfold at_origin. rewrite B3. apply law_is_refl. }
  intros t fuel Ht. pose proof (proj2 (M t o) Ht) as Tp. apply ltb_inv in Ht.
    destruct (V' t) as [r [Er PL]]; [lra|]. exists (exp (- r * tau o t)). split; [now apply G|].
    assert (0 < r) as Rp.
    { refine (pl_above _ _ _ 0 _ PL). intros a b I. unfold transform in I. apply in_map_iff in I.
      destruct I as [[x y] [Ex I]]. simpl in Ex. inversion Ex; subst a b. unfold without_zero in I. apply filter_In in I.
      destruct I as [I N]. simpl in N.
      assert (exists d, In d ds /\ x = tau o d /\ In y (survival_data k ys)) as [d [Id [-> Iy]]].
      { apply in_combine_l in I as Ix. apply in_combine_r in I. apply in_map_iff in Ix. destruct Ix as [d [<- Id]]. eauto. }
      assert (0 < tau o d).
      { apply M, ltb_t. pose proof (GE d Id) as H. apply leb_inv in H.
        destruct (Req_dec (tm o) (tm d)) as [Eq|Ne]; [|lra]. exfalso. assert (tau o d = 0) as H0 by (apply (tau_eq A), eqb_t; auto).
        rewrite H0 in N. revert N. destruct (Req_EM_T 0 0); simpl; [discriminate|congruence]. }
      pose proof (POS y Iy) as [Y1 Y2]. apply Rmult_lt_0_compat; [|now apply Rinv_0_lt_compat].
      pose proof (ln_increasing y 1 Y1 Y2) as H1. rewrite ln_1 in H1. lra. }
    rewrite <- exp_0 at 1. apply exp_increasing.
    assert (tau o t = - tau t o) as -> by (pose proof (add_add _ _ A o t o); assert (tau o o = 0) by (apply (tau_eq A), (eqb_refl (L:=L))); lra).
    assert (0 < r * tau t o) by now apply Rmult_lt_0_compat. lra.
Qed.
Print Assumptions C30_before_origin_refuted.

Example C30_before_origin_example : exists (c : rcurve R R (fperiod R)) p,
  rc_new (DS:=FloatDates) CSurvival [1; 2] [9 / 10; 8 / 10] None (Some 0) DcDefault None = Ok c /\
  get_survival_prob1 (DS:=FloatDates) 1 c (-1) = Ok p /\ 1 < p.
Proof.
  destruct (C30_before_origin_refuted FloatDates (fun d => d) no_registry float_laws DcDefault _ float_additive)
    with (k := CSurvival) (ds := [1; 2]) (ys := [9 / 10; 8 / 10]) (orig := Some 0) (o := 0) (tenor := @None (fperiod R))
    as [c [E H]]; auto.
  - intros a b. rewrite (law_ltb (DateLaws:=float_laws)). lra.
  - repeat constructor; simpl; intuition lra.
  - intros d I. apply (law_leb (DateLaws:=float_laws)). simpl in I. intuition lra.
  - exists 1. split; [simpl; auto|]. apply (law_ltb (DateLaws:=float_laws)). lra.
  - destruct (H (-1) 0%nat) as [p [Ep Gp]]; [apply (law_ltb (DateLaws:=float_laws)); lra|].
    exists c, p. auto.
Qed.

(** with non-negative hazard rates survival never increases *)
Theorem C30_hazard_non_increasing : forall {D P} (DS : DateSys R D P) (tm : D -> R) (DC : DayCounts R D),
  DateLaws DS tm -> forall (c : rcurve R D P) tau, additive (rc_yf c) tau -> monotone tau -> rc_cls c = CHazard ->
  steps (p_str Tday) -> unbounded (p_str Tday) ->
  (forall d, exists v, has_value c d v /\ 0 <= v) ->
  forall s t u, d_ltb s t = true -> d_leb t u = true ->
  exists n p q, 0 < q <= p /\ p <= 1 /\ forall fuel, (n <= fuel)%nat ->
    get_survival_prob fuel c s t = Ok p /\ get_survival_prob fuel c s u = Ok q.
Proof.
  intros D P DS tm DC L c tau A M K St U V s t u Hst Htu.
  assert (exists v, (forall d, has_value c d (v d)) /\ forall d, 0 <= v d) as [v [Hv Pv]].
  { exists (fun d => match rc_call c d with Ok y => y | Err _ => 0 end). unfold has_value.
    split; intro d; destruct (V d) as [y [E P0]]; unfold has_value in E; rewrite E; auto. }
  apply leb_inv in Htu. apply ltb_inv in Hst as Hst'.
  destruct (reach_any (L:=L) (p_str Tday) s u St U) as [n [ds [D0 [Sc [E1 E2]]]]]; [apply ltb_t; lra|].
  destruct (find_period (tm:=tm) (p_str Tday) ds n t) as [i [Hi E]]; auto; [rewrite D0; auto|lra|].
  assert (Sci : schedule (p_str Tday) ds (S i)) by (eapply schedule_head; [|exact Sc]; lia).
  pose proof (rate_sum_mono (L:=L) c tau A v _ ds i n t u M Sc Hi E (conj E1 E2) Htu Pv) as MO.
  assert (R0 : 0 <= rate_sum tau v ds i t).
  { unfold rate_sum. apply Rplus_le_le_0_compat.
    - apply sum_n_nonneg. intros j Hj. apply Rmult_le_pos; auto. left. apply M. apply (Sci j). lia.
    - apply Rmult_le_pos; auto. left. apply M, ltb_t. apply E. }
  exists (n + 3)%nat, (exp (- rate_sum tau v ds i t)), (exp (- rate_sum tau v ds n u)).
  split; [split; [apply exp_pos|]|split].
  - destruct (Rle_lt_or_eq_dec _ _ MO) as [H|H].
    + left. apply exp_increasing. lra.
    + right. now rewrite H.
  - destruct (Rle_lt_or_eq_dec _ _ R0) as [H|H].
    + left. apply Rlt_le_trans with (exp 0); [|rewrite exp_0; lra]. apply exp_increasing. lra.
    + rewrite <- H, Ropp_0, exp_0. lra.
  - intros fuel F. unfold get_survival_prob, credit_only. rewrite K. cbn [is_credit is_interest is_vol negb andb].
    rewrite <- D0. split.
    + apply (short_factor (L:=L) c tau A fuel i ds t v); auto. lia.
    + apply (short_factor (L:=L) c tau A fuel n ds u v); auto; [split; auto|lia].
Qed.
Print Assumptions C30_hazard_non_increasing.

Example C30_example : exists c : rcurve R R (fperiod R),
  rc_new (DS:=FloatDates) CDefault [0; 1; 2] [0; 1 / 10; 2 / 10] None None DcDefault None = Ok c /\
  get_survival_prob1 (DS:=FloatDates) 1 c 1 = Ok (9 / 10) /\
  exists p, get_survival_prob1 (DS:=FloatDates) 1 c (3 / 2) = Ok p /\ 0 < p < 1.
Proof.
  pose proof fmin_small as F2. pose proof fmin_pos as F1.
  destruct (C30_survival_prob FloatDates (fun d => d) no_registry float_laws DcDefault _ float_additive)
    with (k := CDefault) (ds := [0; 1; 2]) (ys := [0; 1 / 10; 2 / 10]) (orig := @None R) (o := 0) (tenor := @None (fperiod R))
    as [c [E [H1 H2]]]; auto.
  - intros a b. rewrite (law_ltb (DateLaws:=float_laws)). lra.
  - repeat constructor; simpl; intuition lra.
  - intros d I. apply (law_leb (DateLaws:=float_laws)). simpl in I. intuition lra.
  - exists 1. split; [simpl; auto|]. apply (law_ltb (DateLaws:=float_laws)). lra.
  - exists c. split; auto. split.
    + destruct (H2 1 (1 / 10) 0%nat) as [p [E1 [_ [E2 _]]]]; [simpl; auto|]. rewrite E1. f_equal. rewrite E2; [lra|].
      change tiny with fmin. lra.
    + apply H1. apply (law_ltb (DateLaws:=float_laws)). lra.
Qed.

Example C30_example_hazard : exists c : rcurve R bdate bperiod,
  rc_new (DS:=DayDates) CHazard [BD 0 1; BD 10 2] [1 / 100; 2 / 100] None None DcDefault None = Ok c /\
  (forall d, exists v, has_value (DS:=DayDates) c d v /\ 0 <= v).
Proof.
  assert (A : additive (DS:=DayDates) (dc_apply DcDefault) _) by exact (default_additive (L:=day_laws)).
  destruct (rc_new_const (L:=day_laws) DcDefault _ A CHazard [BD 0 1; BD 10 2] [1 / 100; 2 / 100] None (BD 0 1) None)
    as [c [E [B [V V']]]]; auto.
  { simpl. repeat constructor; simpl; intuition lra. } { discriminate. }
  exists c. split; auto. intro d. destruct (V' d) as [y [Ey H]]. exists y. split; auto.
  destruct H as [[a [I _]]|[_ [a [I _]]]]; simpl in I; destruct I as [I|[I|[]]]; inversion I; lra.
Qed.

(** * C31 *)
Theorem C31_marginal_survival : forall {D P} (DS : DateSys R D P) (tm : D -> R) (DC : DayCounts R D),
  DateLaws DS tm -> forall (c : rcurve R D P) tau, additive (rc_yf c) tau ->
  rc_cls c = CMargSurvival \/ rc_cls c = CMargDefault ->
  forall (ds : nat -> D) n v, schedule (rc_tenor c) ds n ->
  (forall i, (i < n)%nat -> has_value c (ds i) (v i) /\ 2 / IZR (2 ^ 1022) <= v i) ->
  forall i j k fuel, (i < j)%nat -> (j < k)%nat -> (k <= n)%nat -> (n + 3 <= fuel)%nat ->
  exists x y,
    get_survival_prob fuel c (ds i) (ds j) = Ok x /\
    get_survival_prob fuel c (ds j) (ds k) = Ok y /\
    get_survival_prob fuel c (ds i) (ds k) = Ok (x * y) /\
    x = prod_n (fun m => v (i + m)%nat) (j - i).
Proof.
  intros D P DS tm DC L c tau A K ds n v Sc V i j k fuel Hi Hj Hk F.
  unfold get_survival_prob, credit_only. replace (is_credit (rc_cls c)) with true by (destruct K as [-> | ->]; reflexivity).
  assert (G : forall a b, (a < b)%nat -> (b <= n)%nat -> factor fuel c (ds a) (ds b) = Ok (prod_n (fun m => v (a + m)%nat) (b - a))).
  { intros a b Ha Hb. pose proof (marginal_factor (L:=L) c tau A fuel n ds v a (b - a - 1)) as H.
    replace (a + S (b - a - 1))%nat with b in H by lia. replace (S (b - a - 1)) with (b - a)%nat in H by lia.
    apply H; auto; intros m Hm; now apply V. }
  rewrite !G by lia. eexists _, _. split; [reflexivity|]. split; [reflexivity|]. split; [|reflexivity].
  f_equal. replace (k - i)%nat with ((j - i) + (k - j))%nat by lia. rewrite prod_n_add. f_equal. apply prod_n_ext.
  intros m _. now replace (i + (j - i + m))%nat with (j + m)%nat by lia.
Qed.
Print Assumptions C31_marginal_survival.

(** a fraction of a tenor: the corresponding power of the marginal probability *)
Theorem C31_marginal_survival_stub : forall {D P} (DS : DateSys R D P) (tm : D -> R) (DC : DayCounts R D),
  DateLaws DS tm -> forall (c : rcurve R D P) tau, additive (rc_yf c) tau ->
  rc_cls c = CMargSurvival \/ rc_cls c = CMargDefault ->
  forall (ds : nat -> D) n v t, schedule (rc_tenor c) ds (S n) ->
  d_ltb (ds n) t = true -> d_leb t (ds (S n)) = true ->
  (forall d, has_value c d (v d)) -> (forall i, (i <= n)%nat -> 2 / IZR (2 ^ 1022) <= v (ds i)) ->
  forall fuel, (n + 3 <= fuel)%nat ->
  get_survival_prob fuel c (ds 0%nat) t =
    Ok (prod_n (fun i => v (ds i)) n * Rpower (v (ds n)) (tau (ds n) t / tau (ds n) (ds (S n)))).
Proof.
  intros D P DS tm DC L c tau A K ds n v t Sc H1 H2 V Q fuel F. apply ltb_inv in H1. apply leb_inv in H2.
  unfold get_survival_prob, credit_only. replace (is_credit (rc_cls c)) with true by (destruct K as [-> | ->]; reflexivity).
  apply (marg_factor (L:=L) c tau A); auto; [split; auto|lia].
Qed.
Print Assumptions C31_marginal_survival_stub.

Example C31_example : exists c : rcurve R R (fperiod R),
  rc_new (DS:=FloatDates) CMargSurvival [0; 1] [9 / 10; 8 / 10] None None DcDefault (Some (FP 1)) = Ok c /\
  schedule (DS:=FloatDates) (rc_tenor (DS:=FloatDates) c) INR 5 /\
  get_survival_prob (DS:=FloatDates) 6 c 0 2 = Ok (9 / 10 * (8 / 10)).
Proof.
  pose proof (float_additive (DC:=no_registry)) as A. pose proof fmin_small as F2. pose proof fmin_pos as F1.
  assert (SD : survival_data CMargSurvival [9 / 10; 8 / 10] = [9 / 10; 8 / 10]).
  { unfold survival_data. cbn [is_default map]. rewrite !clamp_id; auto; lra. }
  destruct (rc_new_log (L:=float_laws) DcDefault _ A CMargSurvival [0; 1] [9 / 10; 8 / 10] [9 / 10; 8 / 10] None 0 (Some (FP 1))) as [c [E [B [V V']]]]; auto.
  { rewrite <- SD at 2. now apply prepare_ok. } { repeat constructor; simpl; intuition lra. } { discriminate. }
  { simpl. intros y I. intuition lra. }
  exists c. split; auto. destruct B as [B1 [_ [B3 [_ [_ [_ [B7 [_ [B9 B10]]]]]]]]].
  assert (Sc : forall n, schedule (DS:=FloatDates) (rc_tenor (DS:=FloatDates) c) INR n).
  { intros n i _. unfold rc_tenor. rewrite B7, S_INR. split; [reflexivity|]. apply (law_ltb (DateLaws:=float_laws)). lra. }
  split; auto.
  unfold get_survival_prob, credit_only. rewrite B1. cbn [is_credit is_interest is_vol negb andb].
  pose proof (marginal_factor (L:=float_laws) c _ B10 6 2 INR (fun i => match i with O => 9 / 10 | _ => 8 / 10 end) 0 1) as H.
  change (INR 0) with 0 in H. change (INR (0 + 2)) with 2 in H. rewrite H; auto.
  - f_equal. unfold prod_n. simpl. lra.
  - intros [|[|i]] Hi; try lia; apply V; simpl; auto.
  - change (/ IZR (2 ^ 1022)) with fmin. intros [|i] _; lra.
Qed.

(** * C32 *)
(** FlatIntensityCurve raises away from the origin (no attribute _time_shift) *)
Theorem C32_flat_intensity_refuted : forall {D P} (DS : DateSys R D P) (tm : D -> R) (DC : DayCounts R D),
  DateLaws DS tm -> forall (c : rcurve R D P) o t fuel, rc_cls c = CFlatIntensity -> rc_origin c = Some o ->
  d_eqb t o = false -> get_flat_intensity (S fuel) c t t = Err AttributeError.
Proof.
  intros D P DS tm DC L c o t fuel K O N. unfold get_flat_intensity, credit_only. rewrite K.
  cbn [is_credit is_interest is_vol negb andb rate]. cbv zeta. rewrite K. unfold both_origin, at_origin. rewrite O, N, eqb_refl.
  cbn [andb]. destruct (d_is t o) eqn:E; auto. apply law_is_eq in E. apply eqb_finv in N. contradiction.
Qed.
Print Assumptions C32_flat_intensity_refuted.

(** curves with a single date: short and hazard rates never return *)
Theorem C32_single_date_refuted : forall {D P} (DS : DateSys R D P) (tm : D -> R) (DC : DayCounts R D),
  DateLaws DS tm -> forall (c : rcurve R D P) d d' t fuel,
  rc_cls c <> CShortRate -> rc_cls c <> CHazard -> rc_cls c <> CMargSurvival -> rc_cls c <> CMargDefault ->
  rc_domain c = [d] -> d_sub d (p_str Tday) = Ok d' -> d_ltb d' d = true ->
  (is_credit (rc_cls c) = true -> get_hazard_rate fuel c t = Err OutOfFuel) /\
  (is_interest (rc_cls c) = true -> get_short_rate fuel c t = Err OutOfFuel).
Proof.
  intros D P DS tm DC L c d d' t fuel K1 K2 K3 K4 Dm E Hd. apply ltb_inv in Hd.
  assert (ND : NoDup (map tm (rc_domain c))) by (rewrite Dm; simpl; constructor; [simpl; tauto|constructor]).
  assert (ID : In d (rc_domain c)) by (rewrite Dm; simpl; auto).
  assert (K : ~ own_rate (rc_cls c)) by (unfold own_rate; tauto).
  assert (M : forall x, In x (rc_domain c) -> x = d) by (rewrite Dm; simpl; intuition).
  assert (G : forall t, short_rate fuel c t = Err OutOfFuel).
  { induction fuel; intro x; auto. destruct (Rlt_or_le (tm x) (tm d)) as [H|H].
    - rewrite (short_before (L:=L) c fuel x d); auto. intros y I. rewrite (M y I). lra.
    - rewrite (short_after (L:=L) c fuel x d d'); auto. intros y I. rewrite (M y I). lra. }
  unfold get_hazard_rate, get_short_rate, credit_only, interest_only.
  split; intros ->; apply G.
Qed.
Print Assumptions C32_single_date_refuted.

Example C32_example_refuted : exists c : rcurve R bdate bperiod,
  rc_new (DS:=DayDates) CSurvival [BD 10 2] [9 / 10] None (Some (BD 0 1)) DcDefault None = Ok c /\
  (forall t fuel, get_hazard_rate (DS:=DayDates) fuel c t = Err OutOfFuel) /\
  exists c' : rcurve R bdate bperiod,
  rc_new (DS:=DayDates) CFlatIntensity [BD 10 2] [1 / 100] None (Some (BD 0 1)) DcDefault None = Ok c' /\
  get_flat_intensity (DS:=DayDates) 5 c' (BD 5 0) (BD 5 0) = Err AttributeError.
Proof.
  assert (A : additive (DS:=DayDates) (dc_apply DcDefault) _) by exact (default_additive (L:=day_laws)).
  pose proof fmin_small as F2. pose proof fmin_pos as F1.
  assert (SD : survival_data CSurvival [9 / 10] = [9 / 10]).
  { unfold survival_data. cbn [is_default map]. rewrite !clamp_id; auto; lra. }
  destruct (rc_new_rate (L:=day_laws) DcDefault _ A CSurvival [BD 10 2] [9 / 10] [9 / 10] (Some (BD 0 1)) (BD 0 1) None) as [c [E [B _]]]; auto.
  { unfold prob_cls. tauto. } { rewrite <- SD at 2. now apply prepare_ok. } { simpl. repeat constructor; simpl; tauto. }
  { exists (BD 10 2). simpl. split; [auto|lra]. } { simpl. intros y I. intuition lra. }
  destruct (rc_new_linear (L:=day_laws) DcDefault _ A CFlatIntensity [BD 10 2] [1 / 100] (Some (BD 0 1)) (BD 0 1) None) as [c' [E' [B' _]]]; auto.
  { reflexivity. } { simpl. repeat constructor; simpl; tauto. } { discriminate. }
  exists c. split; auto. split.
  - intros t fuel. destruct B as [B1 [B2 _]].
    apply (C32_single_date_refuted DayDates _ no_registry day_laws c (BD 10 2) (BD 9 0) t fuel); rewrite ?B1; auto; discriminate.
  - exists c'. split; auto. destruct B' as [B1 [_ [B3 _]]].
    apply (C32_flat_intensity_refuted DayDates _ no_registry day_laws c' (BD 0 1)); auto.
Qed.

(** where it is defined: the value itself on ShortRate and HazardRate curves, the forward
    rate over the next day on ZeroRate curves and on DiscountFactor and survival curves,
    the curve value at the origin for ZeroRate and FlatIntensity *)
Theorem C32_instant_rate : forall {D P} (DS : DateSys R D P) (tm : D -> R) (DC : DayCounts R D),
  DateLaws DS tm -> forall (c : rcurve R D P) o tau, additive (rc_yf c) tau -> rc_origin c = Some o ->
  forall t t' v v' fuel, d_add t (p_str Tday) = Ok t' -> d_eqb t t' = false -> has_value c t v -> has_value c t' v' ->
  (rc_cls c = CShortRate -> get_zero_rate (S fuel) c t t = Ok v /\ get_short_rate (S fuel) c t = Ok v) /\
  (rc_cls c = CHazard -> get_flat_intensity (S fuel) c t t = Ok v /\ get_hazard_rate (S fuel) c t = Ok v) /\
  (rc_cls c = CZeroRate -> d_eqb t o = false ->
     get_zero_rate (2 + fuel) c t t = Ok ((v' * tau o t' - v * tau o t) / tau t t')) /\
  (rc_cls c = CDiscountFactor -> d_eqb t o = false -> 0 < v -> 0 < v' ->
     get_zero_rate (3 + fuel) c t t = Ok (- ln (v' / v) / tau t t')) /\
  (rc_cls c = CSurvival \/ rc_cls c = CDefault -> d_eqb t o = false -> 0 < v -> 0 < v' ->
     get_flat_intensity (3 + fuel) c t t = Ok (- ln (v' / v) / tau t t')).
Proof.
  intros D P DS tm DC L c o tau A O t t' v v' fuel Ht NE V V'.
  assert (NT : d_eqb t o = false -> at_origin c t = false).
  { intro N. unfold at_origin. rewrite O. destruct (d_is t o) eqn:E; auto. apply law_is_eq in E. apply eqb_finv in N. contradiction. }
  assert (NB : d_eqb t o = false -> both_origin c t t = false).
  { intro N. unfold both_origin. rewrite O, N. apply andb_false_r. }
  assert (PR : prob_cls (rc_cls c) -> d_eqb t o = false -> 0 < v -> 0 < v' ->
     rate (3 + fuel) c t t = Ok (- ln (v' / v) / tau t t')).
  { intros K N Hv Hv'.
    assert (FE : factor (S fuel) c t t' = Ok (v' / v)).
    { rewrite (prob_factor c fuel t t' v v' K NE V V') by lra. now rewrite (NT N). }
    assert (RE : rate (2 + fuel) c t t' = Ok (- ln (v' / v) / tau t t')).
    { eapply (rate_of_factor c tau A); eauto. apply Rmult_lt_0_compat; auto. now apply Rinv_0_lt_compat. }
    assert (UE : rate (3 + fuel) c t t = (next <- d_add t (p_str Tday) ;; rate (2 + fuel) c t next)).
    { change (3 + fuel)%nat with (S (2 + fuel)). generalize (2 + fuel)%nat as n. intro n. cbn [rate]. cbv zeta.
      rewrite (NB N), eqb_refl. destruct K as [->|[-> | ->]]; reflexivity. }
    rewrite UE, Ht. exact RE. }
  unfold get_zero_rate, get_short_rate, get_flat_intensity, get_hazard_rate, interest_only, credit_only.
  split; [|split; [|split; [|split]]].
  - intro K. rewrite K. cbn [is_interest]. split.
    + cbn [rate]. cbv zeta. rewrite K, eqb_refl. exact V.
    + cbn [short_rate]. rewrite K. exact V.
  - intro K. rewrite K. cbn [is_credit is_interest is_vol negb andb]. split.
    + cbn [rate]. cbv zeta. rewrite K, eqb_refl. exact V.
    + cbn [short_rate]. rewrite K. exact V.
  - intros K N. rewrite K. cbn [is_interest].
    assert (UE : rate (2 + fuel) c t t = (next <- d_add t (p_str Tday) ;; rate (1 + fuel) c t next)).
    { change (2 + fuel)%nat with (S (1 + fuel)). generalize (1 + fuel)%nat as n. intro n. cbn [rate]. cbv zeta.
      rewrite K, (NB N), (NT N), eqb_refl. reflexivity. }
    rewrite UE, Ht. cbn [bind]. apply (flat_rate (L:=L) c o tau O A); auto. left. exact K.
  - intros K N Hv Hv'. rewrite K. cbn [is_interest]. apply PR; auto. unfold prob_cls. tauto.
  - intros K N Hv Hv'. replace (is_credit (rc_cls c)) with true by (destruct K as [-> | ->]; reflexivity).
    apply PR; auto. unfold prob_cls. tauto.
Qed.
Print Assumptions C32_instant_rate.

Theorem C32_instant_rate_origin : forall {D P} (DS : DateSys R D P) (tm : D -> R) (DC : DayCounts R D),
  DateLaws DS tm -> forall (c : rcurve R D P) o v fuel, rc_origin c = Some o -> has_value c o v ->
  (rc_cls c = CZeroRate -> get_zero_rate (S fuel) c o o = Ok v) /\
  (rc_cls c = CFlatIntensity -> get_flat_intensity (S fuel) c o o = Ok v).
Proof.
  intros D P DS tm DC L c o v fuel O V. unfold get_zero_rate, get_flat_intensity, interest_only, credit_only.
  assert (B : both_origin c o o = true) by (unfold both_origin; now rewrite O, eqb_refl).
  split; intros K; rewrite K; cbn [is_credit is_interest is_vol negb andb rate]; cbv zeta; rewrite K, B, O; exact V.
Qed.
Print Assumptions C32_instant_rate_origin.

(** the short rate is the forward rate between the neighbouring dates of the domain;
    beyond its ends that of the first and last period, so at least two dates are needed *)
Theorem C32_short_rate : forall {D P} (DS : DateSys R D P) (tm : D -> R) (DC : DayCounts R D),
  DateLaws DS tm -> forall (c : rcurve R D P) t p q fuel,
  rc_cls c <> CShortRate -> rc_cls c <> CHazard -> NoDup (map tm (rc_domain c)) ->
  In p (rc_domain c) -> In q (rc_domain c) -> d_leb p t = true -> d_ltb t q = true ->
  (forall d, In d (rc_domain c) -> d_leb d p = true \/ d_leb q d = true) ->
  get_short_rate (S fuel) c t = get_zero_rate fuel c p q /\
  get_hazard_rate (S fuel) c t = get_flat_intensity fuel c p q.
Proof.
  intros D P DS tm DC L c t p q fuel K1 K2 ND Ip Iq Hp Hq M.
  apply leb_inv in Hp. apply ltb_inv in Hq.
  assert (E : short_rate (S fuel) c t = rate fuel c p q).
  { apply (short_between (L:=L)); auto; [unfold own_rate; tauto|]. intros d I. destruct (M d I) as [H|H]; apply leb_inv in H; auto. }
  unfold get_short_rate, get_zero_rate, get_hazard_rate, get_flat_intensity, interest_only, credit_only.
  rewrite E. auto.
Qed.
Print Assumptions C32_short_rate.

Theorem C32_short_rate_outside : forall {D P} (DS : DateSys R D P) (tm : D -> R) (DC : DayCounts R D),
  DateLaws DS tm -> forall (c : rcurve R D P) lo hi h' t fuel,
  rc_cls c <> CShortRate -> rc_cls c <> CHazard -> rc_cls c <> CMargSurvival -> rc_cls c <> CMargDefault ->
  NoDup (map tm (rc_domain c)) -> In lo (rc_domain c) -> In hi (rc_domain c) ->
  (forall d, In d (rc_domain c) -> d_leb lo d = true /\ d_leb d hi = true) ->
  d_sub hi (p_str Tday) = Ok h' ->
  (d_ltb t lo = true -> get_short_rate (S fuel) c t = get_short_rate fuel c lo /\
                        get_hazard_rate (S fuel) c t = get_hazard_rate fuel c lo) /\
  (d_leb hi t = true -> get_short_rate (S fuel) c t = get_short_rate fuel c h' /\
                        get_hazard_rate (S fuel) c t = get_hazard_rate fuel c h').
Proof.
  intros D P DS tm DC L c lo hi h' t fuel K1 K2 K3 K4 ND Il Ih M E.
  assert (K : ~ own_rate (rc_cls c)) by (unfold own_rate; tauto).
  unfold get_short_rate, get_hazard_rate, interest_only, credit_only.
  split; intro H; [apply ltb_inv in H|apply leb_inv in H].
  - rewrite (short_before (L:=L) c fuel t lo); auto. intros d I. apply leb_inv, M, I.
  - rewrite (short_after (L:=L) c fuel t hi h'); auto. intros d I. apply leb_inv, M, I.
Qed.
Print Assumptions C32_short_rate_outside.

Example C32_example : exists c : rcurve R bdate bperiod,
  rc_new (DS:=DayDates) CZeroRate [BD 0 1; BD 10 2; BD 30 3] [1 / 100; 2 / 100; 3 / 100] None None DcDefault None = Ok c /\
  forall fuel, get_short_rate (DS:=DayDates) (S fuel) c (BD 20 0) = get_zero_rate (DS:=DayDates) fuel c (BD 10 2) (BD 30 3).
Proof.
  assert (A : additive (DS:=DayDates) (dc_apply DcDefault) _) by exact (default_additive (L:=day_laws)).
  destruct (rc_new_linear (L:=day_laws) DcDefault _ A CZeroRate [BD 0 1; BD 10 2; BD 30 3] [1 / 100; 2 / 100; 3 / 100] None (BD 0 1) None) as [c [E [B _]]]; auto.
  { reflexivity. } { simpl. repeat constructor; simpl; intuition lra. } { discriminate. }
  exists c. split; auto. intro fuel. destruct B as [B1 [B2 _]].
  apply (C32_short_rate DayDates _ no_registry day_laws c); rewrite ?B1, ?B2; try discriminate; simpl; auto.
  - repeat constructor; simpl; intuition lra.
  - intros d [<-|[<-|[<-|[]]]]; auto.
Qed.

(** * C33 *)
Theorem C33_terminal_vol : forall {D P} (DS : DateSys R D P) (tm : D -> R) (DC : DayCounts R D),
  DateLaws DS tm -> forall (c : rcurve R D P) o tau, additive (rc_yf c) tau -> monotone tau ->
  rc_cls c = CTermVol -> rc_origin c = Some o ->
  forall s t vs vt fuel, has_value c s vs -> has_value c t vt ->
  d_ltb o s = true -> d_ltb s t = true ->
  (* the value is the volatility from origin *)
  (forall flr, terminal_vol (S fuel) flr c o (Some t) = Ok vt /\ terminal_vol (S fuel) flr c t None = Ok vt) /\
  (* forward variance *)
  (0 <= tau o t * (vt * vt) - tau o s * (vs * vs) ->
   exists v, terminal_vol (S fuel) None c s (Some t) = Ok v /\ 0 <= v /\
     (v * v) * tau s t + (vs * vs) * tau o s = (vt * vt) * tau o t /\
     forall f, f * f <= v * v -> terminal_vol (S fuel) (Some f) c s (Some t) = Ok v) /\
  (tau o t * (vt * vt) - tau o s * (vs * vs) < 0 ->
   terminal_vol (S fuel) None c s (Some t) = Err ZeroDivisionError /\
   forall f, 0 <= f -> terminal_vol (S fuel) (Some f) c s (Some t) = Ok f) /\
  (* backwards *)
  (forall flr, terminal_vol (S fuel) flr c t (Some s) = Ok 0).
Proof.
  intros D P DS tm DC L c o tau A M K O s t vs vt fuel Hs Ht Hos Hst. unfold has_value in *.
  pose proof (proj2 (M s t) Hst) as Tst. apply ltb_inv in Hos. apply ltb_inv in Hst.
  assert (E1 : d_eqb s o = false) by (apply eqb_f; lra).
  assert (E2 : d_eqb s t = false) by (apply eqb_f; lra).
  assert (E3 : d_ltb t s = false) by (apply ltb_f; lra).
  assert (E4 : d_eqb t o = false) by (apply eqb_f; lra).
  assert (E5 : d_eqb t s = false) by (apply eqb_f; lra).
  assert (E6 : d_ltb s t = true) by (apply ltb_t; lra).
  set (w := tau o t * (vt * vt) - tau o s * (vs * vs)).
  assert (TV : forall flr, terminal_vol (S fuel) flr c s (Some t) =
     if Rltb (w / tau s t) 0 && match flr with None => true | _ => false end then Err ZeroDivisionError
     else Rsqrtp (match flr with Some f => Rmax (w / tau s t) (f * f) | None => w / tau s t end)).
  { intro flr. cbn [terminal_vol]. rewrite K, O, E1, E2, E3. rewrite !(rc_time_ok c o tau O A), Hs, Ht, (add_val _ _ A).
    cbn [bind npow]. rn. rewrite Rdivp_ok by lra. cbn [bind].
    replace (tau o t * (vt * (vt * 1)) - tau o s * (vs * (vs * 1))) with w by (unfold w; ring).
    destruct flr; rewrite ?nmax_R, ?Rmult_1_r; reflexivity. }
  assert (DW : forall x, 0 <= x -> 0 <= x / tau s t).
  { intros x Hx. apply Rmult_le_pos; auto. left. now apply Rinv_0_lt_compat. }
  split; [|split; [|split]].
  - intro flr. split; cbn [terminal_vol]; rewrite K; auto. rewrite O, eqb_refl. exact Ht.
  - intro W. fold w in W. exists (sqrt (w / tau s t)).
    assert (SQ : sqrt (w / tau s t) * sqrt (w / tau s t) = w / tau s t) by (apply sqrt_sqrt; auto).
    split; [|split; [|split]].
    + rewrite TV. rewrite (proj2 (Rltb_false _ _)) by auto. cbn [andb]. unfold Rsqrtp.
      destruct (Rle_dec 0 (w / tau s t)); auto. exfalso; auto.
    + apply sqrt_pos.
    + rewrite SQ. unfold w. field. lra.
    + intros f Hf. rewrite TV, andb_false_r. rewrite SQ in Hf. rewrite Rmax_left by auto. unfold Rsqrtp.
      destruct (Rle_dec 0 (w / tau s t)); auto. exfalso; auto.
  - intro W. fold w in W.
    assert (w / tau s t < 0).
    { replace (w / tau s t) with (- (- w / tau s t)) by (field; lra). apply Ropp_lt_gt_0_contravar.
      apply Rmult_lt_0_compat; [lra|now apply Rinv_0_lt_compat]. }
    split.
    + rewrite TV, (proj2 (Rltb_true _ _)) by auto. reflexivity.
    + intros f Hf. rewrite TV, andb_false_r. pose proof (Rle_0_sqr f) as H0. unfold Rsqr in H0.
      rewrite Rmax_right by lra. unfold Rsqrtp. destruct (Rle_dec 0 (f * f)); [|contradiction]. f_equal. now apply sqrt_square.
  - intro flr. cbn [terminal_vol]. rewrite K, O, E4, E5, E6. reflexivity.
Qed.
Print Assumptions C33_terminal_vol.

Example C33_example : exists c : rcurve R R (fperiod R),
  rc_new (DS:=FloatDates) CTermVol [1; 2] [1 / 10; 2 / 10] None (Some 0) DcDefault None = Ok c /\
  rc_cls c = CTermVol /\ has_value (DS:=FloatDates) c 1 (1 / 10) /\ has_value (DS:=FloatDates) c 2 (2 / 10) /\
  rc_origin c = Some 0.
Proof.
  pose proof (float_additive (DC:=no_registry)) as A.
  destruct (rc_new_linear (L:=float_laws) DcDefault _ A CTermVol [1; 2] [1 / 10; 2 / 10] (Some 0) 0 None) as [c [E [B [V V']]]]; auto.
  { reflexivity. } { repeat constructor; simpl; intuition lra. } { discriminate. }
  exists c. destruct B as [B1 [_ [B3 _]]]. repeat split; auto; apply V; simpl; auto.
Qed.
