(** Properties C70 - C75: casting a DateCurve to a Curve, default tenors, empty periods,
    linear short rates, item assignment of rate curves, rating names; and the
    instantaneous volatility of C33. *)
From Coq Require Import Reals Lra Lia List Bool Sorted Permutation.
From Verif Require Import Num Py Spec SInterpolation SCurve SDates SRateCurve LBase LSort MInterpolation
  LInterpolation LCompounding MDates MCurve MRateCurve MTable LDates LCurve LCurve2 LDateCurve LDateCurve2 LRateCurve
  LRateCurve2 LRateCurve3 LMore PRateCurve PRateCurve2 PCredit LTable LCredit LRateCurve4 PTable.
Import ListNotations.
Open Scope R_scope.

(** * C70 *)
(** the Curve has the same values at the year fractions from origin, for every date *)
Theorem C70_to_curve : forall {D P} (DS : DateSys R D P) (tm : D -> R) (DC : DayCounts R D), DateLaws DS tm ->
  forall count tau, additive (dc_apply count) tau ->
  forall dflt i orig o ds ys c,
  dc_new dflt ds ys i orig count = Ok c -> NoDup (map tm ds) -> dom_origin orig ds = Some o ->
  admissible (dc_spec dflt i) (combine (map (tau o) ds) ys) ->
  match i with None => dflt = linear_scheme | Some s => findable s end ->
  exists k, dc_to_curve c = Ok k /\
    increasing (c_domain k) /\ (forall t, In t (c_domain k) <-> exists d, In d ds /\ t = tau o d) /\
    forall d, curve_call k (tau o d) = dc_call c d.
Proof.
  intros D P DS tm DC L count tau A dflt i orig o ds ys c E ND HO AD DF.
  assert (HL : length ds = length ys).
  { unfold dc_new in E. destruct (length ds =? length ys)%nat eqn:Q; [now apply Nat.eqb_eq|discriminate]. }
  assert (S : dstate (tm:=tm) count tau dflt i orig o ds ys c) by (now apply (dstate_iff (L:=L) count tau A dflt ds ys i orig o)).
  pose proof (times_nodup (L:=L) count tau A o ds ND) as NDt.
  destruct (dstate_origin _ _ _ _ _ _ _ _ _ S) as [EO [EC [ED EF]]].
  assert (CS : curve_spec i = dc_spec dflt i) by (destruct i; [reflexivity|now rewrite DF]).
  assert (TC : dc_to_curve c = curve_new (interp_kwarg i) (map (tau o) ds) ys).
  { unfold dc_to_curve. rewrite ED.
    assert (VAL : mapM (dc_val c) ds = Ok ys) by (now apply (dc_val_data (tm:=tm) count tau A dflt i orig o ds ys c S)).
    destruct (calls_ok c ds ys VAL) as [l ->]. cbn [bind]. rewrite VAL. cbn [bind].
    rewrite (mapM_ok _ (tau o)) by (intros d _; now apply (dc_time_ok count tau A)). cbn [bind].
    destruct S as [_ [_ [_ [f [_ ->]]]]]. reflexivity. }
  destruct (dstate_call (tm:=tm) count tau A dflt i orig o ds ys c o S) as [f [Ef _]].
  rewrite curve_new_form in TC by (rewrite ?map_length; auto). rewrite (fn_new_resolve (curve_spec (interp_kwarg i)) (curve_spec i)), CS, Ef in TC by (destruct i; [now apply findable_resolve|reflexivity]). cbn [bind] in TC.
  eexists. split; [exact TC|]. cbn [c_domain]. split; [|split].
  - apply canon_incr. now apply distinct_combine; rewrite ?map_length.
  - intros t. rewrite in_map_iff. split.
    + intros [[a z] [<- I]]. apply (Permutation_in _ (canon_perm _)) in I. apply in_combine_l in I.
      apply in_map_iff in I. destruct I as [d [<- I]]. eauto.
    + intros [d [I ->]]. assert (I' : In (tau o d) (map fst (combine (map (tau o) ds) ys))).
      { rewrite map_fst_combine by (now rewrite map_length). now apply in_map. }
      apply in_map_iff in I'. destruct I' as [[a z] [Ea I']]. exists (a, z). split; auto.
      eapply Permutation_in; [symmetry; apply canon_perm|exact I'].
  - intros d. destruct (dstate_call (tm:=tm) count tau A dflt i orig o ds ys c d S) as [f' [Ef' ->]].
    unfold curve_call. cbn [c_fn]. congruence.
Qed.
Print Assumptions C70_to_curve.

Local Notation ftau := (fun a b : R => b - a).
#[local] Instance no_counts {D} : DayCounts R D := [].

(** classes with another default interpolation (ForwardCurve and curves of discount
    factors or probabilities) are cast to a linearly interpolated Curve *)
Theorem C70_default_refuted : exists (c : dcurve R R) k,
  dc_new (DS:=FloatDates) log_linear_scheme [0; 2] [1; 4] None None DcDefault = Ok c /\
  dc_to_curve (DS:=FloatDates) c = Ok k /\
  dc_call (DS:=FloatDates) c 1 = Ok (Some 2) /\ curve_call k 1 = Ok (Some (5 / 2)).
Proof.
  pose proof (float_additive (DC:=no_counts)) as A.
  assert (ND : NoDup (map (fun d : R => d) [0; 2])) by (repeat constructor; simpl; intuition lra).
  assert (AD : admissible (dc_spec log_linear_scheme None) (times ftau 0 [0; 2] [1; 4])).
  { apply log_adm; [now apply (times_distinct (L:=float_laws) DcDefault _ A)|]. apply times_positive; auto.
    simpl. intuition lra. }
  destruct (dstate_exists (tm:=fun d : R => d) DcDefault ftau log_linear_scheme None None 0 [0; 2] [1; 4] eq_refl ND eq_refl AD) as [c S].
  destruct (dstate_origin _ _ _ _ _ _ _ _ _ S) as [EO [EC [ED EF]]].
  pose proof (dc_val_data (tm:=fun d : R => d) DcDefault ftau A _ _ _ _ _ _ _ S AD) as VAL.
  destruct (scheme_pl [0; 2] [1; 4]) as [f [Ef Hf]]; auto. { discriminate. }
  assert (T0 : map (ftau 0) [0; 2] = [0; 2]) by (cbn [map]; repeat f_equal; lra).
  exists c. eexists. split; [|split; [|split]].
  - apply (dstate_iff (L:=float_laws) DcDefault ftau A _ _ _ _ _ 0); auto.
  - unfold dc_to_curve. rewrite ED. destruct (calls_ok c [0; 2] [1; 4] VAL) as [l ->]. cbn [bind]. rewrite VAL. cbn [bind].
    rewrite (mapM_ok _ (ftau 0)) by (intros d _; now apply (dc_time_ok DcDefault ftau A)). cbn [bind].
    replace (dc_interp c) with (@None ispec) by (destruct S as [_ [_ [_ [f' [_ ->]]]]]; reflexivity).
    rewrite T0, curve_new_form by auto. change (curve_spec (interp_kwarg None)) with linear_scheme. rewrite Ef. reflexivity.
  - destruct (dstate_log (L:=float_laws) DcDefault ftau A None None 0 [0; 2] [1; 4] c 1 (fun d => d)) as [v [E [PV PL]]]; auto.
    + discriminate. + simpl. intuition lra.
    + rewrite E. do 2 f_equal. apply ln_inv; [lra|lra|].
      apply (pl_fun (combine (map (fun d : R => d) [0; 2]) (map ln [1; 4])) 1); [now apply distinct_combine|exact PL|].
      left. exists 0, (ln 1), 2, (ln 4). split; [|split; [lra|]].
      * repeat split; simpl; auto; try lra. intros z w [I|[I|[]]]; inversion I; subst; lra.
      * unfold chord. rewrite ln_1. replace 4 with (2 * 2) by ring. rewrite ln_mult by lra. field.
  - unfold curve_call. cbn [c_fn]. destruct (Hf 1) as [y [-> PL]]. do 2 f_equal.
    apply (pl_fun (combine [0; 2] [1; 4]) 1); [now apply distinct_combine|exact PL|].
    left. exists 0, 1, 2, 4. split; [|split; [lra|unfold chord; field]].
      repeat split; simpl; auto; try lra. intros z w [I|[I|[]]]; inversion I; subst; lra.
Qed.
Print Assumptions C70_default_refuted.

(** hypotheses of [C70_to_curve] are met *)
Example C70_example : exists (c : dcurve R R) k,
  dc_new (DS:=FloatDates) linear_scheme [3; 1; 2] [30; 10; 20] None None DcDefault = Ok c /\
  dc_to_curve (DS:=FloatDates) c = Ok k /\ forall d, curve_call k (d - 3) = dc_call (DS:=FloatDates) c d.
Proof.
  pose proof (float_additive (DC:=no_counts)) as A.
  assert (ND : NoDup (map (fun d : R => d) [3; 1; 2])) by (repeat constructor; simpl; intuition lra).
  assert (AD : admissible (dc_spec linear_scheme None) (times ftau 3 [3; 1; 2] [30; 10; 20])).
  { apply adm_linear. now apply (times_distinct (L:=float_laws) DcDefault _ A). }
  destruct (dstate_exists (tm:=fun d : R => d) DcDefault ftau linear_scheme None None 3 [3; 1; 2] [30; 10; 20] eq_refl ND eq_refl AD) as [c S].
  apply (dstate_iff (L:=float_laws) DcDefault ftau A _ _ _ _ _ 3) in S; auto.
  destruct (C70_to_curve FloatDates _ no_counts float_laws DcDefault _ A linear_scheme None None 3 [3; 1; 2] [30; 10; 20] c S ND eq_refl AD) as [k [E [_ [_ H]]]]; auto.
  exists c, k. auto.
Qed.

(** * C71: the default tenors *)
(** without a forward tenor, the period of a cash rate is three months *)
Theorem C71_cash_rate_tenor : forall {D P} (DS : DateSys R D P) (tm : D -> R) (DC : DayCounts R D), DateLaws DS tm ->
  forall (c : rcurve R D P) tau, additive (rc_yf c) tau -> rc_cls c <> CCashRate ->
  forall p, rc_tenor0 c = Some p \/ rc_tenor0 c = None /\ p = p_str T3months ->
  forall fuel s t df, d_eqb s t = false -> get_discount_factor fuel c s t = Ok df -> df <> 0 -> d_add s p = Ok t ->
  get_cash_rate (S fuel) c s None None = Ok ((1 / df - 1) / tau s t).
Proof.
  intros D P DS tm DC L c tau A K p HP fuel s t df NE E N Hp.
  apply (C24_cash_rate DS tm DC L c tau A K fuel s t df NE E N).
  replace (rc_tenor c) with p; auto. unfold rc_tenor.
  assert (CR : is_credit (rc_cls c) = false).
  { unfold get_discount_factor, interest_only in E. unfold is_credit. destruct (is_interest (rc_cls c)); [reflexivity|discriminate]. }
  rewrite CR. destruct HP as [->|[-> ->]]; reflexivity.
Qed.
Print Assumptions C71_cash_rate_tenor.

(** ... and the period of a marginal survival probability is one year *)
Theorem C71_marginal_tenor : forall {D P} (DS : DateSys R D P) (tm : D -> R) (DC : DayCounts R D), DateLaws DS tm ->
  forall (c : rcurve R D P) tau, additive (rc_yf c) tau ->
  rc_cls c = CMargSurvival \/ rc_cls c = CMargDefault ->
  forall p, rc_tenor0 c = Some p \/ rc_tenor0 c = None /\ p = p_str Tyear ->
  forall fuel s t v, d_add s p = Ok t -> d_ltb s t = true -> has_value c s v -> 2 / IZR (2 ^ 1022) <= v ->
  get_survival_prob (S (S fuel)) c s t = Ok v.
Proof.
  intros D P DS tm DC L c tau A K p HP fuel s t v Hp Hst Hv V.
  assert (T : rc_tenor c = p).
  { unfold rc_tenor. replace (is_credit (rc_cls c)) with true by (destruct K as [-> | ->]; reflexivity).
    destruct HP as [->|[-> ->]]; reflexivity. }
  assert (PV : 0 < v).
  { eapply Rlt_le_trans; [|exact V]. apply Rmult_lt_0_compat; [lra|]. apply Rinv_0_lt_compat, IZR_lt. reflexivity. }
  assert (NE : d_eqb s t = false) by (apply ltb_inv in Hst; apply eqb_f; lra).
  assert (NT : tau s t <> 0) by (intro Z; apply (add_zero _ _ A) in Z; congruence).
  unfold get_survival_prob, credit_only.
  replace (is_credit (rc_cls c)) with true by (destruct K as [-> | ->]; reflexivity).
  replace (factor (S (S fuel)) c s t) with (marginal_loop (S fuel) c s t n1)
    by (cbn [factor]; cbv zeta; rewrite NE; destruct K as [-> | ->]; reflexivity).
  cbn [marginal_loop]. rewrite T, Hp. cbn [bind].
  replace (d_ltb t t) with false by (symmetry; apply ltb_f; lra).
  unfold has_value in Hv. rewrite Hv. cbn [bind]. rewrite (not_tiny_true v V), !(add_val _ _ A). cbn [bind].
  rewrite continuous_rate_ok by auto. cbn [bind]. rewrite continuous_compounding_ok. cbn [bind]. f_equal. rn.
  replace (- (- ln v / tau s t * tau s t)) with (ln v) by (field; auto). rewrite exp_ln by auto. ring.
Qed.
Print Assumptions C71_marginal_tenor.

Example C71_example : exists c : rcurve R bdate bperiod,
  rc_new (DS:=DayDates) CMargSurvival [BD 0 1; BD 400 2] [9 / 10; 8 / 10] None None DcDefault None = Ok c /\
  get_survival_prob (DS:=DayDates) 2 c (BD 0 1) (BD 365 0) = Ok (9 / 10).
Proof.
  assert (A : additive (DS:=DayDates) (dc_apply DcDefault) _) by exact (default_additive (L:=day_laws)).
  pose proof fmin_small as F2. pose proof fmin_pos as F1.
  assert (SD : survival_data CMargSurvival [9 / 10; 8 / 10] = [9 / 10; 8 / 10]).
  { unfold survival_data. cbn [is_default map]. rewrite !clamp_id; auto; lra. }
  destruct (rc_new_log (L:=day_laws) DcDefault _ A CMargSurvival [BD 0 1; BD 400 2] [9 / 10; 8 / 10] [9 / 10; 8 / 10] None (BD 0 1) None)
    as [c [E [B [V _]]]]; auto.
  { rewrite <- SD at 2. now apply prepare_ok. } { simpl. repeat constructor; simpl; intuition lra. } { discriminate. }
  { simpl. intros y I. intuition lra. }
  exists c. split; auto. destruct B as [B1 [_ [_ [_ [_ [_ [B7 [_ [_ B10]]]]]]]]].
  apply (C71_marginal_tenor DayDates _ no_counts day_laws c _ B10) with (p := p_str Tyear); rewrite ?B1, ?B7; auto.
  - apply V. simpl; auto.
  - change (/ IZR (2 ^ 1022)) with fmin in *. unfold Rdiv. change (/ IZR (2 ^ 1022)) with fmin. lra.
Qed.

(** * C72: survival over an empty period *)
(** the probability to survive a period of length zero is 1 as long as the name has
    survived (curve value at least twice the smallest normal float), else 0 *)
Theorem C72_empty_period : forall {D P} (DS : DateSys R D P) (tm : D -> R) (DC : DayCounts R D), DateLaws DS tm ->
  forall (c : rcurve R D P) s v fuel, has_value c s v ->
  (rc_cls c = CSurvival \/ rc_cls c = CDefault) /\ ~ is_origin c s \/
  rc_cls c = CMargSurvival \/ rc_cls c = CMargDefault ->
  (2 / IZR (2 ^ 1022) <= v -> get_survival_prob (S fuel) c s s = Ok 1) /\
  (v < 2 / IZR (2 ^ 1022) -> get_survival_prob (S fuel) c s s = Ok 0).
Proof.
  intros D P DS tm DC L c s v fuel Hv K. unfold has_value in Hv.
  assert (E : get_survival_prob (S fuel) c s s = Ok (if not_tiny v then 1 else 0)).
  { unfold get_survival_prob, credit_only. cbn [factor]. cbv zeta. rewrite eqb_refl, Hv. cbn [bind].
    assert (AO : (rc_cls c = CSurvival \/ rc_cls c = CDefault) -> at_origin c s = false).
    { intro K'. destruct K as [[_ N]|K]; [|destruct K' as [-> | ->] in K; destruct K; discriminate].
      unfold at_origin. destruct (rc_origin c) as [o|] eqn:O; auto. destruct (d_is s o) eqn:I; auto.
      exfalso. apply N. exists o. auto. }
    destruct K as [[[K|K] _]|[K|K]]; rewrite K; cbn [is_credit is_interest is_vol negb andb]; rewrite ?AO by auto; reflexivity. }
  rewrite E. split; intro V.
  - now rewrite (not_tiny_true v V).
  - destruct (not_tiny v) eqn:T; auto. apply not_tiny_inv in T. unfold Rdiv in V. lra.
Qed.
Print Assumptions C72_empty_period.

(** a default is certain at date 2 *)
Example C72_example : exists c : rcurve R R (fperiod R),
  rc_new (DS:=FloatDates) CDefault [0; 1; 2] [0; 1 / 10; 1] None None DcDefault None = Ok c /\
  (forall fuel, get_survival_prob (DS:=FloatDates) (S fuel) c 1 1 = Ok 1) /\
  (forall fuel, get_survival_prob (DS:=FloatDates) (S fuel) c 2 2 = Ok 0).
Proof.
  pose proof fmin_small as F2. pose proof fmin_pos as F1.
  pose proof (float_additive (DC:=no_counts)) as A.
  assert (SD : survival_data CDefault [0; 1 / 10; 1] = [1 - fmin; 9 / 10; fmin]).
  { unfold survival_data. cbn [is_default map]. rewrite !clamp_val.
    rewrite (Rmin_right (1 - 0)), (Rmin_left (1 - 1 / 10)), (Rmin_left (1 - 1)) by lra.
    rewrite (Rmax_right fmin (1 - fmin)), (Rmax_right fmin (1 - 1 / 10)), (Rmax_left fmin (1 - 1)) by lra.
    do 2 f_equal. lra. }
  destruct (rc_new_rate (L:=float_laws) DcDefault _ A CDefault [0; 1; 2] [0; 1 / 10; 1] [1 - fmin; 9 / 10; fmin] None 0 None)
    as [c [E [B [V _]]]]; auto.
  { unfold prob_cls. auto. } { rewrite <- SD. now apply prepare_ok. } { repeat constructor; simpl; intuition lra. }
  { exists 1. simpl. split; [auto|lra]. } { simpl. intuition lra. }
  exists c. split; auto. destruct B as [K [_ [O _]]].
  assert (V1 : rc_call (DS:=FloatDates) c 1 = Ok (9 / 10)) by (apply V; simpl; auto).
  assert (V2 : rc_call (DS:=FloatDates) c 2 = Ok fmin) by (apply V; simpl; auto).
  assert (NO : forall d, d <> 0 -> ~ is_origin (DS:=FloatDates) c d).
  { intros d N [o [EO I]]. rewrite O in EO. inversion EO; subst. apply (law_is_eq (DateLaws:=float_laws)) in I. auto. }
  split; intro fuel.
  - refine (proj1 (C72_empty_period FloatDates _ no_counts float_laws c 1 (9 / 10) fuel V1 _) _).
    { left. split; [auto|]. apply NO. lra. } unfold Rdiv. change (/ IZR (2 ^ 1022)) with fmin. lra.
  - refine (proj2 (C72_empty_period FloatDates _ no_counts float_laws c 2 fmin fuel V2 _) _).
    { left. split; [auto|]. apply NO. lra. } unfold Rdiv. change (/ IZR (2 ^ 1022)) with fmin. lra.
Qed.

(** * C73: the linear short rate between two dates *)
(** a straight line in time which starts at the short rate and whose average is the zero
    rate of the period *)
Theorem C73_linear_short_rate : forall {D P} (DS : DateSys R D P) (DC : DayCounts R D) (c : rcurve R D P) tau,
  additive (rc_yf c) tau -> forall fuel previous follow r z, d_eqb previous follow = false ->
  get_short_rate fuel c previous = Ok r -> get_zero_rate fuel c previous follow = Ok z ->
  exists l, (forall s, linear_short_rate fuel c s previous follow = Ok (l s)) /\
    l previous = r /\ (l previous + l follow) / 2 = z /\
    forall s, l s = r + (l follow - r) * (tau previous s / tau previous follow).
Proof.
  intros D P DS DC c tau A fuel p f r z NE Hr Hz.
  assert (NT : tau p f <> 0) by (intro E; apply (add_zero _ _ A) in E; congruence).
  assert (Z : tau p p = 0) by (pose proof (add_add _ _ A p p p); lra).
  exists (fun s => r + 2 * (z - r) / tau p f * tau p s). split; [|split; [|split]].
  - intro s. unfold linear_short_rate. rewrite Hr, Hz. cbn [bind]. rewrite !(add_val _ _ A). cbn [bind].
    change (ndiv (nmul (n_ofZ 2) (nsub z r)) (tau p f)) with (Rdivp (2 * (z - r)) (tau p f)).
    rewrite Rdivp_ok by auto. cbn [bind]. reflexivity.
  - rewrite Z. ring.
  - rewrite Z. field. auto.
  - intro s. field. auto.
Qed.
Print Assumptions C73_linear_short_rate.

(** the hypotheses are met: two data points, short rate and zero rate between them *)
Example C73_example : exists (c : rcurve R bdate bperiod) r z,
  rc_new (DS:=DayDates) CZeroRate [BD 0 1; BD 10 2; BD 30 3] [1 / 100; 2 / 100; 3 / 100] None None DcDefault None = Ok c /\
  additive (DS:=DayDates) (rc_yf c) (fun a b => IZR (bd_day b) / (1461 / 4) - IZR (bd_day a) / (1461 / 4)) /\
  d_eqb (DateSys:=DayDates (T:=R)) (BD 10 2) (BD 30 3) = false /\
  get_short_rate (DS:=DayDates) 2 c (BD 10 2) = Ok r /\ get_zero_rate (DS:=DayDates) 2 c (BD 10 2) (BD 30 3) = Ok z.
Proof.
  assert (A : additive (DS:=DayDates) (dc_apply DcDefault) _) by exact (default_additive (L:=day_laws)).
  destruct (rc_new_linear (L:=day_laws) DcDefault _ A CZeroRate [BD 0 1; BD 10 2; BD 30 3] [1 / 100; 2 / 100; 3 / 100] None (BD 0 1) None) as [c [E [B [V _]]]]; auto.
  { reflexivity. } { simpl. repeat constructor; simpl; intuition lra. } { discriminate. }
  destruct B as [B1 [B2 [B3 [_ [_ [_ [_ [_ [_ B10]]]]]]]]].
  assert (Z : forall n, exists z, get_zero_rate (DS:=DayDates) (S n) c (BD 10 2) (BD 30 3) = Ok z).
  { intro n. unfold get_zero_rate, interest_only. rewrite B1. cbn [is_interest].
    pose proof (flat_rate (L:=day_laws) c (BD 0 1) _ B3 B10 n (BD 10 2) (BD 30 3) (2 / 100) (3 / 100)) as H.
    eexists. apply H; auto; try (apply V; simpl; auto); rewrite ?B1; unfold flat_cls; auto. }
  destruct (Z 1%nat) as [z Hz]. destruct (Z 0%nat) as [r Hr].
  exists c, r, z. split; auto. split; [exact B10|]. split; [reflexivity|]. split; [|exact Hz].
  rewrite <- Hr. apply (C32_short_rate DayDates _ no_counts day_laws c); rewrite ?B1, ?B2; try discriminate; simpl; auto.
  - repeat constructor; simpl; intuition lra.
  - intros d [<-|[<-|[<-|[]]]]; auto.
Qed.

(** * C74: item assignment *)
(** the classes which interpolate logarithms *)
Definition positive_class (k : cls) : Prop := k = CDiscountFactor \/ is_probability k = true.
(** ... and those which interpolate rates, not defined by a value at the origin alone *)
Definition rate_class (k : cls) : Prop := k = CDiscountFactor \/ k = CSurvival \/ k = CDefault.

(** curves without spread: the value at key is the assigned one, the values at the other
    dates of the curve stay *)
Theorem C74_setitem : forall {D P} (DS : DateSys R D P) (tm : D -> R) (DC : DayCounts R D), DateLaws DS tm ->
  forall count tau, additive (dc_apply count) tau ->
  forall k ds ys orig o (tenor : option P) c, rc_new k ds ys None orig count tenor = Ok c ->
  NoDup (map tm ds) -> dom_origin orig ds = Some o ->
  (rate_class k -> exists d, In d ds /\ d_eqb d o = false) ->
  forall v, (forall d, In d ds -> has_value c d (v d) /\ (positive_class k -> 0 < v d)) ->
  forall key y, (positive_class k -> 0 < y) ->
  exists c', rc_setitem c key y = Ok c' /\ rc_spread c' = None /\ has_value c' key y /\
    forall x, In x ds -> d_eqb x key = false -> has_value c' x (v x).
Proof.
  intros D P DS tm DC L count tau A k ds ys orig o tenor c E ND HO RC v V key y PY.
  destruct (rc_new_dstate (L:=L) count tau A k ds ys orig o tenor c E ND HO) as [ys' [d [S ->]]].
  assert (VM : mapM (rc_call (mkR k d tenor None)) ds = Ok (map v ds)) by (apply mapM_ok; intros x I; now apply V).
  destruct (rc_setitem_values (L:=L) count tau A k ds ys' (map v ds) orig o tenor d None key y S VM) as [d' [E' [H1 H2]]].
  - intro PC. split; [now apply PY|]. intros z I. apply in_map_iff in I. destruct I as [x [<- I]]. now apply V.
  - intros PC. destruct RC as [x [I N]]; auto. exists x. split; auto. now apply eqb_finv.
  - exists (mkR k d' tenor None). split; auto. split; auto. split.
    + unfold has_value. rewrite rc_call_plain. now apply H2.
    + intros x I N. unfold has_value. rewrite rc_call_plain. apply H1.
      * now apply in_combine_map.
      * now apply eqb_finv.
Qed.
Print Assumptions C74_setitem.

(** curves with a spread: the spread is added to the assigned value, and once more to the
    values at all other dates of the curve *)
Theorem C74_spread_refuted : forall {D P} (DS : DateSys R D P) (tm : D -> R) (DC : DayCounts R D), DateLaws DS tm ->
  forall count tau, additive (dc_apply count) tau ->
  forall k ds ys orig o (tenor : option P) c, rc_new k ds ys None orig count tenor = Ok c ->
  NoDup (map tm ds) -> dom_origin orig ds = Some o ->
  (rate_class k -> exists d, In d ds /\ d_eqb d o = false) ->
  forall s v w c1, set_spread c (Some s) = Ok c1 -> (forall d, spread_value s d = Ok (w d)) ->
  (forall d, In d ds -> has_value c d (v d) /\ (positive_class k -> 0 < v d + w d)) ->
  forall key y, (positive_class k -> 0 < y) ->
  exists c', rc_setitem c1 key y = Ok c' /\ has_value c' key (y + w key) /\
    forall x, In x ds -> d_eqb x key = false ->
      has_value c1 x (v x + w x) /\ has_value c' x (v x + w x + w x).
Proof.
  intros D P DS tm DC L count tau A k ds ys orig o tenor c E ND HO RC s v w c1 E1 W V key y PY.
  destruct (rc_new_dstate (L:=L) count tau A k ds ys orig o tenor c E ND HO) as [ys' [d [S ->]]].
  cbn in E1. inversion E1; subst c1. clear E1.
  assert (SP : forall d x z, dc_val d x = Ok z -> rc_call (mkR k d tenor (Some s)) x = Ok (z + w x)).
  { intros d0 x z Hz. pose proof (W x) as Wx. unfold spread_value in Wx. cbn [rc_call].
    destruct s as [e|r]; rewrite Wx; cbn [bind]; rewrite Hz; reflexivity. }
  assert (V' : forall x, In x ds -> rc_call (mkR k d tenor (Some s)) x = Ok (v x + w x)).
  { intros x I. apply SP. destruct (V x I) as [H _]. unfold has_value in H. now rewrite rc_call_plain in H. }
  assert (VM : mapM (rc_call (mkR k d tenor (Some s))) ds = Ok (map (fun x => v x + w x) ds)) by now apply mapM_ok.
  destruct (rc_setitem_values (L:=L) count tau A k ds ys' (map (fun x => v x + w x) ds) orig o tenor d (Some s) key y S VM) as [d' [E' [H1 H2]]].
  - intro PC. split; [now apply PY|]. intros z I. apply in_map_iff in I. destruct I as [x [<- I]]. now apply V.
  - intros PC. destruct RC as [x [I N]]; auto. exists x. split; auto. now apply eqb_finv.
  - exists (mkR k d' tenor (Some s)). split; auto. split.
    + unfold has_value. apply SP. now apply H2.
    + intros x I N. unfold has_value. split; [now apply V'|]. apply SP. apply H1.
      * now apply (in_combine_map (fun x => v x + w x)).
      * now apply eqb_finv.
Qed.
Print Assumptions C74_spread_refuted.

(** probability curves: any positive number is stored as it is, so a survival probability
    may exceed 1, and the value assigned to a default probability curve becomes the
    survival probability (built from the same value the curve has one minus it, see C30) *)
Theorem C74_probability_refuted : forall {D P} (DS : DateSys R D P) (tm : D -> R) (DC : DayCounts R D), DateLaws DS tm ->
  forall count tau, additive (dc_apply count) tau ->
  forall k ds ys orig o (tenor : option P), k = CSurvival \/ k = CDefault ->
  length ds = length ys -> NoDup (map tm ds) ->
  dom_origin orig ds = Some o -> (exists d, In d ds /\ d_eqb d o = false) ->
  forall key y, 0 < y ->
  exists c c', rc_new k ds ys None orig count tenor = Ok c /\ rc_setitem c key y = Ok c' /\
    forall fuel, get_survival_prob1 (S fuel) c' key = Ok y.
Proof.
  intros D P DS tm DC L count tau A k ds ys orig o tenor K HL ND HO [d1 [I1 N1]] key y Py.
  assert (PK : is_probability k = true) by (destruct K as [-> | ->]; reflexivity).
  pose proof fmin_pos as F1.
  assert (PD : forall z, In z (survival_data k ys) -> 0 < z).
  { intros z I. unfold survival_data in I. apply in_map_iff in I. destruct I as [x [<- _]].
    match goal with |- 0 < clamp ?u => pose proof (clamp_range u); lra end. }
  assert (LS : length ds = length (survival_data k ys)) by (unfold survival_data; now rewrite map_length).
  destruct (rc_new_rate (L:=L) count tau A k ds ys (survival_data k ys) orig o tenor) as [c [E [B [V _]]]]; auto.
  { unfold prob_cls. tauto. } { now apply prepare_ok. } { exists d1. split; auto. now apply eqb_finv. }
  assert (VV : forall d, In d ds -> exists z, rc_call c d = Ok z /\ 0 < z).
  { intros d I. destruct (in_combine_ex ds (survival_data k ys) d LS I) as [z Iz]. exists z. split; [now apply V|].
    apply PD. eapply in_combine_r; eauto. }
  destruct (C74_setitem DS tm DC L count tau A k ds ys orig o tenor c E ND HO) with (v := fun d => match rc_call c d with Ok z => z | _ => 0 end) (key := key) (y := y)
    as [c' [E' [_ [H1 _]]]]; auto.
  { intros _. eauto. }
  { intros d I. destruct (VV d I) as [z [Ez Pz]]. unfold has_value. rewrite Ez. auto. }
  exists c, c'. split; auto. split; auto. intro fuel.
  assert (O : rc_origin c' = Some o /\ rc_cls c' = k).
  { destruct B as [B1 [_ [B3 _]]]. unfold rc_setitem in E'.
    destruct (rc_new_dstate (L:=L) count tau A k ds ys orig o tenor c E ND HO) as [ys' [d [S ->]]]. cbn [rc_dc rc_cls rc_tenor0 rc_spread] in E'.
    destruct (dc_setitem_with _ d key y) as [d'|] eqn:Ed; [|discriminate]. cbn [bind] in E'. inversion E'; subst.
    split; [|reflexivity]. unfold rc_origin. cbn [rc_dc]. eapply setitem_origin; eauto. }
  destruct O as [O C]. unfold get_survival_prob1, from_origin. rewrite O. unfold get_survival_prob, credit_only. rewrite C.
  replace (is_credit k) with true by (destruct K as [-> | ->]; reflexivity).
  cbn [factor]. cbv zeta. rewrite C. unfold at_origin. rewrite O, (law_is_refl (DateLaws:=L)).
  unfold has_value in H1. destruct K as [-> | ->]; exact H1.
Qed.
Print Assumptions C74_probability_refuted.

(** concrete curves: the zero rate curve (0, 1/10), (1, 2/10) with and without the spread
    1/100, and the default probability curve (1, 1/10) with origin 0 *)
Example C74_example : exists c c1 c' c1' p p' : rcurve R R (fperiod R), exists s,
  rc_new (DS:=FloatDates) CZeroRate [0; 1] [1 / 10; 2 / 10] None None DcDefault None = Ok c /\
  rc_setitem (DS:=FloatDates) c 1 (3 / 10) = Ok c' /\
  rc_call (DS:=FloatDates) c' 1 = Ok (3 / 10) /\ rc_call (DS:=FloatDates) c' 0 = Ok (1 / 10) /\
  set_spread c (Some s) = Ok c1 /\ (forall d, spread_value (DS:=FloatDates) s d = Ok (1 / 100)) /\
  rc_setitem (DS:=FloatDates) c1 1 (3 / 10) = Ok c1' /\
  rc_call (DS:=FloatDates) c1' 1 = Ok (3 / 10 + 1 / 100) /\
  rc_call (DS:=FloatDates) c1' 0 = Ok (1 / 10 + 1 / 100 + 1 / 100) /\
  rc_new (DS:=FloatDates) CDefault [1] [1 / 10] None (Some 0) DcDefault None = Ok p /\
  rc_setitem (DS:=FloatDates) p 2 (2 / 10) = Ok p' /\ get_survival_prob1 (DS:=FloatDates) 1 p' 2 = Ok (2 / 10).
Proof.
  pose proof (float_additive (DC:=no_counts)) as A.
  assert (ND : NoDup (map (fun d : R => d) [0; 1])) by (repeat constructor; simpl; intuition lra).
  destruct (rc_new_linear (L:=float_laws) DcDefault _ A CZeroRate [0; 1] [1 / 10; 2 / 10] None 0 None) as [c [E [B [V _]]]]; auto.
  { reflexivity. } { discriminate. }
  destruct (rc_new_linear (L:=float_laws) DcDefault _ A CZeroRate [0] [1 / 100] None 0 None) as [s [E' [B' [_ V']]]]; auto.
  { reflexivity. } { repeat constructor; simpl; intuition lra. } { discriminate. }
  assert (NP : ~ positive_class CZeroRate) by (intros [H|H]; discriminate).
  assert (NR : ~ rate_class CZeroRate) by (intros [H|[H|H]]; discriminate).
  assert (HV : forall d, In d [0; 1] -> has_value (DS:=FloatDates) c d ((1 + d) / 10)).
  { intros d I. assert (I' : In (d, (1 + d) / 10) (combine [0; 1] [1 / 10; 2 / 10])).
    { simpl in I. destruct I as [<-|[<-|[]]]; simpl; [left|right; left]; f_equal; lra. } now apply V. }
  assert (N01 : d_eqb (DateSys:=FloatDates) 0 1 = false) by (apply (eqb_f (L:=float_laws)); lra).
  destruct (C74_setitem FloatDates _ no_counts float_laws DcDefault _ A CZeroRate [0; 1] [1 / 10; 2 / 10] None 0 None c E ND eq_refl)
    with (v := fun d => (1 + d) / 10) (key := 1) (y := 3 / 10) as [c' [Ec [_ [H1 H2]]]].
  { intros H; now apply NR in H. } { intros d I. split; auto. intro H. now apply NP in H. } { intro H. now apply NP in H. }
  assert (W : forall d, spread_value (DS:=FloatDates) (inr s) d = Ok (1 / 100)).
  { intro d. cbn [spread_value]. destruct (V' d) as [y [-> H]]. f_equal. specialize (H (fun x => x) ltac:(intros; reflexivity)).
    apply (pl_fun (combine (map (fun x : R => x) [0]) [1 / 100]) d); auto.
    - apply distinct_combine; auto. repeat constructor; simpl; auto.
    - right. destruct (Rle_dec d 0); [left|right]; exists 0; (split; [simpl; auto|split; [|lra]]);
        intros a z [I|[]]; inversion I; lra. }
  assert (SC : rc_spread c = None) by apply B.
  destruct (C29_spread_adds FloatDates no_counts c (inr s) SC) as [c1 [Es _]].
  destruct (C74_spread_refuted FloatDates _ no_counts float_laws DcDefault _ A CZeroRate [0; 1] [1 / 10; 2 / 10] None 0 None c E ND eq_refl)
    with (s := @inr (dcurve R R) _ s) (v := fun d => (1 + d) / 10) (w := fun _ : R => 1 / 100) (c1 := c1) (key := 1) (y := 3 / 10) as [c1' [Ec1 [H3 H4]]]; auto.
  { intros H; now apply NR in H. } { intros d I. split; auto. intro H. now apply NP in H. } { intro H. now apply NP in H. }
  destruct (C74_probability_refuted FloatDates _ no_counts float_laws DcDefault _ A CDefault [1] [1 / 10] (Some 0) 0 None) with (key := 2) (y := 2 / 10)
    as [p [p' [Ep [Ep' Hp]]]]; auto.
  { repeat constructor; simpl; auto. } { exists 1. split; [simpl; auto|]. apply (eqb_f (L:=float_laws)). lra. } { lra. }
  exists c, c1, c', c1', p, p', (inr s).
  refine (conj E (conj Ec (conj H1 (conj _ (conj Es (conj W (conj Ec1 (conj H3 (conj _ (conj Ep (conj Ep' (Hp 0%nat)))))))))))).
  - replace (1 / 10) with ((1 + 0) / 10) by lra. apply H2; simpl; auto.
  - destruct (H4 0) as [_ H]; [simpl; auto|auto|]. unfold has_value in H. rewrite H. f_equal. lra.
Qed.

(** * C75: rating names and values *)
(** the name of a rating between the classes lists exactly those classes that have a
    weight other than zero, with their weights *)
Theorem C75_mixed_name : forall {K} (m : list (K * R)) sloppy x w,
  (forall k y, In (k, y) m -> Rround7 x <> Rround7 y) -> rating_vector sloppy m x = Ok w ->
  exists l, rating_name sloppy m x = Ok (inr l) /\
    forall k a, In (k, a) l <-> a <> 0 /\ exists i, nth_error (ms_keys m) i = Some k /\ nth_error w i = Some a.
Proof.
  intros K m sloppy x w N E. unfold rating_name.
  replace (first_match x m) with (@None K).
  - rewrite E. cbn [bind]. eexists. split; [reflexivity|]. intros k a. rewrite filter_In. split.
    + intros [I T]. cbn [snd] in T. unfold ntruthy in T. revert T. rn. intro T. apply negb_true_iff in T. split.
      * intros ->. rewrite (proj2 (Reqb_true 0 0) eq_refl) in T. discriminate.
      * now apply in_combine_nth_error.
    + intros [NZ I]. split; [now apply in_combine_nth_error|]. cbn [snd]. unfold ntruthy. rn. apply negb_true_iff.
      destruct (Reqb a 0) eqn:Q; auto. apply Reqb_true in Q. contradiction.
  - symmetry. clear E. induction m as [|[k y] m IH]; auto. cbn [first_match]. rn.
    destruct (Reqb (Rround7 x) (Rround7 y)) eqn:Q.
    + apply Reqb_true in Q. exfalso. apply (N k y); simpl; auto.
    + apply IH. intros k' y' I. apply (N k' y'). now right.
Qed.
Print Assumptions C75_mixed_name.

(** hypotheses met: 3/4 lies in the middle between 1/2 and 1 *)
Example C75_example : exists l, rating_name false [(0%nat, 1 / 2); (1%nat, 1)] (3 / 4) = Ok (inr l) /\
  forall k a, In (k, a) l -> a <> 0.
Proof.
  assert (RI : forall z : Z, Rround7 (IZR z / IZR 10000000) = IZR z / IZR 10000000).
  { intro z. unfold Rround7. replace (IZR z / IZR 10000000 * IZR 10000000) with (IZR z) by (field). now rewrite rhe_int. }
  pose proof (RI 5000000%Z) as R1. pose proof (RI 7500000%Z) as R2.
  replace (IZR 5000000 / IZR 10000000) with (1 / 2) in R1 by lra.
  replace (IZR 7500000 / IZR 10000000) with (3 / 4) in R2 by lra.
  destruct C60_example as [w [_ [E _]]].
  destruct (C75_mixed_name [(0%nat, 1 / 2); (1%nat, 1)] false (3 / 4) w) as [l [El H]]; auto.
  - intros k y I. simpl in I. destruct I as [I|[I|[]]]; inversion I; subst; rewrite ?R1, ?R2, ?round7_1; lra.
  - exists l. split; auto. intros k a I. now apply (H k a).
Qed.

(** a rating given by a class key has the value of that class; an unknown key is refused *)
Theorem C75_value : forall {K} (keqb : K -> K -> bool), (forall a b, keqb a b = true <-> a = b) ->
  forall (m : list (K * R)), NoDup (map fst m) ->
  (forall k y, In (k, y) m -> rating_value keqb m (inl k) = Ok y) /\
  (forall k, ~ In k (map fst m) -> rating_value keqb m (inl k) = Err TypeError) /\
  (forall x, rating_value keqb m (inr x) = Ok x).
Proof.
  intros K keqb HK m ND. split; [|split]; [| |reflexivity].
  - intros k y I. unfold rating_value. replace (assoc keqb k m) with (Some y); auto. symmetry.
    induction m as [|[k' y'] m IH]; [destruct I|]. inversion ND as [|? ? N1 N2]; subst. cbn [assoc].
    destruct I as [I|I].
    + inversion I; subst. now rewrite (proj2 (HK k k) eq_refl).
    + destruct (keqb k' k) eqn:Q; auto. apply HK in Q. subst. exfalso. apply N1. apply in_map_iff. now exists (k, y).
  - intros k N. unfold rating_value. replace (assoc keqb k m) with (@None R); auto. symmetry.
    induction m as [|[k' y'] m IH]; auto. inversion ND as [|? ? N1 N2]; subst. cbn [assoc].
    destruct (keqb k' k) eqn:Q; [apply HK in Q; subst; exfalso; apply N; now left|]. apply IH; auto. intro I. apply N. now right.
Qed.
Print Assumptions C75_value.

(** * C33: instantaneous volatilities *)
(** from a curve of terminal volatilities: the forward volatility of one day; from a
    curve of instantaneous volatilities: the curve value *)
Theorem C33_instantaneous_vol : forall {D P} (DS : DateSys R D P) (tm : D -> R) (DC : DayCounts R D),
  DateLaws DS tm -> forall (c : rcurve R D P) o tau, additive (rc_yf c) tau -> monotone tau -> rc_origin c = Some o ->
  forall s v fuel flr, has_value c s v ->
  (rc_cls c = CInstVol -> instantaneous_vol (S fuel) flr c s = Ok v) /\
  (rc_cls c = CTermVol -> forall t vt, d_add s (p_str Tday) = Ok t -> d_ltb s t = true -> has_value c t vt ->
   (d_eqb s o = true -> instantaneous_vol (S fuel) flr c s = Ok vt) /\
   (d_ltb o s = true -> 0 <= tau o t * (vt * vt) - tau o s * (v * v) ->
    exists x, instantaneous_vol (S fuel) None c s = Ok x /\ 0 <= x /\
      (x * x) * tau s t + (v * v) * tau o s = (vt * vt) * tau o t)).
Proof.
  intros D P DS tm DC L c o tau A M O s v fuel flr Hv. unfold instantaneous_vol. split.
  - intros ->. exact Hv.
  - intros K t vt Ht Hst Hvt. rewrite K, Ht. cbn [bind]. split.
    + intro E. cbn [terminal_vol]. rewrite K, O, E. exact Hvt.
    + intros Hos W. destruct (C33_terminal_vol DS tm DC L c o tau A M K O s t v vt fuel Hv Hvt Hos Hst) as [_ [H _]].
      destruct (H W) as [x [E [P1 [P2 _]]]]. exists x. auto.
Qed.
Print Assumptions C33_instantaneous_vol.

Example C33_example_instantaneous : exists c : rcurve R bdate bperiod,
  rc_new (DS:=DayDates) CTermVol [BD 0 1; BD 10 2] [1 / 5; 1 / 5] None None DcDefault None = Ok c /\
  exists x, instantaneous_vol (DS:=DayDates) 1 None c (BD 3 0) = Ok x /\ 0 <= x.
Proof.
  assert (A : additive (DS:=DayDates) (dc_apply DcDefault) _) by exact (default_additive (L:=day_laws)).
  destruct (rc_new_linear (L:=day_laws) DcDefault _ A CTermVol [BD 0 1; BD 10 2] [1 / 5; 1 / 5] None (BD 0 1) None) as [c [E [B [_ V]]]]; auto.
  { reflexivity. } { simpl. repeat constructor; simpl; intuition lra. } { discriminate. }
  exists c. split; auto. destruct B as [B1 [_ [B3 [_ [_ [_ [_ [_ [_ B10]]]]]]]]].
  assert (V1 : forall n, (0 <= n <= 10)%Z -> has_value (DS:=DayDates) c (BD n 0) (1 / 5)).
  { intros n Hn. unfold has_value. destruct (V (BD n 0)) as [y [-> H]]. f_equal.
    specialize (H (fun d => IZR (bd_day d) / (1461 / 4)) ltac:(intros; reflexivity)).
    apply (pl_fun (combine (map (fun d => IZR (bd_day d) / (1461 / 4)) [BD 0 1; BD 10 2]) [1 / 5; 1 / 5]) (IZR n / (1461 / 4))); auto.
    - apply distinct_combine; auto. simpl. repeat constructor; simpl; intuition lra.
    - left. exists (IZR 0 / (1461 / 4)), (1 / 5), (IZR 10 / (1461 / 4)), (1 / 5). split; [|split].
      + repeat split; simpl; auto; try lra. intros z w [I|[I|[]]]; inversion I; subst; lra.
      + destruct Hn as [H1 H2]. apply IZR_le in H1. apply IZR_le in H2. simpl. lra.
      + unfold chord. lra. }
  destruct (C33_instantaneous_vol DayDates _ no_counts day_laws c (BD 0 1) _ B10) with (s := BD 3 0) (v := 1 / 5) (fuel := 0%nat) (flr := @None R) as [_ H]; auto.
  - intros a b. rewrite (law_ltb (DateLaws:=day_laws)). lra.
  - apply V1. lia.
  - destruct (H B1 (BD 4 0) (1 / 5)) as [_ H']; auto. { apply V1. lia. }
    destruct H' as [x [Ex [Px _]]]; auto.
    { simpl. lra. }
    exists x. auto.
Qed.
