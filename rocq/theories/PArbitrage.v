(** Property C107: forward rates between grid dates, and whether discount factors and
    survival probabilities fall in time. *)
From Coq Require Import Reals Lra Lia List Bool ZArith.
From Verif Require Import Num Py Spec SInterpolation SCurve SDates SRateCurve SArbitrage LBase LCompounding MCompounding MInterpolation MDates
  MCurve MRateCurve LDates LFuel LInterpolation LInterpolation2 LCurve LCurve2 LDateCurve LRateCurve LRateCurve2 LRateCurve3 LRateCurve4 LCredit PRateCurve PCredit LArbitrage.
Import ListNotations.
Open Scope R_scope.

Section Zero.
  Context {D P : Type} (DS : DateSys R D P) (tm : D -> R) (DC : DayCounts R D) (L : DateLaws DS tm).
  Variables (count : dcspec R D) (tau : D -> D -> R).
  Hypothesis (A : additive (dc_apply count) tau).

  (** [c] is the zero rate curve of the given data with the given origin *)
  Definition zero_rates (ds : list D) (ys : list R) (orig : option D) (tenor : option P) (o : D) (c : rcurve R D P) : Prop :=
    ds <> [] /\ length ds = length ys /\ NoDup (map tm ds) /\
    match orig with Some x => Some x | None => hd_error ds end = Some o /\
    rc_new CZeroRate ds ys None orig count tenor = Ok c.

  Lemma zero_pl ds ys orig tenor o c : zero_rates ds ys orig tenor o c ->
    let ps := combine (map (tau o) ds) ys in
    ps <> [] /\ distinct ps /\ rc_cls c = CZeroRate /\ rc_origin c = Some o /\ additive (rc_yf c) tau /\ date_values c /\
    forall d, exists y, has_value c d y /\ piecewise_linear ps (tau o d) y.
  Proof.
    intros (NE & HL & ND & HO & E) ps.
    destruct (rc_new_linear (L:=L) count tau A CZeroRate ds ys orig o tenor) as [c' [E' [B [_ V]]]]; auto; [reflexivity|].
    rewrite E in E'. inversion E'; subst c'. destruct B as [B1 [_ [B3 [_ [_ [_ [_ [_ [B9 B10]]]]]]]]].
    split; [|split; [|repeat split; auto; try apply B10]].
    - unfold ps. destruct ds, ys; try discriminate; congruence.
    - unfold ps. apply (times_distinct (L:=L) count tau A); auto.
    - intro d. destruct (V d) as [y [Hy PL]]. exists y. split; auto. apply PL. intros a b. apply (tau_diff A).
  Qed.

  Lemma zero_df ds ys orig tenor o c : zero_rates ds ys orig tenor o c ->
    let ps := combine (map (tau o) ds) ys in
    forall s t, exists u v, piecewise_linear ps (tau o s) u /\ piecewise_linear ps (tau o t) v /\
      forall fuel, (2 <= fuel)%nat -> get_discount_factor fuel c s t = Ok (exp (- (v * tau o t - u * tau o s))).
  Proof.
    intros Z ps s t. destruct (zero_pl _ _ _ _ _ _ Z) as (_ & _ & K & HO & A' & DV & V).
    destruct (V s) as [u [Hu PU]]. destruct (V t) as [v [Hv PV]]. exists u, v. split; auto. split; auto.
    intros fuel F. destruct fuel as [|[|n]]; try lia. unfold get_discount_factor, interest_only. rewrite K. cbn [is_interest].
    apply (flat_factor c o tau HO A' n s t u v); auto. now left.
  Qed.

  (** between neighbouring grid dates, at times a and b with zero rates ya and yb, the
      forward rate between any two dates is linear in the sum of their times *)
  Theorem C107_forward_rate : forall ds ys orig tenor o c, zero_rates ds ys orig tenor o c ->
    forall a ya b yb, consecutive (combine (map (tau o) ds) ys) a ya b yb ->
    forall s t, a <= tau o s <= b -> a <= tau o t <= b -> d_eqb s t = false ->
    forall fuel, (3 <= fuel)%nat ->
    get_zero_rate fuel c s t = Ok (ya + slope a ya b yb * (tau o s + tau o t - a)).
  Proof.
    intros ds ys orig tenor o c Z a ya b yb C s t Hs Ht N fuel F.
    destruct (zero_pl _ _ _ _ _ _ Z) as (_ & DD & _ & _ & A' & _ & _).
    destruct (zero_df _ _ _ _ _ _ Z s t) as (u & v & U & V & E).
    assert (Eu : u = chord a ya b yb (tau o s)).
    { apply (pl_fun _ _ _ _ DD U). left. exists a, ya, b, yb. split; auto. }
    assert (Ev : v = chord a ya b yb (tau o t)).
    { apply (pl_fun _ _ _ _ DD V). left. exists a, ya, b, yb. split; auto. }
    rewrite (C22_zero_rate_of_discount_factor DS tm DC L c tau A' 2 s t _ N (E 2%nat ltac:(lia)) (exp_pos _) fuel) by lia.
    rewrite ln_exp. f_equal. subst u v. pose proof (tau_diff A o s t) as T.
    assert (tau s t <> 0). { intro H. apply (add_zero _ _ A') in H. congruence. }
    destruct C as (_ & _ & Lab & _). rewrite (chord_forward a ya b yb (tau o s) (tau o t) Lab). rewrite T in *. field. lra.
  Qed.

  (** before the first and after the last date it is the zero rate there *)
  Theorem C107_forward_rate_outside : forall ds ys orig tenor o c, zero_rates ds ys orig tenor o c ->
    forall a y, In (a, y) (combine (map (tau o) ds) ys) ->
    forall s t, d_eqb s t = false ->
    (is_first (combine (map (tau o) ds) ys) a /\ tau o s <= a /\ tau o t <= a) \/
    (is_last (combine (map (tau o) ds) ys) a /\ a <= tau o s /\ a <= tau o t) ->
    forall fuel, (3 <= fuel)%nat -> get_zero_rate fuel c s t = Ok y.
  Proof.
    intros ds ys orig tenor o c Z a y I s t N H fuel F.
    destruct (zero_pl _ _ _ _ _ _ Z) as (_ & DD & _ & _ & A' & _ & _).
    destruct (zero_df _ _ _ _ _ _ Z s t) as (u & v & U & V & E).
    assert (Eu : u = y).
    { apply (pl_fun _ _ _ _ DD U). right. destruct H as [(H1 & H2 & H3)|(H1 & H2 & H3)]; [left|right]; exists a; auto. }
    assert (Ev : v = y).
    { apply (pl_fun _ _ _ _ DD V). right. destruct H as [(H1 & H2 & H3)|(H1 & H2 & H3)]; [left|right]; exists a; auto. }
    rewrite (C22_zero_rate_of_discount_factor DS tm DC L c tau A' 2 s t _ N (E 2%nat ltac:(lia)) (exp_pos _) fuel) by lia.
    rewrite ln_exp. f_equal. subst u v. pose proof (tau_diff A o s t) as T.
    assert (tau s t <> 0). { intro X. apply (add_zero _ _ A') in X. congruence. }
    rewrite T in *. field. lra.
  Qed.

  (** if no forward rate at the ends of the segments is negative, then none is: discount
      factors fall in time *)
  Theorem C107_falling : forall ds ys orig tenor o c, zero_rates ds ys orig tenor o c ->
    forwards_nonneg (combine (map (tau o) ds) ys) ->
    forall s t, 0 <= tau s t -> exists x, 0 < x <= 1 /\
    forall fuel, (2 <= fuel)%nat -> get_discount_factor fuel c s t = Ok x.
  Proof.
    intros ds ys orig tenor o c Z FN s t T.
    destruct (zero_pl _ _ _ _ _ _ Z) as (NE & DD & _).
    destruct (zero_df _ _ _ _ _ _ Z s t) as (u & v & U & V & E).
    exists (exp (- (v * tau o t - u * tau o s))). split; [|exact E]. split; [apply exp_pos|].
    pose proof (tau_diff A o s t) as T'.
    assert (u * tau o s <= v * tau o t) by (apply (rising _ NE DD FN); auto; lra).
    rewrite <- exp_0. destruct (Req_dec (v * tau o t - u * tau o s) 0) as [->|]; [rewrite Ropp_0; lra|].
    left. apply exp_increasing. lra.
  Qed.
End Zero.
Print Assumptions C107_forward_rate.
Print Assumptions C107_forward_rate_outside.
Print Assumptions C107_falling.

(** for float dates the condition is also necessary *)
Theorem C107_falling_iff : forall (DC : DayCounts R R) ds ys orig tenor o (c : rcurve R R (fperiod R)),
  zero_rates FloatDates (fun d => d) DC DcDefault ds ys orig tenor o c ->
  ((forall s t, s <= t -> exists x, x <= 1 /\ get_discount_factor (DS:=FloatDates) 2 c s t = Ok x) <->
   forwards_nonneg (combine (map (fun d => d - o) ds) ys)).
Proof.
  intros DC ds ys orig tenor o c Z. pose proof (float_additive (DC:=DC)) as A.
  destruct (zero_pl _ _ _ float_laws _ _ A _ _ _ _ _ _ Z) as (NE & DD & _). split.
  - intro H. apply rising_inv; auto. intros x y u v Lxy U V.
    destruct (H (o + x) (o + y)) as (w & Hw & E); [lra|].
    destruct (zero_df _ _ _ float_laws _ _ A _ _ _ _ _ _ Z (o + x) (o + y)) as (u' & v' & U' & V' & E').
    cbv beta in *. replace (o + x - o) with x in * by lra. replace (o + y - o) with y in * by lra.
    rewrite (pl_fun _ _ _ _ DD U' U), (pl_fun _ _ _ _ DD V' V) in *.
    rewrite (E' 2%nat) in E by lia. inversion E; subst w.
    destruct (Rle_lt_dec (u * x) (v * y)) as [|N]; auto.
    assert (exp 0 < exp (- (v * y - u * x))) by (apply exp_increasing; lra). rewrite exp_0 in *. lra.
  - intros FN s t Hst. destruct (C107_falling _ _ _ float_laws _ _ A _ _ _ _ _ _ Z FN s t) as (x & Hx & E).
    + lra.
    + exists x. split; [lra|]. apply E. lia.
Qed.
Print Assumptions C107_falling_iff.

Section Factors.
  Context {D P : Type} (DS : DateSys R D P) (tm : D -> R) (DC : DayCounts R D) (L : DateLaws DS tm).
  Variables (count : dcspec R D) (tau : D -> D -> R).
  Hypothesis (A : additive (dc_apply count) tau).

  (** [c] is the curve of class [k] of the given data with the given origin; there is a date
      other than the origin *)
  Definition factors (k : cls) (ds : list D) (ys : list R) (orig : option D) (tenor : option P) (o : D) (c : rcurve R D P) : Prop :=
    length ds = length ys /\ NoDup (map tm ds) /\ (exists d, In d ds /\ tm d <> tm o) /\
    match orig with Some x => Some x | None => hd_error ds end = Some o /\
    rc_new k ds ys None orig count tenor = Ok c.

  (** times from the origin with the continuous rates of factors: -ln(y)/t *)
  Definition rates_of (o : D) (ds : list D) (ys : list R) : points :=
    transform (fun a y => - ln y / a) (without_zero (combine (map (tau o) ds) ys)).

  Lemma rates_ok o ds ys : length ds = length ys -> NoDup (map tm ds) -> (exists d, In d ds /\ tm d <> tm o) ->
    rates_of o ds ys <> [] /\ distinct (rates_of o ds ys).
  Proof.
    intros HL ND [d [I N]]. split.
    - assert (exists y, In (d, y) (combine ds ys)) as [y Iy].
      { clear -I HL. revert ys HL. induction ds; intros [|y ys] HL; simpl in *; try discriminate; [destruct I|].
        destruct I as [->|I]; eauto. destruct (IHds I ys) as [w Iw]; [lia|eauto]. }
      assert (J : In (tau o d, - ln y / tau o d) (rates_of o ds ys)).
      { unfold rates_of, transform. apply in_map_iff. exists (tau o d, y). split; auto. unfold without_zero. apply filter_In.
        split; [change (combine (map (tau o) ds) ys) with (times tau o ds ys); now apply in_times|]. cbn [fst].
        destruct (Req_EM_T (tau o d) 0) as [E|]; auto. exfalso. apply N.
        apply (tau_tm (L:=L) count tau A o). rewrite E. symmetry. apply (tau_self A). }
      intro E. rewrite E in J. destruct J.
    - assert (DD : distinct (combine (map (tau o) ds) ys)) by (apply (times_distinct (L:=L) count tau A); auto).
      unfold distinct, rates_of, transform, without_zero in *. rewrite map_map. cbn [fst].
      revert DD. generalize (combine (map (tau o) ds) ys). clear. intros ps. induction ps as [|[a y] ps IH]; intro ND; [constructor|].
      cbn [map fst] in ND. inversion ND; subst. cbn [filter fst]. destruct (Req_EM_T a 0); auto.
      cbn [map fst]. constructor; auto. intro J. apply H1. apply in_map_iff in J. destruct J as [p [<- J]].
      apply filter_In in J. now apply in_map.
  Qed.

  Lemma factors_falling k ds ys ys' orig tenor o c : prob_cls k -> factors k ds ys orig tenor o c ->
    prepare_data k ys = Ok ys' -> length ys' = length ys -> (forall y, In y ys' -> 0 < y) ->
    forwards_nonneg (rates_of o ds ys') ->
    forall s t, s = o \/ 0 < tau o s -> 0 < tau s t -> exists x, 0 < x <= 1 /\
    forall fuel, (1 <= fuel)%nat -> factor fuel c s t = Ok x.
  Proof.
    intros K (HL & ND & NO & HO & E) PD L' POS FN s t Hs Hst.
    destruct (rc_new_rate (L:=L) count tau A k ds ys ys' orig o tenor) as [c' [E' [B [_ [V _]]]]]; auto; [congruence|].
    rewrite E in E'. inversion E'; subst c'. destruct B as [B1 [_ [B3 [_ [_ [_ [_ [_ [B9 B10]]]]]]]]].
    destruct (rates_ok o ds ys') as [NE DD]; auto; [congruence|].
    pose proof (tau_diff A o s t) as T. pose proof (tau_self A o) as T0.
    assert (W : forall d, 0 < tau o d -> exists r, has_value c d (exp (- r * tau o d)) /\ piecewise_linear (rates_of o ds ys') (tau o d) r).
    { intros d Hd. destruct (V d) as [r [H1 H2]]; [|exists r; split; auto].
      intro X. apply (tau_tm (L:=L) count tau A o) in X. lra. }
    assert (EX : forall u v, u <= v -> 0 < exp (- (v - u)) <= 1).
    { intros u v Huv. split; [apply exp_pos|]. rewrite <- exp_0. destruct (Req_dec u v) as [->|]; [right; f_equal; lra|].
      left. apply exp_increasing. lra. }
    assert (Ht : 0 < tau o t) by (destruct Hs as [->|Hs]; lra).
    destruct (W t Ht) as [v [Hv PV]].
    destruct Hs as [->|Hs].
    - exists (exp (- v * tau o t)). split.
      + destruct (pl_total (rates_of o ds ys') (tau o o) NE) as [u PU].
        assert (X : u * tau o o <= v * tau o t) by (apply (rising _ NE DD FN); auto; lra).
        replace (- v * tau o t) with (- (v * tau o t - 0)) by lra. apply EX. rewrite T0 in X. lra.
      + intros fuel F. destruct fuel as [|n]; [lia|]. apply prob_origin; auto; [now rewrite B1|].
        unfold at_origin. rewrite B3. apply law_is_refl.
    - destruct (W s Hs) as [u [Hu PU]].
      assert (X : u * tau o s <= v * tau o t) by (apply (rising _ NE DD FN); auto; lra).
      exists (exp (- (v * tau o t - u * tau o s))). split; [now apply EX|].
      intros fuel F. destruct fuel as [|n]; [lia|].
      rewrite (prob_factor c n s t (exp (- u * tau o s)) (exp (- v * tau o t))); auto.
      + replace (at_origin c s) with false.
        * f_equal. unfold Rdiv. rewrite <- exp_Ropp, <- exp_plus. f_equal. lra.
        * symmetry. destruct (at_origin c s) eqn:AO; auto. unfold at_origin in AO. rewrite B3 in AO.
          assert (Q : tau o s = 0) by (apply law_is_eq in AO; apply (tau_eq A); apply eqb_t; auto). lra.
      + now rewrite B1.
      + destruct (d_eqb s t) eqn:Q; auto. apply (tau_eq A) in Q. lra.
      + pose proof (exp_pos (- u * tau o s)). lra.
  Qed.
End Factors.

Lemma rc_new_cls {D P} (DS : DateSys R D P) (DC : DayCounts R D) k ds ys i orig count tenor (c : rcurve R D P) :
  rc_new k ds ys i orig count tenor = Ok c -> rc_cls c = k.
Proof.
  unfold rc_new. intro E. destruct (prepare_data k ys); [|discriminate]. cbn [bind] in E.
  match type of E with (bind ?m _) = _ => destruct m; [|discriminate] end. cbn [bind] in E. now inversion E.
Qed.

(** curves of discount factors *)
Theorem C107_discount_factors : forall {D P} (DS : DateSys R D P) (tm : D -> R) (DC : DayCounts R D), DateLaws DS tm ->
  forall (count : dcspec R D) tau, additive (dc_apply count) tau ->
  forall ds ys orig tenor o (c : rcurve R D P), factors DS tm DC count CDiscountFactor ds ys orig tenor o c ->
  (forall y, In y ys -> 0 < y) -> forwards_nonneg (rates_of tau o ds ys) ->
  forall s t, s = o \/ 0 < tau o s -> 0 < tau s t -> exists x, 0 < x <= 1 /\
  forall fuel, (1 <= fuel)%nat -> get_discount_factor fuel c s t = Ok x.
Proof.
  intros D P DS tm DC L count tau A ds ys orig tenor o c F POS FN s t Hs Hst.
  destruct (factors_falling DS tm DC L count tau A CDiscountFactor ds ys ys orig tenor o c) with (s := s) (t := t) as (x & Hx & E); auto.
  { unfold prob_cls. auto. }
  exists x. split; auto. intros fuel Hf. unfold get_discount_factor, interest_only.
  assert (K : rc_cls c = CDiscountFactor).
  { destruct F as (_ & _ & _ & _ & EC). eapply rc_new_cls; eauto. }
  rewrite K. cbn [is_interest]. now apply E.
Qed.
Print Assumptions C107_discount_factors.

(** curves of survival probabilities and of default probabilities *)
Theorem C107_survival : forall {D P} (DS : DateSys R D P) (tm : D -> R) (DC : DayCounts R D), DateLaws DS tm ->
  forall (count : dcspec R D) tau, additive (dc_apply count) tau ->
  forall ds ps orig tenor o (c : rcurve R D P),
  (forall p, In p ps -> tiny <= p <= 1 - tiny) -> forwards_nonneg (rates_of tau o ds ps) ->
  factors DS tm DC count CSurvival ds ps orig tenor o c \/ factors DS tm DC count CDefault ds (map (fun p => 1 - p) ps) orig tenor o c ->
  forall s t, s = o \/ 0 < tau o s -> 0 < tau s t -> exists x, 0 < x <= 1 /\
  forall fuel, (1 <= fuel)%nat -> get_survival_prob fuel c s t = Ok x.
Proof.
  intros D P DS tm DC L count tau A ds ps orig tenor o c R FN F s t Hs Hst.
  assert (exists k ys, (k = CSurvival \/ k = CDefault) /\ factors DS tm DC count k ds ys orig tenor o c /\ survival_data k ys = ps)
    as (k & ys & K & Fk & Ek).
  { assert (M : forall l : list Rdefinitions.R, (forall p, In p l -> tiny <= p <= 1 - tiny) -> map (clamp (T:=Rdefinitions.R)) l = l).
    { intros l Hl. rewrite <- (map_id l) at 2. apply map_ext_in. intros p Ip. apply clamp_id. now apply Hl. }
    destruct F as [F|F]; [exists CSurvival, ps|exists CDefault, (map (fun p => 1 - p) ps)]; split; auto; split; auto; unfold survival_data; cbn [is_default].
    - now apply M.
    - rewrite map_map. rewrite <- (M ps R) at 2. apply map_ext. intro p. f_equal. lra. }
  destruct (factors_falling DS tm DC L count tau A k ds ys ps orig tenor o c) with (s := s) (t := t) as (x & Hx & E); auto.
  { unfold prob_cls. tauto. } { rewrite <- Ek. apply prepare_ok. destruct K as [-> | ->]; reflexivity. }
  { rewrite <- Ek. apply survival_data_length. } { intros p Ip. pose proof fmin_pos. specialize (R p Ip). change tiny with fmin in R. lra. }
  exists x. split; auto. intros fuel Hf. unfold get_survival_prob, credit_only.
  assert (KC : rc_cls c = k).
  { destruct Fk as (_ & _ & _ & _ & EC). eapply rc_new_cls; eauto. }
  rewrite KC. replace (is_credit k) with true by (destruct K as [-> | ->]; reflexivity). now apply E.
Qed.
Print Assumptions C107_survival.

(** with log-linear interpolation falling factors on the grid fall everywhere *)
Theorem C107_loglinear : forall {D P} (DS : DateSys R D P) (tm : D -> R) (DC : DayCounts R D), DateLaws DS tm ->
  forall (count : dcspec R D) tau, additive (dc_apply count) tau ->
  forall ds ys i orig tenor o, ds <> [] -> length ds = length ys -> NoDup (map tm ds) ->
  match orig with Some x => Some x | None => hd_error ds end = Some o ->
  resolve i = SBase Kloglinear -> (forall y, In y ys -> 0 < y) ->
  (forall d y e z, In (d, y) (combine ds ys) -> In (e, z) (combine ds ys) -> 0 <= tau d e -> z <= y) ->
  exists c : rcurve R D P, rc_new CDiscountFactor ds ys (Some i) orig count tenor = Ok c /\
  forall s t, 0 <= tau s t -> (is_origin c s -> In (s, 1) (combine ds ys)) -> exists x, 0 < x <= 1 /\
  forall fuel, (1 <= fuel)%nat -> get_discount_factor fuel c s t = Ok x.
Proof.
  intros D P DS tm DC L count tau A ds ys i orig tenor o NE HL ND HO RI POS FL.
  set (ps := combine (map (tau o) ds) ys).
  assert (DD : distinct ps) by (apply (times_distinct (L:=L) count tau A); auto).
  assert (LT : length (map (tau o) ds) = length ys) by now rewrite map_length.
  assert (NT : NoDup (map (tau o) ds)) by now apply (times_nodup (L:=L) count tau A).
  destruct (loglinear_correct (map (tau o) ds) ys) as [f [Ef Vf]]; auto. { destruct ds; [congruence|discriminate]. }
  set (dc := mkD (cls_interp CDiscountFactor) (Some i) (FBase f) ds orig count []).
  assert (S : dstate (tm:=tm) count tau (cls_interp CDiscountFactor) (Some i) orig o ds ys dc).
  { split; auto. split; auto. split; auto. exists (FBase f). split; auto. unfold fn_new, dc_spec. rewrite RI, Ef. reflexivity. }
  exists (mkR CDiscountFactor dc tenor None). split.
  { apply (rc_new_state (L:=L) count tau A CDiscountFactor ds ys ys (Some i) orig o); auto. }
  set (c := mkR CDiscountFactor dc tenor None).
  destruct (built_of (L:=L) count tau A CDiscountFactor ds ys (Some i) orig o tenor dc S) as [B1 [_ [B3 _]]]. fold c in B1, B3.
  set (ls := transform (fun _ y => ln y) ps) in *.
  assert (DL : distinct ls). { unfold ls, transform, distinct. rewrite map_map. exact DD. }
  assert (FA : falling ls).
  { intros a y b z Ia Ib Hab. unfold ls, transform in Ia, Ib. apply in_map_iff in Ia. apply in_map_iff in Ib.
    destruct Ia as [[a' y'] [Ea Ia]]. destruct Ib as [[b' z'] [Eb Ib]]. cbn [fst snd] in Ea, Eb.
    assert (Ea1 := f_equal fst Ea). assert (Ea2 := f_equal snd Ea). assert (Eb1 := f_equal fst Eb). assert (Eb2 := f_equal snd Eb).
    cbn [fst snd] in Ea1, Ea2, Eb1, Eb2. subst a y b z. unfold ps in Ia, Ib.
    pose proof (in_combine_r _ _ _ _ Ib) as Iz. pose proof (POS z' Iz) as Pz.
    rewrite combine_map_l in Ia, Ib. apply in_map_iff in Ia. apply in_map_iff in Ib.
    destruct Ia as [[d y] [Ea' Ia]]. destruct Ib as [[e z] [Eb' Ib]]. cbn [fst snd] in Ea', Eb'. 
    inversion Ea'; subst. inversion Eb'; subst.
    assert (z' <= y') by (apply (FL d y' e z' Ia Ib); rewrite (tau_diff A o d e); lra).
    destruct (Req_dec z' y') as [->|]; [lra|]. left. apply ln_increasing; lra. }
  assert (V : forall d, exists l, linear_value ls (tau o d) l /\ has_value c d (exp l)).
  { intro d. destruct (Vf (tau o d)) as [l [H1 H2]]. exists l. split; auto. unfold has_value, c. rewrite rc_call_plain.
    apply dc_val_some. destruct (dstate_call (tm:=tm) count tau A _ _ _ _ _ _ _ d S) as [g [Eg Hg]].
    unfold fn_new, dc_spec in Eg. rewrite RI, Ef in Eg. cbn in Eg. inversion Eg; subst g. rewrite Hg. exact H2. }
  intros s t Hst OS. destruct (V s) as [u [U Hu]]. destruct (V t) as [v [W Hv]].
  pose proof (tau_diff A o s t) as T.
  assert (X : v <= u) by (apply (linear_falling ls DL FA (tau o s) (tau o t)); auto; lra).
  assert (E1 : forall x, x <= 0 -> exp x <= 1).
  { intros x Hx. rewrite <- exp_0. destruct (Req_dec x 0) as [->|]; [lra|]. left. apply exp_increasing. lra. }
  exists (exp (v - u)). split; [split; [apply exp_pos|apply E1; lra]|].
  intros fuel F. destruct fuel as [|n]; [lia|]. unfold get_discount_factor, interest_only. cbn [c rc_cls is_interest]. fold c.
  rewrite (df_factor_eq c n s t (exp u) (exp v)); auto; [|pose proof (exp_pos u); lra].
  destruct (at_origin c s) eqn:AO.
  - f_equal. f_equal. assert (O : is_origin c s) by (unfold is_origin; exists o; split; auto; unfold at_origin in AO; rewrite B3 in AO; auto).
    specialize (OS O). assert (J : In (tau o s, ln 1) ls).
    { unfold ls, transform. apply in_map_iff. exists (tau o s, 1). split; auto. unfold ps.
      change (combine (map (tau o) ds) ys) with (times tau o ds ys). now apply in_times. }
    rewrite (linear_value_node ls (tau o s) u (ln 1) DL J U). rewrite ln_1. lra.
  - f_equal. unfold Rdiv. rewrite <- exp_Ropp, <- exp_plus. f_equal.
Qed.
Print Assumptions C107_loglinear.

#[local] Instance none_registered {D} : DayCounts R D := [].

Lemma two_rates : rates_of (fun a b => b - a) 0 [1; 2] [exp (- (5 / 100)); exp (- (6 / 100))] = [(1, 5 / 100); (2, 3 / 100)].
Proof.
  unfold rates_of, transform, without_zero. cbn [map combine filter fst snd].
  destruct (Req_EM_T (1 - 0) 0); [lra|]. destruct (Req_EM_T (2 - 0) 0); [lra|]. cbn [map fst snd].
  rewrite !ln_exp. f_equal; [f_equal; field|]. f_equal. f_equal; field.
Qed.

Lemma two_segment y1 y2 : consecutive [(1, y1); (2, y2)] 1 y1 2 y2.
Proof.
  split; [simpl; auto|]. split; [simpl; auto|]. split; [lra|].
  intros c z [E|[E|[]]]; injection E as <- <-; lra.
Qed.

(** falling factors on the grid, but not in between: the factor of the period from 1.9 to 2
    is greater than one *)
Lemma two_factors k ys : prob_cls k -> prepare_data (T:=R) k ys = Ok [exp (- (5 / 100)); exp (- (6 / 100))] ->
  exists c : rcurve R R (fperiod R), rc_new (DS:=FloatDates) k [1; 2] ys None (Some 0) DcDefault None = Ok c /\
    rc_cls c = k /\ forall n,
    factor (DS:=FloatDates) (S n) c 0 1 = Ok (exp (- (5 / 100))) /\ factor (DS:=FloatDates) (S n) c 0 2 = Ok (exp (- (6 / 100))) /\
    factor (DS:=FloatDates) (S n) c (19 / 10) 2 = Ok (exp (8 / 10000)).
Proof.
  intros K PD. pose proof (float_additive (DC:=none_registered)) as A.
  destruct (rc_new_rate (L:=float_laws) DcDefault _ A k [1; 2] ys [exp (- (5 / 100)); exp (- (6 / 100))] (Some 0) 0 None)
    as [c [E [B [V [W _]]]]]; auto.
  { repeat constructor; simpl; intuition lra. } { exists 1. simpl. split; [auto|lra]. }
  { intros y [<-|[<-|[]]]; apply exp_pos. }
  destruct B as [B1 [_ [B3 [_ [_ [_ [_ [_ [B9 B10]]]]]]]]].
  exists c. split; auto. split; auto.
  assert (V1 : has_value (DS:=FloatDates) c 1 (exp (- (5 / 100)))) by (apply V; simpl; auto).
  assert (V2 : has_value (DS:=FloatDates) c 2 (exp (- (6 / 100)))) by (apply V; simpl; auto).
  assert (V3 : has_value (DS:=FloatDates) c (19 / 10) (exp (- (608 / 10000)))).
  { destruct (W (19 / 10)) as [r [Hr PL]]; [lra|]. unfold has_value. rewrite Hr. do 2 f_equal.
    change (piecewise_linear (rates_of (fun a b => b - a) 0 [1; 2] [exp (- (5 / 100)); exp (- (6 / 100))]) (19 / 10 - 0) r) in PL.
    rewrite two_rates in PL.
    assert (r = chord 1 (5 / 100) 2 (3 / 100) (19 / 10 - 0)).
    { apply (pl_fun [(1, 5 / 100); (2, 3 / 100)] (19 / 10 - 0)); auto.
      - unfold distinct. cbn. repeat constructor; simpl; intuition lra.
      - left. exists 1, (5 / 100), 2, (3 / 100). split; [apply two_segment|]. split; [lra|auto]. }
    subst r. unfold chord. field. }
  assert (O : at_origin (DS:=FloatDates) c 0 = true) by (unfold at_origin; rewrite B3; apply (law_is_refl (DateLaws:=float_laws))).
  intro n. split; [|split].
  - apply prob_origin; auto. now rewrite B1.
  - apply prob_origin; auto. now rewrite B1.
  - rewrite (prob_factor c n (19 / 10) 2 (exp (- (608 / 10000))) (exp (- (6 / 100)))); auto.
    + replace (at_origin c (19 / 10)) with false.
      * f_equal. unfold Rdiv at 1. rewrite <- exp_Ropp, <- exp_plus. f_equal. lra.
      * symmetry. destruct (at_origin c (19 / 10)) eqn:AO; auto. unfold at_origin in AO. rewrite B3 in AO.
        apply (law_is_eq (DateLaws:=float_laws)) in AO. lra.
    + now rewrite B1.
    + cbn. apply Reqb_false. lra.
    + pose proof (exp_pos (- (608 / 10000))). lra.
Qed.

Theorem C107_discount_factors_refuted : exists (c : rcurve R R (fperiod R)) f1 f2 x,
  f2 < f1 < 1 /\ 1 < x /\
  rc_new (DS:=FloatDates) CDiscountFactor [1; 2] [f1; f2] None (Some 0) DcDefault None = Ok c /\
  forall n, get_discount_factor (DS:=FloatDates) (S n) c 0 1 = Ok f1 /\
    get_discount_factor (DS:=FloatDates) (S n) c 0 2 = Ok f2 /\
    get_discount_factor (DS:=FloatDates) (S n) c (19 / 10) 2 = Ok x.
Proof.
  destruct (two_factors CDiscountFactor [exp (- (5 / 100)); exp (- (6 / 100))]) as (c & E & K & F); [unfold prob_cls; auto|reflexivity|].
  exists c, (exp (- (5 / 100))), (exp (- (6 / 100))), (exp (8 / 10000)).
  split; [split; [apply exp_increasing; lra|rewrite <- exp_0; apply exp_increasing; lra]|].
  split; [rewrite <- exp_0; apply exp_increasing; lra|]. split; auto.
  intro n. unfold get_discount_factor, interest_only. rewrite K. apply F.
Qed.
Print Assumptions C107_discount_factors_refuted.

(** the same for survival probabilities: a conditional survival probability above one *)
Theorem C107_survival_refuted : exists (c : rcurve R R (fperiod R)) f1 f2 x,
  0 < f2 < f1 /\ f1 < 1 /\ 1 < x /\
  rc_new (DS:=FloatDates) CSurvival [1; 2] [f1; f2] None (Some 0) DcDefault None = Ok c /\
  forall n, get_survival_prob (DS:=FloatDates) (S n) c 0 1 = Ok f1 /\
    get_survival_prob (DS:=FloatDates) (S n) c 0 2 = Ok f2 /\
    get_survival_prob (DS:=FloatDates) (S n) c (19 / 10) 2 = Ok x.
Proof.
  assert (L1 : 1 + - (5 / 100) < exp (- (5 / 100))) by (apply exp_ineq1; lra).
  assert (L2 : 1 + - (6 / 100) < exp (- (6 / 100))) by (apply exp_ineq1; lra).
  assert (L3 : 1 + 5 / 100 < exp (5 / 100)) by (apply exp_ineq1; lra).
  assert (L4 : exp (- (6 / 100)) < exp (- (5 / 100))) by (apply exp_increasing; lra).
  assert (T : tiny <= 1 / 100).
  { unfold tiny. apply Rle_trans with (/ IZR 100); [|lra]. apply Rinv_le_contravar; [lra|]. apply IZR_le. now vm_compute. }
  assert (U : exp (- (5 / 100)) <= 1 - tiny).
  { assert (exp (- (5 / 100)) * exp (5 / 100) = 1) by (rewrite <- exp_plus; replace (- (5 / 100) + 5 / 100) with 0 by lra; apply exp_0).
    assert (exp (- (5 / 100)) * (1 + 5 / 100) <= 1) by (rewrite <- H; apply Rmult_le_compat_l; lra). lra. }
  destruct (two_factors CSurvival [exp (- (5 / 100)); exp (- (6 / 100))]) as (c & E & K & F); [unfold prob_cls; auto| |].
  { rewrite prepare_ok by reflexivity. unfold survival_data. cbn [is_default map]. rewrite !clamp_id; auto; change fmin with tiny; lra. }
  exists c, (exp (- (5 / 100))), (exp (- (6 / 100))), (exp (8 / 10000)).
  split; [lra|]. split; [rewrite <- exp_0; apply exp_increasing; lra|]. split; [rewrite <- exp_0; apply exp_increasing; lra|]. split; auto.
  intro n. unfold get_survival_prob, credit_only. rewrite K. apply F.
Qed.
Print Assumptions C107_survival_refuted.

(** positive zero rates, falling discount factors at the grid dates, negative forward rate *)
Theorem C107_zero_rates_refuted : exists (c : rcurve R R (fperiod R)),
  zero_rates FloatDates (fun d => d) none_registered DcDefault [1; 2] [5 / 100; 3 / 100] (Some 0) None 0 c /\
  forall fuel, (3 <= fuel)%nat -> get_zero_rate (DS:=FloatDates) fuel c (19 / 10) 2 = Ok (- (8 / 1000)).
Proof.
  pose proof (float_additive (DC:=none_registered)) as A.
  destruct (rc_new_linear (L:=float_laws) DcDefault _ A CZeroRate [1; 2] [5 / 100; 3 / 100] (Some 0) 0 None) as [c [E _]]; auto.
  { reflexivity. } { repeat constructor; simpl; intuition lra. } { discriminate. }
  assert (Z : zero_rates FloatDates (fun d => d) none_registered DcDefault [1; 2] [5 / 100; 3 / 100] (Some 0) None 0 c).
  { split; [discriminate|]. split; auto. split; [repeat constructor; simpl; intuition lra|]. split; auto. }
  exists c. split; auto. intros fuel F.
  rewrite (C107_forward_rate _ _ _ float_laws _ _ A _ _ _ _ _ _ Z 1 (5 / 100) 2 (3 / 100)); auto.
  - f_equal. unfold slope. field.
  - cbn [map combine]. replace (1 - 0) with 1 by lra. replace (2 - 0) with 2 by lra. apply two_segment.
  - lra.
  - lra.
  - cbn. apply Reqb_false. lra.
Qed.
Print Assumptions C107_zero_rates_refuted.

Example C107_example : exists (c : rcurve R R (fperiod R)),
  zero_rates FloatDates (fun d => d) none_registered DcDefault [1; 2] [1 / 100; 2 / 100] (Some 0) None 0 c /\
  forwards_nonneg (combine (map (fun d => d - 0) [1; 2]) [1 / 100; 2 / 100]).
Proof.
  pose proof (float_additive (DC:=none_registered)) as A.
  destruct (rc_new_linear (L:=float_laws) DcDefault _ A CZeroRate [1; 2] [1 / 100; 2 / 100] (Some 0) 0 None) as [c [E _]]; auto.
  { reflexivity. } { repeat constructor; simpl; intuition lra. } { discriminate. }
  exists c. split.
  - split; [discriminate|]. split; auto. split; [repeat constructor; simpl; intuition lra|]. split; auto.
  - cbn [map combine]. split.
    + intros a y [H|[H|[]]] _; injection H as <- <-; lra.
    + intros a ya b yb ([H1|[H1|[]]] & [H2|[H2|[]]] & Lab & _); injection H1 as <- <-; injection H2 as <- <-; try lra.
      unfold slope. split; [replace (_ + _) with (2 / 100) by field|replace (_ + _) with (4 / 100) by field]; lra.
Qed.
