(** Property C115: greeks by differences. *)
From Coq Require Import Reals ZArith List Bool Lra Lia Psatz.
From Coquelicot Require Import Coquelicot.
From Flocq Require Import Raux.
From Verif Require Import Num Py MDates MCurve MRateCurve MOption SDates SOption SNormal
  LBase LDates LOption LSeries LNormal LGauss LExpect LGreeks POption PNormal PExpect PGreeks PStrikes LBump.
Import ListNotations.
Open Scope R_scope.

(** [V F v t] is the expected payoff of a call with strike K, for every market with this
    strike that the model can price *)
Definition calls_worth (fm : formula R) (K : R) (V : R -> R -> R -> R) : Prop :=
  forall F v t, priced fm F K v t -> expectation (fun z => call_payoff K (forward_at fm F v t z)) (V F v t).

Lemma worth_eq N fm K V : normal_distribution N -> calls_worth fm K V ->
  forall F v t, priced fm F K v t -> V F v t = closed N fm K F (v * sqrt t).
Proof. intros HN H F v t G. exact (expectation_unique _ _ _ (H F v t G) (closed_worth N HN fm F K v t G)). Qed.
Lemma priced_up fm F K v t h : priced fm F K v t -> 0 <= h -> priced fm (F + h) K v t.
Proof. intros (A & B & C) H. split; [exact A|]. split; [exact B|]. destruct fm; auto; lra. Qed.
Lemma priced_fits fm F K v t : priced fm F K v t -> fits fm F K.
Proof. intros (_ & _ & C). exact C. Qed.
Lemma priced_near fm F K v t : priced fm F K v t -> locally F (fun y => priced fm y K v t).
Proof.
  intros (A & B & C).
  assert (L : forall a, 0 < F + a -> locally F (fun y => 0 < y + a)).
  { intros a Ha. exists (mkposreal (F + a) Ha). intros w Hw. unfold ball in Hw. cbn in Hw. unfold AbsRing_ball, abs, minus, plus, opp in Hw. cbn in Hw.
    apply Rabs_def2 in Hw. lra. }
  destruct fm; try contradiction.
  - exists (mkposreal 1 Rlt_0_1). intros y _. split; auto.
  - apply (filter_imp (fun y => 0 < y + 0)); [|apply L; lra]. intros y Y. split; [auto|]. split; [auto|]. lra.
  - apply (filter_imp (fun y => 0 < y + displacement)); [|apply L; lra]. intros y Y. split; [auto|]. split; [auto|]. lra.
Qed.

Section Bump.
  Context {D P : Type} (DS : DateSys R D P) (DC : DayCounts R D) (DN : DateNum R D).
  Implicit Types (m : omodel R D P) (d : D).

  (** the delta by differences is the derivative of the expected payoff with respect to
      the forward, at some forward within the shift, up to the accuracy of the two values
      divided by the shift *)
  Theorem C115_delta : forall fuel flr m d strike F K v t V,
    om_bump m = true -> market fuel flr m d strike F K v t -> priced (om_formula m) F K v t ->
    calls_worth (om_formula m) K V ->
    let h := delta_shift (om_const m) in let dsc := delta_scale (om_const m) in 0 < h ->
    exists delta y dF, get_call_delta fuel flr m d strike = Ok delta /\ F < y < F + h /\
      derivable_pt_lim (fun x => V x v t) y dF /\
      Rabs (delta - dF * dsc) <= (tolerance (om_formula m) (F + h) K v t + tolerance (om_formula m) F K v t) / h * Rabs dsc.
  Proof.
    intros fuel flr m d strike F K v t V B M G HV h dsc Hh. destruct the_distribution as [N HN]. pose proof G as (Hv & Ht & _).
    pose proof (vol_pos t v Ht Hv) as S.
    assert (GU : priced (om_formula m) (F + h) K v t) by (apply priced_up; auto; lra).
    destruct (closed_price N HN _ _ _ _ _ GU) as (up & EU & TU). destruct (closed_price N HN _ _ _ _ _ G) as (mid & EM & TM).
    pose proof (worth_eq N _ _ _ HN HV) as VE. set (fm := om_formula m) in *. set (s := v * sqrt t) in *.
    assert (GX : forall x, F <= x -> priced fm x K v t) by (intros x X; replace x with (F + (x - F)) by ring; apply priced_up; auto; lra).
    destruct (first_difference (fun x => closed N fm K x s) (fun x => closed_d N fm K x s) F h Hh) as (y & Y & E).
    { intros x X. apply closed_delta; auto. apply (priced_fits _ _ _ v t), GX. lra. }
    exists ((up - mid) / h * dsc), y, (closed_d N fm K y s). split; [|split; [exact Y|split]].
    - destruct (market_live _ _ _ _ _ _ _ _ _ M) as (E1 & G1); try lra.
      unfold get_call_delta. rewrite E1. cbn [bind od_forward number od_strike od_vol od_time]. rewrite G1, B. cbn [bind]. rn. fold h dsc fm.
      rewrite EU, EM. cbn [bind]. rewrite Rdivp_ok by lra. reflexivity.
    - apply is_derive_Reals. apply (is_derive_ext_loc (fun x => closed N fm K x s)).
      + apply (filter_imp (fun x => priced fm x K v t)); [intros x X; symmetry; now apply VE|]. apply priced_near, GX. lra.
      + apply closed_delta; auto. apply (priced_fits _ _ _ v t), GX. lra.
    - apply scaled. replace ((up - mid) / h - closed_d N fm K y s) with (((up - closed N fm K (F + h) s) - (mid - closed N fm K F s)) / h).
      + unfold Rdiv. rewrite Rabs_mult, (Rabs_right (/ h)) by (apply Rle_ge; left; now apply Rinv_0_lt_compat).
        apply Rmult_le_compat_r; [left; now apply Rinv_0_lt_compat|]. eapply Rle_trans; [apply Rabs_triang|]. rewrite Rabs_Ropp. lra.
      + replace (closed_d N fm K y s) with ((closed N fm K (F + h) s - closed N fm K F s) / h) by (rewrite E; field; lra). field. lra.
  Qed.

  (** so is the gamma, the second derivative: here the accuracy is divided by the square of
      the shift *)
  Theorem C115_gamma : forall fuel flr m d strike F K v t V,
    om_bump m = true \/ om_formula m <> FNormal -> market fuel flr m d strike F K v t ->
    calls_worth (om_formula m) K V ->
    let h := delta_shift (om_const m) in let dsc := delta_scale (om_const m) in 0 < h ->
    priced (om_formula m) (F - h) K v t ->
    let tol x := tolerance (om_formula m) x K v t in
    exists gamma y V1 g, get_call_gamma fuel flr m d strike = Ok gamma /\ F - h < y < F + h /\
      (forall x, F - h <= x -> derivable_pt_lim (fun x => V x v t) x (V1 x)) /\ derivable_pt_lim V1 y g /\
      Rabs (gamma - g * dsc ^ 2) <= (tol (F + h) + 2 * tol F + tol (F - h)) / h ^ 2 * Rabs (dsc ^ 2).
  Proof.
    intros fuel flr m d strike F K v t V B M HV h dsc Hh GD tol. destruct the_distribution as [N HN]. pose proof GD as (Hv & Ht & _).
    pose proof (vol_pos t v Ht Hv) as S.
    assert (GX : forall x, F - h <= x -> priced (om_formula m) x K v t) by (intros x X; replace x with (F - h + (x - (F - h))) by ring; apply priced_up; auto; lra).
    destruct (closed_price N HN _ _ _ _ _ (GX (F + h) ltac:(lra))) as (up & EU & TU). destruct (closed_price N HN _ _ _ _ _ (GX F ltac:(lra))) as (mid & EM & TM).
    destruct (closed_price N HN _ _ _ _ _ GD) as (dn & ED & TD).
    fold (tol (F + h)) in TU. fold (tol F) in TM. fold (tol (F - h)) in TD.
    pose proof (worth_eq N _ _ _ HN HV) as VE. set (fm := om_formula m) in *. set (s := v * sqrt t) in *.
    destruct (second_difference (fun x => closed N fm K x s) (fun x => closed_d N fm K x s) (fun x => closed_g fm K x s) F h Hh) as (y & Y & E).
    { intros x X. apply closed_delta; auto. apply (priced_fits _ _ _ v t), GX. lra. }
    { intros x X. apply closed_gamma; auto. apply (priced_fits _ _ _ v t), GX. lra. }
    exists ((up - 2 * mid + dn) / h ^ 2 * dsc ^ 2), y, (fun x => closed_d N fm K x s), (closed_g fm K y s). split; [|split; [exact Y|split; [|split]]].
    - destruct (market_live _ _ _ _ _ _ _ _ _ M) as (E1 & G1); try lra.
      unfold get_call_gamma. rewrite E1. cbn [bind od_forward number od_strike od_vol od_time]. rewrite G1. cbn [bind].
      assert (A : (if om_bump m then Ok None else call_gamma (om_formula m) (date_num d) K F v) = Ok None).
      { destruct (om_bump m) eqn:Bm; [reflexivity|]. destruct B as [B|B]; [discriminate|]. destruct GD as (_ & _ & GD). unfold fm in *.
        destruct (om_formula m); try contradiction; reflexivity. }
      rewrite A. cbn [bind]. rn. fold h dsc fm. rewrite EU, EM, ED. cbn [bind]. rewrite Rdivp_ok by lra. cbn [bind npow]. rn. f_equal. field. lra.
    - intros x X. apply is_derive_Reals. apply (is_derive_ext_loc (fun x => closed N fm K x s)).
      + apply (filter_imp (fun x => priced fm x K v t)); [intros z Z; symmetry; now apply VE|]. apply priced_near, GX. lra.
      + apply closed_delta; auto. apply (priced_fits _ _ _ v t), GX. lra.
    - apply is_derive_Reals. apply closed_gamma; auto. apply (priced_fits _ _ _ v t), GX. lra.
    - assert (H2 : 0 < h ^ 2) by (cbn; nra). apply scaled.
      replace ((up - 2 * mid + dn) / h ^ 2 - closed_g fm K y s)
        with (((up - closed N fm K (F + h) s) - 2 * (mid - closed N fm K F s) + (dn - closed N fm K (F - h) s)) / h ^ 2).
      + unfold Rdiv. rewrite Rabs_mult, (Rabs_right (/ h ^ 2)) by (apply Rle_ge; left; now apply Rinv_0_lt_compat).
        apply Rmult_le_compat_r; [left; now apply Rinv_0_lt_compat|]. eapply Rle_trans; [apply Rabs_triang|]. apply Rplus_le_compat; [|exact TD].
        eapply Rle_trans; [apply Rabs_triang|]. rewrite Rabs_Ropp, Rabs_mult, (Rabs_right 2) by lra. lra.
      + replace (closed_g fm K y s) with ((closed N fm K (F + h) s - 2 * closed N fm K F s + closed N fm K (F - h) s) / h ^ 2) by (rewrite E; field; lra). field. lra.
  Qed.

  (** the vega by differences, where the date as a number is the time to expiry: the
      derivative with respect to the volatility *)
  Theorem C115_vega : forall fuel flr m d strike F K v t V,
    om_bump m = true -> market fuel flr m d strike F K v t -> priced (om_formula m) F K v t -> date_num d = Ok t ->
    calls_worth (om_formula m) K V ->
    let h := vega_shift (om_const m) in let vsc := vega_scale (om_const m) in 0 < h ->
    exists vega w dv, get_call_vega fuel flr m d strike = Ok vega /\ v < w < v + h /\
      derivable_pt_lim (fun x => V F x t) w dv /\
      Rabs (vega - dv * vsc) <= (tolerance (om_formula m) F K (v + h) t + tolerance (om_formula m) F K v t) / h * Rabs vsc.
  Proof.
    intros fuel flr m d strike F K v t V B M G DT HV h vsc Hh. destruct the_distribution as [N HN]. pose proof G as (Hv & Ht & GF).
    pose proof (sqrt_pos_lt t Ht) as ST.
    assert (GX : forall x, 0 < x -> priced (om_formula m) F K x t) by (intros x X; split; [auto|split; [auto|exact GF]]).
    destruct (closed_price N HN _ _ _ _ _ (GX (v + h) ltac:(lra))) as (up & EU & TU). destruct (closed_price N HN _ _ _ _ _ G) as (mid & EM & TM).
    pose proof (worth_eq N _ _ _ HN HV) as VE. set (fm := om_formula m) in *.
    assert (DX : forall x, 0 < x -> is_derive (fun x => closed N fm K F (x * sqrt t)) x (sqrt t * closed_v fm K F (x * sqrt t))).
    { intros x X. replace (sqrt t * closed_v fm K F (x * sqrt t)) with (scal (sqrt t) (closed_v fm K F (x * sqrt t))) by reflexivity.
      apply (is_derive_comp (fun s => closed N fm K F s) (fun v => v * sqrt t)); [|auto_derive; [exact I|ring]].
      apply closed_vega; auto. now apply Rmult_lt_0_compat. }
    destruct (first_difference (fun x => closed N fm K F (x * sqrt t)) (fun x => sqrt t * closed_v fm K F (x * sqrt t)) v h Hh) as (y & Y & E).
    { intros x X. apply DX. lra. }
    exists ((up - mid) / h * vsc), y, (sqrt t * closed_v fm K F (y * sqrt t)). split; [|split; [exact Y|split]].
    - destruct (market_live _ _ _ _ _ _ _ _ _ M) as (E1 & G1); try lra.
      unfold get_call_vega. rewrite E1. cbn [bind od_forward number od_strike od_vol od_time]. rewrite G1, B. cbn [bind]. rn. fold h vsc fm.
      rewrite EU, DT. cbn [bind]. rewrite EM. cbn [bind]. rewrite Rdivp_ok by lra. cbn [bind]. f_equal. field. lra.
    - apply is_derive_Reals. apply (is_derive_ext_loc (fun x => closed N fm K F (x * sqrt t))); [|apply DX; lra].
      apply near_pos; [lra|]. intros w W. symmetry. now apply VE, GX.
    - apply scaled. replace ((up - mid) / h - sqrt t * closed_v fm K F (y * sqrt t))
        with (((up - closed N fm K F ((v + h) * sqrt t)) - (mid - closed N fm K F (v * sqrt t))) / h).
      + unfold Rdiv. rewrite Rabs_mult, (Rabs_right (/ h)) by (apply Rle_ge; left; now apply Rinv_0_lt_compat).
        apply Rmult_le_compat_r; [left; now apply Rinv_0_lt_compat|]. eapply Rle_trans; [apply Rabs_triang|]. rewrite Rabs_Ropp. lra.
      + replace (sqrt t * closed_v fm K F (y * sqrt t)) with ((closed N fm K F ((v + h) * sqrt t) - closed N fm K F (v * sqrt t)) / h) by (rewrite E; field; lra). field. lra.
  Qed.

  (** the theta: the derivative with respect to the time to expiry, but multiplied by the
      shift, since the difference is not divided by it *)
  Theorem C115_theta : forall fuel flr m d strike F K v t V,
    market fuel flr m d strike F K v t -> priced (om_formula m) F K v t ->
    calls_worth (om_formula m) K V ->
    let h := theta_shift (om_const m) in let tsc := theta_scale (om_const m) in 0 < h ->
    exists theta w dt, get_call_theta fuel flr m d strike = Ok theta /\ t < w < t + h /\
      derivable_pt_lim (fun x => V F v x) w dt /\ 0 < dt /\
      Rabs (theta - h * dt * tsc) <= (tolerance (om_formula m) F K v (t + h) + tolerance (om_formula m) F K v t) * Rabs tsc.
  Proof.
    intros fuel flr m d strike F K v t V M G HV h tsc Hh. destruct the_distribution as [N HN]. pose proof G as (Hv & Ht & GF).
    assert (GX : forall x, 0 < x -> priced (om_formula m) F K v x) by (intros x X; split; [auto|split; [auto|exact GF]]).
    destruct (closed_price N HN _ _ _ _ _ (GX (t + h) ltac:(lra))) as (up & EU & TU). destruct (closed_price N HN _ _ _ _ _ G) as (mid & EM & TM).
    pose proof (worth_eq N _ _ _ HN HV) as VE.
    assert (AN : (if om_bump m then Ok None else call_theta (om_formula m) (date_num d) K F v) = Ok None).
    { destruct (om_bump m); [reflexivity|]. destruct (om_formula m); try contradiction; reflexivity. }
    set (fm := om_formula m) in *.
    assert (DX : forall x, 0 < x -> is_derive (fun x => closed N fm K F (v * sqrt x)) x (v / (2 * sqrt x) * closed_v fm K F (v * sqrt x))).
    { intros x X. replace (v / (2 * sqrt x) * closed_v fm K F (v * sqrt x)) with (scal (v / (2 * sqrt x)) (closed_v fm K F (v * sqrt x))) by reflexivity.
      pose proof (sqrt_pos_lt x X). apply (is_derive_comp (fun s => closed N fm K F s) (fun x => v * sqrt x)); [|auto_derive; [exact X|field; lra]].
      apply closed_vega; auto. now apply Rmult_lt_0_compat. }
    destruct (first_difference (fun x => closed N fm K F (v * sqrt x)) (fun x => v / (2 * sqrt x) * closed_v fm K F (v * sqrt x)) t h Hh) as (y & Y & E).
    { intros x X. apply DX. lra. }
    pose proof (sqrt_pos_lt y ltac:(lra)) as SY.
    exists ((up - mid) * tsc), y, (v / (2 * sqrt y) * closed_v fm K F (v * sqrt y)). split; [|split; [exact Y|split; [|split]]].
    - destruct (market_live _ _ _ _ _ _ _ _ _ M) as (E1 & G1); try lra.
      unfold get_call_theta. rewrite E1. cbn [bind od_forward number od_strike od_vol od_time]. rewrite G1. cbn [bind].
      unfold fm in AN. rewrite AN. cbn [bind]. rn. fold h tsc fm.
      rewrite EU, EM. cbn [bind]. reflexivity.
    - apply is_derive_Reals. apply (is_derive_ext_loc (fun x => closed N fm K F (v * sqrt x))); [|apply DX; lra].
      apply near_pos; [lra|]. intros w W. symmetry. now apply VE, GX.
    - apply Rmult_lt_0_compat; [apply Rdiv_lt_0_compat; lra|]. destruct fm; try contradiction; cbn [closed_v]; [apply density_pos| |]; (apply Rmult_lt_0_compat; [lra|apply density_pos]).
    - apply scaled. rewrite <- E. replace (up - mid - (closed N fm K F (v * sqrt (t + h)) - closed N fm K F (v * sqrt t)))
        with ((up - closed N fm K F (v * sqrt (t + h))) - (mid - closed N fm K F (v * sqrt t))) by ring.
      eapply Rle_trans; [apply Rabs_triang|]. rewrite Rabs_Ropp. lra.
  Qed.
End Bump.
Print Assumptions C115_delta.
Print Assumptions C115_gamma.
Print Assumptions C115_vega.
Print Assumptions C115_theta.

(** the families of expected payoffs exist *)
Theorem C115_values : forall fm K, exists V, calls_worth fm K V.
Proof.
  intros fm K. destruct the_distribution as [N HN]. exists (fun F v t => closed N fm K F (v * sqrt t)).
  intros F v t G. now apply closed_worth.
Qed.
Print Assumptions C115_values.

(** * The gamma by differences can be negative *)
(** the constants of the library; a market in which the forward is large and the option is
    struck where the approximate distribution function jumps *)
Theorem C115_gamma_refuted : forall {D P} (DS : DateSys R D P) (DC : DayCounts R D) (DN : DateNum R D) fuel flr (m : omodel R D P) d strike F K v t V,
  om_formula m = FLogNormal -> om_const m = default_gconst -> market fuel flr m d strike F K v t ->
  0 < v -> 0 < t -> 10 ^ 7 <= F -> 1/5 <= v * sqrt t <= 1 -> K = F * exp (v ^ 2 * t / 2) ->
  calls_worth FLogNormal K V ->
  exists gamma V1 g, get_call_gamma fuel flr m d strike = Ok gamma /\ gamma < - (8 / 10000) /\
    (forall x, 0 < x -> derivable_pt_lim (fun x => V x v t) x (V1 x)) /\ derivable_pt_lim V1 F g /\
    0 < g * delta_scale (om_const m) ^ 2 < 1 / 10 ^ 14.
Proof.
  intros D P DS DC DN fuel flr m d strike F K v t V C G M Hv Ht HF S EK HV. destruct the_distribution as [N HN].
  pose proof (sd_sq v t Ht) as SQ. set (s := v * sqrt t) in *. rewrite <- SQ in EK.
  assert (HK : 0 < K) by (subst K; apply Rmult_lt_0_compat; [lra|apply exp_pos]).
  assert (KB : K <= 3 * F).
  { subst K. rewrite (Rmult_comm 3). apply Rmult_le_compat_l; [lra|]. apply Rle_trans with (exp 1); [|apply exp_le_3].
    assert (s * s / 2 < 1) by nra. left. now apply exp_increasing. }
  set (h := 1 / 10000).
  assert (PR : forall x, 0 < x -> call_price FLogNormal t K x v = Ok (black_call t K x v)).
  { intros x X. cbn [call_price]. apply black_price_ok; auto; try lra. now apply Rdiv_lt_0_compat. }
  assert (LK : ln (F / K) = - (s * s / 2)).
  { subst K. replace (F / (F * exp (s * s / 2))) with (/ exp (s * s / 2)) by (field; split; [apply Rgt_not_eq, exp_pos|lra]).
    rewrite <- exp_Ropp. apply ln_exp. }
  assert (DX : forall x, 0 < x -> d_black t K x v = ln (x / F) / s).
  { intros x X. unfold d_black. fold s. rewrite <- SQ. replace (x / K) with (x / F * (F / K)) by (field; lra).
    rewrite ln_mult, LK by (apply Rdiv_lt_0_compat; lra). field. lra. }
  set (u := ln ((F + h) / F) / s). set (w := - ln ((F - h) / F) / s).
  assert (HH : 0 < h) by (unfold h; lra).
  assert (U : 0 < u <= h / F / s).
  { assert (L0 : 0 < ln ((F + h) / F)).
    { rewrite <- ln_1. apply ln_increasing; [lra|]. apply (Rmult_lt_reg_r F); [lra|]. unfold Rdiv. rewrite Rmult_assoc, Rinv_l; lra. }
    assert (L1 : ln ((F + h) / F) <= h / F).
    { replace ((F + h) / F) with (1 + h / F) by (field; lra). assert (0 < h / F) by (apply Rdiv_lt_0_compat; lra). left.
      rewrite <- (ln_exp (h / F)) at 2. apply ln_increasing; [lra|]. apply exp_ineq1; lra. }
    unfold u. split; [apply Rdiv_lt_0_compat; lra|]. apply Rmult_le_compat_r; [left; apply Rinv_0_lt_compat; lra|exact L1]. }
  assert (W : 0 < w <= 2 * (h / F) / s).
  { assert (HFh : 0 < h / F <= 1/2).
    { split; [apply Rdiv_lt_0_compat; lra|]. apply (Rmult_le_reg_r F); [lra|]. unfold Rdiv at 1. rewrite Rmult_assoc, Rinv_l; unfold h; lra. }
    assert (L0 : ln ((F - h) / F) < 0).
    { rewrite <- ln_1. replace ((F - h) / F) with (1 - h / F) by (field; lra). apply ln_increasing; lra. }
    assert (L1 : - ln ((F - h) / F) <= 2 * (h / F)).
    { replace ((F - h) / F) with (1 - h / F) by (field; lra). set (e := h / F) in *. rewrite <- ln_Rinv by lra.
      rewrite <- (ln_exp (2 * e)). apply Rlt_le. apply ln_increasing; [apply Rinv_0_lt_compat; lra|].
      apply Rle_lt_trans with (1 + 2 * e); [|apply exp_ineq1; lra]. apply (Rmult_le_reg_r (1 - e)); [lra|]. rewrite Rinv_l by lra. nra. }
    unfold w. split; [apply Rdiv_lt_0_compat; lra|]. apply Rmult_le_compat_r; [left; apply Rinv_0_lt_compat; lra|exact L1]. }
  assert (DU : d_black t K (F + h) v = u) by (rewrite DX by lra; reflexivity).
  assert (DM : d_black t K F v = 0) by (rewrite DX by lra; replace (F / F) with 1 by (field; lra); rewrite ln_1; field; lra).
  assert (DD : d_black t K (F - h) v = - w) by (rewrite DX by (unfold h; lra); unfold w; field; lra).
  (* the upper difference is at most the slope times the shift *)
  assert (HS : 0 < / s <= 5) by (split; [apply Rinv_0_lt_compat; lra|replace 5 with (/ (1/5)) by field; apply Rinv_le_contravar; lra]).
  assert (FU : F * u <= h * 5).
  { apply Rle_trans with (F * (h / F / s)); [apply Rmult_le_compat_l; lra|]. replace (F * (h / F / s)) with (h * / s) by (field; lra). apply Rmult_le_compat_l; lra. }
  assert (FW : F * w <= h * 10).
  { apply Rle_trans with (F * (2 * (h / F) / s)); [apply Rmult_le_compat_l; lra|]. replace (F * (2 * (h / F) / s)) with (2 * h * / s) by (field; lra). nra. }
  assert (UP : black_call t K (F + h) v - black_call t K F v <= 11 * h).
  { unfold black_call. rewrite DU, DM. fold s.
    assert (Q1 : Phi u - Phi 0 <= 2 * u) by (rewrite (Phi_nonneg u), (Phi_nonneg 0) by lra; pose proof (as_tail_lip 0 u ltac:(lra)); lra).
    assert (Q2 : Phi (0 - s) < Phi (u - s)) by (apply Phi_incr; lra).
    assert (Q3 : K * Phi (0 - s) <= K * Phi (u - s)) by (apply Rmult_le_compat_l; lra).
    assert (Q4 : F * (Phi u - Phi 0) <= F * (2 * u)) by (apply Rmult_le_compat_l; lra).
    pose proof (Phi_range u). assert (h * Phi u <= h * 1) by (apply Rmult_le_compat_l; lra). lra. }
  assert (DNN : F * (8 / 10 ^ 10) - 60 * h <= black_call t K F v - black_call t K (F - h) v).
  { unfold black_call. rewrite DD, DM. fold s.
    assert (Q1 : 8 / 10 ^ 10 <= Phi 0 - Phi (- w)).
    { rewrite (Phi_nonneg 0), (Phi_neg (- w)), Ropp_involutive by lra. pose proof (as_tail_half 0 ltac:(lra)). pose proof (as_tail_half w ltac:(lra)). lra. }
    assert (Q2 : Phi (0 - s) - Phi (- w - s) <= 2 * w).
    { rewrite (Phi_neg (0 - s)), (Phi_neg (- w - s)) by lra. replace (- (0 - s)) with s by ring. replace (- (- w - s)) with (s + w) by ring.
      pose proof (as_tail_lip s (s + w) ltac:(lra)). lra. }
    assert (Q3 : K * (Phi (0 - s) - Phi (- w - s)) <= 3 * F * (2 * w)).
    { apply Rle_trans with (K * (2 * w)); [apply Rmult_le_compat_l; lra|apply Rmult_le_compat_r; lra]. }
    assert (Q4 : F * (8 / 10 ^ 10) <= F * (Phi 0 - Phi (- w))) by (apply Rmult_le_compat_l; lra).
    pose proof (Phi_range (- w)). assert (0 <= h * Phi (- w)) by (apply Rmult_le_pos; lra). lra. }
  assert (GX : forall x, 0 < x -> priced FLogNormal x K v t) by (intros x X; repeat split; auto).
  assert (MG : exists gamma, get_call_gamma fuel flr m d strike = Ok gamma /\
    gamma = black_call t K (F + h) v - 2 * black_call t K F v + black_call t K (F - h) v).
  { destruct (market_live _ _ _ _ _ _ _ _ _ M) as (E1 & G1); try lra.
    unfold get_call_gamma. rewrite E1. cbn [bind od_forward number od_strike od_vol od_time]. rewrite G1. cbn [bind]. rewrite C, G.
    cbn [default_gconst delta_shift delta_scale]. unfold n_ratio. rn. 
    replace (if om_bump m then _ else _) with (Ok None : res (option R)) by (destruct (om_bump m); reflexivity). cbn [bind].
    fold h. rewrite !PR by (unfold h; lra). cbn [bind]. rewrite Rdivp_ok by lra. cbn [bind npow]. rn.
    eexists. split; [reflexivity|]. field; unfold h; lra. }
  destruct MG as (gamma & MG & EG). exists gamma, (fun x => closed_d N FLogNormal K x s), (closed_g FLogNormal K F s).
  split; [exact MG|]. split; [|split; [|split]].
  - rewrite EG. unfold h in *. lra.
  - intros x X. apply is_derive_Reals. apply (is_derive_ext_loc (fun x => closed N FLogNormal K x s)).
    + apply near_pos; auto. intros z Z. symmetry. apply (worth_eq N FLogNormal K V HN HV z v t). now apply GX.
    + apply closed_delta; auto; [split; auto|lra].
  - apply is_derive_Reals, closed_gamma; auto; [split; auto; lra|lra].
  - rewrite G. cbn [default_gconst delta_scale closed_g]. unfold n_ratio. rn.
    set (x := (ln (F / K) + s * s / 2) / s). pose proof (density_pos x) as P0.
    assert (P1 : density x <= 1).
    { pose proof (pdf_error x) as PE. apply Rabs_le_inv in PE. pose proof (phi_max x) as PM. unfold cpi in PM. lra. }
    assert (I0 : 0 < / F <= / 10 ^ 7) by (split; [apply Rinv_0_lt_compat; lra|apply Rinv_le_contravar; lra]).
    assert (0 < / F * / s <= / 10 ^ 7 * 5) by (split; [apply Rmult_lt_0_compat; lra|apply Rmult_le_compat; lra]).
    replace (density x / (F * s)) with (density x * (/ F * / s)) by (field; lra).
    assert (0 < density x * (/ F * / s)) by (apply Rmult_lt_0_compat; lra).
    assert (density x * (/ F * / s) <= 1 * (/ 10 ^ 7 * 5)) by (apply Rmult_le_compat; lra).
    cbn. lra.
Qed.
Print Assumptions C115_gamma_refuted.

Example C115_instance : exists V, calls_worth FLogNormal 110 V /\
  exists delta y dF, get_call_delta (DS:=FloatDates) (DC:=no_registry) 1 None (flat_model FLogNormal 0 100 (1/5) true) 1 (Some 110) = Ok delta /\
    100 < y < 100 + 1 / 10000 /\ derivable_pt_lim (fun x => V x (1/5) (1 - 0)) y dF /\ Rabs (delta - dF / 10000) <= 1 / 10 ^ 4.
Proof.
  destruct (C115_values FLogNormal 110) as [V HV]. exists V. split; [exact HV|]. assert (NF : 100 <> 0) by lra.
  pose proof (flat_market FLogNormal 0 100 (1/5) true 1 (Some 110) NF) as M. cbv beta iota in M.
  destruct (C115_delta _ _ 1 None (flat_model FLogNormal 0 100 (1/5) true) 1 _ _ _ _ _ V eq_refl M) as (delta & y & dF & A & B & E & X); auto.
  - repeat split; lra.
  - unfold flat_model, default_gconst. cbn [om_const delta_shift]. unfold n_ratio. rn. lra.
  - unfold flat_model, default_gconst, tolerance in *. cbn [om_const om_formula delta_shift delta_scale] in *. unfold n_ratio in *. cbn in B, X. replace (1 - 0) with 1 in X by ring. rewrite sqrt_1 in X.
    exists delta, y, dF. split; [exact A|]. split; [exact B|]. split; [exact E|]. replace (dF / 10000) with (dF * (1 / 10000)) by field.
    eapply Rle_trans; [exact X|]. rewrite Rabs_right; lra.
Qed.
(** ... an index at twenty million, its one year option struck two percent above *)
Example C115_gamma_instance : exists strike gamma,
  get_call_gamma (DS:=FloatDates) (DC:=no_registry) (DN:=FloatNum) 1 None (flat_model FLogNormal 0 (2 * 10 ^ 7) (1/5) true) 1 (Some strike) = Ok gamma /\ gamma < - (8 / 10000).
Proof.
  set (K := 2 * 10 ^ 7 * exp ((1/5) ^ 2 * (1 - 0) / 2)). assert (NF : 2 * 10 ^ 7 <> 0) by lra. exists K.
  pose proof (flat_market FLogNormal 0 (2 * 10 ^ 7) (1/5) true 1 (Some K) NF) as M. cbv beta iota in M.
  destruct (C115_values FLogNormal K) as [V HV].
  destruct (C115_gamma_refuted _ _ FloatNum 1 None (flat_model FLogNormal 0 (2 * 10 ^ 7) (1/5) true) 1 _ _ _ _ _ V eq_refl eq_refl M) as (g & _ & _ & A & B & _); auto; try lra.
  - replace (1 - 0) with 1 by ring. rewrite sqrt_1. lra.
  - exists g. auto.
Qed.
