(** Property C111: analytic greeks are derivatives of expected payoffs. *)
From Coq Require Import Reals ZArith List Bool Lra Lia Psatz.
From Coquelicot Require Import Coquelicot.
From Verif Require Import Num Py MDates MCurve MRateCurve MOption SDates SOption SNormal
  LBase LDates LOption LSeries LNormal LGauss LExpect LGreeks POption PNormal PExpect.
Import ListNotations.
Open Scope R_scope.

(** [V F v] is the expected payoff of a call with strike K on a normally (lognormally)
    distributed forward *)
Definition normal_calls (K t : R) (V : R -> R -> R) : Prop :=
  forall F v, 0 < v -> expectation (fun z => call_payoff K (normal_forward F v t z)) (V F v).
Definition lognormal_calls (K t : R) (V : R -> R -> R) : Prop :=
  forall F v, 0 < F -> 0 < v -> expectation (fun z => call_payoff K (lognormal_forward F v t z)) (V F v).

Lemma normal_calls_eq N K t V : normal_distribution N -> 0 < t -> normal_calls K t V -> forall F v, 0 < v -> V F v = bach N K F (v * sqrt t).
Proof.
  intros HN Ht H F v Hv. pose proof (vol_pos t v Ht Hv) as S. apply (expectation_unique _ _ _ (H F v Hv)). unfold bach.
  apply (expectation_ext (fun z => Rmax ((F - K) + v * sqrt t * z) 0)); [|now apply bach_call].
  intros z. unfold call_payoff, normal_forward. f_equal. ring.
Qed.
Lemma lognormal_calls_eq N K t V : normal_distribution N -> 0 < t -> 0 < K -> lognormal_calls K t V ->
  forall F v, 0 < F -> 0 < v -> V F v = blk N K F (v * sqrt t).
Proof.
  intros HN Ht HK H F v HF Hv. pose proof (vol_pos t v Ht Hv) as S. apply (expectation_unique _ _ _ (H F v HF Hv)). unfold blk.
  apply (expectation_ext (fun z => Rmax (F * exp (v * sqrt t * z - v * sqrt t * (v * sqrt t) / 2) - K) 0)); [|now apply black_call_exp].
  intros z. unfold call_payoff, lognormal_forward. now rewrite sd_sq.
Qed.
Lemma near_pos (v : R) (Q : R -> Prop) : 0 < v -> (forall w, 0 < w -> Q w) -> locally v Q.
Proof.
  intros Hv H. exists (mkposreal v Hv). intros w Hw. apply H. unfold ball in Hw. cbn in Hw. unfold AbsRing_ball, abs, minus, plus, opp in Hw. cbn in Hw.
  apply Rabs_def2 in Hw. lra.
Qed.
Lemma scaled a b s e : Rabs (a - b) <= e -> Rabs (a * s - b * s) <= e * Rabs s.
Proof. intros H. replace (a * s - b * s) with ((a - b) * s) by ring. rewrite Rabs_mult. apply Rmult_le_compat_r; [apply Rabs_pos|exact H]. Qed.

Section Greeks.
  Context {D P : Type} (DS : DateSys R D P) (DC : DayCounts R D) (DN : DateNum R D).
  Implicit Types (m : omodel R D P) (d : D).

  (** the Bachelier delta and vega are the derivatives of the expected payoff with respect to
      forward and volatility, the gamma the second derivative (where the code passes the time
      to expiry to it), times the scales of the model *)
  Theorem C111_bachelier : forall fuel flr m d strike F K v t V,
    om_formula m = FNormal -> om_bump m = false -> market fuel flr m d strike F K v t -> 0 < v -> 0 < t ->
    normal_calls K t V ->
    let dsc := delta_scale (om_const m) in let vsc := vega_scale (om_const m) in
    exists delta vega dF dv V1 g,
      get_call_delta fuel flr m d strike = Ok delta /\ get_call_vega fuel flr m d strike = Ok vega /\
      derivable_pt_lim (fun x => V x v) F dF /\ Rabs (delta - dF * dsc) <= 75 / 10 ^ 9 * Rabs dsc /\
      derivable_pt_lim (fun x => V F x) v dv /\ Rabs (vega - dv * vsc) <= sqrt t / 10 ^ 15 * Rabs vsc /\
      (forall x, derivable_pt_lim (fun y => V y v) x (V1 x)) /\ derivable_pt_lim V1 F g /\
      (date_num d = Ok t -> exists gamma, get_call_gamma fuel flr m d strike = Ok gamma /\
         Rabs (gamma - g * dsc ^ 2) <= 1 / (v * sqrt t) / 10 ^ 15 * Rabs (dsc ^ 2)).
  Proof.
    intros fuel flr m d strike F K v t V C B M Hv Ht HV dsc vsc. destruct the_distribution as [N HN].
    destruct (C55_bachelier DS DC DN _ _ _ _ _ _ _ _ _ C B M Hv Ht) as (ED & EV & EG). pose proof (vol_pos t v Ht Hv) as S.
    set (s := v * sqrt t) in *. assert (DX : d_bachelier t K F v = (F - K) / s) by reflexivity. rewrite DX in *. set (x := (F - K) / s) in *.
    pose proof (normal_calls_eq N K t V HN Ht HV) as VE. fold dsc vsc in ED, EV, EG.
    assert (D1 : forall y, derivable_pt_lim (fun y => V y v) y (N ((y - K) / s))).
    { intros y. apply (derive_ext (fun y => bach N K y s)); [intros z; symmetry; now apply VE|]. apply is_derive_Reals. now apply bach_delta. }
    exists (Phi x * dsc), (sqrt t * phi x * vsc), (N x), (sqrt t * density x), (fun y => N ((y - K) / s)), (density x / s).
    split; [exact ED|]. split; [exact EV|]. split; [apply D1|]. split; [apply scaled; left; now apply cdf_error|]. split; [|split; [|split; [exact D1|split]]].
    - apply is_derive_Reals. apply (is_derive_ext_loc (fun v => bach N K F (v * sqrt t))).
      + apply near_pos; auto. intros w Hw. symmetry. now apply VE.
      + replace (sqrt t * density x) with (scal (sqrt t) (density x)) by reflexivity.
        apply (is_derive_comp (bach N K F) (fun v => v * sqrt t)); [now apply bach_vega_s|]. auto_derive; [exact I|ring].
    - apply scaled. replace (sqrt t * phi x - sqrt t * density x) with (sqrt t * (phi x - density x)) by ring.
      rewrite Rabs_mult, (Rabs_right (sqrt t)) by (apply Rle_ge, sqrt_pos). pose proof (pdf_error x). pose proof (sqrt_pos t). nra.
    - apply is_derive_Reals. now apply bach_gamma.
    - intros DT. exists (phi x / s * dsc ^ 2). split; [now apply EG|]. apply scaled.
      replace (phi x / s - density x / s) with ((phi x - density x) * / s) by (field; lra). assert (0 < / s) by now apply Rinv_0_lt_compat.
      rewrite Rabs_mult, (Rabs_right (/ s)) by lra. pose proof (pdf_error x). unfold Rdiv at 1. nra.
  Qed.

  (** the Black delta is the derivative of the expected payoff with respect to the forward *)
  Theorem C111_black_delta : forall fuel flr m d strike F K v t V,
    om_formula m = FLogNormal -> om_bump m = false -> market fuel flr m d strike F K v t -> 0 < F -> 0 < K -> 0 < v -> 0 < t ->
    lognormal_calls K t V ->
    let dsc := delta_scale (om_const m) in
    exists delta dF, get_call_delta fuel flr m d strike = Ok delta /\
      derivable_pt_lim (fun x => V x v) F dF /\ Rabs (delta - dF * dsc) <= 75 / 10 ^ 9 * Rabs dsc.
  Proof.
    intros fuel flr m d strike F K v t V C B M HF HK Hv Ht HV dsc. destruct the_distribution as [N HN].
    destruct (C55_black DS DC DN _ _ _ _ _ _ _ _ _ C B M HF HK Hv Ht) as (ED & EV). pose proof (vol_pos t v Ht Hv) as S. pose proof (sd_sq v t Ht) as SQ.
    set (s := v * sqrt t) in *. set (x := (ln (F / K) + s * s / 2) / s).
    assert (DX : d_black t K F v = x) by (unfold d_black, x; fold s; rewrite SQ; reflexivity). rewrite DX in *. fold dsc in ED.
    pose proof (lognormal_calls_eq N K t V HN Ht HK HV) as VE.
    exists (Phi x * dsc), (N x). split; [exact ED|]. split; [|apply scaled; left; now apply cdf_error].
    apply is_derive_Reals. apply (is_derive_ext_loc (fun y => blk N K y s)).
    - apply near_pos; auto. intros w Hw. symmetry. now apply VE.
    - now apply blk_delta.
  Qed.
  (** the Black vega is not the derivative with respect to the volatility: it is F/K times
      that derivative *)
  Theorem C111_black_vega_refuted : forall fuel flr m d strike F K v t V,
    om_formula m = FLogNormal -> om_bump m = false -> market fuel flr m d strike F K v t -> 0 < F -> 0 < K -> 0 < v -> 0 < t ->
    lognormal_calls K t V ->
    let vsc := vega_scale (om_const m) in
    exists vega dv, get_call_vega fuel flr m d strike = Ok vega /\ derivable_pt_lim (fun x => V F x) v dv /\ 0 < dv /\
      Rabs (vega - F / K * dv * vsc) <= F * sqrt t / 10 ^ 15 * Rabs vsc.
  Proof.
    intros fuel flr m d strike F K v t V C B M HF HK Hv Ht HV vsc. destruct the_distribution as [N HN].
    destruct (C55_black DS DC DN _ _ _ _ _ _ _ _ _ C B M HF HK Hv Ht) as (ED & EV). pose proof (vol_pos t v Ht Hv) as S. pose proof (sd_sq v t Ht) as SQ.
    pose proof (sqrt_pos_lt t Ht) as ST.
    set (s := v * sqrt t) in *. set (x := (ln (F / K) + s * s / 2) / s).
    assert (DX : d_black t K F v = x) by (unfold d_black, x; fold s; rewrite SQ; reflexivity). rewrite DX in *. fold vsc in EV.
    pose proof (lognormal_calls_eq N K t V HN Ht HK HV) as VE.
    exists (F * sqrt t * phi (x - s) * vsc), (sqrt t * (F * density x)). split; [exact EV|]. split; [|split].
    - apply is_derive_Reals. apply (is_derive_ext_loc (fun v => blk N K F (v * sqrt t))).
      + apply near_pos; auto. intros w Hw. symmetry. now apply VE.
      + replace (sqrt t * (F * density x)) with (scal (sqrt t) (F * density x)) by reflexivity.
        apply (is_derive_comp (blk N K F) (fun v => v * sqrt t)); [now apply blk_vega_s|]. auto_derive; [exact I|ring].
    - pose proof (density_pos x). apply Rmult_lt_0_compat; [auto|apply Rmult_lt_0_compat; auto].
    - apply scaled. pose proof (tilted F K s HF HK S) as T. fold x in T.
      replace (F / K * (sqrt t * (F * density x))) with (F * sqrt t * density (x - s)) by (rewrite <- T; field; lra).
      replace (F * sqrt t * phi (x - s) - F * sqrt t * density (x - s)) with (F * sqrt t * (phi (x - s) - density (x - s))) by ring.
      assert (0 < F * sqrt t) by (apply Rmult_lt_0_compat; auto).
      rewrite Rabs_mult, (Rabs_right (F * sqrt t)) by lra. pose proof (pdf_error (x - s)). nra.
  Qed.
End Greeks.
Print Assumptions C111_bachelier.
Print Assumptions C111_black_delta.
Print Assumptions C111_black_vega_refuted.

(** the families of expected payoffs exist *)
Theorem C111_values : forall K t, 0 < t -> (exists V, normal_calls K t V) /\ (0 < K -> exists V, lognormal_calls K t V).
Proof.
  intros K t Ht. destruct the_distribution as [N HN]. split.
  - exists (fun F v => bach N K F (v * sqrt t)). intros F v Hv. pose proof (vol_pos t v Ht Hv) as S. unfold bach.
    apply (expectation_ext (fun z => Rmax ((F - K) + v * sqrt t * z) 0)); [|now apply bach_call].
    intros z. unfold call_payoff, normal_forward. f_equal. ring.
  - intros HK. exists (fun F v => blk N K F (v * sqrt t)). intros F v HF Hv. pose proof (vol_pos t v Ht Hv) as S. unfold blk.
    apply (expectation_ext (fun z => Rmax (F * exp (v * sqrt t * z - v * sqrt t * (v * sqrt t) / 2) - K) 0)); [|now apply black_call_exp].
    intros z. unfold call_payoff, lognormal_forward. now rewrite sd_sq.
Qed.
Print Assumptions C111_values.

Example C111_instance : exists V, lognormal_calls (1/2) (1 - 0) V /\
  exists vega dv, get_call_vega (DS:=FloatDates) (DC:=no_registry) 1 None (flat_model FLogNormal 0 1 (1/5) false) 1 (Some (1/2)) = Ok vega /\
    derivable_pt_lim (fun x => V 1 x) (1/5) dv /\ 0 < dv /\ Rabs (vega - 2 * dv / 100) <= 1 / 10 ^ 15.
Proof.
  destruct (C111_values (1/2) (1 - 0) ltac:(lra)) as [_ E]. destruct (E ltac:(lra)) as [V HV]. exists V. split; [exact HV|].
  assert (NF : 1 <> 0) by lra.
  pose proof (flat_market FLogNormal 0 1 (1/5) false 1 (Some (1/2)) NF) as M. cbv beta iota in M.
  destruct (C111_black_vega_refuted _ _ FloatNum 1 None (flat_model FLogNormal 0 1 (1/5) false) 1 _ _ _ _ _ V eq_refl eq_refl M) as (vega & dv & A & B & Q & X); try lra; auto.
  exists vega, dv. split; [exact A|]. split; [exact B|]. split; [exact Q|].
  change (vega_scale (om_const (flat_model FLogNormal 0 1 (1 / 5) false))) with (vega_scale (default_gconst (T:=R))) in X.
  unfold default_gconst in X. cbn [vega_scale] in X. unfold n_ratio in X. cbn in X.
  replace (1 - 0) with 1 in X by ring. rewrite sqrt_1 in X. 
  replace (1 / (1 / 2) * dv * (1 / 100)) with (2 * dv / 100) in X by field. eapply Rle_trans; [exact X|]. rewrite Rabs_right by lra. lra.
Qed.
