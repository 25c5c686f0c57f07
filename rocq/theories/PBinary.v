(** Property C116: greeks of binary options, and those of the displaced model (C111). *)
From Coq Require Import Reals ZArith List Bool Lra Lia Psatz.
From Coquelicot Require Import Coquelicot.
From Verif Require Import Num Py MDates MCurve MRateCurve MOption SDates SOption SNormal
  LBase LDates LOption LSeries LNormal LGauss LExpect LGreeks POption PNormal PExpect PGreeks PStrikes LBump PBump.
Import ListNotations.
Open Scope R_scope.

(** [V F v] is the probability that a normally (lognormally) distributed forward ends above
    the strike K, i.e. the expected payoff of a binary call *)
Definition normal_digitals (K t : R) (V : R -> R -> R) : Prop :=
  forall F v, 0 < v -> expectation (fun z => binary_call_payoff K (normal_forward F v t z)) (V F v).
Definition lognormal_digitals (K t : R) (V : R -> R -> R) : Prop :=
  forall F v, 0 < F -> 0 < v -> expectation (fun z => binary_call_payoff K (lognormal_forward F v t z)) (V F v).

Lemma normal_digital N K F v t : normal_distribution N -> 0 < t -> 0 < v ->
  expectation (fun z => binary_call_payoff K (normal_forward F v t z)) (N ((F - K) / (v * sqrt t))).
Proof.
  intros HN Ht Hv. pose proof (vol_pos t v Ht Hv) as S. set (x := (F - K) / (v * sqrt t)).
  replace (N x) with (1 - N (- x)) by (rewrite (N_sym N HN); ring).
  assert (Q : forall z, normal_forward F v t z - K = v * sqrt t * (z - - x)) by (intros z; pose proof (sqrt_pos_lt t Ht); unfold normal_forward, x; field; split; lra).
  apply digital_beyond; auto; intros z Hz; unfold binary_call_payoff; specialize (Q z); destruct (Rlt_dec K (normal_forward F v t z)); auto; nra.
Qed.
Lemma lognormal_digital N K F v t : normal_distribution N -> 0 < t -> 0 < v -> 0 < F -> 0 < K ->
  let s := v * sqrt t in
  expectation (fun z => binary_call_payoff K (lognormal_forward F v t z)) (N ((ln (F / K) + s * s / 2) / s - s)).
Proof.
  intros HN Ht Hv HF HK s. pose proof (vol_pos t v Ht Hv) as S. pose proof (sd_sq v t Ht) as SQ. fold s in S, SQ.
  set (x := (ln (F / K) + s * s / 2) / s - s). replace (N x) with (1 - N (- x)) by (rewrite (N_sym N HN); ring).
  assert (LF : forall z, lognormal_forward F v t z = F * exp (s * z - s * s / 2)) by (intros z; unfold lognormal_forward; fold s; now rewrite SQ).
  apply digital_beyond; auto; intros z Hz; destruct (black_point F K s z HF HK S) as [B1 B2]; fold x in B1, B2; unfold binary_call_payoff; rewrite LF;
    destruct (Rlt_dec K _); auto; [specialize (B2 Hz); lra|specialize (B1 Hz); lra].
Qed.
Lemma digital_delta (N : R -> R) (K F s : R) : normal_distribution N -> 0 < F -> 0 < K -> 0 < s ->
  is_derive (fun F => N ((ln (F / K) + s * s / 2) / s - s)) F (density ((ln (F / K) + s * s / 2) / s - s) / (F * s)).
Proof.
  intros HN HF HK S. auto_derive.
  - assert (0 < F * / K) by (apply Rdiv_lt_0_compat; auto). repeat split; auto using ex_N.
  - rewrite (D_N N HN). unfold Rdiv, Rminus. field. lra.
Qed.
Lemma digital_vega (N : R -> R) (K F s : R) : normal_distribution N -> 0 < F -> 0 < K -> 0 < s ->
  let x := (ln (F / K) + s * s / 2) / s in
  is_derive (fun s => N ((ln (F / K) + s * s / 2) / s - s)) s (- (x / s) * density (x - s)).
Proof.
  intros HN HF HK S x. auto_derive.
  - repeat split; auto using ex_N; lra.
  - rewrite (D_N N HN). unfold x. unfold Rdiv, Rminus. field. lra.
Qed.

Ltac prod := repeat (apply Rmult_lt_0_compat; [|assumption]); assumption.

Section Binary.
  Context {D P : Type} (DS : DateSys R D P) (DC : DayCounts R D) (DN : DateNum R D).
  Implicit Types (m : omodel R D P) (d : D).

  (** the delta of the binary Bachelier model is the derivative of the probability with
      respect to the forward *)
  Theorem C116_bachelier_delta : forall fuel flr m d strike F K v t V,
    om_formula m = FBinNormal -> om_bump m = false -> market fuel flr m d strike F K v t -> 0 < v -> 0 < t ->
    normal_digitals K t V ->
    let dsc := delta_scale (om_const m) in
    exists delta dF, get_call_delta fuel flr m d strike = Ok delta /\ derivable_pt_lim (fun x => V x v) F dF /\ 0 < dF /\
      Rabs (delta - dF * dsc) <= 1 / (v * sqrt t) / 10 ^ 15 * Rabs dsc.
  Proof.
    intros fuel flr m d strike F K v t V C B M Hv Ht HV dsc. destruct the_distribution as [N HN]. pose proof (vol_pos t v Ht Hv) as S.
    destruct (C55_binary_bachelier DS DC DN _ _ _ _ _ _ _ _ _ C B M Hv Ht) as (_ & ED & _). set (s := v * sqrt t) in *.
    set (x := d_bachelier t K F v) in *. fold dsc in ED. exists (phi x / s * dsc), (density x / s). split; [exact ED|]. split; [|split].
    - apply is_derive_Reals. apply (is_derive_ext (fun y => N ((y - K) / s))); [|now apply bach_gamma].
      intros y. symmetry. exact (expectation_unique _ _ _ (HV y v Hv) (normal_digital N K y v t HN Ht Hv)).
    - apply Rdiv_lt_0_compat; [apply density_pos|lra].
    - apply scaled. replace (phi x / s - density x / s) with ((phi x - density x) * / s) by (field; lra). assert (0 < / s) by now apply Rinv_0_lt_compat.
      rewrite Rabs_mult, (Rabs_right (/ s)) by lra. pose proof (pdf_error x). unfold Rdiv at 1. nra.
  Qed.
  (** ... but its gamma, where the date is the time, has the wrong sign away from the strike *)
  Theorem C116_bachelier_gamma_refuted : forall fuel flr m d strike F K v t V,
    om_formula m = FBinNormal -> om_bump m = false -> market fuel flr m d strike F K v t -> 0 < v -> 0 < t -> date_num d = Ok t ->
    F <> K -> delta_scale (om_const m) <> 0 -> normal_digitals K t V ->
    exists gamma V1 g, get_call_gamma fuel flr m d strike = Ok gamma /\
      (forall x, derivable_pt_lim (fun y => V y v) x (V1 x)) /\ derivable_pt_lim V1 F g /\ gamma * g < 0.
  Proof.
    intros fuel flr m d strike F K v t V C B M Hv Ht DT NE NS HV. destruct the_distribution as [N HN]. pose proof (vol_pos t v Ht Hv) as S.
    pose proof (C55_binary_bachelier_gamma_refuted DS DC DN _ _ _ _ _ _ _ _ _ C B M Hv Ht DT) as EG. cbv zeta in EG.
    set (s := v * sqrt t) in *. set (dsc := delta_scale (om_const m)) in *.
    assert (DX : d_bachelier t K F v = (F - K) / s) by reflexivity. rewrite DX in EG. set (x := (F - K) / s) in *.
    exists (x * phi x / (v ^ 2 * t) * dsc ^ 2 / t), (fun y => density ((y - K) / s) / s), (- x * density x / (s * s)). split; [exact EG|]. split; [|split].
    - intros y. apply is_derive_Reals. apply (is_derive_ext (fun y => N ((y - K) / s))); [|now apply bach_gamma].
      intros z. symmetry. exact (expectation_unique _ _ _ (HV z v Hv) (normal_digital N K z v t HN Ht Hv)).
    - apply is_derive_Reals. auto_derive; [repeat split; auto using ex_density|]. rewrite D_density. unfold x. unfold Rdiv, Rminus. field. lra.
    - assert (NX : x <> 0). { unfold x. intros Z. apply NE. apply (f_equal (Rmult s)) in Z. replace (s * ((F - K) / s)) with (F - K) in Z by (field; lra). lra. }
      assert (0 < x ^ 2) by (cbn; nra). assert (0 < dsc ^ 2) by (cbn; nra). pose proof (phi_pos x). pose proof (density_pos x).
      assert (0 < v ^ 2) by (cbn; nra).
      replace (x * phi x / (v ^ 2 * t) * dsc ^ 2 / t * (- x * density x / (s * s))) with (- (x ^ 2 * phi x * dsc ^ 2 * density x / (v ^ 2 * t * t * (s * s)))) by (field; repeat split; lra).
      assert (0 < s * s) by now apply Rmult_lt_0_compat. apply Ropp_lt_gt_0_contravar, Rdiv_lt_0_compat; prod.
  Qed.
  (** ... and its vega is positive in the money, where the probability falls with the
      volatility *)
  Theorem C116_bachelier_vega_refuted : forall fuel flr m d strike F K v t V,
    om_formula m = FBinNormal -> om_bump m = false -> market fuel flr m d strike F K v t -> 0 < v -> 0 < t -> K < F ->
    0 < vega_scale (om_const m) -> normal_digitals K t V ->
    exists vega dv, get_call_vega fuel flr m d strike = Ok vega /\ derivable_pt_lim (fun x => V F x) v dv /\ dv < 0 < vega.
  Proof.
    intros fuel flr m d strike F K v t V C B M Hv Ht L PS HV. destruct the_distribution as [N HN]. pose proof (vol_pos t v Ht Hv) as S.
    destruct (C55_binary_bachelier DS DC DN _ _ _ _ _ _ _ _ _ C B M Hv Ht) as (_ & _ & EV). pose proof (sqrt_pos_lt t Ht) as ST.
    set (s := v * sqrt t) in *. set (x := d_bachelier t K F v) in *. set (y := (F - K) / s).
    assert (Y : 0 < y) by (apply Rdiv_lt_0_compat; lra).
    exists (sqrt t * phi x * vega_scale (om_const m)), (- (y / v) * density y). split; [exact EV|]. split.
    - apply is_derive_Reals. apply (is_derive_ext_loc (fun v => N ((F - K) / (v * sqrt t)))).
      + apply near_pos; auto. intros w Hw. symmetry. exact (expectation_unique _ _ _ (HV F w Hw) (normal_digital N K F w t HN Ht Hw)).
      + auto_derive; [repeat split; auto using ex_N; fold s; lra|]. rewrite (D_N N HN). unfold y, s, Rdiv, Rminus. field. lra.
    - pose proof (density_pos y). pose proof (phi_pos x). split; [|prod].
      assert (0 < y / v) by (apply Rdiv_lt_0_compat; lra). nra.
  Qed.

  (** the delta of the binary Black model is the derivative of the probability, although
      the value is not the probability (C110) *)
  Theorem C116_black_delta : forall fuel flr m d strike F K v t V,
    om_formula m = FBinLogNormal -> om_bump m = false -> market fuel flr m d strike F K v t -> 0 < F -> 0 < K -> 0 < v -> 0 < t ->
    lognormal_digitals K t V ->
    let dsc := delta_scale (om_const m) in
    exists delta dF, get_call_delta fuel flr m d strike = Ok delta /\ derivable_pt_lim (fun x => V x v) F dF /\ 0 < dF /\
      Rabs (delta - dF * dsc) <= 1 / (F * (v * sqrt t)) / 10 ^ 15 * Rabs dsc.
  Proof.
    intros fuel flr m d strike F K v t V C B M HF HK Hv Ht HV dsc. destruct the_distribution as [N HN]. pose proof (vol_pos t v Ht Hv) as S. pose proof (sd_sq v t Ht) as SQ.
    destruct (C55_binary_black DS DC DN _ _ _ _ _ _ _ _ _ C B M HF HK Hv Ht) as (_ & _ & ED). set (s := v * sqrt t) in *. set (x := (ln (F / K) + s * s / 2) / s).
    assert (DX : d_black t K F v = x) by (unfold d_black, x; fold s; rewrite SQ; reflexivity). rewrite DX in *. fold dsc in ED.
    exists (phi (x - s) / s / F * dsc), (density (x - s) / (F * s)). assert (FS : 0 < F * s) by now apply Rmult_lt_0_compat.
    split; [exact ED|]. split; [|split].
    - apply is_derive_Reals. apply (is_derive_ext_loc (fun y => N ((ln (y / K) + s * s / 2) / s - s))).
      + apply near_pos; auto. intros w Hw. symmetry. exact (expectation_unique _ _ _ (HV w v Hw Hv) (lognormal_digital N K w v t HN Ht Hv Hw HK)).
      + now apply digital_delta.
    - apply Rdiv_lt_0_compat; [apply density_pos|lra].
    - apply scaled. replace (phi (x - s) / s / F - density (x - s) / (F * s)) with ((phi (x - s) - density (x - s)) * / (F * s)) by (field; lra).
      assert (0 < / (F * s)) by now apply Rinv_0_lt_compat.
      rewrite Rabs_mult, (Rabs_right (/ (F * s))) by lra. pose proof (pdf_error (x - s)). unfold Rdiv at 1. nra.
  Qed.
  (** ... but its vega is positive deep enough in the money, where the probability falls
      with the volatility *)
  Theorem C116_black_vega_refuted : forall fuel flr m d strike F K v t V,
    om_formula m = FBinLogNormal -> om_bump m = false -> market fuel flr m d strike F K v t -> 0 < K -> 0 < v -> 0 < t ->
    K * exp (v ^ 2 * t / 2) < F -> 0 < vega_scale (om_const m) -> lognormal_digitals K t V ->
    exists vega dv, get_call_vega fuel flr m d strike = Ok vega /\ derivable_pt_lim (fun x => V F x) v dv /\ dv < 0 < vega.
  Proof.
    intros fuel flr m d strike F K v t V C B M HK Hv Ht L PS HV. destruct the_distribution as [N HN]. pose proof (vol_pos t v Ht Hv) as S. pose proof (sd_sq v t Ht) as SQ.
    pose proof (exp_pos (v ^ 2 * t / 2)) as EP. assert (HF : 0 < F) by nra. pose proof (sqrt_pos_lt t Ht) as ST.
    destruct (C55_binary_black DS DC DN _ _ _ _ _ _ _ _ _ C B M HF HK Hv Ht) as (_ & EV & _). set (s := v * sqrt t) in *. set (x := (ln (F / K) + s * s / 2) / s).
    assert (DX : d_black t K F v = x) by (unfold d_black, x; fold s; rewrite SQ; reflexivity). rewrite DX in *.
    assert (LX : s < x).
    { assert (LL : v ^ 2 * t / 2 < ln (F / K)).
      { rewrite <- (ln_exp (v ^ 2 * t / 2)). apply ln_increasing; auto. apply (Rmult_lt_reg_r K); auto. unfold Rdiv at 2. rewrite Rmult_assoc, Rinv_l by lra. lra. }
      rewrite <- SQ in LL. unfold x. apply (Rmult_lt_reg_r s); auto. unfold Rdiv at 1. rewrite Rmult_assoc, Rinv_l by lra. lra. }
    exists ((x / v - sqrt t) * phi x * vega_scale (om_const m)), (sqrt t * (- (x / s) * density (x - s))). split; [exact EV|]. split.
    - apply is_derive_Reals. apply (is_derive_ext_loc (fun v => (fun s => N ((ln (F / K) + s * s / 2) / s - s)) (v * sqrt t))).
      + apply near_pos; auto. intros w Hw. symmetry. exact (expectation_unique _ _ _ (HV F w HF Hw) (lognormal_digital N K F w t HN Ht Hw HF HK)).
      + replace (sqrt t * (- (x / s) * density (x - s))) with (scal (sqrt t) (- (x / s) * density (x - s))) by reflexivity.
        apply (is_derive_comp (fun s => N ((ln (F / K) + s * s / 2) / s - s)) (fun v => v * sqrt t)); [now apply digital_vega|]. auto_derive; [exact I|ring].
    - pose proof (density_pos (x - s)). pose proof (phi_pos x). split.
      + assert (0 < x / s) by (apply Rdiv_lt_0_compat; lra). assert (0 < x / s * density (x - s)) by (apply Rmult_lt_0_compat; auto). nra.
      + apply Rmult_lt_0_compat; [|assumption]. apply Rmult_lt_0_compat; [|assumption]. replace (x / v - sqrt t) with ((x - s) / v) by (unfold s; field; lra). apply Rdiv_lt_0_compat; lra.
  Qed.

  (** * C111 for the displaced model *)
  Theorem C111_displaced_delta : forall fuel flr m d strike F K v t a V,
    om_formula m = FDisplaced a -> om_bump m = false -> market fuel flr m d strike F K v t -> priced (FDisplaced a) F K v t ->
    calls_worth (FDisplaced a) K V ->
    let dsc := delta_scale (om_const m) in
    exists delta dF, get_call_delta fuel flr m d strike = Ok delta /\
      derivable_pt_lim (fun x => V x v t) F dF /\ Rabs (delta - dF * dsc) <= 75 / 10 ^ 9 * Rabs dsc.
  Proof.
    intros fuel flr m d strike F K v t a V C B M G HV dsc. destruct the_distribution as [N HN]. pose proof G as (Hv & Ht & HF & HK).
    pose proof (vol_pos t v Ht Hv) as S. pose proof (sd_sq v t Ht) as SQ. destruct (market_live _ _ _ _ _ _ _ _ _ M) as (E1 & G1); try lra.
    set (s := v * sqrt t) in *. set (x := (ln ((F + a) / (K + a)) + s * s / 2) / s).
    assert (DX : d_black t (K + a) (F + a) v = x) by (unfold d_black, x; fold s; rewrite SQ; reflexivity).
    exists (Phi x * dsc), (N x). split; [|split].
    - unfold get_call_delta. rewrite E1. cbn [bind od_forward number od_strike od_vol od_time]. rewrite G1, B, C. cbn [bind call_delta]. rn.
      rewrite black_delta_ok; auto; try lra; [|now apply Rdiv_lt_0_compat]. rewrite DX. reflexivity.
    - apply is_derive_Reals. apply (is_derive_ext_loc (fun x => closed N (FDisplaced a) K x s)).
      + apply (filter_imp (fun x => priced (FDisplaced a) x K v t)); [intros z Z; symmetry; now apply worth_eq|]. now apply priced_near.
      + exact (closed_delta N HN (FDisplaced a) K F s (conj HF HK) S).
    - apply scaled. left. now apply cdf_error.
  Qed.
  Theorem C111_displaced_vega_refuted : forall fuel flr m d strike F K v t a V,
    om_formula m = FDisplaced a -> om_bump m = false -> market fuel flr m d strike F K v t -> priced (FDisplaced a) F K v t ->
    calls_worth (FDisplaced a) K V ->
    let vsc := vega_scale (om_const m) in
    exists vega dv, get_call_vega fuel flr m d strike = Ok vega /\ derivable_pt_lim (fun x => V F x t) v dv /\ 0 < dv /\
      Rabs (vega - (F + a) / (K + a) * dv * vsc) <= (F + a) * sqrt t / 10 ^ 15 * Rabs vsc.
  Proof.
    intros fuel flr m d strike F K v t a V C B M G HV vsc. destruct the_distribution as [N HN]. pose proof G as (Hv & Ht & HF & HK).
    pose proof (vol_pos t v Ht Hv) as S. pose proof (sd_sq v t Ht) as SQ. pose proof (sqrt_pos_lt t Ht) as ST. destruct (market_live _ _ _ _ _ _ _ _ _ M) as (E1 & G1); try lra.
    set (s := v * sqrt t) in *. set (x := (ln ((F + a) / (K + a)) + s * s / 2) / s).
    assert (DX : d_black t (K + a) (F + a) v = x) by (unfold d_black, x; fold s; rewrite SQ; reflexivity).
    exists ((F + a) * sqrt t * phi (x - s) * vsc), (sqrt t * ((F + a) * density x)). split; [|split; [|split]].
    - unfold get_call_vega. rewrite E1. cbn [bind od_forward number od_strike od_vol od_time]. rewrite G1, B, C. cbn [bind call_vega]. rn.
      rewrite black_vega_ok; auto; try lra; [|now apply Rdiv_lt_0_compat]. rewrite DX. reflexivity.
    - apply is_derive_Reals. apply (is_derive_ext_loc (fun v => closed N (FDisplaced a) K F (v * sqrt t))).
      + apply near_pos; auto. intros w Hw. symmetry. apply worth_eq; auto. split; [auto|split; [auto|split; auto]].
      + replace (sqrt t * ((F + a) * density x)) with (scal (sqrt t) ((F + a) * density x)) by reflexivity.
        apply (is_derive_comp (fun s => closed N (FDisplaced a) K F s) (fun v => v * sqrt t)); [|auto_derive; [exact I|ring]].
        exact (closed_vega N HN (FDisplaced a) K F s (conj HF HK) S).
    - pose proof (density_pos x). apply Rmult_lt_0_compat; [auto|apply Rmult_lt_0_compat; auto].
    - apply scaled. pose proof (tilted (F + a) (K + a) s HF HK S) as T. fold x in T.
      replace ((F + a) / (K + a) * (sqrt t * ((F + a) * density x))) with ((F + a) * sqrt t * density (x - s)) by (rewrite <- T; field; lra).
      replace ((F + a) * sqrt t * phi (x - s) - (F + a) * sqrt t * density (x - s)) with ((F + a) * sqrt t * (phi (x - s) - density (x - s))) by ring.
      assert (0 < (F + a) * sqrt t) by (apply Rmult_lt_0_compat; auto).
      rewrite Rabs_mult, (Rabs_right ((F + a) * sqrt t)) by lra. pose proof (pdf_error (x - s)). nra.
  Qed.
End Binary.
Print Assumptions C116_bachelier_delta.
Print Assumptions C116_bachelier_gamma_refuted.
Print Assumptions C116_bachelier_vega_refuted.
Print Assumptions C116_black_delta.
Print Assumptions C116_black_vega_refuted.
Print Assumptions C111_displaced_delta.
Print Assumptions C111_displaced_vega_refuted.

(** the families of probabilities exist *)
Theorem C116_values : forall K t, 0 < t -> (exists V, normal_digitals K t V) /\ (0 < K -> exists V, lognormal_digitals K t V).
Proof.
  intros K t Ht. destruct the_distribution as [N HN]. split.
  - exists (fun F v => N ((F - K) / (v * sqrt t))). intros F v Hv. now apply normal_digital.
  - intros HK. exists (fun F v => N ((ln (F / K) + v * sqrt t * (v * sqrt t) / 2) / (v * sqrt t) - v * sqrt t)). intros F v HF Hv. now apply lognormal_digital.
Qed.
Print Assumptions C116_values.

Example C116_instance : exists V, normal_digitals 1 (1 - 0) V /\
  exists vega dv, get_call_vega (DS:=FloatDates) (DC:=no_registry) (DN:=FloatNum) 1 None (flat_model FBinNormal 0 2 1 false) 1 (Some 1) = Ok vega /\
    derivable_pt_lim (fun x => V 2 x) 1 dv /\ dv < 0 < vega.
Proof.
  destruct (C116_values 1 (1 - 0) ltac:(lra)) as [[V HV] _]. exists V. split; [exact HV|]. assert (NF : 2 <> 0) by lra.
  pose proof (flat_market FBinNormal 0 2 1 false 1 (Some 1) NF) as M. cbv beta iota in M.
  destruct (C116_bachelier_vega_refuted _ _ FloatNum 1 None (flat_model FBinNormal 0 2 1 false) 1 _ _ _ _ _ V eq_refl eq_refl M) as (vega & dv & X); auto; try lra.
  - unfold flat_model, default_gconst. cbn [om_const vega_scale]. unfold n_ratio. rn. lra.
  - exists vega, dv. exact X.
Qed.
Example C116_black_instance : exists V, lognormal_digitals 1 (1 - 0) V /\
  exists delta dF, get_call_delta (DS:=FloatDates) (DC:=no_registry) 1 None (flat_model FBinLogNormal 0 2 (1/5) false) 1 (Some 1) = Ok delta /\
    derivable_pt_lim (fun x => V x (1/5)) 2 dF /\ 0 < dF.
Proof.
  destruct (C116_values 1 (1 - 0) ltac:(lra)) as [_ E]. destruct (E ltac:(lra)) as [V HV]. exists V. split; [exact HV|]. assert (NF : 2 <> 0) by lra.
  pose proof (flat_market FBinLogNormal 0 2 (1/5) false 1 (Some 1) NF) as M. cbv beta iota in M.
  destruct (C116_black_delta _ _ FloatNum 1 None (flat_model FBinLogNormal 0 2 (1/5) false) 1 _ _ _ _ _ V eq_refl eq_refl M) as (delta & dF & A & B & X & _); auto; try lra.
  exists delta, dF. auto.
Qed.
