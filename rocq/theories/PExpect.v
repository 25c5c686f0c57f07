(** Property C110: option values are expected payoffs. *)
From Coq Require Import Reals ZArith List Bool Lra Lia Psatz.
From Verif Require Import Num Py MDates MCurve MRateCurve MOption SDates SOption SNormal
  LBase LDates LOption LEnclose LSeries LNormal LGauss LExpect POption PNormal.
Import ListNotations.
Open Scope R_scope.

Lemma the_distribution : exists N, normal_distribution N.
Proof. destruct C109_distribution as [N [H _]]. eauto. Qed.
Lemma cdf_error N : normal_distribution N -> forall x, Rabs (Phi x - N x) < 75 / 10 ^ 9.
Proof. intros HN x. destruct (C109_error N HN x) as [y [E B]]. rewrite cdf_ok in E. injection E as <-. exact B. Qed.
Lemma pdf_error x : Rabs (phi x - density x) <= 1 / 10 ^ 15.
Proof.
  destruct (C109_density x) as [y [E B]]. rewrite pdf_ok in E. injection E as <-. eapply Rle_trans; [exact B|].
  rewrite density_kap. pose proof kap_bounds as K. pose proof (exp_pos (- half_sq x)).
  assert (exp (- half_sq x) <= 1). { rewrite <- exp_0. assert (A : - half_sq x <= 0) by (unfold half_sq; nra). destruct A as [A|A]; [left; now apply exp_increasing|rewrite A; lra]. }
  unfold Rdiv. apply Rmult_le_compat_r; [lra|]. nra.
Qed.
Lemma sd_sq v t : 0 < t -> v * sqrt t * (v * sqrt t) = v ^ 2 * t.
Proof. intros Ht. replace (v * sqrt t * (v * sqrt t)) with (v ^ 2 * (sqrt t * sqrt t)) by ring. rewrite sqrt_sqrt by lra. reflexivity. Qed.
Lemma bach_diff N a s d : normal_distribution N -> 0 < s ->
  Rabs (a * Phi d + s * phi d - (a * N d + s * density d)) <= 75 / 10 ^ 9 * Rabs a + s / 10 ^ 15.
Proof.
  intros HN HS. pose proof (cdf_error N HN d) as A. pose proof (pdf_error d) as B.
  replace (a * Phi d + s * phi d - (a * N d + s * density d)) with (a * (Phi d - N d) + s * (phi d - density d)) by ring.
  eapply Rle_trans; [apply Rabs_triang|]. rewrite !Rabs_mult, (Rabs_right s) by lra. pose proof (Rabs_pos a). nra.
Qed.
Lemma black_diff N F K d d' : normal_distribution N -> 0 < F -> 0 < K ->
  Rabs (F * Phi d - K * Phi d' - (F * N d - K * N d')) < 75 / 10 ^ 9 * (F + K).
Proof.
  intros HN HF HK. pose proof (cdf_error N HN d) as A. pose proof (cdf_error N HN d') as B.
  replace (F * Phi d - K * Phi d' - (F * N d - K * N d')) with (F * (Phi d - N d) + - (K * (Phi d' - N d'))) by ring.
  eapply Rle_lt_trans; [apply Rabs_triang|]. rewrite Rabs_Ropp, !Rabs_mult, (Rabs_right F), (Rabs_right K) by lra. nra.
Qed.

(** * The specification makes sense *)
(** an expectation is a number, of a payoff that is never negative not negative, and the
    mean of the forward at expiry is the forward *)
Theorem C110_expectation :
  (forall g e e', expectation g e -> expectation g e' -> e = e') /\
  (forall g e, (forall z, 0 <= g z) -> expectation g e -> 0 <= e) /\
  (forall F v t, 0 < t -> expectation (normal_forward F v t) F /\ expectation (lognormal_forward F v t) F).
Proof.
  split; [apply expectation_unique|]. split.
  - intros g e G H. destruct (Rle_dec 0 e) as [L|L]; auto. exfalso. destruct (H (- e) ltac:(lra)) as [r Hr].
    set (q := Rmax r 0 + 1). assert (r < q) by (pose proof (Rmax_l r 0); unfold q; lra). assert (0 < q) by (pose proof (Rmax_r r 0); unfold q; lra).
    destruct (Hr (- q) q ltac:(lra) ltac:(lra)) as [i [I J]].
    assert (0 <= i).
    { apply (Coquelicot.RInt.is_RInt_le (fun _ => 0) (fun z => g z * density z) (- q) q); [lra|apply is_RInt_zero|exact I|].
      intros x _. apply Rmult_le_pos; [apply G|left; apply density_pos]. }
    rewrite Rabs_right in J; lra.
  - intros F v t Ht. destruct the_distribution as [N HN]. split.
    + apply (normal_mean N HN F (v * sqrt t)).
    + apply (expectation_ext (fun z => F * exp (v * sqrt t * z - v * sqrt t * (v * sqrt t) / 2))); [|apply (lognormal_mean N HN)].
      intros z. unfold lognormal_forward. now rewrite sd_sq.
Qed.
Print Assumptions C110_expectation.

Section Options.
  Context {D P : Type} (DS : DateSys R D P) (DC : DayCounts R D).
  Implicit Types (m : omodel R D P) (d : D).

  (** * Bachelier: expected payoffs of a normally distributed forward *)
  Theorem C110_bachelier : forall fuel flr m d strike F K v t,
    om_formula m = FNormal -> market fuel flr m d strike F K v t -> 0 < v -> 0 < t ->
    exists c p ec ep, get_call_value fuel flr m d strike = Ok c /\ get_put_value fuel flr m d strike = Ok p /\
      expectation (fun z => call_payoff K (normal_forward F v t z)) ec /\
      expectation (fun z => put_payoff K (normal_forward F v t z)) ep /\
      Rabs (c - ec) <= 75 / 10 ^ 9 * Rabs (F - K) + v * sqrt t / 10 ^ 15 /\
      Rabs (p - ep) <= 75 / 10 ^ 9 * Rabs (F - K) + v * sqrt t / 10 ^ 15.
  Proof.
    intros fuel flr m d strike F K v t C M Hv Ht. destruct the_distribution as [N HN].
    destruct (value_live _ _ _ _ _ _ _ _ _ M) as [E1 E2]; try lra.
    rewrite E1, E2, C. cbn [call_price]. rewrite normal_price_ok by (auto; lra). cbn [bind].
    pose proof (vol_pos t v Ht Hv) as S. set (s := v * sqrt t) in *. set (x := (F - K) / s).
    exists (bachelier_call t K F v), (K - F + bachelier_call t K F v), ((F - K) * N x + s * density x), (- (F - K) * (1 - N x) + s * density x).
    assert (B : Rabs (bachelier_call t K F v - ((F - K) * N x + s * density x)) <= 75 / 10 ^ 9 * Rabs (F - K) + s / 10 ^ 15) by (apply bach_diff; auto).
    split; [reflexivity|]. split; [reflexivity|]. split; [|split; [|split]].
    - apply (expectation_ext (fun z => Rmax ((F - K) + s * z) 0)); [|now apply bach_call]. intros z. unfold call_payoff, normal_forward. fold s. f_equal. ring.
    - apply (expectation_ext (fun z => Rmax (- ((F - K) + s * z)) 0)); [|now apply bach_put]. intros z. unfold put_payoff, normal_forward. fold s. f_equal. ring.
    - exact B.
    - replace (K - F + bachelier_call t K F v - (- (F - K) * (1 - N x) + s * density x)) with (bachelier_call t K F v - ((F - K) * N x + s * density x)) by ring. exact B.
  Qed.
  (** ... so values are never below the intrinsic value by more than that *)
  Theorem C110_bachelier_intrinsic : forall fuel flr m d strike F K v t,
    om_formula m = FNormal -> market fuel flr m d strike F K v t -> 0 < v -> 0 < t ->
    exists c p, get_call_value fuel flr m d strike = Ok c /\ get_put_value fuel flr m d strike = Ok p /\
      Rmax (F - K) 0 - (75 / 10 ^ 9 * Rabs (F - K) + v * sqrt t / 10 ^ 15) <= c /\
      Rmax (K - F) 0 - (75 / 10 ^ 9 * Rabs (F - K) + v * sqrt t / 10 ^ 15) <= p.
  Proof.
    intros fuel flr m d strike F K v t C M Hv Ht.
    destruct (C110_bachelier _ _ _ _ _ _ _ _ _ C M Hv Ht) as (c & p & ec & ep & A & B & X & Y & E1 & E2).
    destruct C110_expectation as [_ [POS _]]. exists c, p. split; [exact A|]. split; [exact B|].
    assert (P1 : 0 <= ec) by (refine (POS _ _ _ X); intros; apply Rmax_r). assert (P2 : 0 <= ep) by (refine (POS _ _ _ Y); intros; apply Rmax_r).
    destruct (C51_parity _ _ _ _ _ _ _ _ _ _ _ M) as [PA _]. specialize (PA c p A B).
    pose proof (Rle_abs (- (c - ec))) as A1. rewrite Rabs_Ropp in A1. pose proof (Rle_abs (- (p - ep))) as A2. rewrite Rabs_Ropp in A2.
    unfold Rmax. destruct (Rle_dec (F - K) 0), (Rle_dec (K - F) 0); lra.
  Qed.

  (** * Black 76: expected payoffs of a lognormally distributed forward *)
  Lemma black_value t K F v : 0 < v -> 0 < t -> 0 < F -> 0 < K ->
    exists ec ep, expectation (fun z => call_payoff K (lognormal_forward F v t z)) ec /\
      expectation (fun z => put_payoff K (lognormal_forward F v t z)) ep /\
      Rabs (black_call t K F v - ec) < 75 / 10 ^ 9 * (F + K) /\
      Rabs (K - F + black_call t K F v - ep) < 75 / 10 ^ 9 * (F + K).
  Proof.
    intros Hv Ht HF HK. destruct the_distribution as [N HN]. pose proof (vol_pos t v Ht Hv) as S. pose proof (sd_sq v t Ht) as SQ.
    set (s := v * sqrt t) in *. set (x := (ln (F / K) + s * s / 2) / s).
    exists (F * N x - K * N (x - s)), (K * (1 - N (x - s)) - F * (1 - N x)).
    assert (DX : d_black t K F v = x) by (unfold d_black, x; fold s; rewrite SQ; reflexivity).
    assert (B : Rabs (black_call t K F v - (F * N x - K * N (x - s))) < 75 / 10 ^ 9 * (F + K)).
    { unfold black_call. rewrite DX. fold s. now apply black_diff. }
    split; [|split; [|split]].
    - apply (expectation_ext (fun z => Rmax (F * exp (s * z - s * s / 2) - K) 0)); [|now apply black_call_exp].
      intros z. unfold call_payoff, lognormal_forward. fold s. now rewrite SQ.
    - apply (expectation_ext (fun z => Rmax (K - F * exp (s * z - s * s / 2)) 0)); [|now apply black_put_exp].
      intros z. unfold put_payoff, lognormal_forward. fold s. now rewrite SQ.
    - exact B.
    - replace (K - F + black_call t K F v - (K * (1 - N (x - s)) - F * (1 - N x))) with (black_call t K F v - (F * N x - K * N (x - s))) by ring. exact B.
  Qed.
  Theorem C110_black : forall fuel flr m d strike F K v t,
    om_formula m = FLogNormal -> market fuel flr m d strike F K v t -> 0 < F -> 0 < K -> 0 < v -> 0 < t ->
    exists c p ec ep, get_call_value fuel flr m d strike = Ok c /\ get_put_value fuel flr m d strike = Ok p /\
      expectation (fun z => call_payoff K (lognormal_forward F v t z)) ec /\
      expectation (fun z => put_payoff K (lognormal_forward F v t z)) ep /\
      Rabs (c - ec) < 75 / 10 ^ 9 * (F + K) /\ Rabs (p - ep) < 75 / 10 ^ 9 * (F + K).
  Proof.
    intros fuel flr m d strike F K v t C M HF HK Hv Ht. destruct (black_value t K F v Hv Ht HF HK) as (ec & ep & A & B & E1 & E2).
    destruct (value_live _ _ _ _ _ _ _ _ _ M) as [V1 V2]; try lra.
    rewrite V1, V2, C. cbn [call_price]. rewrite black_price_ok; auto; try lra. 2:{ apply Rdiv_lt_0_compat; auto. }
    cbn [bind]. exists (black_call t K F v), (K - F + black_call t K F v), ec, ep. auto 10.
  Qed.
  (** the displaced model: lognormal after the displacement *)
  Theorem C110_displaced : forall fuel flr m d strike F K v t a,
    om_formula m = FDisplaced a -> market fuel flr m d strike F K v t -> 0 < F + a -> 0 < K + a -> 0 < v -> 0 < t ->
    exists c p ec ep, get_call_value fuel flr m d strike = Ok c /\ get_put_value fuel flr m d strike = Ok p /\
      expectation (fun z => call_payoff K (displaced_forward a F v t z)) ec /\
      expectation (fun z => put_payoff K (displaced_forward a F v t z)) ep /\
      Rabs (c - ec) < 75 / 10 ^ 9 * (F + K + 2 * a) /\ Rabs (p - ep) < 75 / 10 ^ 9 * (F + K + 2 * a).
  Proof.
    intros fuel flr m d strike F K v t a C M HF HK Hv Ht. destruct (black_value t (K + a) (F + a) v Hv Ht HF HK) as (ec & ep & A & B & E1 & E2).
    destruct (value_live _ _ _ _ _ _ _ _ _ M) as [V1 V2]; try lra.
    rewrite V1, V2, C. cbn [call_price]. rn. rewrite black_price_ok; auto; try lra. 2:{ apply Rdiv_lt_0_compat; auto. }
    cbn [bind]. exists (black_call t (K + a) (F + a) v), (K - F + black_call t (K + a) (F + a) v), ec, ep.
    replace (F + K + 2 * a) with (F + a + (K + a)) by ring. split; [reflexivity|]. split; [reflexivity|]. split; [|split; [|split]].
    - revert A. apply expectation_ext. intros z. unfold call_payoff, displaced_forward. f_equal. ring.
    - revert B. apply expectation_ext. intros z. unfold put_payoff, displaced_forward. f_equal. ring.
    - exact E1.
    - replace (K - F) with (K + a - (F + a)) by ring. exact E2.
  Qed.

  (** * Binary options *)
  (** Bachelier: the probability that the forward ends above the strike *)
  Theorem C110_binary_bachelier : forall fuel flr m d strike F K v t,
    om_formula m = FBinNormal -> market fuel flr m d strike F K v t -> 0 < v -> 0 < t ->
    exists c e, get_call_value fuel flr m d strike = Ok c /\
      expectation (fun z => binary_call_payoff K (normal_forward F v t z)) e /\ Rabs (c - e) < 75 / 10 ^ 9.
  Proof.
    intros fuel flr m d strike F K v t C M Hv Ht. destruct the_distribution as [N HN].
    destruct (value_live _ _ _ _ _ _ _ _ _ M) as [E1 E2]; try lra.
    rewrite E1, C. cbn [call_price]. rewrite normal_delta_ok by (auto; lra).
    pose proof (vol_pos t v Ht Hv) as S. set (x := d_bachelier t K F v). exists (Phi x), (N x). split; [reflexivity|]. split; [|now apply cdf_error].
    replace (N x) with (1 - N (- x)) by (rewrite (N_sym N HN); ring).
    assert (Q : forall z, normal_forward F v t z - K = v * sqrt t * (z - - x)) by (intros z; pose proof (sqrt_pos_lt t Ht); unfold normal_forward, x, d_bachelier; field; split; lra).
    apply digital_beyond; auto; intros z Hz; unfold binary_call_payoff; specialize (Q z); destruct (Rlt_dec K (normal_forward F v t z)); auto; nra.
  Qed.
  (** puts of binary models are not: their value is negative if the forward is more than
      one above the strike, although they never pay less than nothing *)
  Theorem C110_binary_put_refuted : forall fuel flr m d strike F K v t,
    om_formula m = FBinNormal -> market fuel flr m d strike F K v t -> 0 < v -> 0 < t -> K + 1 <= F ->
    exists p e, get_put_value fuel flr m d strike = Ok p /\
      expectation (fun z => binary_put_payoff K (normal_forward F v t z)) e /\ p < 0 < e.
  Proof.
    intros fuel flr m d strike F K v t C M Hv Ht L. destruct the_distribution as [N HN].
    destruct (value_live _ _ _ _ _ _ _ _ _ M) as [E1 E2]; try lra.
    rewrite E2, C. cbn [call_price]. rewrite normal_delta_ok by (auto; lra). cbn [bind].
    pose proof (vol_pos t v Ht Hv) as S. set (x := d_bachelier t K F v). exists (K - F + Phi x), (N (- x) - 0). split; [reflexivity|].
    assert (Q : forall z, normal_forward F v t z - K = v * sqrt t * (z - - x)) by (intros z; pose proof (sqrt_pos_lt t Ht); unfold normal_forward, x, d_bachelier; field; split; lra).
    split.
    - apply digital_upto; auto; intros z Hz; unfold binary_put_payoff; specialize (Q z); destruct (Rlt_dec K (normal_forward F v t z)); auto; nra.
    - pose proof (Phi_range x). pose proof (N_range N HN (- x)). lra.
  Qed.
  (** Black: the value is not the probability that the forward ends above the strike, but
      the expected forward if it does, in units of today's forward *)
  Theorem C110_binary_black : forall fuel flr m d strike F K v t,
    om_formula m = FBinLogNormal -> market fuel flr m d strike F K v t -> 0 < F -> 0 < K -> 0 < v -> 0 < t ->
    exists c e, get_call_value fuel flr m d strike = Ok c /\
      expectation (fun z => let x := lognormal_forward F v t z in binary_call_payoff K x * x) e /\ Rabs (c - e / F) < 75 / 10 ^ 9.
  Proof.
    intros fuel flr m d strike F K v t C M HF HK Hv Ht. destruct the_distribution as [N HN].
    destruct (value_live _ _ _ _ _ _ _ _ _ M) as [V1 V2]; try lra.
    rewrite V1, C. cbn [call_price]. rewrite bin_black_price_ok; auto; try lra. 2:{ apply Rdiv_lt_0_compat; auto. }
    pose proof (vol_pos t v Ht Hv) as S. pose proof (sd_sq v t Ht) as SQ. set (s := v * sqrt t) in *. set (x := (ln (F / K) + s * s / 2) / s).
    assert (DX : d_black t K F v = x) by (unfold d_black, x; fold s; rewrite SQ; reflexivity). rewrite DX.
    exists (Phi x), (F * N x). split; [reflexivity|]. split.
    - replace (F * N x) with ((F - 0) - black_A N F 0 s (- (x - s))).
      2:{ unfold black_A. replace (- (x - s) - s) with (- x) by ring. rewrite (N_sym N HN). ring. }
      assert (LF : forall z, lognormal_forward F v t z = F * exp (s * z - s * s / 2)) by (intros z; unfold lognormal_forward; fold s; now rewrite SQ).
      apply (beyond _ (black_A N F 0 s) (fun x => (F * exp (s * x - s * s / 2) - 0) * density x)).
      + now apply black_A_deriv.
      + apply black_A_cont.
      + intros z Hz. destruct (black_point F K s z HF HK S) as [_ B]. specialize (B Hz). cbv zeta. rewrite LF. unfold binary_call_payoff. destruct (Rlt_dec K _); [lra|ring].
      + intros z Hz. destruct (black_point F K s z HF HK S) as [B _]. specialize (B Hz). cbv zeta. rewrite LF. unfold binary_call_payoff. destruct (Rlt_dec K _); [f_equal; ring|lra].
      + now apply black_top.
    - replace (F * N x / F) with (N x) by (field; lra). now apply cdf_error.
  Qed.
  Theorem C110_binary_black_refuted : forall fuel flr m d strike F v t,
    om_formula m = FBinLogNormal -> market fuel flr m d strike F F v t -> 0 < F -> 0 < v -> 0 < t ->
    exists c e, get_call_value fuel flr m d strike = Ok c /\
      expectation (fun z => binary_call_payoff F (lognormal_forward F v t z)) e /\
      e < 1/2 < c /\ Rabs (c - (1 - e)) < 75 / 10 ^ 9.
  Proof.
    intros fuel flr m d strike F v t C M HF Hv Ht. destruct the_distribution as [N HN].
    destruct (value_live _ _ _ _ _ _ _ _ _ M) as [V1 V2]; try lra.
    rewrite V1, C. cbn [call_price]. rewrite bin_black_price_ok; auto; try lra. 2:{ apply Rdiv_lt_0_compat; auto. }
    pose proof (vol_pos t v Ht Hv) as S. pose proof (sd_sq v t Ht) as SQ. set (s := v * sqrt t) in *.
    assert (L0 : ln (F / F) = 0) by (replace (F / F) with 1 by (field; lra); apply ln_1).
    assert (DX : d_black t F F v = s / 2) by (unfold d_black; fold s; rewrite <- SQ, L0; field; lra). rewrite DX.
    exists (Phi (s / 2)), (1 - N (s / 2)). split; [reflexivity|].
    assert (LF : forall z, lognormal_forward F v t z = F * exp (s * z - s * s / 2)) by (intros z; unfold lognormal_forward; fold s; now rewrite SQ).
    assert (Z0 : - ((ln (F / F) + s * s / 2) / s - s) = s / 2) by (rewrite L0; field; lra).
    split; [|split].
    - apply digital_beyond; auto; intros z Hz; destruct (black_point F F s z HF HF S) as [B1 B2]; rewrite Z0 in *; unfold binary_call_payoff; rewrite LF;
        destruct (Rlt_dec F _); auto; [specialize (B2 Hz); lra|specialize (B1 Hz); lra].
    - split.
      + destruct C109_distribution as [N' [HN' [U [HZ [_ [_ [INC _]]]]]]]. rewrite (U N HN). specialize (INC 0 (s / 2) ltac:(lra)). lra.
      + rewrite Phi_nonneg by lra. pose proof (as_tail_half (s / 2) ltac:(lra)). lra.
    - replace (Phi (s / 2) - (1 - (1 - N (s / 2)))) with (Phi (s / 2) - N (s / 2)) by ring. now apply cdf_error.
  Qed.
End Options.
Print Assumptions C110_bachelier.
Print Assumptions C110_bachelier_intrinsic.
Print Assumptions C110_black.
Print Assumptions C110_displaced.
Print Assumptions C110_binary_bachelier.
Print Assumptions C110_binary_put_refuted.
Print Assumptions C110_binary_black.
Print Assumptions C110_binary_black_refuted.

(** * Instances: one year, forward 1, volatility 20 percent *)
Example C110_instance :
  exists c e, get_call_value (DS:=FloatDates) (DC:=no_registry) 1 None (flat_model FLogNormal 0 1 (1/5) false) 1 (Some (11/10)) = Ok c /\
    expectation (fun z => call_payoff (11/10) (lognormal_forward 1 (1/5) (1 - 0) z)) e /\ Rabs (c - e) < 75 / 10 ^ 9 * (1 + 11/10).
Proof.
  assert (NF : 1 <> 0) by lra.
  pose proof (flat_market FLogNormal 0 1 (1/5) false 1 (Some (11/10)) NF) as M. cbv beta iota in M.
  destruct (C110_black _ _ 1 None (flat_model FLogNormal 0 1 (1/5) false) 1 _ _ _ _ _ eq_refl M) as (c & p & ec & ep & A & _ & B & _ & E & _); try lra.
  exists c, ec. auto.
Qed.
Example C110_binary_instance :
  exists p, get_put_value (DS:=FloatDates) (DC:=no_registry) 1 None (flat_model FBinNormal 0 3 1 false) 1 (Some 1) = Ok p /\ p < 0.
Proof.
  assert (NF : 3 <> 0) by lra.
  pose proof (flat_market FBinNormal 0 3 1 false 1 (Some 1) NF) as M. cbv beta iota in M.
  destruct (C110_binary_put_refuted _ _ 1 None (flat_model FBinNormal 0 3 1 false) 1 _ _ _ _ _ eq_refl M) as (p & e & A & _ & B); try lra.
  exists p. split; [exact A|lra].
Qed.
