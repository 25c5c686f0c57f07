(** Property C114: option values in double precision are expected payoffs. *)
From Coq Require Import ZArith Lia Reals Lra Psatz List Bool Floats.SpecFloat.
From Flocq Require Import Raux.
From Verif Require Import Num Py MDates MInterpolation MCurve MRateCurve MOption MFloat SOption SNormal SRound SRound2
  LBase LOption LNormal LSeries LGauss LExpect LRound LRound2 LRound4 LRound5 LRound7 LRound8 LRound9 PNormal PExpect PStrikes PRound9.
Import ListNotations.
Local Open Scope R_scope.
Notation val := float_value.

(** numbers of Python that are neither infinite nor nan *)
Definition finite_doubles (l : list float64) : Prop := Forall (fun x => is_double x /\ finite_float x) l.

Section C114.
  Context (lib : libm) {D P : Type} (DS : DateSys float64 D P) (DC : DayCounts float64 D).
  #[local] Instance n64s : Num float64 := f64 lib.
  Implicit Types (m : omodel float64 D P) (d : D).

  (** * Bachelier *)
  (** F, K, s and t are the forward, strike, volatility and time to expiry the model finds at
      the expiry date.  [eps] bounds the relative error of the platform's math.exp.  The
      values miss the expected payoffs by at most 7.5e-8 + 0.53 eps + 2e-12 times the
      distance of forward and strike, and 0.41 eps + 2e-12 times the standard deviation *)
  Theorem C114_bachelier : forall eps fuel flr m d strike F K s t S ec ep,
    0 <= eps <= 1 / 10 -> exp_within lib eps ->
    om_formula m = FNormal -> om_details fuel flr m d strike = Ok (mkOD (Some F) K (Some s) t) ->
    finite_doubles [F; K; s; t] -> 0 < val s <= 10 ^ 9 -> 0 < val t ->
    S = val s * sqrt (val t) -> 1 / 10 ^ 9 <= S <= 10 ^ 9 -> Rabs (val F - val K) <= 36 * S ->
    expectation (fun z => call_payoff (val K) (normal_forward (val F) (val s) (val t) z)) ec ->
    expectation (fun z => put_payoff (val K) (normal_forward (val F) (val s) (val t) z)) ep ->
    let bound := Rabs (val F - val K) * (75 / 10 ^ 9 + 53 / 100 * eps + 2 / 10 ^ 12) + S * (41 / 100 * eps + 2 / 10 ^ 12) in
    (forall c, get_call_value fuel flr m d strike = Ok c -> is_double c /\ finite_float c /\ Rabs (val c - ec) <= bound) /\
    (forall p, get_put_value fuel flr m d strike = Ok p -> is_double p /\ finite_float p /\ Rabs (val p - ep) <= bound).
  Proof.
    intros eps fuel flr m d strike F K s t S ec ep E0 EW C M FD Ps Pt SE SB AB HC HP bound.
    destruct the_distribution as [N HN].
    inversion FD as [|? ? GF FD1]; subst. inversion FD1 as [|? ? GK FD2]; subst. inversion FD2 as [|? ? Gs FD3]; subst. inversion FD3 as [|? ? Gt _]; subst.
    destruct (live64 lib DS DC fuel flr m d strike F K s t Gs Gt (proj1 Ps) Pt M) as [L1 L2]. change (n64live lib) with n64s in *.
    rewrite L1, L2, C. cbn [call_price]. pose proof (put_call_expected FNormal (val F) (val K) (val s) (val t) ec ep Pt HC HP) as PC.
    set (S := val s * sqrt (val t)) in *. set (a := val F - val K) in *.
    assert (CE : ec = a * N (a / S) + S * density (a / S)).
    { apply (expectation_unique _ _ _ HC). apply (expectation_ext (fun z => Rmax (a + S * z) 0)); [|apply (bach_call N HN); lra].
      intros z. unfold call_payoff, normal_forward. fold S. f_equal. unfold a. ring. }
    assert (NC : forall c, normal_price (Ok t) K F s = Ok c -> near c ec (Rabs a * (75 / 10 ^ 9 + 53 / 100 * eps + 2 / 10 ^ 12) + S * (41 / 100 * eps + 14 / 10 ^ 13))).
    { intros c Hc. rewrite CE. apply (bachelier_near lib eps N E0 EW HN t K F s c S); auto. }
    pose proof (Rabs_pos a) as PA.
    split.
    - intros c Hc. destruct (NC c Hc) as [[G1 G2] B]. split; auto. split; auto. eapply Rle_trans; [exact B|]. unfold bound. lra.
    - intros p Hp. destruct (normal_price (Ok t) K F s) as [c|] eqn:Hc; [|discriminate]. cbn [bind] in Hp. specialize (NC c eq_refl).
      apply (f_equal (fun z => match z with Ok b => b | Err _ => p end)) in Hp. cbv beta iota in Hp. subst p.
      change (nadd (nsub K F) c) with (SFadd 53 1024 (SFsub 53 1024 K F) c).
      assert (AB' : Rabs (val K - val F) <= 36 * S) by (rewrite Rabs_minus_sym; exact AB).
      assert (N1 : near (SFsub 53 1024 K F) (val K - val F) (1 / 10 ^ 14 * S)).
      { apply (sub_wide _ _ _ _ 0 0 (36 * S)); auto using exact_near; lra. }
      pose proof (N_range N HN (a / S)) as NR. pose proof (density_le (a / S)) as DL.
      assert (EB : Rabs ec <= 37 * S).
      { rewrite CE. eapply Rle_trans; [apply Rabs_triang|]. rewrite !Rabs_mult, (Rabs_right (N (a / S))), (Rabs_right S), (Rabs_right (density (a / S))) by lra. nra. }
      assert (TB : Rabs (val K - val F + ec) <= 73 * S) by (eapply Rle_trans; [apply Rabs_triang|lra]).
      assert (A0 : 0 <= Rabs a * eps <= 36 * S * (1 / 10)) by nra. assert (S0 : 0 <= S * eps <= S * (1 / 10)) by nra.
      rewrite PC. assert (N2 : near (SFadd 53 1024 (SFsub 53 1024 K F) c) (val K - val F + ec) bound).
      { eapply (add_wide _ _ _ _ _ _ (73 * S)); [exact N1|exact NC|exact TB|lra|unfold bound; lra]. }
      destruct N2 as [[G1 G2] B]. auto.
  Qed.

  (** * Black 76 *)
  (** here also the error [eta] of math.log matters; forward and strike between 1e-9 and 1e9,
      the standard deviation at least 0.001 *)
  Lemma black_values eps eta t K F s c e S : 0 <= eps <= 1 / 10 -> exp_within lib eps -> 0 <= eta <= 1 / 100 -> log_within lib eta ->
    finite_doubles [F; K; s; t] -> 0 < val s <= 10 ^ 9 -> 0 < val t ->
    1 / 10 ^ 9 <= val F <= 10 ^ 9 -> 1 / 10 ^ 9 <= val K <= 10 ^ 9 -> S = val s * sqrt (val t) -> 1 / 10 ^ 3 <= S ->
    Rabs (ln (val F / val K) / S + S / 2) <= 36 -> Rabs (ln (val F / val K) / S - S / 2) <= 36 ->
    expectation (fun z => call_payoff (val K) (lognormal_forward (val F) (val s) (val t) z)) e ->
    black_price (Ok t) K F s = Ok c ->
    near c e ((val F + val K) * (75 / 10 ^ 9 + 53 / 100 * eps + 19 * eta + 25 / 10 ^ 13)) /\ 0 <= e <= val F.
  Proof.
    intros E0 EW H0 LW FD Ps Pt BF BK SE SB B1 B2 HE Hc. destruct the_distribution as [N HN].
    inversion FD as [|? ? GF FD1]; subst. inversion FD1 as [|? ? GK FD2]; subst. inversion FD2 as [|? ? Gs FD3]; subst. inversion FD3 as [|? ? Gt _]; subst.
    set (S := val s * sqrt (val t)) in *. set (x := (ln (val F / val K) + S * S / 2) / S).
    assert (X1 : x = ln (val F / val K) / S + S / 2) by (unfold x; field; lra).
    assert (X2 : x - S = ln (val F / val K) / S - S / 2) by (unfold x; field; lra).
    pose proof (sd_sq (val s) (val t) Pt) as SQ. fold S in SQ.
    assert (CE : e = val F * N x - val K * N (x - S)).
    { apply (expectation_unique _ _ _ HE). apply (expectation_ext (fun z => Rmax (val F * exp (S * z - S * S / 2) - val K) 0)); [|apply (black_call_exp N HN); lra].
      intros z. unfold call_payoff, lognormal_forward. fold S. now rewrite SQ. }
    split.
    - rewrite CE. eapply near_weak; [apply (black_near lib eps N E0 EW HN eta H0 LW t K F s c S); auto; fold x; rewrite ?X1, ?X2; auto; rewrite <- X1, X2; auto|].
      apply Rmult_le_compat_l; lra.
    - split; [refine (expectation_le (fun _ => 0) _ 0 e _ (expectation_const 0) HE); intros z; apply Rmax_r|].
      refine (expectation_le _ _ _ _ _ HE (forward_mean FLogNormal (val F) (val s) (val t) Pt)). intros z. unfold call_payoff. cbn [forward_at].
      assert (0 < lognormal_forward (val F) (val s) (val t) z) by (unfold lognormal_forward; apply Rmult_lt_0_compat; [lra|apply exp_pos]).
      unfold Rmax. destruct (Rle_dec _ _); lra.
  Qed.
  Theorem C114_black : forall eps eta fuel flr m d strike F K s t S ec ep,
    0 <= eps <= 1 / 10 -> exp_within lib eps -> 0 <= eta <= 1 / 100 -> log_within lib eta ->
    om_formula m = FLogNormal -> om_details fuel flr m d strike = Ok (mkOD (Some F) K (Some s) t) ->
    finite_doubles [F; K; s; t] -> 0 < val s <= 10 ^ 9 -> 0 < val t ->
    1 / 10 ^ 9 <= val F <= 10 ^ 9 -> 1 / 10 ^ 9 <= val K <= 10 ^ 9 -> S = val s * sqrt (val t) -> 1 / 10 ^ 3 <= S ->
    Rabs (ln (val F / val K) / S + S / 2) <= 36 -> Rabs (ln (val F / val K) / S - S / 2) <= 36 ->
    expectation (fun z => call_payoff (val K) (lognormal_forward (val F) (val s) (val t) z)) ec ->
    expectation (fun z => put_payoff (val K) (lognormal_forward (val F) (val s) (val t) z)) ep ->
    let bound := (val F + val K) * (75 / 10 ^ 9 + 53 / 100 * eps + 19 * eta + 3 / 10 ^ 12) in
    (forall c, get_call_value fuel flr m d strike = Ok c -> is_double c /\ finite_float c /\ Rabs (val c - ec) <= bound) /\
    (forall p, get_put_value fuel flr m d strike = Ok p -> is_double p /\ finite_float p /\ Rabs (val p - ep) <= bound).
  Proof.
    intros eps eta fuel flr m d strike F K s t S ec ep E0 EW H0 LW C M FD Ps Pt BF BK SE SB B1 B2 HC HP bound.
    pose proof FD as FD0. inversion FD0 as [|? ? GF FD1]; subst. inversion FD1 as [|? ? GK FD2]; subst. inversion FD2 as [|? ? Gs FD3]; subst. inversion FD3 as [|? ? Gt _]; subst.
    destruct (live64 lib DS DC fuel flr m d strike F K s t Gs Gt (proj1 Ps) Pt M) as [L1 L2]. change (n64live lib) with n64s in *.
    rewrite L1, L2, C. cbn [call_price]. pose proof (put_call_expected FLogNormal (val F) (val K) (val s) (val t) ec ep Pt HC HP) as PC.
    split.
    - intros c Hc. destruct (black_values eps eta t K F s c ec _ E0 EW H0 LW FD Ps Pt BF BK eq_refl SB B1 B2 HC Hc) as [[[G1 G2] B] _].
      split; auto. split; auto. eapply Rle_trans; [exact B|]. unfold bound. apply Rmult_le_compat_l; lra.
    - intros p Hp. destruct (black_price (Ok t) K F s) as [c|] eqn:Hc; [|discriminate]. cbn [bind] in Hp.
      destruct (black_values eps eta t K F s c ec _ E0 EW H0 LW FD Ps Pt BF BK eq_refl SB B1 B2 HC Hc) as [NC EB].
      apply (f_equal (fun z => match z with Ok b => b | Err _ => p end)) in Hp. cbv beta iota in Hp. subst p.
      change (nadd (nsub K F) c) with (SFadd 53 1024 (SFsub 53 1024 K F) c).
      assert (N1 : near (SFsub 53 1024 K F) (val K - val F) (2 / 10 ^ 16 * (val F + val K))).
      { apply (sub_wide _ _ _ _ 0 0 (val F + val K)); auto using exact_near; try lra. apply Rabs_le; lra. }
      assert (TB : Rabs (val K - val F + ec) <= val F + val K) by (apply Rabs_le; lra).
      assert (A0 : 0 <= (val F + val K) * eps <= (val F + val K) * (1 / 10)) by nra. assert (A1 : 0 <= (val F + val K) * eta <= (val F + val K) * (1 / 10)) by nra.
      rewrite PC. assert (N2 : near (SFadd 53 1024 (SFsub 53 1024 K F) c) (val K - val F + ec) bound).
      { eapply (add_wide _ _ _ _ _ _ (val F + val K)); [exact N1|exact NC|exact TB|lra|unfold bound; lra]. }
      destruct N2 as [[G1 G2] B]. auto.
  Qed.

  (** * the displaced model *)
  (** the displacement a is added to forward and strike in double precision, too *)
  Lemma shifted_near x a : is_double x /\ finite_float x -> is_double a /\ finite_float a -> 2 / 10 ^ 9 <= val x + val a <= 10 ^ 8 ->
    near (SFadd 53 1024 x a) (val x + val a) (13 / 10 ^ 17 * (val x + val a)) /\
    1 / 10 ^ 9 <= val (SFadd 53 1024 x a) <= 10 ^ 9 /\ Rabs (ln (val (SFadd 53 1024 x a)) - ln (val x + val a)) <= 3 / 10 ^ 16.
  Proof.
    intros Gx Ga B. set (A := val x + val a) in *.
    assert (NA : near (SFadd 53 1024 x a) A (13 / 10 ^ 17 * A)).
    { apply (add_wide _ _ _ _ 0 0 A); auto using exact_near; try (rewrite Rabs_right; unfold A in *; lra); unfold A in *; lra. }
    split; [exact NA|]. destruct NA as [_ BA]. pose proof (Rabs_le_inv _ _ BA) as BA'. set (y := val (SFadd 53 1024 x a)) in *.
    split; [lra|]. assert (RX : Rabs (y / A - 1) <= 13 / 10 ^ 17).
    { replace (y / A - 1) with ((y - A) / A) by (field; lra). unfold Rdiv. rewrite Rabs_mult, (Rabs_right (/ A)) by (left; apply Rinv_0_lt_compat; lra).
      apply Rmult_le_reg_r with A; [lra|]. rewrite Rmult_assoc, Rinv_l by lra. rewrite Rmult_1_r. lra. }
    pose proof (ln_small (y / A - 1) ltac:(lra)) as LS. replace (1 + (y / A - 1)) with (y / A) in LS by ring.
    assert (LX : ln (y / A) = ln y - ln A). { unfold Rdiv. rewrite ln_mult, ln_Rinv by (try apply Rinv_0_lt_compat; lra). ring. }
    rewrite LX in LS. lra.
  Qed.
  Lemma displaced_values eps eta t K F a s c e S : 0 <= eps <= 1 / 10 -> exp_within lib eps -> 0 <= eta <= 1 / 100 -> log_within lib eta ->
    finite_doubles [F; K; s; t; a] -> 0 < val s <= 10 ^ 9 -> 0 < val t ->
    2 / 10 ^ 9 <= val F + val a <= 10 ^ 8 -> 2 / 10 ^ 9 <= val K + val a <= 10 ^ 8 -> S = val s * sqrt (val t) -> 1 / 10 ^ 3 <= S ->
    Rabs (ln ((val F + val a) / (val K + val a)) / S + S / 2) <= 35 -> Rabs (ln ((val F + val a) / (val K + val a)) / S - S / 2) <= 35 ->
    expectation (fun z => call_payoff (val K) (displaced_forward (val a) (val F) (val s) (val t) z)) e ->
    call_price (FDisplaced a) t K F s = Ok c ->
    near c e ((val F + val K + 2 * val a) * (75 / 10 ^ 9 + 53 / 100 * eps + 19 * eta + 28 / 10 ^ 13)) /\ 0 <= e <= val F + val a.
  Proof.
    intros E0 EW H0 LW FD Ps Pt BF BK SE SB B1 B2 HE Hc.
    inversion FD as [|? ? GF FD1]; subst. inversion FD1 as [|? ? GK FD2]; subst. inversion FD2 as [|? ? Gs FD3]; subst. inversion FD3 as [|? ? Gt FD4]; subst. inversion FD4 as [|? ? Ga _]; subst.
    destruct (shifted_near F a GF Ga BF) as (NF & RF & LF). destruct (shifted_near K a GK Ga BK) as (NK & RK & LK).
    cbn [call_price] in Hc. change (nadd K a) with (SFadd 53 1024 K a) in Hc. change (nadd F a) with (SFadd 53 1024 F a) in Hc.
    set (F' := SFadd 53 1024 F a) in *. set (K' := SFadd 53 1024 K a) in *. set (FA := val F + val a) in *. set (KA := val K + val a) in *.
    set (S := val s * sqrt (val t)) in *.
    assert (HE' : expectation (fun z => call_payoff KA (lognormal_forward FA (val s) (val t) z)) e).
    { revert HE. apply expectation_ext. intros z. unfold call_payoff, displaced_forward. fold FA. f_equal. unfold KA. ring. }
    destruct (black_value (val t) (val K') (val F') (val s) ltac:(lra) Pt ltac:(lra) ltac:(lra)) as (e' & _ & HE2 & _).
    assert (CH := lognormal_change _ _ _ _ _ _ _ _ Pt HE' HE2).
    assert (LD : ln (val F' / val K') = ln (val F') - ln (val K')) by (unfold Rdiv; rewrite ln_mult, ln_Rinv by (try apply Rinv_0_lt_compat; lra); ring).
    assert (LD2 : ln (FA / KA) = ln FA - ln KA) by (unfold Rdiv; rewrite ln_mult, ln_Rinv by (try apply Rinv_0_lt_compat; lra); ring).
    assert (DL : Rabs (ln (val F' / val K') / S - ln (FA / KA) / S) <= 1 / 10 ^ 12).
    { replace (ln (val F' / val K') / S - ln (FA / KA) / S) with ((ln (val F' / val K') - ln (FA / KA)) / S) by (field; lra).
      unfold Rdiv at 1. rewrite Rabs_mult, (Rabs_right (/ S)) by (left; apply Rinv_0_lt_compat; lra).
      apply Rmult_le_reg_r with S; [lra|]. rewrite Rmult_assoc, Rinv_l by lra. rewrite Rmult_1_r, LD, LD2.
      apply Rle_trans with (6 / 10 ^ 16); [|lra]. apply Rabs_le_inv in LF. apply Rabs_le_inv in LK. apply Rabs_le. lra. }
    apply Rabs_le_inv in DL. apply Rabs_le_inv in B1. apply Rabs_le_inv in B2.
    assert (FD' : finite_doubles [F'; K'; s; t]) by (repeat constructor; try apply NF; try apply NK; try apply Gs; try apply Gt).
    destruct (black_values eps eta t K' F' s c e' S E0 EW H0 LW FD' Ps Pt RF RK eq_refl SB) as [[GC BC] _]; auto; try (apply Rabs_le; lra).
    split.
    - split; [exact GC|]. replace (val c - e) with ((val c - e') + (e' - e)) by ring. eapply Rle_trans; [apply Rabs_triang|].
      pose proof (proj2 NF) as VF. pose proof (proj2 NK) as VK. pose proof (Rabs_le_inv _ _ VF). pose proof (Rabs_le_inv _ _ VK).
      replace (val F + val K + 2 * val a) with (FA + KA) by (unfold FA, KA; ring).
      set (q := 75 / 10 ^ 9 + 53 / 100 * eps + 19 * eta + 25 / 10 ^ 13) in *. assert (Q : 0 <= q <= 1) by (unfold q; lra).
      assert ((val F' + val K') * q <= (FA + KA) * q + (FA + KA) * (2 / 10 ^ 16)) by nra.
      replace ((FA + KA) * (75 / 10 ^ 9 + 53 / 100 * eps + 19 * eta + 28 / 10 ^ 13)) with ((FA + KA) * q + (FA + KA) * (3 / 10 ^ 13)) by (unfold q; field). lra.
    - split; [refine (expectation_le (fun _ => 0) _ 0 e _ (expectation_const 0) HE); intros z; apply Rmax_r|].
      refine (expectation_le _ _ _ _ _ HE' (forward_mean FLogNormal FA (val s) (val t) Pt)). intros z. unfold call_payoff. cbn [forward_at].
      assert (0 < lognormal_forward FA (val s) (val t) z) by (unfold lognormal_forward; apply Rmult_lt_0_compat; [lra|apply exp_pos]).
      unfold Rmax. destruct (Rle_dec _ _); lra.
  Qed.
  Theorem C114_displaced : forall eps eta fuel flr m d strike F K s t a S ec ep,
    0 <= eps <= 1 / 10 -> exp_within lib eps -> 0 <= eta <= 1 / 100 -> log_within lib eta ->
    om_formula m = FDisplaced a -> om_details fuel flr m d strike = Ok (mkOD (Some F) K (Some s) t) ->
    finite_doubles [F; K; s; t; a] -> 0 < val s <= 10 ^ 9 -> 0 < val t ->
    2 / 10 ^ 9 <= val F + val a <= 10 ^ 8 -> 2 / 10 ^ 9 <= val K + val a <= 10 ^ 8 -> S = val s * sqrt (val t) -> 1 / 10 ^ 3 <= S ->
    Rabs (ln ((val F + val a) / (val K + val a)) / S + S / 2) <= 35 -> Rabs (ln ((val F + val a) / (val K + val a)) / S - S / 2) <= 35 ->
    expectation (fun z => call_payoff (val K) (displaced_forward (val a) (val F) (val s) (val t) z)) ec ->
    expectation (fun z => put_payoff (val K) (displaced_forward (val a) (val F) (val s) (val t) z)) ep ->
    let bound := (val F + val K + 2 * val a) * (75 / 10 ^ 9 + 53 / 100 * eps + 19 * eta + 3 / 10 ^ 12) in
    (forall c, get_call_value fuel flr m d strike = Ok c -> is_double c /\ finite_float c /\ Rabs (val c - ec) <= bound) /\
    (forall p, get_put_value fuel flr m d strike = Ok p -> is_double p /\ finite_float p /\ Rabs (val p - ep) <= bound).
  Proof.
    intros eps eta fuel flr m d strike F K s t a S ec ep E0 EW H0 LW C M FD Ps Pt BF BK SE SB B1 B2 HC HP bound.
    pose proof FD as FD0. inversion FD0 as [|? ? GF FD1]; subst. inversion FD1 as [|? ? GK FD2]; subst. inversion FD2 as [|? ? Gs FD3]; subst. inversion FD3 as [|? ? Gt _]; subst.
    destruct (live64 lib DS DC fuel flr m d strike F K s t Gs Gt (proj1 Ps) Pt M) as [L1 L2]. change (n64live lib) with n64s in *.
    rewrite L1, L2, C. pose proof (put_call_expected (FDisplaced (val a)) (val F) (val K) (val s) (val t) ec ep Pt HC HP) as PC.
    set (W := val F + val K + 2 * val a) in *. assert (WP : 4 / 10 ^ 9 <= W <= 2 * 10 ^ 8) by (unfold W; lra).
    split.
    - intros c Hc. destruct (displaced_values eps eta t K F a s c ec _ E0 EW H0 LW FD Ps Pt BF BK eq_refl SB B1 B2 HC Hc) as [[[G1 G2] B] _]. fold W in B.
      split; auto. split; auto. eapply Rle_trans; [exact B|]. unfold bound. apply Rmult_le_compat_l; lra.
    - intros p Hp. destruct (call_price (FDisplaced a) t K F s) as [c|] eqn:Hc; [|discriminate]. cbn [bind] in Hp.
      destruct (displaced_values eps eta t K F a s c ec _ E0 EW H0 LW FD Ps Pt BF BK eq_refl SB B1 B2 HC Hc) as [NC EB]. fold W in NC.
      apply (f_equal (fun z => match z with Ok b => b | Err _ => p end)) in Hp. cbv beta iota in Hp. subst p.
      change (nadd (nsub K F) c) with (SFadd 53 1024 (SFsub 53 1024 K F) c).
      assert (N1 : near (SFsub 53 1024 K F) (val K - val F) (2 / 10 ^ 16 * W)).
      { apply (sub_wide _ _ _ _ 0 0 W); auto using exact_near; try lra. apply Rabs_le; unfold W; lra. }
      assert (TB : Rabs (val K - val F + ec) <= W) by (apply Rabs_le; unfold W; lra).
      assert (A0 : 0 <= W * eps <= W * (1 / 10)) by nra. assert (A1 : 0 <= W * eta <= W * (1 / 10)) by nra.
      rewrite PC. assert (N2 : near (SFadd 53 1024 (SFsub 53 1024 K F) c) (val K - val F + ec) bound).
      { eapply (add_wide _ _ _ _ _ _ W); [exact N1|exact NC|exact TB|lra|unfold bound; lra]. }
      destruct N2 as [[G1 G2] B]. auto.
  Qed.
End C114.
Print Assumptions C114_bachelier.
Print Assumptions C114_black.
Print Assumptions C114_displaced.

(** * Instances *)
(** a platform whose math.exp knows exp(-1/2) only and whose math.log knows log(1) only *)
Definition half_log : libm :=
  mkLibm (lm_exp half_exp) (fun z => if SFeqb z (f64_ofZ 1) then Ok f64_zero else Err ValueError) (fun _ _ => Err ValueError) (fun x => x).
Lemma half_log_within : exp_within half_log (1 / 100) /\ log_within half_log (1 / 100).
Proof.
  split; [exact half_exp_within|]. intros y w Dy Fy Py E. cbn [lm_log half_log] in E. destruct (SFeqb y (f64_ofZ 1)) eqn:Q; [|discriminate].
  apply (f_equal (fun z => match z with Ok b => b | Err _ => w end)) in E. cbv beta iota in E. subst w.
  rewrite (eqb_value y (f64_ofZ 1) (conj Dy Fy) (proj1 one_near)) in Q. apply Reqb_true in Q. rewrite one_value in Q. rewrite Q, ln_1.
  split; [reflexivity|]. split; [exact Logic.I|]. cbn [float_value f64_zero]. rewrite Rabs_R0, Rminus_0_r, Rabs_R0. lra.
Qed.
#[local] Instance n64half : Num float64 := f64 half_log.
#[local] Instance no_registry114 : DayCounts float64 float64 := [].
Definition option64 (fm : formula float64) (forward volatility : float64) : omodel float64 float64 (fperiod float64) :=
  mkOM fm default_gconst (Some f64_zero) (FwNum forward) (VoNum volatility) None false.
Lemma small_ints : finite_doubles [f64_ofZ 2; f64_ofZ 1; f64_ofZ 1; f64_ofZ 1] /\ val (f64_ofZ 2) = 2.
Proof.
  split; [repeat constructor; vm_compute; auto|]. apply (ofZ_good 2). lia.
Qed.
(** a Bachelier option with forward 2, strike 1, volatility 1, one year before expiry *)
Example C114_bachelier_instance : exists c p ec ep,
  om_details (DS := FloatDates) 9 None (option64 FNormal (f64_ofZ 2) (f64_ofZ 1)) (f64_ofZ 1) (Some (f64_ofZ 1)) = Ok (mkOD (Some (f64_ofZ 2)) (f64_ofZ 1) (Some (f64_ofZ 1)) (f64_ofZ 1)) /\
  get_call_value (DS := FloatDates) 9 None (option64 FNormal (f64_ofZ 2) (f64_ofZ 1)) (f64_ofZ 1) (Some (f64_ofZ 1)) = Ok c /\
  get_put_value (DS := FloatDates) 9 None (option64 FNormal (f64_ofZ 2) (f64_ofZ 1)) (f64_ofZ 1) (Some (f64_ofZ 1)) = Ok p /\
  expectation (fun z => call_payoff 1 (normal_forward 2 1 1 z)) ec /\ expectation (fun z => put_payoff 1 (normal_forward 2 1 1 z)) ep /\
  Rabs (val c - ec) <= 1 / 100 /\ Rabs (val p - ep) <= 1 / 100.
Proof.
  assert (OD : om_details (DS := FloatDates) 9 None (option64 FNormal (f64_ofZ 2) (f64_ofZ 1)) (f64_ofZ 1) (Some (f64_ofZ 1)) = Ok (mkOD (Some (f64_ofZ 2)) (f64_ofZ 1) (Some (f64_ofZ 1)) (f64_ofZ 1))) by (vm_compute; reflexivity).
  assert (C : exists c, get_call_value (DS := FloatDates) 9 None (option64 FNormal (f64_ofZ 2) (f64_ofZ 1)) (f64_ofZ 1) (Some (f64_ofZ 1)) = Ok c) by (eexists; vm_compute; reflexivity).
  assert (Q : exists p, get_put_value (DS := FloatDates) 9 None (option64 FNormal (f64_ofZ 2) (f64_ofZ 1)) (f64_ofZ 1) (Some (f64_ofZ 1)) = Ok p) by (eexists; vm_compute; reflexivity).
  destruct C as [c C], Q as [p Q]. destruct the_distribution as [N HN]. destruct small_ints as [FD V2].
  assert (EC : expectation (fun z => call_payoff 1 (normal_forward 2 1 1 z)) (1 * N (1 / 1) + 1 * density (1 / 1))).
  { apply (expectation_ext (fun z => Rmax (1 + 1 * z) 0)); [|apply (bach_call N HN); lra]. intros z. unfold call_payoff, normal_forward. rewrite sqrt_1. f_equal. ring. }
  assert (EP : expectation (fun z => put_payoff 1 (normal_forward 2 1 1 z)) (- (1) * (1 - N (1 / 1)) + 1 * density (1 / 1))).
  { apply (expectation_ext (fun z => Rmax (- (1 + 1 * z)) 0)); [|apply (bach_put N HN); lra]. intros z. unfold put_payoff, normal_forward. rewrite sqrt_1. f_equal. ring. }
  exists c, p, (1 * N (1 / 1) + 1 * density (1 / 1)), (- (1) * (1 - N (1 / 1)) + 1 * density (1 / 1)).
  do 3 (split; [assumption|]). do 2 (split; [assumption|]).
  assert (A1 : Rabs (2 - 1) = 1) by (rewrite Rabs_right; lra).
  destruct (C114_bachelier half_log FloatDates [] (1 / 100) 9 None (option64 FNormal (f64_ofZ 2) (f64_ofZ 1)) (f64_ofZ 1) (Some (f64_ofZ 1)) _ _ _ _ 1
              (1 * N (1 / 1) + 1 * density (1 / 1)) (- (1) * (1 - N (1 / 1)) + 1 * density (1 / 1)) ltac:(lra) (proj1 half_log_within) eq_refl OD FD) as [B1 B2];
    rewrite ?V2, ?one_value, ?sqrt_1, ?A1; auto; try lra.
  destruct (B1 c C) as (_ & _ & X). destruct (B2 p Q) as (_ & _ & Y). rewrite V2, one_value, A1 in X, Y. lra.
Qed.
(** a Black option at the money with standard deviation two *)
Example C114_black_instance : exists c ec,
  om_details (DS := FloatDates) 9 None (option64 FLogNormal (f64_ofZ 1) (f64_ofZ 2)) (f64_ofZ 1) None = Ok (mkOD (Some (f64_ofZ 1)) (f64_ofZ 1) (Some (f64_ofZ 2)) (f64_ofZ 1)) /\
  get_call_value (DS := FloatDates) 9 None (option64 FLogNormal (f64_ofZ 1) (f64_ofZ 2)) (f64_ofZ 1) None = Ok c /\
  expectation (fun z => call_payoff 1 (lognormal_forward 1 2 1 z)) ec /\ Rabs (val c - ec) <= 4 / 10.
Proof.
  assert (OD : om_details (DS := FloatDates) 9 None (option64 FLogNormal (f64_ofZ 1) (f64_ofZ 2)) (f64_ofZ 1) None = Ok (mkOD (Some (f64_ofZ 1)) (f64_ofZ 1) (Some (f64_ofZ 2)) (f64_ofZ 1))) by (vm_compute; reflexivity).
  assert (C : exists c, get_call_value (DS := FloatDates) 9 None (option64 FLogNormal (f64_ofZ 1) (f64_ofZ 2)) (f64_ofZ 1) None = Ok c) by (eexists; vm_compute; reflexivity).
  destruct C as [c C]. destruct small_ints as [FD V2].
  destruct (black_value 1 1 1 2 ltac:(lra) ltac:(lra) ltac:(lra) ltac:(lra)) as (ec & ep & EC & EP & _).
  exists c, ec. do 3 (split; [assumption|]).
  assert (L1 : ln (1 / 1) = 0) by (replace (1 / 1) with 1 by field; apply ln_1).
  destruct (C114_black half_log FloatDates [] (1 / 100) (1 / 100) 9 None (option64 FLogNormal (f64_ofZ 1) (f64_ofZ 2)) (f64_ofZ 1) None _ _ _ _ 2
              ec ep ltac:(lra) (proj1 half_log_within) ltac:(lra) (proj2 half_log_within) eq_refl OD) as [B1 _];
    rewrite ?V2, ?one_value, ?sqrt_1, ?L1; auto; try lra.
  - inversion FD as [|? ? G2 F1]; subst. inversion F1 as [|? ? G1 _]; subst. repeat constructor; try apply G1; apply G2.
  - apply Rabs_le; lra.
  - apply Rabs_le; lra.
  - destruct (B1 c C) as (_ & _ & X). rewrite one_value in X. lra.
Qed.
