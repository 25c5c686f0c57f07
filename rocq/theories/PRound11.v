(** Property C124, and more on C113 and C114: option values are returned, digital values,
    deltas and vegas in double precision. *)
From Coq Require Import ZArith Lia Reals Lra Psatz List Bool Floats.SpecFloat.
From Flocq Require Import Raux.
From Coquelicot Require Import Coquelicot.
From Verif Require Import Num Py MDates MInterpolation MCurve MRateCurve MOption MFloat SOption SNormal SRound SRound2 SRound3
  LBase LOption LNormal LSeries LGauss LExpect LGreeks LRound LRound2 LRound4 LRound5 LRound7 LRound8 LRound9 LRound10 LLibm PNormal PExpect PGreeks PStrikes PBinary PRound9 PRound10.
Import ListNotations.
Local Open Scope R_scope.

(** the distribution function and the density return a number at each double up to 37 *)
Theorem C113_returns : forall lib x, exp_returns lib -> is_double x -> finite_float x -> Rabs (float_value x) <= 37 ->
  exists y z, normal_cdf (N := f64 lib) x = Ok y /\ normal_pdf (N := f64 lib) x = Ok z.
Proof.
  intros lib x ER D F B. destruct (cdf_returns lib ER x (conj D F) B) as [y Y]. destruct (pdf_returns lib ER x (conj D F) B) as [z Z]. eauto.
Qed.
Print Assumptions C113_returns.

Ltac doubles FD := let a := fresh "GF" in let b := fresh "GK" in let c := fresh "Gs" in let e := fresh "Gt" in
  pose proof (Forall_inv FD) as a; pose proof (Forall_inv (Forall_inv_tail FD)) as b;
  pose proof (Forall_inv (Forall_inv_tail (Forall_inv_tail FD))) as c; pose proof (Forall_inv (Forall_inv_tail (Forall_inv_tail (Forall_inv_tail FD)))) as e.

Section C124.
  Context (lib : libm) {D P : Type} (DS : DateSys float64 D P) (DC : DayCounts float64 D).
  #[local] Instance n64t : Num float64 := f64 lib.
  Context (DN : DateNum float64 D).
  Implicit Types (m : omodel float64 D P) (d : D).

  (** * values are returned *)
  (** F, K, s and t are the forward, strike, volatility and time to expiry the model finds *)
  Theorem C114_bachelier_returns : forall fuel flr m d strike F K s t S, exp_returns lib ->
    om_formula m = FNormal -> om_details fuel flr m d strike = Ok (mkOD (Some F) K (Some s) t) ->
    finite_doubles [F; K; s; t] -> 0 < val s <= 10 ^ 9 -> 0 < val t ->
    S = val s * sqrt (val t) -> 1 / 10 ^ 9 <= S <= 10 ^ 9 -> Rabs (val F - val K) <= 36 * S ->
    exists c p, get_call_value fuel flr m d strike = Ok c /\ get_put_value fuel flr m d strike = Ok p.
  Proof.
    intros fuel flr m d strike F K s t S ER C M FD Ps Pt SE SB AB. doubles FD.
    destruct (live64 lib DS DC fuel flr m d strike F K s t Gs Gt (proj1 Ps) Pt M) as [L1 L2]. change (n64live lib) with n64t in *.
    rewrite L1, L2, C. cbn [call_price]. unfold normal_price.
    destruct (bachelier_d_near lib t K F s S Gt GK GF Gs Pt Ps SE SB AB) as (vol & x & E & _ & NX & BX). change (f64 lib) with n64t in E. rewrite E. cbn [bind].
    pose proof (near_abs _ _ _ _ NX BX) as B. destruct (cdf_returns lib ER x (proj1 NX) ltac:(lra)) as [y Y]. destruct (pdf_returns lib ER x (proj1 NX) ltac:(lra)) as [z Z].
    change (f64 lib) with n64t in Y, Z. rewrite Y, Z. cbn [bind]. eauto.
  Qed.
  Lemma black_returns eta t K F s S : exp_returns lib -> log_returns lib -> 0 <= eta <= 1 / 100 -> log_within lib eta ->
    good t -> good K -> good F -> good s -> 0 < val s <= 10 ^ 9 -> 0 < val t ->
    1 / 10 ^ 9 <= val F <= 10 ^ 9 -> 1 / 10 ^ 9 <= val K <= 10 ^ 9 -> S = val s * sqrt (val t) -> 1 / 10 ^ 3 <= S ->
    Rabs (ln (val F / val K) / S + S / 2) <= 36 -> Rabs (ln (val F / val K) / S - S / 2) <= 36 ->
    exists vol x a b, black_d (Ok t) K F s = Ok (vol, x) /\ near x (ln (val F / val K) / S + S / 2) (45 * eta + 7 / 10 ^ 13) /\
      normal_cdf x = Ok a /\ normal_cdf (nsub x vol) = Ok b.
  Proof.
    intros ER LR H0 LW Gt GK GF Gs Ps Pt BF BK SE SB B1 B2.
    assert (S72 : S <= 10 ^ 9) by (apply Rabs_le_inv in B1; apply Rabs_le_inv in B2; lra).
    destruct (black_d_returns lib LR t K F s S Gt GK GF Gs Pt Ps BF BK SE (conj SB S72)) as (vol & x & E).
    set (X := (ln (val F / val K) + S * S / 2) / S).
    assert (X1 : X = ln (val F / val K) / S + S / 2) by (unfold X; field; lra). assert (X2 : X - S = ln (val F / val K) / S - S / 2) by (unfold X; field; lra).
    rewrite <- X1 in *. rewrite <- X2 in B2.
    destruct (black_d_near lib eta H0 LW t K F s vol x S Gt GK GF Gs Pt Ps BF BK SE SB B1 B2 E) as (_ & N1 & N2). fold X in N1, N2.
    pose proof (near_abs _ _ _ _ N1 B1). pose proof (near_abs _ _ _ _ N2 B2).
    destruct (cdf_returns lib ER x (proj1 N1) ltac:(lra)) as [a A]. destruct (cdf_returns lib ER (SFsub 53 1024 x vol) (proj1 N2) ltac:(lra)) as [b B].
    exists vol, x, a, b. auto.
  Qed.
  Theorem C114_black_returns : forall eta fuel flr m d strike F K s t S,
    exp_returns lib -> log_returns lib -> 0 <= eta <= 1 / 100 -> log_within lib eta ->
    om_formula m = FLogNormal -> om_details fuel flr m d strike = Ok (mkOD (Some F) K (Some s) t) ->
    finite_doubles [F; K; s; t] -> 0 < val s <= 10 ^ 9 -> 0 < val t ->
    1 / 10 ^ 9 <= val F <= 10 ^ 9 -> 1 / 10 ^ 9 <= val K <= 10 ^ 9 -> S = val s * sqrt (val t) -> 1 / 10 ^ 3 <= S ->
    Rabs (ln (val F / val K) / S + S / 2) <= 36 -> Rabs (ln (val F / val K) / S - S / 2) <= 36 ->
    exists c p, get_call_value fuel flr m d strike = Ok c /\ get_put_value fuel flr m d strike = Ok p.
  Proof.
    intros eta fuel flr m d strike F K s t S ER LR H0 LW C M FD Ps Pt BF BK SE SB B1 B2. doubles FD.
    destruct (live64 lib DS DC fuel flr m d strike F K s t Gs Gt (proj1 Ps) Pt M) as [L1 L2]. change (n64live lib) with n64t in *.
    rewrite L1, L2, C. cbn [call_price]. unfold black_price.
    destruct (black_returns eta t K F s S ER LR H0 LW Gt GK GF Gs Ps Pt BF BK SE SB B1 B2) as (vol & x & a & b & E & _ & A & B). rewrite E. cbn [bind]. rewrite A, B. cbn [bind]. eauto.
  Qed.
  Theorem C114_displaced_returns : forall eta fuel flr m d strike F K s t a S,
    exp_returns lib -> log_returns lib -> 0 <= eta <= 1 / 100 -> log_within lib eta ->
    om_formula m = FDisplaced a -> om_details fuel flr m d strike = Ok (mkOD (Some F) K (Some s) t) ->
    finite_doubles [F; K; s; t; a] -> 0 < val s <= 10 ^ 9 -> 0 < val t ->
    2 / 10 ^ 9 <= val F + val a <= 10 ^ 8 -> 2 / 10 ^ 9 <= val K + val a <= 10 ^ 8 -> S = val s * sqrt (val t) -> 1 / 10 ^ 3 <= S ->
    Rabs (ln ((val F + val a) / (val K + val a)) / S + S / 2) <= 35 -> Rabs (ln ((val F + val a) / (val K + val a)) / S - S / 2) <= 35 ->
    exists c p, get_call_value fuel flr m d strike = Ok c /\ get_put_value fuel flr m d strike = Ok p.
  Proof.
    intros eta fuel flr m d strike F K s t a S ER LR H0 LW C M FD Ps Pt BF BK SE SB B1 B2. doubles FD.
    assert (Ga := Forall_inv (Forall_inv_tail (Forall_inv_tail (Forall_inv_tail (Forall_inv_tail FD))))).
    destruct (live64 lib DS DC fuel flr m d strike F K s t Gs Gt (proj1 Ps) Pt M) as [L1 L2]. change (n64live lib) with n64t in *.
    rewrite L1, L2, C. cbn [call_price].
    destruct (shifted_near F a GF Ga BF) as (NF & RF & LF). destruct (shifted_near K a GK Ga BK) as (NK & RK & LK).
    change (nadd K a) with (SFadd 53 1024 K a). change (nadd F a) with (SFadd 53 1024 F a).
    set (F' := SFadd 53 1024 F a) in *. set (K' := SFadd 53 1024 K a) in *. set (FA := val F + val a) in *. set (KA := val K + val a) in *.
    assert (LD : ln (val F' / val K') = ln (val F') - ln (val K')) by (unfold Rdiv; rewrite ln_mult, ln_Rinv by (try apply Rinv_0_lt_compat; lra); ring).
    assert (LD2 : ln (FA / KA) = ln FA - ln KA) by (unfold Rdiv; rewrite ln_mult, ln_Rinv by (try apply Rinv_0_lt_compat; lra); ring).
    assert (DL : Rabs (ln (val F' / val K') / S - ln (FA / KA) / S) <= 1 / 10 ^ 12).
    { replace (ln (val F' / val K') / S - ln (FA / KA) / S) with ((ln (val F' / val K') - ln (FA / KA)) / S) by (field; lra).
      unfold Rdiv at 1. rewrite Rabs_mult, (Rabs_right (/ S)) by (left; apply Rinv_0_lt_compat; lra).
      apply Rmult_le_reg_r with S; [lra|]. rewrite Rmult_assoc, Rinv_l by lra. rewrite Rmult_1_r, LD, LD2.
      apply Rle_trans with (6 / 10 ^ 16); [|lra]. apply Rabs_le_inv in LF. apply Rabs_le_inv in LK. apply Rabs_le. lra. }
    apply Rabs_le_inv in DL. apply Rabs_le_inv in B1. apply Rabs_le_inv in B2. unfold black_price.
    destruct (black_returns eta t K' F' s S ER LR H0 LW Gt (proj1 NK) (proj1 NF) Gs Ps Pt RF RK SE SB) as (vol & x & y & z & E & _ & A & B); try (apply Rabs_le; lra).
    rewrite E. cbn [bind]. rewrite A, B. cbn [bind]. eauto.
  Qed.

  (** * greeks *)
  Lemma live_delta fuel flr m d strike F K s t : good s -> good t -> 0 < v s -> 0 < v t -> om_bump m = false ->
    om_details fuel flr m d strike = Ok (mkOD (Some F) K (Some s) t) ->
    get_call_delta fuel flr m d strike =
      (a <- call_delta (om_formula m) (Ok t) K F s ;; match a with Some x => Ok (nmul x (delta_scale (om_const m))) | None =>
            up <- call_price (om_formula m) t K (nadd F (delta_shift (om_const m))) s ;; at_ <- call_price (om_formula m) t K F s ;;
            q <- ndiv (nsub up at_) (delta_shift (om_const m)) ;; Ok (nmul q (delta_scale (om_const m))) end) /\
    exists k, get_call_vega fuel flr m d strike =
      (a <- call_vega (om_formula m) (Ok t) K F s ;; match a with Some x => Ok (nmul x (vega_scale (om_const m))) | None => k end).
  Proof.
    intros Gs Gt Ps Pt B E. unfold get_call_delta, get_call_vega. rewrite E, B. cbn [bind od_forward number od_strike od_vol od_time].
    assert (TR : forall x, good x -> 0 < v x -> ntruthy x = true).
    { intros x G X. unfold ntruthy. change (neqb x n0) with (SFeqb x f64_zero). rewrite not_zero; auto. lra. }
    unfold degenerate. cbn [od_vol od_time]. rewrite (TR s Gs Ps), (TR t Gt Pt). cbn [negb orb]. split; [reflexivity|eexists; reflexivity].
  Qed.

  (** a greek times the scale of the model, which must not be extreme *)
  Definition scale_ok (x : float64) : Prop := is_double x /\ finite_float x /\ 1 / 10 ^ 9 <= Rabs (val x) <= 10 ^ 9.
  Lemma scaled64 x a e A sc e' : near x a e -> Rabs a <= A -> 1 / 10 ^ 20 <= A + e <= 10 ^ 20 -> scale_ok sc -> e + 13 / 10 ^ 17 * (A + e) <= e' ->
    is_double (nmul x sc) /\ finite_float (nmul x sc) /\ Rabs (val (nmul x sc) - a * val sc) <= e' * Rabs (val sc).
  Proof.
    intros Hx HA HE (D1 & D2 & B) L. change (nmul x sc) with (SFmul 53 1024 x sc).
    assert (e0 : 0 <= e) by (eapply near_nonneg; exact Hx).
    assert (NN : near (SFmul 53 1024 x sc) (a * val sc) (e' * Rabs (val sc))).
    { apply (mul_wide _ _ _ _ e 0 A (Rabs (val sc))); auto; try lra; [now apply exact_near| | ].
      - assert ((A + e) * (Rabs (val sc) + 0) <= 10 ^ 20 * 10 ^ 9) by (apply Rmult_le_compat; lra). lra.
      - assert (1 / 10 ^ 29 <= (A + e) * Rabs (val sc)).
        { replace (1 / 10 ^ 29) with (1 / 10 ^ 20 * (1 / 10 ^ 9)) by lra. apply Rmult_le_compat; lra. }
        assert ((e + 13 / 10 ^ 17 * (A + e)) * Rabs (val sc) <= e' * Rabs (val sc)) by (apply Rmult_le_compat_r; lra). nra. }
    destruct NN as [[X1 X2] X3]. auto.
  Qed.

  (** the value of a binary call in the Bachelier model is the probability that the forward
      ends above the strike *)
  Theorem C124_digital : forall eps fuel flr m d strike F K s t S e, exp_returns lib -> 0 <= eps <= 1 / 10 -> exp_within lib eps ->
    om_formula m = FBinNormal -> om_details fuel flr m d strike = Ok (mkOD (Some F) K (Some s) t) ->
    finite_doubles [F; K; s; t] -> 0 < val s <= 10 ^ 9 -> 0 < val t ->
    S = val s * sqrt (val t) -> 1 / 10 ^ 9 <= S <= 10 ^ 9 -> Rabs (val F - val K) <= 36 * S ->
    expectation (fun z => binary_call_payoff (val K) (normal_forward (val F) (val s) (val t) z)) e ->
    exists c, get_call_value fuel flr m d strike = Ok c /\ is_double c /\ finite_float c /\ 0 <= val c <= 1 /\
      Rabs (val c - e) <= 75 / 10 ^ 9 + 53 / 100 * eps + 3 / 10 ^ 12.
  Proof.
    intros eps fuel flr m d strike F K s t S e ER E0 EW C M FD Ps Pt SE SB AB HE. doubles FD. destruct the_distribution as [N HN].
    destruct (live64 lib DS DC fuel flr m d strike F K s t Gs Gt (proj1 Ps) Pt M) as [L1 _]. change (n64live lib) with n64t in *.
    rewrite L1, C. cbn [call_price]. unfold normal_delta.
    destruct (bachelier_d_near lib t K F s S Gt GK GF Gs Pt Ps SE SB AB) as (vol & x & E & _ & NX & BX). change (f64 lib) with n64t in E. rewrite E. cbn [bind snd].
    pose proof (near_abs _ _ _ _ NX BX) as B. destruct (cdf_returns lib ER x (proj1 NX) ltac:(lra)) as [y Y]. exists y. split; [exact Y|].
    destruct (cdf_near lib eps x y E0 EW (proj1 NX) ltac:(lra) Y) as [_ R01].
    destruct (cdf64 lib eps N E0 EW HN x y (proj1 NX) ltac:(lra) Y) as [[G1 G2] NY]. do 2 (split; [assumption|]). split; [exact R01|].
    rewrite (expectation_unique _ _ _ HE (normal_digital N (val K) (val F) (val s) (val t) HN Pt (proj1 Ps))). rewrite <- SE.
    pose proof (N_lip N HN (v x) ((val F - val K) / S)) as NL. pose proof (proj2 NX).
    replace (val y - N ((val F - val K) / S)) with ((val y - N (v x)) + (N (v x) - N ((val F - val K) / S))) by ring.
    eapply Rle_trans; [apply Rabs_triang|lra].
  Qed.

  (** the Bachelier delta and vega are the derivatives of the expected payoff with respect to
      forward and volatility, times the scales of the model *)
  Theorem C124_bachelier : forall eps fuel flr m d strike F K s t S V, exp_returns lib -> 0 <= eps <= 1 / 10 -> exp_within lib eps ->
    om_formula m = FNormal -> om_bump m = false -> om_details fuel flr m d strike = Ok (mkOD (Some F) K (Some s) t) ->
    finite_doubles [F; K; s; t] -> 1 / 10 ^ 9 <= val s <= 10 ^ 9 -> 0 < val t ->
    S = val s * sqrt (val t) -> 1 / 10 ^ 9 <= S <= 10 ^ 9 -> Rabs (val F - val K) <= 36 * S ->
    scale_ok (delta_scale (om_const m)) -> scale_ok (vega_scale (om_const m)) ->
    normal_calls (val K) (val t) V ->
    let dsc := val (delta_scale (om_const m)) in let vsc := val (vega_scale (om_const m)) in
    exists delta vega dF dv,
      get_call_delta fuel flr m d strike = Ok delta /\ is_double delta /\ finite_float delta /\
      get_call_vega fuel flr m d strike = Ok vega /\ is_double vega /\ finite_float vega /\
      derivable_pt_lim (fun x => V x (val s)) (val F) dF /\ Rabs (val delta - dF * dsc) <= (75 / 10 ^ 9 + 53 / 100 * eps + 3 / 10 ^ 12) * Rabs dsc /\
      derivable_pt_lim (fun x => V (val F) x) (val s) dv /\ Rabs (val vega - dv * vsc) <= sqrt (val t) * (42 / 100 * eps + 2 / 10 ^ 12) * Rabs vsc.
  Proof.
    intros eps fuel flr m d strike F K s t S V ER E0 EW C BU M FD Ps Pt SE SB AB SD SV HV dsc vsc. doubles FD. destruct the_distribution as [N HN].
    assert (Ps' : 0 < val s <= 10 ^ 9) by lra. pose proof (sqrt_lt_R0 (val t) Pt) as SP.
    destruct (live_delta fuel flr m d strike F K s t Gs Gt (proj1 Ps') Pt BU M) as [L1 [k L2]].
    rewrite L1, L2, C. cbn [call_delta call_vega]. unfold normal_delta, normal_vega.
    destruct (bachelier_d_near lib t K F s S Gt GK GF Gs Pt Ps' SE SB AB) as (vol & x & E & _ & NX & BX). change (f64 lib) with n64t in E. rewrite E. cbn [bind snd rmap].
    set (X := (val F - val K) / S) in *.
    pose proof (near_abs _ _ _ _ NX BX) as B. destruct (cdf_returns lib ER x (proj1 NX) ltac:(lra)) as [y Y]. destruct (pdf_returns lib ER x (proj1 NX) ltac:(lra)) as [z Z].
    pose proof (sqrt_returns lib t Gt Pt) as Q. change (f64 lib) with n64t in Y, Z, Q. rewrite Y, Z, Q. cbn [bind rmap].
    assert (NY := cdf64 lib eps N E0 EW HN x y (proj1 NX) ltac:(lra) Y). assert (NZ := pdf64 lib eps E0 EW x z (proj1 NX) ltac:(lra) Z).
    pose proof (N_range N HN X) as NR. pose proof (density_le X) as DL.
    assert (NY' : near y (N X) (75 / 10 ^ 9 + 53 / 100 * eps + 21 / 10 ^ 13)).
    { split; [apply NY|]. pose proof (N_lip N HN (v x) X) as NL. pose proof (proj2 NX). pose proof (proj2 NY).
      replace (val y - N X) with ((val y - N (v x)) + (N (v x) - N X)) by ring. eapply Rle_trans; [apply Rabs_triang|lra]. }
    assert (NZ' : near z (density X) (41 / 100 * eps + 13 / 10 ^ 13)).
    { split; [apply NZ|]. pose proof (density_lip (v x) X) as NL. pose proof (proj2 NX). pose proof (proj2 NZ).
      replace (val z - density X) with ((val z - density (v x)) + (density (v x) - density X)) by ring. eapply Rle_trans; [apply Rabs_triang|lra]. }
    assert (ST : 1 / 10 ^ 18 <= sqrt (val t) <= 10 ^ 18).
    { assert (IS : 1 / 10 ^ 9 <= / val s <= 10 ^ 9).
      { split; [replace (1 / 10 ^ 9) with (/ 10 ^ 9) by (unfold Rdiv; ring); apply Rinv_le_contravar; lra|].
        replace (10 ^ 9) with (/ (1 / 10 ^ 9)) by field. apply Rinv_le_contravar; lra. }
      assert (QS : sqrt (val t) = S * / val s) by (rewrite SE; field; lra). rewrite QS.
      split; [replace (1 / 10 ^ 18) with (1 / 10 ^ 9 * (1 / 10 ^ 9)) by lra|replace (10 ^ 18) with (10 ^ 9 * 10 ^ 9) by lra]; apply Rmult_le_compat; lra. }
    destruct (sqrt_good t Gt ltac:(lra)) as [GW VW].
    assert (NW : near (SFsqrt 53 1024 t) (sqrt (val t)) (13 / 10 ^ 17 * sqrt (val t))).
    { split; [exact GW|]. rewrite VW. pose proof (rnd_abs60 (sqrt (val t))) as RA. rewrite (Rabs_right (sqrt (val t))) in RA by lra. lra. }
    assert (NV : near (nmul (SFsqrt 53 1024 t) z) (sqrt (val t) * density X) (sqrt (val t) * (41 / 100 * eps + 15 / 10 ^ 13))).
    { change (nmul (SFsqrt 53 1024 t) z) with (SFmul 53 1024 (SFsqrt 53 1024 t) z).
      apply (mul_wide _ _ _ _ (13 / 10 ^ 17 * sqrt (val t)) (41 / 100 * eps + 13 / 10 ^ 13) (sqrt (val t)) (2 / 5)); auto; try (rewrite Rabs_right; lra).
      - set (q := sqrt (val t)) in *. nra.
      - set (q := sqrt (val t)) in *. assert (0 <= q * eps <= q * (1 / 10)) by nra. nra. }
    destruct (scaled64 y (N X) _ 1 (delta_scale (om_const m)) (75 / 10 ^ 9 + 53 / 100 * eps + 3 / 10 ^ 12) NY') as (D1 & D2 & D3); auto; try lra; [apply Rabs_le; lra|].
    assert (SC : 0 <= sqrt (val t) * eps <= sqrt (val t) * (1 / 10)) by (split; [apply Rmult_le_pos; lra|apply Rmult_le_compat_l; lra]).
    destruct (scaled64 _ (sqrt (val t) * density X) _ (sqrt (val t) * (2 / 5)) (vega_scale (om_const m)) (sqrt (val t) * (42 / 100 * eps + 2 / 10 ^ 12)) NV) as (V1 & V2 & V3); auto; try lra.
    { rewrite Rabs_right by (apply Rle_ge, Rmult_le_pos; lra). apply Rmult_le_compat_l; lra. }
    pose proof (normal_calls_eq N (val K) (val t) V HN Pt HV) as VE.
    exists (nmul y (delta_scale (om_const m))), (nmul (nmul (SFsqrt 53 1024 t) z) (vega_scale (om_const m))), (N X), (sqrt (val t) * density X).
    split; [reflexivity|]. do 2 (split; [assumption|]). split; [reflexivity|]. do 2 (split; [assumption|]). split; [|split; [exact D3|split; [|exact V3]]].
    - apply (derive_ext (fun y => bach N (val K) y S)); [intros w; rewrite SE; symmetry; now apply VE|]. apply Coquelicot.Derive.is_derive_Reals. apply bach_delta; auto. lra.
    - apply Coquelicot.Derive.is_derive_Reals. apply (Coquelicot.Derive.is_derive_ext_loc (fun u : R => bach N (val K) (val F) (u * sqrt (val t)))).
      + apply near_pos; [lra|]. intros w Hw. symmetry. now apply VE.
      + replace (sqrt (val t) * density X) with (Coquelicot.Hierarchy.scal (sqrt (val t)) (density X)) by reflexivity.
        apply (Coquelicot.Derive.is_derive_comp (bach N (val K) (val F)) (fun u : R => u * sqrt (val t))); [rewrite <- SE; apply bach_vega_s; auto; lra|].
        Coquelicot.AutoDerive.auto_derive; [exact Logic.I|ring].
  Qed.

  (** the Black delta is the derivative of the expected payoff with respect to the forward *)
  Theorem C124_black_delta : forall eps eta fuel flr m d strike F K s t S V,
    exp_returns lib -> log_returns lib -> 0 <= eps <= 1 / 10 -> exp_within lib eps -> 0 <= eta <= 1 / 100 -> log_within lib eta ->
    om_formula m = FLogNormal -> om_bump m = false -> om_details fuel flr m d strike = Ok (mkOD (Some F) K (Some s) t) ->
    finite_doubles [F; K; s; t] -> 0 < val s <= 10 ^ 9 -> 0 < val t ->
    1 / 10 ^ 9 <= val F <= 10 ^ 9 -> 1 / 10 ^ 9 <= val K <= 10 ^ 9 -> S = val s * sqrt (val t) -> 1 / 10 ^ 3 <= S ->
    Rabs (ln (val F / val K) / S + S / 2) <= 36 -> Rabs (ln (val F / val K) / S - S / 2) <= 36 ->
    scale_ok (delta_scale (om_const m)) -> lognormal_calls (val K) (val t) V ->
    let dsc := val (delta_scale (om_const m)) in
    exists delta dF, get_call_delta fuel flr m d strike = Ok delta /\ is_double delta /\ finite_float delta /\
      derivable_pt_lim (fun x => V x (val s)) (val F) dF /\
      Rabs (val delta - dF * dsc) <= (75 / 10 ^ 9 + 53 / 100 * eps + 18 * eta + 3 / 10 ^ 12) * Rabs dsc.
  Proof.
    intros eps eta fuel flr m d strike F K s t S V ER LR E0 EW H0 LW C BU M FD Ps Pt BF BK SE SB B1 B2 SD HV dsc. doubles FD. destruct the_distribution as [N HN].
    destruct (live_delta fuel flr m d strike F K s t Gs Gt (proj1 Ps) Pt BU M) as [L1 _].
    rewrite L1, C. cbn [call_delta]. unfold black_delta.
    destruct (black_returns eta t K F s S ER LR H0 LW Gt GK GF Gs Ps Pt BF BK SE SB B1 B2) as (vol & x & a & b & E & NX & A & _). rewrite E. cbn [bind snd]. rewrite A. cbn [bind rmap].
    set (X := ln (val F / val K) / S + S / 2) in *. pose proof (near_abs _ _ _ _ NX B1) as BX.
    assert (NA := cdf64 lib eps N E0 EW HN x a (proj1 NX) ltac:(lra) A). pose proof (N_range N HN X) as NR.
    assert (NA' : near a (N X) (75 / 10 ^ 9 + 53 / 100 * eps + 18 * eta + 25 / 10 ^ 13)).
    { split; [apply NA|]. pose proof (N_lip N HN (v x) X) as NL. pose proof (proj2 NX). pose proof (proj2 NA).
      replace (val a - N X) with ((val a - N (v x)) + (N (v x) - N X)) by ring. eapply Rle_trans; [apply Rabs_triang|lra]. }
    destruct (scaled64 a (N X) _ 1 (delta_scale (om_const m)) (75 / 10 ^ 9 + 53 / 100 * eps + 18 * eta + 3 / 10 ^ 12) NA') as (D1 & D2 & D3); auto; try lra; [apply Rabs_le; lra|].
    exists (nmul a (delta_scale (om_const m))), (N X). split; [reflexivity|]. do 2 (split; [assumption|]). split; [|exact D3].
    pose proof (lognormal_calls_eq N (val K) (val t) V HN Pt ltac:(lra) HV) as VE.
    replace (N X) with (N ((ln (val F / val K) + S * S / 2) / S)) by (f_equal; unfold X; field; lra).
    apply Coquelicot.Derive.is_derive_Reals. apply (Coquelicot.Derive.is_derive_ext_loc (fun y : R => blk N (val K) y S)).
    - apply near_pos; [lra|]. intros w Hw. rewrite SE. symmetry. apply VE; lra.
    - apply blk_delta; auto; lra.
  Qed.
End C124.
Print Assumptions C114_bachelier_returns.
Print Assumptions C114_black_returns.
Print Assumptions C114_displaced_returns.
Print Assumptions C124_digital.
Print Assumptions C124_bachelier.
Print Assumptions C124_black_delta.

(** * Instances *)
(** on a platform with accurate functions ([good_libm]): forward 2, strike 1, volatility 1,
    one year before expiry, with the scales of the library *)
#[local] Instance n64good : Num float64 := f64 good_libm.
#[local] Instance no_registry124 : DayCounts float64 float64 := [].
Definition good_option (fm : formula float64) : omodel float64 float64 (fperiod float64) :=
  mkOM fm default_gconst (Some f64_zero) (FwNum (f64_ofZ 2)) (VoNum (f64_ofZ 1)) None false.
Lemma good_details fm : om_details (DS := FloatDates) 9 None (good_option fm) (f64_ofZ 1) (Some (f64_ofZ 1)) = Ok (mkOD (Some (f64_ofZ 2)) (f64_ofZ 1) (Some (f64_ofZ 1)) (f64_ofZ 1)).
Proof. vm_compute. reflexivity. Qed.
Lemma default_scales : scale_ok (f64_ratio 1 10000) /\ scale_ok (f64_ratio 1 100).
Proof.
  assert (E1 : f64_ratio 1 10000 = S754_finite false 7378697629483821 (-66)) by (vm_compute; reflexivity).
  assert (E2 : f64_ratio 1 100 = S754_finite false 5764607523034235 (-59)) by (vm_compute; reflexivity).
  rewrite E1, E2. unfold scale_ok. cbn [float_value]. change (powerRZ 2 (-66)) with (/ 2 ^ 66). change (powerRZ 2 (-59)) with (/ 2 ^ 59).
  split; (split; [reflexivity|split; [exact Logic.I|]]); rewrite Rabs_right; lra.
Qed.
Example C124_instance : exists V delta vega dF dv c e,
  normal_calls 1 1 V /\ get_call_delta (DS := FloatDates) 9 None (good_option FNormal) (f64_ofZ 1) (Some (f64_ofZ 1)) = Ok delta /\
  get_call_vega (DS := FloatDates) (DN := FloatNum) 9 None (good_option FNormal) (f64_ofZ 1) (Some (f64_ofZ 1)) = Ok vega /\
  derivable_pt_lim (fun x => V x 1) 2 dF /\ Rabs (val delta - dF / 10000) <= 1 / 10 ^ 11 /\
  derivable_pt_lim (fun x => V 2 x) 1 dv /\ Rabs (val vega - dv / 100) <= 1 / 10 ^ 13 /\
  get_call_value (DS := FloatDates) 9 None (good_option FBinNormal) (f64_ofZ 1) (Some (f64_ofZ 1)) = Ok c /\
  expectation (fun z => binary_call_payoff 1 (normal_forward 2 1 1 z)) e /\ Rabs (val c - e) <= 76 / 10 ^ 9.
Proof.
  destruct (C111_values 1 1 ltac:(lra)) as [[V HV] _]. destruct (C116_values 1 1 ltac:(lra)) as [[W HW] _]. destruct small_ints as [FD V2]. destruct default_scales as [S1 S2].
  assert (A1 : Rabs (2 - 1) = 1) by (rewrite Rabs_right; lra).
  destruct (C124_bachelier good_libm FloatDates no_registry124 FloatNum (1 / 10 ^ 15) 9 None (good_option FNormal) (f64_ofZ 1) (Some (f64_ofZ 1)) _ _ _ _ 1 V
      (proj2 good_exp) ltac:(lra) (proj1 good_exp) eq_refl eq_refl (good_details FNormal) FD) as (delta & vega & dF & dv & ED & _ & _ & EV & _ & _ & DF & BF & DV & BV);
    rewrite ?V2, ?one_value, ?sqrt_1, ?A1; auto; try lra.
  pose proof (HW 2 1 ltac:(lra)) as HE.
  destruct (C124_digital good_libm FloatDates no_registry124 (1 / 10 ^ 15) 9 None (good_option FBinNormal) (f64_ofZ 1) (Some (f64_ofZ 1)) _ _ _ _ 1 (W 2 1)
      (proj2 good_exp) ltac:(lra) (proj1 good_exp) eq_refl (good_details FBinNormal) FD) as (c & EC & _ & _ & _ & BC);
    rewrite ?V2, ?one_value, ?sqrt_1, ?A1; auto; try lra.
  exists V, delta, vega, dF, dv, c, (W 2 1). rewrite V2, one_value in DF, DV. rewrite one_value, sqrt_1 in BV.
  change (delta_scale (om_const (good_option FNormal))) with (f64_ratio 1 10000) in BF. change (vega_scale (om_const (good_option FNormal))) with (f64_ratio 1 100) in BV.
  assert (R1 : Rabs (val (f64_ratio 1 10000) - 1 / 10000) <= 1 / 10 ^ 20) by (replace (f64_ratio 1 10000) with (S754_finite false 7378697629483821 (-66)) by (vm_compute; reflexivity); cbn [float_value]; change (powerRZ 2 (-66)) with (/ 2 ^ 66); apply Rabs_le; lra).
  assert (R2 : Rabs (val (f64_ratio 1 100) - 1 / 100) <= 1 / 10 ^ 18) by (replace (f64_ratio 1 100) with (S754_finite false 5764607523034235 (-59)) by (vm_compute; reflexivity); cbn [float_value]; change (powerRZ 2 (-59)) with (/ 2 ^ 59); apply Rabs_le; lra).
  set (u := val (f64_ratio 1 10000)) in *. set (w := val (f64_ratio 1 100)) in *. apply Rabs_le_inv in R1, R2. rewrite (Rabs_right u) in BF by lra. rewrite (Rabs_right w) in BV by lra.
  destruct the_distribution as [N HN]. pose proof (normal_calls_eq N 1 1 V HN ltac:(lra) HV) as VE.
  assert (F1 : 0 <= dF <= 1).
  { assert (Q : dF = N ((2 - 1) / 1)). { apply (uniqueness_limite (fun x => V x 1) 2); [exact DF|].
      apply (derive_ext (fun y => bach N 1 y 1)); [intros z; rewrite (VE z 1) by lra; now rewrite sqrt_1, Rmult_1_r|]. apply is_derive_Reals. apply bach_delta; auto; lra. }
    rewrite Q. pose proof (N_range N HN ((2 - 1) / 1)). lra. }
  assert (V1 : Rabs dv <= 1).
  { assert (Q : dv = density ((2 - 1) / 1)). { apply (uniqueness_limite (fun x => V 2 x) 1); [exact DV|]. apply is_derive_Reals. apply (is_derive_ext_loc (fun y => bach N 1 2 y)).
      - apply near_pos; [lra|]. intros z Hz. rewrite (VE 2 z) by lra. now rewrite sqrt_1, Rmult_1_r.
      - apply bach_vega_s; auto; lra. }
    rewrite Q. pose proof (density_le ((2 - 1) / 1)). apply Rabs_le. lra. }
  apply Rabs_le_inv in V1. apply Rabs_le_inv in BF, BV.
  split; [exact HV|]. split; [exact ED|]. split; [exact EV|]. split; [exact DF|]. split; [apply Rabs_le; nra|]. split; [exact DV|]. split; [apply Rabs_le; nra|].
  split; [exact EC|]. split; [exact HE|]. lra.
Qed.
(** Black 76, where forward and strike are equal to 2 *)
Example C124_black_instance : exists V delta dF c p,
  lognormal_calls 2 1 V /\ get_call_delta (DS := FloatDates) 9 None (good_option FLogNormal) (f64_ofZ 1) (Some (f64_ofZ 2)) = Ok delta /\
  derivable_pt_lim (fun x => V x 1) 2 dF /\ Rabs (val delta - dF * val (f64_ratio 1 10000)) <= 76 / 10 ^ 9 * val (f64_ratio 1 10000) /\
  get_call_value (DS := FloatDates) 9 None (good_option FLogNormal) (f64_ofZ 1) (Some (f64_ofZ 2)) = Ok c /\
  get_put_value (DS := FloatDates) 9 None (good_option FLogNormal) (f64_ofZ 1) (Some (f64_ofZ 2)) = Ok p.
Proof.
  destruct (C111_values 2 1 ltac:(lra)) as [_ HV]. destruct (HV ltac:(lra)) as [V HL]. destruct small_ints as [_ V2]. destruct default_scales as [S1 _].
  assert (OD : om_details (DS := FloatDates) 9 None (good_option FLogNormal) (f64_ofZ 1) (Some (f64_ofZ 2)) = Ok (mkOD (Some (f64_ofZ 2)) (f64_ofZ 2) (Some (f64_ofZ 1)) (f64_ofZ 1))) by (vm_compute; reflexivity).
  assert (FD : finite_doubles [f64_ofZ 2; f64_ofZ 2; f64_ofZ 1; f64_ofZ 1]) by (repeat constructor; vm_compute; auto).
  assert (L0 : ln (2 / 2) / 1 = 0) by (replace (2 / 2) with 1 by field; rewrite ln_1; field).
  assert (B1 : Rabs (0 + 1 / 2) <= 36) by (rewrite Rabs_right; lra). assert (B2 : Rabs (0 - 1 / 2) <= 36) by (rewrite Rabs_left; lra).
  destruct (C124_black_delta good_libm FloatDates no_registry124 FloatNum (1 / 10 ^ 15) (1 / 10 ^ 15) 9 None (good_option FLogNormal) (f64_ofZ 1) (Some (f64_ofZ 2)) _ _ _ _ 1 V
      (proj2 good_exp) (proj2 good_log) ltac:(lra) (proj1 good_exp) ltac:(lra) (proj1 good_log) eq_refl eq_refl OD FD) as (delta & dF & ED & _ & _ & DF & BF);
    rewrite ?V2, ?one_value, ?sqrt_1, ?L0; auto; try lra.
  destruct (C114_black_returns good_libm FloatDates no_registry124 (1 / 10 ^ 15) 9 None (good_option FLogNormal) (f64_ofZ 1) (Some (f64_ofZ 2)) _ _ _ _ 1
      (proj2 good_exp) (proj2 good_log) ltac:(lra) (proj1 good_log) eq_refl OD FD) as (c & p & EC & EP);
    rewrite ?V2, ?one_value, ?sqrt_1, ?L0; auto; try lra.
  exists V, delta, dF, c, p. rewrite V2, one_value in DF. split; [exact HL|]. split; [exact ED|]. split; [exact DF|]. split; [|split; [exact EC|exact EP]].
  change (delta_scale (om_const (good_option FLogNormal))) with (f64_ratio 1 10000) in BF. assert (U : 0 < val (f64_ratio 1 10000)).
  { replace (f64_ratio 1 10000) with (S754_finite false 7378697629483821 (-66)) by (vm_compute; reflexivity). cbn [float_value]. change (powerRZ 2 (-66)) with (/ 2 ^ 66). lra. }
  rewrite (Rabs_right (val _)) in BF by lra. eapply Rle_trans; [exact BF|]. apply Rmult_le_compat_r; lra.
Qed.
