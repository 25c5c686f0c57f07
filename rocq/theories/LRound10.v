(** The option formulas return a number in double precision; deltas, vegas and digital values.
    Used for C124. *)
From Coq Require Import ZArith Lia Reals Lra Psatz List Bool Floats.SpecFloat.
From Flocq Require Import Raux.
From Verif Require Import Num Py MDates MInterpolation MCurve MRateCurve MOption MFloat SOption SNormal SRound SRound2 SRound3
  LBase LOption LNormal LSeries LGauss LExpect LRound LRound2 LRound4 LRound5 LRound6 LRound7 LRound8 PNormal PExpect.
Local Open Scope R_scope.

Lemma not_zero x : good x -> v x <> 0 -> SFeqb x f64_zero = false.
Proof.
  intros G Z. rewrite (eqb_value x f64_zero G zero_good). change (v f64_zero) with 0. destruct (Reqb (v x) 0) eqn:Q; auto. apply Reqb_true in Q. lra.
Qed.

Section Returns.
  Variables (lib : libm).
  Hypotheses (ER : exp_returns lib).
  Notation N64 := (f64 lib).

  Lemma gauss_returns x : good x -> Rabs (v x) <= 37 ->
    exists w, nexp (Num := N64) (nmul (Num := N64) (nmul (Num := N64) (nopp (Num := N64) (half (N := N64))) x) x) = Ok w.
  Proof.
    intros GX BX.
    assert (H : near (f64_ratio 1 2) (1 / 2) (1 / 10 ^ 16)) by (apply (ratio_near _ _ (1/2)); try lia; try apply Rabs_le; lra).
    destruct H as [GH EH]. destruct (opp_good _ GH) as [GO VO]. pose proof (Rabs_le_inv _ _ EH) as VH.
    assert (HO : near (SFopp (f64_ratio 1 2)) (- (1 / 2)) (1 / 10 ^ 16)).
    { split; [exact GO|]. rewrite VO. apply Rabs_le. lra. }
    pose proof (exact_near x GX) as HX.
    assert (M1 := mul_near _ _ _ _ _ _ (1/2) 37 (1 / 10 ^ 14) HO HX ltac:(apply Rabs_le; lra) BX ltac:(lra) ltac:(lra) ltac:(lra)).
    assert (B1 : Rabs (- (1 / 2) * v x) <= 37 / 2). { rewrite Rabs_mult, Rabs_Ropp, (Rabs_right (1 / 2)) by lra. lra. }
    assert (M2 := mul_near _ _ _ _ _ _ (37/2) 37 (1 / 10 ^ 12) M1 HX B1 BX ltac:(lra) ltac:(lra) ltac:(lra)).
    set (h := SFmul 53 1024 (SFopp (f64_ratio 1 2)) x) in *. set (z := SFmul 53 1024 h x) in *.
    destruct (mul_round _ _ (proj1 GO) (proj1 GX) (proj2 (proj1 M1))) as (_ & _ & _ & V1). fold h in V1.
    destruct (mul_round _ _ (proj1 (proj1 M1)) (proj1 GX) (proj2 (proj1 M2))) as (_ & _ & _ & V2). fold z in V2.
    assert (S1 : v h * v x <= 0).
    { rewrite V1, VO. destruct (Rle_dec 0 (v x)) as [L|L].
      - assert (rnd (- v (f64_ratio 1 2) * v x) <= rnd 0) by (apply rnd_le; nra). rewrite rnd_0 in *. nra.
      - assert (rnd 0 <= rnd (- v (f64_ratio 1 2) * v x)) by (apply rnd_le; nra). rewrite rnd_0 in *. nra. }
    assert (Z0 : v z <= 0) by (rewrite V2, <- rnd_0; now apply rnd_le).
    assert (Z1 : -700 <= v z). { pose proof (Rabs_le_inv _ _ (proj2 M2)). pose proof (Rabs_le_inv _ _ BX). nra. }
    change (exists w, nexp (Num := N64) z = Ok w). cbn [nexp f64]. destruct (SFeqb z f64_zero); [now eexists|].
    assert (Z2 : v z <= 700) by (apply Rle_trans with (1 := Z0); lra). exact (ER z (proj1 (proj1 M2)) (proj2 (proj1 M2)) (conj Z1 Z2)).
  Qed.
  Lemma pdf_returns x : good x -> Rabs (v x) <= 37 -> exists y, normal_pdf (N := N64) x = Ok y.
  Proof.
    intros G B. destruct (gauss_returns x G B) as [w E]. unfold normal_pdf. rewrite E. now eexists.
  Qed.
  Lemma cdf_returns x : good x -> Rabs (v x) <= 37 -> exists y, normal_cdf (N := N64) x = Ok y.
  Proof.
    intros G B. destruct (gauss_returns x G B) as [w E]. unfold normal_cdf. rewrite E.
    pose proof asp_near as AN. pose proof (exact_near x G) as HX.
    assert (MX := mul_near _ _ _ _ _ _ (2317/10000) 37 (3 / 10 ^ 15) AN HX ltac:(unfold asp; apply Rabs_le; lra) B ltac:(lra) ltac:(lra) ltac:(lra)).
    pose proof (Rabs_le_inv _ _ B) as XB. pose proof one_near as ON.
    change (nleb (Num := N64) n0 x) with (SFleb f64_zero x). rewrite (leb_value f64_zero x zero_good G). change (v f64_zero) with 0.
    unfold Rleb. destruct (Rle_dec 0 (v x)) as [L|L].
    - change (nadd (n1 (Num := N64)) (nmul (as_p (N := N64)) x)) with (SFadd 53 1024 (f64_ofZ 1) (SFmul 53 1024 (f64_ratio 2316419 10000000) x)).
      assert (HD := add_near _ _ _ _ _ _ 10 (5 / 10 ^ 15) ON MX ltac:(unfold asp; apply Rabs_le; lra) ltac:(lra) ltac:(lra)).
      cbn [ndiv f64]. rewrite not_zero; [eexists; reflexivity|exact (proj1 HD)|]. pose proof (Rabs_le_inv _ _ (proj2 HD)). unfold asp in *. lra.
    - change (nsub (n1 (Num := N64)) (nmul (as_p (N := N64)) x)) with (SFsub 53 1024 (f64_ofZ 1) (SFmul 53 1024 (f64_ratio 2316419 10000000) x)).
      assert (HD := sub_near _ _ _ _ _ _ 10 (5 / 10 ^ 15) ON MX ltac:(unfold asp; apply Rabs_le; lra) ltac:(lra) ltac:(lra)).
      cbn [ndiv f64]. rewrite not_zero; [eexists; reflexivity|exact (proj1 HD)|]. pose proof (Rabs_le_inv _ _ (proj2 HD)). unfold asp in *. lra.
  Qed.

  Lemma sqrt_returns t : good t -> 0 < v t -> nsqrt (Num := N64) t = Ok (SFsqrt 53 1024 t).
  Proof.
    intros G P. cbn [nsqrt f64]. rewrite (ltb_value t f64_zero G zero_good). change (v f64_zero) with 0. unfold Rltb. destruct (Rlt_dec (v t) 0); [lra|reflexivity].
  Qed.

  (** the argument of the Bachelier formula *)
  Lemma bachelier_d_near t k f s S : good t -> good k -> good f -> good s -> 0 < v t -> 0 < v s <= 10 ^ 9 ->
    S = v s * sqrt (v t) -> 1 / 10 ^ 9 <= S <= 10 ^ 9 -> Rabs (v f - v k) <= 36 * S ->
    exists vol d, bachelier_d (N := N64) (Ok t) k f s = Ok (vol, d) /\ near vol S (3 / 10 ^ 16 * S) /\ near d ((v f - v k) / S) (1 / 10 ^ 13) /\
      Rabs ((v f - v k) / S) <= 36.
  Proof.
    intros Gt Gk Gf Gs Pt Ps SE SB AB. unfold bachelier_d. cbn [bind]. rewrite (sqrt_returns t Gt Pt). cbn [bind].
    assert (NS := sd_near lib t s _ S Gt Gs Pt Ps SE SB (sqrt_returns t Gt Pt)).
    change (nmul (Num := N64) s (SFsqrt 53 1024 t)) with (SFmul 53 1024 s (SFsqrt 53 1024 t)). set (vol := SFmul 53 1024 s (SFsqrt 53 1024 t)) in *.
    change (nsub (Num := N64) f k) with (SFsub 53 1024 f k). set (a := v f - v k) in *. pose proof (Rabs_pos a) as PA.
    assert (NA : near (SFsub 53 1024 f k) a (1 / 10 ^ 14 * S)).
    { apply (sub_wide _ _ _ _ 0 0 (Rabs a)); auto using exact_near; try (unfold a; lra); lra. }
    set (a' := SFsub 53 1024 f k) in *.
    assert (DB : Rabs (a / S) <= 36).
    { unfold Rdiv. rewrite Rabs_mult, (Rabs_right (/ S)) by (left; apply Rinv_0_lt_compat; lra).
      apply Rmult_le_reg_r with S; [lra|]. rewrite Rmult_assoc, Rinv_l by lra. lra. }
    cbn [ndiv f64]. rewrite not_zero; [|exact (proj1 NS)|pose proof (Rabs_le_inv _ _ (proj2 NS)); lra]. cbn [bind].
    exists vol, (SFdiv 53 1024 a' vol). split; [reflexivity|]. split; [exact NS|]. split; [|exact DB].
    assert (Q : 1 / 10 ^ 14 * S / S = 1 / 10 ^ 14) by (field; lra).
    apply (div_wide _ _ _ _ (1 / 10 ^ 14 * S) (3 / 10 ^ 16) 36); auto; try lra.
  Qed.

  (** the argument of the Black formula *)
  Hypothesis (LR : log_returns lib).
  Lemma black_d_returns t k f s S : good t -> good k -> good f -> good s -> 0 < v t -> 0 < v s <= 10 ^ 9 ->
    1 / 10 ^ 9 <= v f <= 10 ^ 9 -> 1 / 10 ^ 9 <= v k <= 10 ^ 9 -> S = v s * sqrt (v t) -> 1 / 10 ^ 3 <= S <= 10 ^ 9 ->
    exists vol d, black_d (N := N64) (Ok t) k f s = Ok (vol, d).
  Proof.
    intros Gt Gk Gf Gs Pt Ps BF BK SE SB. unfold black_d. cbn [bind]. rewrite (sqrt_returns t Gt Pt). cbn [bind].
    assert (NS := sd_near lib t s _ S Gt Gs Pt Ps SE ltac:(lra) (sqrt_returns t Gt Pt)).
    change (nmul (Num := N64) s (SFsqrt 53 1024 t)) with (SFmul 53 1024 s (SFsqrt 53 1024 t)). set (vol := SFmul 53 1024 s (SFsqrt 53 1024 t)) in *.
    assert (EQ : ndiv (Num := N64) f k = Ok (SFdiv 53 1024 f k)) by (cbn [ndiv f64]; rewrite not_zero; auto; lra).
    rewrite EQ. cbn [bind].
    assert (IK : 1 / 10 ^ 9 <= / v k <= 10 ^ 9).
    { split; [replace (1 / 10 ^ 9) with (/ 10 ^ 9) by (unfold Rdiv; ring); apply Rinv_le_contravar; lra|].
      replace (10 ^ 9) with (/ (1 / 10 ^ 9)) by field. apply Rinv_le_contravar; lra. }
    assert (R0 : 1 / 10 ^ 18 <= v f / v k <= 10 ^ 18).
    { unfold Rdiv at 2 3. split; [replace (1 / 10 ^ 18) with (1 / 10 ^ 9 * (1 / 10 ^ 9)) by lra|replace (10 ^ 18) with (10 ^ 9 * 10 ^ 9) by lra]; apply Rmult_le_compat; lra. }
    set (r := v f / v k) in *.
    assert (G : good (SFdiv 53 1024 f k)) by (apply div_good; auto; [lra|]; fold r; rewrite Rabs_right by lra; pose proof big_40; lra).
    destruct (div_round f k (proj1 Gf) (proj1 Gk) (proj2 Gk) ltac:(lra) (proj2 G)) as (_ & _ & VQ). fold r in VQ.
    pose proof (rnd_abs60 r) as RA. rewrite <- VQ, (Rabs_right r) in RA by lra. apply Rabs_le_inv in RA.
    destruct (LR (SFdiv 53 1024 f k) (proj1 G) (proj2 G) ltac:(lra)) as [l EL]. cbn [nlog f64]. rewrite EL. cbn [bind].
    assert (E2 : forall x, ndiv (Num := N64) x (n_ofZ (Num := N64) 2) = Ok (SFdiv 53 1024 x (f64_ofZ 2))) by reflexivity.
    rewrite E2. cbn [bind]. cbn [ndiv f64]. rewrite not_zero; [|exact (proj1 NS)|pose proof (Rabs_le_inv _ _ (proj2 NS)); lra]. cbn [bind]. eauto.
  Qed.
End Returns.

(** * the density hardly changes *)
Lemma peak z : Rabs (z * density z) <= 1.
Proof.
  rewrite Rabs_mult. pose proof (density_pos z) as DP. rewrite (Rabs_right (density z)) by lra.
  rewrite density_kap. pose proof kap_bounds as K. pose proof (Rabs_pos z) as A.
  assert (E : Rabs z * exp (- half_sq z) <= 1).
  { assert (Q : Rabs z <= exp (half_sq z)).
    { pose proof (exp_ineq1_le (half_sq z)) as X. assert (H : half_sq z = Rabs z * Rabs z / 2) by (unfold half_sq; rewrite <- Rabs_mult, Rabs_right by (apply Rle_ge, Rle_0_sqr); field). rewrite H in *. nra. }
    rewrite exp_Ropp. apply Rmult_le_reg_r with (exp (half_sq z)); [apply exp_pos|]. rewrite Rmult_assoc, Rinv_l by (pose proof (exp_pos (half_sq z)); lra). lra. }
  assert (0 < exp (- half_sq z)) by apply exp_pos.
  replace (Rabs z * (kap * exp (- half_sq z))) with (kap * (Rabs z * exp (- half_sq z))) by ring.
  assert (0 <= Rabs z * exp (- half_sq z)) by (apply Rmult_le_pos; lra). nra.
Qed.
Lemma density_lip x y : Rabs (density x - density y) <= Rabs (x - y).
Proof.
  assert (DD : forall z, derivable_pt_lim density z (- z * density z)) by (intros z; apply Coquelicot.Derive.is_derive_Reals; apply density_deriv).
  assert (G : forall a b, a < b -> Rabs (density b - density a) <= Rabs (b - a)).
  { intros a b L. destruct (mvt density (fun z => - z * density z) a b L) as (c & E & _); [intros; apply DD|]. rewrite E, Rabs_mult.
    replace (- c * density c) with (- (c * density c)) by ring. rewrite Rabs_Ropp. pose proof (peak c). pose proof (Rabs_pos (b - a)). nra. }
  destruct (Rtotal_order x y) as [L|[->|L]].
  - rewrite (Rabs_minus_sym x y), (Rabs_minus_sym (density x)). now apply G.
  - rewrite !Rminus_diag_eq by auto. lra.
  - now apply G.
Qed.
