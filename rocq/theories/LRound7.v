(** Absolute rounding errors, the normal distribution in double precision.  Used for C113. *)
From Coq Require Import ZArith Lia Reals Lra Psatz List Bool Floats.SpecFloat.
From Flocq Require Import Core Relative Plus_error BinarySingleNaN.
From Verif Require Import Num Py MDates MInterpolation MCurve MRateCurve MOption MFloat SOption SRound LBase LOption LNormal LSeries LRound LRound2 LRound3 LRound4 LRound5 LRound6.
Local Open Scope R_scope.
#[local] Existing Instances prec53 prec_emax.

(** a finite double which misses the number a by at most e *)
Definition near (x : float64) (a e : R) : Prop := good x /\ Rabs (v x - a) <= e.

Lemma unit_small : rounding_unit <= 12 / 10 ^ 17.
Proof. unfold rounding_unit. apply (Rmult_le_reg_l (2 ^ 53)); [apply pow_lt; lra|]. rewrite Rinv_r by (apply pow_nonzero; lra). lra. Qed.
Lemma tiny_small : tiny <= 1 / 10 ^ 30.
Proof.
  unfold tiny. apply Rle_trans with (powerRZ 2 (-110)); [apply small_pow; lia|]. change (powerRZ 2 (-110)) with (/ 2 ^ 110).
  apply (Rmult_le_reg_l (2 ^ 110)); [apply pow_lt; lra|]. rewrite Rinv_r by (apply pow_nonzero; lra). lra.
Qed.
Lemma rnd_abs x : Rabs (rnd x - x) <= Rabs x * (12 / 10 ^ 17) + 1 / 10 ^ 30.
Proof.
  destruct (rnd_error x) as (d & e & Hd & He & ->). replace (x * (1 + d) + e - x) with (x * d + e) by ring.
  eapply Rle_trans; [apply Rabs_triang|]. rewrite Rabs_mult. pose proof unit_small. pose proof tiny_small. pose proof (Rabs_pos x).
  apply Rplus_le_compat; [apply Rmult_le_compat_l; lra|lra].
Qed.
Lemma big_enough : 1000000 <= powerRZ 2 1023.
Proof. apply Rle_trans with (powerRZ 2 20); [change (powerRZ 2 20) with (2 ^ 20); lra|apply small_pow; lia]. Qed.
Lemma near_abs x a e A : near x a e -> Rabs a <= A -> Rabs (v x) <= A + e.
Proof. intros [_ H] HA. replace (v x) with (a + (v x - a)) by ring. eapply Rle_trans; [apply Rabs_triang|lra]. Qed.
Lemma near_nonneg x a e : near x a e -> 0 <= e.
Proof. intros [_ H]. eapply Rle_trans; [apply Rabs_pos|exact H]. Qed.
Lemma near_weak x a e e' : near x a e -> e <= e' -> near x a e'.
Proof. intros [G H] L. split; [exact G|lra]. Qed.

Lemma mul_near x y a b ea eb A B e : near x a ea -> near y b eb -> Rabs a <= A -> Rabs b <= B -> A + ea <= 1000 -> B + eb <= 1000 ->
  A * eb + B * ea + ea * eb + (A + ea) * (B + eb) * (12 / 10 ^ 17) + 1 / 10 ^ 30 <= e -> near (SFmul 53 1024 x y) (a * b) e.
Proof.
  intros Hx Hy HA HB LA LB L. pose proof (near_abs _ _ _ _ Hx HA) as VX. pose proof (near_abs _ _ _ _ Hy HB) as VY.
  pose proof (near_nonneg _ _ _ Hx) as PA. pose proof (near_nonneg _ _ _ Hy) as PB. pose proof (Rabs_pos a). pose proof (Rabs_pos b).
  pose proof (Rabs_pos (v x)). pose proof (Rabs_pos (v y)). destruct Hx as [Gx Ex], Hy as [Gy Ey].
  assert (PR : Rabs (v x * v y) <= (A + ea) * (B + eb)) by (rewrite Rabs_mult; apply Rmult_le_compat; lra).
  assert (BG : (A + ea) * (B + eb) <= 1000 * 1000) by (apply Rmult_le_compat; lra).
  assert (G : good (SFmul 53 1024 x y)) by (apply mul_good; auto; pose proof big_enough; lra).
  split; [exact G|]. destruct (mul_round x y (proj1 Gx) (proj1 Gy) (proj2 G)) as (_ & _ & _ & ->).
  replace (rnd (v x * v y) - a * b) with ((rnd (v x * v y) - v x * v y) + (a * (v y - b) + b * (v x - a) + (v x - a) * (v y - b))) by ring.
  eapply Rle_trans; [apply Rabs_triang|]. pose proof (rnd_abs (v x * v y)).
  assert (Rabs (a * (v y - b) + b * (v x - a) + (v x - a) * (v y - b)) <= A * eb + B * ea + ea * eb).
  { eapply Rle_trans; [apply Rabs_triang|]. apply Rplus_le_compat.
    - eapply Rle_trans; [apply Rabs_triang|]. rewrite !Rabs_mult. apply Rplus_le_compat; apply Rmult_le_compat; auto using Rabs_pos.
    - rewrite Rabs_mult. apply Rmult_le_compat; auto using Rabs_pos. }
  assert (Rabs (v x * v y) * (12 / 10 ^ 17) <= (A + ea) * (B + eb) * (12 / 10 ^ 17)) by (apply Rmult_le_compat_r; lra). lra.
Qed.
Lemma add_near x y a b ea eb A e : near x a ea -> near y b eb -> Rabs (a + b) <= A -> A + ea + eb <= 1000 ->
  ea + eb + (A + ea + eb) * (12 / 10 ^ 17) + 1 / 10 ^ 30 <= e -> near (SFadd 53 1024 x y) (a + b) e.
Proof.
  intros Hx Hy HA LA L. destruct Hx as [Gx Ex], Hy as [Gy Ey].
  assert (D : Rabs (v x + v y - (a + b)) <= ea + eb).
  { replace (v x + v y - (a + b)) with ((v x - a) + (v y - b)) by ring. eapply Rle_trans; [apply Rabs_triang|lra]. }
  assert (S : Rabs (v x + v y) <= A + ea + eb).
  { replace (v x + v y) with ((a + b) + (v x + v y - (a + b))) by ring. eapply Rle_trans; [apply Rabs_triang|lra]. }
  assert (G : good (SFadd 53 1024 x y)) by (apply add_good; auto; pose proof big_enough; lra).
  split; [exact G|]. destruct (add_round x y (proj1 Gx) (proj1 Gy) (proj2 G)) as (_ & _ & _ & ->).
  replace (rnd (v x + v y) - (a + b)) with ((rnd (v x + v y) - (v x + v y)) + (v x + v y - (a + b))) by ring.
  eapply Rle_trans; [apply Rabs_triang|]. pose proof (rnd_abs (v x + v y)).
  assert (Rabs (v x + v y) * (12 / 10 ^ 17) <= (A + ea + eb) * (12 / 10 ^ 17)) by (apply Rmult_le_compat_r; lra). lra.
Qed.
Lemma sub_near x y a b ea eb A e : near x a ea -> near y b eb -> Rabs (a - b) <= A -> A + ea + eb <= 1000 ->
  ea + eb + (A + ea + eb) * (12 / 10 ^ 17) + 1 / 10 ^ 30 <= e -> near (SFsub 53 1024 x y) (a - b) e.
Proof.
  intros Hx Hy HA LA L. destruct Hx as [Gx Ex], Hy as [Gy Ey].
  assert (D : Rabs (v x - v y - (a - b)) <= ea + eb).
  { replace (v x - v y - (a - b)) with ((v x - a) + - (v y - b)) by ring. eapply Rle_trans; [apply Rabs_triang|]. rewrite Rabs_Ropp. lra. }
  assert (S : Rabs (v x - v y) <= A + ea + eb).
  { replace (v x - v y) with ((a - b) + (v x - v y - (a - b))) by ring. eapply Rle_trans; [apply Rabs_triang|lra]. }
  assert (G : good (SFsub 53 1024 x y)) by (apply sub_good; auto; pose proof big_enough; lra).
  split; [exact G|]. destruct (sub_round x y (proj1 Gx) (proj1 Gy) (proj2 G)) as (_ & _ & _ & ->).
  replace (rnd (v x - v y) - (a - b)) with ((rnd (v x - v y) - (v x - v y)) + (v x - v y - (a - b))) by ring.
  eapply Rle_trans; [apply Rabs_triang|]. pose proof (rnd_abs (v x - v y)).
  assert (Rabs (v x - v y) * (12 / 10 ^ 17) <= (A + ea + eb) * (12 / 10 ^ 17)) by (apply Rmult_le_compat_r; lra). lra.
Qed.
(** the reciprocal of a number that is not below 1 *)
Lemma inv_near one x a ea e : good one -> v one = 1 -> near x a ea -> 1 <= a -> ea <= 1 / 10 ->
  12 / 10 * ea + 2 / 10 ^ 16 <= e -> near (SFdiv 53 1024 one x) (1 / a) e.
Proof.
  intros G1 V1 [Gx Ex] HA LE L. pose proof (Rabs_pos (v x - a)) as P0. assert (XB : a - ea <= v x <= a + ea) by (apply Rabs_le_inv in Ex; lra).
  assert (IA : / a <= 1) by (rewrite <- Rinv_1; apply Rinv_le_contravar; lra). assert (0 < / a) by (apply Rinv_0_lt_compat; lra).
  assert (IX : / v x <= 10 / 9). { replace (10 / 9) with (/ (9 / 10)) by field. apply Rinv_le_contravar; lra. }
  assert (0 < / v x) by (apply Rinv_0_lt_compat; lra).
  assert (D : Rabs (1 / v x - 1 / a) <= 12 / 10 * ea).
  { replace (1 / v x - 1 / a) with (- (v x - a) * (/ v x * / a)) by (field; lra). rewrite Rabs_mult, Rabs_Ropp, (Rabs_right (/ v x * / a)) by (apply Rle_ge, Rmult_le_pos; lra).
    assert (/ v x * / a <= 10 / 9 * 1) by (apply Rmult_le_compat; lra). assert (0 <= / v x * / a) by (apply Rmult_le_pos; lra).
    apply Rle_trans with (ea * (10 / 9 * 1)); [apply Rmult_le_compat; lra|lra]. }
  assert (B : Rabs (1 / v x) <= 10 / 9) by (unfold Rdiv; rewrite Rmult_1_l, Rabs_right; lra).
  assert (G : good (SFdiv 53 1024 one x)). { apply div_good; auto; [lra|]. rewrite V1. pose proof big_enough. lra. }
  split; [exact G|]. destruct (div_round one x (proj1 G1) (proj1 Gx) (proj2 Gx) ltac:(lra) (proj2 G)) as (_ & _ & ->). rewrite V1.
  replace (rnd (1 / v x) - 1 / a) with ((rnd (1 / v x) - 1 / v x) + (1 / v x - 1 / a)) by ring. eapply Rle_trans; [apply Rabs_triang|].
  pose proof (rnd_abs (1 / v x)). assert (Rabs (1 / v x) * (12 / 10 ^ 17) <= 10 / 9 * (12 / 10 ^ 17)) by (apply Rmult_le_compat_r; lra). lra.
Qed.
(** literals *)
Lemma ratio_near p q A e : (Z.abs p < 2 ^ 53)%Z -> (Z.pos q < 2 ^ 53)%Z -> Rabs (IZR p / IZR (Z.pos q)) <= A -> A <= 1000 ->
  A * (12 / 10 ^ 17) + 1 / 10 ^ 30 <= e -> near (f64_ratio p q) (IZR p / IZR (Z.pos q)) e.
Proof.
  intros HP HQ HA LA L. unfold f64_ratio. destruct (ofZ_good p HP) as [G1 V1]. destruct (ofZ_good (Z.pos q)) as [G2 V2]; [rewrite Z.abs_eq by lia; exact HQ|].
  assert (Q0 : 0 < IZR (Z.pos q)) by (apply IZR_lt; lia).
  assert (G : good (SFdiv 53 1024 (f64_ofZ p) (f64_ofZ (Z.pos q)))). { apply div_good; auto; [lra|]. rewrite V1, V2. pose proof big_enough. lra. }
  split; [exact G|]. destruct (div_round _ _ (proj1 G1) (proj1 G2) (proj2 G2) ltac:(lra) (proj2 G)) as (_ & _ & ->). rewrite V1, V2.
  eapply Rle_trans; [apply rnd_abs|]. assert (Rabs (IZR p / IZR (Z.pos q)) * (12 / 10 ^ 17) <= A * (12 / 10 ^ 17)) by (apply Rmult_le_compat_r; lra). lra.
Qed.

(** * the normal distribution *)
Lemma Q_low t : 1 / 100 <= Q t.
Proof.
  unfold Q. pose proof (Rle_0_sqr (t - 89/100)). pose proof (Rle_0_sqr (t * (t - 68/100))). unfold Rsqr in *. nra.
Qed.
Lemma between t s lo hi : 0 <= t <= 1 -> lo <= s <= hi -> lo <= 0 -> 0 <= hi -> lo <= t * s <= hi.
Proof. intros. nra. Qed.
Lemma abs_between x lo hi A : lo <= x <= hi -> - A <= lo -> hi <= A -> Rabs x <= A.
Proof. intros. apply Rabs_le. lra. Qed.
Lemma rnd_nonneg_mul x y : good (SFmul 53 1024 x y) -> is_double x -> is_double y -> 0 <= v x -> 0 <= v y -> 0 <= v (SFmul 53 1024 x y).
Proof. intros G Dx Dy X Y. destruct (mul_round x y Dx Dy (proj2 G)) as (_ & _ & _ & ->). apply rnd_nonneg. now apply Rmult_le_pos. Qed.

Lemma leb_value x y : good x -> good y -> SFleb x y = Rleb (v x) (v y).
Proof.
  intros Gx Gy. unfold SFleb. rewrite compare_value by auto.
  destruct (Rcompare_spec (v x) (v y)); symmetry; [apply Rleb_true|apply Rleb_true|apply Rleb_false]; lra.
Qed.

Section Normal.
  Variable lib : libm.
  #[local] Existing Instance Rnum | 10.
  Notation N64 := (f64 lib).

  Lemma poly_near r t : near r t (1 / 10 ^ 14) -> 0 <= t <= 1 ->
    near (as_poly (N := N64) r) (Pl t) (2 / 10 ^ 13) /\ (0 <= v r -> 0 <= v (as_poly (N := N64) r)).
  Proof.
    intros HR HT. assert (TB : Rabs t <= 1) by (apply Rabs_le; lra).
    change (as_poly (N := N64) r) with (SFmul 53 1024 r (SFadd 53 1024 (f64_ratio 31938153 100000000) (SFmul 53 1024 r (SFadd 53 1024 (f64_ratio (-356563782) 1000000000)
      (SFmul 53 1024 r (SFadd 53 1024 (f64_ratio 1781477937 1000000000) (SFmul 53 1024 r (SFadd 53 1024 (f64_ratio (-1821255978) 1000000000)
      (SFmul 53 1024 r (f64_ratio 1330274429 1000000000)))))))))).
    assert (B5 : near (f64_ratio 1330274429 1000000000) (1330274429 / 1000000000) (2 / 10 ^ 16)) by (apply (ratio_near _ _ (134/100)); try lia; try apply Rabs_le; lra).
    assert (B4 : near (f64_ratio (-1821255978) 1000000000) (-1821255978 / 1000000000) (3 / 10 ^ 16)) by (apply (ratio_near _ _ (183/100)); try lia; try apply Rabs_le; lra).
    assert (B3 : near (f64_ratio 1781477937 1000000000) (1781477937 / 1000000000) (3 / 10 ^ 16)) by (apply (ratio_near _ _ (179/100)); try lia; try apply Rabs_le; lra).
    assert (B2 : near (f64_ratio (-356563782) 1000000000) (-356563782 / 1000000000) (1 / 10 ^ 16)) by (apply (ratio_near _ _ (36/100)); try lia; try apply Rabs_le; lra).
    assert (B1 : near (f64_ratio 31938153 100000000) (31938153 / 100000000) (1 / 10 ^ 16)) by (apply (ratio_near _ _ (32/100)); try lia; try apply Rabs_le; lra).
    assert (M5 := mul_near _ _ _ _ _ _ 1 (134/100) (2 / 10 ^ 14) HR B5 TB ltac:(apply Rabs_le; lra) ltac:(lra) ltac:(lra) ltac:(lra)).
    pose proof (between t (1330274429 / 1000000000) 0 (134/100) HT ltac:(lra) ltac:(lra) ltac:(lra)) as I5. set (m5 := t * (1330274429 / 1000000000)) in *.
    assert (S4 := add_near _ _ _ _ _ _ 2 (3 / 10 ^ 14) B4 M5 ltac:(apply Rabs_le; lra) ltac:(lra) ltac:(lra)).
    assert (J4 : -183/100 <= -1821255978 / 1000000000 + m5 <= 0) by (unfold m5 in *; lra). set (s4 := -1821255978 / 1000000000 + m5) in *.
    assert (M4 := mul_near _ _ _ _ _ _ 1 (183/100) (5 / 10 ^ 14) HR S4 TB ltac:(apply Rabs_le; lra) ltac:(lra) ltac:(lra) ltac:(lra)).
    pose proof (between t s4 (-183/100) 0 HT J4 ltac:(lra) ltac:(lra)) as I4. set (m4 := t * s4) in *.
    assert (S3 := add_near _ _ _ _ _ _ 2 (6 / 10 ^ 14) B3 M4 ltac:(apply Rabs_le; lra) ltac:(lra) ltac:(lra)).
    assert (J3 : -5/100 <= 1781477937 / 1000000000 + m4 <= 179/100) by lra. set (s3 := 1781477937 / 1000000000 + m4) in *.
    assert (M3 := mul_near _ _ _ _ _ _ 1 (179/100) (8 / 10 ^ 14) HR S3 TB ltac:(apply Rabs_le; lra) ltac:(lra) ltac:(lra) ltac:(lra)).
    pose proof (between t s3 (-5/100) (179/100) HT J3 ltac:(lra) ltac:(lra)) as I3. set (m3 := t * s3) in *.
    assert (S2 := add_near _ _ _ _ _ _ 2 (9 / 10 ^ 14) B2 M3 ltac:(apply Rabs_le; lra) ltac:(lra) ltac:(lra)).
    assert (J2 : -41/100 <= -356563782 / 1000000000 + m3 <= 144/100) by lra. set (s2 := -356563782 / 1000000000 + m3) in *.
    assert (M2 := mul_near _ _ _ _ _ _ 1 (144/100) (11 / 10 ^ 14) HR S2 TB ltac:(apply Rabs_le; lra) ltac:(lra) ltac:(lra) ltac:(lra)).
    pose proof (between t s2 (-41/100) (144/100) HT J2 ltac:(lra) ltac:(lra)) as I2. set (m2 := t * s2) in *.
    assert (S1 := add_near _ _ _ _ _ _ 2 (12 / 10 ^ 14) B1 M2 ltac:(apply Rabs_le; lra) ltac:(lra) ltac:(lra)).
    assert (J1 : -1/10 <= 31938153 / 100000000 + m2 <= 176/100) by lra. set (s1 := 31938153 / 100000000 + m2) in *.
    assert (M1 := mul_near _ _ _ _ _ _ 1 (176/100) (2 / 10 ^ 13) HR S1 TB ltac:(apply Rabs_le; lra) ltac:(lra) ltac:(lra) ltac:(lra)).
    assert (QE : s1 = Q t) by (unfold s1, m2, s2, m3, s3, m4, s4, m5, Q; field).
    split; [replace (Pl t) with (t * s1) by (rewrite QE; reflexivity); exact M1|].
    intros VR. pose proof (Q_low t) as QL. rewrite <- QE in QL. pose proof (Rabs_le_inv _ _ (proj2 S1)).
    refine (rnd_nonneg_mul _ _ (proj1 M1) (proj1 (proj1 HR)) (proj1 (proj1 S1)) VR _). lra.
  Qed.

  Lemma small_exp : exp (1 / 10 ^ 12) <= 1 + 2 / 10 ^ 12.
  Proof.
    assert (E : exp (- (1 / 10 ^ 12)) >= 1 - 1 / 10 ^ 12). { pose proof (exp_ineq1_le (- (1 / 10 ^ 12))). lra. }
    rewrite exp_Ropp in E. pose proof (exp_pos (1 / 10 ^ 12)) as P. set (y := exp (1 / 10 ^ 12)) in *.
    assert (X : y * (1 - 1 / 10 ^ 12) <= 1). { apply Rle_trans with (y * / y); [apply Rmult_le_compat_l; lra|rewrite Rinv_r; lra]. } lra.
  Qed.
  (** the exponential of the code *)
  Lemma gauss_near eps x w : 0 <= eps -> exp_within lib eps -> good x -> Rabs (v x) <= 37 ->
    nexp (Num := N64) (nmul (Num := N64) (nmul (Num := N64) (nopp (Num := N64) (half (N := N64))) x) x) = Ok w ->
    near w (exp (- half_sq (v x))) (101 / 100 * eps + 2 / 10 ^ 12) /\ (eps <= 1 -> 0 <= v w).
  Proof.
    intros E0 EW GX BX E.
    assert (H : near (f64_ratio 1 2) (1 / 2) (1 / 10 ^ 16)) by (apply (ratio_near _ _ (1/2)); try lia; try apply Rabs_le; lra).
    destruct H as [GH EH]. destruct (opp_good _ GH) as [GO VO].
    assert (HO : near (SFopp (f64_ratio 1 2)) (- (1 / 2)) (1 / 10 ^ 16)).
    { split; [exact GO|]. rewrite VO. replace (- v (f64_ratio 1 2) - - (1 / 2)) with (- (v (f64_ratio 1 2) - 1 / 2)) by ring. now rewrite Rabs_Ropp. }
    assert (HX : near x (v x) 0) by (split; [exact GX|]; rewrite Rminus_diag_eq, Rabs_R0; auto; lra).
    assert (M1 := mul_near _ _ _ _ _ _ (1/2) 37 (1 / 10 ^ 14) HO HX ltac:(apply Rabs_le; lra) BX ltac:(lra) ltac:(lra) ltac:(lra)).
    assert (B1 : Rabs (- (1 / 2) * v x) <= 37 / 2). { rewrite Rabs_mult, Rabs_Ropp, (Rabs_right (1 / 2)) by lra. lra. }
    assert (M2 := mul_near _ _ _ _ _ _ (37/2) 37 (1 / 10 ^ 12) M1 HX B1 BX ltac:(lra) ltac:(lra) ltac:(lra)).
    replace (- (1 / 2) * v x * v x) with (- half_sq (v x)) in M2 by (unfold half_sq; field).
    assert (SQ : 0 <= half_sq (v x) <= 685).
    { unfold half_sq. pose proof (Rabs_le_inv _ _ BX). split; [nra|]. nra. }
    change (nexp (Num := N64) (SFmul 53 1024 (SFmul 53 1024 (SFopp (f64_ratio 1 2)) x) x) = Ok w) in E.
    destruct M2 as [G2 E2]. pose proof (Rabs_le_inv _ _ E2).
    destruct (exp_near lib eps _ w (- half_sq (v x)) (1 / 10 ^ 12) E0 EW G2 ltac:(lra) E2 E) as [GW EW2].
    pose proof (exp_pos (- half_sq (v x))) as EP. pose proof small_exp as SE. pose proof (exp_pos (1 / 10 ^ 12)) as EP2.
    assert (E1 : exp (- half_sq (v x)) <= 1). { rewrite <- exp_0. apply exp_mono. lra. }
    pose proof (exp_mono 0 (1 / 10 ^ 12) ltac:(lra)) as ME. rewrite exp_0 in ME.
    assert (KK : 0 <= (1 + eps) * exp (1 / 10 ^ 12) - 1 <= 101 / 100 * eps + 2 / 10 ^ 12) by nra.
    split.
    - split; [exact GW|]. eapply Rle_trans; [exact EW2|]. apply Rle_trans with (1 * ((1 + eps) * exp (1 / 10 ^ 12) - 1)); [apply Rmult_le_compat_r; lra|lra].
    - intros EL.
      assert (W0 : Rabs (v w - exp (v (SFmul 53 1024 (SFmul 53 1024 (SFopp (f64_ratio 1 2)) x) x))) <= eps * exp (v (SFmul 53 1024 (SFmul 53 1024 (SFopp (f64_ratio 1 2)) x) x))).
      { cbn [nexp f64] in E. set (z := SFmul 53 1024 (SFmul 53 1024 (SFopp (f64_ratio 1 2)) x) x) in *. destruct (SFeqb z f64_zero) eqn:Z.
        - apply (f_equal (fun z => match z with Ok b => b | Err _ => w end)) in E. cbv beta iota in E. rewrite <- E, one_value.
          rewrite (eqb_value z f64_zero G2 zero_good) in Z. apply Reqb_true in Z. rewrite Z. change (v f64_zero) with 0. rewrite exp_0.
          rewrite Rminus_diag_eq, Rabs_R0 by auto. lra.
        - destruct (EW z w (proj1 G2) (proj2 G2) ltac:(lra) E) as (_ & _ & K). exact K. }
      apply Rabs_le_inv in W0. set (q := exp (v _)) in *. assert (0 < q) by apply exp_pos. nra.
  Qed.

  Lemma cpi_near : near (f64_ratio 398942280401433 1000000000000000) cpi (1 / 10 ^ 16).
  Proof. unfold cpi. apply (ratio_near _ _ (4/10)); try lia; try apply Rabs_le; lra. Qed.
  Lemma asp_near : near (f64_ratio 2316419 10000000) asp (3 / 10 ^ 17).
  Proof. unfold asp. apply (ratio_near _ _ (2317/10000)); try lia; try apply Rabs_le; lra. Qed.
  Lemma phi_half x : phi x = cpi * exp (- half_sq x).
  Proof. unfold phi, cpi, half_sq. do 2 f_equal. field. Qed.
  Lemma gauss_le x : 0 < exp (- half_sq x) <= 1.
  Proof. split; [apply exp_pos|]. rewrite <- exp_0. apply exp_mono. unfold half_sq. pose proof (Rle_0_sqr x). unfold Rsqr in *. lra. Qed.
  Lemma one_near : near (f64_ofZ 1) 1 0.
  Proof. destruct (ofZ_good 1 ltac:(lia)) as [G1 _]. split; [exact G1|]. rewrite one_value, Rminus_diag_eq, Rabs_R0 by auto. lra. Qed.

  Lemma density_near eps x y : 0 <= eps <= 1/10 -> exp_within lib eps -> good x -> Rabs (v x) <= 37 ->
    normal_pdf (N := N64) x = Ok y -> near y (phi (v x)) (41 / 100 * eps + 1 / 10 ^ 12) /\ 0 <= v y.
  Proof.
    intros E0 EW GX BX E. unfold normal_pdf in E. destruct (nexp _) as [w|] eqn:EX; [|discriminate]. cbn [bind] in E.
    apply (f_equal (fun z => match z with Ok b => b | Err _ => y end)) in E. cbv beta iota in E. subst y.
    destruct (gauss_near eps x w (proj1 E0) EW GX BX EX) as [NW PW]. specialize (PW ltac:(lra)).
    change (nmul (one_over_sqrt_2pi (N := N64)) w) with (SFmul 53 1024 (f64_ratio 398942280401433 1000000000000000) w).
    pose proof (gauss_le (v x)) as GL. pose proof cpi_near as CN. rewrite phi_half.
    assert (M := mul_near _ _ _ _ _ _ (4/10) 1 (41 / 100 * eps + 1 / 10 ^ 12) CN NW ltac:(unfold cpi; apply Rabs_le; lra) ltac:(apply Rabs_le; lra) ltac:(lra) ltac:(lra) ltac:(lra)).
    split; [exact M|]. refine (rnd_nonneg_mul _ _ (proj1 M) (proj1 (proj1 CN)) (proj1 (proj1 NW)) _ PW).
    pose proof (Rabs_le_inv _ _ (proj2 CN)). unfold cpi in *. lra.
  Qed.

  Lemma tail_near eps x w den r : 0 <= eps <= 1/10 -> exp_within lib eps -> good x -> Rabs (v x) <= 37 ->
    nexp (Num := N64) (nmul (Num := N64) (nmul (Num := N64) (nopp (Num := N64) (half (N := N64))) x) x) = Ok w ->
    near den (1 + asp * Rabs (v x)) (5 / 10 ^ 15) -> ndiv (Num := N64) (n1 (Num := N64)) den = Ok r ->
    let p := SFmul 53 1024 (SFmul 53 1024 (f64_ratio 398942280401433 1000000000000000) w) (as_poly (N := N64) r) in
    near p (as_tail (Rabs (v x))) (53 / 100 * eps + 15 / 10 ^ 13) /\ 0 <= v p.
  Proof.
    intros E0 EW GX BX EX HD ER p.
    destruct (gauss_near eps x w (proj1 E0) EW GX BX EX) as [NW PW]. specialize (PW ltac:(lra)).
    pose proof (Rabs_pos (v x)) as AX. set (X := Rabs (v x)) in *.
    assert (DB : 1 <= 1 + asp * X <= 10) by (unfold asp; lra).
    assert (RR : r = SFdiv 53 1024 (f64_ofZ 1) den).
    { cbn [ndiv f64] in ER. destruct (SFeqb den f64_zero); [discriminate|].
      apply (f_equal (fun z => match z with Ok b => b | Err _ => r end)) in ER. cbv beta iota in ER. now rewrite <- ER. }
    assert (HR : near r (tt_ X) (1 / 10 ^ 14)).
    { rewrite RR. unfold tt_. apply (inv_near _ _ _ (5 / 10 ^ 15)); auto; try lra; [apply one_near|apply one_value]. }
    assert (TT : 1 / 10 <= tt_ X <= 1).
    { unfold tt_, Rdiv. rewrite !Rmult_1_l. split; [apply Rinv_le_contravar; lra|]. rewrite <- Rinv_1. apply Rinv_le_contravar; lra. }
    assert (RP : 0 <= v r) by (pose proof (Rabs_le_inv _ _ (proj2 HR)); lra).
    destruct (poly_near r (tt_ X) HR ltac:(lra)) as [HP PP]. specialize (PP RP).
    assert (PB : 0 <= Pl (tt_ X) <= 126/100).
    { split; [left; apply Pl_pos; lra|]. destruct (Req_dec (tt_ X) 1) as [->|NE]; [unfold Pl, Q; lra|].
      pose proof (Pl_incr (tt_ X) 1 ltac:(lra)). assert (Pl 1 <= 126/100) by (unfold Pl, Q; lra). lra. }
    pose proof (gauss_le (v x)) as GL. pose proof cpi_near as CN.
    assert (M := mul_near _ _ _ _ _ _ (4/10) 1 (41 / 100 * eps + 1 / 10 ^ 12) CN NW ltac:(unfold cpi; apply Rabs_le; lra) ltac:(apply Rabs_le; lra) ltac:(lra) ltac:(lra) ltac:(lra)).
    assert (PM : 0 <= v (SFmul 53 1024 (f64_ratio 398942280401433 1000000000000000) w)).
    { refine (rnd_nonneg_mul _ _ (proj1 M) (proj1 (proj1 CN)) (proj1 (proj1 NW)) _ PW). pose proof (Rabs_le_inv _ _ (proj2 CN)). unfold cpi in *. lra. }
    assert (CB : Rabs (cpi * exp (- half_sq (v x))) <= 4/10) by (unfold cpi; apply Rabs_le; lra).
    assert (M2 := mul_near _ _ _ _ _ _ (4/10) (126/100) (53 / 100 * eps + 15 / 10 ^ 13) M HP CB ltac:(apply Rabs_le; lra) ltac:(lra) ltac:(lra) ltac:(lra)).
    fold p in M2. split.
    - assert (HS : half_sq (v x) = half_sq X) by (unfold half_sq, X; rewrite <- Rabs_mult, Rabs_right; auto; apply Rle_ge, Rle_0_sqr).
      rewrite as_tail_eq, phi_half, <- HS. exact M2.
    - refine (rnd_nonneg_mul _ _ (proj1 M2) (proj1 (proj1 M)) (proj1 (proj1 HP)) PM PP).
  Qed.

  Lemma cdf_near eps x y : 0 <= eps <= 1/10 -> exp_within lib eps -> good x -> Rabs (v x) <= 37 ->
    normal_cdf (N := N64) x = Ok y -> near y (Phi (v x)) (53 / 100 * eps + 2 / 10 ^ 12) /\ 0 <= v y <= 1.
  Proof.
    intros E0 EW GX BX E. unfold normal_cdf in E. change (nleb (Num := N64) n0 x) with (SFleb f64_zero x) in E.
    rewrite (leb_value f64_zero x zero_good GX) in E. change (v f64_zero) with 0 in E.
    pose proof asp_near as AN. assert (HX : near x (v x) 0) by (split; [exact GX|]; rewrite Rminus_diag_eq, Rabs_R0; auto; lra).
    assert (MX := mul_near _ _ _ _ _ _ (2317/10000) 37 (3 / 10 ^ 15) AN HX ltac:(unfold asp; apply Rabs_le; lra) BX ltac:(lra) ltac:(lra) ltac:(lra)).
    pose proof (Rabs_le_inv _ _ BX) as XB. pose proof one_near as ON.
    assert (TT : forall z, 0 <= z -> 0 < as_tail z < 1/2). { intros z Hz. pose proof (as_tail_pos z Hz). pose proof (as_tail_half z Hz). lra. }
    unfold Rleb in E. destruct (Rle_dec 0 (v x)) as [L|L]; cbv iota in E.
    - change (nadd (n1 (Num := N64)) (nmul (as_p (N := N64)) x)) with (SFadd 53 1024 (f64_ofZ 1) (SFmul 53 1024 (f64_ratio 2316419 10000000) x)) in E.
      assert (HD := add_near _ _ _ _ _ _ 10 (5 / 10 ^ 15) ON MX ltac:(unfold asp; apply Rabs_le; lra) ltac:(lra) ltac:(lra)).
      replace (1 + asp * v x) with (1 + asp * Rabs (v x)) in HD by (now rewrite Rabs_right by lra).
      destruct (ndiv _ _) as [r|] eqn:ER in E; [|discriminate]. cbn [bind] in E. destruct (nexp _) as [w|] eqn:EX; [|discriminate]. cbn [bind] in E.
      destruct (tail_near eps x w _ r E0 EW GX BX EX HD ER) as [HT PT].
      apply (f_equal (fun z => match z with Ok b => b | Err _ => y end)) in E. cbv beta iota in E. subst y.
      set (p := SFmul 53 1024 (SFmul 53 1024 (f64_ratio 398942280401433 1000000000000000) w) (as_poly (N := N64) r)) in *.
      change (nsub (Num := N64) _ _) with (SFsub 53 1024 (f64_ofZ 1) p).
      specialize (TT (Rabs (v x)) (Rabs_pos _)). rewrite (Phi_nonneg (v x) L). rewrite (Rabs_right (v x)) in * by lra.
      assert (M := sub_near _ _ _ _ _ _ 1 (53 / 100 * eps + 2 / 10 ^ 12) ON HT ltac:(apply Rabs_le; lra) ltac:(lra) ltac:(lra)).
      split; [exact M|]. destruct (sub_round _ _ (proj1 (proj1 ON)) (proj1 (proj1 HT)) (proj2 (proj1 M))) as (_ & _ & _ & ->). fold p.
      rewrite one_value. pose proof (Rabs_le_inv _ _ (proj2 HT)). split; [apply rnd_nonneg; lra|]. apply Rle_trans with (rnd 1); [apply rnd_le; lra|rewrite rnd_1; lra].
    - change (nsub (n1 (Num := N64)) (nmul (as_p (N := N64)) x)) with (SFsub 53 1024 (f64_ofZ 1) (SFmul 53 1024 (f64_ratio 2316419 10000000) x)) in E.
      assert (HD := sub_near _ _ _ _ _ _ 10 (5 / 10 ^ 15) ON MX ltac:(unfold asp; apply Rabs_le; lra) ltac:(lra) ltac:(lra)).
      replace (1 - asp * v x) with (1 + asp * Rabs (v x)) in HD by (rewrite Rabs_left by lra; ring).
      destruct (ndiv _ _) as [r|] eqn:ER in E; [|discriminate]. cbn [bind] in E. destruct (nexp _) as [w|] eqn:EX; [|discriminate]. cbn [bind] in E.
      destruct (tail_near eps x w _ r E0 EW GX BX EX HD ER) as [HT PT].
      apply (f_equal (fun z => match z with Ok b => b | Err _ => y end)) in E. cbv beta iota in E. subst y.
      set (p := SFmul 53 1024 (SFmul 53 1024 (f64_ratio 398942280401433 1000000000000000) w) (as_poly (N := N64) r)) in *.
      change (nmul (Num := N64) _ _) with p.
      specialize (TT (Rabs (v x)) (Rabs_pos _)). rewrite (Phi_neg (v x)) by lra. rewrite (Rabs_left (v x)) in * by lra.
      pose proof (Rabs_le_inv _ _ (proj2 HT)). split; [eapply near_weak; [exact HT|lra]|lra].
  Qed.
End Normal.
