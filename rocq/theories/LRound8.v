(** Option values in double precision.  Used for C114. *)
From Coq Require Import ZArith Lia Reals Lra Psatz List Bool Floats.SpecFloat.
From Flocq Require Import Core Relative Plus_error BinarySingleNaN.
From Verif Require Import Num Py MDates MInterpolation MCurve MRateCurve MOption MFloat SOption SNormal SRound SRound2
  LBase LOption LNormal LSeries LGauss LExpect LRound LRound2 LRound3 LRound4 LRound5 LRound6 LRound7 PNormal PExpect.
Local Open Scope R_scope.
#[local] Existing Instances prec53 prec_emax.

(** * square roots *)
Lemma sqrt_eq (x : B64) : SFsqrt 53 1024 (B2SF x) = B2SF (Bsqrt mode_NE x).
Proof.
  destruct x as [sx|[]| |[] mx ex Bx]; try (now trivial).
  cbn. rewrite B2SF_SF2B. destruct (SFsqrt_core_binary _ _ _ _) as [[mz ez] lz]. apply round_aux_eq.
Qed.
Lemma sqrt_good x : good x -> 0 <= v x -> good (SFsqrt 53 1024 x) /\ v (SFsqrt 53 1024 x) = rnd (sqrt (v x)).
Proof.
  intros [D F] P. destruct (double_B x D) as [b <-]. rewrite sqrt_eq, !B_value in *. apply B_finite in F.
  pose proof (Bsqrt_correct 53 1024 _ _ mode_NE b) as (C1 & C2 & _). split; [|exact C1]. split; [apply B_double|]. apply B_finite. rewrite C2.
  destruct b as [s|s| |[] m e B]; try discriminate; auto. exfalso. cbn in P.
  pose proof (F2R_lt_0 radix2 (Float radix2 (Z.neg m) e) ltac:(cbn; lia)). unfold F2R in *; cbn in *; lra.
Qed.

(** * absolute errors without a bound on the size *)
Lemma tiny_60 : tiny <= 1 / 10 ^ 60.
Proof.
  unfold tiny. apply Rle_trans with (powerRZ 2 (-210)); [apply small_pow; lia|]. change (powerRZ 2 (-210)) with (/ 2 ^ 210).
  apply (Rmult_le_reg_l (2 ^ 210)); [apply pow_lt; lra|]. rewrite Rinv_r by (apply pow_nonzero; lra). lra.
Qed.
Lemma rnd_abs60 x : Rabs (rnd x - x) <= Rabs x * (12 / 10 ^ 17) + 1 / 10 ^ 60.
Proof.
  destruct (rnd_error x) as (d & e & Hd & He & ->). replace (x * (1 + d) + e - x) with (x * d + e) by ring.
  eapply Rle_trans; [apply Rabs_triang|]. rewrite Rabs_mult. pose proof unit_small. pose proof tiny_60. pose proof (Rabs_pos x).
  apply Rplus_le_compat; [apply Rmult_le_compat_l; lra|lra].
Qed.
Lemma big_40 : 10 ^ 40 <= powerRZ 2 1023.
Proof. apply Rle_trans with (powerRZ 2 140); [change (powerRZ 2 140) with (2 ^ 140); lra|apply small_pow; lia]. Qed.
Lemma mul_wide x y a b ea eb A B e : near x a ea -> near y b eb -> Rabs a <= A -> Rabs b <= B -> (A + ea) * (B + eb) <= 10 ^ 40 ->
  A * eb + B * ea + ea * eb + (A + ea) * (B + eb) * (12 / 10 ^ 17) + 1 / 10 ^ 60 <= e -> near (SFmul 53 1024 x y) (a * b) e.
Proof.
  intros Hx Hy HA HB LA L. pose proof (near_abs _ _ _ _ Hx HA). pose proof (near_abs _ _ _ _ Hy HB). pose proof (near_nonneg _ _ _ Hx). pose proof (near_nonneg _ _ _ Hy).
  pose proof (Rabs_pos (v x)). pose proof (Rabs_pos (v y)). destruct Hx as [Gx Ex], Hy as [Gy Ey].
  assert (PR : Rabs (v x * v y) <= (A + ea) * (B + eb)) by (rewrite Rabs_mult; apply Rmult_le_compat; lra).
  assert (G : good (SFmul 53 1024 x y)) by (apply mul_good; auto; pose proof big_40; lra).
  split; [exact G|]. destruct (mul_round x y (proj1 Gx) (proj1 Gy) (proj2 G)) as (_ & _ & _ & ->).
  replace (rnd (v x * v y) - a * b) with ((rnd (v x * v y) - v x * v y) + (a * (v y - b) + b * (v x - a) + (v x - a) * (v y - b))) by ring.
  eapply Rle_trans; [apply Rabs_triang|]. pose proof (rnd_abs60 (v x * v y)).
  assert (Rabs (a * (v y - b) + b * (v x - a) + (v x - a) * (v y - b)) <= A * eb + B * ea + ea * eb).
  { eapply Rle_trans; [apply Rabs_triang|]. apply Rplus_le_compat.
    - eapply Rle_trans; [apply Rabs_triang|]. rewrite !Rabs_mult. apply Rplus_le_compat; apply Rmult_le_compat; auto using Rabs_pos.
    - rewrite Rabs_mult. apply Rmult_le_compat; auto using Rabs_pos. }
  assert (Rabs (v x * v y) * (12 / 10 ^ 17) <= (A + ea) * (B + eb) * (12 / 10 ^ 17)) by (apply Rmult_le_compat_r; lra). lra.
Qed.
Lemma add_wide x y a b ea eb A e : near x a ea -> near y b eb -> Rabs (a + b) <= A -> A + ea + eb <= 10 ^ 40 ->
  ea + eb + (A + ea + eb) * (12 / 10 ^ 17) + 1 / 10 ^ 60 <= e -> near (SFadd 53 1024 x y) (a + b) e.
Proof.
  intros Hx Hy HA LA L. destruct Hx as [Gx Ex], Hy as [Gy Ey].
  assert (D : Rabs (v x + v y - (a + b)) <= ea + eb).
  { replace (v x + v y - (a + b)) with ((v x - a) + (v y - b)) by ring. eapply Rle_trans; [apply Rabs_triang|lra]. }
  assert (S : Rabs (v x + v y) <= A + ea + eb).
  { replace (v x + v y) with ((a + b) + (v x + v y - (a + b))) by ring. eapply Rle_trans; [apply Rabs_triang|lra]. }
  assert (G : good (SFadd 53 1024 x y)) by (apply add_good; auto; pose proof big_40; lra).
  split; [exact G|]. destruct (add_round x y (proj1 Gx) (proj1 Gy) (proj2 G)) as (_ & _ & _ & ->).
  replace (rnd (v x + v y) - (a + b)) with ((rnd (v x + v y) - (v x + v y)) + (v x + v y - (a + b))) by ring.
  eapply Rle_trans; [apply Rabs_triang|]. pose proof (rnd_abs60 (v x + v y)).
  assert (Rabs (v x + v y) * (12 / 10 ^ 17) <= (A + ea + eb) * (12 / 10 ^ 17)) by (apply Rmult_le_compat_r; lra). lra.
Qed.
Lemma sub_wide x y a b ea eb A e : near x a ea -> near y b eb -> Rabs (a - b) <= A -> A + ea + eb <= 10 ^ 40 ->
  ea + eb + (A + ea + eb) * (12 / 10 ^ 17) + 1 / 10 ^ 60 <= e -> near (SFsub 53 1024 x y) (a - b) e.
Proof.
  intros Hx Hy HA LA L. destruct Hx as [Gx Ex], Hy as [Gy Ey].
  assert (D : Rabs (v x - v y - (a - b)) <= ea + eb).
  { replace (v x - v y - (a - b)) with ((v x - a) + - (v y - b)) by ring. eapply Rle_trans; [apply Rabs_triang|rewrite Rabs_Ropp; lra]. }
  assert (S : Rabs (v x - v y) <= A + ea + eb).
  { replace (v x - v y) with ((a - b) + (v x - v y - (a - b))) by ring. eapply Rle_trans; [apply Rabs_triang|lra]. }
  assert (G : good (SFsub 53 1024 x y)) by (apply sub_good; auto; pose proof big_40; lra).
  split; [exact G|]. destruct (sub_round x y (proj1 Gx) (proj1 Gy) (proj2 G)) as (_ & _ & _ & ->).
  replace (rnd (v x - v y) - (a - b)) with ((rnd (v x - v y) - (v x - v y)) + (v x - v y - (a - b))) by ring.
  eapply Rle_trans; [apply Rabs_triang|]. pose proof (rnd_abs60 (v x - v y)).
  assert (Rabs (v x - v y) * (12 / 10 ^ 17) <= (A + ea + eb) * (12 / 10 ^ 17)) by (apply Rmult_le_compat_r; lra). lra.
Qed.
Lemma exact_near x : good x -> near x (v x) 0.
Proof. intros G. split; [exact G|]. rewrite Rminus_diag_eq, Rabs_R0 by auto. lra. Qed.
(** division by a number of relative error [eb] *)
Lemma div_wide x y a b ea eb C e : near x a ea -> near y b (eb * b) -> 0 < b -> 0 <= eb <= 1 / 10 -> Rabs (a / b) <= C -> 
  let q := 12 / 10 * (ea / b + C * eb) in C + q <= 10 ^ 40 ->
  q + (C + q) * (12 / 10 ^ 17) + 1 / 10 ^ 60 <= e -> near (SFdiv 53 1024 x y) (a / b) e.
Proof.
  intros Hx Hy PB HE HC q LC L. pose proof (near_nonneg _ _ _ Hx) as E0. destruct Hx as [Gx Ex], Hy as [Gy Ey].
  assert (YB : b * (9 / 10) <= v y) by (apply Rabs_le_inv in Ey; nra). assert (YP : 0 < v y) by lra.
  assert (D : Rabs (v x / v y - a / b) <= q).
  { replace (v x / v y - a / b) with (((v x - a) / b + (a / b) * - ((v y - b) / b)) * (b / v y)) by (field; lra).
    rewrite Rabs_mult. unfold q. rewrite (Rmult_comm (12 / 10)). apply Rmult_le_compat; try apply Rabs_pos.
    - eapply Rle_trans; [apply Rabs_triang|]. unfold Rdiv. rewrite !Rabs_mult, Rabs_Ropp, !Rabs_mult, (Rabs_right (/ b)) by (left; now apply Rinv_0_lt_compat).
      assert (IB : 0 < / b) by now apply Rinv_0_lt_compat.
      apply Rplus_le_compat; [apply Rmult_le_compat_r; lra|]. apply Rmult_le_compat.
      + apply Rmult_le_pos; [apply Rabs_pos|lra].
      + apply Rmult_le_pos; [apply Rabs_pos|lra].
      + unfold Rdiv in HC. rewrite Rabs_mult, (Rabs_right (/ b)) in HC by lra. exact HC.
      + apply Rle_trans with (eb * b * / b); [apply Rmult_le_compat_r; lra|]. rewrite Rmult_assoc, Rinv_r by lra. lra.
    - rewrite Rabs_right by (apply Rle_ge; left; now apply Rdiv_lt_0_compat). apply Rmult_le_reg_r with (v y); auto.
      unfold Rdiv. rewrite Rmult_assoc, Rinv_l by lra. lra. }
  assert (S : Rabs (v x / v y) <= C + q).
  { replace (v x / v y) with ((a / b) + (v x / v y - a / b)) by ring. eapply Rle_trans; [apply Rabs_triang|lra]. }
  assert (G : good (SFdiv 53 1024 x y)) by (apply div_good; auto; [lra|]; pose proof big_40; lra).
  split; [exact G|]. destruct (div_round x y (proj1 Gx) (proj1 Gy) (proj2 Gy) ltac:(lra) (proj2 G)) as (_ & _ & ->).
  replace (rnd (v x / v y) - a / b) with ((rnd (v x / v y) - v x / v y) + (v x / v y - a / b)) by ring.
  eapply Rle_trans; [apply Rabs_triang|]. pose proof (rnd_abs60 (v x / v y)).
  assert (Rabs (v x / v y) * (12 / 10 ^ 17) <= (C + q) * (12 / 10 ^ 17)) by (apply Rmult_le_compat_r; lra). lra.
Qed.

(** * the expected payoff hardly depends on where the distribution function is evaluated *)
Lemma density_le x : 0 < density x <= 2 / 5.
Proof.
  split; [apply density_pos|]. rewrite density_kap. pose proof kap_bounds as K. pose proof (gauss_le x) as G. nra.
Qed.
Lemma bach_flat N S D x : normal_distribution N -> 0 < S -> Rabs (x - D) <= 1 ->
  Rabs ((S * D * N x + S * density x) - (S * D * N D + S * density D)) <= S * (x - D) ^ 2.
Proof.
  intros HN HS HX.
  set (g := fun z => S * D * N z + S * density z). set (g' := fun z => S * D * density z + S * (- z * density z)).
  assert (DG : forall z, derivable_pt_lim g z (g' z)).
  { intros z. unfold g, g'. apply (derivable_pt_lim_plus (fun z => S * D * N z) (fun z => S * density z)).
    - apply (derivable_pt_lim_scal N). apply HN.
    - apply (derivable_pt_lim_scal density). apply Coquelicot.Derive.is_derive_Reals. apply density_deriv. }
  assert (BD : forall z, Rabs (z - D) <= Rabs (x - D) -> Rabs (g' z) <= S * Rabs (x - D)).
  { intros z Hz. unfold g'. replace (S * D * density z + S * (- z * density z)) with (S * (- (z - D) * density z)) by ring.
    rewrite !Rabs_mult, Rabs_Ropp, (Rabs_right S) by lra. pose proof (density_le z) as DL. rewrite (Rabs_right (density z)) by lra.
    apply Rmult_le_compat_l; [lra|]. pose proof (Rabs_pos (z - D)). nra. }
  change (Rabs (g x - g D) <= S * (x - D) ^ 2).
  replace (S * (x - D) ^ 2) with (S * Rabs (x - D) * Rabs (x - D)) by (rewrite Rmult_assoc, <- Rabs_mult, Rabs_right; [ring|apply Rle_ge, Rle_0_sqr]).
  destruct (Rtotal_order x D) as [L|[->|L]].
  - destruct (mvt g g' x D L) as (c & E & C); [intros; apply DG|]. rewrite <- Rabs_Ropp. replace (- (g x - g D)) with (g D - g x) by ring. rewrite E, Rabs_mult.
    rewrite (Rabs_minus_sym D x). apply Rmult_le_compat_r; [apply Rabs_pos|]. apply BD. rewrite !(Rabs_left (_ - D)) by lra. lra.
  - rewrite Rminus_diag_eq, Rabs_R0 by auto. rewrite Rminus_diag_eq, Rabs_R0 by auto. lra.
  - destruct (mvt g g' D x L) as (c & E & C); [intros; apply DG|]. rewrite E, Rabs_mult.
    apply Rmult_le_compat_r; [apply Rabs_pos|]. apply BD. rewrite !(Rabs_right (_ - D)) by lra. lra.
Qed.

Section Prices.
  Variables (lib : libm) (eps : R) (N : R -> R).
  Hypotheses (E0 : 0 <= eps <= 1 / 10) (EW : exp_within lib eps) (HN : normal_distribution N).
  Notation N64 := (f64 lib).
  Let ec := 75 / 10 ^ 9 + 53 / 100 * eps + 2 / 10 ^ 12.
  Let ep := 41 / 100 * eps + 11 / 10 ^ 13.

  Lemma cdf64 x y : good x -> Rabs (v x) <= 37 -> normal_cdf (N := N64) x = Ok y -> near y (N (v x)) ec.
  Proof.
    intros G B E. destruct (cdf_near lib eps x y E0 EW G B E) as [[Gy By] _]. split; [exact Gy|].
    pose proof (cdf_error N HN (v x)) as CE. apply Rabs_def2 in CE. apply Rabs_le_inv in By. unfold ec. apply Rabs_le; lra.
  Qed.
  Lemma pdf64 x y : good x -> Rabs (v x) <= 37 -> normal_pdf (N := N64) x = Ok y -> near y (density (v x)) ep.
  Proof.
    intros G B E. destruct (density_near lib eps x y E0 EW G B E) as [[Gy By] _]. split; [exact Gy|].
    pose proof (pdf_error (v x)) as CE. apply Rabs_le_inv in CE. apply Rabs_le_inv in By. unfold ep. apply Rabs_le; lra.
  Qed.

  (** standard deviations *)
  Lemma sd_near t s w S : good t -> good s -> 0 < v t -> 0 < v s <= 10 ^ 9 -> S = v s * sqrt (v t) -> 1 / 10 ^ 9 <= S <= 10 ^ 9 ->
    nsqrt (Num := N64) t = Ok w -> near (SFmul 53 1024 s w) S (3 / 10 ^ 16 * S).
  Proof.
    intros Gt Gs Pt Ps SE SB E. cbn [nsqrt f64] in E. destruct (SFltb t f64_zero); [discriminate|].
    apply (f_equal (fun z => match z with Ok b => b | Err _ => w end)) in E. cbv beta iota in E. subst w.
    destruct (sqrt_good t Gt ltac:(lra)) as [GW VW]. pose proof (sqrt_lt_R0 (v t) Pt) as SP.
    assert (NW : near (SFsqrt 53 1024 t) (sqrt (v t)) (sqrt (v t) * (12 / 10 ^ 17) + 1 / 10 ^ 60)).
    { split; [exact GW|]. rewrite VW. pose proof (rnd_abs60 (sqrt (v t))) as RA. rewrite (Rabs_right (sqrt (v t))) in RA by lra. exact RA. }
    rewrite SE. apply (mul_wide _ _ _ _ 0 (sqrt (v t) * (12 / 10 ^ 17) + 1 / 10 ^ 60) (v s) (sqrt (v t))); auto using exact_near.
    - rewrite Rabs_right; lra.
    - rewrite Rabs_right; lra.
    - rewrite SE in SB. lra.
    - rewrite SE in SB. lra.
  Qed.

  Lemma bachelier_near t k f s y S : good t -> good k -> good f -> good s -> 0 < v t -> 0 < v s <= 10 ^ 9 ->
    S = v s * sqrt (v t) -> 1 / 10 ^ 9 <= S <= 10 ^ 9 -> Rabs (v f - v k) <= 36 * S ->
    normal_price (N := N64) (Ok t) k f s = Ok y ->
    near y ((v f - v k) * N ((v f - v k) / S) + S * density ((v f - v k) / S))
         (Rabs (v f - v k) * ec + S * (41 / 100 * eps + 14 / 10 ^ 13)).
  Proof.
    intros Gt Gk Gf Gs Pt Ps SE SB AB E. unfold normal_price, bachelier_d in E. cbn [bind] in E.
    destruct (nsqrt t) as [w|] eqn:EQ; [|discriminate]. cbn [bind] in E.
    assert (NS := sd_near t s w S Gt Gs Pt Ps SE SB EQ).
    change (nmul (Num := N64) s w) with (SFmul 53 1024 s w) in E. set (vol := SFmul 53 1024 s w) in *.
    change (nsub (Num := N64) f k) with (SFsub 53 1024 f k) in E.
    set (a := v f - v k) in *. pose proof (Rabs_pos a) as PA.
    assert (NA : near (SFsub 53 1024 f k) a (1 / 10 ^ 14 * S)).
    { apply (sub_wide _ _ _ _ 0 0 (Rabs a)); auto using exact_near; try (unfold a; lra); lra. }
    set (a' := SFsub 53 1024 f k) in *.
    destruct (ndiv a' vol) as [d|] eqn:ED; [|discriminate]. cbn [bind] in E.
    assert (DE : d = SFdiv 53 1024 a' vol).
    { cbn [ndiv f64] in ED. destruct (SFeqb vol f64_zero); [discriminate|].
      apply (f_equal (fun z => match z with Ok b => b | Err _ => d end)) in ED. cbv beta iota in ED. now rewrite <- ED. }
    assert (DB : Rabs (a / S) <= 36).
    { unfold Rdiv. rewrite Rabs_mult, (Rabs_right (/ S)) by (left; apply Rinv_0_lt_compat; lra).
      apply Rmult_le_reg_r with S; [lra|]. rewrite Rmult_assoc, Rinv_l by lra. lra. }
    assert (ND : near d (a / S) (1 / 10 ^ 13)).
    { rewrite DE. assert (Q : 1 / 10 ^ 14 * S / S = 1 / 10 ^ 14) by (field; lra).
      apply (div_wide _ _ _ _ (1 / 10 ^ 14 * S) (3 / 10 ^ 16) 36); auto; try lra. }
    assert (D37 : Rabs (v d) <= 37) by (pose proof (near_abs _ _ _ _ ND DB); lra).
    destruct (normal_cdf d) as [c|] eqn:EC; [|discriminate]. cbn [bind] in E. destruct (normal_pdf d) as [p|] eqn:EP; [|discriminate]. cbn [bind] in E.
    apply (f_equal (fun z => match z with Ok b => b | Err _ => y end)) in E. cbv beta iota in E. subst y.
    assert (NC := cdf64 d c (proj1 ND) D37 EC). assert (NP := pdf64 d p (proj1 ND) D37 EP).
    change (nadd (Num := N64) _ _) with (SFadd 53 1024 (SFmul 53 1024 a' c) (SFmul 53 1024 vol p)).
    pose proof (N_range N HN (v d)) as NR. pose proof (density_le (v d)) as DL.
    assert (C0 : 0 <= ec <= 6 / 100) by (unfold ec; lra). assert (P0 : 0 <= ep <= 5 / 100) by (unfold ep; lra).
    assert (SC : 0 <= S * ec <= S * (6 / 100)) by nra. assert (SP : 0 <= S * ep <= S * (5 / 100)) by nra.
    assert (AC : 0 <= Rabs a * ec <= 36 * S * (6 / 100)) by nra.
    assert (M1 : near (SFmul 53 1024 a' c) (a * N (v d)) (Rabs a * ec + S * (2 / 10 ^ 14))).
    { apply (mul_wide _ _ _ _ (1 / 10 ^ 14 * S) ec (Rabs a) 1); auto; try lra. rewrite Rabs_right; lra. }
    assert (M2 : near (SFmul 53 1024 vol p) (S * density (v d)) (S * ep + S * (1 / 10 ^ 15))).
    { apply (mul_wide _ _ _ _ (3 / 10 ^ 16 * S) ep S (2 / 5)); auto; try lra; rewrite Rabs_right; lra. }
    assert (AN : Rabs (a * N (v d)) <= Rabs a). { rewrite Rabs_mult, (Rabs_right (N (v d))) by lra. nra. }
    assert (SD : Rabs (S * density (v d)) <= S). { rewrite Rabs_right by nra. nra. }
    assert (TB : Rabs (a * N (v d) + S * density (v d)) <= 37 * S) by (eapply Rle_trans; [apply Rabs_triang|lra]).
    assert (M3 : near (SFadd 53 1024 (SFmul 53 1024 a' c) (SFmul 53 1024 vol p)) (a * N (v d) + S * density (v d)) (Rabs a * ec + S * ep + S * (4 / 10 ^ 14))).
    { eapply (add_wide _ _ _ _ _ _ (37 * S)); [exact M1|exact M2|exact TB|lra|lra]. }
    split; [apply M3|]. destruct M3 as [_ B3].
    assert (AD : a = S * (a / S)) by (field; lra).
    pose proof (proj2 ND) as BD.
    assert (FL := bach_flat N S (a / S) (v d) HN ltac:(lra) ltac:(lra)). rewrite <- AD in FL.
    assert (SQ : S * (v d - a / S) ^ 2 <= S * (1 / 10 ^ 26)).
    { apply Rmult_le_compat_l; [lra|]. rewrite <- (pow2_abs (v d - a / S)). replace (1 / 10 ^ 26) with ((1 / 10 ^ 13) ^ 2) by lra. apply pow_incr. split; [apply Rabs_pos|exact BD]. }
    apply Rabs_le_inv in B3. apply Rabs_le_inv in FL. unfold ep in *. apply Rabs_le. lra.
  Qed.

  (** * Black 76 *)
  Variable eta : R.
  Hypotheses (H0 : 0 <= eta <= 1 / 100) (LW : log_within lib eta).
  Lemma ln_le x : 0 < x -> ln x <= x - 1.
  Proof.
    intros P. pose proof (exp_ineq1_le (x - 1)) as X. replace (1 + (x - 1)) with x in X by ring.
    apply Rle_trans with (ln (exp (x - 1))); [|rewrite ln_exp; lra]. destruct X as [X|X]; [left; now apply ln_increasing|rewrite <- X; lra].
  Qed.
  Lemma ln_small z : Rabs z <= 1 / 2 -> Rabs (ln (1 + z)) <= 2 * Rabs z.
  Proof.
    intros B. pose proof (Rabs_le_inv _ _ B) as B'. pose proof (ln_le (1 + z) ltac:(lra)) as U.
    pose proof (ln_le (/ (1 + z)) ltac:(apply Rinv_0_lt_compat; lra)) as L. rewrite ln_Rinv in L by lra.
    assert (Q : / (1 + z) - 1 = - z * / (1 + z)) by (field; lra). rewrite Q in L.
    assert (IB : 0 < / (1 + z) <= 2). { split; [apply Rinv_0_lt_compat; lra|]. replace 2 with (/ (1 / 2)) by field. apply Rinv_le_contravar; lra. }
    assert (X : - z * / (1 + z) <= 2 * Rabs z). { pose proof (Rle_abs (- z)) as RL. rewrite Rabs_Ropp in RL. pose proof (Rabs_pos z). nra. }
    pose proof (Rle_abs z). pose proof (Rabs_pos z). apply Rabs_le. lra.
  Qed.
  Lemma N_lip x y : Rabs (N x - N y) <= 2 / 5 * Rabs (x - y).
  Proof.
    destruct (Rtotal_order x y) as [L|[->|L]].
    - destruct (mvt N density x y L) as (c & E & _); [intros; apply HN|]. rewrite <- Rabs_Ropp, (Rabs_minus_sym x y). replace (- (N x - N y)) with (N y - N x) by ring.
      rewrite E, Rabs_mult. pose proof (density_le c). rewrite (Rabs_right (density c)) by lra. apply Rmult_le_compat_r; [apply Rabs_pos|lra].
    - rewrite !Rminus_diag_eq by auto. rewrite Rabs_R0. lra.
    - destruct (mvt N density y x L) as (c & E & _); [intros; apply HN|].
      rewrite E, Rabs_mult. pose proof (density_le c). rewrite (Rabs_right (density c)) by lra. apply Rmult_le_compat_r; [apply Rabs_pos|lra].
  Qed.

  Lemma log_ratio_near f k q l : good f -> good k -> 1 / 10 ^ 9 <= v f <= 10 ^ 9 -> 1 / 10 ^ 9 <= v k <= 10 ^ 9 ->
    ndiv (Num := N64) f k = Ok q -> nlog (Num := N64) q = Ok l ->
    near l (ln (v f / v k)) (eta * Rabs (ln (v f / v k)) + 4 / 10 ^ 16).
  Proof.
    intros Gf Gk BF BK EQ EL. cbn [ndiv f64] in EQ. destruct (SFeqb k f64_zero); [discriminate|].
    apply (f_equal (fun z => match z with Ok b => b | Err _ => q end)) in EQ. cbv beta iota in EQ. subst q.
    assert (IK : 1 / 10 ^ 9 <= / v k <= 10 ^ 9).
    { split; [replace (1 / 10 ^ 9) with (/ 10 ^ 9) by (unfold Rdiv; ring); apply Rinv_le_contravar; lra|].
      replace (10 ^ 9) with (/ (1 / 10 ^ 9)) by field. apply Rinv_le_contravar; lra. }
    assert (R0 : 1 / 10 ^ 18 <= v f / v k <= 10 ^ 18).
    { unfold Rdiv at 2 3. split; [replace (1 / 10 ^ 18) with (1 / 10 ^ 9 * (1 / 10 ^ 9)) by lra|replace (10 ^ 18) with (10 ^ 9 * 10 ^ 9) by lra]; apply Rmult_le_compat; lra. }
    set (r := v f / v k) in *.
    assert (G : good (SFdiv 53 1024 f k)) by (apply div_good; auto; [lra|]; fold r; rewrite Rabs_right by lra; pose proof big_40; lra).
    destruct (div_round f k (proj1 Gf) (proj1 Gk) (proj2 Gk) ltac:(lra) (proj2 G)) as (_ & _ & VQ). fold r in VQ.
    pose proof (rnd_abs60 r) as RA. rewrite <- VQ, (Rabs_right r) in RA by lra. set (x := v (SFdiv 53 1024 f k)) in *.
    assert (RX : Rabs (x / r - 1) <= 14 / 10 ^ 17).
    { replace (x / r - 1) with ((x - r) / r) by (field; lra). unfold Rdiv. rewrite Rabs_mult, (Rabs_right (/ r)) by (left; apply Rinv_0_lt_compat; lra).
      apply Rmult_le_reg_r with r; [lra|]. rewrite Rmult_assoc, Rinv_l by lra. rewrite Rmult_1_r. lra. }
    pose proof (ln_small (x / r - 1) ltac:(lra)) as LS. replace (1 + (x / r - 1)) with (x / r) in LS by ring.
    assert (XP : 0 < x) by (apply Rabs_le_inv in RA; lra).
    assert (LX : ln (x / r) = ln x - ln r). { unfold Rdiv. rewrite ln_mult, ln_Rinv by (try apply Rinv_0_lt_compat; lra). ring. }
    rewrite LX in LS. cbn [nlog f64] in EL. destruct (LW _ _ (proj1 G) (proj2 G) XP EL) as (D1 & D2 & D3). fold x in D3.
    split; [now split|]. replace (v l - ln r) with ((v l - ln x) + (ln x - ln r)) by ring. eapply Rle_trans; [apply Rabs_triang|].
    assert (LL : Rabs (ln x) <= Rabs (ln r) + 28 / 10 ^ 17). { replace (ln x) with (ln r + (ln x - ln r)) by ring. eapply Rle_trans; [apply Rabs_triang|lra]. }
    pose proof (Rabs_pos (ln x)). nra.
  Qed.

  Lemma black_d_near t k f s vol d S : good t -> good k -> good f -> good s -> 0 < v t -> 0 < v s <= 10 ^ 9 ->
    1 / 10 ^ 9 <= v f <= 10 ^ 9 -> 1 / 10 ^ 9 <= v k <= 10 ^ 9 -> S = v s * sqrt (v t) -> 1 / 10 ^ 3 <= S ->
    let D := (ln (v f / v k) + S * S / 2) / S in Rabs D <= 36 -> Rabs (D - S) <= 36 ->
    black_d (N := N64) (Ok t) k f s = Ok (vol, d) ->
    near vol S (3 / 10 ^ 16 * S) /\ near d D (45 * eta + 7 / 10 ^ 13) /\ near (SFsub 53 1024 d vol) (D - S) (46 * eta + 8 / 10 ^ 13).
  Proof.
    intros Gt Gk Gf Gs Pt Ps BF BK SE SB D BD BDS E. unfold black_d in E. cbn [bind] in E.
    assert (S72 : S <= 72) by (apply Rabs_le_inv in BD; apply Rabs_le_inv in BDS; lra).
    assert (LD : ln (v f / v k) = S * (D - S / 2)) by (unfold D; field; lra).
    assert (LB : Rabs (ln (v f / v k)) <= 36 * S).
    { rewrite LD, Rabs_mult, (Rabs_right S) by lra. rewrite Rmult_comm. apply Rmult_le_compat_r; [lra|].
      apply Rabs_le_inv in BD. apply Rabs_le_inv in BDS. apply Rabs_le. lra. }
    destruct (nsqrt t) as [w|] eqn:EQ; [|discriminate]. cbn [bind] in E.
    assert (NS := sd_near t s w S Gt Gs Pt Ps SE ltac:(lra) EQ).
    change (nmul (Num := N64) s w) with (SFmul 53 1024 s w) in E. set (x := SFmul 53 1024 s w) in *.
    destruct (ndiv f k) as [q|] eqn:EQQ; [|discriminate]. cbn [bind] in E. destruct (nlog q) as [l|] eqn:EL; [|discriminate]. cbn [bind] in E.
    assert (NL := log_ratio_near f k q l Gf Gk BF BK EQQ EL).
    change (npow (N := N64) x 2) with (SFmul 53 1024 x (SFmul 53 1024 x (f64_ofZ 1))) in E.
    assert (N1 : near (SFmul 53 1024 x (f64_ofZ 1)) (S * 1) (5 / 10 ^ 16 * S)).
    { apply (mul_wide _ _ _ _ (3 / 10 ^ 16 * S) 0 S 1); auto using one_near; try lra; rewrite Rabs_right; lra. }
    rewrite Rmult_1_r in N1.
    assert (SS : 1 / 10 ^ 6 <= S * S <= 72 * S) by (split; [replace (1 / 10 ^ 6) with (1 / 10 ^ 3 * (1 / 10 ^ 3)) by lra; apply Rmult_le_compat; lra|apply Rmult_le_compat_r; lra]).
    assert (N2 : near (SFmul 53 1024 x (SFmul 53 1024 x (f64_ofZ 1))) (S * S) (1 / 10 ^ 15 * (S * S))).
    { apply (mul_wide _ _ _ _ (3 / 10 ^ 16 * S) (5 / 10 ^ 16 * S) S S); auto; try (rewrite Rabs_right; lra); lra. }
    set (x2 := SFmul 53 1024 x (SFmul 53 1024 x (f64_ofZ 1))) in *.
    destruct (ndiv x2 (n_ofZ 2)) as [h|] eqn:EH; [|discriminate]. cbn [bind] in E.
    assert (HE : h = SFdiv 53 1024 x2 (f64_ofZ 2)).
    { cbn [ndiv n_ofZ f64] in EH. destruct (SFeqb (f64_ofZ 2) f64_zero); [discriminate|].
      apply (f_equal (fun z => match z with Ok b => b | Err _ => h end)) in EH. cbv beta iota in EH. now rewrite <- EH. }
    destruct (ofZ_good 2 ltac:(lia)) as [G2 V2].
    assert (NH : near h (S * S / 2) (1 / 10 ^ 15 * (S * S))).
    { rewrite HE. apply (div_wide _ _ _ _ (1 / 10 ^ 15 * (S * S)) 0 (S * S / 2)); auto; try lra.
      - split; [exact G2|]. rewrite V2, Rminus_diag_eq, Rabs_R0 by auto. lra.
      - rewrite Rabs_right; lra. }
    change (nadd (Num := N64) l h) with (SFadd 53 1024 l h) in E.
    assert (HS : 0 <= eta * S) by (apply Rmult_le_pos; lra).
    assert (HL : eta * Rabs (ln (v f / v k)) <= 36 * (eta * S)) by (replace (36 * (eta * S)) with (eta * (36 * S)) by ring; apply Rmult_le_compat_l; lra).
    assert (DS : ln (v f / v k) + S * S / 2 = S * D) by (unfold D; field; lra).
    assert (SD : Rabs (S * D) <= 36 * S) by (rewrite Rabs_mult, (Rabs_right S), Rmult_comm by lra; apply Rmult_le_compat_r; lra).
    assert (HS2 : eta * S <= 1 / 100 * S) by (apply Rmult_le_compat_r; lra).
    assert (NA : near (SFadd 53 1024 l h) (S * D) ((37 * eta + 5 / 10 ^ 13) * S)).
    { rewrite <- DS. eapply (add_wide _ _ _ _ _ _ (36 * S)); [exact NL|exact NH|rewrite DS; exact SD|lra|lra]. }
    destruct (ndiv (SFadd 53 1024 l h) x) as [d'|] eqn:ED; [|discriminate]. cbn [bind] in E.
    assert (DE : d' = SFdiv 53 1024 (SFadd 53 1024 l h) x).
    { cbn [ndiv f64] in ED. destruct (SFeqb x f64_zero); [discriminate|].
      apply (f_equal (fun z => match z with Ok b => b | Err _ => d' end)) in ED. cbv beta iota in ED. now rewrite <- ED. }
    apply (f_equal (fun z => match z with Ok b => b | Err _ => (vol, d) end)) in E. cbv beta iota in E.
    pose proof (f_equal fst E) as Ev. pose proof (f_equal snd E) as Ed. cbn [fst snd] in Ev, Ed. subst vol d.
    assert (Q : S * D / S = D) by (field; lra).
    assert (Q' : (37 * eta + 5 / 10 ^ 13) * S / S = 37 * eta + 5 / 10 ^ 13) by (field; lra).
    assert (ND : near d' D (45 * eta + 7 / 10 ^ 13)).
    { rewrite DE, <- Q. apply (div_wide _ _ _ _ ((37 * eta + 5 / 10 ^ 13) * S) (3 / 10 ^ 16) 36); auto; try lra. rewrite Q. exact BD. }
    split; [exact NS|]. split; [exact ND|]. eapply (sub_wide _ _ _ _ _ _ 36); [exact ND|exact NS|exact BDS|lra|lra].
  Qed.

  Lemma black_near t k f s y S : good t -> good k -> good f -> good s -> 0 < v t -> 0 < v s <= 10 ^ 9 ->
    1 / 10 ^ 9 <= v f <= 10 ^ 9 -> 1 / 10 ^ 9 <= v k <= 10 ^ 9 -> S = v s * sqrt (v t) -> 1 / 10 ^ 3 <= S ->
    let D := (ln (v f / v k) + S * S / 2) / S in Rabs D <= 36 -> Rabs (D - S) <= 36 ->
    black_price (N := N64) (Ok t) k f s = Ok y ->
    near y (v f * N D - v k * N (D - S)) ((v f + v k) * (ec + 19 * eta + 5 / 10 ^ 13)).
  Proof.
    intros Gt Gk Gf Gs Pt Ps BF BK SE SB D BD BDS E. unfold black_price in E.
    destruct (black_d (Ok t) k f s) as [[vol d]|] eqn:EB; [|discriminate]. cbn [bind] in E.
    destruct (black_d_near t k f s vol d S Gt Gk Gf Gs Pt Ps BF BK SE SB BD BDS EB) as (NV & ND & ND2). fold D in ND, ND2.
    change (nsub (Num := N64) d vol) with (SFsub 53 1024 d vol) in E. set (d2 := SFsub 53 1024 d vol) in *.
    destruct (normal_cdf d) as [a|] eqn:EA; [|discriminate]. cbn [bind] in E. destruct (normal_cdf d2) as [b|] eqn:EB2; [|discriminate]. cbn [bind] in E.
    apply (f_equal (fun z => match z with Ok b => b | Err _ => y end)) in E. cbv beta iota in E. subst y.
    assert (X1 := near_abs _ _ _ _ ND BD). assert (X2 := near_abs _ _ _ _ ND2 BDS).
    assert (C1 := cdf64 d a (proj1 ND) ltac:(lra) EA). assert (C2 := cdf64 d2 b (proj1 ND2) ltac:(lra) EB2).
    assert (C0 : 0 <= ec <= 6 / 100) by (unfold ec; lra).
    assert (M1 : near a (N D) (ec + 19 * eta + 4 / 10 ^ 13)).
    { split; [apply C1|]. replace (v a - N D) with ((v a - N (v d)) + (N (v d) - N D)) by ring. eapply Rle_trans; [apply Rabs_triang|].
      pose proof (N_lip (v d) D). pose proof (proj2 ND). pose proof (proj2 C1). lra. }
    assert (M2 : near b (N (D - S)) (ec + 19 * eta + 4 / 10 ^ 13)).
    { split; [apply C2|]. replace (v b - N (D - S)) with ((v b - N (v d2)) + (N (v d2) - N (D - S))) by ring. eapply Rle_trans; [apply Rabs_triang|].
      pose proof (N_lip (v d2) (D - S)). pose proof (proj2 ND2). pose proof (proj2 C2). lra. }
    set (e := ec + 19 * eta + 4 / 10 ^ 13) in *. assert (EB3 : 0 <= e <= 3 / 10) by (unfold e; lra).
    pose proof (N_range N HN D) as R1. pose proof (N_range N HN (D - S)) as R2.
    assert (FE : 0 <= v f * e <= v f) by nra. assert (KE : 0 <= v k * e <= v k) by nra.
    change (nsub (Num := N64) _ _) with (SFsub 53 1024 (SFmul 53 1024 f a) (SFmul 53 1024 k b)).
    assert (P1 : near (SFmul 53 1024 f a) (v f * N D) (v f * (e + 3 / 10 ^ 16))).
    { apply (mul_wide _ _ _ _ 0 e (v f) 1); auto using exact_near; try (rewrite Rabs_right; lra); lra. }
    assert (P2 : near (SFmul 53 1024 k b) (v k * N (D - S)) (v k * (e + 3 / 10 ^ 16))).
    { apply (mul_wide _ _ _ _ 0 e (v k) 1); auto using exact_near; try (rewrite Rabs_right; lra); lra. }
    assert (TB : Rabs (v f * N D - v k * N (D - S)) <= v f + v k).
    { assert (0 <= v f * N D <= v f) by nra. assert (0 <= v k * N (D - S) <= v k) by nra. apply Rabs_le. lra. }
    eapply (sub_wide _ _ _ _ _ _ (v f + v k)); [exact P1|exact P2|exact TB|lra|]. 
    replace ((v f + v k) * (ec + 19 * eta + 5 / 10 ^ 13)) with (v f * e + v k * e + (v f + v k) * (1 / 10 ^ 13)) by (unfold e; field). lra.
  Qed.
End Prices.
