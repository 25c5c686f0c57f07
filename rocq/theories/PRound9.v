(** Property C113: the normal distribution in double precision. *)
From Coq Require Import ZArith Lia Reals Lra List Bool Floats.SpecFloat.
From Flocq Require Import Raux.
From Verif Require Import Num Py MDates MInterpolation MCurve MRateCurve MOption MFloat SOption SNormal SRound LBase LOption LNormal LSeries LRound LRound2 LRound4 LRound7 PNormal PExpect.
Local Open Scope R_scope.

(** the distribution function, evaluated in double precision on a platform whose math.exp is
    accurate up to the relative error [eps], returns a number between 0 and 1 that misses
    the distribution function of the standard normal distribution by at most 7.5e-8 (the
    approximation), 0.53 eps (math.exp) and 2e-12 (all roundings) *)
Theorem C113_distribution : forall lib eps N x y, normal_distribution N ->
  0 <= eps <= 1 / 10 -> exp_within lib eps ->
  is_double x -> finite_float x -> Rabs (float_value x) <= 37 ->
  normal_cdf (N := f64 lib) x = Ok y ->
  is_double y /\ finite_float y /\ 0 <= float_value y <= 1 /\
  Rabs (float_value y - N (float_value x)) < 75 / 10 ^ 9 + 53 / 100 * eps + 2 / 10 ^ 12.
Proof.
  intros lib eps N x y HN E0 EW DX FX BX E. destruct (cdf_near lib eps x y E0 EW (conj DX FX) BX E) as [[[G1 G2] B] R01].
  split; [exact G1|]. split; [exact G2|]. split; [exact R01|].
  pose proof (cdf_error N HN (float_value x)) as CE. apply Rabs_def2 in CE. apply Rabs_le_inv in B. apply Rabs_def1; lra.
Qed.
Print Assumptions C113_distribution.

(** the density, which is never negative *)
Theorem C113_density : forall lib eps x y, 0 <= eps <= 1 / 10 -> exp_within lib eps ->
  is_double x -> finite_float x -> Rabs (float_value x) <= 37 ->
  normal_pdf (N := f64 lib) x = Ok y ->
  is_double y /\ finite_float y /\ 0 <= float_value y /\
  Rabs (float_value y - density (float_value x)) <= 41 / 100 * eps + 11 / 10 ^ 13.
Proof.
  intros lib eps x y E0 EW DX FX BX E. destruct (density_near lib eps x y E0 EW (conj DX FX) BX E) as [[[G1 G2] B] R01].
  split; [exact G1|]. split; [exact G2|]. split; [exact R01|].
  pose proof (pdf_error (float_value x)) as CE. apply Rabs_le_inv in CE. apply Rabs_le_inv in B. apply Rabs_le; lra.
Qed.
Print Assumptions C113_density.

(** the values at x and -x add up to one, up to the errors of the arithmetic alone *)
Theorem C113_symmetry : forall lib eps x x' y y', 0 <= eps <= 1 / 10 -> exp_within lib eps ->
  is_double x -> finite_float x -> is_double x' -> finite_float x' -> Rabs (float_value x) <= 37 ->
  float_value x' = - float_value x -> float_value x <> 0 ->
  normal_cdf (N := f64 lib) x = Ok y -> normal_cdf (N := f64 lib) x' = Ok y' ->
  Rabs (float_value y + float_value y' - 1) <= 106 / 100 * eps + 4 / 10 ^ 12.
Proof.
  intros lib eps x x' y y' E0 EW DX FX DX' FX' BX HX NZ E E'.
  destruct (cdf_near lib eps x y E0 EW (conj DX FX) BX E) as [[_ B] _].
  destruct (cdf_near lib eps x' y' E0 EW (conj DX' FX')) as [[_ B'] _]; [rewrite HX, Rabs_Ropp; exact BX|exact E'|].
  rewrite HX in B'. pose proof (Phi_sym _ NZ). apply Rabs_le_inv in B. apply Rabs_le_inv in B'. apply Rabs_le. lra.
Qed.
Print Assumptions C113_symmetry.

(** the order of two arguments is kept up to the errors of the arithmetic *)
Theorem C113_order : forall lib eps a b y z, 0 <= eps <= 1 / 10 -> exp_within lib eps ->
  is_double a -> finite_float a -> is_double b -> finite_float b -> -37 <= float_value a <= float_value b -> float_value b <= 37 ->
  normal_cdf (N := f64 lib) a = Ok y -> normal_cdf (N := f64 lib) b = Ok z ->
  float_value y <= float_value z + 106 / 100 * eps + 4 / 10 ^ 12.
Proof.
  intros lib eps a b y z E0 EW DA FA DB FB L1 L2 EA EB.
  destruct (cdf_near lib eps a y E0 EW (conj DA FA)) as [[_ B] _]; [apply Rabs_le; lra|exact EA|].
  destruct (cdf_near lib eps b z E0 EW (conj DB FB)) as [[_ B'] _]; [apply Rabs_le; lra|exact EB|].
  assert (Phi (float_value a) <= Phi (float_value b)).
  { destruct L1 as [_ [L| ->]]; [left; now apply Phi_incr|lra]. }
  apply Rabs_le_inv in B. apply Rabs_le_inv in B'. lra.
Qed.
Print Assumptions C113_order.

(** a platform whose math.exp knows exp(-1/2) only, as 0.6065, is accurate up to a hundredth;
    the distribution function at one *)
Definition half_exp : libm :=
  mkLibm (fun z => if SFeqb z (f64_ratio (-1) 2) then Ok (f64_ratio 6065 10000) else Err ValueError)
         (fun _ => Err ValueError) (fun _ _ => Err ValueError) (fun x => x).
Lemma half_exp_within : exp_within half_exp (1 / 100).
Proof.
  intros z w Dz Fz Lz E. cbn [lm_exp half_exp] in E. destruct (SFeqb z (f64_ratio (-1) 2)) eqn:Q; [|discriminate].
  apply (f_equal (fun z => match z with Ok b => b | Err _ => w end)) in E. cbv beta iota in E. rewrite <- E. clear E w.
  assert (E1 : f64_ratio (-1) 2 = S754_finite true 4503599627370496 (-53)) by (vm_compute; reflexivity).
  assert (G1 : good (f64_ratio (-1) 2)) by (rewrite E1; split; [reflexivity|exact Logic.I]).
  rewrite (eqb_value _ _ (conj Dz Fz) G1) in Q. apply Reqb_true in Q. rewrite E1 in Q. cbn [float_value] in Q. change (powerRZ 2 (-53)) with (/ 2 ^ 53) in Q.
  assert (Vz : float_value z = - (1 / 2)) by lra. clear Q.
  rewrite Vz. assert (E2 : f64_ratio 6065 10000 = S754_finite false 5462866348000412 (-53)) by (vm_compute; reflexivity). rewrite E2.
  split; [reflexivity|]. split; [exact Logic.I|]. cbn [float_value]. change (powerRZ 2 (-53)) with (/ 2 ^ 53).
  pose proof (exp_ineq1 (1/64) ltac:(lra)) as L. pose proof (exp_ineq1 (- (1/64)) ltac:(lra)) as U.
  assert (P : exp (- (1 / 2)) = exp (- (1/64)) ^ 32).
  { cbn [pow]. rewrite !Rmult_1_r, <- !exp_plus. f_equal. lra. }
  assert (I8 : exp (- (1/64)) * exp (1/64) = 1) by (rewrite <- exp_plus; replace (- (1/64) + 1/64) with 0 by ring; apply exp_0).
  set (x := exp (- (1/64))) in *. assert (X1 : 63/64 < x) by lra.
  assert (X2 : x < 64/65).
  { pose proof (exp_pos (- (1/64))). fold x in H. apply Rmult_lt_reg_r with (exp (1/64)); [apply exp_pos|]. lra. }
  assert (B1 : (63/64)^32 <= exp (- (1 / 2))) by (rewrite P; apply pow_incr; lra).
  assert (B2 : exp (- (1 / 2)) <= (64/65)^32) by (rewrite P; apply pow_incr; lra).
  apply Rabs_le. lra.
Qed.
Example C113_instance : forall N, normal_distribution N -> exists y,
  exp_within half_exp (1 / 100) /\ normal_cdf (N := f64 half_exp) (f64_ofZ 1) = Ok y /\ 84 / 100 <= float_value y <= 842 / 1000 /\
  Rabs (float_value y - N 1) < 6 / 1000.
Proof.
  intros N HN.
  assert (C : exists y, normal_cdf (N := f64 half_exp) (f64_ofZ 1) = Ok y /\ y = S754_finite false 7578231956020528 (-53)) by (eexists; split; vm_compute; reflexivity).
  destruct C as (y & C & Y). exists y. split; [apply half_exp_within|]. split; [exact C|]. split.
  { rewrite Y. cbn [float_value]. change (powerRZ 2 (-53)) with (/ 2 ^ 53). lra. }
  assert (G1 : good (f64_ofZ 1)) by (split; vm_compute; auto).
  destruct (C113_distribution half_exp (1/100) N (f64_ofZ 1) y HN ltac:(lra) half_exp_within (proj1 G1) (proj2 G1)) as (_ & _ & _ & B);
    [rewrite one_value, Rabs_R1; lra|exact C|]. rewrite one_value in B. lra.
Qed.
