(** Property C98: the compounding functions in double precision. *)
From Coq Require Import ZArith Lia List Bool Reals Lra Floats.SpecFloat.
From Verif Require Import Num MCompounding MFloat SRound LRound LRound2.
Import ListNotations.
Local Open Scope R_scope.

(** * simple compounding, for rates and maturities that are not negative *)
(** always returns a number between 0 and 1, even where the computation overflows *)
Theorem C98_simple_range : forall lib r t, is_double r -> is_double t -> finite_float r -> finite_float t ->
  0 <= float_value r -> 0 <= float_value t ->
  exists y, simple_compounding (N := f64 lib) r t = Ok y /\ is_double y /\ finite_float y /\ 0 <= float_value y <= 1.
Proof.
  intros lib r t Dr Dt Fr Ft Nr Nt. destruct (simple_cases lib r t Dr Dt Fr Ft Nr Nt) as (y & E & Dy & Fy & C).
  exists y. do 3 (split; auto). cbv zeta in C. destruct C as [[-> _]|[-> _]]; [|lra].
  assert (P : 0 <= float_value r * float_value t) by now apply Rmult_le_pos. apply rnd_nonneg in P.
  assert (S1 : 1 <= LRound.rnd (1 + LRound.rnd (float_value r * float_value t))) by (rewrite <- rnd_1 at 1; apply rnd_le; lra).
  set (s := LRound.rnd (1 + _)) in *. split; [apply rnd_nonneg|rewrite <- rnd_1 at 2; apply rnd_le].
  - apply Rlt_le, Rdiv_lt_0_compat; lra.
  - apply Rmult_le_reg_r with s; [lra|]. unfold Rdiv. rewrite Rmult_assoc, Rinv_l; lra.
Qed.
Print Assumptions C98_simple_range.

(** higher rates and longer maturities do not give higher discount factors *)
Theorem C98_simple_monotone : forall lib r t r' t' y y',
  is_double r -> is_double t -> finite_float r -> finite_float t ->
  is_double r' -> is_double t' -> finite_float r' -> finite_float t' ->
  0 <= float_value r <= float_value r' -> 0 <= float_value t <= float_value t' ->
  simple_compounding (N := f64 lib) r t = Ok y -> simple_compounding (N := f64 lib) r' t' = Ok y' ->
  float_value y' <= float_value y.
Proof. exact simple_mono. Qed.
Print Assumptions C98_simple_monotone.

(** four units of rounding at most, up to numbers of size 2^-1023 *)
Theorem C98_simple_error : forall lib r t y, is_double r -> is_double t -> finite_float r -> finite_float t ->
  0 <= float_value r -> 0 <= float_value t -> simple_compounding (N := f64 lib) r t = Ok y ->
  Rabs (float_value y - / (1 + float_value r * float_value t)) <=
    4 * rounding_unit * / (1 + float_value r * float_value t) + powerRZ 2 (-1023).
Proof. exact simple_error. Qed.
Print Assumptions C98_simple_error.

(** REFUTED that the factor falls with the rate and that the rate can be recovered from it:
    the rates 0 and 2^-60 give the same factor over one year, and the rate found from it is
    0 for both *)
Theorem C98_simple_rate_refuted : forall lib, exists r,
  float_value r = powerRZ 2 (-60) /\ is_double r /\
  simple_compounding (N := f64 lib) r (f64_ofZ 1) = Ok (f64_ofZ 1) /\
  simple_compounding (N := f64 lib) f64_zero (f64_ofZ 1) = Ok (f64_ofZ 1) /\
  simple_rate (N := f64 lib) (f64_ofZ 1) (f64_ofZ 1) = Ok f64_zero.
Proof.
  intro lib. exists (S754_finite false 4503599627370496 (-112)). split; [|split; [reflexivity|split; [vm_compute; reflexivity|split; vm_compute; reflexivity]]].
  cbn [float_value]. change (-112)%Z with (-52 + -60)%Z. rewrite powerRZ_add by lra. change (powerRZ 2 (-52)) with (/ 2 ^ 52). lra.
Qed.
Print Assumptions C98_simple_rate_refuted.

(** what is true: the recovered rate misses the rate by at most eight units of rounding of
    (1 + rate * maturity), divided by the maturity *)
Theorem C98_simple_rate : forall lib r t y r', is_double r -> is_double t -> finite_float r -> finite_float t ->
  0 <= float_value r -> 0 < float_value t -> float_value r * float_value t <= powerRZ 2 900 ->
  simple_compounding (N := f64 lib) r t = Ok y -> simple_rate (N := f64 lib) y t = Ok r' -> finite_float r' ->
  Rabs (float_value r' - float_value r) <= 8 * rounding_unit * ((1 + float_value r * float_value t) / float_value t) + tiny.
Proof. exact simple_rate_error. Qed.
Print Assumptions C98_simple_rate.

(** 5% over a quarter: the factor is 0.9876543209876543, and the rate found from it is
    0.04999999999999982 *)
Example C98_simple_instance : forall lib,
  let r := f64_ratio 5 100 in let t := f64_ratio 1 4 in
  is_double r /\ is_double t /\ finite_float r /\ finite_float t /\
  exists y r', simple_compounding (N := f64 lib) r t = Ok y /\ simple_rate (N := f64 lib) y t = Ok r' /\
    y = S754_finite false 8895999263941721 (-53) /\ r' = S754_finite false 7205759403792768 (-57) /\
    r = S754_finite false 7205759403792794 (-57).
Proof.
  intros lib r t. split; [reflexivity|]. split; [reflexivity|]. split; [exact I|]. split; [exact I|].
  exists (S754_finite false 8895999263941721 (-53)), (S754_finite false 7205759403792768 (-57)).
  split; [vm_compute; reflexivity|]. split; [vm_compute; reflexivity|]. split; [reflexivity|]. split; [reflexivity|]. vm_compute. reflexivity.
Qed.

(** * continuous compounding, with a math.exp that is accurate up to eps *)
Theorem C98_continuous_error : forall lib eps r t y, 0 <= eps -> exp_within lib eps ->
  is_double r -> is_double t -> finite_float r -> finite_float t ->
  Rabs (float_value r * float_value t) <= 600 -> continuous_compounding (N := f64 lib) r t = Ok y ->
  is_double y /\ finite_float y /\
  Rabs (float_value y - exp (- (float_value r * float_value t))) <=
    exp (- (float_value r * float_value t)) *
    ((1 + eps) * exp (rounding_unit * Rabs (float_value r * float_value t) + tiny) - 1).
Proof. exact continuous_error. Qed.
Print Assumptions C98_continuous_error.

(** a platform whose math.exp knows exp(-1) only, as 0.36788, is accurate up to a tenth *)
Definition poor_exp : libm :=
  mkLibm (fun z => if SFeqb z (f64_ofZ (-1)) then Ok (f64_ratio 36788 100000) else Err ValueError)
         (fun _ => Err ValueError) (fun _ _ => Err ValueError) (fun x => x).
Example C98_continuous_instance :
  exp_within poor_exp (1 / 10) /\
  continuous_compounding (N := f64 poor_exp) (f64_ofZ 1) (f64_ofZ 1) = Ok (f64_ratio 36788 100000) /\
  Rabs (float_value (f64_ofZ 1) * float_value (f64_ofZ 1)) <= 600.
Proof.
  split; [|split; [vm_compute; reflexivity|rewrite one_value, Rmult_1_l, Rabs_R1; lra]].
  intros z w Dz Fz Lz E. cbn [lm_exp poor_exp] in E. destruct (SFeqb z (f64_ofZ (-1))) eqn:Q; [|discriminate].
  apply (f_equal (fun z => match z with Ok b => b | Err _ => w end)) in E. cbv beta iota in E. rewrite <- E. clear E w.
  assert (Vz : float_value z = -1).
  { assert (E1 : f64_ofZ (-1) = S754_finite true 4503599627370496 (-52)) by (vm_compute; reflexivity). rewrite E1 in Q.
    assert (Z1 : z = S754_finite true 4503599627370496 (-52)).
    { unfold SFeqb, SFcompare in Q. destruct z as [s|s| |s m e]; try discriminate Q; destruct s; try discriminate Q.
      destruct (Z.compare_spec e (-52)) as [->|Hc|Hc]; try discriminate Q. destruct (Pos.compare_cont _ _ _) eqn:PC in Q; try discriminate Q.
      apply Pos.compare_eq in PC. now subst m. }
    rewrite Z1. cbn [float_value]. change (powerRZ 2 (-52)) with (/ 2 ^ 52). lra. }
  rewrite Vz. assert (E2 : f64_ratio 36788 100000 = S754_finite false 6627136923668232 (-54)) by (vm_compute; reflexivity). rewrite E2.
  split; [reflexivity|]. split; [exact I|]. cbn [float_value]. change (powerRZ 2 (-54)) with (/ 2 ^ 54).
  pose proof (exp_ineq1 (1/8) ltac:(lra)) as L. pose proof (exp_ineq1 (- (1/8)) ltac:(lra)) as U.
  assert (P : exp (-1) = exp (- (1/8)) ^ 8).
  { cbn [pow]. rewrite !Rmult_1_r, <- !exp_plus. f_equal. lra. }
  assert (I8 : exp (- (1/8)) * exp (1/8) = 1) by (rewrite <- exp_plus; replace (- (1/8) + 1/8) with 0 by ring; apply exp_0).
  set (x := exp (- (1/8))) in *. assert (X1 : 7/8 < x) by lra.
  assert (X2 : x < 8/9).
  { pose proof (exp_pos (- (1/8))). fold x in H. apply Rmult_lt_reg_r with (exp (1/8)); [apply exp_pos|]. lra. }
  assert (B1 : (7/8)^8 <= exp (-1)) by (rewrite P; apply pow_incr; lra).
  assert (B2 : exp (-1) <= (8/9)^8) by (rewrite P; apply pow_incr; lra).
  apply Rabs_le. lra.
Qed.
