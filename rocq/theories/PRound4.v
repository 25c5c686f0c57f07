(** Property C100: interpolation in double precision. *)
From Coq Require Import ZArith Lia Reals Lra List Bool Floats.SpecFloat.
From Verif Require Import Num Py MDates MInterpolation MCurve MFloat Spec SInterpolation SCurve SRound LInterpolation2 LRound LRound2 LRound4.
Import ListNotations.
Local Open Scope R_scope.

(** * C100 *)
(** linear interpolation never raises on finite doubles (different dates have a nonzero
    difference), and misses the line through the two neighbouring points, also where the line
    is continued outside of the data, by a few rounding units *)
Theorem C100_linear : forall lib xs ys, double_data xs ys -> let N := f64 lib in
  exists f, interp_new Klinear xs ys = Ok f /\
  forall x, is_double x -> finite_float x -> exists y, interp_call f x = Ok (Some y) /\
    ((exists a, xs = [a] /\ ys = [y]) \/
     exists a ya b yb, consecutive (float_points xs ys) a ya b yb /\
       (a < float_value x \/ is_first (float_points xs ys) a) /\ (float_value x <= b \/ is_last (float_points xs ys) b) /\
       (b - a <= powerRZ 2 1023 -> finite_float y ->
        Rabs (float_value y - chord a ya b yb (float_value x))
        <= rounding_unit * Rabs ya + 7 * rounding_unit * Rabs ((yb - ya) * ((float_value x - a) / (b - a)))
           + 2 * tiny * (1 + / (b - a)))).
Proof.
  intros lib xs ys (Hx & Hy & HL & NE & ND) N. eexists. split; [reflexivity|]. intros x Dx Fx.
  destruct (linear_float lib xs ys Hx Hy HL NE ND x (conj Dx Fx)) as (y & E & [(a & A1 & A2 & _)|(a & ya & b & yb & I1 & I2 & -> & _ & CC & C1 & C2)]).
  - exists y. split; [exact E|]. left. eauto.
  - eexists. split; [exact E|]. right. exists (float_value a), (float_value ya), (float_value b), (float_value yb).
    split; [exact CC|]. split; [exact C1|]. split; [exact C2|]. intros W F. rewrite Forall_forall in Hx, Hy.
    pose proof (in_combine_l _ _ _ _ I1) as Ia. pose proof (in_combine_r _ _ _ _ I1) as Iya.
    pose proof (in_combine_l _ _ _ _ I2) as Ib. pose proof (in_combine_r _ _ _ _ I2) as Iyb.
    assert (L : float_value a < float_value b) by apply CC.
    apply float_chord_error; auto; try (now apply Hx); try (now apply Hy); [split; auto|].
    apply sub_good; try (now apply Hx). rewrite Rabs_left; lra.
Qed.
Print Assumptions C100_linear.

(** a curve with the default interpolation: for data below 2^500 every call gives a finite
    number, which is the piecewise linear function of the data (constant outside) up to 15
    rounding units of the largest value, plus an underflow term which is negligible unless
    dates are as close as 2^-1000 *)
Theorem C100_curve : forall lib xs ys M gap, double_data xs ys -> let N := f64 lib in
  (forall x, In x xs -> Rabs (float_value x) <= powerRZ 2 500) ->
  (forall y, In y ys -> Rabs (float_value y) <= M) -> M <= powerRZ 2 500 ->
  0 < gap -> (forall a ya b yb, consecutive (float_points xs ys) a ya b yb -> gap <= b - a) ->
  exists c, curve_new None xs ys = Ok c /\
  forall x, is_double x -> finite_float x -> exists y Y, curve_call c x = Ok (Some y) /\ is_double y /\ finite_float y /\
    piecewise_linear (float_points xs ys) (float_value x) Y /\
    Rabs (float_value y - Y) <= 15 * rounding_unit * M + 2 * tiny * (1 + / gap).
Proof.
  intros lib xs ys M gap (Hx & Hy & HL & NE & ND) N BX BY BM G0 G1.
  destruct (curve_float lib xs ys Hx Hy HL NE ND) as (c & E & C). exists c. split; [exact E|]. intros x Dx Fx.
  destruct (C x (conj Dx Fx)) as (y & Y & Ey & PL & R). exists y, Y. split; [exact Ey|].
  pose proof u_pos as U0. pose proof tiny_pos as T0. assert (IG : 0 < / gap) by now apply Rinv_0_lt_compat.
  rewrite Forall_forall in Hx, Hy. destruct R as [[I V]|(a & ya & b & yb & I1 & I2 & -> & -> & CC & XX)].
  - destruct (Hy y I) as [Dy Fy]. split; auto. split; auto. split; [exact PL|]. rewrite V, Rminus_diag_eq, Rabs_R0 by reflexivity.
    assert (0 <= M) by (eapply Rle_trans; [apply Rabs_pos|apply (BY y I)]).
    assert (0 <= rounding_unit * M) by (apply Rmult_le_pos; lra). assert (0 <= tiny * (1 + / gap)) by (apply Rmult_le_pos; lra). lra.
  - pose proof (in_combine_l _ _ _ _ I1) as Ia. pose proof (in_combine_r _ _ _ _ I1) as Iya.
    pose proof (in_combine_l _ _ _ _ I2) as Ib. pose proof (in_combine_r _ _ _ _ I2) as Iyb.
    assert (L : float_value a < float_value b) by apply CC.
    pose proof (BY _ Iya) as Ba. pose proof (BY _ Iyb) as Bb.
    destruct (float_chord_finite a ya b yb x) as [Fw [Dy Fy]]; auto; try (now apply Hx); try (now apply Hy); try lra; [split; auto|].
    split; auto. split; auto. split; [exact PL|].
    eapply Rle_trans; [apply float_chord_error; auto; try (now apply Hx); try (now apply Hy); split; auto|].
    specialize (G1 _ _ _ _ CC). set (A := float_value a) in *. set (B := float_value b) in *. set (X := float_value x) in *.
    set (YA := float_value ya) in *. set (YB := float_value yb) in *.
    assert (LM : 0 <= (X - A) / (B - A) <= 1).
    { split; [apply Rmult_le_pos; [lra|apply Rlt_le, Rinv_0_lt_compat; lra]|].
      apply Rmult_le_reg_r with (B - A); [lra|]. unfold Rdiv. rewrite Rmult_assoc, Rinv_l; lra. }
    assert (K1 : Rabs ((YB - YA) * ((X - A) / (B - A))) <= 2 * M).
    { rewrite Rabs_mult, (Rabs_pos_eq ((X - A) / (B - A))) by lra. apply Rle_trans with (Rabs (YB - YA) * 1).
      - apply Rmult_le_compat_l; [apply Rabs_pos|lra].
      - rewrite Rmult_1_r. unfold Rminus. eapply Rle_trans; [apply Rabs_triang|]. rewrite Rabs_Ropp. lra. }
    assert (K2 : / (B - A) <= / gap) by (apply Rinv_le_contravar; lra).
    assert (rounding_unit * Rabs YA <= rounding_unit * M) by (apply Rmult_le_compat_l; lra).
    assert (7 * rounding_unit * Rabs ((YB - YA) * ((X - A) / (B - A))) <= 7 * rounding_unit * (2 * M)) by (apply Rmult_le_compat_l; lra).
    assert (2 * tiny * (1 + / (B - A)) <= 2 * tiny * (1 + / gap)) by (apply Rmult_le_compat_l; lra). lra.
Qed.
Print Assumptions C100_curve.

(** the stepwise interpolations have no rounding errors: the value in double precision is the
    value of the same interpolation of the exact numbers, and one of the data *)
Theorem C100_stepwise : forall lib k xs ys, double_data xs ys -> k = Kleft \/ k = Kconstant \/ k = Kright ->
  exists f g, interp_new (N := f64 lib) k xs ys = Ok f /\
    interp_new (N := Rnum) k (map float_value xs) (map float_value ys) = Ok g /\
    forall x, is_double x -> finite_float x -> exists y, In y ys /\ interp_call (N := f64 lib) f x = Ok (Some y) /\
      interp_call (N := Rnum) g (float_value x) = Ok (Some (float_value y)).
Proof.
  intros lib k xs ys (Hx & Hy & HL & NE & ND) HK. exists (base_new (N := f64 lib) k xs ys None None), (base_new (N := Rnum) k (map float_value xs) (map float_value ys) None None).
  split; [destruct HK as [->|[->| ->]]; reflexivity|]. split; [destruct HK as [->|[->| ->]]; reflexivity|].
  intros x Dx Fx. destruct (constant_float lib k xs ys HK Hx Hy HL NE ND x (conj Dx Fx)) as (y & E & I & R). eauto.
Qed.
Print Assumptions C100_stepwise.

(** where the data are equal there is no rounding error either *)
Theorem C100_flat : forall lib xs ys K, double_data xs ys -> let N := f64 lib in
  (forall x, In x xs -> Rabs (float_value x) <= powerRZ 2 500) ->
  (forall y, In y ys -> float_value y = K) -> Rabs K <= powerRZ 2 500 ->
  exists c, curve_new None xs ys = Ok c /\
  forall x, is_double x -> finite_float x -> exists y, curve_call c x = Ok (Some y) /\ is_double y /\ finite_float y /\ float_value y = K.
Proof.
  intros lib xs ys K (Hx & Hy & HL & NE & ND) N BX BY BK.
  destruct (curve_float lib xs ys Hx Hy HL NE ND) as (c & E & C). exists c. split; [exact E|]. intros x Dx Fx.
  destruct (C x (conj Dx Fx)) as (y & Y & Ey & PL & R). exists y. split; [exact Ey|].
  rewrite Forall_forall in Hx, Hy. destruct R as [[I V]|(a & ya & b & yb & I1 & I2 & -> & -> & CC & XX)].
  - destruct (Hy y I) as [Dy Fy]. auto.
  - pose proof (in_combine_l _ _ _ _ I1) as Ia. pose proof (in_combine_r _ _ _ _ I1) as Iya.
    pose proof (in_combine_l _ _ _ _ I2) as Ib. pose proof (in_combine_r _ _ _ _ I2) as Iyb.
    assert (L : float_value a < float_value b) by apply CC.
    destruct (float_chord_finite a ya b yb x) as [Fw [Dy Fy]]; auto; try (now apply Hx); try (now apply Hy); try (rewrite BY by auto; auto); try lra; [split; auto|].
    split; auto. split; auto. apply float_chord_flat; auto; try (now apply Hx); try (now apply Hy); split; auto.
Qed.
Print Assumptions C100_flat.

(** the curve of C90, which misses its own value at 1: [0, 1] -> [0.001, 0.01] *)
Lemma C100_data : double_data [f64_ofZ 0; f64_ofZ 1] [f64_ratio 1 1000; f64_ratio 1 100].
Proof.
  unfold double_data. split; [|split; [|split; [|split]]].
  - repeat constructor; vm_compute; auto.
  - repeat constructor; vm_compute; auto.
  - reflexivity.
  - discriminate.
  - cbn [map]. rewrite one_value. constructor; [|constructor; [intros []|constructor]]. intros [F|[]].
    replace (float_value (f64_ofZ 0)) with 0 in F by reflexivity. lra.
Qed.
Example C100_curve_instance : forall lib, let N := f64 lib in
  exists c y, curve_new None [f64_ofZ 0; f64_ofZ 1] [f64_ratio 1 1000; f64_ratio 1 100] = Ok c /\
    curve_call c (f64_ofZ 1) = Ok (Some y) /\ SFltb (f64_ratio 1 100) y = true /\
    Rabs (float_value y - float_value (f64_ratio 1 100)) <= 15 * rounding_unit + 4 * tiny.
Proof.
  intros lib N. assert (V0 : float_value (f64_ofZ 0) = 0) by reflexivity.
  assert (VA : Rabs (float_value (f64_ratio 1 1000)) <= 1).
  { replace (f64_ratio 1 1000) with (S754_finite false 4611686018427388 (-62)) by (vm_compute; reflexivity). unfold float_value.
    change (powerRZ 2 (-62)) with (/ 2 ^ 62). rewrite Rabs_pos_eq; lra. }
  assert (VB : Rabs (float_value (f64_ratio 1 100)) <= 1).
  { replace (f64_ratio 1 100) with (S754_finite false 5764607523034235 (-59)) by (vm_compute; reflexivity). unfold float_value.
    change (powerRZ 2 (-59)) with (/ 2 ^ 59). rewrite Rabs_pos_eq; lra. }
  assert (P : 1 <= powerRZ 2 500) by (change 1 with (powerRZ 2 0); now apply small_pow).
  destruct (C100_curve lib _ _ 1 1 C100_data) as (c & E & C).
  - intros x [<-|[<-|[]]]; [rewrite V0, Rabs_R0; lra|rewrite one_value, Rabs_R1; lra].
  - intros y [<-|[<-|[]]]; auto.
  - lra.
  - lra.
  - intros a ya b yb (A & B & L & _). unfold float_points in *. cbn [map combine In] in A, B. rewrite V0, one_value in A, B.
    destruct A as [A|[A|[]]], B as [B|[B|[]]]; inversion A; inversion B; subst; lra.
  - destruct (C (f64_ofZ 1) one_double one_finite) as (y & Y & Ey & _ & _ & PL & B). exists c, y. split; [exact E|]. split; [exact Ey|].
    assert (HY : Y = float_value (f64_ratio 1 100)).
    { eapply (LCurve.pl_node (float_points [f64_ofZ 0; f64_ofZ 1] [f64_ratio 1 1000; f64_ratio 1 100]) (float_value (f64_ofZ 1))); [| |exact PL].
      - apply combine_distinct; [reflexivity|apply C100_data].
      - right. left. reflexivity. }
    rewrite HY in B. split; [|replace (15 * rounding_unit + 4 * tiny) with (15 * rounding_unit * 1 + 2 * tiny * (1 + / 1)) by field; exact B].
    clear -E Ey. vm_compute in E. injection E as <-. vm_compute in Ey. injection Ey as <-. reflexivity.
Qed.
