(** Lemmas on rounding: interpolation in double precision follows the interpolation of the
    values the floats stand for. *)
From Coq Require Import ZArith Lia Reals Lra Psatz List Bool Permutation Sorted Floats.SpecFloat.
From Flocq Require Import Core Relative Plus_error BinarySingleNaN.
From Verif Require Import Num Py MDates MInterpolation MCurve MFloat Spec SInterpolation SCurve SRound LBase LSort LInterpolation LInterpolation2 LCurve LRound LRound2.
Import ListNotations.
Local Open Scope R_scope.
#[local] Existing Instances prec53 prec_emax.

(** finite doubles *)
Definition good (x : float64) : Prop := is_double x /\ finite_float x.
Notation v := float_value.

Lemma compare_value x y : good x -> good y -> SFcompare x y = Some (Rcompare (v x) (v y)).
Proof.
  intros [Hx Fx] [Hy Fy]. destruct (double_B x Hx) as [a <-], (double_B y Hy) as [b <-]. rewrite !B_value.
  rewrite B_finite in Fx, Fy. exact (Bcompare_correct 53 1024 a b Fx Fy).
Qed.
Lemma ltb_value x y : good x -> good y -> SFltb x y = Rltb (v x) (v y).
Proof.
  intros Gx Gy. unfold SFltb. rewrite compare_value by auto.
  destruct (Rcompare_spec (v x) (v y)); symmetry; [apply Rltb_true|apply Rltb_false|apply Rltb_false]; lra.
Qed.
Lemma eqb_value x y : good x -> good y -> SFeqb x y = Reqb (v x) (v y).
Proof.
  intros Gx Gy. unfold SFeqb. rewrite compare_value by auto.
  destruct (Rcompare_spec (v x) (v y)); symmetry; [apply Reqb_false|apply Reqb_true|apply Reqb_false]; lra.
Qed.
Lemma zero_good : good f64_zero.
Proof. split; [reflexivity|exact Logic.I]. Qed.

(** ** sorting, searching *)
Section Hom.
  Context {A B : Type} (f : A -> B) (P : A -> Prop) (la : A -> A -> bool) (lb : B -> B -> bool).
  Hypothesis H : forall x y, P x -> P y -> la x y = lb (f x) (f y).
  Lemma insert_map x l : P x -> Forall P l -> map f (insert la x l) = insert lb (f x) (map f l).
  Proof.
    intros Px Fl. induction Fl as [|y l Py Fl IH]; cbn; [reflexivity|].
    rewrite <- H by auto. destruct (la y x); cbn; [now rewrite IH|reflexivity].
  Qed.
  Lemma insert_P x l : P x -> Forall P l -> Forall P (insert la x l).
  Proof.
    intros Px Fl. induction Fl as [|y l Py Fl IH]; cbn; [auto|]. destruct (la y x); auto.
  Qed.
  Lemma sort_P l : Forall P l -> Forall P (sort la l).
  Proof. induction 1; cbn; [auto|]. now apply insert_P. Qed.
  Lemma sort_map l : Forall P l -> map f (sort la l) = sort lb (map f l).
  Proof.
    induction 1 as [|x l Px Fl IH]; cbn; [reflexivity|]. rewrite insert_map; auto using sort_P. now rewrite IH.
  Qed.
  Lemma index_map x l : P x -> Forall P l -> index_of la x l = index_of lb (f x) (map f l).
  Proof.
    intros Px. induction 1 as [|y l Py Fl IH]; cbn; [reflexivity|]. rewrite H by auto.
    destruct (lb (f y) (f x)); [reflexivity|]. now rewrite IH.
  Qed.
  Lemma mem_map x l : P x -> Forall P l -> mem la x l = mem lb (f x) (map f l).
  Proof.
    intros Px. unfold mem. induction 1 as [|y l Py Fl IH]; cbn; [reflexivity|]. rewrite !H by auto. now rewrite IH.
  Qed.
  Lemma dedup_map l : Forall P l -> map f (dedup la l) = dedup lb (map f l).
  Proof.
    induction 1 as [|y l Py Fl IH]; cbn; [reflexivity|]. rewrite <- mem_map by auto.
    destruct (mem la y l); cbn; now rewrite IH.
  Qed.
End Hom.
Lemma bisect_map {A B} (f : A -> B) (P : A -> Prop) ga gb d l : (forall x, P x -> ga x = gb (f x)) -> P d -> Forall P l ->
  forall fuel lo hi, bisect_loop fuel ga d l lo hi = bisect_loop fuel gb (f d) (map f l) lo hi.
Proof.
  intros H Pd Fl. induction fuel as [|n IH]; intros lo hi; cbn [bisect_loop]; [reflexivity|].
  destruct (lo <? hi)%nat; [|reflexivity]. rewrite map_nth.
  rewrite H by (destruct (nth_in_or_default ((lo + hi) / 2) l d) as [I|E]; [rewrite Forall_forall in Fl; auto|now rewrite E]).
  destruct (gb _); apply IH.
Qed.

(** ** one chord *)
Lemma sub_double x y : is_double x -> is_double y -> is_double (SFsub 53 1024 x y).
Proof. intros Hx Hy. destruct (double_B x Hx) as [a <-], (double_B y Hy) as [b <-]. rewrite sub_eq. apply B_double. Qed.
Lemma mul_double x y : is_double x -> is_double y -> is_double (SFmul 53 1024 x y).
Proof. intros Hx Hy. destruct (double_B x Hx) as [a <-], (double_B y Hy) as [b <-]. rewrite mul_eq. apply B_double. Qed.
Lemma div_double x y : is_double x -> is_double y -> is_double (SFdiv 53 1024 x y).
Proof. intros Hx Hy. destruct (double_B x Hx) as [a <-], (double_B y Hy) as [b <-]. rewrite div_eq. apply B_double. Qed.
Lemma add_double x y : is_double x -> is_double y -> is_double (SFadd 53 1024 x y).
Proof. intros Hx Hy. destruct (double_B x Hx) as [a <-], (double_B y Hy) as [b <-]. rewrite add_eq. apply B_double. Qed.

Definition float_chord (a ya b yb x : float64) : float64 :=
  SFadd 53 1024 ya (SFdiv 53 1024 (SFmul 53 1024 (SFsub 53 1024 yb ya) (SFsub 53 1024 a x)) (SFsub 53 1024 a b)).

Lemma step_factor al z d : Rabs (z - 1) <= al * rounding_unit -> Rabs d <= rounding_unit -> 0 <= al <= 8 ->
  Rabs (z * (1 + d) - 1) <= (al + 101 / 100) * rounding_unit.
Proof.
  intros Z Dd A. pose proof u_pos. pose proof u_small.
  replace (z * (1 + d) - 1) with ((z - 1) + d + (z - 1) * d) by ring.
  eapply Rle_trans; [apply Rabs_triang|]. eapply Rle_trans; [apply Rplus_le_compat_r, Rabs_triang|].
  rewrite Rabs_mult. assert (Rabs (z - 1) * Rabs d <= (al * rounding_unit) * rounding_unit).
  { apply Rmult_le_compat; auto using Rabs_pos. }
  assert (al * rounding_unit * rounding_unit <= rounding_unit / 100) by nra. lra.
Qed.
Lemma inverse_factor d : Rabs d <= rounding_unit -> Rabs (/ (1 + d) - 1) <= 101 / 100 * rounding_unit.
Proof.
  intro Dd. pose proof u_pos. pose proof u_small. pose proof (Rabs_le_inv _ _ Dd) as B.
  replace (/ (1 + d) - 1) with (- d * / (1 + d)) by (field; lra). rewrite Rabs_mult, Rabs_Ropp.
  assert (0 < / (1 + d) <= 101 / 100).
  { split; [apply Rinv_0_lt_compat; lra|]. replace (101 / 100) with (/ (100 / 101)) by field. apply Rinv_le_contravar; lra. }
  rewrite (Rabs_pos_eq (/ (1 + d))) by lra. pose proof (Rabs_pos d). nra.
Qed.
Lemma two_factors al be z w : Rabs (z - 1) <= al * rounding_unit -> Rabs (w - 1) <= be * rounding_unit -> 0 <= al <= 8 -> 0 <= be <= 2 ->
  Rabs (z * w - 1) <= (al + be + 2 / 100) * rounding_unit.
Proof.
  intros Z W A B. pose proof u_pos. pose proof u_small.
  replace (z * w - 1) with ((z - 1) + (w - 1) + (z - 1) * (w - 1)) by ring.
  eapply Rle_trans; [apply Rabs_triang|]. eapply Rle_trans; [apply Rplus_le_compat_r, Rabs_triang|].
  rewrite Rabs_mult. assert (Rabs (z - 1) * Rabs (w - 1) <= (al * rounding_unit) * (be * rounding_unit)).
  { apply Rmult_le_compat; auto using Rabs_pos. }
  assert (al * rounding_unit * (be * rounding_unit) <= 16 * rounding_unit * rounding_unit).
  { replace (al * rounding_unit * (be * rounding_unit)) with (al * be * (rounding_unit * rounding_unit)) by ring.
    rewrite (Rmult_assoc 16). apply Rmult_le_compat_r; nra. }
  nra.
Qed.

Lemma float_chord_error a ya b yb x : good a -> good ya -> good b -> good yb -> good x -> v a < v b ->
  finite_float (SFsub 53 1024 a b) -> finite_float (float_chord a ya b yb x) ->
  Rabs (v (float_chord a ya b yb x) - chord (v a) (v ya) (v b) (v yb) (v x))
  <= rounding_unit * Rabs (v ya) + 7 * rounding_unit * Rabs ((v yb - v ya) * ((v x - v a) / (v b - v a)))
     + 2 * tiny * (1 + / (v b - v a)).
Proof.
  intros [Da Fa] [Dya Fya] [Db Fb] [Dyb Fyb] [Dx Fx] L Fw Fy. unfold float_chord in *.
  pose proof (sub_double a b Da Db) as Dw. pose proof (sub_double yb ya Dyb Dya) as Ds. pose proof (sub_double a x Da Dx) as Dt.
  pose proof (mul_double _ _ Ds Dt) as Dm. pose proof (div_double _ _ Dm Dw) as Dq.
  destruct (sub_error a b Da Db Fw) as (_ & d5 & H5 & E5).
  destruct (add_error _ _ Dya Dq Fy) as (_ & Fq & _ & d6 & H6 & E6).
  pose proof u_pos as U0. pose proof u_small as U1. pose proof tiny_pos as T0.
  assert (B5 : 0 < 1 + d5) by (apply Rabs_le_inv in H5; lra).
  assert (Nw : v (SFsub 53 1024 a b) <> 0) by (rewrite E5; apply Rmult_integral_contrapositive_currified; lra).
  destruct (div_round _ _ Dm Dw Fw Nw Fq) as (Fm & _ & Eq).
  destruct (rnd_error (v (SFmul 53 1024 (SFsub 53 1024 yb ya) (SFsub 53 1024 a x)) / v (SFsub 53 1024 a b))) as (d4 & e4 & H4 & He4 & E4).
  rewrite E4 in Eq. clear E4.
  destruct (mul_error _ _ Ds Dt Fm) as (Fs & Ft & _ & d3 & e3 & H3 & He3 & E3).
  destruct (sub_error yb ya Dyb Dya Fs) as (_ & d1 & H1 & E1). destruct (sub_error a x Da Dx Ft) as (_ & d2 & H2 & E2).
  rewrite E6, Eq, E3, E1, E2, E5. set (A := v a) in *. set (B := v b) in *. set (X := v x) in *. set (YA := v ya) in *. set (YB := v yb) in *.
  set (k := / (1 + d5)). set (L0 := (YB - YA) * ((X - A) / (B - A))). unfold chord. fold L0.
  set (K := (1 + d1) * (1 + d2) * (1 + d3) * (1 + d4) * (1 + d6) * k).
  assert (HK : Rabs (K - 1) <= 7 * rounding_unit).
  { assert (I1 : Rabs ((1 + d1) - 1) <= 1 * rounding_unit) by (replace (1 + d1 - 1) with d1 by ring; lra).
    pose proof (step_factor _ _ d2 I1 H2 ltac:(lra)) as I2. pose proof (step_factor _ _ d3 I2 H3 ltac:(lra)) as I3.
    pose proof (step_factor _ _ d4 I3 H4 ltac:(lra)) as I4. pose proof (step_factor _ _ d6 I4 H6 ltac:(lra)) as I7.
    pose proof (inverse_factor d5 H5) as I5. fold k in I5.
    pose proof (two_factors _ _ _ _ I7 I5 ltac:(lra) ltac:(lra)) as I6. unfold K. lra. }
  assert (HR : Rabs ((1 + d4) * (1 + d6) * k) <= 2).
  { assert (I1 : Rabs ((1 + d4) - 1) <= 1 * rounding_unit) by (replace (1 + d4 - 1) with d4 by ring; lra).
    pose proof (step_factor _ _ d6 I1 H6 ltac:(lra)) as I2.
    pose proof (inverse_factor d5 H5) as I5. fold k in I5.
    pose proof (two_factors _ _ _ _ I2 I5 ltac:(lra) ltac:(lra)) as I6. apply Rabs_le_inv in I6. apply Rabs_le. lra. }
  match goal with |- Rabs ?e <= _ => replace e with (YA * d6 + L0 * (K - 1) + (e3 * - / (B - A) * ((1 + d4) * (1 + d6) * k) + e4 * (1 + d6))) end.
  2:{ unfold K, k, L0. field. lra. }
  eapply Rle_trans; [apply Rabs_triang|]. apply Rplus_le_compat.
  - eapply Rle_trans; [apply Rabs_triang|]. rewrite !Rabs_mult. apply Rplus_le_compat.
    + rewrite Rmult_comm. apply Rmult_le_compat_r; auto using Rabs_pos.
    + rewrite Rmult_comm. apply Rmult_le_compat_r; auto using Rabs_pos.
  - eapply Rle_trans; [apply Rabs_triang|]. rewrite !Rabs_mult in *. rewrite Rabs_Ropp.
    assert (IH : 0 < / (B - A)) by (apply Rinv_0_lt_compat; lra). rewrite (Rabs_pos_eq (/ (B - A))) by lra.
    assert (Rabs (1 + d6) <= 2) by (apply Rabs_le_inv in H6; apply Rabs_le; lra).
    assert (Rabs e3 * / (B - A) * (Rabs (1 + d4) * Rabs (1 + d6) * Rabs k) <= tiny * / (B - A) * 2).
    { apply Rmult_le_compat; auto; try (apply Rmult_le_compat; auto using Rabs_pos; lra).
      - apply Rmult_le_pos; auto using Rabs_pos; lra.
      - apply Rmult_le_pos; auto using Rabs_pos. apply Rmult_le_pos; auto using Rabs_pos. }
    assert (Rabs e4 * Rabs (1 + d6) <= tiny * 2) by (apply Rmult_le_compat; auto using Rabs_pos). lra.
Qed.

(** the difference of two different finite doubles is not zero: no division by zero *)
Lemma sub_not_zero a b : good a -> good b -> v a <> v b -> SFeqb (SFsub 53 1024 a b) f64_zero = false.
Proof.
  intros [Da Fa] [Db Fb] N. destruct (SFsub 53 1024 a b) eqn:E; [|destruct s; reflexivity|reflexivity|destruct s; reflexivity].
  exfalso. assert (F : finite_float (SFsub 53 1024 a b)) by (rewrite E; exact Logic.I).
  destruct (sub_error a b Da Db F) as (_ & d & H & V). rewrite E in V. cbn in V. pose proof u_small.
  apply Rabs_le_inv in H. apply N. symmetry in V. apply Rmult_integral in V. lra.
Qed.

(** ** interpolations of finite doubles *)
Section Data.
  Variable lib : libm.
  #[local] Instance N64 : Num float64 := f64 lib.

  Definition vp (p : float64 * float64) : R * R := (v (fst p), v (snd p)).
  Definition goodp (p : float64 * float64) : Prop := good (fst p) /\ good (snd p).
  Lemma pair_value p q : goodp p -> goodp q -> pair_ltb p q = pair_ltb (N := Rnum) (vp p) (vp q).
  Proof.
    intros [A B] [C D]. unfold pair_ltb, vp. cbn [fst snd neqb nltb N64 f64 Rnum].
    rewrite eqb_value, !ltb_value by auto. reflexivity.
  Qed.
  Lemma combine_goodp xs ys : Forall good xs -> Forall good ys -> Forall goodp (combine xs ys).
  Proof.
    intro Hx. revert ys. induction Hx as [|x xs Gx Hx IH]; intros ys Hy; cbn; [constructor|].
    destruct Hy as [|y ys Gy Hy]; constructor; [split; auto|auto].
  Qed.
  Lemma combine_map_vp xs : forall ys, combine (map v xs) (map v ys) = map vp (combine xs ys).
  Proof. induction xs as [|x xs IH]; intros [|y ys]; cbn; auto. now rewrite IH. Qed.
  Lemma split_vp l : split (map vp l) = (map v (fst (split l)), map v (snd (split l))).
  Proof. induction l as [|[a b] l IH]; cbn; [reflexivity|]. rewrite IH. destruct (split l). reflexivity. Qed.
  Lemma split_goodp l : Forall goodp l -> Forall good (fst (split l)) /\ Forall good (snd (split l)).
  Proof. induction 1 as [|[a b] l [A B] F [I1 I2]]; cbn; [auto|]. destruct (split l). cbn in *. split; constructor; auto. Qed.

  (** sorted data *)
  Definition sorted_data (xs ys : list float64) := split (sort pair_ltb (combine xs ys)).
  Lemma sorted_value xs ys : Forall good xs -> Forall good ys ->
    split (sort (pair_ltb (N := Rnum)) (combine (map v xs) (map v ys)))
    = (map v (fst (sorted_data xs ys)), map v (snd (sorted_data xs ys))) /\
    Forall good (fst (sorted_data xs ys)) /\ Forall good (snd (sorted_data xs ys)).
  Proof.
    intros Hx Hy. pose proof (combine_goodp xs ys Hx Hy) as G. unfold sorted_data. split.
    - rewrite combine_map_vp, <- (sort_map vp goodp pair_ltb); auto using pair_value. apply split_vp.
    - apply split_goodp, sort_P; auto.
  Qed.
  Lemma base_value k xs ys z d z' d' : Forall good xs -> Forall good ys -> ys <> [] ->
    i_xs (base_new (N := Rnum) k (map v xs) (map v ys) z' d') = map v (i_xs (base_new k xs ys z d)) /\
    i_ys (base_new (N := Rnum) k (map v xs) (map v ys) z' d') = map v (i_ys (base_new k xs ys z d)) /\
    Forall good (i_xs (base_new k xs ys z d)) /\ Forall good (i_ys (base_new k xs ys z d)).
  Proof.
    intros Hx Hy NE. destruct (sorted_value xs ys Hx Hy) as (A & B & C). unfold sorted_data in *. unfold base_new, update_lists.
    destruct ys as [|y ys]; [congruence|]. cbn [map]. unfold update_add. cbn [combine filter app].
    cbn [map] in A. rewrite A. destruct (split (sort (pair_ltb (N := N64)) _)) as [p q]. cbn in *. auto.
  Qed.
  Lemma nth_res_map {A B} (f : A -> B) l i : nth_res (map f l) i = rmap f (nth_res l i).
  Proof. unfold nth_res. revert i. induction l; intros [|i]; cbn; auto. Qed.
  Lemma last_res_map {A B} (f : A -> B) l : last_res (map f l) = rmap f (last_res l).
  Proof. induction l as [|a [|b l] IH]; cbn in *; auto. Qed.
  Lemma bisect_left_value xs x lo hi : Forall good xs -> good x ->
    bisect_left xs x lo hi = bisect_left (N := Rnum) (map v xs) (v x) lo hi.
  Proof.
    intros Hx Gx. unfold bisect_left. apply (bisect_map v good); auto using zero_good.
    intros y Gy. now apply ltb_value.
  Qed.
  Lemma bisect_right_value xs x lo hi : Forall good xs -> good x ->
    bisect_right xs x lo hi = bisect_right (N := Rnum) (map v xs) (v x) lo hi.
  Proof.
    intros Hx Gx. unfold bisect_right. apply (bisect_map v good); auto using zero_good.
    intros y Gy. f_equal. now apply ltb_value.
  Qed.
  Lemma index_value xs x : Forall good xs -> good x -> index_of neqb x xs = index_of (neqb (Num := Rnum)) (v x) (map v xs).
  Proof. intros Hx Gx. apply (index_map v good); auto. intros; now apply eqb_value. Qed.
  Lemma call_left_value xs ys x : Forall good xs -> good x ->
    call_left (N := Rnum) (map v xs) (map v ys) (v x) = rmap v (call_left xs ys x).
  Proof.
    intros Hx Gx. unfold call_left. destruct ys as [|y ys]; [reflexivity|]. cbn [map]. change (v y :: map v ys) with (map v (y :: ys)).
    rewrite <- index_value by auto. rewrite map_length, <- bisect_left_value by auto. apply nth_res_map.
  Qed.
  Lemma call_right_value xs ys x : Forall good xs -> good x ->
    call_right (N := Rnum) (map v xs) (map v ys) (v x) = rmap v (call_right xs ys x).
  Proof.
    intros Hx Gx. unfold call_right. destruct ys as [|y ys]; [reflexivity|]. cbn [map]. change (v y :: map v ys) with (map v (y :: ys)).
    rewrite <- index_value by auto. rewrite map_length, <- bisect_right_value by auto. apply nth_res_map.
  Qed.

  (** linear: the float chord of the two points which the real interpolation uses *)
  Lemma nth_res_in {A} (l : list A) i a : nth_res l i = Ok a -> (i < length l)%nat /\ forall d, nth i l d = a.
  Proof.
    unfold nth_res. destruct (nth_error l i) eqn:E; [|discriminate]. intro Q. injection Q as ->.
    split; [apply nth_error_Some; congruence|]. intro d. now apply nth_error_nth.
  Qed.
  Lemma nth_res_some {A} (l : list A) i : (i < length l)%nat -> exists a, nth_res l i = Ok a /\ In a l.
  Proof.
    intro L. unfold nth_res. destruct (nth_error l i) eqn:E; [exists a; split; auto; eapply nth_error_In; eauto|].
    apply nth_error_None in E. lia.
  Qed.
  Lemma call_linear_value xs ys x : Forall good xs -> Forall good ys -> good x -> length xs = length ys -> (2 <= length xs)%nat ->
    increasing (map v xs) ->
    exists a ya b yb, In (a, ya) (combine xs ys) /\ In (b, yb) (combine xs ys) /\
      call_linear xs ys x = Ok (float_chord a ya b yb x) /\
      call_linear (N := Rnum) (map v xs) (map v ys) (v x) = Ok (chord (v a) (v ya) (v b) (v yb) (v x)) /\
      consecutive (combine (map v xs) (map v ys)) (v a) (v ya) (v b) (v yb) /\
      (v a < v x \/ is_first (combine (map v xs) (map v ys)) (v a)) /\
      (v x <= v b \/ is_last (combine (map v xs) (map v ys)) (v b)).
  Proof.
    intros Hx Hy Gx HL H2 SS. set (i := bisect_left xs x 1 (length xs - 1)).
    destruct (bisect_left_spec (map v xs) (v x) 1 (length xs - 1) SS) as [I1 [I2 I3]]; [lia|rewrite map_length; lia|].
    rewrite <- bisect_left_value in I1, I2, I3 by auto. fold i in I1, I2, I3.
    destruct (nth_res_some xs (i - 1)) as [a [Ea Ia]]; [lia|]. destruct (nth_res_some xs i) as [b [Eb Ib]]; [lia|].
    destruct (nth_res_some ys (i - 1)) as [ya [Eya Iya]]; [lia|]. destruct (nth_res_some ys i) as [yb [Eyb Iyb]]; [lia|].
    destruct (nth_res_in _ _ _ Ea) as [_ Na]. destruct (nth_res_in _ _ _ Eb) as [_ Nb].
    destruct (nth_res_in _ _ _ Eya) as [_ Nya]. destruct (nth_res_in _ _ _ Eyb) as [_ Nyb].
    assert (Va : nth (i - 1) (map v xs) 0 = v a) by (change 0 with (v f64_zero); rewrite map_nth; now rewrite Na).
    assert (Vb : nth i (map v xs) 0 = v b) by (change 0 with (v f64_zero); rewrite map_nth; now rewrite Nb).
    assert (Lab : v a < v b) by (rewrite <- Va, <- Vb; apply incr_nth; auto; rewrite map_length; lia).
    assert (Pa : In (a, ya) (combine xs ys)).
    { replace (a, ya) with (nth (i - 1) (combine xs ys) (f64_zero, f64_zero)) by (rewrite combine_nth by auto; now rewrite Na, Nya).
      apply nth_In. rewrite combine_length. lia. }
    assert (Pb : In (b, yb) (combine xs ys)).
    { replace (b, yb) with (nth i (combine xs ys) (f64_zero, f64_zero)) by (rewrite combine_nth by auto; now rewrite Nb, Nyb).
      apply nth_In. rewrite combine_length. lia. }
    assert (POS : forall c z, In (c, z) (combine (map v xs) (map v ys)) -> exists j, (j < length xs)%nat /\ c = nth j (map v xs) 0).
    { intros c z I. apply in_combine_l in I. apply (In_nth _ _ 0) in I. destruct I as [j [J E]]. rewrite map_length in J. eauto. }
    assert (LE : forall j k, (j <= k)%nat -> (k < length xs)%nat -> nth j (map v xs) 0 <= nth k (map v xs) 0).
    { intros. apply incr_nth_le; auto. rewrite map_length. lia. }
    exists a, ya, b, yb. split; [exact Pa|]. split; [exact Pb|]. split; [|split; [|split; [|split]]].
    - unfold call_linear. destruct ys as [|y0 [|y1 ys']]; cbn [length] in HL; try lia. fold i.
      rewrite Ea, Eb, Eya, Eyb. cbn [bind]. unfold ndiv at 1. cbn [N64 f64 nsub nmul nadd].
      rewrite sub_not_zero; [reflexivity| | |lra]; [rewrite Forall_forall in Hx; auto|rewrite Forall_forall in Hx; auto].
    - unfold call_linear. rewrite map_length, <- bisect_left_value, !nth_res_map by auto. fold i.
      destruct ys as [|y0 [|y1 ys']]; cbn [length] in HL; try lia. cbn [map].
      rewrite Ea, Eb, Eya, Eyb. rn. rewrite Rdivp_ok by lra. rn. f_equal. unfold chord. field. lra.
    - split; [rewrite combine_map_vp; exact (in_map vp _ _ Pa)|]. split; [rewrite combine_map_vp; exact (in_map vp _ _ Pb)|].
      split; auto. intros c z I. destruct (POS c z I) as (j & J & ->). destruct (Nat.le_gt_cases j (i - 1)).
      + left. rewrite <- Va. apply LE; lia.
      + right. rewrite <- Vb. apply LE; lia.
    - destruct (Nat.eq_dec i 1) as [E1|N1].
      + right. intros c z I. destruct (POS c z I) as (j & J & ->). rewrite <- Va. apply LE; lia.
      + left. rewrite <- Va. apply I2. lia.
    - destruct (Nat.eq_dec i (length xs - 1)) as [E1|N1].
      + right. intros c z I. destruct (POS c z I) as (j & J & ->). rewrite <- Vb. apply LE; lia.
      + left. rewrite <- Vb. apply I3. lia.
  Qed.

  (** the lists kept by an interpolation *)
  Lemma base_kept k xs ys z d : Forall good xs -> Forall good ys -> length xs = length ys -> xs <> [] -> NoDup (map v xs) ->
    let it := base_new k xs ys z d in
    i_kind it = k /\ Forall good (i_xs it) /\ Forall good (i_ys it) /\ length (i_xs it) = length (i_ys it) /\ i_xs it <> [] /\
    increasing (map v (i_xs it)) /\ Permutation (combine (i_xs it) (i_ys it)) (combine xs ys) /\
    (forall z' d', i_xs (base_new (N := Rnum) k (map v xs) (map v ys) z' d') = map v (i_xs it) /\
                   i_ys (base_new (N := Rnum) k (map v xs) (map v ys) z' d') = map v (i_ys it)).
  Proof.
    intros Hx Hy HL NE ND it. assert (NY : ys <> []) by (destruct xs, ys; try discriminate; congruence).
    destruct (base_value k xs ys z d None None Hx Hy NY) as (A & B & C & D). fold it in A, B, C, D.
    destruct (base_stores k (map v xs) (map v ys) None None) as (S1 & S2 & S3); [now rewrite !map_length|exact ND|].
    rewrite A in S1. rewrite A, B, !map_length in S2. rewrite A, B in S3.
    assert (PM : Permutation (combine (i_xs it) (i_ys it)) (combine xs ys)).
    { unfold it, base_new, update_lists. destruct ys as [|y ys]; [congruence|]. unfold update_add. cbn [combine filter app].
      pose proof (split_combine_eq (sort pair_ltb (combine xs (y :: ys)))) as Q. destruct (split _) as [p q]. cbn in *. rewrite Q. apply sort_perm. }
    split; [unfold it, base_new; destruct (update_lists _ _ _ _); reflexivity|]. do 3 (split; auto). split.
    { intro E. rewrite E in PM. cbn in PM. apply Permutation_nil in PM. destruct xs, ys; try discriminate; congruence. }
    split; auto. split; auto. intros z' d'. destruct (base_value k xs ys z d z' d' Hx Hy NY) as (A' & B' & _). auto.
  Qed.

  Lemma combine_same xs ys p q : Permutation (combine p q) (combine xs ys) ->
    same_points (combine (map v p) (map v q)) (combine (map v xs) (map v ys)).
  Proof. intro P. rewrite !combine_map_vp. apply perm_same. now apply Permutation_map. Qed.
  Lemma consecutive_same ps qs a ya b yb : same_points ps qs -> consecutive ps a ya b yb -> consecutive qs a ya b yb.
  Proof. intros S (A & B & C & D). split; [now apply S|]. split; [now apply S|]. split; auto. intros c z I. apply (D c z). now apply S. Qed.
  Lemma is_first_same ps qs a : same_points ps qs -> is_first ps a -> is_first qs a.
  Proof. intros S H c z I. apply (H c z). now apply S. Qed.
  Lemma is_last_same ps qs a : same_points ps qs -> is_last ps a -> is_last qs a.
  Proof. intros S H c z I. apply (H c z). now apply S. Qed.

  Lemma length_one {A} (l : list A) : l <> [] -> (length l < 2)%nat -> exists a, l = [a].
  Proof. destruct l as [|a [|b l]]; intros; [congruence|eauto|cbn in *; lia]. Qed.
  Lemma linear_float xs ys : Forall good xs -> Forall good ys -> length xs = length ys -> xs <> [] -> NoDup (map v xs) ->
    forall x, good x -> exists y, interp_call (base_new Klinear xs ys None None) x = Ok (Some y) /\
      ((exists a, xs = [a] /\ ys = [y] /\
          interp_call (base_new (N := Rnum) Klinear (map v xs) (map v ys) None None) (v x) = Ok (Some (v y))) \/
       exists a ya b yb, In (a, ya) (combine xs ys) /\ In (b, yb) (combine xs ys) /\ y = float_chord a ya b yb x /\
         interp_call (base_new (N := Rnum) Klinear (map v xs) (map v ys) None None) (v x)
           = Ok (Some (chord (v a) (v ya) (v b) (v yb) (v x))) /\
         consecutive (combine (map v xs) (map v ys)) (v a) (v ya) (v b) (v yb) /\
         (v a < v x \/ is_first (combine (map v xs) (map v ys)) (v a)) /\
         (v x <= v b \/ is_last (combine (map v xs) (map v ys)) (v b))).
  Proof.
    intros Hx Hy HL NE ND x Gx. destruct (base_kept Klinear xs ys None None Hx Hy HL NE ND) as (K & GX & GY & L2 & NE2 & SS & PM & RV).
    specialize (RV None None). destruct RV as [RX RY]. set (it := base_new Klinear xs ys None None) in *.
    assert (KR : i_kind (base_new (N := Rnum) Klinear (map v xs) (map v ys) None None) = Klinear)
      by (unfold base_new; destruct (update_lists _ _ _ _); reflexivity).
    unfold interp_call. rewrite K, KR, RX, RY.
    destruct (Nat.lt_ge_cases (length (i_xs it)) 2) as [LT|GE].
    - pose proof (Permutation_length PM) as PL. rewrite !combine_length in PL.
      destruct (length_one xs NE) as [a ->]; [lia|]. destruct (length_one ys) as [y ->]; [destruct ys; [discriminate|congruence]|cbn in *; lia|].
      exists y. split; [reflexivity|]. left. exists a. auto.
    - destruct (call_linear_value (i_xs it) (i_ys it) x GX GY Gx L2 GE SS) as (a & ya & b & yb & I1 & I2 & E1 & E2 & CC & C1 & C2).
      exists (float_chord a ya b yb x). rewrite E1, E2. split; [reflexivity|]. right. exists a, ya, b, yb.
      split; [eapply Permutation_in; eauto|]. split; [eapply Permutation_in; eauto|]. split; [reflexivity|]. split; [reflexivity|].
      pose proof (combine_same _ _ _ _ PM) as SM. split; [eapply consecutive_same; eauto|].
      split; [destruct C1; [now left|right; eapply is_first_same; eauto]|destruct C2; [now left|right; eapply is_last_same; eauto]].
  Qed.
  Lemma constant_float k xs ys : k = Kleft \/ k = Kconstant \/ k = Kright ->
    Forall good xs -> Forall good ys -> length xs = length ys -> xs <> [] -> NoDup (map v xs) ->
    forall x, good x -> exists y, interp_call (base_new k xs ys None None) x = Ok (Some y) /\ In y ys /\
      interp_call (base_new (N := Rnum) k (map v xs) (map v ys) None None) (v x) = Ok (Some (v y)).
  Proof.
    intros HK Hx Hy HL NE ND x Gx. destruct (base_kept k xs ys None None Hx Hy HL NE ND) as (K & GX & GY & L2 & NE2 & SS & PM & RV).
    specialize (RV None None). destruct RV as [RX RY]. set (it := base_new k xs ys None None) in *.
    assert (KR : i_kind (base_new (N := Rnum) k (map v xs) (map v ys) None None) = k)
      by (unfold base_new; destruct (update_lists _ _ _ _); reflexivity).
    assert (TOT : exists Y, interp_call (base_new (N := Rnum) k (map v xs) (map v ys) None None) (v x) = Ok (Some Y)).
    { destruct (total_calls k (map v xs) (map v ys)) as [f [E C]]; auto.
      - cbn. destruct HK as [->|[->| ->]]; auto.
      - now rewrite !map_length.
      - destruct xs; [congruence|discriminate].
      - destruct HK as [->|[->| ->]]; injection E as <-; apply C. }
    assert (INY : forall y, In y (i_ys it) -> In y ys).
    { intros y I. destruct (In_nth _ _ f64_zero I) as (j & J & Ej).
      assert (I2 : In (nth j (combine (i_xs it) (i_ys it)) (f64_zero, f64_zero)) (combine xs ys)).
      { eapply Permutation_in; [exact PM|]. apply nth_In. rewrite combine_length. lia. }
      rewrite combine_nth in I2 by auto. apply in_combine_r in I2. now rewrite Ej in I2. }
    destruct TOT as [Y EY]. rewrite EY. unfold interp_call in EY |- *. rewrite KR, RX, RY in EY. rewrite K.
    destruct HK as [->|[->| ->]].
    - rewrite call_left_value in EY by auto. destruct (call_left (i_xs it) (i_ys it) x) as [y|] eqn:E; [|discriminate].
      injection EY as <-. exists y. split; [reflexivity|]. split; [|reflexivity]. apply INY.
      unfold call_left in E. destruct (i_ys it); [discriminate|]. unfold nth_res in E. destruct (nth_error _ _) eqn:EN; [|discriminate].
      injection E as <-. eapply nth_error_In; eauto.
    - rewrite call_left_value in EY by auto. destruct (call_left (i_xs it) (i_ys it) x) as [y|] eqn:E; [|discriminate].
      injection EY as <-. exists y. split; [reflexivity|]. split; [|reflexivity]. apply INY.
      unfold call_left in E. destruct (i_ys it); [discriminate|]. unfold nth_res in E. destruct (nth_error _ _) eqn:EN; [|discriminate].
      injection E as <-. eapply nth_error_In; eauto.
    - rewrite call_right_value in EY by auto. destruct (call_right (i_xs it) (i_ys it) x) as [y|] eqn:E; [|discriminate].
      injection EY as <-. exists y. split; [reflexivity|]. split; [|reflexivity]. apply INY.
      unfold call_right in E. destruct (i_ys it); [discriminate|]. unfold nth_res in E. destruct (nth_error _ _) eqn:EN; [|discriminate].
      injection E as <-. eapply nth_error_In; eauto.
  Qed.

  (** the default scheme *)
  Lemma scheme_float xs ys : Forall good xs -> Forall good ys -> length xs = length ys -> xs <> [] -> NoDup (map v xs) ->
    exists f, fn_new linear_scheme xs ys = Ok f /\ forall x, good x -> exists y Y, fn_call f x = Ok (Some y) /\
      piecewise_linear (combine (map v xs) (map v ys)) (v x) Y /\
      (In y ys /\ v y = Y \/
       exists a ya b yb, In (a, ya) (combine xs ys) /\ In (b, yb) (combine xs ys) /\ y = float_chord a ya b yb x /\
         Y = chord (v a) (v ya) (v b) (v yb) (v x) /\
         consecutive (combine (map v xs) (map v ys)) (v a) (v ya) (v b) (v yb) /\ v a <= v x <= v b).
  Proof.
    intros Hx Hy HL NE ND.
    assert (HL' : length (map v xs) = length (map v ys)) by now rewrite !map_length.
    assert (NE' : map v xs <> []) by (destruct xs; [congruence|discriminate]).
    destruct (scheme_pl (map v xs) (map v ys) HL' ND NE') as [fR [ER CR]].
    assert (DD : length (dedup neqb xs) = length (dedup (neqb (Num := Rnum)) (map v xs))).
    { rewrite <- (map_length v (dedup neqb xs)). f_equal. apply (dedup_map v good); auto. intros; now apply eqb_value. }
    unfold fn_new, resolve, linear_scheme, scheme_new in ER |- *. rewrite !map_length in ER. rewrite HL, Nat.eqb_refl in ER |- *. cbn [negb] in ER |- *.
    rewrite <- HL in ER |- *. rewrite DD. destruct (length xs =? length (dedup neqb (map v xs)))%nat; cbn [negb] in ER |- *; [|discriminate].
    cbn [interp_new bind rmap] in ER |- *. injection ER as <-. eexists. split; [reflexivity|]. intros x Gx.
    destruct (CR (v x)) as (Y & CY & PL). cbn [fn_call] in *. unfold scheme_call in *. cbn [s_left s_mid s_right] in *.
    destruct (base_kept Kconstant xs ys None None Hx Hy HL NE ND) as (K & GX & GY & L2 & NE2 & SS & PM & RV).
    destruct (RV None None) as [RX RY]. rewrite RX in CY. rewrite nth_res_map, last_res_map in CY.
    destruct (nth_res_some (i_xs (base_new Kconstant xs ys None None)) 0) as [x0 [E0 I0]].
    { destruct (i_xs (base_new Kconstant xs ys None None)); [congruence|cbn; lia]. }
    rewrite E0 in CY |- *. cbn [rmap bind] in CY |- *. rewrite Forall_forall in GX.
    change (nltb (Num := Rnum) (v x) (v x0)) with (Rltb (v x) (v x0)) in CY.
    change (nltb x x0) with (SFltb x x0). rewrite ltb_value by auto.
    destruct (constant_float Kconstant xs ys ltac:(auto) Hx Hy HL NE ND x Gx) as (yc & EC & IC & ERC). rewrite ERC in CY. rewrite EC.
    destruct (Rltb (v x) (v x0)) eqn:B1.
    - injection CY as <-. exists yc, (v yc). auto.
    - destruct (last_res (i_xs (base_new Kconstant xs ys None None))) as [xn|] eqn:EN; [|discriminate].
      cbn [rmap bind] in CY |- *. change (nltb (Num := Rnum) (v xn) (v x)) with (Rltb (v xn) (v x)) in CY.
      change (nltb xn x) with (SFltb xn x).
      assert (LAST : In xn (i_xs (base_new Kconstant xs ys None None)) /\ forall z, In z (i_xs (base_new Kconstant xs ys None None)) -> v z <= v xn).
      { clear -EN SS. induction (i_xs (base_new Kconstant xs ys None None)) as [|z l IH]; [discriminate|].
        destruct l as [|w l].
        - injection EN as <-. split; [now left|]. intros z' [<-|[]]. lra.
        - inversion SS as [|? ? S1 F1]; subst. destruct (IH EN S1) as [A B]. split; [now right|].
          intros z' [<-|I']; [|auto]. apply Rlt_le. rewrite Forall_forall in F1. apply F1. exact (in_map v _ _ A). }
      destruct LAST as [IN LAST]. rewrite ltb_value by auto. destruct (Rltb (v xn) (v x)) eqn:B2.
      + injection CY as <-. exists yc, (v yc). auto.
      + rbool. destruct (linear_float xs ys Hx Hy HL NE ND x Gx) as (y & E & [(a & -> & -> & R)|(a & ya & b & yb & I1 & I2 & -> & R & CC & C1 & C2)]).
        * rewrite R in CY. injection CY as <-. rewrite E. exists y, (v y). split; auto. split; auto. left. split; [now left|reflexivity].
        * rewrite R in CY. injection CY as <-. rewrite E. eexists _, _. split; [reflexivity|]. split; [exact PL|]. right.
          exists a, ya, b, yb. do 5 (split; auto).
          assert (INX : forall z, In z (i_xs (base_new Kconstant xs ys None None)) -> exists w, In (v z, w) (combine (map v xs) (map v ys))).
          { intros z I. destruct (In_nth _ _ f64_zero I) as (j & J & Ej).
            exists (v (nth j (i_ys (base_new Kconstant xs ys None None)) f64_zero)). apply (combine_same _ _ _ _ PM).
            rewrite combine_map_vp. change (v z, v (nth j (i_ys (base_new Kconstant xs ys None None)) f64_zero)) with (vp (z, nth j (i_ys (base_new Kconstant xs ys None None)) f64_zero)).
            apply in_map. rewrite <- Ej. rewrite <- (combine_nth _ _ _ f64_zero f64_zero) by auto. apply nth_In. rewrite combine_length. lia. }
          split.
          -- destruct C1 as [C1|C1]; [lra|]. destruct (INX x0 I0) as [w W]. specialize (C1 _ _ W). lra.
          -- destruct C2 as [C2|C2]; [lra|]. destruct (INX xn IN) as [w W]. specialize (C2 _ _ W). lra.
  Qed.

  Lemma curve_float xs ys : Forall good xs -> Forall good ys -> length xs = length ys -> xs <> [] -> NoDup (map v xs) ->
    exists c, curve_new None xs ys = Ok c /\ forall x, good x -> exists y Y, curve_call c x = Ok (Some y) /\
      piecewise_linear (combine (map v xs) (map v ys)) (v x) Y /\
      (In y ys /\ v y = Y \/
       exists a ya b yb, In (a, ya) (combine xs ys) /\ In (b, yb) (combine xs ys) /\ y = float_chord a ya b yb x /\
         Y = chord (v a) (v ya) (v b) (v yb) (v x) /\
         consecutive (combine (map v xs) (map v ys)) (v a) (v ya) (v b) (v yb) /\ v a <= v x <= v b).
  Proof.
    intros Hx Hy HL NE ND. unfold curve_new. rewrite HL, Nat.eqb_refl. cbn [negb]. unfold update_fn, curve_spec.
    destruct (sorted_value xs ys Hx Hy) as (A & GX & GY). unfold sorted_data in *.
    pose proof (split_combine_eq (sort pair_ltb (combine xs ys))) as Q.
    assert (LEN : length (fst (split (sort pair_ltb (combine xs ys)))) = length (snd (split (sort pair_ltb (combine xs ys))))).
    { rewrite fst_split, snd_split, !map_length. reflexivity. }
    destruct (split (sort (pair_ltb (N := N64)) (combine xs ys))) as [p q]. cbn [fst snd] in *.
    assert (PM : Permutation (combine p q) (combine xs ys)) by (rewrite Q; apply sort_perm).
    assert (PX : Permutation p xs).
    { rewrite <- (map_fst_combine p q LEN), <- (map_fst_combine xs ys HL). now apply Permutation_map. }
    assert (PY : Permutation q ys).
    { apply (Permutation_map snd) in PM. rewrite !map_snd_combine in PM; auto. }
    destruct (scheme_float p q) as (f & E & C); auto.
    { intros ->. apply Permutation_nil in PX. congruence. }
    { eapply Permutation_NoDup; [|exact ND]. apply Permutation_map. now symmetry. }
    rewrite E. cbn [bind fst snd]. eexists. split; [reflexivity|]. intros x Gx. destruct (C x Gx) as (y & Y & E1 & PL & R).
    exists y, Y. split; [exact E1|]. pose proof (combine_same _ _ _ _ PM) as SM. split; [eapply pl_same; eauto|].
    destruct R as [[I V]|(a & ya & b & yb & I1 & I2 & E2 & E3 & CC & XX)]; [left; split; auto; eapply Permutation_in; eauto|].
    right. exists a, ya, b, yb. split; [eapply Permutation_in; eauto|]. split; [eapply Permutation_in; eauto|]. do 2 (split; auto).
    split; auto. eapply consecutive_same; eauto.
  Qed.
End Data.

(** ** no overflow *)
Lemma rnd_bound x : Rabs x <= powerRZ 2 1023 -> Rabs (rnd x) < huge.
Proof.
  intro H. apply Rle_lt_trans with (powerRZ 2 1023).
  - assert (E : rnd (powerRZ 2 1023) = powerRZ 2 1023).
    { change 2 with (IZR radix2). rewrite <- bpow_powerRZ. apply round_generic; [apply valid_rnd_round_mode|].
      apply generic_format_bpow. unfold SpecFloat.fexp, SpecFloat.emin. lia. }
    apply Rabs_le_inv in H. apply Rabs_le. split; [|rewrite <- E; apply rnd_le; lra].
    rewrite <- E. rewrite <- round_NE_opp. rewrite <- mode_NE_near. apply rnd_le. lra.
  - rewrite huge_eq. change 2 with (IZR radix2). rewrite <- !bpow_powerRZ. now apply bpow_lt.
Qed.
Lemma sub_good x y : good x -> good y -> Rabs (v x - v y) <= powerRZ 2 1023 -> good (SFsub 53 1024 x y).
Proof.
  intros [Dx Fx] [Dy Fy] H. split; [now apply sub_double|]. destruct (double_B x Dx) as [a <-], (double_B y Dy) as [b <-].
  rewrite sub_eq, !B_value in *. apply B_finite in Fx, Fy. apply B_finite.
  pose proof (Bminus_correct 53 1024 _ _ mode_NE a b Fx Fy) as C. rewrite Rlt_bool_true in C by now apply rnd_bound. apply C.
Qed.
Lemma add_good x y : good x -> good y -> Rabs (v x + v y) <= powerRZ 2 1023 -> good (SFadd 53 1024 x y).
Proof.
  intros [Dx Fx] [Dy Fy] H. split; [now apply add_double|]. destruct (double_B x Dx) as [a <-], (double_B y Dy) as [b <-].
  rewrite add_eq, !B_value in *. apply B_finite in Fx, Fy. apply B_finite.
  pose proof (Bplus_correct 53 1024 _ _ mode_NE a b Fx Fy) as C. rewrite Rlt_bool_true in C by now apply rnd_bound. apply C.
Qed.
Lemma mul_good x y : good x -> good y -> Rabs (v x * v y) <= powerRZ 2 1023 -> good (SFmul 53 1024 x y).
Proof.
  intros [Dx Fx] [Dy Fy] H. destruct (mul_finite x y Dx Dy Fx Fy (rnd_bound _ H)) as (A & B & _). now split.
Qed.
Lemma div_good x y : good x -> good y -> v y <> 0 -> Rabs (v x / v y) <= powerRZ 2 1023 -> good (SFdiv 53 1024 x y).
Proof.
  intros [Dx Fx] [Dy Fy] NZ H. split; [now apply div_double|]. destruct (double_B x Dx) as [a <-], (double_B y Dy) as [b <-].
  rewrite div_eq, !B_value in *. apply B_finite in Fx, Fy. apply B_finite.
  pose proof (Bdiv_correct 53 1024 _ _ mode_NE a b NZ) as C. rewrite Rlt_bool_true in C by now apply rnd_bound.
  destruct C as (_ & C & _). congruence.
Qed.

(** a double which is not zero is at least the smallest positive double *)
Lemma least_double x : good x -> v x <> 0 -> 2 * tiny <= Rabs (v x).
Proof.
  intros [Dx Fx] N. destruct (double_B x Dx) as [b <-]. rewrite B_value in *.
  assert (E : 2 * tiny = bpow radix2 (-1074)).
  { unfold tiny. rewrite bpow_powerRZ. change (IZR radix2) with 2. change (-1074)%Z with (1 + -1075)%Z. rewrite powerRZ_add by lra.
    change (powerRZ 2 1) with (2 * 1). ring. }
  rewrite E. pose proof (generic_format_abs _ _ _ (B_format b)) as G.
  assert (P : 0 < Rabs (B2R b)) by now apply Rabs_pos_lt.
  pose proof (generic_format_ge_bpow radix2 (FLT_exp (-1074) 53) (-1074)) as L. apply L; auto.
  intro e. unfold FLT_exp. lia.
Qed.

Lemma float_chord_finite a ya b yb x : good a -> good ya -> good b -> good yb -> good x -> v a < v b -> v a <= v x <= v b ->
  Rabs (v a) <= powerRZ 2 500 -> Rabs (v b) <= powerRZ 2 500 -> Rabs (v ya) <= powerRZ 2 500 -> Rabs (v yb) <= powerRZ 2 500 ->
  finite_float (SFsub 53 1024 a b) /\ good (float_chord a ya b yb x).
Proof.
  intros Ga Gya Gb Gyb Gx L X Ba Bb Bya Byb. pose proof u_pos as U0. pose proof u_small as U1. pose proof tiny_pos as T0.
  assert (P501 : powerRZ 2 501 = 2 * powerRZ 2 500) by (change 501%Z with (1 + 500)%Z; rewrite powerRZ_add by lra; change (powerRZ 2 1) with (2 * 1); ring).
  assert (P502 : powerRZ 2 502 = 2 * powerRZ 2 501) by (change 502%Z with (1 + 501)%Z; rewrite powerRZ_add by lra; change (powerRZ 2 1) with (2 * 1); ring).
  assert (P0 : 0 < powerRZ 2 500) by (apply powerRZ_lt; lra).
  assert (P2 : powerRZ 2 505 <= powerRZ 2 1023) by (now apply small_pow).
  assert (P505 : powerRZ 2 505 = 32 * powerRZ 2 500) by (change 505%Z with (5 + 500)%Z; rewrite powerRZ_add by lra; change (powerRZ 2 5) with (2 ^ 5); lra).
  assert (P1004 : powerRZ 2 502 * powerRZ 2 502 <= powerRZ 2 1023) by (rewrite <- powerRZ_add by lra; now apply small_pow).
  assert (P1 : 1 <= powerRZ 2 500) by (change 1 with (powerRZ 2 0); now apply small_pow).
  apply Rabs_le_inv in Ba, Bb, Bya, Byb.
  assert (Gw : good (SFsub 53 1024 a b)) by (apply sub_good; auto; apply Rabs_le; lra).
  assert (Gs : good (SFsub 53 1024 yb ya)) by (apply sub_good; auto; apply Rabs_le; lra).
  assert (Gt : good (SFsub 53 1024 a x)) by (apply sub_good; auto; apply Rabs_le; lra).
  split; [apply Gw|]. unfold float_chord.
  destruct (sub_error a b (proj1 Ga) (proj1 Gb) (proj2 Gw)) as (_ & d5 & H5 & E5).
  destruct (sub_error yb ya (proj1 Gyb) (proj1 Gya) (proj2 Gs)) as (_ & d1 & H1 & E1).
  destruct (sub_error a x (proj1 Ga) (proj1 Gx) (proj2 Gt)) as (_ & d2 & H2 & E2).
  assert (Bs : Rabs (v (SFsub 53 1024 yb ya)) <= powerRZ 2 502).
  { rewrite E1, Rabs_mult. assert (Rabs (v yb - v ya) <= 2 * powerRZ 2 500) by (apply Rabs_le; lra).
    assert (Rabs (1 + d1) <= 2) by (apply Rabs_le_inv in H1; apply Rabs_le; lra).
    apply Rle_trans with (2 * powerRZ 2 500 * 2); [apply Rmult_le_compat; auto using Rabs_pos|lra]. }
  assert (Bt : Rabs (v (SFsub 53 1024 a x)) <= 1001 / 1000 * (v b - v a)).
  { rewrite E2, Rabs_mult. rewrite Rmult_comm. apply Rmult_le_compat; auto using Rabs_pos.
    - apply Rabs_le_inv in H2; apply Rabs_le; lra.
    - apply Rabs_le; lra. }
  assert (Bw : 999 / 1000 * (v b - v a) <= Rabs (v (SFsub 53 1024 a b))).
  { rewrite E5, Rabs_mult. rewrite Rmult_comm. apply Rmult_le_compat; try lra.
    - rewrite Rabs_left by lra. lra.
    - apply Rabs_le_inv in H5. rewrite Rabs_pos_eq; lra. }
  assert (Nw : v (SFsub 53 1024 a b) <> 0).
  { intro Z. rewrite Z, Rabs_R0 in Bw. lra. }
  assert (Gm : good (SFmul 53 1024 (SFsub 53 1024 yb ya) (SFsub 53 1024 a x))).
  { apply mul_good; auto. rewrite Rabs_mult. eapply Rle_trans; [|exact P1004]. apply Rmult_le_compat; auto using Rabs_pos. lra. }
  destruct (mul_error _ _ (proj1 Gs) (proj1 Gt) (proj2 Gm)) as (_ & _ & _ & d3 & e3 & H3 & He3 & E3).
  pose proof (least_double _ Gw Nw) as LW.
  assert (PW : 0 < Rabs (v (SFsub 53 1024 a b))) by lra.
  assert (Bq : Rabs (v (SFmul 53 1024 (SFsub 53 1024 yb ya) (SFsub 53 1024 a x)) / v (SFsub 53 1024 a b)) <= 4 * powerRZ 2 502).
  { unfold Rdiv. rewrite Rabs_mult, Rabs_inv.
    apply Rmult_le_reg_r with (Rabs (v (SFsub 53 1024 a b))); auto. rewrite Rmult_assoc, Rinv_l, Rmult_1_r by lra.
    rewrite E3. eapply Rle_trans; [apply Rabs_triang|]. rewrite !Rabs_mult.
    set (s := Rabs (v (SFsub 53 1024 yb ya))) in *. set (t := Rabs (v (SFsub 53 1024 a x))) in *. set (w := Rabs (v (SFsub 53 1024 a b))) in *.
    assert (T1 : 0 <= t <= 2 * w) by (split; [apply Rabs_pos|lra]). assert (S1 : 0 <= s) by apply Rabs_pos.
    assert (Rabs (1 + d3) <= 1001 / 1000) by (apply Rabs_le_inv in H3; apply Rabs_le; lra).
    assert (s * t <= powerRZ 2 502 * (2 * w)) by (apply Rmult_le_compat; lra).
    assert (s * t * Rabs (1 + d3) <= powerRZ 2 502 * (2 * w) * (1001 / 1000)).
    { apply Rmult_le_compat; auto using Rabs_pos. apply Rmult_le_pos; lra. }
    assert (w <= powerRZ 2 502 * w) by (rewrite <- (Rmult_1_l w) at 1; apply Rmult_le_compat_r; lra). lra. }
  assert (Gq : good (SFdiv 53 1024 (SFmul 53 1024 (SFsub 53 1024 yb ya) (SFsub 53 1024 a x)) (SFsub 53 1024 a b))).
  { apply div_good; auto. lra. }
  apply add_good; auto.
  destruct (div_round _ _ (proj1 Gm) (proj1 Gw) (proj2 Gw) Nw (proj2 Gq)) as (_ & _ & Eq).
  destruct (rnd_error (v (SFmul 53 1024 (SFsub 53 1024 yb ya) (SFsub 53 1024 a x)) / v (SFsub 53 1024 a b))) as (d4 & e4 & H4 & He4 & E4).
  rewrite Eq, E4. eapply Rle_trans; [apply Rabs_triang|]. assert (Rabs (v ya) <= powerRZ 2 500) by (apply Rabs_le; lra).
  match goal with |- _ + Rabs (?q * _ + _) <= _ => set (Q := q) in * end.
  assert (Rabs (Q * (1 + d4) + e4) <= 5 * powerRZ 2 502 + tiny).
  { eapply Rle_trans; [apply Rabs_triang|]. rewrite Rabs_mult. assert (Rabs (1 + d4) <= 5 / 4) by (apply Rabs_le_inv in H4; apply Rabs_le; lra).
    assert (Rabs Q * Rabs (1 + d4) <= 4 * powerRZ 2 502 * (5 / 4)) by (apply Rmult_le_compat; auto using Rabs_pos). lra. }
  pose proof tiny_lt_u. lra.
Qed.

(** between equal values *)
Lemma float_chord_flat a ya b yb x K : good a -> good ya -> good b -> good yb -> good x -> v a < v b ->
  finite_float (SFsub 53 1024 a b) -> finite_float (float_chord a ya b yb x) -> v ya = K -> v yb = K -> v (float_chord a ya b yb x) = K.
Proof.
  intros [Da Fa] [Dya Fya] [Db Fb] [Dyb Fyb] [Dx Fx] L Fw Fy <- E. unfold float_chord in *.
  pose proof (sub_double a b Da Db) as Dw. pose proof (sub_double yb ya Dyb Dya) as Ds. pose proof (sub_double a x Da Dx) as Dt.
  pose proof (mul_double _ _ Ds Dt) as Dm. pose proof (div_double _ _ Dm Dw) as Dq.
  destruct (sub_error a b Da Db Fw) as (_ & d5 & H5 & E5). pose proof u_small as U1.
  assert (Nw : v (SFsub 53 1024 a b) <> 0) by (rewrite E5; apply Rabs_le_inv in H5; apply Rmult_integral_contrapositive_currified; lra).
  destruct (add_round _ _ Dya Dq Fy) as (_ & Fq & _ & ->). destruct (div_round _ _ Dm Dw Fw Nw Fq) as (Fm & _ & ->).
  destruct (mul_round _ _ Ds Dt Fm) as (Fs & Ft & _ & ->). destruct (sub_round _ _ Dyb Dya Fs) as (_ & _ & _ & ->).
  rewrite E, Rminus_diag_eq, rnd_0, Rmult_0_l, rnd_0 by reflexivity. unfold Rdiv. rewrite Rmult_0_l, rnd_0, Rplus_0_r. now apply rnd_value.
Qed.
