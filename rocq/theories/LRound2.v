(** Lemmas on rounding: the compounding functions in double precision. *)
From Coq Require Import ZArith Lia List Bool Reals Lra Floats.SpecFloat.
From Flocq Require Import Core Relative Plus_error BinarySingleNaN.
From Verif Require Import Num MCompounding MFloat SRound LRound.
Import ListNotations.
Local Open Scope R_scope.

#[local] Existing Instances prec53 prec_emax.
Notation huge := (bpow radix2 1024).

Lemma one_float : f64_ofZ 1 = S754_finite false 4503599627370496 (-52).
Proof. vm_compute. reflexivity. Qed.
Lemma one_double : is_double (f64_ofZ 1).
Proof. vm_compute. reflexivity. Qed.
Lemma one_finite : finite_float (f64_ofZ 1).
Proof. rewrite one_float. exact I. Qed.
Lemma one_value : float_value (f64_ofZ 1) = 1.
Proof. rewrite one_float. cbn [float_value]. change (powerRZ 2 (-52)) with (/ 2 ^ 52). lra. Qed.

(** * rounding *)
Lemma rnd_le x y : x <= y -> rnd x <= rnd y.
Proof. apply round_le; apply valid_rnd_round_mode || apply (fexp_correct 53 1024 _). Qed.
Lemma rnd_0 : rnd 0 = 0.
Proof. apply round_0. apply valid_rnd_round_mode. Qed.
Lemma rnd_value x : is_double x -> rnd (float_value x) = float_value x.
Proof.
  intro H. destruct (double_B x H) as [b <-]. rewrite B_value. apply round_generic; [apply valid_rnd_round_mode|].
  apply generic_format_B2R.
Qed.
Lemma rnd_1 : rnd 1 = 1.
Proof. rewrite <- one_value. apply rnd_value, one_double. Qed.
Lemma huge_gt_1 : 1 < huge.
Proof. exact (bpow_lt radix2 0 1024 eq_refl). Qed.
Lemma rnd_nonneg x : 0 <= x -> 0 <= rnd x.
Proof. intro. rewrite <- rnd_0. now apply rnd_le. Qed.

(** * operations that may overflow *)
Lemma B_sign_pos (b : B64) : 0 <= B2R b -> B2R b <> 0 -> Bsign b = false.
Proof.
  destruct b as [s|s| |s m e B]; cbn [B2R Bsign]; try (intros; lra). destruct s; auto. intros H _. exfalso.
  assert (G : F2R (Float radix2 (cond_Zopp true (Z.pos m)) e) < 0) by now apply F2R_lt_0. exact (Rlt_not_le _ _ G H).
Qed.
Lemma mul_total x y : is_double x -> is_double y -> finite_float x -> finite_float y -> 0 <= float_value x -> 0 <= float_value y ->
  is_double (SFmul 53 1024 x y) /\
  (finite_float (SFmul 53 1024 x y) /\ float_value (SFmul 53 1024 x y) = rnd (float_value x * float_value y) \/
   SFmul 53 1024 x y = S754_infinity false /\ huge <= rnd (float_value x * float_value y)).
Proof.
  intros Hx Hy. destruct (double_B x Hx) as [a <-], (double_B y Hy) as [b <-]. rewrite mul_eq, !B_value.
  intros Fx Fy Nx Ny. apply B_finite in Fx, Fy. split; [apply B_double|].
  pose proof (Bmult_correct 53 1024 _ _ mode_NE a b) as C.
  assert (NN : 0 <= rnd (B2R a * B2R b)) by (apply rnd_nonneg; now apply Rmult_le_pos).
  destruct (Rlt_bool_spec (Rabs (rnd (B2R a * B2R b))) huge) as [L|L].
  - left. destruct C as (C1 & C2 & _). split; auto. apply B_finite. now rewrite C2, Fx, Fy.
  - right. rewrite C. rewrite Rabs_pos_eq in L by auto. split; auto.
    assert (Q : B2R a <> 0 /\ B2R b <> 0).
    { split; intro Z; rewrite Z, ?Rmult_0_l, ?Rmult_0_r, rnd_0 in L; pose proof huge_gt_1; lra. }
    rewrite !B_sign_pos by tauto. reflexivity.
Qed.
Lemma add_one_total x : is_double x -> finite_float x -> 0 <= float_value x ->
  is_double (SFadd 53 1024 (f64_ofZ 1) x) /\
  (finite_float (SFadd 53 1024 (f64_ofZ 1) x) /\ float_value (SFadd 53 1024 (f64_ofZ 1) x) = rnd (1 + float_value x) \/
   SFadd 53 1024 (f64_ofZ 1) x = S754_infinity false /\ huge <= rnd (1 + float_value x)).
Proof.
  intros Hx Fx Nx. destruct (double_B _ one_double) as [o E]. destruct (double_B x Hx) as [b <-].
  assert (V1 : B2R o = 1) by (rewrite <- one_value, <- E; symmetry; apply B_value).
  assert (F1 : is_finite o = true) by (apply B_finite; rewrite E; apply one_finite).
  rewrite <- E, add_eq, !B_value in *. apply B_finite in Fx. split; [apply B_double|].
  pose proof (Bplus_correct 53 1024 _ _ mode_NE o b F1 Fx) as C. rewrite V1 in C.
  assert (NN : 0 <= rnd (1 + B2R b)) by (apply rnd_nonneg; lra).
  destruct (Rlt_bool_spec (Rabs (rnd (1 + B2R b))) huge) as [L|L].
  - left. destruct C as (C1 & C2 & _). split; auto. now apply B_finite.
  - right. destruct C as [C _]. rewrite C. rewrite Rabs_pos_eq in L by auto. split; auto.
    rewrite B_sign_pos by lra. reflexivity.
Qed.
Lemma one_div x : is_double x -> finite_float x -> 1 <= float_value x ->
  is_double (SFdiv 53 1024 (f64_ofZ 1) x) /\ finite_float (SFdiv 53 1024 (f64_ofZ 1) x) /\
  float_value (SFdiv 53 1024 (f64_ofZ 1) x) = rnd (1 / float_value x).
Proof.
  intros Hx Fx Nx. destruct (double_B _ one_double) as [o E]. destruct (double_B x Hx) as [b <-].
  assert (V1 : B2R o = 1) by (rewrite <- one_value, <- E; symmetry; apply B_value).
  assert (F1 : is_finite o = true) by (apply B_finite; rewrite E; apply one_finite).
  rewrite <- E, div_eq, !B_value in *. split; [apply B_double|].
  assert (Q : 0 <= rnd (1 / B2R b) <= 1).
  { split; [apply rnd_nonneg|rewrite <- rnd_1 at 2; apply rnd_le].
    - apply Rlt_le, Rdiv_lt_0_compat; lra.
    - apply Rmult_le_reg_r with (B2R b); [lra|]. unfold Rdiv. rewrite Rmult_assoc, Rinv_l; lra. }
  pose proof (Bdiv_correct 53 1024 _ _ mode_NE o b) as C. rewrite V1 in C. specialize (C ltac:(lra)).
  rewrite Rlt_bool_true in C; [|rewrite Rabs_pos_eq by lra; pose proof huge_gt_1; lra].
  destruct C as (C1 & C2 & _). split; auto. apply B_finite. congruence.
Qed.
Lemma not_zero x : float_value x <> 0 -> SFeqb x f64_zero = false.
Proof. destruct x as [s|s| |s m e]; cbn; try (intros; exfalso; lra). now destruct s. Qed.

(** * simple compounding *)
Lemma simple_cases lib r t : is_double r -> is_double t -> finite_float r -> finite_float t ->
  0 <= float_value r -> 0 <= float_value t ->
  exists y, simple_compounding (N := f64 lib) r t = Ok y /\ is_double y /\ finite_float y /\
    let p := rnd (float_value r * float_value t) in let s := rnd (1 + p) in
    (float_value y = rnd (1 / s) /\ p < huge /\ s < huge \/ float_value y = 0 /\ (huge <= p \/ p < huge /\ huge <= s)).
Proof.
  intros Dr Dt Fr Ft Nr Nt. unfold simple_compounding. cbn [ndiv f64 n1 nadd nmul].
  destruct (mul_total r t Dr Dt Fr Ft Nr Nt) as (Dp & [[Fp Vp]|[Ep Hp]]).
  - assert (Np : 0 <= float_value (SFmul 53 1024 r t)) by (rewrite Vp; apply rnd_nonneg; now apply Rmult_le_pos).
    assert (Lp : rnd (float_value r * float_value t) < huge).
    { rewrite <- Vp. destruct (double_B _ Dp) as [b <-]. rewrite B_value. eapply Rle_lt_trans; [apply Rle_abs|]. apply abs_B2R_lt_emax. }
    destruct (add_one_total _ Dp Fp Np) as (Ds & [[Fs Vs]|[Es Hs]]).
    + assert (Ns : 1 <= float_value (SFadd 53 1024 (f64_ofZ 1) (SFmul 53 1024 r t))).
      { rewrite Vs, <- rnd_1 at 1. apply rnd_le. lra. }
      rewrite not_zero by lra. destruct (one_div _ Ds Fs Ns) as (Dy & Fy & Vy). rewrite Vs, Vp in Vy.
      eexists. split; [reflexivity|]. split; [auto|]. split; [auto|]. left. split; auto. split; auto.
      rewrite <- Vp, <- Vs. destruct (double_B _ Ds) as [b <-]. rewrite B_value. eapply Rle_lt_trans; [apply Rle_abs|]. apply abs_B2R_lt_emax.
    + rewrite Es. exists (S754_zero false). rewrite one_float. cbn [SFeqb SFcompare f64_zero]. split; [reflexivity|].
      split; [reflexivity|]. split; [exact I|]. right. split; [reflexivity|]. right. rewrite Vp in Hs. auto.
  - rewrite Ep. exists (S754_zero false). rewrite one_float. cbn. split; [reflexivity|].
    split; [reflexivity|]. split; [exact I|]. right. split; [reflexivity|]. now left.
Qed.

(** rounding numbers that are not small *)
Lemma rnd_rel x : powerRZ 2 (-1022) <= Rabs x -> exists d, Rabs d <= rounding_unit /\ rnd x = x * (1 + d).
Proof.
  intro H. destruct (relative_error_N_FLT_ex radix2 (-1074) 53 eq_refl (fun x => negb (Z.even x)) x) as (d & H1 & H2).
  { rewrite (bpow_powerRZ radix2). exact H. }
  exists d. split; [|exact H2]. rewrite <- u_eq. exact H1.
Qed.
Lemma sub_error (x y : float64) : is_double x -> is_double y -> finite_float (SFsub 53 1024 x y) ->
  is_double (SFsub 53 1024 x y) /\
  exists d, Rabs d <= rounding_unit /\ float_value (SFsub 53 1024 x y) = (float_value x - float_value y) * (1 + d).
Proof.
  intros Hx Hy F. destruct (sub_round x y Hx Hy F) as (A & B & C & ->). split; auto.
  destruct (double_B x Hx) as [a <-], (double_B y Hy) as [b <-]. rewrite !B_value.
  destruct (FLT_plus_error_N_ex radix2 (-1074) 53 (fun x => negb (Z.even x)) (B2R a) (- B2R b) (B_format a)) as (d & H1 & H2).
  { apply generic_format_opp, B_format. }
  exists d. split; [now apply u_le|exact H2].
Qed.

Lemma small_pow a b : (a <= b)%Z -> powerRZ 2 a <= powerRZ 2 b.
Proof. change 2 with (IZR radix2). rewrite <- !bpow_powerRZ. apply bpow_le. Qed.
Lemma huge_eq : huge = powerRZ 2 1024.
Proof. apply (bpow_powerRZ radix2). Qed.
Lemma tiny_lt_u : tiny <= rounding_unit / 1000.
Proof.
  unfold tiny, rounding_unit. change (/ 2 ^ 53) with (powerRZ 2 (-53)).
  assert (powerRZ 2 (-1075) <= powerRZ 2 (-63)) by now apply small_pow.
  replace (powerRZ 2 (-53)) with (1024 * powerRZ 2 (-63)).
  - pose proof (powerRZ_lt 2 (-63)). lra.
  - change (-53)%Z with (10 + -63)%Z. rewrite powerRZ_add by lra. f_equal. change (powerRZ 2 10) with (2 ^ 10). lra.
Qed.

(** the error of 1 / (1 + p) for a rounded product p; D = 1 + r t *)
Lemma simple_error_rel q y D p s : 0 <= q -> D = 1 + q -> p = rnd q -> s = rnd (1 + p) -> y = rnd (1 / s) ->
  exists d1 d2, Rabs d1 <= 4 * rounding_unit - rounding_unit / 10 /\ Rabs d2 <= tiny /\ y = / D * (1 + d1) + d2 /\
                (D <= powerRZ 2 1000 -> d2 = 0).
Proof.
  intros Hq HD Hp Hs Hy. destruct (rnd_error q) as (a & e & Ha & He & Ep). rewrite <- Hp in Ep.
  assert (Np : 0 <= p) by (rewrite Hp; now apply rnd_nonneg).
  pose proof u_pos as U0. pose proof u_small as U1. pose proof tiny_lt_u as T1. pose proof tiny_pos as T0.
  destruct (rnd_rel (1 + p)) as (b & Hb & Es).
  { rewrite Rabs_pos_eq by lra. assert (powerRZ 2 (-1022) <= powerRZ 2 0) by now apply small_pow. cbn [powerRZ] in *. lra. }
  rewrite <- Hs in Es. set (u := rounding_unit) in *.
  apply Rabs_le_inv in Ha, He, Hb.
  assert (DP : 1 <= D) by lra.
  assert (Th : exists th, Rabs th <= u + u / 1000 /\ 1 + p = D * (1 + th)).
  { exists ((1 + p) / D - 1). split; [|field; lra].
    replace ((1 + p) / D - 1) with ((q * a + e) / D) by (rewrite Ep, HD; field; lra).
    apply Rabs_le. assert (ID : 0 < / D) by (apply Rinv_0_lt_compat; lra).
    assert (ID1 : D * / D = 1) by (field; lra). unfold Rdiv.
    split; [apply Rmult_le_reg_r with D; [lra|]|apply Rmult_le_reg_r with D; [lra|]]; rewrite Rmult_assoc, (Rmult_comm (/ D)), ID1, Rmult_1_r; nra. }
  destruct Th as (th & Hth & Eth). apply Rabs_le_inv in Hth. rewrite Eth in Es.
  assert (Sp : 0 < s) by (rewrite Es; apply Rmult_lt_0_compat; [apply Rmult_lt_0_compat|]; nra).
  set (z := (1 + th) * (1 + b)) in *. assert (Z1 : 1 - 21/10 * u <= z <= 1 + 21/10 * u) by (unfold z; nra).
  assert (Es' : 1 / s = / D * / z) by (rewrite Es; unfold z in *; field; nra).
  set (w := / z) in *. assert (W1 : z * w = 1) by (unfold w; field; lra).
  assert (W2 : 1 - 25/10 * u <= w <= 1 + 25/10 * u) by nra.
  assert (ID : 0 < / D) by (apply Rinv_0_lt_compat; lra).
  assert (W3 : forall d, - u <= d <= u -> Rabs (w * (1 + d) - 1) <= 4 * u - u / 10).
  { intros d Hd. replace (w * (1 + d) - 1) with ((w - 1) + d + (w - 1) * d) by ring.
    assert (A : Rabs ((w - 1) * d) <= 25/10 * u * u).
    { rewrite Rabs_mult. apply Rmult_le_compat; auto using Rabs_pos; apply Rabs_le; lra. }
    apply Rabs_le_inv in A. apply Rabs_le. nra. }
  destruct (Rle_or_lt D (powerRZ 2 1000)) as [B|B].
  - destruct (rnd_rel (1 / s)) as (d & Hd & Ey).
    { rewrite Es'. rewrite Rabs_pos_eq by nra.
      assert (powerRZ 2 (-1000) <= / D).
      { replace (powerRZ 2 (-1000)) with (/ powerRZ 2 1000) by (symmetry; apply (powerRZ_neg' 2 1000)). apply Rinv_le_contravar; lra. }
      assert (powerRZ 2 (-1022) <= powerRZ 2 (-1001)) by now apply small_pow.
      assert (powerRZ 2 (-1000) = 2 * powerRZ 2 (-1001)) by (change (-1000)%Z with (1 + -1001)%Z; rewrite powerRZ_add by lra; change (powerRZ 2 1) with (2 * 1); lra). nra. }
    apply Rabs_le_inv in Hd. rewrite <- Hy, Es' in Ey. exists (w * (1 + d) - 1), 0.
    split; [auto|]. split; [rewrite Rabs_R0; lra|]. split; [rewrite Ey; ring|auto].
  - destruct (rnd_error (1 / s)) as (d & f & Hd & Hf & Ey). apply Rabs_le_inv in Hd. rewrite <- Hy, Es' in Ey.
    exists (w * (1 + d) - 1), f. split; [auto|]. split; [auto|]. split; [rewrite Ey; ring|lra].
Qed.

Lemma simple_mono lib r t r' t' y y' : is_double r -> is_double t -> finite_float r -> finite_float t ->
  is_double r' -> is_double t' -> finite_float r' -> finite_float t' ->
  0 <= float_value r <= float_value r' -> 0 <= float_value t <= float_value t' ->
  simple_compounding (N := f64 lib) r t = Ok y -> simple_compounding (N := f64 lib) r' t' = Ok y' ->
  float_value y' <= float_value y.
Proof.
  intros Dr Dt Fr Ft Dr' Dt' Fr' Ft' Hr Ht E E'.
  destruct (simple_cases lib r t) as (z & Ez & _ & _ & C); auto; try lra. rewrite E in Ez. injection Ez as <-.
  destruct (simple_cases lib r' t') as (z & Ez & _ & Fz & C'); auto; try lra. rewrite E' in Ez. injection Ez as <-.
  cbv zeta in C, C'.
  assert (Q0 : 0 <= float_value r * float_value t) by (apply Rmult_le_pos; lra).
  assert (Q : float_value r * float_value t <= float_value r' * float_value t') by (apply Rmult_le_compat; lra).
  set (q := float_value r * float_value t) in *. set (q' := float_value r' * float_value t') in *.
  pose proof (rnd_nonneg _ Q0) as P0. pose proof (rnd_le _ _ Q) as P1.
  pose proof (rnd_le (1 + rnd q) (1 + rnd q') ltac:(lra)) as P2.
  assert (S1 : 1 <= rnd (1 + rnd q)) by (rewrite <- rnd_1 at 1; apply rnd_le; lra).
  set (s := rnd (1 + rnd q)) in *. set (s' := rnd (1 + rnd q')) in *.
  destruct C as [(-> & A1 & A2)|[-> A]], C' as [(-> & B1 & B2)|[-> B]]; try lra.
  - apply rnd_le. unfold Rdiv. apply Rmult_le_compat_l; [lra|]. apply Rinv_le_contravar; lra.
  - apply rnd_nonneg, Rlt_le, Rdiv_lt_0_compat; lra.
Qed.

Lemma simple_error lib r t y : is_double r -> is_double t -> finite_float r -> finite_float t ->
  0 <= float_value r -> 0 <= float_value t -> simple_compounding (N := f64 lib) r t = Ok y ->
  Rabs (float_value y - / (1 + float_value r * float_value t)) <=
    4 * rounding_unit * / (1 + float_value r * float_value t) + powerRZ 2 (-1023).
Proof.
  intros Dr Dt Fr Ft Nr Nt E.
  destruct (simple_cases lib r t) as (z & Ez & _ & _ & C); auto. rewrite E in Ez. injection Ez as <-. cbv zeta in C.
  assert (Q0 : 0 <= float_value r * float_value t) by (apply Rmult_le_pos; lra).
  set (q := float_value r * float_value t) in *.
  pose proof u_pos as U0. pose proof u_small as U1. pose proof tiny_pos as T0. pose proof tiny_lt_u as T1.
  assert (T2 : tiny <= powerRZ 2 (-1023)) by now apply small_pow.
  assert (ID : 0 < / (1 + q)) by (apply Rinv_0_lt_compat; lra).
  destruct C as [(V & _)|[-> A]].
  - destruct (simple_error_rel q (float_value y) (1 + q) (rnd q) (rnd (1 + rnd q))) as (a & b & Ha & Hb & Ey & _); auto.
    rewrite Ey. replace (/ (1 + q) * (1 + a) + b - / (1 + q)) with (/ (1 + q) * a + b) by ring.
    eapply Rle_trans; [apply Rabs_triang|]. rewrite Rabs_mult, (Rabs_pos_eq (/ (1 + q))) by lra. nra.
  - rewrite Rminus_0_l, Rabs_Ropp, Rabs_pos_eq by lra.
    assert (K : powerRZ 2 1023 <= 1 + q).
    { assert (HH : huge = 2 * powerRZ 2 1023).
      { rewrite huge_eq. change 1024%Z with (1 + 1023)%Z. rewrite powerRZ_add by lra. change (powerRZ 2 1) with (2 * 1). lra. }
      assert (HG : 1 <= powerRZ 2 1023) by (change 1 with (powerRZ 2 0); now apply small_pow).
      destruct (rnd_error q) as (a & e & Ha & He & Ep). apply Rabs_le_inv in Ha, He.
      destruct A as [A|[_ A]]; [nra|].
      destruct (rnd_error (1 + rnd q)) as (b & f & Hb & Hf & Es). apply Rabs_le_inv in Hb, Hf.
      rewrite Es in A. pose proof (rnd_nonneg _ Q0). nra. }
    assert (K2 : / (1 + q) <= / powerRZ 2 1023) by (apply Rinv_le_contravar; [apply powerRZ_lt; lra|auto]).
    change (powerRZ 2 (-1023)) with (powerRZ 2 (- (1023))). rewrite (powerRZ_neg' 2 1023). nra.
Qed.

Lemma simple_rate_error lib r t y r' : is_double r -> is_double t -> finite_float r -> finite_float t ->
  0 <= float_value r -> 0 < float_value t -> float_value r * float_value t <= powerRZ 2 900 ->
  simple_compounding (N := f64 lib) r t = Ok y -> simple_rate (N := f64 lib) y t = Ok r' -> finite_float r' ->
  Rabs (float_value r' - float_value r) <= 8 * rounding_unit * ((1 + float_value r * float_value t) / float_value t) + tiny.
Proof.
  intros Dr Dt Fr Ft Nr Nt B E E' Fr'.
  destruct (simple_cases lib r t) as (z & Ez & Dy & Fy & C); auto; try lra. rewrite E in Ez. injection Ez as <-. cbv zeta in C.
  assert (Q0 : 0 <= float_value r * float_value t) by (apply Rmult_le_pos; lra).
  assert (G1 : 1 <= powerRZ 2 900) by (change 1 with (powerRZ 2 0); now apply small_pow).
  assert (G2 : powerRZ 2 901 = 2 * powerRZ 2 900) by (change 901%Z with (1 + 900)%Z; rewrite powerRZ_add by lra; change (powerRZ 2 1) with (2 * 1); lra).
  assert (G3 : powerRZ 2 902 = 2 * powerRZ 2 901) by (change 902%Z with (1 + 901)%Z; rewrite powerRZ_add by lra; change (powerRZ 2 1) with (2 * 1); lra).
  assert (G4 : powerRZ 2 902 <= huge) by (rewrite huge_eq; now apply small_pow).
  assert (G5 : powerRZ 2 902 <= powerRZ 2 1000) by now apply small_pow.
  pose proof u_pos as U0. pose proof u_small as U1. pose proof tiny_pos as T0. pose proof tiny_lt_u as T1.
  set (q := float_value r * float_value t) in *. set (u := rounding_unit) in *.
  assert (NO : ~ (huge <= rnd q \/ rnd q < huge /\ huge <= rnd (1 + rnd q))).
  { destruct (rnd_error q) as (a & e & Ha & He & Ep). apply Rabs_le_inv in Ha, He. fold u in Ha.
    destruct (rnd_error (1 + rnd q)) as (b & f & Hb & Hf & Es). apply Rabs_le_inv in Hb, Hf. fold u in Hb.
    pose proof (rnd_nonneg _ Q0). assert (rnd q <= 2 * powerRZ 2 900 - 1 / 2) by nra.
    assert (rnd (1 + rnd q) < 4 * powerRZ 2 900) by (rewrite Es; nra). lra. }
  destruct C as [(V & _)|[_ A]]; [|contradiction].
  destruct (simple_error_rel q (float_value y) (1 + q) (rnd q) (rnd (1 + rnd q))) as (a & b & Ha & _ & Ey & Zb); auto.
  rewrite Zb, Rplus_0_r in Ey by lra. clear Zb b NO V. fold u in Ha. apply Rabs_le_inv in Ha.
  set (Dd := 1 + q) in *. assert (D1 : 1 <= Dd) by (unfold Dd; lra). assert (D2 : Dd <= powerRZ 2 902) by (unfold Dd; lra).
  assert (ID : 0 < / Dd) by (apply Rinv_0_lt_compat; lra).
  assert (Yp : 0 < float_value y) by (rewrite Ey; apply Rmult_lt_0_compat; lra).
  unfold simple_rate in E'. cbn [ndiv f64 nsub n1] in E'. rewrite (not_zero y) in E' by lra. cbn [bind] in E'.
  rewrite (not_zero t) in E' by lra. apply (f_equal (fun z => match z with Ok b => b | Err _ => r' end)) in E'. cbv beta iota in E'.
  (* 1 / y is finite *)
  assert (X : is_double (SFdiv 53 1024 (f64_ofZ 1) y) /\ finite_float (SFdiv 53 1024 (f64_ofZ 1) y) /\
              float_value (SFdiv 53 1024 (f64_ofZ 1) y) = rnd (1 / float_value y) /\
              exists c, - u <= c <= u /\ rnd (1 / float_value y) = 1 / float_value y * (1 + c)).
  { assert (Iy : 1 / float_value y = Dd * / (1 + a)) by (rewrite Ey; field; split; lra).
    assert (IA : 9 / 10 <= / (1 + a) <= 2).
    { split; [apply Rmult_le_reg_r with (1 + a)|apply Rmult_le_reg_r with (1 + a)]; try lra; rewrite Rinv_l; lra. }
    assert (RR : exists c, - u <= c <= u /\ rnd (1 / float_value y) = 1 / float_value y * (1 + c)).
    { destruct (rnd_rel (1 / float_value y)) as (c & Hc & Ec).
      - rewrite Iy, Rabs_pos_eq by nra. assert (2 * powerRZ 2 (-1022) <= 1 / 2); [|nra].
        assert (powerRZ 2 (-1022) <= powerRZ 2 (-2)) by now apply small_pow. change (powerRZ 2 (-2)) with (/ (2 * (2 * 1))) in *. lra.
      - exists c. split; auto. now apply Rabs_le_inv. }
    destruct RR as (c & Hc & Ec).
    assert (LT : Rabs (rnd (1 / float_value y)) < huge).
    { rewrite Ec, Iy. rewrite Rabs_pos_eq by (apply Rmult_le_pos; [apply Rmult_le_pos|]; lra).
      assert (Dd * / (1 + a) <= powerRZ 2 902 * 2) by nra.
      assert (Dd * / (1 + a) * (1 + c) <= powerRZ 2 902 * 2 * 2) by nra.
      assert (powerRZ 2 902 * 2 * 2 = powerRZ 2 904).
      { change 904%Z with (902 + 2)%Z. rewrite powerRZ_add by lra. change (powerRZ 2 2) with (2 * (2 * 1)). ring. }
      assert (powerRZ 2 904 < huge) by (rewrite huge_eq; change 2 with (IZR radix2); rewrite <- !bpow_powerRZ; apply bpow_lt; reflexivity). lra. }
    destruct (double_B _ one_double) as [o Eo]. destruct (double_B y Dy) as [yb Eyb].
    assert (V1 : B2R o = 1) by (rewrite <- one_value, <- Eo; symmetry; apply B_value).
    assert (F1 : is_finite o = true) by (apply B_finite; rewrite Eo; apply one_finite).
    assert (VY : B2R yb = float_value y) by (rewrite <- Eyb; symmetry; apply B_value).
    rewrite <- Eo, <- Eyb at 1 2 3. rewrite div_eq. split; [apply B_double|].
    pose proof (Bdiv_correct 53 1024 _ _ mode_NE o yb) as C. rewrite V1, VY in C. specialize (C ltac:(lra)).
    rewrite Rlt_bool_true in C by auto. destruct C as (C1 & C2 & _).
    split; [apply B_finite; congruence|]. split; [rewrite B_value; exact C1|]. exists c. auto. }
  destruct X as (Dx & Fx & Vx & c & Hc & Ec). rewrite Ec in Vx. set (xf := SFdiv 53 1024 (f64_ofZ 1) y) in *.
  assert (Dw : is_double (SFsub 53 1024 xf (f64_ofZ 1))).
  { destruct (double_B _ Dx) as [xb <-], (double_B _ one_double) as [o <-]. rewrite sub_eq. apply B_double. }
  rewrite <- E' in Fr'. destruct (div_round _ t Dw Dt Ft ltac:(lra) Fr') as (Fw & _ & Vr). rewrite E' in Vr.
  destruct (sub_error xf (f64_ofZ 1) Dx one_double Fw) as (_ & f & Hf & Ew). fold u in Hf. apply Rabs_le_inv in Hf.
  rewrite one_value in Ew. rewrite Vx in Ew. rewrite Ew in Vr.
  destruct (rnd_error ((1 / float_value y * (1 + c) - 1) * (1 + f) / float_value t)) as (g & e & Hg & He & Eg).
  rewrite <- Vr in Eg. fold u in Hg. apply Rabs_le_inv in Hg.
  set (T := float_value t) in *. set (rr := float_value r) in *.
  assert (Iy : 1 / float_value y = Dd * / (1 + a)) by (rewrite Ey; field; split; lra). rewrite Iy in Eg.
  set (k := / (1 + a) * (1 + c) - 1).
  assert (KK : - (51 / 10 * u) <= k <= 51 / 10 * u).
  { assert (k * (1 + a) = c - a) by (unfold k; field; lra). split; apply Rmult_le_reg_r with (1 + a); try lra; nra. }
  set (m := (1 + f) * (1 + g) - 1). assert (MM : - (21 / 10 * u) <= m <= 21 / 10 * u) by (unfold m; nra).
  assert (R1 : float_value r' - rr = q / T * m + Dd / T * k * (1 + m) + e).
  { rewrite Eg. unfold k, m. replace rr with (q / T) by (unfold q; field; lra). unfold Dd. field. split; lra. }
  rewrite R1. assert (IT : 0 < / T) by now apply Rinv_0_lt_compat.
  assert (A1 : Rabs (q / T * m) <= Dd / T * (21 / 10 * u)).
  { rewrite Rabs_mult. unfold Rdiv. rewrite (Rabs_pos_eq (q * / T)) by (apply Rmult_le_pos; lra).
    apply Rmult_le_compat; [apply Rmult_le_pos; lra|apply Rabs_pos|apply Rmult_le_compat_r; unfold Dd; lra|apply Rabs_le; lra]. }
  assert (A2 : Rabs (Dd / T * k * (1 + m)) <= Dd / T * (53 / 10 * u)).
  { rewrite Rmult_assoc, Rabs_mult. unfold Rdiv. rewrite (Rabs_pos_eq (Dd * / T)) by (apply Rmult_le_pos; lra).
    apply Rmult_le_compat_l; [apply Rmult_le_pos; lra|]. rewrite Rabs_mult.
    apply Rle_trans with ((51 / 10 * u) * (1 + 21 / 10 * u)); [|nra].
    apply Rmult_le_compat; auto using Rabs_pos; apply Rabs_le; lra. }
  assert (A3 : 0 <= Dd / T * u) by (apply Rmult_le_pos; [apply Rmult_le_pos|]; lra).
  eapply Rle_trans; [apply Rabs_triang|]. eapply Rle_trans; [apply Rplus_le_compat_r, Rabs_triang|]. nra.
Qed.

(** * continuous compounding *)
Lemma mul_finite x y : is_double x -> is_double y -> finite_float x -> finite_float y ->
  Rabs (rnd (float_value x * float_value y)) < huge ->
  is_double (SFmul 53 1024 x y) /\ finite_float (SFmul 53 1024 x y) /\
  float_value (SFmul 53 1024 x y) = rnd (float_value x * float_value y).
Proof.
  intros Hx Hy. destruct (double_B x Hx) as [a <-], (double_B y Hy) as [b <-]. rewrite mul_eq, !B_value.
  intros Fx Fy L. apply B_finite in Fx, Fy. split; [apply B_double|].
  pose proof (Bmult_correct 53 1024 _ _ mode_NE a b) as C. rewrite Rlt_bool_true in C by auto.
  destruct C as (C1 & C2 & _). split; auto. apply B_finite. now rewrite C2, Fx, Fy.
Qed.
Lemma neg_one_value : float_value (SFopp (f64_ofZ 1)) = -1 /\ is_double (SFopp (f64_ofZ 1)) /\ finite_float (SFopp (f64_ofZ 1)).
Proof.
  rewrite one_float. split; [|split; [reflexivity|exact I]]. cbn [SFopp negb float_value].
  change (powerRZ 2 (-52)) with (/ 2 ^ 52). lra.
Qed.
Lemma float_abs_lt x : is_double x -> Rabs (float_value x) < huge.
Proof. intro H. destruct (double_B x H) as [b <-]. rewrite B_value. apply abs_B2R_lt_emax. Qed.
Lemma rnd_neg_value x : is_double x -> rnd (- float_value x) = - float_value x.
Proof.
  intro H. destruct (double_B x H) as [b <-]. rewrite B_value. apply round_generic; [apply valid_rnd_round_mode|].
  apply generic_format_opp, generic_format_B2R.
Qed.
Lemma exponent_error r t : is_double r -> is_double t -> finite_float r -> finite_float t ->
  Rabs (float_value r * float_value t) <= 600 ->
  let z := SFmul 53 1024 (SFmul 53 1024 (SFopp (f64_ofZ 1)) r) t in
  is_double z /\ finite_float z /\ -700 <= float_value z <= 700 /\
  Rabs (float_value z - - (float_value r * float_value t)) <= rounding_unit * Rabs (float_value r * float_value t) + tiny.
Proof.
  intros Dr Dt Fr Ft B z. destruct neg_one_value as (V1 & D1 & F1).
  destruct (mul_finite (SFopp (f64_ofZ 1)) r) as (D2 & F2 & V2); auto.
  { rewrite V1. replace (-1 * float_value r) with (- float_value r) by ring. rewrite rnd_neg_value, Rabs_Ropp by auto. now apply float_abs_lt. }
  rewrite V1 in V2. replace (-1 * float_value r) with (- float_value r) in V2 by ring. rewrite rnd_neg_value in V2 by auto.
  pose proof u_pos as U0. pose proof u_small as U1. pose proof tiny_pos as T0. pose proof tiny_lt_u as T1.
  destruct (rnd_error (- float_value r * float_value t)) as (d & e & Hd & He & E).
  set (q := float_value r * float_value t) in *. replace (- float_value r * float_value t) with (- q) in E by (unfold q; ring).
  assert (DD : Rabs (rnd (- q) - - q) <= rounding_unit * Rabs q + tiny).
  { rewrite E. replace (- q * (1 + d) + e - - q) with (- q * d + e) by ring. eapply Rle_trans; [apply Rabs_triang|].
    rewrite Rabs_mult, Rabs_Ropp. pose proof (Rabs_pos q). nra. }
  assert (BB : -700 <= rnd (- q) <= 700).
  { pose proof (Rabs_pos q). apply Rabs_le_inv in DD. apply Rabs_le_inv in B as B'. nra. }
  destruct (mul_finite (SFmul 53 1024 (SFopp (f64_ofZ 1)) r) t) as (D3 & F3 & V3); auto.
  { rewrite V2. replace (- float_value r * float_value t) with (- q) by (unfold q; ring). apply Rle_lt_trans with 700; [apply Rabs_le; lra|].
    apply Rlt_le_trans with (bpow radix2 10); [cbn; lra|apply bpow_le; lia]. }
  fold z in D3, F3, V3. rewrite V2 in V3. replace (- float_value r * float_value t) with (- q) in V3 by (unfold q; ring). rewrite V3. auto.
Qed.
Lemma exp_dist x m : Rabs x <= m -> Rabs (exp x - 1) <= exp m - 1.
Proof.
  intro H. apply Rabs_le_inv in H.
  assert (M : forall a b, a <= b -> exp a <= exp b) by (intros a b [L| ->]; [left; now apply exp_increasing|lra]).
  assert (1 + m <= exp m).
  { destruct (Req_dec m 0) as [->|N]; [rewrite exp_0; lra|left; now apply exp_ineq1]. }
  assert (1 - m <= exp (- m)).
  { destruct (Req_dec m 0) as [->|N]; [rewrite Ropp_0, exp_0; lra|]. left. replace (1 - m) with (1 + - m) by ring. apply exp_ineq1. lra. }
  pose proof (M x m ltac:(lra)). pose proof (M (- m) x ltac:(lra)). apply Rabs_le. lra.
Qed.
Lemma continuous_error lib eps r t y : 0 <= eps -> exp_within lib eps ->
  is_double r -> is_double t -> finite_float r -> finite_float t ->
  Rabs (float_value r * float_value t) <= 600 -> continuous_compounding (N := f64 lib) r t = Ok y ->
  is_double y /\ finite_float y /\
  Rabs (float_value y - exp (- (float_value r * float_value t))) <=
    exp (- (float_value r * float_value t)) *
    ((1 + eps) * exp (rounding_unit * Rabs (float_value r * float_value t) + tiny) - 1).
Proof.
  intros He A Dr Dt Fr Ft B E. destruct (exponent_error r t Dr Dt Fr Ft B) as (Dz & Fz & Rz & Ez). cbv zeta in *.
  unfold continuous_compounding in E. cbn [nexp f64 nmul nopp n1] in E.
  set (z := SFmul 53 1024 (SFmul 53 1024 (SFopp (f64_ofZ 1)) r) t) in *.
  assert (K : is_double y /\ finite_float y /\ Rabs (float_value y - exp (float_value z)) <= eps * exp (float_value z)).
  { destruct (SFeqb z f64_zero) eqn:Z.
    - apply (f_equal (fun z => match z with Ok b => b | Err _ => y end)) in E. cbv beta iota in E. rewrite <- E, one_value.
      split; [apply one_double|]. split; [apply one_finite|].
      destruct z as [s|s| |s m e]; try discriminate Z; [|destruct s; discriminate Z..]. cbn [float_value]. rewrite exp_0.
      rewrite Rminus_diag_eq, Rabs_R0 by auto. lra.
    - destruct Rz. now apply A. }
  destruct K as (Dy & Fy & K). split; [auto|]. split; [auto|]. set (q := float_value r * float_value t) in *. set (M := rounding_unit * Rabs q + tiny) in *.
  assert (X : exp (float_value z) = exp (- q) * exp (float_value z - - q)) by (rewrite <- exp_plus; f_equal; ring).
  pose proof (exp_dist _ _ Ez) as W. pose proof (exp_pos (- q)) as P. set (dl := float_value z - - q) in *.
  rewrite X in K. pose proof (exp_pos dl). apply Rabs_le_inv in W as W'.
  replace (float_value y - exp (- q)) with ((float_value y - exp (- q) * exp dl) + exp (- q) * (exp dl - 1)) by ring.
  eapply Rle_trans; [apply Rabs_triang|]. rewrite (Rabs_mult (exp (- q))), (Rabs_pos_eq (exp (- q))) by lra.
  assert (exp (- q) * Rabs (exp dl - 1) <= exp (- q) * (exp M - 1)) by (apply Rmult_le_compat_l; lra).
  assert (eps * (exp (- q) * exp dl) <= eps * (exp (- q) * exp M)).
  { apply Rmult_le_compat_l; [lra|]. apply Rmult_le_compat_l; lra. }
  nra.
Qed.
