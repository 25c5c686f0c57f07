(** Lemmas on rounding: the operations of [SpecFloat] on doubles, read as operations of
    Flocq, and the relative errors of Flocq's theorems. *)
From Coq Require Import ZArith Lia List Bool Reals Lra Floats.SpecFloat.
From Flocq Require Import Core Relative Plus_error BinarySingleNaN.
From Verif Require Import Num Py LBase MDates MCurve MRateCurve MOption MCashflow MBracket MPricer MFloat SRound.
Import ListNotations.
Local Open Scope R_scope.

#[local] Instance prec53 : Prec_gt_0 53 := eq_refl.
#[local] Instance prec_emax : Prec_lt_emax 53 1024 := eq_refl.
Notation B64 := (binary_float 53 1024).
Notation fexp64 := (SpecFloat.fexp 53 1024).
Notation rnd := (round radix2 fexp64 (round_mode mode_NE)).

(** * the operations *)
Lemma round_nearest_even_eq s m l : round_nearest_even m l = choice_mode mode_NE s m l.
Proof.
  destruct l as [|[]]; try reflexivity. cbn. unfold Round.cond_incr. now destruct (Z.even m).
Qed.
Lemma round_aux_eq sx mx ex lx :
  SpecFloat.binary_round_aux 53 1024 sx mx ex lx = BinarySingleNaN.binary_round_aux 53 1024 mode_NE sx mx ex lx.
Proof.
  unfold SpecFloat.binary_round_aux, BinarySingleNaN.binary_round_aux.
  destruct (shr_fexp _ _ _ _ _) as [m' e']. now rewrite (round_nearest_even_eq sx).
Qed.
Lemma round_eq s m e :
  SpecFloat.binary_round 53 1024 s m e = BinarySingleNaN.binary_round 53 1024 mode_NE s m e.
Proof.
  unfold SpecFloat.binary_round, BinarySingleNaN.binary_round, shl_align_fexp.
  destruct (shl_align _ _ _). apply round_aux_eq.
Qed.
Lemma normalize_eq m e z :
  SpecFloat.binary_normalize 53 1024 m e z = B2SF (BinarySingleNaN.binary_normalize 53 1024 _ _ mode_NE m e z).
Proof. destruct m; cbn; rewrite ?B2SF_SF2B; auto using round_eq. Qed.

Lemma add_eq (x y : B64) : SFadd 53 1024 (B2SF x) (B2SF y) = B2SF (Bplus mode_NE x y).
Proof.
  destruct x as [sx|sx| |sx mx ex Bx], y as [sy|sy| |sy my ey By];
    try (now (trivial || (cbn; case Bool.eqb))). apply normalize_eq.
Qed.
Lemma sub_eq (x y : B64) : SFsub 53 1024 (B2SF x) (B2SF y) = B2SF (Bminus mode_NE x y).
Proof.
  destruct x as [sx|sx| |sx mx ex Bx], y as [sy|sy| |sy my ey By];
    try (now (trivial || (cbn; case Bool.eqb))).
  cbn. unfold Zminus. rewrite <- cond_Zopp_negb. apply normalize_eq.
Qed.
Lemma mul_eq (x y : B64) : SFmul 53 1024 (B2SF x) (B2SF y) = B2SF (Bmult mode_NE x y).
Proof.
  destruct x as [sx|sx| |sx mx ex Bx], y as [sy|sy| |sy my ey By]; try (now trivial).
  cbn. rewrite B2SF_SF2B. apply round_aux_eq.
Qed.
Lemma div_eq (x y : B64) : SFdiv 53 1024 (B2SF x) (B2SF y) = B2SF (Bdiv mode_NE x y).
Proof.
  destruct x as [sx|sx| |sx mx ex Bx], y as [sy|sy| |sy my ey By]; try (now trivial).
  cbn. rewrite B2SF_SF2B. destruct (SFdiv_core_binary _ _ _ _ _ _) as [[mz ez] lz]. apply round_aux_eq.
Qed.

(** * doubles *)
Lemma double_B (x : float64) : is_double x -> exists b : B64, B2SF b = x.
Proof. intro H. exists (SF2B x H). apply B2SF_SF2B. Qed.
Lemma B_double (b : B64) : is_double (B2SF b).
Proof. apply valid_binary_B2SF. Qed.
Lemma B_value (b : B64) : float_value (B2SF b) = B2R b.
Proof.
  destruct b as [s|s| |s m e B]; try reflexivity. cbn [B2SF float_value B2R]. unfold F2R. cbn [Fnum Fexp]. rewrite (bpow_powerRZ radix2).
  change (IZR radix2) with 2.
  destruct s; cbn [cond_Zopp]; [change (Z.neg m) with (- Z.pos m)%Z; rewrite opp_IZR|]; ring.
Qed.
Lemma B_finite (b : B64) : finite_float (B2SF b) <-> is_finite b = true.
Proof. destruct b; cbn; intuition discriminate. Qed.

Lemma u_eq : u_ro radix2 53 = rounding_unit.
Proof.
  unfold u_ro, rounding_unit. change (- (53) + 1)%Z with (- (52))%Z. rewrite bpow_opp.
  rewrite (bpow_powerRZ radix2). change (IZR radix2) with 2. rewrite <- Rinv_mult. f_equal.
Qed.
Lemma u_pos : 0 < rounding_unit.
Proof. unfold rounding_unit. apply Rinv_0_lt_compat, pow_lt. lra. Qed.
Lemma u_small : rounding_unit < 1 / 1000.
Proof.
  unfold rounding_unit. pose proof (Rinv_lt_contravar 1000 (2^53)) as H. unfold Rdiv. rewrite Rmult_1_l. apply H; [|lra].
  apply Rmult_lt_0_compat; [lra|apply pow_lt; lra].
Qed.
Lemma u_le d : Rabs d <= u_ro radix2 53 / (1 + u_ro radix2 53) -> Rabs d <= rounding_unit.
Proof.
  rewrite u_eq. pose proof u_pos. intro H1. eapply Rle_trans; [exact H1|].
  apply Rmult_le_reg_r with (1 + rounding_unit); [lra|]. unfold Rdiv. rewrite Rmult_assoc, Rinv_l by lra. nra.
Qed.
Lemma tiny_eq : / 2 * bpow radix2 (SpecFloat.emin 53 1024) = tiny.
Proof.
  unfold tiny. change (SpecFloat.emin 53 1024) with (-1074)%Z. rewrite (bpow_powerRZ radix2).
  change (/2 * powerRZ 2 (-1074) = powerRZ 2 (-1075)). change (-1075)%Z with (-1 + -1074)%Z.
  rewrite powerRZ_add by lra. f_equal. change (powerRZ 2 (-1)) with (/ (2 * 1)). now rewrite Rmult_1_r.
Qed.
Lemma tiny_pos : 0 < tiny.
Proof. unfold tiny. apply powerRZ_lt. lra. Qed.

Lemma mode_NE_near : round_mode mode_NE = ZnearestE.
Proof. reflexivity. Qed.
Lemma B_format (b : B64) : generic_format radix2 (FLT_exp (-1074) 53) (B2R b).
Proof. exact (generic_format_B2R 53 1024 b). Qed.

Lemma overflow_inf s : is_finite_SF (binary_overflow 53 1024 mode_NE s) = false.
Proof. reflexivity. Qed.
Lemma fin_SF (b : B64) : is_finite_SF (B2SF b) = is_finite b.
Proof. now destruct b. Qed.

(** * errors of single operations *)
Lemma add_round (x y : float64) : is_double x -> is_double y -> finite_float (SFadd 53 1024 x y) ->
  finite_float x /\ finite_float y /\ is_double (SFadd 53 1024 x y) /\
  float_value (SFadd 53 1024 x y) = rnd (float_value x + float_value y).
Proof.
  intros Hx Hy. destruct (double_B x Hx) as [a <-], (double_B y Hy) as [b <-]. rewrite add_eq, !B_value. intro F.
  split; [destruct a, b; cbn in F |- *; auto; destruct (Bool.eqb _ _); contradiction|].
  split; [destruct a, b; cbn in F |- *; auto; destruct (Bool.eqb _ _); contradiction|].
  split; [apply B_double|].
  assert (Fa : is_finite a = true) by (destruct a, b; cbn in F |- *; auto; destruct (Bool.eqb _ _); contradiction).
  assert (Fb : is_finite b = true) by (destruct a, b; cbn in F |- *; auto; destruct (Bool.eqb _ _); contradiction).
  pose proof (Bplus_correct 53 1024 _ _ mode_NE a b Fa Fb) as C. apply B_finite in F.
  destruct (Rlt_bool _ _); [apply C|]. destruct C as [C _]. rewrite <- fin_SF, C in F. discriminate.
Qed.
Lemma sub_round (x y : float64) : is_double x -> is_double y -> finite_float (SFsub 53 1024 x y) ->
  finite_float x /\ finite_float y /\ is_double (SFsub 53 1024 x y) /\
  float_value (SFsub 53 1024 x y) = rnd (float_value x - float_value y).
Proof.
  intros Hx Hy. destruct (double_B x Hx) as [a <-], (double_B y Hy) as [b <-]. rewrite sub_eq, !B_value. intro F.
  assert (Fa : is_finite a = true) by (destruct a, b; cbn in F |- *; auto; destruct (Bool.eqb _ _); contradiction).
  assert (Fb : is_finite b = true) by (destruct a, b; cbn in F |- *; auto; destruct (Bool.eqb _ _); contradiction).
  split; [now apply B_finite|]. split; [now apply B_finite|]. split; [apply B_double|].
  pose proof (Bminus_correct 53 1024 _ _ mode_NE a b Fa Fb) as C. apply B_finite in F.
  destruct (Rlt_bool _ _); [apply C|]. destruct C as [C _]. rewrite <- fin_SF, C in F. discriminate.
Qed.
Lemma mul_round (x y : float64) : is_double x -> is_double y -> finite_float (SFmul 53 1024 x y) ->
  finite_float x /\ finite_float y /\ is_double (SFmul 53 1024 x y) /\
  float_value (SFmul 53 1024 x y) = rnd (float_value x * float_value y).
Proof.
  intros Hx Hy. destruct (double_B x Hx) as [a <-], (double_B y Hy) as [b <-]. rewrite mul_eq, !B_value. intro F.
  assert (Fa : is_finite a = true) by (destruct a, b; cbn in F |- *; auto).
  assert (Fb : is_finite b = true) by (destruct a, b; cbn in F |- *; auto).
  split; [now apply B_finite|]. split; [now apply B_finite|]. split; [apply B_double|].
  pose proof (Bmult_correct 53 1024 _ _ mode_NE a b) as C. apply B_finite in F.
  destruct (Rlt_bool _ _); [apply C|]. rewrite <- fin_SF, C in F. discriminate.
Qed.
(** a quotient by an infinity is zero *)
Lemma div_round (x y : float64) : is_double x -> is_double y -> finite_float y -> float_value y <> 0 ->
  finite_float (SFdiv 53 1024 x y) ->
  finite_float x /\ is_double (SFdiv 53 1024 x y) /\
  float_value (SFdiv 53 1024 x y) = rnd (float_value x / float_value y).
Proof.
  intros Hx Hy. destruct (double_B x Hx) as [a <-], (double_B y Hy) as [b <-]. rewrite div_eq, !B_value. intros Fy Ny F.
  assert (Fa : is_finite a = true) by (destruct a, b; cbn in F, Fy |- *; auto).
  split; [now apply B_finite|]. split; [apply B_double|].
  pose proof (Bdiv_correct 53 1024 _ _ mode_NE a b Ny) as C. apply B_finite in F.
  destruct (Rlt_bool _ _); [apply C|]. rewrite <- fin_SF, C in F. discriminate.
Qed.

Lemma add_error (x y : float64) : is_double x -> is_double y -> finite_float (SFadd 53 1024 x y) ->
  finite_float x /\ finite_float y /\ is_double (SFadd 53 1024 x y) /\
  exists d, Rabs d <= rounding_unit /\ float_value (SFadd 53 1024 x y) = (float_value x + float_value y) * (1 + d).
Proof.
  intros Hx Hy F. destruct (add_round x y Hx Hy F) as (A & B & C & ->). do 3 (split; auto).
  destruct (double_B x Hx) as [a <-], (double_B y Hy) as [b <-]. rewrite !B_value.
  destruct (FLT_plus_error_N_ex radix2 (-1074) 53 (fun x => negb (Z.even x)) (B2R a) (B2R b) (B_format a) (B_format b)) as (d & H1 & H2).
  exists d. split; [now apply u_le|exact H2].
Qed.
Lemma rnd_error x : exists d e, Rabs d <= rounding_unit /\ Rabs e <= tiny /\ rnd x = x * (1 + d) + e.
Proof.
  destruct (relative_error_N_FLT'_ex radix2 (-1074) 53 eq_refl (fun x => negb (Z.even x)) x) as (d & e & H1 & H2 & _ & H3).
  exists d, e. split; [now apply u_le|]. split; [now rewrite <- tiny_eq|exact H3].
Qed.
Lemma mul_error (x y : float64) : is_double x -> is_double y -> finite_float (SFmul 53 1024 x y) ->
  finite_float x /\ finite_float y /\ is_double (SFmul 53 1024 x y) /\
  exists d e, Rabs d <= rounding_unit /\ Rabs e <= tiny /\
    float_value (SFmul 53 1024 x y) = float_value x * float_value y * (1 + d) + e.
Proof.
  intros Hx Hy F. destruct (mul_round x y Hx Hy F) as (A & B & C & ->). do 3 (split; auto). apply rnd_error.
Qed.

Lemma value_zero_add x : is_double x -> finite_float x ->
  float_value (SFadd 53 1024 f64_zero x) = float_value x /\ is_double (SFadd 53 1024 f64_zero x) /\ finite_float (SFadd 53 1024 f64_zero x).
Proof. destruct x as [[]| | |]; cbn; tauto. Qed.
Lemma zero_double : is_double f64_zero.
Proof. reflexivity. Qed.

(** * sums *)
Lemma total_abs_nonneg l : 0 <= total_abs l.
Proof.
  induction l as [|a l IH]; [unfold total_abs; cbn; lra|]. unfold total_abs in *. cbn [map total fold_right].
  change (fold_right Rplus 0 ?l) with (total l). pose proof (Rabs_pos a). lra.
Qed.
Lemma total_cons a l : total (a :: l) = a + total l.
Proof. reflexivity. Qed.
Lemma total_abs_cons a l : total_abs (a :: l) = Rabs a + total_abs l.
Proof. reflexivity. Qed.
Lemma pow_u_ge n : 1 <= (1 + rounding_unit) ^ n.
Proof. apply pow_R1_Rle. pose proof u_pos. lra. Qed.

Lemma fold_double l : forall acc, Forall is_double l -> is_double acc -> finite_float (fold_left (SFadd 53 1024) l acc) ->
  finite_float acc /\ Forall finite_float l /\ is_double (fold_left (SFadd 53 1024) l acc) /\
  Rabs (float_value (fold_left (SFadd 53 1024) l acc) - (float_value acc + total (map float_value l))) <=
    ((1 + rounding_unit) ^ length l - 1) * (Rabs (float_value acc) + total_abs (map float_value l)).
Proof.
  induction l as [|x l IH]; intros acc Dl Da F; cbn [fold_left length map] in *.
  - repeat split; auto. cbn. unfold total_abs. cbn. replace (_ - _) with 0 by ring. rewrite Rabs_R0. lra.
  - inversion Dl as [|? ? Dx Dl']; subst.
    assert (Ds : is_double (SFadd 53 1024 acc x)).
    { destruct (double_B acc Da) as [a <-], (double_B x Dx) as [b <-]. rewrite add_eq. apply B_double. }
    destruct (IH _ Dl' Ds F) as (F1 & F2 & D3 & E). destruct (add_error acc x Da Dx F1) as (Fa & Fx & _ & d & Hd & V).
    split; [auto|]. split; [auto|]. split; [auto|]. rewrite V in E.
    set (U := rounding_unit) in *. assert (HU : 0 < U) by apply u_pos.
    unfold total_abs in *. cbn [map total fold_right] in *. fold (total (map float_value l)) in *.
    fold (total (map Rabs (map float_value l))) in *. set (s := total (map float_value l)) in *.
    set (S := total (map Rabs (map float_value l))) in *. set (r := float_value (fold_left _ _ _)) in *.
    set (a := float_value acc) in *. set (b := float_value x) in *. set (q := (1 + U) ^ length l) in *.
    assert (Hq : 1 <= q) by apply pow_u_ge.
    assert (HS : 0 <= S) by apply (total_abs_nonneg (map float_value l)).
    assert (T1 : Rabs (a + b) <= Rabs a + Rabs b) by apply Rabs_triang.
    pose proof (Rabs_pos a). pose proof (Rabs_pos b). pose proof (Rabs_pos (a + b)).
    assert (T2 : Rabs ((a + b) * (1 + d)) <= (Rabs a + Rabs b) * (1 + U)).
    { rewrite Rabs_mult. apply Rmult_le_compat; auto using Rabs_pos. eapply Rle_trans; [apply Rabs_triang|]. rewrite Rabs_R1. lra. }
    assert (T3 : Rabs ((a + b) * d) <= (Rabs a + Rabs b) * U).
    { rewrite Rabs_mult. apply Rmult_le_compat; auto using Rabs_pos. }
    replace (r - (a + (b + s))) with (r - ((a + b) * (1 + d) + s) + (a + b) * d) by ring.
    eapply Rle_trans; [apply Rabs_triang|]. cbn [pow]. fold U q.
    assert ((q - 1) * (Rabs ((a + b) * (1 + d)) + S) <= (q - 1) * ((Rabs a + Rabs b) * (1 + U) + S)) by (apply Rmult_le_compat_l; lra).
    assert (0 <= q * U * S) by (apply Rmult_le_pos; [apply Rmult_le_pos|]; lra). nra.
Qed.

Lemma nsum_error lib l : Forall is_double l -> finite_float (nsum (N := f64 lib) l) ->
  Forall finite_float l /\ is_double (nsum (N := f64 lib) l) /\
  Rabs (float_value (nsum (N := f64 lib) l) - total (map float_value l)) <=
    ((1 + rounding_unit) ^ (length l - 1) - 1) * total_abs (map float_value l).
Proof.
  unfold nsum. cbn [nadd n0 f64]. destruct l as [|x l]; intros Dl F.
  - split; [constructor|]. split; [reflexivity|]. cbn. unfold total_abs. cbn. rewrite Rminus_0_r, Rabs_R0. lra.
  - inversion Dl as [|? ? Dx Dl']; subst. cbn [fold_left] in F |- *.
    assert (Ds : is_double (SFadd 53 1024 f64_zero x)).
    { destruct (double_B f64_zero eq_refl) as [a E], (double_B x Dx) as [b <-]. rewrite <- E, add_eq. apply B_double. }
    destruct (fold_double l _ Dl' Ds F) as (F1 & F2 & D3 & E).
    destruct (add_error f64_zero x eq_refl Dx F1) as (_ & Fx & _).
    destruct (value_zero_add x Dx Fx) as (V & _ & _). rewrite V in E.
    split; [auto|]. split; [auto|]. replace (length (x :: l) - 1)%nat with (length l) by (cbn; lia). exact E.
Qed.

(** * products, then their sum *)
Lemma dot_error lib xs : forall ys, length xs = length ys -> Forall is_double xs -> Forall is_double ys ->
  let ps := map (fun p => SFmul 53 1024 (fst p) (snd p)) (combine xs ys) in
  finite_float (nsum (N := f64 lib) ps) ->
  Forall finite_float xs /\ Forall finite_float ys /\
  Rabs (float_value (nsum (N := f64 lib) ps) - total (products xs ys)) <=
    ((1 + rounding_unit) ^ length xs - 1) * total_abs (products xs ys) +
    INR (length xs) * (1 + rounding_unit) ^ (length xs - 1) * tiny.
Proof.
  intros ys HL Dx Dy ps F.
  assert (Dp : Forall is_double ps).
  { unfold ps. clear F ps. revert ys HL Dy. induction Dx as [|x xs Hx Dx IH]; intros [|y ys] HL Dy; try discriminate; constructor.
    - inversion Dy; subst. destruct (double_B x Hx) as [a <-], (double_B y H1) as [b <-]. cbn [fst snd]. rewrite mul_eq. apply B_double.
    - inversion Dy; subst. apply IH; auto. }
  destruct (nsum_error lib ps Dp F) as (Fp & _ & E).
  assert (LP : length ps = length xs) by (unfold ps; rewrite map_length, combine_length; lia). rewrite LP in E.
  assert (K : Forall finite_float xs /\ Forall finite_float ys /\
    Rabs (total (map float_value ps) - total (products xs ys)) <= rounding_unit * total_abs (products xs ys) + INR (length xs) * tiny /\
    total_abs (map float_value ps) <= (1 + rounding_unit) * total_abs (products xs ys) + INR (length xs) * tiny).
  { clear E LP F. unfold ps in *. clear ps. revert ys HL Dy Dp Fp.
    induction Dx as [|x xs Hx Dx IH]; intros [|y ys] HL Dy Dp Fp; try discriminate.
    - cbn. unfold total_abs. cbn. rewrite Rminus_0_r, Rabs_R0. repeat split; auto; lra.
    - inversion Dy as [|? ? Hy Dy']; subst. cbn [combine map] in Dp, Fp |- *.
      inversion Dp as [|? ? Hp Dp']; subst. inversion Fp as [|? ? Hf Fp']; subst.
      destruct (IH ys) as (A1 & A2 & A3 & A4); auto.
      cbn [fst snd] in *. destruct (mul_error x y Hx Hy Hf) as (Fx & Fy & _ & d & e & Hd & He & V).
      split; [auto|]. split; [auto|]. set (ps := map _ (combine xs ys)) in *.
      change (products (x :: xs) (y :: ys)) with (float_value x * float_value y :: products xs ys).
      cbn [map fst snd]. rewrite !total_cons, !total_abs_cons, V. set (m := float_value x * float_value y) in *.
      set (u := rounding_unit) in *. assert (HU : 0 < u) by apply u_pos. pose proof (Rabs_pos m).
      assert (M : Rabs (m * d) <= Rabs m * u) by (rewrite Rabs_mult; apply Rmult_le_compat_l; auto).
      change (length (x :: xs)) with (Datatypes.S (length xs)). rewrite S_INR. split.
      + replace (_ - _) with (total (map float_value ps) - total (products xs ys) + (m * d + e)) by ring.
        eapply Rle_trans; [apply Rabs_triang|]. pose proof (Rabs_triang (m * d) e). lra.
      + replace (m * (1 + d) + e) with (m + (m * d + e)) by ring.
        pose proof (Rabs_triang m (m * d + e)). pose proof (Rabs_triang (m * d) e). lra. }
  destruct K as (K1 & K2 & K3 & K4). split; [auto|]. split; [auto|].
  set (u := rounding_unit) in *. assert (HU : 0 < u) by apply u_pos. pose proof tiny_pos as HT.
  set (x := float_value (nsum _)) in *. set (s := total (map float_value ps)) in *. set (t := total (products xs ys)) in *.
  set (S' := total_abs (products xs ys)) in *. set (q := (1 + u) ^ (length xs - 1)) in *.
  assert (Hq : 1 <= q) by apply pow_u_ge.
  assert (HS : 0 <= S') by apply total_abs_nonneg.
  replace (x - t) with (x - s + (s - t)) by ring. eapply Rle_trans; [apply Rabs_triang|].
  assert (E2 : (q - 1) * total_abs (map float_value ps) <= (q - 1) * ((1 + u) * S' + INR (length xs) * tiny)) by (apply Rmult_le_compat_l; lra).
  destruct xs as [|x0 xs].
  - destruct ys; [|discriminate]. unfold S', t, total_abs, products in *. cbn in *. lra.
  - assert (QE : (1 + u) ^ length (x0 :: xs) = (1 + u) * q) by (unfold q; replace (length (x0 :: xs) - 1)%nat with (length xs) by (cbn; lia); reflexivity).
    rewrite QE. clearbody q. nra.
Qed.

(** ((1 + u)^n - 1) is about n u *)
Lemma pow_u_linear n : INR n * rounding_unit <= / 2 -> (1 + rounding_unit) ^ n - 1 <= 2 * INR n * rounding_unit.
Proof.
  set (u := rounding_unit). assert (HU : 0 < u) by apply u_pos. pose proof u_small as US. fold u in US. intro H.
  assert (B : 1 - INR n * u <= (1 - u) ^ n).
  { clear H. induction n as [|n IH]; [cbn; lra|]. rewrite S_INR. cbn [pow].
    assert (0 <= (1 - u) ^ n <= 1).
    { split; [apply pow_le; lra|]. clear IH. induction n; cbn; [lra|]. assert (0 <= (1-u)^n) by (apply pow_le; lra). nra. }
    pose proof (pos_INR n). nra. }
  assert (P : (1 + u) ^ n * (1 - u) ^ n <= 1).
  { rewrite <- Rpow_mult_distr. assert (0 <= (1 + u) * (1 - u) <= 1) by nra. clear -H0.
    set (z := (1 + u) * (1 - u)) in *. induction n; cbn; [lra|]. assert (0 <= z ^ n) by (apply pow_le; lra). nra. }
  pose proof (pow_u_ge n) as G. fold u in G. pose proof (pos_INR n). set (q := (1 + u) ^ n) in *. set (k := INR n * u) in *.
  assert (q * (1 - k) <= 1) by nra. assert (0 <= k) by (unfold k; apply Rmult_le_pos; lra).
  replace (2 * INR n * u) with (2 * k) by (unfold k; ring). nra.
Qed.

(** * present values *)
Section PV.
  Context {T D P : Type} {N : Num T} {DS : DateSys T D P} {DC : DayCounts T D}.

  Lemma filterM_some v l : filterM (future (Some v)) l = Ok (filter (fun d => d_leb v d) l).
  Proof. induction l as [|d l IH]; cbn; auto. rewrite IH. cbn. now destruct (d_leb v d). Qed.
  Lemma mapM_Forall2 {A B} (f : A -> res B) l : forall r, mapM f l = Ok r -> Forall2 (fun a b => f a = Ok b) l r.
  Proof.
    induction l as [|a l IH]; cbn; intros r H; [injection H as <-; constructor|].
    destruct (f a) eqn:E; [|discriminate]. cbn in H. destruct (mapM f l); [|discriminate]. injection H as <-. constructor; auto.
  Qed.
  Lemma nth_res_Some {A} (l : list A) i x : nth_res l i = Ok x <-> nth_error l i = Some x.
  Proof. unfold nth_res. destruct (nth_error l i); split; congruence. Qed.

  Lemma pv_list_parts fuel flr disc v i h x h' : pv_list fuel flr disc (Some v) i h = (Ok x, h') ->
    h' = h /\ exists c dfs amounts, seen_at h v i c /\
      Forall2 (fun d df => get_discount_factor fuel disc v d = Ok df) (filter (fun d => d_leb v d) (cf_domain c)) dfs /\
      Forall2 (fun d a => cf_get fuel flr c d = Ok a) (filter (fun d => d_leb v d) (cf_domain c)) amounts /\
      x = nsum (map (fun p => nmul (fst p) (snd p)) (combine dfs amounts)).
  Proof.
    assert (K : forall c ds, (exists xs, cf_get_list fuel flr c ds = Ok xs /\
       (values <- mapM (fun ta => df <- get_discount_factor fuel disc v (fst ta) ;; Ok (nmul df (snd ta))) (combine ds xs) ;; Ok (nsum values)) = Ok x) ->
       exists dfs amounts, Forall2 (fun d df => get_discount_factor fuel disc v d = Ok df) ds dfs /\
         Forall2 (fun d a => cf_get fuel flr c d = Ok a) ds amounts /\
         x = nsum (map (fun p => nmul (fst p) (snd p)) (combine dfs amounts))).
    { intros c ds (xs & E1 & E2). apply mapM_Forall2 in E1.
      destruct (mapM _ _) as [vs|] eqn:E; [|discriminate]. cbn in E2. injection E2 as <-. apply mapM_Forall2 in E.
      assert (Q : exists dfs, Forall2 (fun d df => get_discount_factor fuel disc v d = Ok df) ds dfs /\
                    vs = map (fun p => nmul (fst p) (snd p)) (combine dfs xs)).
      { clear -E E1. revert vs E. induction E1 as [|d a ds xs H1 H2 IH]; cbn; intros vs E.
        - inversion E. exists []. auto.
        - inversion E as [|? b ? vs' HB HV]; subst. cbn [fst snd] in HB.
          destruct (get_discount_factor fuel disc v d) as [df|] eqn:G; [|discriminate]. cbn in HB. injection HB as <-.
          destruct (IH _ HV) as (dfs & Q1 & ->). exists (df :: dfs). split; auto. }
      destruct Q as (dfs & Q1 & ->). eauto 6. }
    intro H. unfold pv_list, bindS, get_list, lift in H.
    destruct (nth_res (h_lists h) i) as [l|] eqn:Hl; [|discriminate]. apply nth_res_Some in Hl.
    rewrite filterM_some in H.
    destruct (hl_attr l) as [|s|j|b] eqn:E; [| | |discriminate].
    1,2: unfold ret, view, list_view, attr_view in H; rewrite E in H; cbn [bind] in H;
      match type of H with context [cf_get_list _ _ ?c ?ds] => destruct (K c ds) as (dfs & am & K1 & K2 & K3);
        [destruct (cf_get_list fuel flr c ds) as [xs|]; [|discriminate]; exists xs; split; [reflexivity|congruence]|];
        split; [destruct (cf_get_list fuel flr c ds); congruence|]; exists c, dfs, am; split; [|auto] end;
      exists l; eexists; split; [eauto|]; split; [reflexivity|]; now rewrite E.
    unfold bindS, get_model in H. destruct (nth_res (h_models h) j) as [m|] eqn:Hm; [|discriminate].
    unfold set_valuation, bindS, get_model, put_model, ret in H. rewrite Hm in H. apply nth_res_Some in Hm.
    unfold view, list_view, attr_view in H. rewrite E in H. cbn [h_models bind] in H.
    assert (LT : (j < length (h_models h))%nat) by (apply nth_error_Some; congruence).
    assert (SN : nth_res (set_nth j (mkHM (Some v) (hm_model m)) (h_models h)) j = Ok (mkHM (Some v) (hm_model m))).
    { apply nth_res_Some. clear -LT. revert LT. generalize (h_models h). induction j; intros [|a ll]; cbn; intros; try lia; auto.
      apply IHj. lia. }
    rewrite SN in H. cbn [bind] in H.
    match type of H with context [cf_get_list _ _ ?c ?ds] => destruct (K c ds) as (dfs & am & K1 & K2 & K3);
      [destruct (cf_get_list fuel flr c ds) as [xs|]; [|discriminate]; exists xs; split; [reflexivity|congruence]|];
      split; [destruct (cf_get_list fuel flr c ds); [|discriminate]|exists c, dfs, am; split; [|auto]] end.
    { assert (HE : h' = mkH (h_curves h) (set_nth j (mkHM (hm_valuation m) (hm_model m)) (set_nth j (mkHM (Some v) (hm_model m)) (h_models h))) (h_lists h))
        by (cbn in H; congruence).
      rewrite HE. clear -Hm. destruct h as [cs ms ls]. cbn in *. f_equal. destruct m as [w f]. cbn.
      revert ms Hm. induction j; intros [|a ll]; cbn; intros; try discriminate; f_equal; auto. congruence. }
    exists l. eexists. split; [eauto|]. split; [reflexivity|]. rewrite E. exists m. split; auto.
  Qed.
End PV.

Lemma Forall2_len {A B} (R : A -> B -> Prop) l r : Forall2 R l r -> length l = length r.
Proof. induction 1; cbn; congruence. Qed.
