(** A platform whose math.exp and math.log are accurate up to 1e-15: for each argument the
    first double, in an enumeration of all of them, that is close enough.  It shows that the
    hypotheses of the theorems on double precision can be met; it is not a model of any
    actual C library. *)
From Coq Require Import ZArith Lia Reals Lra Psatz List Bool Floats.SpecFloat Arith.Cantor.
From Flocq Require Import Core BinarySingleNaN.
From Verif Require Import Num Py MDates MOption MFloat SRound SRound2 SRound3 LBase LRound3 LRound LRound2 LRound4 LRound7 LRound8.
Local Open Scope R_scope.
#[local] Existing Instances prec53 prec_emax.

(** * every rounded number is a double *)
Lemma rounded_double x : Rabs (rnd x) < bpow radix2 1024 -> exists w, good w /\ v w = rnd x.
Proof.
  intros B. assert (G : generic_format radix2 fexp64 (rnd x)) by (apply generic_format_round; typeclasses eauto).
  set (y := rnd x) in *. set (m := Ztrunc (scaled_mantissa radix2 fexp64 y)). set (e := cexp radix2 fexp64 y).
  assert (Y : y = F2R (Float radix2 m e)) by exact G.
  pose proof (binary_normalize_correct 53 1024 _ _ mode_NE m e false) as C. cbv zeta in C. rewrite <- Y in C.
  assert (RY : rnd y = y) by (apply round_generic; [typeclasses eauto|exact G]). rewrite RY, Rlt_bool_true in C by exact B.
  destruct C as (C1 & C2 & _). exists (B2SF (binary_normalize 53 1024 prec53 prec_emax mode_NE m e false)). rewrite B_value. split; [|exact C1].
  split; [apply B_double|]. now apply B_finite.
Qed.

(** * all doubles in a row *)
Definition decode (n : nat) : float64 :=
  let (a, r) := of_nat n in let (b, c) := of_nat r in
  match c with
  | O => S754_zero false
  | S O => S754_finite false (Pos.of_succ_nat a) (Z.of_nat b - 1074)
  | _ => S754_finite true (Pos.of_succ_nat a) (Z.of_nat b - 1074)
  end.
Lemma decode_all w : good w -> exists n, v (decode n) = v w /\ good (decode n).
Proof.
  intros [Dw Fw]. destruct w as [s|s| |s m e]; try contradiction.
  - exists (to_nat (O, to_nat (O, O))). unfold decode. rewrite !cancel_of_to. split; [reflexivity|apply zero_good].
  - assert (E : (-1074 <= e)%Z).
    { unfold is_double in Dw. cbn in Dw. unfold bounded, canonical_mantissa, SpecFloat.fexp, SpecFloat.emin in Dw.
      apply andb_prop in Dw as [Q _]. apply Zeq_bool_eq in Q. lia. }
    exists (to_nat (Nat.pred (Pos.to_nat m), to_nat (Z.to_nat (e + 1074), if s then 2%nat else 1%nat))). unfold decode. rewrite !cancel_of_to.
    assert (M : Pos.of_succ_nat (Nat.pred (Pos.to_nat m)) = m) by (pose proof (Pos2Nat.is_pos m); rewrite <- (Pos2Nat.id m) at 2; rewrite Pos.of_nat_succ; f_equal; lia).
    rewrite M, Z2Nat.id by lia. replace (e + 1074 - 1074)%Z with e by ring. destruct s; now split.
Qed.

(** * the search *)
Definition close (eps x : R) (w : float64) : Prop := good w /\ Rabs (v w - x) <= eps * Rabs x.
Definition close_dec eps x w : {close eps x w} + {~ close eps x w}.
Proof.
  unfold close, good, is_double. destruct (bool_dec (valid_binary 53 1024 w) true) as [A|A]; [|right; tauto].
  assert (F : {finite_float w} + {~ finite_float w}) by (destruct w; cbn; auto). destruct F as [F|F]; [|right; tauto].
  destruct (Rle_dec (Rabs (v w - x)) (eps * Rabs x)); [left|right]; tauto.
Defined.
Definition search (eps x : R) : res float64 :=
  match ClassicalDedekindReals.sig_forall_dec (fun n => ~ close eps x (decode n))
          (fun n => match close_dec eps x (decode n) with left p => right (fun q => q p) | right p => left p end) with
  | inleft (exist n _) => Ok (decode n)
  | inright _ => Err OverflowError
  end.
Lemma search_close eps x w : search eps x = Ok w -> close eps x w.
Proof.
  unfold search. destruct (ClassicalDedekindReals.sig_forall_dec _ _) as [[n H]|H]; [|discriminate].
  intros E. assert (W : w = decode n) by congruence. subst w. destruct (close_dec eps x (decode n)); tauto.
Qed.
Lemma search_returns eps x w : close eps x w -> exists y, search eps x = Ok y.
Proof.
  intros [G B]. unfold search. destruct (ClassicalDedekindReals.sig_forall_dec _ _) as [[n H]|H]; [eauto|].
  exfalso. destruct (decode_all w G) as (n & V & GN). apply (H n). split; [exact GN|now rewrite V].
Qed.

Lemma small_tiny x : 16 * tiny * 2 ^ 53 <= Rabs x -> Rabs (rnd x - x) <= 2 / 10 ^ 16 * Rabs x.
Proof.
  intros L. destruct (rnd_error x) as (d & e & Hd & He & ->). replace (x * (1 + d) + e - x) with (x * d + e) by ring.
  eapply Rle_trans; [apply Rabs_triang|]. rewrite Rabs_mult. pose proof unit_small as U. pose proof (Rabs_pos x) as P.
  assert (T : tiny <= rounding_unit / 16 * Rabs x). { unfold rounding_unit. apply Rmult_le_reg_r with (16 * 2 ^ 53); [apply Rmult_lt_0_compat; [lra|apply pow_lt; lra]|].
    replace (/ 2 ^ 53 / 16 * Rabs x * (16 * 2 ^ 53)) with (Rabs x) by (field; apply pow_nonzero; lra). lra. }
  nra.
Qed.
Lemma near_double x : 16 * tiny * 2 ^ 53 <= Rabs x -> Rabs x <= powerRZ 2 1020 -> exists w, close (1 / 10 ^ 15) x w.
Proof.
  intros L U. pose proof (small_tiny x L) as E. pose proof (Rabs_pos x).
  destruct (rounded_double x) as (w & G & V).
  { apply Rle_lt_trans with (2 * powerRZ 2 1020).
    - replace (rnd x) with (x + (rnd x - x)) by ring. eapply Rle_trans; [apply Rabs_triang|]. lra.
    - apply Rlt_le_trans with (bpow radix2 1022); [|apply bpow_le; lia]. rewrite (bpow_powerRZ radix2). change (IZR radix2) with 2.
      replace 1022%Z with (1020 + 2)%Z by lia. rewrite powerRZ_add by lra. change (powerRZ 2 2) with (2 * (2 * 1)).
      assert (0 < powerRZ 2 1020) by (apply powerRZ_lt; lra). lra. }
  exists w. split; [exact G|]. rewrite V. lra.
Qed.

Definition good_libm : libm :=
  mkLibm (fun z => search (1 / 10 ^ 15) (exp (v z))) (fun y => search (1 / 10 ^ 15) (ln (v y))) (fun _ _ => Err ValueError) (fun x => x).

Lemma tiny_bound : 16 * tiny * 2 ^ 53 = / 2 ^ 1018.
Proof.
  unfold tiny. change (powerRZ 2 (-1075)) with (/ 2 ^ 1075). replace 1075%nat with (1018 + 57)%nat by lia. rewrite pow_add.
  rewrite Rinv_mult. replace (2 ^ 57) with (16 * 2 ^ 53) by lra. field; try (apply pow_nonzero; lra).
Qed.
Lemma exp_20 : exp 1 ^ 20 <= 2 ^ 29.
Proof.
  assert (X : exp (/ 256) <= 256 / 255).
    { pose proof (exp_ineq1_le (- / 256)) as I1. rewrite exp_Ropp in I1. pose proof (exp_pos (/ 256)) as P.
      replace (256 / 255) with (/ (255 / 256)) by field. rewrite <- (Rinv_inv (exp (/ 256))). apply Rinv_le_contravar; lra. }
    assert (P : exp 1 = exp (/ 256) ^ 256).
    { rewrite <- Rpower_pow by apply exp_pos. unfold Rpower. rewrite ln_exp. f_equal. change (INR 256) with (INR (Z.to_nat 256)). rewrite INR_IZR_INZ. rewrite Z2Nat.id by lia. field. }
    assert (Y : exp 1 <= 273 / 100).
    { rewrite P. replace 256%nat with (16 * 16)%nat by reflexivity. rewrite pow_mult.
      apply Rle_trans with ((10647 / 10000) ^ 16); [|lra]. apply pow_incr. split; [apply pow_le; left; apply exp_pos|].
      apply Rle_trans with ((256 / 255) ^ 16); [|lra]. apply pow_incr. split; [left; apply exp_pos|exact X]. }
    apply Rle_trans with ((273 / 100) ^ 20); [|lra]. apply pow_incr. split; [left; apply exp_pos|exact Y].
Qed.
Lemma exp_top : exp 700 <= 2 ^ 1018.
Proof.
  assert (E2 : exp 700 = (exp 1 ^ 20) ^ 35).
  { rewrite <- pow_mult. rewrite <- Rpower_pow by apply exp_pos. unfold Rpower. rewrite ln_exp. f_equal. rewrite INR_IZR_INZ. change (Z.of_nat (20 * 35)) with 700%Z. ring. }
  rewrite E2. apply Rle_trans with ((2 ^ 29) ^ 35).
  - apply pow_incr. split; [apply pow_le; left; apply exp_pos|exact exp_20].
  - rewrite <- pow_mult. apply Rle_pow; [lra|]. lia.
Qed.
Lemma exp_small z : -700 <= z -> / 2 ^ 1018 <= exp z.
Proof.
  intros L. apply Rle_trans with (exp (- (700))); [|apply exp_mono; lra]. rewrite exp_Ropp. apply Rinv_le_contravar; [apply exp_pos|].
  apply exp_top.
Qed.

Lemma good_exp : exp_within good_libm (1 / 10 ^ 15) /\ exp_returns good_libm.
Proof.
  split.
  - intros z w Dz Fz Lz E. cbn [lm_exp good_libm] in E. destruct (search_close _ _ _ E) as [[G1 G2] B]. split; [exact G1|]. split; [exact G2|].
    rewrite (Rabs_right (exp _)) in B; [exact B|]. left. apply exp_pos.
  - intros z Dz Fz [Lz Uz]. cbn [lm_exp good_libm]. destruct (near_double (exp (v z))) as [w W].
    + rewrite Rabs_right by (left; apply exp_pos). rewrite tiny_bound. now apply exp_small.
    + rewrite Rabs_right by (left; apply exp_pos). eapply Rle_trans; [apply (exp_mono _ 700 Uz)|]. eapply Rle_trans; [apply exp_top|].
      change (2 ^ 1018) with (powerRZ 2 1018). apply small_pow. lia.
    + eapply search_returns; exact W.
Qed.

(** a positive double other than one is not too close to one *)
Lemma not_one y : good y -> 0 < v y -> v y <> 1 -> / 2 ^ 60 <= Rabs (ln (v y)).
Proof.
  intros [D F] P NE. set (x := v y) in *.
  assert (S60 : / 2 ^ 60 <= / 2 ^ 56 / 2). { replace (2 ^ 60) with (2 ^ 56 * 16) by lra. rewrite Rinv_mult. assert (0 < / 2 ^ 56) by (apply Rinv_0_lt_compat, pow_lt; lra). lra. }
  assert (S56 : / 2 ^ 56 <= 1 / 2). { apply Rmult_le_reg_l with (2 ^ 56); [apply pow_lt; lra|]. rewrite Rinv_r by (apply pow_nonzero; lra). lra. }
  destruct (Rlt_dec x (1 / 2)) as [L|L].
  { pose proof (ln_le x P). rewrite Rabs_left by lra. lra. }
  destruct (Rlt_dec 2 x) as [L2|L2].
  { pose proof (ln_le (/ x) (Rinv_0_lt_compat _ P)) as U. rewrite ln_Rinv in U by exact P.
    assert (/ x <= / 2) by (apply Rinv_le_contravar; lra). rewrite Rabs_right by lra. lra. }
  assert (G : / 2 ^ 56 <= Rabs (x - 1)).
  { destruct y as [s|s| |s m e]; try contradiction; try (cbn in x; subst x; lra).
    unfold is_double in D. cbn in D. unfold x in *. cbn [float_value] in *. destruct s.
    { exfalso. assert (0 < IZR (Z.pos m)) by (apply (IZR_lt 0); lia). assert (0 < powerRZ 2 e) by (apply powerRZ_lt; lra). nra. }
    assert (MB : IZR (Z.pos m) < 2 ^ 53).
    {
      unfold bounded, canonical_mantissa in D. apply andb_prop in D as [Q _]. apply Zeq_bool_eq in Q. unfold SpecFloat.fexp, SpecFloat.emin in Q.
      assert (DB : (Z.pos (digits2_pos m) <= 53)%Z) by lia.
      rewrite Zpos_digits2_pos in DB. assert (ZB : (Z.pos m < 2 ^ 53)%Z).
      { pose proof (Zdigits_correct radix2 (Z.pos m)) as ZC. cbn [Z.abs] in ZC. apply Z.lt_le_trans with (1 := proj2 ZC). apply (Zpower_le radix2). exact DB. }
      apply IZR_lt in ZB. change (2 ^ 53)%Z with 9007199254740992%Z in ZB. lra. }
    assert (EB : (-54 <= e)%Z).
    { destruct (Z_le_gt_dec (-54) e) as [H|H]; [exact H|exfalso].
      assert (powerRZ 2 e <= powerRZ 2 (-55)) by (apply small_pow; lia). change (powerRZ 2 (-55)) with (/ 2 ^ 55) in *.
      assert (0 < powerRZ 2 e) by (apply powerRZ_lt; lra). assert (0 < IZR (Z.pos m)) by (apply (IZR_lt 0); lia).
      assert (IZR (Z.pos m) * powerRZ 2 e <= 2 ^ 53 * / 2 ^ 55) by (apply Rmult_le_compat; lra).
      assert (2 ^ 53 * / 2 ^ 55 = 1 / 4). { replace (2 ^ 55) with (2 ^ 53 * 4) by lra. field; try (apply pow_nonzero; lra). } lra. }
    set (k := (Z.pos m * 2 ^ (e + 54))%Z).
    assert (K : 1 * IZR (Z.pos m) * powerRZ 2 e = IZR k * / 2 ^ 54).
    { unfold k. rewrite mult_IZR. replace (IZR (2 ^ (e + 54))) with (powerRZ 2 (e + 54)).
      - rewrite powerRZ_add by lra. change (powerRZ 2 54) with (2 ^ 54). field; try (apply pow_nonzero; lra).
      - rewrite <- (Z2Nat.id (e + 54)) by lia. rewrite <- pow_powerRZ, <- pow_IZR. reflexivity. }
    rewrite K in *. assert (KN : k <> (2 ^ 54)%Z).
    { intros Q. apply NE. rewrite Q. change (2 ^ 54)%Z with 18014398509481984%Z. lra. }
    replace (IZR k * / 2 ^ 54 - 1) with (IZR (k - 2 ^ 54) * / 2 ^ 54).
    - rewrite Rabs_mult, (Rabs_right (/ 2 ^ 54)) by (left; apply Rinv_0_lt_compat, pow_lt; lra). rewrite <- abs_IZR.
      assert (1 <= IZR (Z.abs (k - 2 ^ 54))) by (apply (IZR_le 1); lia).
      assert (/ 2 ^ 56 <= / 2 ^ 54) by (apply Rinv_le_contravar; [apply pow_lt; lra|apply Rle_pow; [lra|lia]]).
      assert (0 < / 2 ^ 54) by (apply Rinv_0_lt_compat, pow_lt; lra). nra.
    - rewrite minus_IZR. change (2 ^ 54)%Z with 18014398509481984%Z. lra. }
  destruct (Rlt_dec x 1) as [B|B].
  - pose proof (ln_le x P). rewrite Rabs_left in G by lra. rewrite Rabs_left by lra. lra.
  - pose proof (ln_le (/ x) (Rinv_0_lt_compat _ P)) as U. rewrite ln_Rinv in U by exact P.
    rewrite Rabs_right in G by lra. assert (I : / x = 1 - (x - 1) / x) by (field; lra). rewrite I in U.
    assert (V : (x - 1) / 2 <= (x - 1) / x). { unfold Rdiv. apply Rmult_le_compat_l; [lra|]. apply Rinv_le_contravar; lra. }
    rewrite Rabs_right by lra. lra.
Qed.
Lemma big_ln y : good y -> 0 < v y -> Rabs (ln (v y)) <= 10 ^ 40.
Proof.
  intros G P.
  assert (B : / 2 ^ 1100 <= v y <= 2 ^ 1100).
  { destruct y as [s|s| |s m e]; try (destruct G; contradiction); try (cbn in P; lra). cbn [float_value] in *. destruct s.
    { exfalso. assert (0 < IZR (Z.pos m)) by (apply (IZR_lt 0); lia). assert (0 < powerRZ 2 e) by (apply powerRZ_lt; lra). nra. }
    destruct G as [D _]. unfold is_double in D. cbn in D. pose proof (bounded_lt_emax 53 1024 m e D) as U.
    unfold F2R in U. cbn [Fnum Fexp] in U. rewrite !(bpow_powerRZ radix2) in U. change (IZR radix2) with 2 in U.
    assert (E : (-1074 <= e)%Z). { unfold bounded, canonical_mantissa, SpecFloat.fexp, SpecFloat.emin in D. apply andb_prop in D as [Q _]. apply Zeq_bool_eq in Q. lia. }
    split.
    - assert (powerRZ 2 (-1100) <= powerRZ 2 e) by (apply small_pow; lia). change (powerRZ 2 (-1100)) with (/ 2 ^ 1100) in *.
      assert (1 <= IZR (Z.pos m)) by (apply (IZR_le 1); lia). assert (0 < powerRZ 2 e) by (apply powerRZ_lt; lra). nra.
    - assert (powerRZ 2 1024 <= powerRZ 2 1100) by (apply small_pow; lia). change (powerRZ 2 1100) with (2 ^ 1100) in *. lra. }
  assert (L : ln (2 ^ 1100) <= 1100).
  { rewrite ln_pow by lra. rewrite INR_IZR_INZ. change (Z.of_nat 1100) with 1100%Z. pose proof (ln_le 2 ltac:(lra)). nra. }
  assert (P2 : 0 < 2 ^ 1100) by (apply pow_lt; lra).
  assert (U1 : ln (v y) <= ln (2 ^ 1100)) by (destruct (proj2 B) as [Q|Q]; [left; now apply ln_increasing|rewrite Q; lra]).
  assert (U2 : ln (/ 2 ^ 1100) <= ln (v y)) by (destruct (proj1 B) as [Q|Q]; [left; apply ln_increasing; auto; now apply Rinv_0_lt_compat|rewrite Q; lra]).
  rewrite ln_Rinv in U2 by exact P2. apply Rabs_le. lra.
Qed.
Lemma good_log : log_within good_libm (1 / 10 ^ 15) /\ log_returns good_libm.
Proof.
  split.
  - intros y w Dy Fy Py E. cbn [lm_log good_libm] in E. destruct (search_close _ _ _ E) as [[G1 G2] B]. auto.
  - intros y Dy Fy Py. cbn [lm_log good_libm]. destruct (Req_dec (v y) 1) as [E|NE].
    + apply (search_returns _ _ f64_zero). split; [apply zero_good|]. rewrite E, ln_1. change (v f64_zero) with 0. rewrite Rminus_0_r, Rabs_R0. lra.
    + destruct (near_double (ln (v y))) as [w W].
      * rewrite tiny_bound. apply Rle_trans with (/ 2 ^ 60); [apply Rinv_le_contravar; [apply pow_lt; lra|apply Rle_pow; [lra|lia]]|]. now apply not_one.
      * eapply Rle_trans; [now apply big_ln|]. apply Rle_trans with (powerRZ 2 140); [change (powerRZ 2 140) with (2 ^ 140); lra|apply small_pow; lia].
      * eapply search_returns; exact W.
Qed.
