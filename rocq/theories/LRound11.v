(** Present values in double precision are returned and finite.  Used for C97, C99, C102 and C105. *)
From Coq Require Import ZArith Lia List Bool Reals Lra Floats.SpecFloat.
From Flocq Require Import Core BinarySingleNaN.
From Verif Require Import Num Py LBase MDates MCompounding MInterpolation MCurve MRateCurve MOption MCashflow MBracket MPricer MFloat SRound SRound3
  LRound LRound2 LRound3 LRound4 LLibm.
Import ListNotations.
Local Open Scope R_scope.

(** * the value of a list, from its factors and amounts *)
Section Run.
  Context {T D P : Type} {N : Num T} {DS : DateSys T D P} {DC : DayCounts T D}.

  Lemma list_value fuel flr disc v i (h : heap T D P) c dfs amounts : seen_at h v i c ->
    Forall2 (fun d df => get_discount_factor fuel disc v d = Ok df) (filter (fun d => d_leb v d) (cf_domain c)) dfs ->
    Forall2 (fun d a => cf_get fuel flr c d = Ok a) (filter (fun d => d_leb v d) (cf_domain c)) amounts ->
    pv_list fuel flr disc (Some v) i h = (Ok (nsum (map (fun p => nmul (fst p) (snd p)) (combine dfs amounts))), h).
  Proof.
    intros (l & a & Hl & -> & Ha) F1 F2. cbn [cf_domain] in *.
    set (c := mkCF _ _ _ a _) in *. set (ds := filter _ _) in *.
    assert (E1 : cf_get_list fuel flr c ds = Ok amounts).
    { unfold cf_get_list. clear F1. induction F2 as [|d x ds xs H F2 IH]; cbn; auto. now rewrite H, IH. }
    assert (E2 : mapM (fun ta => df <- get_discount_factor fuel disc v (fst ta) ;; Ok (nmul df (snd ta))) (combine ds amounts) =
                 Ok (map (fun p => nmul (fst p) (snd p)) (combine dfs amounts))).
    { clear E1 Ha Hl. clearbody ds c. revert amounts F2. induction F1 as [|d x ds xs H F1 IH]; intros [|y ys] F2; inversion F2; subst; cbn; auto.
      rewrite H, IH by auto. reflexivity. }
    unfold pv_list, bindS, get_list, lift. rewrite (proj2 (nth_res_Some _ _ _) Hl). rewrite filterM_some. fold ds.
    destruct (hl_attr l) as [|s|j|b] eqn:E; [| | |contradiction].
    - subst a. unfold ret, view, list_view, attr_view. rewrite E. cbn [bind]. fold c. rewrite E1, E2. reflexivity.
    - subst a. unfold ret, view, list_view, attr_view. rewrite E. cbn [bind]. fold c. rewrite E1, E2. reflexivity.
    - destruct Ha as (m & Hm & ->). unfold set_valuation, bindS, get_model, put_model, ret.
      rewrite (proj2 (nth_res_Some _ _ _) Hm). unfold view, list_view, attr_view.
      rewrite E. cbn [h_models bind].
      assert (LT : (j < length (h_models h))%nat) by (apply nth_error_Some; congruence).
      assert (SN : nth_res (set_nth j (mkHM (Some v) (hm_model m)) (h_models h)) j = Ok (mkHM (Some v) (hm_model m))).
      { apply nth_res_Some. clear -LT. revert LT. generalize (h_models h). induction j; intros [|a ll]; cbn; intros; try lia; auto.
        apply IHj. lia. }
      rewrite SN. cbn [bind].
      change (model_view (mkH (h_curves h) (set_nth j (mkHM (Some v) (hm_model m)) (h_models h)) (h_lists h))
                (mkHM (Some v) (hm_model m))) with (model_view h (mkHM (Some v) (hm_model m))).
      fold c. rewrite E1. cbn [h_models h_curves h_lists hm_model]. rewrite E2. cbn [bind]. f_equal.
      clear -Hm. destruct h as [cs ms ls]. cbn in *. f_equal. destruct m as [w f]. cbn.
      revert ms Hm. induction j; intros [|a ll]; cbn; intros; try discriminate; f_equal; auto. congruence.
  Qed.
End Run.

(** * sums of doubles that do not overflow *)
Lemma rnd_multiple k p : (Z.abs k <= 2 ^ 53)%Z -> (-1074 <= p)%Z -> rnd (IZR k * powerRZ 2 p) = IZR k * powerRZ 2 p.
Proof.
  intros Hk Hp. apply round_generic; [apply valid_rnd_round_mode|]. change 2 with (IZR radix2). rewrite <- bpow_powerRZ.
  destruct (Z.eq_dec (Z.abs k) (2 ^ 53)) as [E|E].
  - assert (Q : IZR k * bpow radix2 p = bpow radix2 (53 + p) \/ IZR k * bpow radix2 p = - bpow radix2 (53 + p)).
    { rewrite bpow_plus. change (bpow radix2 53) with (IZR (2 ^ 53)).
      destruct (Z.abs_eq_or_opp k) as [A|A]; rewrite A in E; [left; rewrite E; reflexivity|right].
      replace k with (- (2 ^ 53))%Z by lia. rewrite opp_IZR. ring. }
    assert (G : generic_format radix2 fexp64 (bpow radix2 (53 + p))) by (apply generic_format_bpow; unfold SpecFloat.fexp, SpecFloat.emin; lia).
    destruct Q as [-> | ->]; [exact G|now apply generic_format_opp].
  - apply (generic_format_FLT radix2 (-1074) 53). exists (Float radix2 k p); [reflexivity| |exact Hp]. cbn [Fnum]. change (radix2 ^ 53)%Z with (2 ^ 53)%Z. lia.
Qed.

Lemma fold_finite p l : (-1000 <= p <= 970)%Z -> forall acc k, Forall (fun x => good x /\ Rabs (v x) <= powerRZ 2 p) l -> good acc ->
  (0 <= k)%Z -> Rabs (v acc) <= IZR k * powerRZ 2 p -> (k + Z.of_nat (length l) <= 2 ^ 50)%Z ->
  good (fold_left (SFadd 53 1024) l acc).
Proof.
  intros Hp. induction l as [|x l IH]; intros acc k F G K0 B HL; [exact G|]. inversion F as [|? ? [G1 B1] F']; subst. cbn [fold_left].
  cbn [length] in HL. rewrite Nat2Z.inj_succ in HL. assert (PP : 0 < powerRZ 2 p) by (apply powerRZ_lt; lra).
  assert (S1 : Rabs (v acc + v x) <= IZR (k + 1) * powerRZ 2 p). { rewrite plus_IZR. eapply Rle_trans; [apply Rabs_triang|]. lra. }
  assert (TOP : IZR (k + 1) * powerRZ 2 p <= powerRZ 2 1023).
  { apply Rle_trans with (powerRZ 2 50 * powerRZ 2 p).
    - apply Rmult_le_compat_r; [lra|]. change (powerRZ 2 50) with (2 ^ 50). replace (2 ^ 50) with (IZR (2 ^ 50)) by (change (2 ^ 50)%Z with 1125899906842624%Z; lra). apply IZR_le. lia.
    - rewrite <- powerRZ_add by lra. apply small_pow. lia. }
  assert (GA : good (SFadd 53 1024 acc x)) by (apply add_good; auto; lra).
  apply (IH _ (k + 1)%Z); auto; try lia.
  destruct (add_round acc x (proj1 G) (proj1 G1) (proj2 GA)) as (_ & _ & _ & ->).
  assert (R1 : rnd (IZR (k + 1) * powerRZ 2 p) = IZR (k + 1) * powerRZ 2 p) by (apply rnd_multiple; lia).
  apply Rabs_le_inv in S1. apply Rabs_le. split; [|rewrite <- R1; apply rnd_le; lra].
  assert (R2 : rnd (- (IZR (k + 1) * powerRZ 2 p)) = - (IZR (k + 1) * powerRZ 2 p)).
  { rewrite <- Ropp_mult_distr_l_reverse, <- opp_IZR. apply rnd_multiple; lia. }
  rewrite <- R2. apply rnd_le. lra.
Qed.

(** * discount factors are returned *)
Lemma continuous_returns lib r t : exp_returns lib -> is_double r -> is_double t -> finite_float r -> finite_float t ->
  Rabs (float_value r * float_value t) <= 600 -> exists y, continuous_compounding (N := f64 lib) r t = Ok y.
Proof.
  intros ER Dr Dt Fr Ft B. destruct (exponent_error r t Dr Dt Fr Ft B) as (Dz & Fz & Rz & _). cbv zeta in *.
  unfold continuous_compounding. cbn [nexp f64 nmul nopp n1]. set (z := SFmul 53 1024 (SFmul 53 1024 (SFopp (f64_ofZ 1)) r) t) in *.
  destruct (SFeqb z f64_zero); [eexists; reflexivity|]. exact (ER z Dz Fz Rz).
Qed.

Lemma exp_middle : exp 620 <= powerRZ 2 899.
Proof.
  assert (E2 : exp 620 = (exp 1 ^ 20) ^ 31).
  { rewrite <- pow_mult. rewrite <- Rpower_pow by apply exp_pos. unfold Rpower. rewrite ln_exp. f_equal. rewrite INR_IZR_INZ. change (Z.of_nat (20 * 31)) with 620%Z. ring. }
  rewrite E2. change (powerRZ 2 899) with (2 ^ (29 * 31)). rewrite pow_mult. apply pow_incr. split; [apply pow_le; left; apply exp_pos|exact exp_20].
Qed.

Lemma exp_5 : 100 <= exp 5.
Proof.
  assert (P : exp 5 = exp (1 / 2) ^ 10) by (cbn [pow]; rewrite !Rmult_1_r, <- !exp_plus; f_equal; lra).
  pose proof (exp_ineq1_le (1 / 4)) as L.
  assert (P2 : exp (1 / 2) = exp (1 / 4) ^ 2) by (cbn [pow]; rewrite !Rmult_1_r, <- !exp_plus; f_equal; lra).
  assert (L2 : (1 + 1 / 4) ^ 2 <= exp (1 / 2)) by (rewrite P2; apply pow_incr; lra).
  assert (L3 : exp (1 / 4) = exp (1 / 16) ^ 4) by (cbn [pow]; rewrite !Rmult_1_r, <- !exp_plus; f_equal; lra).
  pose proof (exp_ineq1_le (1 / 16)) as L4. assert (L5 : (1 + 1 / 16) ^ 4 <= exp (1 / 4)) by (rewrite L3; apply pow_incr; lra).
  assert (L6 : ((1 + 1 / 16) ^ 4) ^ 2 <= exp (1 / 2)) by (rewrite P2; apply pow_incr; lra).
  rewrite P. apply Rle_trans with ((((1 + 1 / 16) ^ 4) ^ 2) ^ 10); [lra|]. apply pow_incr. lra.
Qed.

Section Zero.
  Context (lib : libm) {D P : Type} (DS : DateSys float64 D P) (DC : DayCounts float64 D).
  #[local] Instance n64w : Num float64 := f64 lib.

  Lemma zero_returns n disc o d q : exp_returns lib ->
    rc_cls disc = CZeroRate -> rc_origin disc = Some o -> d_is o o = true -> Rabs q <= 600 -> exponent disc o d q ->
    exists df, get_discount_factor (S (S n)) disc o d = Ok df.
  Proof.
    intros ER CL OR IO HQ EX. unfold get_discount_factor, interest_only. rewrite CL. cbn [is_interest factor]. rewrite CL.
    destruct EX as [[E ->]|(E & r & t & Er & Et & Dr & Fr & Dt & Ft & ->)]; rewrite E; [eexists; reflexivity|].
    cbn [rate]. unfold both_origin. rewrite E. cbn [andb]. unfold at_origin. rewrite OR, IO, Er. cbn [bind]. rewrite Et. cbn [bind].
    now apply (continuous_returns lib).
  Qed.
End Zero.

(** * values *)
Lemma products_finite p q : forall dfs amounts, length dfs = length amounts -> (p + q <= 1022)%Z ->
  Forall (fun x => good x /\ Rabs (v x) <= powerRZ 2 p) dfs -> Forall (fun x => good x /\ Rabs (v x) <= powerRZ 2 q) amounts ->
  (-1000 <= p + q)%Z ->
  Forall (fun x => good x /\ Rabs (v x) <= powerRZ 2 (p + q)) (map (fun p => SFmul 53 1024 (fst p) (snd p)) (combine dfs amounts)).
Proof.
  intros dfs amounts HL H F1 F2 LO. revert amounts HL F2. induction F1 as [|x dfs [Gx Bx] F1 IH]; intros [|y am] HL F2; try discriminate; cbn; constructor.
  - inversion F2 as [|? ? [Gy By] F2']; subst. cbn [fst snd].
    assert (B : Rabs (v x * v y) <= powerRZ 2 (p + q)).
    { rewrite Rabs_mult, powerRZ_add by lra. apply Rmult_le_compat; auto using Rabs_pos. }
    assert (G : good (SFmul 53 1024 x y)).
    { apply mul_good; auto. eapply Rle_trans; [exact B|]. apply small_pow. lia. }
    split; [exact G|]. destruct (mul_round x y (proj1 Gx) (proj1 Gy) (proj2 G)) as (_ & _ & _ & ->).
    pose proof (rnd_multiple 1 (p + q) ltac:(lia) ltac:(lia)) as R1. pose proof (rnd_multiple (-1) (p + q) ltac:(lia) ltac:(lia)) as R2.
    rewrite Rmult_1_l in R1. apply Rabs_le_inv in B. apply Rabs_le. split.
    + replace (- powerRZ 2 (p + q)) with (-1 * powerRZ 2 (p + q)) by ring. rewrite <- R2. apply rnd_le. lra.
    + rewrite <- R1. apply rnd_le. lra.
  - inversion F2; subst. apply IH; auto.
Qed.

Lemma dot_finite lib p q dfs amounts : length dfs = length amounts -> (-1000 <= p + q <= 970)%Z ->
  Forall (fun x => good x /\ Rabs (v x) <= powerRZ 2 p) dfs -> Forall (fun x => good x /\ Rabs (v x) <= powerRZ 2 q) amounts ->
  (Z.of_nat (length amounts) <= 2 ^ 50)%Z ->
  good (nsum (N := f64 lib) (map (fun p => SFmul 53 1024 (fst p) (snd p)) (combine dfs amounts))).
Proof.
  intros HL H F1 F2 HN. unfold nsum. change (nadd (Num := f64 lib)) with (SFadd 53 1024). change (n0 (Num := f64 lib)) with f64_zero.
  apply (fold_finite (p + q) _ H f64_zero 0).
  - apply products_finite; auto; lia.
  - apply zero_good.
  - lia.
  - change (v f64_zero) with 0. rewrite Rabs_R0. lra.
  - rewrite map_length, combine_length, HL, Nat.min_id. lia.
Qed.
