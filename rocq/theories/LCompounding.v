(** Proofs about the compounding model over the reals. *)
From Coq Require Import Reals Lra Psatz.
From Verif Require Import Num LBase MCompounding.
Open Scope R_scope.

Lemma simple_compounding_ok r t :
  1 + r * t <> 0 -> simple_compounding r t = Ok (1 / (1 + r * t)).
Proof. intro H. unfold simple_compounding; rn. now apply Rdivp_ok. Qed.

Lemma simple_compounding_err r t :
  1 + r * t = 0 -> simple_compounding r t = Err ZeroDivisionError.
Proof. intro H. unfold simple_compounding; rn. rewrite H. apply Rdivp_zero. Qed.

Lemma simple_rate_ok df t :
  df <> 0 -> t <> 0 -> simple_rate df t = Ok ((1 / df - 1) / t).
Proof. intros H1 H2. unfold simple_rate; rn. rewrite Rdivp_ok by auto; rn. now apply Rdivp_ok. Qed.

Lemma simple_rate_err df t :
  df = 0 \/ t = 0 -> simple_rate df t = Err ZeroDivisionError.
Proof.
  intros H. unfold simple_rate; rn. destruct (Req_dec df 0) as [E|E].
  - rewrite E, Rdivp_zero; reflexivity.
  - rewrite Rdivp_ok by auto; rn. destruct H; [contradiction|].
    subst t. apply Rdivp_zero.
Qed.

Lemma continuous_compounding_ok r t :
  continuous_compounding r t = Ok (exp (- (r * t))).
Proof. unfold continuous_compounding; rn. do 2 f_equal. ring. Qed.

Lemma continuous_rate_ok df t :
  0 < df -> t <> 0 -> continuous_rate df t = Ok (- ln df / t).
Proof. intros H1 H2. unfold continuous_rate; rn. rewrite Rlogp_ok by auto; rn. now apply Rdivp_ok. Qed.

Lemma continuous_rate_err_df df t :
  df <= 0 -> continuous_rate df t = Err ValueError.
Proof. intros H. unfold continuous_rate; rn. rewrite Rlogp_err by auto; reflexivity. Qed.
Lemma continuous_rate_err_t df :
  0 < df -> continuous_rate df 0 = Err ZeroDivisionError.
Proof. intros H. unfold continuous_rate; rn. rewrite Rlogp_ok by auto; rn. apply Rdivp_zero. Qed.

Lemma periodic_compounding_ok r t m :
  m <> 0 -> 0 < 1 + r / m -> periodic_compounding r t m = Ok (Rpower (1 + r / m) (- (m * t))).
Proof.
  intros H1 H2. unfold periodic_compounding; rn. rewrite Rdivp_ok by auto; rn.
  rewrite Rmpow_ok by auto. do 2 f_equal. ring.
Qed.

Lemma periodic_rate_ok df t m :
  0 < df -> t <> 0 -> m <> 0 ->
  periodic_rate df t m = Ok ((Rpower df (- (1 / (t * m))) - 1) * m).
Proof.
  intros H1 H2 H3. unfold periodic_rate; rn.
  rewrite Rdivp_ok by (apply Rmult_integral_contrapositive_currified; auto); rn.
  rewrite Rmpow_ok by auto; rn. do 4 f_equal.
  field; auto.
Qed.

Lemma simple_roundtrip_rate r t :
  t <> 0 -> 1 + r * t <> 0 ->
  exists df, simple_compounding r t = Ok df /\ simple_rate df t = Ok r.
Proof.
  intros Ht H. exists (1 / (1 + r * t)). split; [now apply simple_compounding_ok|].
  rewrite simple_rate_ok; auto.
  - f_equal. field; auto.
  - unfold Rdiv. rewrite Rmult_1_l. now apply Rinv_neq_0_compat.
Qed.

Lemma simple_roundtrip_df df t :
  t <> 0 -> df <> 0 ->
  exists r, simple_rate df t = Ok r /\ simple_compounding r t = Ok df.
Proof.
  intros Ht H. exists ((1 / df - 1) / t). split; [now apply simple_rate_ok|].
  assert (E : 1 + (1 / df - 1) / t * t = 1 / df) by (field; auto).
  rewrite simple_compounding_ok; rewrite E.
  - f_equal. field; auto.
  - unfold Rdiv. rewrite Rmult_1_l. now apply Rinv_neq_0_compat.
Qed.

Lemma continuous_roundtrip_rate r t :
  t <> 0 -> exists df, continuous_compounding r t = Ok df /\ continuous_rate df t = Ok r.
Proof.
  intros Ht. exists (exp (- (r * t))). split; [apply continuous_compounding_ok|].
  rewrite continuous_rate_ok by (auto using exp_pos).
  f_equal. rewrite ln_exp. field; auto.
Qed.

Lemma continuous_roundtrip_df df t :
  t <> 0 -> 0 < df ->
  exists r, continuous_rate df t = Ok r /\ continuous_compounding r t = Ok df.
Proof.
  intros Ht H. exists (- ln df / t). split; [now apply continuous_rate_ok|].
  rewrite continuous_compounding_ok. f_equal.
  replace (- (- ln df / t * t)) with (ln df) by (field; auto).
  now apply exp_ln.
Qed.

Lemma periodic_roundtrip_rate r t m :
  t <> 0 -> m <> 0 -> 0 < 1 + r / m ->
  exists df, periodic_compounding r t m = Ok df /\ periodic_rate df t m = Ok r.
Proof.
  intros Ht Hm H. eexists. split; [now apply periodic_compounding_ok|].
  rewrite periodic_rate_ok by (auto; apply exp_pos).
  f_equal. rewrite Rpower_mult.
  replace (- (m * t) * - (1 / (t * m))) with 1 by (field; auto).
  rewrite Rpower_1 by auto. field; auto.
Qed.

Lemma periodic_roundtrip_df df t m :
  t <> 0 -> m <> 0 -> 0 < df ->
  exists r, periodic_rate df t m = Ok r /\ periodic_compounding r t m = Ok df.
Proof.
  intros Ht Hm H. eexists. split; [now apply periodic_rate_ok|].
  assert (E : 1 + (Rpower df (- (1 / (t * m))) - 1) * m / m = Rpower df (- (1 / (t * m))))
    by (field; auto).
  rewrite periodic_compounding_ok; rewrite ?E; auto; [|apply exp_pos].
  f_equal. rewrite Rpower_mult.
  replace (- (1 / (t * m)) * - (m * t)) with 1 by (field; auto).
  now apply Rpower_1.
Qed.

(** ** ordering *)

(** [1 + x <= exp x], strictly for x <> 0 is in the standard library *)
Lemma ln_lt_id x : -1 < x -> x <> 0 -> ln (1 + x) < x.
Proof.
  intros H Hx. rewrite <- (ln_exp x) at 2. apply ln_increasing; [lra|].
  now apply exp_ineq1.
Qed.

(** Bernoulli: for 0 < a < 1 and u > 0: (1+u)^a < 1 + a u *)
Lemma bernoulli_frac a u : 0 < a < 1 -> 0 < u -> Rpower (1 + u) a < 1 + a * u.
Proof.
  intros [Ha0 Ha1] Hu.
  (* weighted AM-GM by the tangent line of ln at c = 1 + a u *)
  set (c := 1 + a * u).
  assert (Hau : 0 < a * u) by nra.
  assert (Hc : 0 < c) by (unfold c; lra).
  (* ln y < ln c + (y - c)/c for y <> c *)
  assert (T : forall y, 0 < y -> y <> c -> ln y < ln c + (y - c) / c).
  { intros y Hy Hne.
    replace y with (c * (1 + (y / c - 1))) at 1 by (field; lra).
    assert (Hp : 0 < y / c) by (apply Rdiv_lt_0_compat; auto).
    rewrite ln_mult by lra.
    assert (y / c - 1 <> 0).
    { intro E. apply Hne. assert (y / c = 1) by lra.
      apply (f_equal (fun z => z * c)) in H. field_simplify in H; lra. }
    pose proof (ln_lt_id (y / c - 1) ltac:(lra) H).
    replace ((y - c) / c) with (y / c - 1) by (field; lra). lra. }
  unfold Rpower. rewrite <- (exp_ln c) by auto.
  apply exp_increasing.
  assert (T1 := T (1 + u) ltac:(lra) ltac:(unfold c; nra)).
  assert (T2 := T 1 ltac:(lra) ltac:(unfold c; nra)).
  rewrite ln_1 in T2.
  assert (E : a * ((1 + u - c) / c) + (1 - a) * ((1 - c) / c) = 0)
    by (unfold c; field; lra).
  nra.
Qed.

Lemma Rpower_lt_base x y a : 0 < x < y -> 0 < a -> Rpower x a < Rpower y a.
Proof.
  intros [Hx Hxy] Ha. unfold Rpower. apply exp_increasing.
  apply Rmult_lt_compat_l; auto. now apply ln_increasing.
Qed.

(** (1+r/m)^m increases strictly in m *)
Lemma frequency_increasing r m n :
  0 < r -> 0 < m -> m < n -> Rpower (1 + r / m) m < Rpower (1 + r / n) n.
Proof.
  intros Hr Hm Hmn.
  assert (H1 : 0 < r / m) by (apply Rdiv_lt_0_compat; lra).
  assert (H2 : 0 < m / n < 1).
  { split; [apply Rdiv_lt_0_compat; lra|]. apply Rmult_lt_reg_r with n; [lra|]. unfold Rdiv. rewrite Rmult_assoc, Rinv_l by lra. lra. }
  pose proof (bernoulli_frac (m / n) (r / m) H2 H1) as B.
  replace (1 + m / n * (r / m)) with (1 + r / n) in B by (field; lra).
  replace m with (m / n * n) at 2 by (field; lra).
  rewrite <- Rpower_mult. apply Rpower_lt_base; [|lra].
  split; [apply exp_pos | auto].
Qed.

Lemma frequency_lt_exp r m : 0 < r -> 0 < m -> Rpower (1 + r / m) m < exp r.
Proof.
  intros Hr Hm. unfold Rpower. apply exp_increasing.
  assert (H1 : 0 < r / m) by (apply Rdiv_lt_0_compat; lra).
  pose proof (ln_lt_id (r / m) ltac:(lra) ltac:(lra)).
  replace r with (m * (r / m)) at 2 by (field; lra).
  apply Rmult_lt_compat_l; auto.
Qed.

Lemma periodic_df_eq r t m : 0 < r -> 0 < m ->
  Rpower (1 + r / m) (- (m * t)) = / Rpower (Rpower (1 + r / m) m) t.
Proof. intros. rewrite Rpower_mult. apply Rpower_Ropp. Qed.

Lemma periodic_order r t m n : 0 < r -> 0 < t -> 0 < m -> m < n ->
  Rpower (1 + r / n) (- (n * t)) < Rpower (1 + r / m) (- (m * t)).
Proof.
  intros. rewrite !periodic_df_eq by lra.
  apply Rinv_lt_contravar.
  - apply Rmult_lt_0_compat; apply exp_pos.
  - apply Rpower_lt_base; auto. split; [apply exp_pos|]. now apply frequency_increasing.
Qed.

Lemma continuous_lt_periodic r t m : 0 < r -> 0 < t -> 0 < m ->
  exp (- (r * t)) < Rpower (1 + r / m) (- (m * t)).
Proof.
  intros. rewrite periodic_df_eq by lra. rewrite exp_Ropp.
  apply Rinv_lt_contravar.
  - apply Rmult_lt_0_compat; apply exp_pos.
  - replace (exp (r * t)) with (Rpower (exp r) t).
    + apply Rpower_lt_base; auto. split; [apply exp_pos|]. now apply frequency_lt_exp.
    + unfold Rpower. rewrite ln_exp. f_equal; ring.
Qed.

Lemma simple_le_annual r t : 0 < r -> 0 < t <= 1 ->
  1 / (1 + r * t) <= Rpower (1 + r / 1) (- (1 * t)).
Proof.
  intros Hr [Ht Ht1].
  replace (- (1 * t)) with (- t) by ring. rewrite Rpower_Ropp.
  unfold Rdiv. rewrite Rmult_1_l. rewrite Rinv_1, Rmult_1_r.
  apply Rinv_le_contravar; [apply exp_pos|].
  destruct (Rle_lt_or_eq_dec _ _ Ht1) as [H|H].
  - left. replace (r * t) with (t * r) by ring. apply bernoulli_frac; auto.
  - subst t. rewrite Rpower_1 by lra. lra.
Qed.

Lemma periodic_lt_1 r t m : 0 < r -> 0 < t -> 0 < m ->
  Rpower (1 + r / m) (- (m * t)) < 1.
Proof.
  intros. assert (0 < r / m) by (apply Rdiv_lt_0_compat; lra).
  apply Rlt_le_trans with (exp 0); [|rewrite exp_0; lra].
  unfold Rpower. apply exp_increasing.
  assert (0 < ln (1 + r / m)) by (rewrite <- ln_1; apply ln_increasing; lra).
  assert (0 < m * t) by nra.
  pose proof (Rmult_lt_0_compat _ _ H4 H3). lra.
Qed.
