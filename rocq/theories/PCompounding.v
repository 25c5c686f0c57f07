(** Properties C01 and C02: compounding conventions (dcf/compounding.py). *)
From Coq Require Import Reals Lra Lia ZArith.
From Verif Require Import Num LBase MCompounding LCompounding.
Open Scope R_scope.

(** C01: rate -> discount factor -> rate *)
Theorem C01_simple_rate_of_compounding : forall r t : R,
  t <> 0 -> 1 + r * t <> 0 ->
  exists df, simple_compounding r t = Ok df /\ simple_rate df t = Ok r.
Proof. exact simple_roundtrip_rate. Qed.
Print Assumptions C01_simple_rate_of_compounding.

Theorem C01_continuous_rate_of_compounding : forall r t : R,
  t <> 0 -> exists df, continuous_compounding r t = Ok df /\ continuous_rate df t = Ok r.
Proof. exact continuous_roundtrip_rate. Qed.
Print Assumptions C01_continuous_rate_of_compounding.

Theorem C01_periodic_rate_of_compounding : forall r t m : R,
  t <> 0 -> m <> 0 -> 0 < 1 + r / m ->
  exists df, periodic_compounding r t m = Ok df /\ periodic_rate df t m = Ok r.
Proof. exact periodic_roundtrip_rate. Qed.
Print Assumptions C01_periodic_rate_of_compounding.

(** C01: discount factor -> rate -> discount factor *)
Theorem C01_simple_compounding_of_rate : forall df t : R,
  t <> 0 -> df <> 0 ->
  exists r, simple_rate df t = Ok r /\ simple_compounding r t = Ok df.
Proof. exact simple_roundtrip_df. Qed.
Print Assumptions C01_simple_compounding_of_rate.

Theorem C01_continuous_compounding_of_rate : forall df t : R,
  t <> 0 -> 0 < df ->
  exists r, continuous_rate df t = Ok r /\ continuous_compounding r t = Ok df.
Proof. exact continuous_roundtrip_df. Qed.
Print Assumptions C01_continuous_compounding_of_rate.

Theorem C01_periodic_compounding_of_rate : forall df t m : R,
  t <> 0 -> m <> 0 -> 0 < df ->
  exists r, periodic_rate df t m = Ok r /\ periodic_compounding r t m = Ok df.
Proof. exact periodic_roundtrip_df. Qed.
Print Assumptions C01_periodic_compounding_of_rate.

(** C01: the discount factors themselves, as documented *)
Theorem C01_values : forall r t : R,
  (1 + r * t <> 0 -> simple_compounding r t = Ok (1 / (1 + r * t))) /\
  continuous_compounding r t = Ok (exp (- (r * t))) /\
  (forall m, m <> 0 -> 0 < 1 + r / m ->
     periodic_compounding r t m = Ok (Rpower (1 + r / m) (- (m * t)))) /\
  annually_compounding r t = periodic_compounding r t 1 /\
  semi_compounding r t = periodic_compounding r t 2 /\
  quarterly_compounding r t = periodic_compounding r t 4 /\
  monthly_compounding r t = periodic_compounding r t 12 /\
  daily_compounding r t = periodic_compounding r t 365.
Proof.
  exact (fun r t => conj (simple_compounding_ok r t)
    (conj (continuous_compounding_ok r t)
    (conj (fun m => periodic_compounding_ok r t m)
    (conj eq_refl (conj eq_refl (conj eq_refl (conj eq_refl eq_refl))))))).
Qed.
Print Assumptions C01_values.

(** C01: outside the preconditions the calls raise *)
Theorem C01_errors : forall r t df : R,
  (1 + r * t = 0 -> simple_compounding r t = Err ZeroDivisionError) /\
  (df = 0 \/ t = 0 -> simple_rate df t = Err ZeroDivisionError) /\
  (df <= 0 -> continuous_rate df t = Err ValueError) /\
  (0 < df -> continuous_rate df 0 = Err ZeroDivisionError).
Proof.
  exact (fun r t df => conj (simple_compounding_err r t)
    (conj (simple_rate_err df t)
    (conj (continuous_rate_err_df df t) (continuous_rate_err_t df)))).
Qed.
Print Assumptions C01_errors.

(** C01: outside the preconditions of the periodic convention: the cases which raise *)
Theorem C01_periodic_errors : forall r t m df : R,
  (m = 0 -> periodic_compounding r t m = Err ZeroDivisionError) /\
  (m <> 0 -> 1 + r / m = 0 -> 0 < m * t -> periodic_compounding r t m = Err ValueError) /\
  (m <> 0 -> 1 + r / m < 0 -> (forall z, m * t <> IZR z) -> periodic_compounding r t m = Err ValueError) /\
  (t = 0 \/ m = 0 -> periodic_rate df t m = Err ZeroDivisionError) /\
  (df = 0 -> 0 < t * m -> periodic_rate df t m = Err ValueError) /\
  (df < 0 -> t * m <> 0 -> (forall z, 1 / (t * m) <> IZR z) -> periodic_rate df t m = Err ValueError).
Proof.
  intros r t m df. unfold periodic_compounding, periodic_rate. cbn. unfold Rdivp. repeat split.
  - intros ->. destruct (Req_EM_T 0 0); [reflexivity|lra].
  - intros N E L. destruct (Req_EM_T m 0); [lra|]. cbn [bind]. rewrite E. unfold Rmpow. destruct (Rlt_dec 0 0); [lra|]. destruct (Req_EM_T 0 0); [|lra].
    destruct (Req_EM_T (- m * t) 0); [lra|]. destruct (Rlt_dec 0 (- m * t)); [lra|reflexivity].
  - intros N L Z. destruct (Req_EM_T m 0); [lra|]. cbn [bind]. unfold Rmpow. destruct (Rlt_dec 0 (1 + r / m)); [lra|]. destruct (Req_EM_T (1 + r / m) 0); [lra|].
    destruct (Req_EM_T (IZR (Int_part (- m * t))) (- m * t)) as [Q|]; [|reflexivity]. exfalso. apply (Z (- Int_part (- m * t))%Z). rewrite opp_IZR. lra.
  - intros C. destruct (Req_EM_T (t * m) 0) as [|Q]; [reflexivity|]. exfalso. apply Q. destruct C as [-> | ->]; ring.
  - intros -> L. destruct (Req_EM_T (t * m) 0); [lra|]. cbn [bind]. unfold Rmpow. destruct (Rlt_dec 0 0); [lra|]. destruct (Req_EM_T 0 0); [|lra].
    assert (0 < / (t * m)) by now apply Rinv_0_lt_compat.
    destruct (Req_EM_T (- (1) / (t * m)) 0); [unfold Rdiv in *; lra|]. destruct (Rlt_dec 0 (- (1) / (t * m))); [unfold Rdiv in *; lra|reflexivity].
  - intros L N Z. destruct (Req_EM_T (t * m) 0); [lra|]. cbn [bind]. unfold Rmpow. destruct (Rlt_dec 0 df); [lra|]. destruct (Req_EM_T df 0); [lra|].
    destruct (Req_EM_T (IZR (Int_part (- (1) / (t * m)))) (- (1) / (t * m))) as [Q|]; [|reflexivity].
    exfalso. apply (Z (- Int_part (- (1) / (t * m)))%Z). rewrite opp_IZR, Q. unfold Rdiv. ring.
Qed.
Print Assumptions C01_periodic_errors.

(** C01: and the case which gives a wrong number: a rate below -m over an even number of
    periods comes back as another rate *)
Theorem C01_periodic_alias_refuted : forall (r m : R) (k : nat),
  0 < m -> 1 + r / m < 0 -> (1 <= k)%nat ->
  let t := 2 * INR k / m in
  exists df, periodic_compounding r t m = Ok df /\ periodic_rate df t m = Ok (- 2 * m - r) /\ r < - 2 * m - r.
Proof.
  intros r m k M L K t. assert (HK : 1 <= INR k) by (apply (le_INR 1 k) in K; exact K).
  set (x := 1 + r / m) in *. assert (T : m * t = 2 * INR k) by (unfold t; field; lra).
  assert (P : periodic_compounding r t m = Ok (Rpower (- x) (- (2 * INR k)))).
  { unfold periodic_compounding. cbn. unfold Rdivp. destruct (Req_EM_T m 0); [lra|]. cbn [bind]. fold x. unfold Rmpow.
    destruct (Rlt_dec 0 x); [lra|]. destruct (Req_EM_T x 0); [lra|]. replace (- m * t) with (IZR (- (2 * Z.of_nat k))) by (rewrite opp_IZR, mult_IZR, <- INR_IZR_INZ; lra).
    assert (IP : Int_part (IZR (- (2 * Z.of_nat k))) = (- (2 * Z.of_nat k))%Z).
    { destruct (base_Int_part (IZR (- (2 * Z.of_nat k)))) as [B1 B2]. apply le_IZR in B1.
      assert (B3 : IZR (- (2 * Z.of_nat k)) < IZR (Int_part (IZR (- (2 * Z.of_nat k))) + 1)) by (rewrite plus_IZR; lra). apply lt_IZR in B3. lia. }
    rewrite IP. destruct (Req_EM_T _ _) as [|Q]; [|contradiction]. f_equal.
    rewrite Rpower_Ropp. replace (2 * INR k) with (INR (2 * k)) by (rewrite mult_INR; cbn; ring). rewrite Rpower_pow by lra.
    replace (- (2 * Z.of_nat k))%Z with (- Z.of_nat (2 * k))%Z by lia. rewrite powerRZ_neg', <- pow_powerRZ.
    f_equal. rewrite !pow_Rsqr. f_equal. unfold Rsqr. ring. }
  eexists. split; [exact P|]. split.
  - unfold periodic_rate. cbn. unfold Rdivp. rewrite (Rmult_comm t m), T. destruct (Req_EM_T (2 * INR k) 0); [lra|]. cbn [bind]. unfold Rmpow.
    destruct (Rlt_dec 0 (Rpower (- x) (- (2 * INR k)))) as [_|Q]; [|exfalso; apply Q; apply exp_pos]. cbn [bind].
    rewrite Rpower_mult. replace (- (2 * INR k) * (- (1) / (2 * INR k))) with 1 by (field; lra). rewrite Rpower_1 by lra. f_equal. unfold x. field. lra.
  - assert (Q : x * m < 0) by nra. unfold x in Q. replace ((1 + r / m) * m) with (m + r) in Q by (field; lra). lra.
Qed.
Print Assumptions C01_periodic_alias_refuted.
(** -300% annually over two years comes back as 100% *)
Example C01_alias_example : exists df, periodic_compounding (-3) (2 * INR 1 / 1) 1 = Ok df /\ periodic_rate df (2 * INR 1 / 1) 1 = Ok (-2 * 1 - -3).
Proof. destruct (C01_periodic_alias_refuted (-3) 1 1) as (df & A & B & _); [lra|lra|lia|eauto]. Qed.

(** the hypotheses are met by an ordinary quote: 5% over two years *)
Example C01_example : exists df,
  periodic_compounding (5/100) 2 12 = Ok df /\ periodic_rate df 2 12 = Ok (5/100).
Proof. apply C01_periodic_rate_of_compounding; lra. Qed.

(** C02: more frequent compounding discounts more *)
Theorem C02_frequency_order : forall r t m n : R,
  0 < r -> 0 < t -> 0 < m -> m < n ->
  exists dm dn dc,
    periodic_compounding r t m = Ok dm /\ periodic_compounding r t n = Ok dn /\
    continuous_compounding r t = Ok dc /\
    0 < dc < dn /\ dn < dm < 1.
Proof.
  intros r t m n Hr Ht Hm Hmn.
  assert (0 < r / m) by (apply Rdiv_lt_0_compat; lra).
  assert (0 < r / n) by (apply Rdiv_lt_0_compat; lra).
  do 3 eexists.
  split; [apply periodic_compounding_ok; lra|].
  split; [apply periodic_compounding_ok; lra|].
  split; [apply continuous_compounding_ok|].
  split; split.
  - apply exp_pos.
  - apply continuous_lt_periodic; lra.
  - apply periodic_order; lra.
  - apply periodic_lt_1; lra.
Qed.
Print Assumptions C02_frequency_order.

Theorem C02_conventions_ordered : forall r t : R,
  0 < r -> 0 < t ->
  exists dc dd dm dq ds da,
    continuous_compounding r t = Ok dc /\ daily_compounding r t = Ok dd /\
    monthly_compounding r t = Ok dm /\ quarterly_compounding r t = Ok dq /\
    semi_compounding r t = Ok ds /\ annually_compounding r t = Ok da /\
    0 < dc /\ dc < dd /\ dd < dm /\ dm < dq /\ dq < ds /\ ds < da /\ da < 1 /\
    (t <= 1 -> exists dsimple, simple_compounding r t = Ok dsimple /\ 0 < dsimple <= da).
Proof.
  intros r t Hr Ht.
  assert (forall m, 0 < m -> 0 < 1 + r / m).
  { intros m Hm. assert (0 < r / m) by (apply Rdiv_lt_0_compat; lra). lra. }
  unfold daily_compounding, monthly_compounding, quarterly_compounding,
    semi_compounding, annually_compounding; rn.
  do 6 eexists.
  split; [apply continuous_compounding_ok|].
  do 5 (split; [apply periodic_compounding_ok; [lra | apply H; lra]|]).
  split; [apply exp_pos|].
  split; [apply continuous_lt_periodic; lra|].
  do 4 (split; [apply periodic_order; lra|]).
  split; [apply periodic_lt_1; lra|].
  intro Ht1. exists (1 / (1 + r * t)).
  assert (0 < r * t) by (apply Rmult_lt_0_compat; lra).
  split; [apply simple_compounding_ok; lra|].
  split; [apply Rdiv_lt_0_compat; lra | apply simple_le_annual; lra].
Qed.
Print Assumptions C02_conventions_ordered.

Example C02_example : exists dm dn dc,
    periodic_compounding (1/100) 3 4 = Ok dm /\ periodic_compounding (1/100) 3 12 = Ok dn /\
    continuous_compounding (1/100) 3 = Ok dc /\ 0 < dc < dn /\ dn < dm < 1.
Proof. apply C02_frequency_order; lra. Qed.

(** strictly decreasing in the rate and in the time, for every convention *)
Theorem C02_decreasing : forall r r' t t' : R,
  0 < r -> 0 < t -> r <= r' -> t <= t' -> r < r' \/ t < t' ->
  (exists d d', simple_compounding r t = Ok d /\ simple_compounding r' t' = Ok d' /\
                0 < d' < d /\ d < 1) /\
  (exists d d', continuous_compounding r t = Ok d /\ continuous_compounding r' t' = Ok d' /\
                0 < d' < d /\ d < 1) /\
  (forall m, 0 < m ->
   exists d d', periodic_compounding r t m = Ok d /\ periodic_compounding r' t' m = Ok d' /\
                0 < d' < d /\ d < 1).
Proof.
  intros r r' t t' Hr Ht Hrr Htt Hs.
  assert (P : 0 < r * t) by (apply Rmult_lt_0_compat; lra).
  assert (Q : r * t < r' * t').
  { destruct Hs.
    - apply Rlt_le_trans with (r' * t); [apply Rmult_lt_compat_r|apply Rmult_le_compat_l]; lra.
    - apply Rlt_le_trans with (r * t'); [apply Rmult_lt_compat_l|apply Rmult_le_compat_r]; lra. }
  split; [|split].
  - exists (1 / (1 + r * t)), (1 / (1 + r' * t')).
    split; [apply simple_compounding_ok; lra|]. split; [apply simple_compounding_ok; lra|].
    split; [split|].
    + apply Rdiv_lt_0_compat; lra.
    + unfold Rdiv. rewrite !Rmult_1_l. apply Rinv_lt_contravar; [apply Rmult_lt_0_compat|]; lra.
    + apply (Rmult_lt_reg_r (1 + r * t)); [lra|]. unfold Rdiv. rewrite Rmult_assoc, Rinv_l; lra.
  - exists (exp (- (r * t))), (exp (- (r' * t'))).
    rewrite !continuous_compounding_ok. repeat split; auto.
    + apply exp_pos.
    + apply exp_increasing; lra.
    + apply Rlt_le_trans with (exp 0); [apply exp_increasing; lra|rewrite exp_0; lra].
  - intros m Hm.
    assert (A : 0 < r / m) by (apply Rdiv_lt_0_compat; lra).
    assert (B : r / m <= r' / m).
    { apply Rmult_le_compat_r; [left; apply Rinv_0_lt_compat|]; lra. }
    exists (Rpower (1 + r / m) (- (m * t))), (Rpower (1 + r' / m) (- (m * t'))).
    split; [apply periodic_compounding_ok; lra|]. split; [apply periodic_compounding_ok; lra|].
    assert (LA : 0 < ln (1 + r / m)) by (rewrite <- ln_1; apply ln_increasing; lra).
    assert (LB : ln (1 + r / m) <= ln (1 + r' / m)).
    { destruct B as [B|B]; [left; apply ln_increasing; lra | right; now rewrite B]. }
    assert (MT : 0 < m * t) by (apply Rmult_lt_0_compat; lra).
    assert (MT' : m * t <= m * t') by (apply Rmult_le_compat_l; lra).
    unfold Rpower. split; [split|].
    + apply exp_pos.
    + apply exp_increasing.
      enough (m * t * ln (1 + r / m) < m * t' * ln (1 + r' / m)) by lra.
      destruct Hs as [Hs|Hs].
      * assert (ln (1 + r / m) < ln (1 + r' / m)).
        { apply ln_increasing; [lra|]. apply Rplus_lt_compat_l.
          apply Rmult_lt_compat_r; [apply Rinv_0_lt_compat; lra|lra]. }
        apply Rlt_le_trans with (m * t * ln (1 + r' / m));
          [apply Rmult_lt_compat_l|apply Rmult_le_compat_r]; lra.
      * assert (m * t < m * t') by (apply Rmult_lt_compat_l; lra).
        apply Rlt_le_trans with (m * t' * ln (1 + r / m));
          [apply Rmult_lt_compat_r|apply Rmult_le_compat_l]; lra.
    + apply Rlt_le_trans with (exp 0); [|rewrite exp_0; lra].
      apply exp_increasing.
      assert (0 < m * t * ln (1 + r / m)) by (apply Rmult_lt_0_compat; lra). lra.
Qed.
Print Assumptions C02_decreasing.
