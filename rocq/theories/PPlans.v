(** Properties C04, C05, C06: redemption plans (dcf/plans.py). *)
From Coq Require Import Reals Lra Lia List.
From Verif Require Import Num Spec LBase MPlans LPlans.
Import ListNotations.
Open Scope R_scope.

(** C04: length and total of every plan *)
Theorem C04_same : forall (n : nat) (N : R), same n N = repeat N n.
Proof. exact same_spec. Qed.
Print Assumptions C04_same.

Theorem C04_bullet : forall (n : nat) (N : R), (1 <= n)%nat ->
  length (bullet n N) = n /\ Rsum (bullet n N) = N /\
  (forall i, (i < n)%nat -> nth i (bullet n N) 0 = if Nat.eq_dec (S i) n then N else 0).
Proof.
  exact (fun n N H => conj (bullet_length n N H)
           (conj (bullet_sum n N) (fun i Hi => bullet_nth n N i Hi))).
Qed.
Print Assumptions C04_bullet.

Theorem C04_amortize : forall (n : nat) (N : R), (1 <= n)%nat ->
  exists p, amortize n N = Ok p /\ length p = n /\ Rsum p = N /\
            (forall x, In x p -> x = N / INR n).
Proof.
  intros n N H. eexists. split; [apply amortize_ok; auto|].
  split; [apply repeat_length|]. split; [apply repeat_sum_div; auto|].
  intros x Hx. now apply repeat_spec in Hx.
Qed.
Print Assumptions C04_amortize.

Theorem C04_annuity : forall (n : nat) (N r : R), (1 + r) ^ n <> 1 ->
  exists p, annuity n N r = Ok p /\ length p = n /\ Rsum p = N.
Proof.
  intros n N r H. eexists. split; [apply annuity_ok; auto|].
  split; [rewrite map_length, seq_length; auto | apply annuity_sum; auto].
Qed.
Print Assumptions C04_annuity.

Theorem C04_consumer : forall (n : nat) (N r : R), (1 <= n)%nat ->
  exists p, consumer n N r = Ok p /\ length p = n /\ Rsum p = N * (1 + INR n * r) /\
            (forall x y, In x p -> In y p -> x = y).
Proof.
  intros n N r H. eexists. split; [apply consumer_ok; auto|].
  split; [apply repeat_length|]. split; [apply repeat_sum_div; auto|].
  intros x y Hx Hy. apply repeat_spec in Hx. apply repeat_spec in Hy. congruence.
Qed.
Print Assumptions C04_consumer.

(** a zero rate annuity (equal redemptions mathematically) raises *)
Theorem C04_annuity_zero_rate_raises : forall (n : nat) (N : R),
  annuity n N 0 = Err ZeroDivisionError.
Proof. exact annuity_err. Qed.
Print Assumptions C04_annuity_zero_rate_raises.

(** a bullet plan without payments still pays the amount once *)
Theorem C04_bullet_length_refuted : exists (n : nat) (N : R), length (bullet n N) <> n.
Proof. exists 0%nat, 1. simpl. lia. Qed.
Print Assumptions C04_bullet_length_refuted.

Example C04_example : exists p, annuity 8 1000 (2/100) = Ok p /\ length p = 8%nat /\ Rsum p = 1000.
Proof. apply C04_annuity. lra. Qed.

(** C05: constant instalment of an annuity *)
Theorem C05_constant_instalment : forall (n : nat) (N r : R) p i,
  (1 + r) ^ n <> 1 -> annuity n N r = Ok p -> (i < n)%nat ->
  nth i p 0 + r * nth i (outstanding p N false) 0 =
  N * r * (1 + r) ^ n / ((1 + r) ^ n - 1).
Proof.
  intros n N r p i H E Hi. rewrite annuity_ok in E by auto. inversion E; subst p; clear E.
  rewrite outstanding_nth by (rewrite map_length, seq_length; auto).
  rewrite firstn_seq_map by lia. rewrite annuity_partial_sum by auto.
  rewrite nth_map_seq by auto. field. lra.
Qed.
Print Assumptions C05_constant_instalment.

Theorem C05_geometric : forall (n : nat) (N r : R) p i,
  (1 + r) ^ n <> 1 -> annuity n N r = Ok p -> (S i < n)%nat ->
  nth (S i) p 0 = (1 + r) * nth i p 0.
Proof.
  intros n N r p i H E Hi. rewrite annuity_ok in E by auto. inversion E; subst p; clear E.
  rewrite !nth_map_seq by lia. simpl. ring.
Qed.
Print Assumptions C05_geometric.

Example C05_example : exists p, annuity 3 1 (1/10) = Ok p /\
  nth 0 p 0 + 1/10 * nth 0 (outstanding p 1 false) 0 =
  nth 2 p 0 + 1/10 * nth 2 (outstanding p 1 false) 0.
Proof.
  assert (H : (1 + 1/10) ^ 3 <> 1) by lra.
  eexists. split; [apply annuity_ok; auto|].
  erewrite C05_constant_instalment; [|apply H|apply annuity_ok; auto|lia].
  erewrite C05_constant_instalment; [reflexivity|apply H|apply annuity_ok; auto|lia].
Qed.

(** C06: outstanding balances *)
Theorem C06_outstanding : forall (p : list R) (N : R) (sgn : bool),
  p <> [] ->
  length (outstanding p N sgn) = length p /\
  (forall i, (i < length p)%nat ->
     nth i (outstanding p N sgn) 0 = N + (if sgn then 1 else -1) * Rsum (firstn i p)).
Proof.
  exact (fun p N sgn H => conj (outstanding_length p N sgn H)
           (fun i Hi => outstanding_nth p N sgn i Hi)).
Qed.
Print Assumptions C06_outstanding.

Theorem C06_fully_repaid : forall (p : list R) (N : R),
  p <> [] -> Rsum p = N -> last (outstanding p N false) 0 = last p 0.
Proof. exact fully_repaid. Qed.
Print Assumptions C06_fully_repaid.

(** all redemption plans meet the hypothesis of the previous theorem *)
Theorem C06_plans_fully_repaid : forall (n : nat) (N r : R), (1 <= n)%nat ->
  last (outstanding (bullet n N) N false) 0 = last (bullet n N) 0 /\
  (forall p, amortize n N = Ok p -> last (outstanding p N false) 0 = last p 0) /\
  (forall p, (1 + r) ^ n <> 1 -> annuity n N r = Ok p ->
             last (outstanding p N false) 0 = last p 0).
Proof.
  intros n N r Hn.
  assert (NE : forall p : list R, length p = n -> p <> []).
  { intros p Hp E; subst p; simpl in Hp; lia. }
  split; [|split].
  - apply fully_repaid; [apply NE, bullet_length; auto | apply bullet_sum].
  - intros p E. destruct (C04_amortize n N Hn) as [q [E' [L [S _]]]].
    rewrite E in E'. inversion E'; subst q. apply fully_repaid; auto.
  - intros p H E. destruct (C04_annuity n N r H) as [q [E' [L S]]].
    rewrite E in E'. inversion E'; subst q. apply fully_repaid; auto.
Qed.
Print Assumptions C06_plans_fully_repaid.

(** an empty plan yields one balance, not none *)
Theorem C06_empty_plan_refuted : exists (p : list R) (N : R),
  length (outstanding p N false) <> length p.
Proof. exists [], 1. simpl. lia. Qed.
Print Assumptions C06_empty_plan_refuted.
