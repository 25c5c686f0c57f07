(** Property C106: redemption plans with omitted arguments and with numbers of payments
    which are not integers (dcf/plans.py). *)
From Coq Require Import Reals Lra Lia List ZArith.
From Verif Require Import Num Spec LBase MPlans LPlans MPlans2 PPlans.
Import ListNotations.
Open Scope R_scope.

Lemma int_of_bounds (x : R) : 0 <= x -> INR (int_of x) <= x < INR (int_of x) + 1.
Proof.
  intros H. destruct (base_Int_part x) as [A B]. unfold int_of.
  assert (P : (0 <= Int_part x)%Z).
  { apply le_IZR. destruct (Z.le_gt_cases 0 (Int_part x)) as [G|G]; [now apply IZR_le|].
    assert (IZR (Int_part x) <= -1) by (apply IZR_le; lia). lra. }
  rewrite INR_IZR_INZ, Z2Nat.id by auto. lra.
Qed.

(** with [num] payments, 0 < num, there are as many payments as whole numbers fit into
    [num], each an exact [num]-th part: the amortising plan redeems the share
    [floor(num) / num] of the amount, hence all of it only if [num] is whole *)
Theorem C106_amortize : forall (num amount : R), 0 < num ->
  exists n p, INR n <= num < INR n + 1 /\ amortize_num num (int_of num) amount = Ok p /\
    length p = n /\ (forall x, In x p -> x = amount / num) /\
    Rsum p = amount * (INR n / num) /\
    (amount <> 0 -> (Rsum p = amount <-> num = INR n)).
Proof.
  intros num a H. exists (int_of num), (repeat (a / num) (int_of num)).
  split; [apply int_of_bounds; lra|]. split.
  { unfold amortize_num. rn. rewrite Rdivp_ok by lra. reflexivity. }
  split; [apply repeat_length|]. split; [intros x Hx; now apply repeat_spec in Hx|].
  rewrite Rsum_repeat. split; [field; lra|]. intros HA. split; intros E.
  - apply Rmult_eq_reg_l with a; auto. apply Rmult_eq_reg_l with (/ num); [|apply Rinv_neq_0_compat; lra].
    replace (/ num * (a * num)) with a by (field; lra). rewrite <- E at 1. field. lra.
  - rewrite <- E. field. lra.
Qed.
Print Assumptions C106_amortize.

(** the same for consumer loans, whose interest is that of [num] periods *)
Theorem C106_consumer : forall (num amount rate : R), 0 < num ->
  exists n p, INR n <= num < INR n + 1 /\ consumer_num num (int_of num) amount rate = Ok p /\
    length p = n /\ (forall x, In x p -> x = amount * (1 + num * rate) / num) /\
    Rsum p = amount * (1 + num * rate) * (INR n / num).
Proof.
  intros num a r H. exists (int_of num), (repeat (a * (1 + num * r) / num) (int_of num)).
  split; [apply int_of_bounds; lra|]. split.
  { unfold consumer_num. rn. rewrite Rdivp_ok by lra. reflexivity. }
  split; [apply repeat_length|]. split; [intros x Hx; now apply repeat_spec in Hx|].
  rewrite Rsum_repeat. field. lra.
Qed.
Print Assumptions C106_consumer.

(** whole numbers of payments are those of C04 *)
Theorem C106_whole : forall (n : nat) (amount rate : R),
  int_of (INR n) = n /\
  same_num (INR n) (int_of (INR n)) amount = same n amount /\
  bullet_num (INR n) (int_of (INR n)) amount = bullet n amount /\
  amortize_num (INR n) (int_of (INR n)) amount = amortize n amount /\
  annuity_num (INR n) (int_of (INR n)) amount rate = annuity n amount rate /\
  consumer_num (INR n) (int_of (INR n)) amount rate = consumer n amount rate.
Proof.
  intros n a r. assert (E : int_of (INR n) = n).
  { pose proof (int_of_bounds (INR n) (pos_INR n)) as [A B]. rewrite <- S_INR in B.
    apply INR_le in A. apply INR_lt in B. lia. }
  rewrite E. repeat split; auto.
  - unfold amortize_num, amortize. now rewrite n_ofN_INR.
  - unfold consumer_num, consumer. now rewrite n_ofN_INR.
Qed.
Print Assumptions C106_whole.

(** the plans which ignore the fraction: as many payments, all of the amount *)
Theorem C106_ignored : forall (num amount rate : R), 1 <= num ->
  exists n, INR n <= num < INR n + 1 /\ (1 <= n)%nat /\
    same_num num (int_of num) amount = repeat amount n /\
    (length (bullet_num num (int_of num) amount) = n /\ Rsum (bullet_num num (int_of num) amount) = amount) /\
    ((1 + rate) ^ n <> 1 -> exists p, annuity_num num (int_of num) amount rate = Ok p /\ length p = n /\ Rsum p = amount).
Proof.
  intros num a r H. exists (int_of num).
  pose proof (int_of_bounds num ltac:(lra)) as B. assert (G : (1 <= int_of num)%nat).
  { destruct (int_of num); [simpl in B; lra|lia]. }
  split; auto. split; auto. split; [apply C04_same|]. split.
  - destruct (C04_bullet (int_of num) a G) as [A [C _]]. now split.
  - apply C04_annuity.
Qed.
Print Assumptions C106_ignored.

(** two and a half payments redeem four fifths *)
Theorem C106_full_redemption_refuted : exists (num : R) p, 0 < num /\
  amortize_num num (int_of num) 1 = Ok p /\ length p = 2%nat /\ Rsum p = 4 / 5.
Proof.
  exists (5/2). destruct (C106_amortize (5/2) 1) as (n & p & B & E & L & _ & S & _); [lra|].
  assert (n = 2%nat).
  { destruct n as [|[|[|n]]]; [simpl in B; lra|simpl in B; lra|auto|].
    rewrite !S_INR in B. pose proof (pos_INR n). lra. }
  subst n. exists p. split; [lra|]. split; [exact E|]. split; [congruence|]. rewrite S. simpl (length p). rewrite H. simpl. field.
Qed.
Print Assumptions C106_full_redemption_refuted.

(** no payments at all: amortising and consumer plans raise *)
Theorem C106_zero : forall (k : nat) (amount rate : R),
  amortize_num 0 k amount = Err ZeroDivisionError /\ consumer_num 0 k amount rate = Err ZeroDivisionError.
Proof.
  intros k a r. unfold amortize_num, consumer_num. rn. now rewrite !Rdivp_zero.
Qed.
Print Assumptions C106_zero.

(** an omitted amount is 1 and an omitted rate is one percent *)
Theorem C106_defaults : forall (n : nat), (1 <= n)%nat ->
  same_dflt n None = repeat 1 n /\
  (length (bullet_dflt n None) = n /\ Rsum (bullet_dflt n None) = 1) /\
  (exists p, amortize_dflt n None = Ok p /\ length p = n /\ Rsum p = 1 /\ forall x, In x p -> x = 1 / INR n) /\
  (exists p, annuity_dflt n None None = Ok p /\ length p = n /\ Rsum p = 1 /\
     (forall i, (i < n)%nat -> nth i p 0 + 1/100 * nth i (outstanding_dflt p None None) 0 =
                               1/100 * (101/100) ^ n / ((101/100) ^ n - 1))) /\
  (exists p, consumer_dflt n None None = Ok p /\ length p = n /\ Rsum p = 1 + INR n / 100).
Proof.
  intros n H. assert (D : DEFAULT_AMOUNT = 1) by reflexivity.
  assert (F : FIXED_RATE = 1/100) by (unfold FIXED_RATE; rn; unfold n_ratio; rn; try lra).
  unfold same_dflt, bullet_dflt, amortize_dflt, annuity_dflt, consumer_dflt, outstanding_dflt, or_else.
  rewrite D, F. split; [apply C04_same|].
  destruct (C04_bullet n 1 H) as [A [B _]]. split; [now split|].
  split; [apply C04_amortize; auto|].
  assert (Q : (1 + 1/100) ^ n <> 1).
  { assert (1 < (1 + 1/100) ^ n); [|lra]. apply Rlt_pow_R1; [lra|lia]. }
  split.
  - destruct (C04_annuity n 1 (1/100) Q) as (p & E & L & S). exists p. split; auto. split; auto. split; auto.
    intros i Hi. rewrite (C05_constant_instalment n 1 (1/100) p i Q E Hi). 
    replace (1 + 1/100) with (101/100) in * by lra. field. lra.
  - destruct (C04_consumer n 1 (1/100) H) as (p & E & L & S & _). exists p. split; auto. split; auto. rewrite S. lra.
Qed.
Print Assumptions C106_defaults.

(** given arguments are used *)
Theorem C106_given : forall (n : nat) (p : list R) (a r : R) (s : bool),
  same_dflt n (Some a) = same n a /\ bullet_dflt n (Some a) = bullet n a /\
  amortize_dflt n (Some a) = amortize n a /\ annuity_dflt n (Some a) (Some r) = annuity n a r /\
  consumer_dflt n (Some a) (Some r) = consumer n a r /\ outstanding_dflt p (Some a) (Some s) = outstanding p a s.
Proof. now repeat split. Qed.
Print Assumptions C106_given.

Example C106_example : int_of (5/2) = 2%nat /\ 0 < 5/2 /\ (1 + 1/100) ^ 2 <> 1.
Proof.
  pose proof (int_of_bounds (5/2) ltac:(lra)) as B. split; [|lra].
  destruct (int_of (5/2)) as [|[|[|n]]]; [simpl in B; lra|simpl in B; lra|auto|].
  rewrite !S_INR in B. pose proof (pos_INR n). lra.
Qed.
