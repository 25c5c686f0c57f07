(** Proofs about redemption plans. *)
From Coq Require Import Reals Lra Lia List.
From Verif Require Import Num Spec LBase MPlans.
Import ListNotations.
Open Scope R_scope.

Lemma same_spec n (a : R) : same n a = repeat a n.
Proof. reflexivity. Qed.

Lemma bullet_length n (a : R) : (1 <= n)%nat -> length (bullet n a) = n.
Proof. intro H. unfold bullet. rewrite app_length, repeat_length; simpl; lia. Qed.

Lemma bullet_sum n (a : R) : Rsum (bullet n a) = a.
Proof. unfold bullet. rewrite Rsum_app, Rsum_repeat; simpl; rn; lra. Qed.

Lemma bullet_nth n (a : R) i : (i < n)%nat ->
  nth i (bullet n a) 0 = if Nat.eq_dec (S i) n then a else 0.
Proof.
  intro H. unfold bullet. destruct (Nat.eq_dec (S i) n) as [E|E].
  - rewrite app_nth2; rewrite repeat_length; [|lia].
    replace (i - (n - 1))%nat with 0%nat by lia. reflexivity.
  - rewrite app_nth1 by (rewrite repeat_length; lia). rn.
    clear. generalize (n - 1)%nat; intro m. revert i; induction m; destruct i; simpl; auto.
Qed.

Lemma INR_pos n : (1 <= n)%nat -> 0 < INR n.
Proof. intro; apply lt_0_INR; lia. Qed.

Lemma amortize_ok n (a : R) : (1 <= n)%nat ->
  amortize n a = Ok (repeat (a / INR n) n).
Proof.
  intro H. pose proof (INR_pos n H). unfold amortize; rewrite n_ofN_INR; rn.
  rewrite Rdivp_ok by lra. reflexivity.
Qed.

Lemma repeat_sum_div n (a : R) : (1 <= n)%nat -> Rsum (repeat (a / INR n) n) = a.
Proof. intro H. pose proof (INR_pos n H). rewrite Rsum_repeat. field; lra. Qed.

Lemma consumer_ok n (a r : R) : (1 <= n)%nat ->
  consumer n a r = Ok (repeat (a * (1 + INR n * r) / INR n) n).
Proof.
  intro H. pose proof (INR_pos n H). unfold consumer; rewrite n_ofN_INR; rn.
  rewrite Rdivp_ok by lra. reflexivity.
Qed.

Lemma geom_sum (a q : R) n k :
  (q - 1) * Rsum (map (fun i => a * q ^ i) (seq k n)) = a * q ^ k * (q ^ n - 1).
Proof.
  revert k; induction n; intro k; simpl; [ring|].
  rewrite Rmult_plus_distr_l, IHn. simpl. ring.
Qed.

Lemma annuity_ok n (a r : R) : (1 + r) ^ n <> 1 ->
  annuity n a r =
  Ok (map (fun i => a * r / ((1 + r) ^ n - 1) * (1 + r) ^ i) (seq 0 n)).
Proof.
  intro H. unfold annuity; rn. rewrite (npow_pow (1 + r) n). rewrite Rdivp_ok by lra. rn.
  f_equal. apply map_ext. intro i. rn. rewrite (npow_pow (1 + r) i).
  replace (1 + r - 1) with r by ring. reflexivity.
Qed.

Lemma annuity_err n (a : R) : annuity n a 0 = Err ZeroDivisionError.
Proof.
  unfold annuity; rn. rewrite npow_pow, Rplus_0_r, pow1.
  replace (1 - 1) with 0 by ring. rewrite Rdivp_zero. reflexivity.
Qed.

Lemma pow_ne_1 q n : q ^ n <> 1 -> q <> 1.
Proof. intros H E; apply H; subst; apply pow1. Qed.

Lemma annuity_partial_sum n (a r : R) k : (1 + r) ^ n <> 1 ->
  Rsum (map (fun i => a * r / ((1 + r) ^ n - 1) * (1 + r) ^ i) (seq 0 k)) =
  a * ((1 + r) ^ k - 1) / ((1 + r) ^ n - 1).
Proof.
  intro H. pose proof (pow_ne_1 _ _ H) as Hq.
  pose proof (geom_sum (a * r / ((1 + r) ^ n - 1)) (1 + r) k 0) as G.
  simpl (_ ^ 0) in G.
  apply (Rmult_eq_reg_l (1 + r - 1)); [|lra].
  rewrite G. field. lra.
Qed.

Lemma annuity_sum n (a r : R) : (1 + r) ^ n <> 1 ->
  Rsum (map (fun i => a * r / ((1 + r) ^ n - 1) * (1 + r) ^ i) (seq 0 n)) = a.
Proof. intro H. rewrite annuity_partial_sum by auto. field; lra. Qed.

(** outstanding *)
Lemma list_eq_dec_nil {A} (l : list A) : {l = []} + {l <> []}.
Proof. destruct l; [left; auto | right; discriminate]. Qed.

Lemma outstanding_loop_length p (a s : R) : length (outstanding_loop p a s) = length p.
Proof. revert a; induction p; intro b; simpl; auto. Qed.

Lemma outstanding_loop_nth p (a s : R) i d : (i < length p)%nat ->
  nth i (outstanding_loop p a s) d = a + s * Rsum (firstn (S i) p).
Proof.
  revert a i; induction p as [|x p IH]; intros a i H; simpl in H; [lia|].
  destruct i; cbn [outstanding_loop nth].
  - simpl; rn; lra.
  - rewrite IH by lia. simpl; rn. lra.
Qed.

Lemma removelast_length {A} (l : list A) : length (removelast l) = (length l - 1)%nat.
Proof.
  destruct (list_eq_dec_nil l) as [E|E]; [subst; reflexivity|].
  destruct (exists_last E) as [l' [x ->]]. rewrite removelast_last, app_length; simpl; lia.
Qed.

Lemma removelast_firstn_le {A} (l : list A) k : (k < length l)%nat ->
  firstn k (removelast l) = firstn k l.
Proof.
  revert k; induction l as [|x l IH]; intros k H; [simpl in H; lia|].
  destruct l as [|y l].
  - simpl in H. assert (k = 0)%nat by lia; subst; reflexivity.
  - change (removelast (x :: y :: l)) with (x :: removelast (y :: l)).
    destruct k; [reflexivity|]. cbn [firstn]. f_equal. apply IH. simpl in *; lia.
Qed.

Lemma outstanding_length p (a : R) sgn : p <> [] -> length (outstanding p a sgn) = length p.
Proof.
  intro H. unfold outstanding. simpl. rewrite outstanding_loop_length, removelast_length.
  destruct p; [congruence|]. simpl; lia.
Qed.

Lemma outstanding_nth p (a : R) sgn i : (i < length p)%nat ->
  nth i (outstanding p a sgn) 0 =
  a + (if sgn then 1 else -1) * Rsum (firstn i p).
Proof.
  intro H. unfold outstanding. destruct i.
  - simpl; lra.
  - cbn [nth]. rewrite outstanding_loop_nth by (rewrite removelast_length; lia).
    rewrite removelast_firstn_le by lia. destruct sgn; reflexivity.
Qed.

Lemma firstn_seq_map {B} (f : nat -> B) n k i : (i <= n)%nat ->
  firstn i (map f (seq k n)) = map f (seq k i).
Proof.
  revert k i; induction n; intros k i H; destruct i; try lia; auto; try (now destruct n).
  simpl. f_equal. apply IHn; lia.
Qed.

Lemma nth_map_seq {B} (f : nat -> B) n i d : (i < n)%nat ->
  nth i (map f (seq 0 n)) d = f i.
Proof.
  intro H. rewrite nth_indep with (d' := f 0%nat) by (rewrite map_length, seq_length; auto).
  rewrite map_nth, seq_nth by auto. reflexivity.
Qed.

Lemma firstn_sum_last l : l <> [] -> Rsum (firstn (length l - 1) l) = Rsum l - last l 0.
Proof.
  intro H. destruct (exists_last H) as [l' [x E]]. subst l.
  rewrite app_length. simpl length. replace (length l' + 1 - 1)%nat with (length l' + 0)%nat by lia.
  rewrite firstn_app_2. simpl. rewrite app_nil_r, last_last, Rsum_app. simpl; lra.
Qed.

Lemma fully_repaid p (a : R) : p <> [] -> Rsum p = a ->
  last (outstanding p a false) 0 = last p 0.
Proof.
  intros H E.
  assert (HL : (0 < length p)%nat) by (destruct p; simpl; [congruence|lia]).
  assert (forall l : list R, l <> [] -> last l 0 = nth (length l - 1) l 0) as LN.
  { intros l Hl. destruct (exists_last Hl) as [l' [x E']]; subst l.
    rewrite last_last, app_length; simpl.
    rewrite app_nth2 by lia. replace (length l' + 1 - 1 - length l')%nat with 0%nat by lia.
    reflexivity. }
  assert (outstanding p a false <> []) by (unfold outstanding; congruence).
  rewrite LN by auto. rewrite outstanding_length by auto.
  rewrite outstanding_nth by lia. rewrite firstn_sum_last by auto. lra.
Qed.
