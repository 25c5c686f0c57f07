(** Basic lemmas and tactics about the real instance of the number structure. *)
From Coq Require Import Reals Lra Lia ZArith List Bool Psatz.
From Verif Require Import Num Py Spec.
Import ListNotations.
Open Scope R_scope.

Ltac rn := cbn [n0 n1 nadd nsub nmul nopp nltb nleb neqb ndiv nexp nlog nsqrt
                nmpow n_ofZ n_ratio n_round7 n_fmin Rnum bind rmap] in *.

Lemma Rltb_true x y : Rltb x y = true <-> x < y.
Proof. unfold Rltb; destruct (Rlt_dec x y); intuition discriminate. Qed.
Lemma Rltb_false x y : Rltb x y = false <-> y <= x.
Proof. unfold Rltb; destruct (Rlt_dec x y); split; intro; try discriminate; try lra; auto. Qed.
Lemma Rleb_true x y : Rleb x y = true <-> x <= y.
Proof. unfold Rleb; destruct (Rle_dec x y); intuition discriminate. Qed.
Lemma Rleb_false x y : Rleb x y = false <-> y < x.
Proof. unfold Rleb; destruct (Rle_dec x y); split; intro; try discriminate; try lra; auto. Qed.
Lemma Reqb_true x y : Reqb x y = true <-> x = y.
Proof. unfold Reqb; destruct (Req_EM_T x y); intuition discriminate. Qed.
Lemma Reqb_false x y : Reqb x y = false <-> x <> y.
Proof. unfold Reqb; destruct (Req_EM_T x y); intuition discriminate. Qed.
Lemma Reqb_refl x : Reqb x x = true.
Proof. now apply Reqb_true. Qed.

Lemma Rltb_dec_true x y : x < y -> Rltb x y = true.
Proof. apply Rltb_true. Qed.
Lemma Rltb_dec_false x y : y <= x -> Rltb x y = false.
Proof. apply Rltb_false. Qed.

(** turn boolean comparisons in hypotheses into propositions *)
Ltac rbool :=
  repeat match goal with
  | H : Rltb _ _ = true |- _ => apply Rltb_true in H
  | H : Rltb _ _ = false |- _ => apply Rltb_false in H
  | H : Rleb _ _ = true |- _ => apply Rleb_true in H
  | H : Rleb _ _ = false |- _ => apply Rleb_false in H
  | H : Reqb _ _ = true |- _ => apply Reqb_true in H
  | H : Reqb _ _ = false |- _ => apply Reqb_false in H
  | H : negb _ = true |- _ => apply negb_true_iff in H
  | H : negb _ = false |- _ => apply negb_false_iff in H
  | H : _ && _ = true |- _ => apply andb_true_iff in H; destruct H
  | H : _ || _ = false |- _ => apply orb_false_iff in H; destruct H
  end.

(** case split on the outermost boolean comparison in the goal *)
Ltac rcase :=
  match goal with
  | |- context [if ?b then _ else _] => destruct b eqn:?; rbool
  end.

Lemma Rdivp_ok x y : y <> 0 -> Rdivp x y = Ok (x / y).
Proof. intro H; unfold Rdivp; destruct (Req_EM_T y 0); [contradiction | reflexivity]. Qed.
Lemma Rdivp_zero x : Rdivp x 0 = Err ZeroDivisionError.
Proof. unfold Rdivp; destruct (Req_EM_T 0 0); [reflexivity | congruence]. Qed.
Lemma Rdivp_inv x y z : Rdivp x y = Ok z -> y <> 0 /\ z = x / y.
Proof. unfold Rdivp; destruct (Req_EM_T y 0); intro H; inversion H; auto. Qed.
Lemma Rlogp_ok x : 0 < x -> Rlogp x = Ok (ln x).
Proof. intro H; unfold Rlogp; destruct (Rlt_dec 0 x); [reflexivity | contradiction]. Qed.
Lemma Rlogp_err x : x <= 0 -> Rlogp x = Err ValueError.
Proof. intro H; unfold Rlogp; destruct (Rlt_dec 0 x); [lra | reflexivity]. Qed.
Lemma Rsqrtp_ok x : 0 <= x -> Rsqrtp x = Ok (sqrt x).
Proof. intro H; unfold Rsqrtp; destruct (Rle_dec 0 x); [reflexivity | contradiction]. Qed.
Lemma Rmpow_ok x y : 0 < x -> Rmpow x y = Ok (Rpower x y).
Proof. intro H; unfold Rmpow; destruct (Rlt_dec 0 x); [reflexivity | contradiction]. Qed.

Lemma npow_pow (x : R) n : npow x n = x ^ n.
Proof. induction n; simpl; [reflexivity|]. rewrite IHn; reflexivity. Qed.

Lemma n_ofN_INR n : (n_ofN n : R) = INR n.
Proof. unfold n_ofN; rn. now rewrite INR_IZR_INZ. Qed.

Lemma nmax_Rmax (a b : R) : nmax a b = Rmax a b.
Proof.
  unfold nmax; rn. unfold Rmax. rcase; destruct (Rle_dec a b); try lra; auto.
Qed.
Lemma nmin_Rmin (a b : R) : nmin a b = Rmin a b.
Proof.
  unfold nmin; rn. unfold Rmin. rcase; destruct (Rle_dec a b); try lra; auto.
Qed.
Lemma nabs_Rabs (a : R) : nabs a = Rabs a.
Proof.
  unfold nabs; rn. rcase.
  - rewrite Rabs_left; auto.
  - rewrite Rabs_right; auto; lra.
Qed.

Lemma ntruthy_true (x : R) : ntruthy x = true <-> x <> 0.
Proof. unfold ntruthy; rn. rewrite negb_true_iff. apply Reqb_false. Qed.
Lemma ntruthy_false (x : R) : ntruthy x = false <-> x = 0.
Proof. unfold ntruthy; rn. rewrite negb_false_iff. apply Reqb_true. Qed.

(** sums *)
Lemma fold_left_Rsum l a : fold_left Rplus l a = a + Rsum l.
Proof. revert a; induction l; intro b; simpl; [lra|]. rewrite IHl; lra. Qed.
Lemma nsum_Rsum (l : list R) : nsum l = Rsum l.
Proof. unfold nsum; rn. rewrite fold_left_Rsum; lra. Qed.
Lemma Rsum_app a b : Rsum (a ++ b) = Rsum a + Rsum b.
Proof. induction a; simpl; lra. Qed.
Lemma Rsum_repeat x n : Rsum (repeat x n) = INR n * x.
Proof. induction n; [simpl; lra|]. rewrite S_INR; simpl repeat; simpl Rsum. rewrite IHn; lra. Qed.

(** mapM *)
Lemma mapM_ok {A B} (f : A -> res B) (g : A -> B) l :
  (forall x, In x l -> f x = Ok (g x)) -> mapM f l = Ok (map g l).
Proof.
  induction l as [|a l IH]; intro H; simpl; [reflexivity|].
  rewrite H by (left; auto). simpl. rewrite IH by (intros; apply H; right; auto).
  reflexivity.
Qed.
Lemma mapM_inv {A B} (f : A -> res B) l r :
  mapM f l = Ok r -> Forall2 (fun x y => f x = Ok y) l r.
Proof.
  revert r; induction l as [|a l IH]; simpl; intros r H.
  - inversion H; constructor.
  - destruct (f a) eqn:E; simpl in H; [|discriminate].
    destruct (mapM f l) eqn:E2; simpl in H; [|discriminate].
    inversion H; subst. constructor; auto.
Qed.
Lemma mapM_length {A B} (f : A -> res B) l r : mapM f l = Ok r -> length r = length l.
Proof. intro H; apply mapM_inv in H; induction H; simpl; auto. Qed.
Lemma mapM_total {A B} (f : A -> res B) l : (forall x, In x l -> exists y, f x = Ok y) -> exists r, mapM f l = Ok r.
Proof.
  induction l as [|a l IH]; intro H; simpl; eauto.
  destruct (H a) as [y ->]; [left; auto|]. simpl. destruct IH as [r ->]; [intros; apply H; right; auto|].
  simpl. eauto.
Qed.
