(** Proofs about dates and day counts. *)
From Coq Require Import Reals Lra Lia ZArith List Bool.
From Verif Require Import Num Py LBase MDates SDates.
Import ListNotations.
Open Scope R_scope.

Lemma float_laws : DateLaws (FloatDates (T:=R)) (fun d => d).
Proof.
  constructor; intros; cbn.
  - apply Rltb_true.
  - apply Rleb_true.
  - apply Reqb_true.
  - apply Reqb_refl.
  - now apply Reqb_true.
  - reflexivity.
Qed.

Lemma diy_pos : 0 < (days_in_year : R).
Proof. unfold days_in_year; rn. lra. Qed.

Lemma yf_days_val a b : yf_days a b = Ok (IZR (b - a) / (1461 / 4)).
Proof. unfold yf_days, days_in_year; rn. apply Rdivp_ok. lra. Qed.

Lemma day_laws : DateLaws (DayDates (T:=R)) (fun d => IZR (bd_day d) / (1461 / 4)).
Proof.
  constructor; intros; cbn.
  - rewrite Z.ltb_lt. split; intro H.
    + apply Rmult_lt_compat_r; [lra|]. now apply IZR_lt.
    + apply Rmult_lt_reg_r in H; [|lra]. now apply lt_IZR.
  - rewrite Z.leb_le. split; intro H.
    + apply Rmult_le_compat_r; [lra|]. now apply IZR_le.
    + apply Rmult_le_reg_r in H; [|lra]. now apply le_IZR.
  - rewrite Z.eqb_eq. split; intro H.
    + now rewrite H.
    + apply Rmult_eq_reg_r in H; [|lra]. now apply eq_IZR.
  - now rewrite Z.eqb_refl, Nat.eqb_refl.
  - apply andb_true_iff in H. destruct H as [H _]. apply Z.eqb_eq in H. now rewrite H.
  - change (yf_days (bd_day a) (bd_day b) = Ok (IZR (bd_day b) / (1461 / 4) - IZR (bd_day a) / (1461 / 4))).
    rewrite yf_days_val, minus_IZR. f_equal. lra.
Qed.

Section Laws.
  Context {D P : Type} {DS : DateSys R D P} {tm : D -> R} {L : DateLaws DS tm}.

  Lemma ltb_t a b : tm a < tm b -> d_ltb a b = true. Proof. apply law_ltb. Qed.
  Lemma ltb_f a b : tm b <= tm a -> d_ltb a b = false.
  Proof. intro H. destruct (d_ltb a b) eqn:E; auto. apply law_ltb in E. lra. Qed.
  Lemma leb_t a b : tm a <= tm b -> d_leb a b = true. Proof. apply law_leb. Qed.
  Lemma leb_f a b : tm b < tm a -> d_leb a b = false.
  Proof. intro H. destruct (d_leb a b) eqn:E; auto. apply law_leb in E. lra. Qed.
  Lemma eqb_t a b : tm a = tm b -> d_eqb a b = true. Proof. apply law_eqb. Qed.
  Lemma eqb_f a b : tm a <> tm b -> d_eqb a b = false.
  Proof. intro H. destruct (d_eqb a b) eqn:E; auto. apply law_eqb in E. contradiction. Qed.
  Lemma ltb_inv a b : d_ltb a b = true -> tm a < tm b. Proof. apply law_ltb. Qed.
  Lemma ltb_finv a b : d_ltb a b = false -> tm b <= tm a.
  Proof. intro H. destruct (Rlt_le_dec (tm a) (tm b)); auto. apply ltb_t in r. congruence. Qed.
  Lemma leb_inv a b : d_leb a b = true -> tm a <= tm b. Proof. apply law_leb. Qed.
  Lemma leb_finv a b : d_leb a b = false -> tm b < tm a.
  Proof. intro H. destruct (Rlt_le_dec (tm b) (tm a)); auto. apply leb_t in r. congruence. Qed.
  Lemma eqb_inv a b : d_eqb a b = true -> tm a = tm b. Proof. apply law_eqb. Qed.
  Lemma eqb_finv a b : d_eqb a b = false -> tm a <> tm b.
  Proof. intros H E. apply eqb_t in E. congruence. Qed.
  Lemma eqb_refl a : d_eqb a a = true. Proof. now apply eqb_t. Qed.

  Lemma yf_additive : additive d_yf (fun a b => tm b - tm a).
  Proof.
    constructor; intros.
    - apply law_yf.
    - lra.
    - rewrite law_eqb. split; lra.
  Qed.
  Lemma yf_monotone : monotone (fun a b => tm b - tm a).
  Proof. intros a b. rewrite law_ltb. split; lra. Qed.

  Lemma default_additive {DC : DayCounts R D} : additive (dc_apply DcDefault) (fun a b => tm b - tm a).
  Proof. exact yf_additive. Qed.

  (** minimum and maximum of a list of dates *)
  Lemma fold_min_spec l x :
    let m := fold_left (fun m y => if d_ltb y m then y else m) l x in
    In m (x :: l) /\ forall y, In y (x :: l) -> tm m <= tm y.
  Proof.
    revert x. induction l as [|a l IH]; intros x m.
    - subst m. simpl. split; auto. intros y [->|[]]. lra.
    - subst m. cbn [fold_left]. set (x' := if d_ltb a x then a else x).
      destruct (IH x') as [H1 H2]. split.
      + destruct H1 as [H1|H1].
        * rewrite <- H1. unfold x'. destruct (d_ltb a x); simpl; auto.
        * simpl; auto.
      + intros y Hy.
        assert (tm x' <= tm x /\ tm x' <= tm a) as [Hx Ha].
        { unfold x'. destruct (d_ltb a x) eqn:E.
          - apply ltb_inv in E. lra.
          - apply ltb_finv in E. lra. }
        assert (tm (fold_left (fun m y0 => if d_ltb y0 m then y0 else m) l x') <= tm x')
          by (apply H2; left; auto).
        destruct Hy as [<-|[<-|Hy]]; try lra. apply H2; right; auto.
  Qed.
  Lemma fold_max_spec l x :
    let m := fold_left (fun m y => if d_ltb m y then y else m) l x in
    In m (x :: l) /\ forall y, In y (x :: l) -> tm y <= tm m.
  Proof.
    revert x. induction l as [|a l IH]; intros x m.
    - subst m. simpl. split; auto. intros y [->|[]]. lra.
    - subst m. cbn [fold_left]. set (x' := if d_ltb x a then a else x).
      destruct (IH x') as [H1 H2]. split.
      + destruct H1 as [H1|H1].
        * rewrite <- H1. unfold x'. destruct (d_ltb x a); simpl; auto.
        * simpl; auto.
      + intros y Hy.
        assert (tm x <= tm x' /\ tm a <= tm x') as [Hx Ha].
        { unfold x'. destruct (d_ltb x a) eqn:E.
          - apply ltb_inv in E. lra.
          - apply ltb_finv in E. lra. }
        assert (tm x' <= tm (fold_left (fun m y0 => if d_ltb m y0 then y0 else m) l x'))
          by (apply H2; left; auto).
        destruct Hy as [<-|[<-|Hy]]; try lra. apply H2; right; auto.
  Qed.
  Lemma d_min_ok l : l <> [] -> exists m, d_min l = Ok m /\ In m l /\ forall y, In y l -> tm m <= tm y.
  Proof.
    destruct l as [|x l]; [congruence|]. intros _. unfold d_min.
    eexists. split; [reflexivity|]. apply fold_min_spec.
  Qed.
  Lemma d_max_ok l : l <> [] -> exists m, d_max l = Ok m /\ In m l /\ forall y, In y l -> tm y <= tm m.
  Proof.
    destruct l as [|x l]; [congruence|]. intros _. unfold d_max.
    eexists. split; [reflexivity|]. apply fold_max_spec.
  Qed.
End Laws.

(** turn date comparisons in hypotheses into comparisons of times *)
Ltac dbool :=
  repeat match goal with
  | H : d_ltb _ _ = true |- _ => apply ltb_inv in H
  | H : d_ltb _ _ = false |- _ => apply ltb_finv in H
  | H : d_leb _ _ = true |- _ => apply leb_inv in H
  | H : d_leb _ _ = false |- _ => apply leb_finv in H
  | H : d_eqb _ _ = true |- _ => apply eqb_inv in H
  | H : d_eqb _ _ = false |- _ => apply eqb_finv in H
  end.

Section Additive.
  Context {D P : Type} {DS : DateSys R D P} {yf : D -> D -> res R} {tau : D -> D -> R}.
  Context (A : additive yf tau).
  Lemma tau_self a : tau a a = 0.
  Proof. pose proof (add_add _ _ A a a a). lra. Qed.
  Lemma tau_sym a b : tau b a = - tau a b.
  Proof. pose proof (add_add _ _ A a b a). rewrite tau_self in H. lra. Qed.
  Lemma tau_diff o a b : tau a b = tau o b - tau o a.
  Proof. pose proof (add_add _ _ A o a b). lra. Qed.
  Lemma tau_eq a b : d_eqb a b = true -> tau a b = 0.
  Proof. apply (add_zero _ _ A). Qed.
  Lemma tau_neq a b : d_eqb a b = false -> tau a b <> 0.
  Proof. intros H E. apply (add_zero _ _ A) in E. congruence. Qed.
End Additive.

(** every additive function is the difference of a time function *)
Lemma additive_time {D P} {DS : DateSys R D P} (yf : D -> D -> res R) tau (d0 : D) :
  additive yf tau -> exists h, forall a b, tau a b = h b - h a.
Proof. intro A. exists (tau d0). intros. apply (tau_diff A). Qed.
