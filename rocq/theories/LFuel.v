(** More fuel never changes a result of the rate curve methods. *)
From Coq Require Import List Bool ZArith Lia.
From Verif Require Import Num Py MCompounding MInterpolation MDates MCurve MRateCurve.
Import ListNotations.

(** [r'] is obtained with more fuel than [r] *)
Definition fle {A} (r r' : res A) : Prop := r = Err OutOfFuel \/ r = r'.

Lemma fle_refl {A} (r : res A) : fle r r. Proof. right; auto. Qed.
Lemma fle_out {A} (r : res A) : fle (Err OutOfFuel) r. Proof. left; auto. Qed.
Lemma fle_bind {A B} (m m' : res A) (f f' : A -> res B) :
  fle m m' -> (forall x, fle (f x) (f' x)) -> fle (bind m f) (bind m' f').
Proof.
  intros [-> | E] H; [left; reflexivity|]. subst m'. destruct m; simpl; auto. apply fle_refl.
Qed.
Lemma fle_ok {A} (r r' : res A) v : fle r r' -> r = Ok v -> r' = Ok v.
Proof. intros [-> | ->]; congruence. Qed.
Lemma fle_eq {A} (r r' : res A) : fle r r' -> r <> Err OutOfFuel -> r' = r.
Proof. intros [-> | ->]; congruence. Qed.

Ltac fle :=
  repeat first
  [ apply fle_refl
  | apply fle_out
  | progress intros
  | apply fle_bind
  | match goal with |- fle (if ?b then _ else _) (if ?b then _ else _) => destruct b end
  | match goal with |- fle (match ?x with _ => _ end) (match ?x with _ => _ end) => destruct x end
  | solve [auto] ].

Section Fuel.
  Context {T D P : Type} {N : Num T} {DS : DateSys T D P} {DC : DayCounts T D}.

  Lemma integrate_loop_fuel val yf (step : P) n : forall m, n <= m -> forall cur stop (acc : T),
    fle (integrate_loop n val yf step cur stop acc) (integrate_loop m val yf step cur stop acc).
  Proof.
    induction n; intros m H cur stop acc; [apply fle_out|].
    destruct m; [lia|]. cbn [integrate_loop]. fle. apply IHn; lia.
  Qed.
  Lemma integrate_fuel val yf (step : P) n m : n <= m -> forall s t : D,
    fle (integrate (T:=T) n val yf step s t) (integrate m val yf step s t).
  Proof. intros H s t. unfold integrate. fle. now apply integrate_loop_fuel. Qed.

  Lemma cash_loop_fuel (c : rcurve T D P) n : forall m, n <= m -> forall cur stop acc,
    fle (cash_loop n c cur stop acc) (cash_loop m c cur stop acc).
  Proof.
    induction n; intros m H cur stop acc; [apply fle_out|].
    destruct m; [lia|]. cbn [cash_loop]. fle. apply IHn; lia.
  Qed.
  Lemma marginal_loop_fuel (c : rcurve T D P) n : forall m, n <= m -> forall cur stop acc,
    fle (marginal_loop n c cur stop acc) (marginal_loop m c cur stop acc).
  Proof.
    induction n; intros m H cur stop acc; [apply fle_out|].
    destruct m; [lia|]. cbn [marginal_loop]. fle. apply IHn; lia.
  Qed.

  Lemma factor_rate_fuel n : forall m, n <= m -> forall (c : rcurve T D P) s t,
    fle (factor n c s t) (factor m c s t) /\ fle (rate n c s t) (rate m c s t).
  Proof.
    induction n; intros m H c s t; [split; apply fle_out|].
    destruct m; [lia|]. assert (IH := fun c s t => IHn m ltac:(lia) c s t).
    assert (IH1 := fun c s t => proj1 (IH c s t)). assert (IH2 := fun c s t => proj2 (IH c s t)). clear IH.
    split; cbn [factor rate]; cbv zeta; destruct (rc_cls c); fle;
      try (apply marginal_loop_fuel; lia); try (apply cash_loop_fuel; lia); try (apply integrate_loop_fuel; lia).
  Qed.
  Lemma factor_fuel n m (c : rcurve T D P) s t : n <= m -> fle (factor n c s t) (factor m c s t).
  Proof. intro H. now apply factor_rate_fuel. Qed.
  Lemma rate_fuel n m (c : rcurve T D P) s t : n <= m -> fle (rate n c s t) (rate m c s t).
  Proof. intro H. now apply factor_rate_fuel. Qed.

  Lemma short_rate_fuel (c : rcurve T D P) n : forall m, n <= m -> forall s,
    fle (short_rate n c s) (short_rate m c s).
  Proof.
    induction n; intros m H s; [apply fle_out|]. destruct m; [lia|].
    assert (n <= m) as H' by lia.
    cbn [short_rate]. destruct (rc_cls c); fle; try (apply IHn; lia); apply rate_fuel; lia.
  Qed.

  Lemma cash_rate_fuel (c : rcurve T D P) n : forall m, n <= m -> forall s o p,
    fle (cash_rate n c s o p) (cash_rate m c s o p).
  Proof.
    induction n; intros m H s o p; [apply fle_out|]. destruct m; [lia|].
    cbn [cash_rate]. apply fle_bind; [apply fle_refl|intros _]. apply fle_bind; [apply fle_refl|intro stop].
    destruct (rc_cls c); fle; try (apply factor_fuel; lia); apply IHn; lia.
  Qed.

  Lemma terminal_vol_fuel flr (c : rcurve T D P) n : forall m, n <= m -> forall s o,
    fle (terminal_vol n flr c s o) (terminal_vol m flr c s o).
  Proof.
    induction n; intros m H s o; [apply fle_out|]. destruct m; [lia|].
    cbn [terminal_vol]. destruct (rc_cls c); fle; try (apply IHn; lia). apply integrate_loop_fuel; lia.
  Qed.
End Fuel.
