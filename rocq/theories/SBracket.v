(** Specification vocabulary of the root search. *)
From Coq Require Import Reals List.
From Verif Require Import Num MBracket.
Open Scope R_scope.

(** x lies between a and b, whichever is the smaller one *)
Definition inside (a b x : R) : Prop := Rmin a b <= x <= Rmax a b.

(** between a and b the state changing function f computes F: it never raises, its value
    depends on its argument only; it keeps the invariant [Inv] and leaves a state in which
    [at_ x] holds after the call at x *)
Definition evaluates {St} (Inv : St -> Prop) (at_ : R -> St -> Prop) (a b : R)
           (f : R -> st St R) (F : R -> R) : Prop :=
  forall x s, inside a b x -> Inv s ->
  exists s', f x s = (Ok (F x), s') /\ Inv s' /\ at_ x s'.

(** the values at a and b do not have the same strict sign *)
Definition sign_change (F : R -> R) (a b : R) : Prop :=
  F a <= 0 <= F b \/ F b <= 0 <= F a.

(** a plain function of numbers *)
Definition plain (F : R -> R) (x : R) : st unit R := ret (F x).
