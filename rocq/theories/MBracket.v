(** Model of [_simple_bracketing], /repo/dcf/pricer.py:19-49.

    The functions whose roots are searched change objects (they set a rate or a curve
    value and reprice), so they are state passing functions; an exception keeps the state
    reached so far. *)
From Coq Require Import List Bool ZArith.
From Verif Require Import Num Py.
Import ListNotations.

(** computations on a mutable state *)
Definition st (S A : Type) : Type := S -> res A * S.
Definition ret {S A} (a : A) : st S A := fun s => (Ok a, s).
Definition raise {S A} (e : exn) : st S A := fun s => (Err e, s).
Definition lift {S A} (m : res A) : st S A := fun s => (m, s).
Definition bindS {S A B} (m : st S A) (k : A -> st S B) : st S B :=
  fun s => match m s with
           | (Ok a, s') => k a s'
           | (Err e, s') => (Err e, s')
           end.
Declare Scope st_scope.
Delimit Scope st_scope with st.
Notation "x <~ m ;; k" := (bindS m (fun x => k))
  (at level 61, m at next level, right associativity) : st_scope.
Open Scope st_scope.

(** [for x in l: f(x)] *)
Fixpoint mapS {S A B} (f : A -> st S B) (l : list A) : st S (list B) :=
  match l with
  | [] => ret []
  | x :: l' => y <~ f x ;; ys <~ mapS f l' ;; ret (y :: ys)
  end.

Section Bracketing.
  Context {T St : Type} {N : Num T}.
  Open Scope num_scope.

  (** [lambda x: -func(x)] *)
  Definition negated (func : T -> st St T) (x : T) : st St T := y <~ func x ;; ret (nopp y).

  (** pricer.py:19-49; each unit of fuel is one call.  Python's recursion limit (1000 frames
      by default) is not modelled; for the rounding of floats see MFloat.v and PFloat.v. *)
  Fixpoint bracketing (fuel : nat) (func : T -> st St T) (a b precision : T)
    : st St (T * T * T) :=
    match fuel with
    | O => raise OutOfFuel
    | S fuel =>
        fa <~ func a ;;
        fb <~ func b ;;
        let f := if fb <? fa then negated func else func in
        let lo := if fb <? fa then fb else fa in
        let hi := if fb <? fa then fa else fb in
        if negb ((lo <=? n0) && (n0 <=? hi)) then raise AssertionError
        else
          let m := a + (b - a) * n_ratio 1 2 in
          if (nabs (b - a) <? precision) && (nabs (hi - lo) <? precision)
          then ret (a, m, b)
          else fm <~ f m ;;
               if fm <? n0 then bracketing fuel f m b precision
               else bracketing fuel f a m precision
    end.
End Bracketing.
