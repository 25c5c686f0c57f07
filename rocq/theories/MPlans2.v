(** Model of the arguments of /repo/dcf/plans.py which [MPlans.v] leaves out: numbers of
    payments which are not integers, and omitted amounts and rates.  [num] is the argument
    and [k] is [int(num)], or 0 for negative numbers ([[x] * k] and [range(k)] are then
    empty). *)
From Coq Require Import List ZArith Reals.
From Verif Require Import Num MPlans.
Import ListNotations.

Section Plans.
  Context {T : Type} {N : Num T}.
  Open Scope num_scope.

  (** dcf/plans.py:43-53: divides by [num], repeats [int(num)] times *)
  Definition amortize_num (num : T) (k : nat) (amount : T) : res (list T) :=
    x <- ndiv amount num ;; Ok (repeat x k).
  (** dcf/plans.py:72-84 *)
  Definition consumer_num (num : T) (k : nat) (amount fixed_rate : T) : res (list T) :=
    let total := amount * (n1 + num * fixed_rate) in
    x <- ndiv total num ;; Ok (repeat x k).
  (** dcf/plans.py:17-27, 30-40, 56-69 use [int(num)] only *)
  Definition same_num (num : T) (k : nat) (amount : T) : list T := same k amount.
  Definition bullet_num (num : T) (k : nat) (amount : T) : list T := bullet k amount.
  Definition annuity_num (num : T) (k : nat) (amount fixed_rate : T) : res (list T) := annuity k amount fixed_rate.

  (** the signatures at dcf/plans.py:17, 30, 43, 56, 72, 87: [None] is an omitted argument *)
  Definition or_else (d : T) (a : option T) : T := match a with Some x => x | None => d end.
  Definition same_dflt (num : nat) (a : option T) := same num (or_else DEFAULT_AMOUNT a).
  Definition bullet_dflt (num : nat) (a : option T) := bullet num (or_else DEFAULT_AMOUNT a).
  Definition amortize_dflt (num : nat) (a : option T) := amortize num (or_else DEFAULT_AMOUNT a).
  Definition annuity_dflt (num : nat) (a r : option T) := annuity num (or_else DEFAULT_AMOUNT a) (or_else FIXED_RATE r).
  Definition consumer_dflt (num : nat) (a r : option T) := consumer num (or_else DEFAULT_AMOUNT a) (or_else FIXED_RATE r).
  Definition outstanding_dflt (plan : list T) (a : option T) (sign : option bool) :=
    outstanding plan (or_else DEFAULT_AMOUNT a) (match sign with Some s => s | None => false end).
End Plans.

(** Python's [int] of a float that is not negative *)
Definition int_of (num : R) : nat := Z.to_nat (Int_part num).
