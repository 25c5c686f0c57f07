(** Model of /repo/dcf/plans.py.  Simplification: [num] is a natural number (the
    code applies [int(num)]; [num / ...] then equals [int(num) / ...]). *)
From Coq Require Import List ZArith.
From Verif Require Import Num.
Import ListNotations.

Section Plans.
  Context {T : Type} {N : Num T}.
  Open Scope num_scope.

  (** dcf/plans.py:13 DEFAULT_AMOUNT *)
  Definition DEFAULT_AMOUNT : T := n1.
  (** dcf/plans.py:14 FIXED_RATE *)
  Definition FIXED_RATE : T := n_ratio 1 100.

  (** dcf/plans.py:17-27 *)
  Definition same (num : nat) (amount : T) : list T := repeat amount num.

  (** dcf/plans.py:30-40; [[0.] * -1] is the empty list, as is [repeat _ (0-1)] *)
  Definition bullet (num : nat) (amount : T) : list T :=
    repeat n0 (num - 1) ++ [amount].

  (** dcf/plans.py:43-53 *)
  Definition amortize (num : nat) (amount : T) : res (list T) :=
    x <- ndiv amount (n_ofN num) ;; Ok (repeat x num).

  (** dcf/plans.py:56-69 *)
  Definition annuity (num : nat) (amount fixed_rate : T) : res (list T) :=
    let q := n1 + fixed_rate in
    a <- ndiv (amount * (q - n1)) (npow q num - n1) ;;
    Ok (map (fun i => a * npow q i) (seq 0 num)).

  (** dcf/plans.py:72-84 *)
  Definition consumer (num : nat) (amount fixed_rate : T) : res (list T) :=
    let total := amount * (n1 + n_ofN num * fixed_rate) in
    x <- ndiv total (n_ofN num) ;; Ok (repeat x num).

  (** dcf/plans.py:87-104, loop body *)
  Fixpoint outstanding_loop (plan : list T) (amount sgn : T) : list T :=
    match plan with
    | [] => []
    | p :: plan' => let amount' := amount + sgn * p in
                    amount' :: outstanding_loop plan' amount' sgn
    end.

  (** dcf/plans.py:87-104; [plan[:-1]] is [removelast plan] *)
  Definition outstanding (plan : list T) (amount : T) (sign : bool) : list T :=
    let sgn := if sign then n1 else nopp n1 in
    amount :: outstanding_loop (removelast plan) amount sgn.
End Plans.
