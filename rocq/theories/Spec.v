(** Small specification vocabulary used in theorem statements, independent of the
    model. *)
From Coq Require Import Reals List Sorted.
Import ListNotations.
Open Scope R_scope.

(** sum of a list *)
Fixpoint Rsum (l : list R) : R := match l with [] => 0 | x :: l' => x + Rsum l' end.

(** product of a list *)
Fixpoint Rprod (l : list R) : R := match l with [] => 1 | x :: l' => x * Rprod l' end.

(** strictly increasing lists *)
Definition increasing (l : list R) : Prop := StronglySorted Rlt l.

(** a set of data points as a list of pairs; [data_at ps x y]: the data set [ps]
    gives value y at x *)
Definition data_at (ps : list (R * R)) (x y : R) : Prop := In (x, y) ps.

(** adjacent elements of a list *)
Definition adjacent {A} (l : list A) (a b : A) : Prop :=
  exists l1 l2, l = l1 ++ a :: b :: l2.
