(** Specification used by the rating class theorems. *)
From Coq Require Import Reals List Sorted Permutation.
From Verif Require Import Num.
Open Scope R_scope.

(** L lists the values of the classes of a master scale, rounded to seven digits, in
    ascending order *)
Definition levels {K} (m : list (K * R)) (L : list R) : Prop :=
  StronglySorted Rle L /\ Permutation L (map (fun kv => Rround7 (snd kv)) m).
