(** Specification vocabulary of leg lists of leg lists. *)
From Coq Require Import List.
From Verif Require Import Num Py MDates MCurve MRateCurve MOption MCashflow MPricer MNested.
Import ListNotations.

Section S.
  Context {T D P : Type} {N : Num T} {DS : DateSys T D P}.
  (** the plain lists in a nested list, from left to right *)
  Fixpoint leaves (n : nested T D P) : list (cflist T D P) :=
    match n with NList l => [l] | NLegs legs _ => flat_map leaves legs end.
  (** all leg lists in it were built by the constructor of leg lists *)
  Inductive built : nested T D P -> Prop :=
  | built_list l : built (NList l)
  | built_legs legs base : Forall built legs -> n_new legs = Ok (NLegs legs base) -> built (NLegs legs base).

  Fixpoint tree_leaves (t : tree D) : list nat :=
    match t with TList i => [i] | TLegs legs _ _ => flat_map tree_leaves legs end.
  (** the leg list of all plain lists in a nested one, with its dates and origin *)
  Definition flattened (t : tree D) : product :=
    match t with TList i => PrList i | TLegs legs dom o => PrLegs (flat_map tree_leaves legs) dom o end.
End S.
