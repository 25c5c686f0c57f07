(** Specification of interpolation, independent of the model: the value at [x] of
    the different kinds of interpolation through a set of data points [ps]. *)
From Coq Require Import Reals List.
Import ListNotations.
Open Scope R_scope.

Definition points := list (R * R).

(** a well formed data set: pairwise distinct x *)
Definition distinct (ps : points) : Prop := NoDup (map fst ps).

(** the y of the greatest data point <= x; before all points: the first one *)
Definition left_value (ps : points) (x y : R) : Prop :=
  (exists a, In (a, y) ps /\ a <= x /\ forall b z, In (b, z) ps -> b <= x -> b <= a) \/
  ((forall b z, In (b, z) ps -> x < b) /\
   exists a, In (a, y) ps /\ forall b z, In (b, z) ps -> a <= b).

(** the y of the least data point >= x; after all points: the last one *)
Definition right_value (ps : points) (x y : R) : Prop :=
  (exists a, In (a, y) ps /\ x <= a /\ forall b z, In (b, z) ps -> x <= b -> a <= b) \/
  ((forall b z, In (b, z) ps -> b < x) /\
   exists a, In (a, y) ps /\ forall b z, In (b, z) ps -> b <= a).

(** the y of the data point at minimal distance, the left one of two *)
Definition nearest_value (ps : points) (x y : R) : Prop :=
  exists a, In (a, y) ps /\
    (forall b z, In (b, z) ps -> Rabs (a - x) <= Rabs (b - x)) /\
    (forall b z, In (b, z) ps -> Rabs (b - x) = Rabs (a - x) -> a <= b).

(** (a,ya), (b,yb) are consecutive data points *)
Definition consecutive (ps : points) (a ya b yb : R) : Prop :=
  In (a, ya) ps /\ In (b, yb) ps /\ a < b /\
  forall c z, In (c, z) ps -> c <= a \/ b <= c.

Definition is_first (ps : points) (a : R) : Prop := forall c z, In (c, z) ps -> a <= c.
Definition is_last (ps : points) (b : R) : Prop := forall c z, In (c, z) ps -> c <= b.

(** the line through (a,ya) and (b,yb) *)
Definition chord (a ya b yb x : R) : R := ya + (yb - ya) * ((x - a) / (b - a)).

(** on the chord of consecutive points around x; the first and the last chord are
    continued to the outside; a single point gives a constant *)
Definition linear_value (ps : points) (x y : R) : Prop :=
  (exists a, In (a, y) ps /\ forall b z, In (b, z) ps -> b = a) \/
  (exists a ya b yb, consecutive ps a ya b yb /\
     (a <= x \/ is_first ps a) /\ (x <= b \/ is_last ps b) /\ y = chord a ya b yb x).

(** data transformed by a function of (x, y) *)
Definition transform (f : R -> R -> R) (ps : points) : points :=
  map (fun p => (fst p, f (fst p) (snd p))) ps.
Definition without_zero (ps : points) : points :=
  filter (fun p => if Req_EM_T (fst p) 0 then false else true) ps.

(** all y positive *)
Definition positive (ps : points) : Prop := forall x y, In (x, y) ps -> 0 < y.

(** finite maps: the dictionary view of a data set *)
Definition dict := R -> option R.
Definition dict_empty : dict := fun _ => None.
(** value of the first pair with key x *)
Fixpoint pairs_get (ps : points) (x : R) : option R :=
  match ps with
  | [] => None
  | (a, y) :: ps' => if Req_EM_T a x then Some y else pairs_get ps' x
  end.
(** one update call: without values the keys are deleted, otherwise the pairs are
    added or overwritten *)
Definition dict_update (m : dict) (u : list R * list R) : dict :=
  match snd u with
  | [] => fun x => if in_dec Req_EM_T x (fst u) then None else m x
  | _ => fun x => match pairs_get (combine (fst u) (snd u)) x with
                  | Some y => Some y
                  | None => m x
                  end
  end.
