(** Specification vocabulary of curve fitting. *)
From Coq Require Import Reals List Bool ZArith.
From Verif Require Import Num Py Spec MDates MCurve MRateCurve MOption MCashflow MBracket MPricer SPricer.
Import ListNotations.
Open Scope R_scope.

(** the classes whose values may be zero: all but discount factors and probabilities *)
Definition plain_cls (k : cls) : Prop :=
  match k with
  | CDiscountFactor | CSurvival | CDefault | CMargSurvival | CMargDefault => False
  | _ => True
  end.

Section S.
  Context {D P : Type} {DS : DateSys R D P} {DC : DayCounts R D}.

  (** the curve with values xs on the grid, of the class, with the origin and the day count
      of the curve c *)
  Definition on_grid (c : rcurve R D P) (grid : list D) (xs : list R) : res (rcurve R D P) :=
    rc_new (rc_cls c) grid xs None (dc_origin0 (rc_dc c)) (dc_kwarg (dc_count (rc_dc c))) None.

  (** all objects as they are but the curve number i, which is c with spread s *)
  Definition with_spread (h : heap R D P) (i : nat) (c s : rcurve R D P) : heap R D P :=
    mkH (set_nth i (mkR (rc_cls c) (rc_dc c) (rc_tenor0 c) (Some (inr s))) (h_curves h))
        (h_models h) (h_lists h).

  (** V is the present value of the product as function of the values the spread of the
      curve number i has on the grid *)
  Definition priced (fuel : nat) (flr : option R) (h : heap R D P) (disc : nat) (v : option D)
             (i : nat) (c : rcurve R D P) (grid : list D) (p : @product D) (V : list R -> R) : Prop :=
    forall xs s, length xs = length grid -> on_grid c grid xs = Ok s ->
      returns (get_present_value fuel flr p disc v) (with_spread h i c s) (V xs).

  (** m is the last payment date of the product *)
  Definition last_payment (h : heap R D P) (p : @product D) (m : D) : Prop :=
    exists dom, returns (pr_domain p) h dom /\ d_max dom = Ok m.

  (** what is known of a product: its last payment date and its value *)
  Notation quote := (D * (list R -> R))%type.

  (** the value of a product does not depend on the spread after the first grid date at or
      after its last payment *)
  Definition local (tm : D -> R) (grid : list D) (q : quote) : Prop :=
    forall i d xs ys, nth_error grid i = Some d -> tm (fst q) <= tm d ->
      length xs = length grid -> length ys = length grid ->
      (forall k, (k <= i)%nat -> nth_error xs k = nth_error ys k) -> snd q xs = snd q ys.

  (** the sum of the differences to the targets, of all products with last payment at or before d *)
  Definition total_error (qs : list quote) (ts : list R) (xs : list R) (d : D) : R :=
    Rsum (map (fun qt => snd (fst qt) xs - snd qt)
              (filter (fun qt => d_leb (fst (fst qt)) d) (combine qs ts))).

  (** one product per grid date: product j is the last one with last payment at or before
      grid date j, and these are the products 0 to j *)
  Definition one_each (tm : D -> R) (grid : list D) (qs : list quote) : Prop :=
    length qs = length grid /\
    forall i j d q, nth_error grid i = Some d -> nth_error qs j = Some q ->
      (tm (fst q) <= tm d <-> (j <= i)%nat).
End S.
