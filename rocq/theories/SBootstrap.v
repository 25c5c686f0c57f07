(** Specification vocabulary of bootstrapping a zero rate curve from bonds. *)
From Coq Require Import Reals List.
From Verif Require Import Num Py Spec MDates MRateCurve MOption MCashflow MBracket MPricer SPricer SFit.
Import ListNotations.
Open Scope R_scope.

Section S.
  Context {D P : Type} {DS : DateSys R D P} {DC : DayCounts R D}.

  (** the value of amounts at the first dates of the grid with the given discount factors *)
  Definition value_on (grid : list D) (df : D -> R) (am : list R) : R :=
    Rsum (map (fun da => df (fst da) * snd da) (combine grid am)).

  (** the product pays the amounts at the first dates of the grid: seen from v, on every
      discount curve which has discount factors df there, it has the value of these amounts *)
  Definition pays_on (h : heap R D P) (v : D) (p : @product D) (grid : list D) (am : list R) : Prop :=
    forall fuel flr h' k disc df, (2 <= fuel)%nat -> h_lists h' = h_lists h -> nth_error (h_curves h') k = Some disc ->
      (forall d, In d grid -> get_discount_factor fuel disc v d = Ok (df d)) ->
      returns (get_present_value fuel flr p k (Some v)) h' (value_on grid df am).

  (** one product per grid date: the product number j has its last payment at the grid date
      number j and pays any amounts there and at the grid dates before *)
  Definition stairs (h : heap R D P) (v : D) (grid : list D) (ps : list (@product D)) (ams : list (list R)) : Prop :=
    length ps = length grid /\ length ams = length grid /\
    forall j d p am, nth_error grid j = Some d -> nth_error ps j = Some p -> nth_error ams j = Some am ->
      last_payment h p d /\ pays_on h v p grid am /\ length am = S j.

  (** one bond per grid date: the bond number j has its last payment at the grid date number
      j, a positive amount, and pays any amounts at the grid dates before *)
  Definition ladder (h : heap R D P) (v : D) (grid : list D) (ps : list (@product D)) (ams : list (list R)) : Prop :=
    length ps = length grid /\ length ams = length grid /\
    forall j d p am, nth_error grid j = Some d -> nth_error ps j = Some p -> nth_error ams j = Some am ->
      last_payment h p d /\ pays_on h v p grid am /\
      exists before n, am = before ++ [n] /\ length before = j /\ 0 < n.

  (** the product is a FixedCashFlowList with the single payment n at d *)
  Definition zero_bond (h : heap R D P) (p : @product D) (d : D) (n : R) : Prop :=
    exists i l origin, p = PrList i /\ nth_error (h_lists h) i = Some (mkHL l HNone) /\
      fixed_new [d] (Many [n]) origin = Ok l.

  (** all objects as they are but the curve number i *)
  Definition with_curve (h : heap R D P) (i : nat) (c : rcurve R D P) : heap R D P :=
    mkH (set_nth i c (h_curves h)) (h_models h) (h_lists h).
  (** what a floating list pays, whose forward rate for the period number m is f m *)
  Definition floats (pt : D -> D -> R) (grid : list D) (og : D) (f : nat -> R) (rate : R) (ns : list R) : list R :=
    map (fun m => (rate + f m) * pt (nth m (og :: grid) og) (nth m grid og) * nth m ns 0) (seq 0 (length ns)).

  (** the product is a RateCashFlowList which pays at the first grid dates, on the curve
      number k *)
  Definition floater (h : heap R D P) (k : nat) (grid : list D) (og : D) (count : dcspec R D) (p : @product D) (rate : R) (ns : list R) : Prop :=
    exists i l c0, p = PrList i /\
      nth_error (h_lists h) i = Some (mkHL l (HForward (fun cs => match nth_error cs k with Some c => FwRate c | None => FwNone end))) /\
      ratelist_new (firstn (length ns) grid) (Many ns) (Some og) count None None rate (FwRate c0) = Ok l.

End S.
