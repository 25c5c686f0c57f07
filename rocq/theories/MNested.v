(** Model of leg lists whose legs are leg lists themselves, /repo/dcf/cashflows/cashflow.py:
    200-232 (a CashFlowLegList is a CashFlowList, so 215 accepts it as leg), and of their
    valuation, /repo/dcf/pricer.py.  MCashflow.v and MPricer.v model leg lists of plain
    lists. *)
From Coq Require Import List Bool ZArith.
From Verif Require Import Num Py MPlans MDates MInterpolation MCurve MRateCurve MOption MCashflow MBracket MPricer.
Import ListNotations.

(** * The container *)
Section Container.
  Context {T D P : Type} {N : Num T} {DS : DateSys T D P} {DC : DayCounts T D}.

  (** a plain list, or legs and the attributes inherited from CashFlowList *)
  Inductive nested :=
  | NList (l : cflist T D P)
  | NLegs (legs : list nested) (base : cflist T D P).

  Definition n_base (n : nested) : cflist T D P := match n with NList l => l | NLegs _ b => b end.
  (** cashflow.py:46-56 [domain], [origin] *)
  Definition n_domain (n : nested) : list D := cf_domain (n_base n).
  Definition n_origin (n : nested) : option D := cf_origin (n_base n).

  (** cashflow.py:208-223 [CashFlowLegList(legs)] *)
  Definition n_new (legs : list nested) : res nested :=
    let domain := date_set (concat (map n_domain legs)) in
    o <- min_origin (map n_origin legs) ;;
    base <- cf_new domain (Many (repeat (FlNum n0) (length domain))) o LNone false ;;
    Ok (NLegs legs base).

  (** cashflow.py:225-232; 130-142 for plain lists *)
  Fixpoint n_get (fuel : nat) (flr : option T) (d : D) (n : nested) : res T :=
    match n with
    | NList l => cf_get fuel flr l d
    | NLegs legs _ =>
        vs <- (fix go (ls : list nested) : res (list T) :=
                 match ls with
                 | [] => Ok []
                 | l :: ls' => if mem d_eqb d (n_domain l)
                               then x <- n_get fuel flr d l ;; xs <- go ls' ;; Ok (x :: xs)
                               else go ls'
                 end) legs ;;
        Ok (nsum vs)
    end.
End Container.
Arguments nested T D P : clear implicits.

(** * The pricer *)
Section Pricer.
  Context {T D P : Type} {N : Num T} {DS : DateSys T D P} {DC : DayCounts T D}.
  Open Scope num_scope.
  Notation heap := (heap T D P).

  (** as [product] of MPricer.v, legs may be products *)
  Inductive tree :=
  | TList (l : nat)
  | TLegs (legs : list tree) (ldomain : list D) (lorigin : option D).

  (** [sum(f(leg) for leg in legs)] down to plain lists: pricer.py:93-95 and 275-277 *)
  Fixpoint tree_sum (f : nat -> st heap T) (t : tree) : st heap T :=
    match t with
    | TList i => f i
    | TLegs legs _ _ =>
        vs <~ (fix go (ts : list tree) : st heap (list T) :=
                 match ts with
                 | [] => ret []
                 | t :: ts' => x <~ tree_sum f t ;; xs <~ go ts' ;; ret (x :: xs)
                 end) legs ;;
        ret (nsum vs)
    end.

  (** [get_present_value], pricer.py:52-114; an origin None stays None in the inner calls *)
  Definition tree_pv_of (fuel : nat) (flr : option T) (disc : rcurve T D P) (v : option D)
             (t : tree) : st heap T :=
    let v := match v with Some _ => v | None => rc_origin disc end in
    tree_sum (pv_list fuel flr disc v) t.
  Definition tree_present_value (fuel : nat) (flr : option T) (t : tree) (disc : nat)
             (v : option D) : st heap T :=
    c <~ get_curve disc ;; tree_pv_of fuel flr c v t.

  (** [get_interest_accrued], 211-289 *)
  Definition tree_accrued (fuel : nat) (flr : option T) (t : tree) (v : D) : st heap T :=
    tree_sum (accrued_list fuel flr v) t.

  (** [get_yield_to_maturity], 117-208 *)
  Definition tree_origin (t : tree) : st heap (option D) :=
    match t with
    | TList i => l <~ get_list i ;; ret (cf_origin (hl_list l))
    | TLegs _ dom o => ret (dom_origin o dom)
    end.
  Definition tree_ytm_err (fuel : nat) (flr : option T) (t : tree) (v : D) (target : T)
             (current : T) : st (heap * rcurve T D P) T :=
    _ <~ (fun s => match rc_setitem (snd s) v current with
                   | Ok c => (Ok tt, (fst s, c))
                   | Err e => (Err e, s)
                   end) ;;
    value <~ (fun s => on_heap (tree_pv_of fuel flr (snd s) (Some v) t) s) ;;
    ret (value - target).
  Definition tree_yield (fuel : nat) (flr : option T) (t : tree) (v : option D)
             (target precision a b : T) (i : option ispec) (origin : option D)
             (count : dcspec T D) (tenor : option P) : st heap T :=
    v <~ match v with Some _ => ret v | None => tree_origin t end ;;
    match v with
    | None => raise TypeError
    | Some v =>
        c <~ lift (rc_new CZeroRate [v] [n0] i origin count tenor) ;;
        fun h =>
          let (r, s) := bracketing fuel (tree_ytm_err fuel flr t v target) a b precision (h, c) in
          (amb <- r ;; Ok (snd (fst amb)), fst s)
    end.

  (** [get_basis_point_value], 368-430 *)
  Definition tree_bpv (fuel : nat) (flr : option T) (t : tree) (disc : nat)
             (v : option D) (delta : option (list nat)) (shift : T) : st heap T :=
    value <~ tree_present_value fuel flr t disc v ;;
    let delta := match delta with Some l => l | None => [disc] end in
    _ <~ mapS (shift_curve shift) delta ;;
    shifted <~ tree_present_value fuel flr t disc v ;;
    _ <~ mapS unshift_curve delta ;;
    q <~ lift (ndiv (shifted - value) shift) ;;
    ret (q * n_ratio 1 10000).

  (** [get_bucketed_delta], 433-578 *)
  Definition tree_bucket_value (fuel : nat) (flr : option T) (t : tree) (disc : nat)
             (v : option D) (delta : list nat) (shift value : T) (g : list D * list T)
    : st heap T :=
    _ <~ mapS (bucket_curve g) delta ;;
    shifted <~ tree_present_value fuel flr t disc v ;;
    _ <~ mapS unshift_curve delta ;;
    q <~ lift (ndiv (shifted - value) shift) ;;
    ret (q * n_ratio 1 10000).
  Definition tree_buckets (fuel : nat) (flr : option T) (t : tree) (disc : nat)
             (v : option D) (delta : option (list nat)) (grid : option (list D)) (shift : T)
    : st heap (list T) :=
    value <~ tree_present_value fuel flr t disc v ;;
    let delta := match delta with Some l => l | None => [disc] end in
    c <~ get_curve disc ;;
    let grid := match grid with Some ((_ :: _) as g) => g | _ => rc_domain c end in
    gs <~ lift (buckets_of grid shift) ;;
    mapS (tree_bucket_value fuel flr t disc v delta shift value) gs.

  (** [get_curve_fit], 581-739 *)
  Definition tree_domain (t : tree) : st heap (list D) :=
    match t with
    | TList i => l <~ get_list i ;; ret (cf_domain (hl_list l))
    | TLegs _ dom _ => ret dom
    end.
  Definition tree_matured (d : D) (ps : list (tree * T)) : st heap (list (tree * T)) :=
    bs <~ mapS (fun p => dom <~ tree_domain (fst p) ;; m <~ lift (d_max dom) ;; ret (d_leb m d)) ps ;;
    ret (map snd (filter fst (combine bs ps))).
  Definition tree_fit_err (fuel : nat) (flr : option T) (disc : nat) (v : option D) (fitting : nat)
             (d : D) (ps : list (tree * T)) (current : T) : st heap T :=
    _ <~ set_spread_value fitting d current ;;
    es <~ mapS (fun p => x <~ tree_present_value fuel flr (fst p) disc v ;; ret (x - snd p)) ps ;;
    ret (nsum es).
  Definition tree_fit (fuel : nat) (flr : option T) (ps : list tree) (disc : nat)
             (v : option D) (fitting : option nat) (grid : option (list D)) (targets : arg T)
             (precision a b : T) : st heap (list T) :=
    let targets := spread_arg targets (length ps) in
    let fit := match fitting with Some i => i | None => disc end in
    c <~ get_curve fit ;;
    let grid := match grid with Some g => g | None => rc_domain c end in
    s <~ lift (rc_cast_on fuel flr (rc_cls c) grid c None None DcDefault None) ;;
    _ <~ put_spread fit (Some (inr s)) ;;
    dom <~ spread_domain fit ;;
    _ <~ mapS (fun d => set_spread_value fit d n0) dom ;;
    dom <~ spread_domain fit ;;
    _ <~ mapS (fun d => fs <~ tree_matured d (combine ps targets) ;;
                        bracketing fuel (tree_fit_err fuel flr disc v fit d fs) a b precision) dom ;;
    c <~ get_curve fit ;;
    dom <~ spread_domain fit ;;
    data <~ lift (mapM (rc_call c) dom) ;;
    _ <~ put_spread fit None ;;
    ret data.
End Pricer.
Arguments tree D : clear implicits.
