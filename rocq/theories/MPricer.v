(** Model of /repo/dcf/pricer.py.

    Curves, option models and cash flow lists are mutable objects: they live in a heap and
    are referred to by their position.  The curves an object (a list, a model) uses are
    given by functions of the curves in the heap, so that a change of a curve is seen by
    every object using it.  All functions return the heap they leave, also when they
    raise.

    Leg lists of leg lists are in MNested.v.  Not modelled: curves which are no RateCurve as discount, delta
    or fitting curve, a delta curve given as list by mistake, references to objects outside
    of the heap. *)
From Coq Require Import List Bool ZArith.
From Verif Require Import Num Py MPlans MDates MInterpolation MCurve MRateCurve MOption MCashflow MBracket.
Import ListNotations.

Section Pricer.
  Context {T D P : Type} {N : Num T} {DS : DateSys T D P} {DC : DayCounts T D}.
  Open Scope num_scope.

  (** an OptionPayOffModel; its valuation date is assigned to by the pricer, its other
      attributes refer to curves *)
  Record hmodel := mkHM { hm_valuation : option D; hm_model : list (rcurve T D P) -> omodel T D P }.
  (** the attributes [forward_curve] resp. [payoff_model] of a cash flow list *)
  Inductive hattr :=
  | HNone
  | HForward (s : list (rcurve T D P) -> fsource T D P)
  | HModel (m : nat)
  | HOther (a : pmodel T D P).     (* a [payoff_model] without valuation date, e.g. None *)
  (** a cash flow list; the attribute of [hl_list] is not used *)
  Record hlist := mkHL { hl_list : cflist T D P; hl_attr : hattr }.
  Record heap := mkH {
    h_curves : list (rcurve T D P); h_models : list hmodel; h_lists : list hlist }.

  (** reading *)
  Definition model_view (h : heap) (m : hmodel) : omodel T D P :=
    let o := hm_model m (h_curves h) in
    mkOM (om_formula o) (om_const o) (hm_valuation m) (om_forward o) (om_vol o) (om_count o) (om_bump o).
  Definition attr_view (h : heap) (a : hattr) : res (lattr T D P) :=
    match a with
    | HNone => Ok LNone
    | HForward s => Ok (LForward (s (h_curves h)))
    | HModel i => m <- nth_res (h_models h) i ;; Ok (LModel (PmModel (model_view h m)))
    | HOther a => Ok (LModel a)
    end.
  Definition list_view (h : heap) (l : hlist) : res (cflist T D P) :=
    a <- attr_view h (hl_attr l) ;;
    let c := hl_list l in Ok (mkCF (cf_domain c) (cf_flows c) (cf_origin0 c) a (cf_rated c)).

  Definition get_curve (i : nat) : st heap (rcurve T D P) := fun h => (nth_res (h_curves h) i, h).
  Definition get_list (i : nat) : st heap hlist := fun h => (nth_res (h_lists h) i, h).
  Definition get_model (i : nat) : st heap hmodel := fun h => (nth_res (h_models h) i, h).
  Definition view (l : hlist) : st heap (cflist T D P) := fun h => (list_view h l, h).
  (** writing *)
  Definition put_curve (i : nat) (c : rcurve T D P) : st heap unit :=
    fun h => (Ok tt, mkH (set_nth i c (h_curves h)) (h_models h) (h_lists h)).
  Definition put_model (i : nat) (m : hmodel) : st heap unit :=
    fun h => (Ok tt, mkH (h_curves h) (set_nth i m (h_models h)) (h_lists h)).
  Definition put_list (i : nat) (l : hlist) : st heap unit :=
    fun h => (Ok tt, mkH (h_curves h) (h_models h) (set_nth i l (h_lists h))).
  (** [model.valuation_date = v] *)
  Definition set_valuation (i : nat) (v : option D) : st heap unit :=
    m <~ get_model i ;; put_model i (mkHM v (hm_model m)).
  (** [list.fixed_rate = v] *)
  Definition set_rate (i : nat) (v : option T) : st heap unit :=
    l <~ get_list i ;; put_list i (mkHL (set_fixed_rate (hl_list l) v) (hl_attr l)).
  (** [curve.spread = s] *)
  Definition put_spread (i : nat) (s : option (dcurve T D + rcurve T D P)) : st heap unit :=
    c <~ get_curve i ;; c' <~ lift (set_spread c s) ;; put_curve i c'.

  (** a product: a cash flow list or a leg list; [ldomain] and [lorigin] of a leg list are
      computed when it is built (cashflow.py:208-223) *)
  Inductive product :=
  | PrList (l : nat)
  | PrLegs (legs : list nat) (ldomain : list D) (lorigin : option D).

  (** * get_present_value, pricer.py:52-114 *)
  (** [valuation_date <= d]; None cannot be compared *)
  Definition future (v : option D) (d : D) : res bool :=
    match v with Some v => Ok (d_leb v d) | None => Err TypeError end.
  Fixpoint filterM {A} (f : A -> res bool) (l : list A) : res (list A) :=
    match l with
    | [] => Ok []
    | x :: l' => b <- f x ;; r <- filterM f l' ;; Ok (if b then x :: r else r)
    end.
  (** the values are computed in line 114, after the valuation date was restored *)
  Definition pv_list (fuel : nat) (flr : option T) (disc : rcurve T D P) (v : option D)
             (i : nat) : st heap T :=
    l <~ get_list i ;;
    old <~ match hl_attr l with
           | HModel j => m <~ get_model j ;; _ <~ set_valuation j v ;; ret (Some (j, hm_valuation m))
           | HOther _ => raise AttributeError
           | _ => ret None
           end ;;
    pay_dates <~ lift (filterM (future v) (cf_domain (hl_list l))) ;;
    c <~ view l ;;
    flows <~ lift (cf_get_list fuel flr c pay_dates) ;;
    _ <~ match old with
         | Some (j, w) => set_valuation j w
         | None => ret tt
         end ;;
    lift (values <- mapM (fun ta => match v with
                                    | Some v => df <- get_discount_factor fuel disc v (fst ta) ;;
                                                Ok (df * snd ta)
                                    | None => Err TypeError
                                    end) (combine pay_dates flows) ;;
          Ok (nsum values)).
  Definition pv_of (fuel : nat) (flr : option T) (disc : rcurve T D P) (v : option D)
             (p : product) : st heap T :=
    let v := match v with Some _ => v | None => rc_origin disc end in
    match p with
    | PrList i => pv_list fuel flr disc v i
    | PrLegs legs _ _ => vs <~ mapS (pv_list fuel flr disc v) legs ;; ret (nsum vs)
    end.
  Definition get_present_value (fuel : nat) (flr : option T) (p : product) (disc : nat)
             (v : option D) : st heap T :=
    c <~ get_curve disc ;; pv_of fuel flr c v p.

  (** * get_yield_to_maturity, 117-208 *)
  (** [cashflow_list.origin] *)
  Definition pr_origin (p : product) : st heap (option D) :=
    match p with
    | PrList i => l <~ get_list i ;; ret (cf_origin (hl_list l))
    | PrLegs _ dom o => ret (dom_origin o dom)
    end.
  Definition pr_domain (p : product) : st heap (list D) :=
    match p with
    | PrList i => l <~ get_list i ;; ret (cf_domain (hl_list l))
    | PrLegs _ dom _ => ret dom
    end.
  (** on the pair of the heap and the local discount curve *)
  Definition on_heap {S A} (m : st heap A) : st (heap * S) A :=
    fun s => let (r, h) := m (fst s) in (r, (h, snd s)).
  Definition ytm_err (fuel : nat) (flr : option T) (p : product) (v : D) (target : T)
             (current : T) : st (heap * rcurve T D P) T :=
    _ <~ (fun s => match rc_setitem (snd s) v current with
                   | Ok c => (Ok tt, (fst s, c))
                   | Err e => (Err e, s)
                   end) ;;
    value <~ (fun s => on_heap (pv_of fuel flr (snd s) (Some v) p) s) ;;
    ret (value - target).
  (** the keyword arguments of the local ZeroRateCurve: interpolation, origin, day count,
      forward tenor; without dates and origin the curve cannot be built *)
  Definition get_yield_to_maturity (fuel : nat) (flr : option T) (p : product) (v : option D)
             (target precision a b : T) (i : option ispec) (origin : option D)
             (count : dcspec T D) (tenor : option P) : st heap T :=
    v <~ match v with Some _ => ret v | None => pr_origin p end ;;
    match v with
    | None => raise TypeError
    | Some v =>
        c <~ lift (rc_new CZeroRate [v] [n0] i origin count tenor) ;;
        fun h =>
          let (r, s) := bracketing fuel (ytm_err fuel flr p v target) a b precision (h, c) in
          (amb <- r ;; Ok (snd (fst amb)), fst s)
    end.

  (** * get_interest_accrued, 211-289 *)
  Definition accrued_flow (fuel : nat) (flr : option T) (c : cflist T D P) (v d : D) : res T :=
    if d_leb v d then
      match cf_payoff c d with
      | Some (FlPay p) =>
          match (match p with PRate r => Some r | PContRate r _ _ => Some r | _ => None end) with
          | Some r =>
              if d_ltb (rp_start r) v then
                remaining <- pay_count (rp_count r) v (rp_end r) ;;
                total <- pay_count (rp_count r) (rp_start r) (rp_end r) ;;
                x <- match cf_attr c with
                     | LForward s => pay fuel flr p (PmSource s)
                     | _ => Err AttributeError
                     end ;;
                q <- ndiv remaining total ;;
                Ok (x * (n1 - q))
              else Ok n0
          | None => Ok n0
          end
      | _ => Ok n0
      end
    else Ok n0.
  Definition accrued_list (fuel : nat) (flr : option T) (v : D) (i : nat) : st heap T :=
    l <~ get_list i ;; c <~ view l ;;
    xs <~ lift (mapM (accrued_flow fuel flr c v) (cf_domain c)) ;;
    ret (nsum xs).
  Definition get_interest_accrued (fuel : nat) (flr : option T) (p : product) (v : D) : st heap T :=
    match p with
    | PrList i => accrued_list fuel flr v i
    | PrLegs legs _ _ => vs <~ mapS (accrued_list fuel flr v) legs ;; ret (nsum vs)
    end.

  (** * get_fair_rate, 292-365; a leg list has no [fixed_rate] *)
  Definition fair_err (fuel : nat) (flr : option T) (i disc : nat) (v : option D) (target : T)
             (current : T) : st heap T :=
    _ <~ set_rate i (Some current) ;;
    value <~ get_present_value fuel flr (PrList i) disc v ;;
    ret (value - target).
  Definition get_fair_rate (fuel : nat) (flr : option T) (p : product) (disc : nat)
             (v : option D) (target precision a b : T) : st heap T :=
    match p with
    | PrLegs _ _ _ => raise AttributeError
    | PrList i =>
        l <~ get_list i ;;
        rate <~ lift (fixed_rate (hl_list l)) ;;
        amb <~ bracketing fuel (fair_err fuel flr i disc v target) a b precision ;;
        _ <~ set_rate i rate ;;
        ret (snd (fst amb))
    end.

  (** * get_basis_point_value, 368-430 *)
  (** [d.spread = DateCurve([d.origin], [shift])]; a curve without origin has no points *)
  Definition shift_curve (shift : T) (d : nat) : st heap unit :=
    c <~ get_curve d ;;
    match rc_origin c with
    | None => raise TypeError
    | Some o => s <~ lift (dc_new linear_scheme [o] [shift] None None DcDefault) ;;
                put_spread d (Some (inl s))
    end.
  Definition unshift_curve (d : nat) : st heap unit := put_spread d None.
  Definition get_basis_point_value (fuel : nat) (flr : option T) (p : product) (disc : nat)
             (v : option D) (delta : option (list nat)) (shift : T) : st heap T :=
    value <~ get_present_value fuel flr p disc v ;;
    let delta := match delta with Some l => l | None => [disc] end in
    _ <~ mapS (shift_curve shift) delta ;;
    shifted <~ get_present_value fuel flr p disc v ;;
    _ <~ mapS unshift_curve delta ;;
    q <~ lift (ndiv (shifted - value) shift) ;;
    ret (q * n_ratio 1 10000).

  (** * get_bucketed_delta, 433-578 *)
  (** [zip(g[0: -2], g[1: -1], g[2:])] *)
  Fixpoint triples {A} (g : list A) : list (list A) :=
    match g with
    | x :: ((y :: z :: _) as g') => [x; y; z] :: triples g'
    | _ => []
    end.
  (** 545-558: the grids and values of the spread curves *)
  Definition buckets_of (grid : list D) (shift : T) : res (list (list D * list T)) :=
    match grid with
    | [_] => Ok [(grid, [shift])]
    | [_; _] => Ok [(grid, [shift; n0]); (grid, [n0; shift])]
    | x :: y :: _ =>
        let mids := triples grid in
        let last2 := [nth (length grid - 2) grid x; nth (length grid - 1) grid x] in
        Ok ([([x; y], [shift; n0])] ++ map (fun g => (g, [n0; shift; n0])) mids ++
            [(last2, [n0; shift])])
    | _ => Err IndexError
    end.
  Definition bucket_curve (g : list D * list T) (d : nat) : st heap unit :=
    s <~ lift (dc_new linear_scheme (fst g) (snd g) None None DcDefault) ;;
    put_spread d (Some (inl s)).
  Definition bucket_value (fuel : nat) (flr : option T) (p : product) (disc : nat)
             (v : option D) (delta : list nat) (shift value : T) (g : list D * list T)
    : st heap T :=
    _ <~ mapS (bucket_curve g) delta ;;
    shifted <~ get_present_value fuel flr p disc v ;;
    _ <~ mapS unshift_curve delta ;;
    q <~ lift (ndiv (shifted - value) shift) ;;
    ret (q * n_ratio 1 10000).
  Definition get_bucketed_delta (fuel : nat) (flr : option T) (p : product) (disc : nat)
             (v : option D) (delta : option (list nat)) (grid : option (list D)) (shift : T)
    : st heap (list T) :=
    value <~ get_present_value fuel flr p disc v ;;
    let delta := match delta with Some l => l | None => [disc] end in
    c <~ get_curve disc ;;
    let grid := match grid with Some ((_ :: _) as g) => g | _ => rc_domain c end in
    gs <~ lift (buckets_of grid shift) ;;
    mapS (bucket_value fuel flr p disc v delta shift value) gs.

  (** * get_curve_fit, 581-739 *)
  (** [fitting_curve.spread[d] = x] *)
  Definition set_spread_value (i : nat) (d : D) (x : T) : st heap unit :=
    c <~ get_curve i ;;
    match rc_spread c with
    | Some (inr s) => s' <~ lift (rc_setitem s d x) ;;
                      put_curve i (mkR (rc_cls c) (rc_dc c) (rc_tenor0 c) (Some (inr s')))
    | Some (inl s) => s' <~ lift (dc_setitem s d x) ;;
                      put_curve i (mkR (rc_cls c) (rc_dc c) (rc_tenor0 c) (Some (inl s')))
    | None => raise TypeError
    end.
  Definition spread_domain (i : nat) : st heap (list D) :=
    c <~ get_curve i ;;
    match rc_spread c with
    | Some (inr s) => ret (rc_domain s)
    | Some (inl s) => ret (dc_domain s)
    | None => raise AttributeError
    end.
  (** 718: the products maturing at d or before *)
  Definition matured (d : D) (ps : list (product * T)) : st heap (list (product * T)) :=
    bs <~ mapS (fun p => dom <~ pr_domain (fst p) ;; m <~ lift (d_max dom) ;; ret (d_leb m d)) ps ;;
    ret (map snd (filter fst (combine bs ps))).
  Definition fit_err (fuel : nat) (flr : option T) (disc : nat) (v : option D) (fitting : nat)
             (d : D) (ps : list (product * T)) (current : T) : st heap T :=
    _ <~ set_spread_value fitting d current ;;
    es <~ mapS (fun p => x <~ get_present_value fuel flr (fst p) disc v ;; ret (x - snd p)) ps ;;
    ret (nsum es).
  Definition get_curve_fit (fuel : nat) (flr : option T) (ps : list product) (disc : nat)
             (v : option D) (fitting : option nat) (grid : option (list D)) (targets : arg T)
             (precision a b : T) : st heap (list T) :=
    let targets := spread_arg targets (length ps) in
    let fit := match fitting with Some i => i | None => disc end in
    c <~ get_curve fit ;;
    let grid := match grid with Some g => g | None => rc_domain c end in
    s <~ lift (rc_cast_on fuel flr (rc_cls c) grid c None None DcDefault None) ;;
    _ <~ put_spread fit (Some (inr s)) ;;
    dom <~ spread_domain fit ;;
    _ <~ mapS (fun d => set_spread_value fit d n0) dom ;;
    dom <~ spread_domain fit ;;
    _ <~ mapS (fun d => fs <~ matured d (combine ps targets) ;;
                        bracketing fuel (fit_err fuel flr disc v fit d fs) a b precision) dom ;;
    c <~ get_curve fit ;;
    dom <~ spread_domain fit ;;
    data <~ lift (mapM (rc_call c) dom) ;;
    _ <~ put_spread fit None ;;
    ret data.
End Pricer.
Arguments hmodel T D P : clear implicits.
Arguments hattr T D P : clear implicits.
Arguments hlist T D P : clear implicits.
Arguments heap T D P : clear implicits.
