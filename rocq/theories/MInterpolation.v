(** Model of /repo/dcf/interpolation.py *)
From Coq Require Import String List Bool ZArith Arith.
From Verif Require Import Num Py.

Import ListNotations.

(** the interpolation classes, dcf/interpolation.py:72-502 *)
Inductive ikind :=
| Kflat | Kdefault | Kno | Kzero | Kleft | Kconstant | Kright | Knearest
| Klinear | Kloglinear | Kloglinearrate | Klogconstantrate.

Section Interpolation.
  Context {T : Type} {N : Num T}.
  Open Scope num_scope.

  (** an interpolation object: class, x_list, y_list, the attributes
      [_y_at_zero] (445, 493) and [_default] (121) *)
  Record interp := mkI {
    i_kind : ikind; i_xs : list T; i_ys : list T;
    i_zero : option T; i_default : option T }.

  (** tuple comparison [(x,y) < (x',y')] used by [sorted(data)] *)
  Definition pair_ltb (p q : T * T) : bool :=
    if fst p =? fst q then snd p <? snd q else fst p <? fst q.

  (** dcf/interpolation.py:44-49, removal branch of [_update] *)
  Fixpoint update_del (xs ys rm : list T) : list T * list T :=
    match rm with
    | [] => (xs, ys)
    | x :: rm' =>
        match index_of neqb x xs with
        | Some i => update_del (remove_nth i xs) (remove_nth i ys) rm'
        | None => update_del xs ys rm'
        end
    end.

  (** dcf/interpolation.py:50-58, insertion branch of [_update] *)
  Definition update_add (xs ys nx ny : list T) : list T * list T :=
    let data := filter (fun p => negb (mem neqb (fst p) nx)) (combine xs ys)
                ++ combine nx ny in
    split (sort pair_ltb data).

  (** dcf/interpolation.py:39-58 [_update] on the attributes (x_list, y_list) *)
  Definition update_lists (xs ys nx ny : list T) : list T * list T :=
    match ny with
    | [] => update_del xs ys nx
    | _ => update_add xs ys nx ny
    end.

  (** dcf/interpolation.py:39-58 as a method *)
  Definition interp_update (it : interp) (nx ny : list T) : interp :=
    let (xs, ys) := update_lists (i_xs it) (i_ys it) nx ny in
    mkI (i_kind it) xs ys (i_zero it) (i_default it).

  (** dcf/interpolation.py:22-31 [base_interpolation.__init__] *)
  Definition base_new (k : ikind) (xs ys : list T) (z d : option T) : interp :=
    let (xs', ys') := update_lists [] [] xs ys in mkI k xs' ys' z d.

  (** [all(0. < y for y in y_list)] (393, 440, 490) *)
  Definition all_positive (ys : list T) : bool := forallb (fun y => n0 <? y) ys.

  (** [y_list[x_list.index(z[0])] if z else None] (444-445, 492-493) *)
  Definition y_at_zero (xs ys : list T) : res (option T) :=
    match filter (fun x => x =? n0) xs with
    | [] => Ok None
    | z :: _ => match index_of neqb z xs with
                | Some i => y <- nth_res ys i ;; Ok (Some y)
                | None => Err ValueError
                end
    end.

  (** constructors of the interpolation classes called as [cls(x_list, y_list)]:
      flat 73-91 (takes one argument: TypeError), default_value 98-122, no 131-151,
      zero 155-179, left 184-208, constant 222-230, right 235-259, nearest 273-301,
      linear 320-346, loglinear 359-396, loglinearrate 404-448,
      logconstantrate 458-496 *)
  Definition interp_new (k : ikind) (xs ys : list T) : res interp :=
    match k with
    | Kflat => Err TypeError
    | Kdefault | Kno => Ok (base_new k xs ys None None)
    | Kzero => Ok (base_new k xs ys None (Some n0))
    | Kleft | Kconstant | Kright | Knearest | Klinear => Ok (base_new k xs ys None None)
    | Kloglinear =>
        if all_positive ys then
          ls <- mapM nlog ys ;; Ok (base_new k xs ls None None)
        else Err ValueError
    | Kloglinearrate =>
        if all_positive ys then
          z <- y_at_zero xs ys ;;
          ls <- mapM (fun p => l <- nlog (snd p) ;; ndiv l (fst p))
                     (filter (fun p => ntruthy (fst p)) (combine xs ys)) ;;
          Ok (base_new k (filter ntruthy xs) ls z None)
        else Err ValueError
    | Klogconstantrate =>
        if all_positive ys then
          z <- y_at_zero xs ys ;;
          ls <- mapM (fun p => l <- nlog (snd p) ;; ndiv (nopp l) (fst p))
                     (filter (fun p => ntruthy (fst p)) (combine xs ys)) ;;
          Ok (base_new k (filter ntruthy xs) ls z None)
        else Err ValueError
    end.

  (** [default_value_interpolation(x_list, y_list, default_value)] 98-122 *)
  Definition default_new (xs ys : list T) (d : option T) : interp :=
    base_new Kdefault xs ys None d.

  (** [flat(y)] 73-91 *)
  Definition flat_new (y : T) : interp := base_new Kflat [n0] [y] None None.

  (** left.__call__ 210-218 (also constant) *)
  Definition call_left (xs ys : list T) (x : T) : res T :=
    match ys with
    | [] => Err OverflowError
    | _ => let i := match index_of neqb x xs with
                    | Some i => i
                    | None => (bisect_left xs x 1 (length xs) - 1)%nat
                    end in
           nth_res ys i
    end.

  (** right.__call__ 261-269 *)
  Definition call_right (xs ys : list T) (x : T) : res T :=
    match ys with
    | [] => Err OverflowError
    | _ => let i := match index_of neqb x xs with
                    | Some i => i
                    | None => bisect_right xs x 0 (length xs - 1)
                    end in
           nth_res ys i
    end.

  (** nearest.__call__ 303-315; 0.5 is [n_ratio 1 2] *)
  Definition call_nearest (xs ys : list T) (x : T) : res T :=
    match ys with
    | [] => Err OverflowError
    | [y] => Ok y
    | _ => match index_of neqb x xs with
           | Some i => nth_res ys i
           | None =>
               let i := bisect_left xs x 1 (length xs - 1) in
               a <- nth_res xs (i - 1)%nat ;;
               b <- nth_res xs i ;;
               r <- ndiv (a - x) (a - b) ;;
               nth_res ys (if r <=? n_ratio 1 2 then (i - 1)%nat else i)
           end
    end.

  (** linear.__call__ 348-355 *)
  Definition call_linear (xs ys : list T) (x : T) : res T :=
    match ys with
    | [] => Err OverflowError
    | [y] => Ok y
    | _ => let i := bisect_left xs x 1 (length xs - 1) in
           ya <- nth_res ys (i - 1)%nat ;;
           yb <- nth_res ys i ;;
           a <- nth_res xs (i - 1)%nat ;;
           b <- nth_res xs i ;;
           q <- ndiv ((yb - ya) * (a - x)) (a - b) ;;
           Ok (ya + q)
    end.

  (** [__call__] of all classes: flat 93-94, default 124-127, left 210, right 261,
      nearest 303, linear 348, loglinear 398-400, loglinearrate 450-454,
      logconstantrate 498-502.  [None] is Python's None. *)
  Definition interp_call (it : interp) (x : T) : res (option T) :=
    let xs := i_xs it in
    let ys := i_ys it in
    match i_kind it with
    | Kflat => rmap Some (nth_res ys 0)
    | Kdefault | Kno | Kzero =>
        match index_of neqb x xs with
        | None => Ok (i_default it)
        | Some i => rmap Some (nth_res ys i)
        end
    | Kleft | Kconstant => rmap Some (call_left xs ys x)
    | Kright => rmap Some (call_right xs ys x)
    | Knearest => rmap Some (call_nearest xs ys x)
    | Klinear => rmap Some (call_linear xs ys x)
    | Kloglinear => l <- call_linear xs ys x ;; rmap Some (nexp l)
    | Kloglinearrate =>
        if ntruthy x then l <- call_linear xs ys x ;; rmap Some (nexp (l * x))
        else Ok (i_zero it)
    | Klogconstantrate =>
        if ntruthy x then l <- call_left xs ys x ;; rmap Some (nexp (nopp l * x))
        else Ok (i_zero it)
    end.

  (** [cls.from_dict(xy_dict)] 60-69: y_list is a generator.  [_update] treats a
      generator as non-empty and consumes it once; the log classes consume it in
      [all(...)] (393, 440, 490) and see an empty sequence afterwards; indexing a
      generator (445, 493) is a TypeError. [ps] lists the items of the dict. *)
  Definition from_dict (k : ikind) (ps : list (T * T)) : res interp :=
    let sorted := sort (fun p q => fst p <? fst q) ps in
    let xs := map fst sorted in
    let ys := map snd sorted in
    match k with
    | Kflat => Err TypeError
    | Kloglinear =>
        if all_positive ys then Ok (base_new k xs [] None None) else Err ValueError
    | Kloglinearrate | Klogconstantrate =>
        if all_positive ys then
          match filter (fun x => x =? n0) xs with
          | [] => Ok (base_new k (filter ntruthy xs) [] None None)
          | _ => Err TypeError
          end
        else Err ValueError
    | _ => interp_new k xs ys
    end.

  (** * interpolation_scheme 505-567 *)
  Record scheme := mkS { s_left : interp; s_mid : interp; s_right : interp }.

  (** interpolation_scheme.__init__ 508-554 with the three classes already
      selected; the objects are created in the order mid, right, left *)
  Definition scheme_new (l m r : ikind) (domain data : list T) : res scheme :=
    if negb (length domain =? length data)%nat then Err AssertionError
    else if negb (length domain =? length (dedup neqb domain))%nat then Err AssertionError
    else im <- interp_new m domain data ;;
         ir <- interp_new r domain data ;;
         il <- interp_new l domain data ;;
         Ok (mkS il im ir).

  (** selection of the three classes from the [interpolation] argument 527-544:
      default, one class, or tuples of length 1, 2, 3 *)
  Definition scheme_select (dflt : ikind * ikind * ikind) (arg : list ikind)
    : res (ikind * ikind * ikind) :=
    match arg, dflt with
    | [], _ => Ok dflt
    | [m], (l, _, r) => Ok (l, m, r)
    | [m; r], _ => Ok (r, m, r)
    | [l; m; r], _ => Ok (l, m, r)
    | _, _ => Err ValueError
    end.

  (** interpolation_scheme.__call__ 556-567 *)
  Definition scheme_call (s : scheme) (x : T) : res (option T) :=
    x0 <- nth_res (i_xs (s_left s)) 0 ;;
    if x <? x0 then interp_call (s_left s) x
    else xn <- last_res (i_xs (s_right s)) ;;
         if xn <? x then interp_call (s_right s) x
         else interp_call (s_mid s) x.
End Interpolation.

Arguments interp T : clear implicits.
Arguments scheme T : clear implicits.

(** what may be passed as [interpolation] to a curve: a plain interpolation class, a
    scheme class (570-590), or a string *)
Inductive ispec := SBase (k : ikind) | SScheme (l m r : ikind) | SName (n : String.string).

(** dcf/interpolation.py:576-590 *)
Definition linear_scheme := SScheme Kconstant Klinear Kconstant.
Definition log_linear_scheme := SScheme Kconstant Kloglinear Kconstant.
Definition log_linear_rate_scheme :=
  SScheme Klogconstantrate Kloglinearrate Klogconstantrate.
Definition zero_linear_scheme := SScheme Kzero Klinear Kconstant.

(** the [__name__] of a class: as in its definition; _dyn_scheme (570-573) joins the names
    of its parts *)
Definition kind_name (k : ikind) : String.string :=
  match k with
  | Kflat => "flat" | Kdefault => "default_value_interpolation" | Kno => "no"
  | Kzero => "zero" | Kleft => "left" | Kconstant => "constant" | Kright => "right"
  | Knearest => "nearest" | Klinear => "linear" | Kloglinear => "loglinear"
  | Kloglinearrate => "loglinearrate" | Klogconstantrate => "logconstantrate"
  end%string.
Definition spec_name (s : ispec) : String.string :=
  match s with
  | SBase k => kind_name k
  | SScheme l m r => kind_name l ++ "_" ++ kind_name m ++ "_" ++ kind_name r
  | SName n => n
  end%string.
(** [vars(dcf.interpolation)]: the names of the module (72-502, 576-590); the imported
    functions, the abstract base class and interpolation_scheme itself are left out *)
Definition module_names : list (String.string * ispec) :=
  map (fun k => (kind_name k, SBase k))
      [Kflat; Kdefault; Kno; Kzero; Kleft; Kconstant; Kright; Knearest; Klinear; Kloglinear;
       Kloglinearrate; Klogconstantrate] ++
  [("constant_linear_constant"%string, linear_scheme); ("linear_scheme"%string, linear_scheme);
   ("logconstant_loglinear_logconstant"%string, log_linear_scheme);
   ("log_linear_scheme"%string, log_linear_scheme);
   ("logconstantrate_loglinearrate_logconstantrate"%string, log_linear_rate_scheme);
   ("log_linear_rate_scheme"%string, log_linear_rate_scheme);
   ("zero_linear_constant"%string, zero_linear_scheme);
   ("zero_linear_scheme"%string, zero_linear_scheme)].
(** [vars(_interpolations).get(interpolation, interpolation)], dcf/curves/curve.py:261 *)
Definition resolve (s : ispec) : ispec :=
  match s with
  | SName n => match assoc String.eqb n module_names with Some c => c | None => s end
  | _ => s
  end.

Inductive fn (T : Type) := FBase (i : interp T) | FScheme (s : scheme T).
Arguments FBase {T} i.
Arguments FScheme {T} s.

Section Fn.
  Context {T : Type} {N : Num T}.
  (** [func(domain, data)], dcf/curves/curve.py:256-264; calling a string is a TypeError *)
  Definition fn_new (s : ispec) (domain data : list T) : res (fn T) :=
    match resolve s with
    | SBase k => rmap FBase (interp_new k domain data)
    | SScheme l m r => rmap FScheme (scheme_new l m r domain data)
    | SName _ => Err TypeError
    end.
  (** [self._func(x)], dcf/curves/curve.py:291 *)
  Definition fn_call (f : fn T) (x : T) : res (option T) :=
    match f with FBase i => interp_call i x | FScheme s => scheme_call s x end.
End Fn.
