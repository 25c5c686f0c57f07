(** Specification of curves, independent of the model functions. *)
From Coq Require Import Reals List.
From Verif Require Import Num MInterpolation MCurve Spec SInterpolation.
Import ListNotations.
Open Scope R_scope.

(** the value at [x] of the default interpolation ([linear_scheme]) of the data points
    [ps]: on the chord between consecutive points, constant outside *)
Definition piecewise_linear (ps : points) (x y : R) : Prop :=
  (exists a ya b yb, consecutive ps a ya b yb /\ a <= x <= b /\ y = chord a ya b yb x) \/
  (exists a, In (a, y) ps /\ is_first ps a /\ x <= a) \/
  (exists b, In (b, y) ps /\ is_last ps b /\ b <= x).

(** [m[k] = v] on a finite map *)
Definition assign (m : dict) (kv : R * R) : dict :=
  fun x => if Req_EM_T (fst kv) x then Some (snd kv) else m x.

(** the interpolation classes taking (x_list, y_list), those requiring positive values,
    those working with rates -ln(y)/x *)
Definition two_args (k : ikind) : Prop := k <> Kflat.
Definition log_kind (k : ikind) : Prop := k = Kloglinear \/ k = Kloglinearrate \/ k = Klogconstantrate.
Definition rate_kind (k : ikind) : Prop := k = Kloglinearrate \/ k = Klogconstantrate.
Definition spec_kinds (s : ispec) : list ikind :=
  match resolve s with SBase k => [k] | SScheme l m r => [l; m; r] | SName _ => [] end.
Definition scheme_ends (s : ispec) : list ikind :=
  match resolve s with SScheme l _ r => [l; r] | _ => [] end.
(** an interpolation the code can find: a class, or a name of dcf.interpolation *)
Definition known (s : ispec) : Prop := forall n, resolve s <> SName n.
(** one the code finds again from its [__name__]: a plain class, a scheme whose joined name
    is also its name in dcf.interpolation, or a string *)
Definition findable (s : ispec) : Prop :=
  match s with
  | SBase _ | SName _ => True
  | SScheme _ _ _ => s = linear_scheme \/ s = log_linear_rate_scheme \/ s = zero_linear_scheme
  end.

(** data admissible for an interpolation: distinct x, positive y for log classes; the
    schemes need a point (other than x = 0 if their outer parts work with rates) *)
Definition admissible (s : ispec) (ps : points) : Prop :=
  known s /\ distinct ps /\
  (forall k, In k (spec_kinds s) -> two_args k) /\
  ((exists k, In k (spec_kinds s) /\ log_kind k) -> positive ps) /\
  (forall k, In k (scheme_ends s) -> rate_kind k -> ps <> [] ->
     exists a y, In (a, y) ps /\ a <> 0).

(** a sequence of state changing calls; the first exception stops it *)
Fixpoint run {S A} (step : S -> A -> res S) (s : S) (l : list A) : res S :=
  match l with [] => Ok s | a :: l' => s' <- step s a ;; run step s' l' end.

(** the Curves a program can get: built from a non-empty data set with distinct x and
    default interpolation, by item assignment, arithmetic, copying and shifting *)
Inductive reachable : curve R -> Prop :=
| r_new xs ys c : xs <> [] -> NoDup xs -> curve_new None xs ys = Ok c -> reachable c
| r_set c k v c' : reachable c -> curve_setitem c k v = Ok c' -> reachable c'
| r_add a b c : reachable a -> reachable b -> curve_add a b = Ok c -> reachable c
| r_sub a b c : reachable a -> reachable b -> curve_sub a b = Ok c -> reachable c
| r_mul a b c : reachable a -> reachable b -> curve_mul a b = Ok c -> reachable c
| r_div a b c : reachable a -> reachable b -> curve_div a b = Ok c -> reachable c
| r_copy c c' : reachable c -> curve_copy c = Ok c' -> reachable c'
| r_shift c d c' : reachable c -> curve_shifted c d = Ok c' -> reachable c'.
