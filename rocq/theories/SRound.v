(** Specification vocabulary for rounding errors: the real number a float stands for. *)
From Coq Require Import ZArith List Bool Reals Floats.SpecFloat.
From Verif Require Import Num MDates MCurve MRateCurve MOption MCashflow MBracket MPricer MFloat.
Local Open Scope R_scope.

(** the float is an IEEE 754 binary64 number (canonical mantissa and exponent) *)
Definition is_double (x : float64) : Prop := valid_binary 53 1024 x = true.
(** neither an infinity nor a NaN *)
Definition finite_float (x : float64) : Prop :=
  match x with S754_zero _ | S754_finite _ _ _ => True | _ => False end.
(** the number it stands for: sign * mantissa * 2^exponent *)
Definition float_value (x : float64) : R :=
  match x with
  | S754_finite s m e => (if s then -1 else 1) * IZR (Z.pos m) * powerRZ 2 e
  | _ => 0
  end.
(** half a unit in the last place of 1; half the smallest positive double *)
Definition rounding_unit : R := / 2 ^ 53.
Definition tiny : R := powerRZ 2 (-1075).

(** sums of real numbers and of their absolute values *)
Definition total (l : list R) : R := fold_right Rplus 0 l.
Definition total_abs (l : list R) : R := total (map Rabs l).

(** the products of the values of two lists of floats, position by position *)
Definition products (xs ys : list float64) : list R :=
  map (fun p => float_value (fst p) * float_value (snd p)) (combine xs ys).

(** list number i of the heap, as it is when it is valued at v: with the curves as they are
    now, its payoff model (if it has one) taken at valuation date v; [seen] of SPricer.v for
    any type of numbers *)
Definition seen_at {T D P : Type} {N : Num T} {DS : DateSys T D P} (h : heap T D P) (v : D) (i : nat)
           (c : cflist T D P) : Prop :=
  exists l a, nth_error (h_lists h) i = Some l /\
    c = mkCF (cf_domain (hl_list l)) (cf_flows (hl_list l)) (cf_origin0 (hl_list l)) a
             (cf_rated (hl_list l)) /\
    match hl_attr l with
    | HNone => a = LNone
    | HForward s => a = LForward (s (h_curves h))
    | HModel j => exists m, nth_error (h_models h) j = Some m /\
                  a = LModel (PmModel (model_view h (mkHM (Some v) (hm_model m))))
    | HOther _ => False
    end.

(** the platform's math.exp, where it returns, misses the exponential by at most eps times
    its value, unless the argument is below -700 *)
Definition exp_within (lib : libm) (eps : R) : Prop :=
  forall z w, is_double z -> finite_float z -> -700 <= float_value z -> lm_exp lib z = Ok w ->
    is_double w /\ finite_float w /\ Rabs (float_value w - exp (float_value z)) <= eps * exp (float_value z).

(** the exponent of the discount factor from the origin o to d on a curve of zero rates:
    rate times time, as the curve returns them; nothing is discounted to o itself *)
Definition exponent {D P : Type} {N : Num float64} {DS : DateSys float64 D P} {DC : DayCounts float64 D}
           (disc : rcurve float64 D P) (o d : D) (q : R) : Prop :=
  d_eqb o d = true /\ q = 0 \/
  d_eqb o d = false /\ exists r t, rc_call disc d = Ok r /\ rc_yf disc o d = Ok t /\
    is_double r /\ finite_float r /\ is_double t /\ finite_float t /\ q = float_value r * float_value t.

(** the data points of a curve of floats, as points of real numbers *)
Definition float_points (xs ys : list float64) : list (R * R) :=
  combine (map float_value xs) (map float_value ys).
(** lists of finite doubles of the same length, at least one, no two first coordinates equal *)
Definition double_data (xs ys : list float64) : Prop :=
  Forall (fun x => is_double x /\ finite_float x) xs /\ Forall (fun y => is_double y /\ finite_float y) ys /\
  length xs = length ys /\ xs <> nil /\ NoDup (map float_value xs).
