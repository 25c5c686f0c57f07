(** Python's [float]: IEEE 754 binary64 numbers as a number structure, so that every model
    function also runs in double precision.

    The operations +, -, *, /, sqrt and the comparisons are those of the standard library's
    specification of IEEE 754 (Coq.Floats.SpecFloat, rounding to nearest, ties to even, as
    CPython's float objects, Objects/floatobject.c).  The functions of the C library are left open: [libm]
    may be any functions; math.exp is only taken to be 1 at zero (C99 F.10.3.1). *)
From Coq Require Import ZArith List Bool Floats.SpecFloat.
From Verif Require Import Num.
Import ListNotations.

Notation float64 := spec_float (only parsing).
(** the functions [math.exp], [math.log], [math.pow], [round(x, 7)] of the platform *)
Record libm := mkLibm {
  lm_exp : float64 -> res float64; lm_log : float64 -> res float64;
  lm_pow : float64 -> float64 -> res float64; lm_round7 : float64 -> float64 }.

Definition f64_zero : float64 := S754_zero false.
(** the float of an integer; the float nearest to p/q, for p and q below 2^53: the value of
    a literal of the source code *)
Definition f64_ofZ (z : Z) : float64 := binary_normalize 53 1024 z 0 false.
Definition f64_ratio (p : Z) (q : positive) : float64 := SFdiv 53 1024 (f64_ofZ p) (f64_ofZ (Zpos q)).

(** float arithmetic of Python: division by zero raises, math.sqrt of a negative number
    raises *)
Definition f64 (lib : libm) : Num float64 := {|
  n0 := f64_zero; n1 := f64_ofZ 1;
  nadd := SFadd 53 1024; nsub := SFsub 53 1024; nmul := SFmul 53 1024; nopp := SFopp;
  nltb := SFltb; nleb := SFleb; neqb := SFeqb;
  ndiv := fun x y => if SFeqb y f64_zero then Err ZeroDivisionError else Ok (SFdiv 53 1024 x y);
  nexp := fun x => if SFeqb x f64_zero then Ok (f64_ofZ 1) else lm_exp lib x;
  nlog := lm_log lib;
  nsqrt := fun x => if SFltb x f64_zero then Err ValueError else Ok (SFsqrt 53 1024 x);
  nmpow := lm_pow lib;
  n_ofZ := f64_ofZ; n_ratio := f64_ratio; n_round7 := lm_round7 lib;
  n_fmin := S754_finite false 4503599627370496 (-1074)
|}.
