(** Exceptions, the result monad and number structures.

    The Python code of /repo/dcf computes with [float] and raises exceptions.
    Every model function returns a [res]; arithmetic that may raise in Python
    ([/], [math.log], [math.sqrt], [math.pow], [math.exp]) is partial here. *)
From Coq Require Import Reals ZArith QArith List Bool.
Import ListNotations.

(** Kinds of Python exceptions raised by the modelled code.  [OutOfFuel] is not a
    Python exception: it marks that the fuel given to a possibly infinite loop or
    recursion of the model was exhausted. *)
Inductive exn :=
| TypeError | ValueError | ZeroDivisionError | AssertionError | KeyError
| IndexError | OverflowError | AttributeError | NotImplementedError
| UnboundLocalError | OutOfFuel.

Inductive res (A : Type) := Ok (a : A) | Err (e : exn).
Arguments Ok {A} a.
Arguments Err {A} e.

Definition bind {A B} (m : res A) (k : A -> res B) : res B :=
  match m with Ok a => k a | Err e => Err e end.

Definition rmap {A B} (f : A -> B) (m : res A) : res B :=
  match m with Ok a => Ok (f a) | Err e => Err e end.

Declare Scope res_scope.
Delimit Scope res_scope with res.
Notation "x <- m ;; k" := (bind m (fun x => k))
  (at level 61, m at next level, right associativity) : res_scope.
Open Scope res_scope.

(** [for x in l: f(x)] collecting the results, stopping at the first exception *)
Fixpoint mapM {A B} (f : A -> res B) (l : list A) : res (list B) :=
  match l with
  | [] => Ok []
  | x :: l' => y <- f x ;; ys <- mapM f l' ;; Ok (y :: ys)
  end.

(** A number structure: what the code uses of Python's [float].
    [n_ratio p q] is the literal p/q; [n_round7 x] is [round(x, 7)];
    [n_fmin] is [sys.float_info.min]. *)
Class Num (T : Type) := {
  n0 : T; n1 : T;
  nadd : T -> T -> T; nsub : T -> T -> T; nmul : T -> T -> T; nopp : T -> T;
  nltb : T -> T -> bool; nleb : T -> T -> bool; neqb : T -> T -> bool;
  ndiv : T -> T -> res T;
  nexp : T -> res T; nlog : T -> res T; nsqrt : T -> res T;
  nmpow : T -> T -> res T;          (* math.pow *)
  n_ofZ : Z -> T;
  n_ratio : Z -> positive -> T;
  n_round7 : T -> T;
  n_fmin : T
}.

Declare Scope num_scope.
Delimit Scope num_scope with num.
Infix "+" := nadd : num_scope.
Infix "-" := nsub : num_scope.
Infix "*" := nmul : num_scope.
Infix "<?" := nltb : num_scope.
Infix "<=?" := nleb : num_scope.
Infix "=?" := neqb : num_scope.

Section Derived.
  Context {T : Type} {N : Num T}.
  Open Scope num_scope.

  Definition n_ofN (n : nat) : T := n_ofZ (Z.of_nat n).

  (** Python's [x ** n] for an integer n >= 0 *)
  Fixpoint npow (x : T) (n : nat) : T :=
    match n with O => n1 | S m => x * npow x m end.

  (** Python's two-argument [max] and [min]: the first argument wins ties *)
  Definition nmax (a b : T) : T := if a <? b then b else a.
  Definition nmin (a b : T) : T := if b <? a then b else a.
  Definition nabs (a : T) : T := if a <? n0 then nopp a else a.

  (** truth value of a float: [if x] *)
  Definition ntruthy (x : T) : bool := negb (x =? n0).

  (** Python's [sum(l)]: starts at 0, left to right *)
  Definition nsum (l : list T) : T := fold_left nadd l n0.
End Derived.

(** * The real instance *)
Open Scope R_scope.

Definition Rltb (x y : R) : bool := if Rlt_dec x y then true else false.
Definition Rleb (x y : R) : bool := if Rle_dec x y then true else false.
Definition Reqb (x y : R) : bool := if Req_EM_T x y then true else false.

Definition Rdivp (x y : R) : res R :=
  if Req_EM_T y 0 then Err ZeroDivisionError else Ok (x / y).
Definition Rlogp (x : R) : res R :=
  if Rlt_dec 0 x then Ok (ln x) else Err ValueError.
Definition Rsqrtp (x : R) : res R :=
  if Rle_dec 0 x then Ok (sqrt x) else Err ValueError.

(** C's [pow] as exposed by Python's [math.pow]: negative bases only with integer
    exponents, zero only with non-negative exponents *)
Definition Rmpow (x y : R) : res R :=
  if Rlt_dec 0 x then Ok (Rpower x y)
  else if Req_EM_T x 0 then
    (if Req_EM_T y 0 then Ok 1 else if Rlt_dec 0 y then Ok 0 else Err ValueError)
  else if Req_EM_T (IZR (Int_part y)) y then Ok (powerRZ x (Int_part y))
  else Err ValueError.

(** round half to even of a real to an integer *)
Definition Rround_half_even (x : R) : Z :=
  let f := Int_part x in
  if Rlt_dec (x - IZR f) (1/2) then f
  else if Rlt_dec (1/2) (x - IZR f) then (f + 1)%Z
  else if Z.even f then f else (f + 1)%Z.

(** Python's [round(x, 7)] on exact reals *)
Definition Rround7 (x : R) : R := IZR (Rround_half_even (x * IZR 10000000)) / IZR 10000000.

#[global] Instance Rnum : Num R := {|
  n0 := 0; n1 := 1;
  nadd := Rplus; nsub := Rminus; nmul := Rmult; nopp := Ropp;
  nltb := Rltb; nleb := Rleb; neqb := Reqb;
  ndiv := Rdivp;
  nexp := fun x => Ok (exp x);
  nlog := Rlogp; nsqrt := Rsqrtp; nmpow := Rmpow;
  n_ofZ := IZR;
  n_ratio := fun p q => IZR p / IZR (Zpos q);
  n_round7 := Rround7;
  n_fmin := / IZR (2 ^ 1022)
|}.
Close Scope R_scope.
