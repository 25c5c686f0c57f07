(** Specification vocabulary for double precision. *)
From Coq Require Import ZArith List Bool Floats.SpecFloat.
From Verif Require Import Num MBracket MFloat.

(** the state changing function f computes F: it never raises, its value depends on its
    argument only; it keeps the invariant [Inv] *)
Definition computes {T St} (Inv : St -> Prop) (f : T -> st St T) (F : T -> T) : Prop :=
  forall x s, Inv s -> exists s', f x s = (Ok (F x), s') /\ Inv s'.

(** the values of F at a and b enclose zero and their computed distance is below p *)
Definition encloses (lib : libm) (F : float64 -> float64) (p a b : float64) : Prop :=
  exists lo hi, (lo = F a /\ hi = F b \/ lo = F b /\ hi = F a) /\
    SFleb lo f64_zero = true /\ SFleb f64_zero hi = true /\
    SFltb (nabs (N := f64 lib) (SFsub 53%Z 1024%Z hi lo)) p = true.
