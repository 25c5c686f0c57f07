(** Specification used by C99, C113, C114 and C124: where the functions of the platform return. *)
From Coq Require Import Reals Floats.SpecFloat.
From Verif Require Import Num MFloat SRound.
Local Open Scope R_scope.

(** math.exp returns a number at every double between -700 and 700, math.log at every positive
    one (elsewhere they may raise) *)
Definition exp_returns (lib : libm) : Prop :=
  forall z, is_double z -> finite_float z -> -700 <= float_value z <= 700 -> exists w, lm_exp lib z = Ok w.
Definition log_returns (lib : libm) : Prop :=
  forall y, is_double y -> finite_float y -> 0 < float_value y -> exists w, lm_log lib y = Ok w.
