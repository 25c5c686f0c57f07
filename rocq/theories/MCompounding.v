(** Model of /repo/dcf/compounding.py *)
From Coq Require Import ZArith.
From Verif Require Import Num.

Section Compounding.
  Context {T : Type} {N : Num T}.
  Open Scope num_scope.

  (** dcf/compounding.py:16-23 *)
  Definition simple_compounding (rate maturity : T) : res T :=
    ndiv n1 (n1 + rate * maturity).

  (** dcf/compounding.py:26-33 *)
  Definition simple_rate (df period_fraction : T) : res T :=
    x <- ndiv n1 df ;; ndiv (x - n1) period_fraction.

  (** dcf/compounding.py:36-43; [-1.0 * rate * maturity] *)
  Definition continuous_compounding (rate maturity : T) : res T :=
    nexp (nopp n1 * rate * maturity).

  (** dcf/compounding.py:46-55; the [if not df: pass] has no effect *)
  Definition continuous_rate (df period_fraction : T) : res T :=
    l <- nlog df ;; ndiv (nopp l) period_fraction.

  (** dcf/compounding.py:58-67; [float(rate)] is the identity *)
  Definition periodic_compounding (rate maturity period : T) : res T :=
    let ex := nopp period * maturity in
    q <- ndiv rate period ;; nmpow (n1 + q) ex.

  (** dcf/compounding.py:70-78 *)
  Definition periodic_rate (df period_fraction frequency : T) : res T :=
    e <- ndiv (nopp n1) (period_fraction * frequency) ;;
    p <- nmpow df e ;; Ok ((p - n1) * frequency).

  (** dcf/compounding.py:81-88 *)
  Definition annually_compounding (rate maturity : T) : res T :=
    periodic_compounding rate maturity (n_ofZ 1).
  (** dcf/compounding.py:91-98 *)
  Definition semi_compounding (rate maturity : T) : res T :=
    periodic_compounding rate maturity (n_ofZ 2).
  (** dcf/compounding.py:101-108 *)
  Definition quarterly_compounding (rate maturity : T) : res T :=
    periodic_compounding rate maturity (n_ofZ 4).
  (** dcf/compounding.py:111-118 *)
  Definition monthly_compounding (rate maturity : T) : res T :=
    periodic_compounding rate maturity (n_ofZ 12).
  (** dcf/compounding.py:121-128 *)
  Definition daily_compounding (rate maturity : T) : res T :=
    periodic_compounding rate maturity (n_ofZ 365).
End Compounding.
