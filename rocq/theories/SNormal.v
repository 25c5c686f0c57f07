(** The standard normal distribution, independently of the code. *)
From Coq Require Import Reals.
From Coquelicot Require Import Hierarchy RInt.
Open Scope R_scope.

(** the density of the standard normal distribution *)
Definition density (x : R) : R := exp (- (x * x) / 2) / sqrt (2 * PI).
(** [N] is its distribution function: the antiderivative of the density that tends to
    zero at minus infinity *)
Definition normal_distribution (N : R -> R) : Prop :=
  (forall x, derivable_pt_lim N x (density x)) /\
  (forall eps, 0 < eps -> exists b, forall x, x < b -> Rabs (N x) < eps).

(** [e] is the expectation of [g Z] for a standard normal variable Z: the integral of
    g times the density over the whole line, as limit of the integrals over [a, b] *)
Definition expectation (g : R -> R) (e : R) : Prop :=
  forall eps, 0 < eps -> exists r, forall a b, a < - r -> r < b ->
    exists i, is_RInt (V := R_NormedModule) (fun z => g z * density z) a b i /\ Rabs (i - e) < eps.

(** the forward at expiry: normally distributed with standard deviation v sqrt(t),
    lognormally distributed with volatility v, and lognormal after a displacement *)
Definition normal_forward (F v t z : R) : R := F + v * sqrt t * z.
Definition lognormal_forward (F v t z : R) : R := F * exp (v * sqrt t * z - v ^ 2 * t / 2).
Definition displaced_forward (a F v t z : R) : R := lognormal_forward (F + a) v t z - a.
(** payoffs in terms of the forward at expiry; the binary ones pay one unit of currency *)
Definition call_payoff (K x : R) : R := Rmax (x - K) 0.
Definition put_payoff (K x : R) : R := Rmax (K - x) 0.
Definition binary_call_payoff (K x : R) : R := if Rlt_dec K x then 1 else 0.
Definition binary_put_payoff (K x : R) : R := if Rlt_dec K x then 0 else 1.
