(** Specification of the option pricing formulas: the documented formulas as functions
    on real numbers, and what a model sees of the market. *)
From Coq Require Import Reals ZArith.
From Verif Require Import Num MDates MCurve MRateCurve MOption.
Open Scope R_scope.

(** the density, with the code's constant for 1/sqrt(2 pi) *)
Definition phi (x : R) : R := (398942280401433 / 1000000000000000) * exp (- (x * x) / 2).

(** the approximation of the distribution function by Abramowitz and Stegun (26.2.17):
    1 - phi(x) (b1 t + ... + b5 t^5) with t = 1 / (1 + p x) for x >= 0, and its mirror
    image for x < 0 *)
Definition as_tail (x : R) : R :=
  let t := 1 / (1 + 2316419 / 10000000 * x) in
  phi x * (31938153 / 100000000 * t - 356563782 / 1000000000 * t ^ 2
           + 1781477937 / 1000000000 * t ^ 3 - 1821255978 / 1000000000 * t ^ 4
           + 1330274429 / 1000000000 * t ^ 5).
Definition Phi (x : R) : R := if Rle_dec 0 x then 1 - as_tail x else as_tail (- x).

(** standardised moneyness, F forward, K strike, v volatility, t time to expiry *)
Definition d_bachelier (t K F v : R) : R := (F - K) / (v * sqrt t).
Definition d_black (t K F v : R) : R :=
  (ln (F / K) + v ^ 2 * t / 2) / (v * sqrt t).

(** the documented call prices *)
Definition bachelier_call (t K F v : R) : R :=
  let d := d_bachelier t K F v in (F - K) * Phi d + v * sqrt t * phi d.
Definition black_call (t K F v : R) : R :=
  let d := d_black t K F v in F * Phi d - K * Phi (d - v * sqrt t).

Section Market.
  Context {D P : Type} {DS : DateSys R D P} {DC : DayCounts R D}.

  (** at the expiry date d and for the requested strike, the model m works with the
      forward F, the strike K, the volatility v and the time to expiry t *)
  Definition market (fuel : nat) (flr : option R) (m : omodel R D P) (d : D)
             (strike : option R) (F K v t : R) : Prop :=
    exists ov, om_details fuel flr m d strike = Ok (mkOD (Some F) K ov t) /\
               (ov = Some v \/ ov = None /\ v = 0).
End Market.

(** the option has no time value: zero volatility or expired today *)
Definition no_time_value (v t : R) : Prop := v = 0 \/ t = 0.
