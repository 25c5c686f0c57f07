(** Specification vocabulary of bonds and swaps. *)
From Coq Require Import Reals List Bool ZArith.
From Verif Require Import Num Py Spec MDates MCurve MRateCurve MOption MCashflow SCashflow.
Import ListNotations.
Open Scope R_scope.

Section S.
  Context {D P : Type} {DS : DateSys R D P} {DC : DayCounts R D}.

  (** [x] is the interest earned per unit of notional from s to e: the fixed rate c plus the
      forward rate at fixing, times the year fraction *)
  Definition interest (fuel : nat) (count : dcspec R D) (fixing payo : option P) (c : R)
             (fwd : fsource R D P) (s e : D) (x : R) : Prop :=
    exists s' e' d f tau, moved_back s payo s' /\ moved_back e payo e' /\ moved_back s' fixing d /\
      forward_at fuel fwd d f /\ pay_count count s' e' = Ok tau /\ x = (c + f) * tau.

  (** what is still to be paid back before the i-th payment *)
  Definition remaining (l : list R) (i : nat) : R := Rsum (skipn i l).

  (** a leg with payments at the dates ds earning interest on n from start on pays x at d *)
  Definition leg_pays (tm : D -> R) (fuel : nat) (count : dcspec R D) (fixing payo : option P) (c : R)
             (fwd : fsource R D P) (start : D) (ds : list D) (n : R) (d : D) (x : R) : Prop :=
    (exists i s e r, nth_error (start :: ds) i = Some s /\ nth_error ds i = Some e /\ tm d = tm e /\
       interest fuel count fixing payo c fwd s e r /\ x = r * n) \/
    (~ In (tm d) (map tm ds) /\ x = 0).
End S.
