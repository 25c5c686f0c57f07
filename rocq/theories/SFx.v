(** Specification vocabulary for the fx container: histories of [add] calls. *)
From Coq Require Import Reals List Arith Bool.
From Verif Require Import Num Py MDates MCurve MRateCurve MFx.
Import ListNotations.
Open Scope R_scope.

Section Spec.
  Context {D P : Type} {DS : DateSys R D P} {DC : DayCounts R D}.

  (** one call of [add]: the currency, its curve and the spot rate *)
  Record quote := Q { q_cur : ccy; q_curve : rcurve R D P; q_spot : R }.

  (** [c = FxContainer(base, dom)] followed by the calls of [add] in the list *)
  Definition fx_history (fuel : nat) (base : ccy) (dom : rcurve R D P) (qs : list quote) : res (fxcont R D P) :=
    c <- fx_container fuel base dom ;;
    foldM (fun c q => fx_add fuel c (q_cur q) (q_curve q) (q_spot q)) c qs.

  (** the currencies of the container *)
  Definition currencies (base : ccy) (qs : list quote) : list ccy := base :: map q_cur qs.

  (** the last quote of a currency *)
  Fixpoint quoted (qs : list quote) (c : ccy) : option quote :=
    match qs with
    | [] => None
    | q :: qs' => match quoted qs' c with
                  | Some q' => Some q'
                  | None => if Nat.eqb (q_cur q) c then Some q else None
                  end
    end.
  (** its spot rate (1 for the base currency) and its curve *)
  Definition spot_of (base : ccy) (qs : list quote) (c : ccy) : R :=
    if Nat.eqb c base then 1 else match quoted qs c with Some q => q_spot q | None => 1 end.
  Definition curve_of (base : ccy) (dom : rcurve R D P) (qs : list quote) (c : ccy) : rcurve R D P :=
    if Nat.eqb c base then dom else match quoted qs c with Some q => q_curve q | None => dom end.

  (** spot rate of a pair: the forward price at the origin of the base curve *)
  Definition has_spot (fuel : nat) (c : fxcont R D P) (a b : ccy) (s : R) : Prop :=
    exists o, rc_origin (fxc_dom c) = Some o /\ fx_forward fuel c a b o = Ok s.
End Spec.
Arguments quote D P : clear implicits.
Arguments Q {D P} q_cur%nat q_curve q_spot%R.
Arguments has_spot {D P DS DC} fuel%nat c a%nat b%nat s%R.
