(** Specification of the cells of a cash flow table. *)
From Coq Require Import List.
From Verif Require Import Num Py MDates MCurve MRateCurve MOption MCashflow MDetails.
Import ListNotations.

Section SDetails.
  Context {T D P : Type} {N : Num T} {DS : DateSys T D P} {DC : DayCounts T D}.

  (** the forward curve of a list, if its class has one *)
  Definition own_forward (l : cflist T D P) : fsource T D P :=
    match cf_attr l with LForward s => s | _ => FwNone end.

  (** column k of the table of l shows v at the date d: the date itself, or an entry of the
      details of what is paid at d *)
  Definition shows (fuel : nat) (flr : option T) (l : cflist T D P) (d : D) (k : key)
             (v : value T D P) : Prop :=
    match k with
    | KPayDate => v = VDate d
    | _ => match cf_payoff l d with
           | None => k = KCashflow /\ v = VNum n0
           | Some (FlNum x) => k = KCashflow /\ v = VNum x
           | Some (FlPay p) => exists e, details fuel flr p (PmSource (own_forward l)) = Ok e /\
                                         dget e k = Some v
           end
    end.
End SDetails.
