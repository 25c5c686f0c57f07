(** Specification vocabulary of yields, fair rates and accrued interest. *)
From Coq Require Import Reals List Bool ZArith.
From Verif Require Import Num Py Spec MDates MCurve MRateCurve MOption MCashflow MBracket MPricer SCashflow SPricer.
Import ListNotations.
Open Scope R_scope.

Section S.
  Context {D P : Type} {DS : DateSys R D P} {DC : DayCounts R D}.

  (** the pairs (d, a) of [fl] are the payment dates and amounts of the list from v on *)
  Definition list_flows (fuel : nat) (flr : option R) (h : heap R D P) (v : D) (i : nat)
             (fl : list (D * R)) : Prop :=
    exists c, seen h v i c /\ map fst fl = due v c /\
      forall d a, In (d, a) fl -> cf_get fuel flr c d = Ok a.
  (** ... and those of a product, leg by leg *)
  Definition product_flows (fuel : nat) (flr : option R) (h : heap R D P) (v : D) (p : @product D)
             (fl : list (D * R)) : Prop :=
    match p with
    | PrList i => list_flows fuel flr h v i fl
    | PrLegs legs _ _ => exists fls, Forall2 (list_flows fuel flr h v) legs fls /\ fl = concat fls
    end.

  (** the value of the flows with continuously compounded yield y and year fractions tau *)
  Definition yield_value (tau : D -> D -> R) (v : D) (fl : list (D * R)) (y : R) : R :=
    Rsum (map (fun da => exp (- (y * tau v (fst da))) * snd da) fl).
End S.

Section Coupons.
  Context {D P : Type} {DS : DateSys R D P} {DC : DayCounts R D}.

  (** the valuation date of a present value: the origin of the discount curve by default *)
  Definition valued_at (disc : rcurve R D P) (v : option D) : option D :=
    match v with Some _ => v | None => rc_origin disc end.

  (** the payoff is a rate payoff with notional times year fraction [alpha] and forward
      rate [fwd], hence with fixed rate x it pays (x + fwd) * alpha *)
  Definition coupon (fuel : nat) (s : fsource R D P) (f : option (flow R D P)) (alpha fwd : R) : Prop :=
    exists r y d, f = Some (FlPay (PRate r)) /\
      pay_count (rp_count r) (rp_start r) (rp_end r) = Ok y /\ alpha = y * rp_amount r /\
      moved_back (rp_start r) (rp_fixing r) d /\ forward_at fuel s d fwd.

  (** list i has a fixed rate and from v on the coupons [cs]: triples of a payment date, the
      notional times year fraction and the forward rate *)
  Definition coupons (fuel : nat) (h : heap R D P) (v : D) (i : nat) (cs : list (D * (R * R))) : Prop :=
    exists l s, nth_error (h_lists h) i = Some l /\ hl_attr l = HForward s /\
      cf_rated (hl_list l) = true /\ map fst cs = due v (hl_list l) /\
      forall d alpha fwd, In (d, (alpha, fwd)) cs ->
        coupon fuel (s (h_curves h)) (cf_payoff (hl_list l) d) alpha fwd.

  (** the value of the coupons with discount factors [df] and fixed rate 1 resp. 0 *)
  Definition annuity (df : D -> R) (cs : list (D * (R * R))) : R :=
    Rsum (map (fun c => df (fst c) * fst (snd c)) cs).
  Definition floating (df : D -> R) (cs : list (D * (R * R))) : R :=
    Rsum (map (fun c => df (fst c) * (snd (snd c) * fst (snd c))) cs).
End Coupons.
