(** Property C120: lists of contingent cash flows whose payoff model is None, a number, a
    curve or a function (pricer.py:98-101, contingent.py:25-67). *)
From Coq Require Import Reals Lra Lia List Bool ZArith.
From Verif Require Import Num Py Spec SInterpolation SCurve SDates SRateCurve SOption SCashflow SPricer LBase MInterpolation MDates
  MCurve MRateCurve MOption MCashflow MBracket MPricer LSort LDates LCashflow LCurve LDateCurve LRateCurve LPricer LPricer3 PPricer.
Import ListNotations.
Open Scope R_scope.

(** * C120: REFUTED: the present value raises AttributeError whatever the flows are, even if
    each of them is a number, and although nothing in the list depends on a date; the call
    changes nothing *)
Theorem C120_no_model_refuted : forall {D P} (DS : DateSys R D P) (DC : DayCounts R D) fuel flr (h : heap R D P) i k disc v l a,
  nth_error (h_curves h) k = Some disc -> nth_error (h_lists h) i = Some (mkHL l (HOther a)) ->
  get_present_value fuel flr (PrList i) k v h = (Err AttributeError, h).
Proof.
  intros D P DS DC fuel flr h i k disc v l a Hk Hi. unfold get_present_value, bindS, get_curve. rewrite (nth_res_some _ _ _ Hk).
  unfold pv_of, pv_list, bindS, get_list. rewrite (nth_res_some _ _ _ Hi). reflexivity.
Qed.
(** so does every leg list with such a leg after legs that can be valued *)
Theorem C120_legs_refuted : forall {D P} (DS : DateSys R D P) (DC : DayCounts R D) fuel flr (h : heap R D P) i k disc v l a legs legs' dom o xs,
  nth_error (h_curves h) k = Some disc -> nth_error (h_lists h) i = Some (mkHL l (HOther a)) ->
  Forall2 (fun j x => returns (get_present_value fuel flr (PrList j) k (Some v)) h x) legs xs ->
  get_present_value fuel flr (PrLegs (legs ++ i :: legs') dom o) k (Some v) h = (Err AttributeError, h).
Proof.
  intros D P DS DC fuel flr h i k disc v l a legs legs' dom o xs Hk Hi F.
  pose proof (C120_no_model_refuted DS DC fuel flr h i k disc (Some v) l a Hk Hi) as E.
  assert (PV : forall p, get_present_value fuel flr p k (Some v) h = pv_of fuel flr disc (Some v) p h).
  { intros p. unfold get_present_value, bindS, get_curve. now rewrite (nth_res_some _ _ _ Hk). }
  rewrite PV in *. cbn [pv_of] in *.
  assert (G : mapS (pv_list fuel flr disc (Some v)) (legs ++ i :: legs') h = (Err AttributeError, h)).
  { clear -E F PV. induction F as [|j x js xs J F IH]; cbn [app mapS]; unfold bindS in *.
    - now rewrite E.
    - unfold returns in J. rewrite PV in J. cbn [pv_of] in J. rewrite J, IH. reflexivity. }
  unfold bindS. now rewrite G.
Qed.
Print Assumptions C120_legs_refuted.

(** the documented list of two squares of the model 4: each flow is 16, there is no present
    value *)
#[local] Instance no_counts1 : DayCounts R R := [].
Definition square (a : pmodel R R (fperiod R)) : res R := match a with PmSource (FwNum x) => Ok (x * x) | _ => Err TypeError end.
Example C120_instance : exists disc l,
  rc_new (DS := FloatDates (T:=R)) CZeroRate [0] [5 / 100] None None DcDefault None = Ok disc /\
  contingent_new (DS := FloatDates (T:=R)) [1; 2] (Some [FlPay (PCall square); FlPay (PCall square)]) None (PmSource (FwNum 4)) = Ok l /\
  cf_get_list (DS := FloatDates (T:=R)) 2 None l [1; 2] = Ok [16; 16] /\
  get_present_value (DS := FloatDates (T:=R)) 2 None (PrList 0) 0 None (mkH [disc] [] [mkHL l (HOther (PmSource (FwNum 4)))]) =
    (Err AttributeError, mkH [disc] [] [mkHL l (HOther (PmSource (FwNum 4)))]).
Proof.
  destruct (flat_zero (DC := no_counts1) (L:=float_laws) 0 (5 / 100) None) as (disc & ED & _). exists disc,
    (mkCF [1; 2] (dict_of (d_eqb (DateSys := FloatDates (T:=R))) [(1, FlPay (PCall square)); (2, FlPay (PCall square))]) None (LModel (PmSource (FwNum 4))) false).
  split; [exact ED|]. split; [reflexivity|]. split.
  - assert (Q : forall a : R, d_eqb (DateSys := FloatDates (T:=R)) a a = true) by (intros; now apply (eqb_refl (L:=float_laws))).
    assert (Z : d_eqb (DateSys := FloatDates (T:=R)) 2 1 = false) by (destruct (d_eqb (DateSys := FloatDates (T:=R)) 2 1) eqn:W; auto; apply (eqb_inv (L:=float_laws)) in W; lra).
    assert (Z' : d_eqb (DateSys := FloatDates (T:=R)) 1 2 = false) by (destruct (d_eqb (DateSys := FloatDates (T:=R)) 1 2) eqn:W; auto; apply (eqb_inv (L:=float_laws)) in W; lra).
    unfold cf_get_list, cf_get, cf_flow. cbn [mapM cf_flows cf_attr]. rewrite !(dict_get (L:=float_laws)). cbn [rev app assoc].
    rewrite ?Q, ?Z, ?Z'. cbn [flow_value attr_model pay square bind]. repeat f_equal; cbn; lra.
  - now apply C120_no_model_refuted with disc (mkCF [1; 2] (dict_of (d_eqb (DateSys := FloatDates (T:=R))) [(1, FlPay (PCall square)); (2, FlPay (PCall square))]) None (LModel (PmSource (FwNum 4))) false) (PmSource (FwNum 4)).
Qed.
