(** Property C34, continued: forward curves made from one spot price. *)
From Coq Require Import Reals Lra Lia List Bool Sorted.
From Verif Require Import Num Py Spec SInterpolation SCurve SDates LBase MInterpolation MDates MCurve LDates LDateCurve PDateCurve.
Import ListNotations.
Open Scope R_scope.

(** ForwardCurve(price, origin=o) and ForwardCurve(Price(price, o)) have one date, o, and keep
    it as their origin; the price is constant up to o and grows with the yield afterwards *)
Theorem C34_spot : forall {D P} (DS : DateSys R D P) (tm : D -> R) (DC : DayCounts R D),
  DateLaws DS tm ->
  forall (count : dcspec R D) tau, additive (dc_apply count) tau ->
  forall p o (yc : yieldc R D), 0 < p ->
  exists f, fc_new_price p None o count yc = Ok f /\
    dc_domain (fc_dc f) = [o] /\ dc_origin0 (fc_dc f) = Some o /\ dc_origin (fc_dc f) = Some o /\
    (forall d, tm d <= tm o -> fc_price f d = Ok p) /\
    (forall d, tm o < tm d -> 
       (yc = YNone -> fc_price f d = Ok p) /\
       (forall y, yc = YFloat y -> fc_price f d = Ok (p * exp (y * tau o d))) /\
       (forall df q, yc = YCurve df -> df o d = Ok q -> q <> 0 -> fc_price f d = Ok (p / q))).
Proof.
  intros D P DS tm DC L count tau A p o yc Hp.
  destruct (C34_forward DS tm DC L count tau A [] o [] p (Some o) yc) as (f & E & V1 & V2 & V3).
  - reflexivity.
  - repeat constructor.
  - intros y [<-|[]]. exact Hp.
  - exists f. split; [exact E|]. cbn [app] in *.
    assert (ST : dc_domain (fc_dc f) = [o] /\ dc_origin0 (fc_dc f) = Some o).
    { unfold fc_new in E. destruct (dc_new _ _ _ _ _ _) as [c|] eqn:EN; [|discriminate]. injection E as <-. cbn [fc_dc].
      apply (dstate_iff count tau A log_linear_scheme [o] [p] None (Some o) o c eq_refl) in EN; [|repeat constructor; intros []|reflexivity].
      destruct EN as (_ & _ & _ & g & _ & ->). auto. }
    destruct ST as [S1 S2]. split; [exact S1|]. split; [exact S2|]. split; [unfold dc_origin; now rewrite S2|]. split.
    + intros d Hd. destruct (V2 d Hd) as (w & E1 & P1 & PL). rewrite E1. f_equal.
      assert (H : forall a b, tau a b = tau o b - tau o a) by (intros a b; destruct A as [? A2]; pose proof (A2 o a b); lra).
      specialize (PL (fun d => tau o d) H). cbn in PL. apply ln_inv; auto.
      destruct PL as [(a & ya & b & yb & (Ia & Ib & Lab & _) & _)|[(a & Ia & _)|(b & Ib & _)]].
      * destruct Ia as [Ia|[]], Ib as [Ib|[]]. inversion Ia; inversion Ib; subst. lra.
      * destruct Ia as [Ia|[]]. now inversion Ia.
      * destruct Ib as [Ib|[]]. now inversion Ib.
    + intros d Hd. destruct (V3 d Hd) as (W1 & W2 & W3 & _). auto.
Qed.
Print Assumptions C34_spot.

#[local] Existing Instance no_registry.
Example C34_spot_instance : exists f, fc_new_price (DS := FloatDates) 100 None 1 DcDefault (YFloat (1 / 20)) = Ok f /\
  fc_price (DS := FloatDates) f 0 = Ok 100 /\ fc_price (DS := FloatDates) f 3 = Ok (100 * exp (1 / 20 * (3 - 1))).
Proof.
  pose proof (float_additive (DC:=no_registry)) as A.
  destruct (C34_spot FloatDates (fun d => d) no_registry float_laws DcDefault _ A 100 1 (YFloat (1 / 20))) as (f & E & _ & _ & _ & V1 & V2); [lra|].
  exists f. split; auto. split; [apply V1; lra|]. destruct (V2 3) as (_ & H & _); [lra|]. now apply H.
Qed.
