(** Property C72, survival of a certain default. *)
From Coq Require Import Reals Lra Lia List Bool Sorted Permutation.
From Verif Require Import Num Py Spec SInterpolation SCurve SDates SRateCurve LBase LSort MInterpolation
  LInterpolation LCompounding MDates MCurve MRateCurve MTable LDates LCurve LCurve2 LDateCurve LDateCurve2 LRateCurve
  LRateCurve2 LRateCurve3 LMore PRateCurve PRateCurve2 PCredit LTable LCredit LRateCurve4 PTable PMore.
Import ListNotations.
Open Scope R_scope.

Lemma tiny_false (v : R) : v < 2 / IZR (2 ^ 1022) -> not_tiny v = false.
Proof. intros V. destruct (not_tiny v) eqn:T; auto. apply not_tiny_inv in T. unfold Rdiv in V. lra. Qed.

Section Marginal.
  Context {D P : Type} (DS : DateSys R D P) (tm : D -> R) (DC : DayCounts R D) (L : DateLaws DS tm).

  Lemma marginal_loop_zero (c : rcurve R D P) tau (v : D -> R) : additive (rc_yf c) tau ->
    forall n fuel ds stop acc, schedule (rc_tenor c) ds (S n) -> tm (ds n) < tm stop <= tm (ds (S n)) ->
    (forall i, (i <= n)%nat -> has_value c (ds i) (v (ds i))) -> (n < fuel)%nat ->
    acc = 0 \/ (exists m, (m <= n)%nat /\ v (ds m) < 2 / IZR (2 ^ 1022)) ->
    marginal_loop fuel c (ds 0%nat) stop acc = Ok 0.
  Proof.
    intros A. assert (FM : 0 < / IZR (2 ^ 1022)) by (apply Rinv_0_lt_compat, IZR_lt; reflexivity).
    induction n; intros fuel ds stop acc Sc [E1 E2] V F Q; (destruct fuel; [lia|]); cbn [marginal_loop]; unfold has_value in V.
    - destruct (Sc 0%nat) as [-> LT]; [lia|]. apply (ltb_inv (L:=L)) in LT. cbn [bind]. rewrite (ltb_f (L:=L)) by auto.
      rewrite V by lia. cbn [bind]. destruct (not_tiny (v (ds 0%nat))) eqn:T.
      + apply not_tiny_inv in T. destruct Q as [-> |(m & Lm & Hm)].
        * assert (NT : tau (ds 0%nat) (ds 1%nat) <> 0).
          { intro Z. apply (add_zero _ _ A) in Z. rewrite (eqb_f (L:=L)) in Z; [discriminate|lra]. }
          rewrite !(add_val _ _ A). cbn [bind]. rewrite continuous_rate_ok by (auto; lra). cbn [bind]. rewrite continuous_compounding_ok. cbn [bind]. rn.
          f_equal. ring.
        * assert (m = 0)%nat by lia. subst m. unfold Rdiv in Hm. lra.
      + rn. f_equal. ring.
    - destruct (Sc 0%nat) as [-> _]; [lia|]. cbn [bind].
      assert (tm (ds 1%nat) < tm stop).
      { destruct n as [|n']; [lra|]. pose proof (schedule_tm (L:=L) _ _ _ Sc 1 (S (S n'))) as H. specialize (H ltac:(lia)). lra. }
      rewrite (ltb_t (L:=L)) by auto. rewrite V by lia. cbn [bind].
      apply (IHn fuel (fun i => ds (S i)) stop); auto.
      + now apply schedule_shift.
      + intros i Hi. apply V. lia.
      + lia.
      + destruct Q as [-> |(m & Lm & Hm)]; [left; rn; ring|]. destruct m as [|m].
        * left. rewrite (tiny_false _ Hm). rn. ring.
        * right. exists m. split; [lia|exact Hm].
  Qed.

  (** once a marginal survival probability of a tenor is below twice the smallest normal float,
      the probability to survive until any date in that tenor or later is 0 *)
  Theorem C72_certain_default : forall (c : rcurve R D P) tau (v : D -> R) n m ds stop fuel,
    additive (rc_yf c) tau -> rc_cls c = CMargSurvival \/ rc_cls c = CMargDefault ->
    schedule (rc_tenor c) ds (S n) -> d_ltb (ds n) stop = true -> d_leb stop (ds (S n)) = true ->
    (forall i, (i <= n)%nat -> has_value c (ds i) (v (ds i))) ->
    (m <= n)%nat -> v (ds m) < 2 / IZR (2 ^ 1022) ->
    (n + 1 < fuel)%nat -> get_survival_prob fuel c (ds 0%nat) stop = Ok 0.
  Proof.
    intros c tau v n m ds stop fuel A K Sc E1 E2 V Lm Hm F. apply (ltb_inv (L:=L)) in E1. apply (leb_inv (L:=L)) in E2.
    assert (NE : d_eqb (ds 0%nat) stop = false).
    { apply (eqb_f (L:=L)). destruct n; [lra|].
      pose proof (schedule_tm (L:=L) _ _ _ Sc 0 (S n)) as H. specialize (H ltac:(lia)). lra. }
    destruct fuel; [lia|]. unfold get_survival_prob, credit_only.
    replace (is_credit (rc_cls c)) with true by (destruct K as [-> | ->]; reflexivity).
    replace (factor (S fuel) c (ds 0%nat) stop) with (marginal_loop fuel c (ds 0%nat) stop n1)
      by (cbn [factor]; cbv zeta; rewrite NE; destruct K as [-> | ->]; reflexivity).
    rewrite (marginal_loop_zero c tau v A n fuel ds stop n1); auto; [lia|]. right. eauto.
  Qed.
End Marginal.
Print Assumptions C72_certain_default.

(** a default is certain in the second year, seen from the first *)
Example C72_certain : exists c : rcurve R R (fperiod R),
  rc_new (DS:=FloatDates) (DC:=no_counts) CMargDefault [0; 1] [1 / 10; 1] None None DcDefault (Some (FP 1)) = Ok c /\
  get_survival_prob (DS:=FloatDates) (DC:=no_counts) 3 c 0 (3 / 2) = Ok 0.
Proof.
  pose proof fmin_small as F2. pose proof fmin_pos as F1.
  pose proof (float_additive (DC:=no_counts)) as A.
  assert (SD : survival_data CMargDefault [1 / 10; 1] = [9 / 10; fmin]).
  { unfold survival_data. cbn [is_default map]. rewrite !clamp_val.
    rewrite (Rmin_left (1 - 1 / 10)), (Rmin_left (1 - 1)) by lra.
    rewrite (Rmax_right fmin (1 - 1 / 10)), (Rmax_left fmin (1 - 1)) by lra.
    f_equal; lra. }
  destruct (rc_new_log (L:=float_laws) DcDefault _ A CMargDefault [0; 1] [1 / 10; 1] [9 / 10; fmin] None 0 (Some (FP 1)))
    as [c [E [B [V _]]]]; auto.
  { rewrite <- SD. now apply prepare_ok. } { repeat constructor; simpl; intuition lra. } { discriminate. }
  { simpl. intros y I. intuition lra. }
  exists c. split; auto. destruct B as (B1 & _ & _ & _ & _ & _ & B7 & _ & _ & B10).
  apply (C72_certain_default FloatDates _ no_counts float_laws c _ (fun d => if Rle_dec 1 d then fmin else 9 / 10) 1 1 (fun i => INR i)) with (fuel := 3%nat) (stop := 3 / 2) (1 := B10).
  - auto.
  - intros i Hi. unfold rc_tenor. rewrite B7. rewrite S_INR. split; [reflexivity|]. apply (ltb_t (L:=float_laws)). lra.
  - apply (ltb_t (L:=float_laws)). simpl. lra.
  - apply (leb_t (L:=float_laws)). simpl. lra.
  - intros [|[|i]] Hi; [| |lia].
    + simpl INR. destruct (Rle_dec 1 0); [lra|]. apply V. simpl; auto.
    + simpl INR. destruct (Rle_dec 1 1); [|lra]. apply V. simpl; auto.
  - lia.
  - simpl INR. destruct (Rle_dec 1 1); [|lra]. unfold Rdiv. change (/ IZR (2 ^ 1022)) with fmin. lra.
  - lia.
Qed.
