(** Property C121: basis point values of capped and floored legs along their forward curve
    (pricer.py:363-440, contingent.py:212-275, models/optionpricing.py:193-275). *)
From Coq Require Import Reals Lra Lia List Bool ZArith.
From Verif Require Import Num Py Spec SInterpolation SCurve SDates SRateCurve SOption SNormal SCashflow SPricer LBase MInterpolation MDates
  MCurve MRateCurve MOption MCashflow MBracket MPricer LSort LDates LInterpolation LCurve LCurve2 LDateCurve LRateCurve LRateCurve3 LMore LOption LCashflow
  LTable LExpect LPricer LPricer2 LPricer3 PCashflow PCashflow2 PRateCurve2 PPricer PPricer3 PBuckets2 POption PNormal PExpect PStrikes PCaps.
Import ListNotations.
Open Scope R_scope.

(** the same coupon with the forward rate higher by s *)
Definition lifted {D} (s : R) (q : caplet D) : caplet D :=
  mkCap D (cp_pay q) (cp_fix q) (cp_weight q) (cp_fwd q + s) (cp_vol q) (cp_time q).

Section CapDelta.
  Context {D P : Type} (DS : DateSys R D P) (tm : D -> R) (DC : DayCounts R D) (L : DateLaws DS tm).
  Implicit Types (h : heap R D P).

  (** the model of list i takes its forward rates from curve f, a curve of cash rates without
      spread, and nothing else from the curves *)
  Definition forward_from h (i f : nat) : Prop :=
    (exists fwd og, nth_error (h_curves h) f = Some fwd /\ rc_cls fwd = CCashRate /\ rc_spread fwd = None /\ rc_origin fwd = Some og) /\
    exists l j hm fm gc vo ct b, nth_error (h_lists h) i = Some (mkHL l (HModel j)) /\ nth_error (h_models h) j = Some hm /\
      forall cs c, nth_error cs f = Some c -> exists d, hm_model hm cs = mkOM fm gc d (FwRate c) vo ct b.

  Lemma due_lifted v s qs : still_due DS v (map (lifted s) qs) = map (lifted s) (still_due DS v qs).
  Proof. unfold still_due. induction qs as [|q qs IH]; auto. cbn [map filter lifted cp_pay]. destruct (d_leb v (cp_pay q)); cbn [map]; congruence. Qed.

  Lemma capped_lifted fuel flr h h' i k f v o dates amounts count fixing payo c floor cap m DF qs s :
    capped_leg DS tm DC fuel flr h i k v o dates amounts count fixing payo c floor cap m DF qs ->
    forward_from h i f -> k <> f -> shifted_by h [f] (fun _ => s) h' ->
    exists m', om_formula m' = om_formula m /\
      capped_leg DS tm DC fuel flr h' i k v o dates amounts count fixing payo c floor cap m' DF (map (lifted s) qs).
  Proof.
    intros [(l & j & hm & pm & HL & HN & HM & EM) HT ND FQ (disc & Hk & FD)] ((fwd & og & Hf & K & SP & OG) & l2 & j2 & hm2 & fm & gc & vo & ct & b & HL2 & HM2 & VIEW) NE (SM & SL & SO & SC).
    rewrite HL in HL2. injection HL2 as <- <-. rewrite HM in HM2. injection HM2 as <-.
    destruct (SC f fwd (or_introl eq_refl) Hf) as (sp & Hf' & _ & VS).
    set (fwd' := mkR (rc_cls fwd) (rc_dc fwd) (rc_tenor0 fwd) (Some sp)) in *.
    exists (model_view h' (mkHM (Some v) (hm_model hm))).
    destruct (VIEW (h_curves h) fwd Hf) as (d0 & V0). destruct (VIEW (h_curves h') fwd' Hf') as (d1 & V1).
    assert (E0 : m = mkOM fm gc (Some v) (FwRate fwd) vo ct b) by (rewrite EM; unfold model_view; cbn [hm_model hm_valuation]; now rewrite V0).
    assert (E1 : model_view h' (mkHM (Some v) (hm_model hm)) = mkOM fm gc (Some v) (FwRate fwd') vo ct b) by (unfold model_view; cbn [hm_model hm_valuation]; now rewrite V1).
    split; [now rewrite E0, E1|]. constructor; auto.
    - exists l, j, hm, pm. rewrite SL, SM. auto.
    - rewrite E1. rewrite E0 in FQ. clear -FQ VS K L. induction FQ as [|[[a e] n] q ps qs (Q & s' & e' & u & M1 & M2 & M3 & U & W & MK) F IH]; cbn [map]; constructor; auto.
      split; [exact Q|]. exists s', e', u. repeat (split; [assumption|]). destruct MK as (ov & OD & VV). exists ov. split; [|exact VV].
      cbn [lifted cp_fix cp_fwd cp_vol cp_time] in *. unfold om_details in *. cbn [om_forward om_vol fw_value] in *.
      replace (rc_cls fwd') with CCashRate by now cbn. rewrite K in OD. cbn [is_interest] in *.
      destruct (get_cash_rate fuel fwd (cp_fix q) None None) as [F0|] eqn:GC; [|discriminate]. cbn [rmap bind] in OD.
      assert (GC' : get_cash_rate fuel fwd' (cp_fix q) None None = Ok (F0 + s)).
      { unfold get_cash_rate, interest_only in *. replace (rc_cls fwd') with CCashRate by now cbn. rewrite K in GC. cbn [is_interest] in *.
        destruct fuel; [discriminate|]. cbn [cash_rate] in *. replace (rc_cls fwd') with CCashRate by now cbn. rewrite K in GC.
        change (rc_tenor fwd') with (rc_tenor fwd). destruct (d_add (cp_fix q) (rc_tenor fwd)) as [te|] eqn:TE; cbn [bind] in *; [|discriminate].
        rewrite ?TE in *. cbn [bind] in *. rewrite (eqb_refl (L:=L)) in GC |- *. now apply VS. }
      rewrite GC'. cbn [rmap bind].
      destruct (vo_value fuel flr vo (cp_fix q)) as [vv|]; [|discriminate]. cbn [bind] in *.
      assert (TM : om_time (mkOM fm gc (Some v) (FwRate fwd') vo ct b) (cp_fix q) = om_time (mkOM fm gc (Some v) (FwRate fwd) vo ct b) (cp_fix q)) by reflexivity.
      rewrite TM. destruct (om_time _ _) as [t0|]; [|discriminate]. cbn [bind] in *. injection OD as A1 A2 A3 A4. rewrite A1, A3, A4. reflexivity.
    - exists disc. split; [|exact FD]. rewrite SO; [exact Hk|]. intros [Q|[]]; congruence.
  Qed.

  Lemma live_mean fm F v t : 0 < t \/ no_time_value v t -> expectation (PStrikes.forward_at fm F v t) F.
  Proof.
    intros [T | NT]; [now apply forward_mean|]. generalize (expectation_const F). apply expectation_ext. intros z. now rewrite still_forward.
  Qed.
  Lemma collared_lift floor cap x y : x <= y -> collared floor cap x <= collared floor cap y <= collared floor cap x + (y - x).
  Proof. unfold collared, Rmax, Rmin. destruct floor, cap; intros; repeat destruct Rle_dec; lra. Qed.
  Lemma expected_lift floor cap fm F F' v t e e' : 0 < t \/ no_time_value v t -> F <= F' ->
    expectation (fun z => collared floor cap (PStrikes.forward_at fm F v t z)) e ->
    expectation (fun z => collared floor cap (PStrikes.forward_at fm F' v t z)) e' -> e <= e' <= e + (F' - F).
  Proof.
    intros LV LE E E'. pose proof (fun z => forward_mono fm F F' v t z LE) as MO. split.
    - refine (expectation_le _ _ _ _ _ E E'). intros z. now apply collared_lift.
    - pose proof (expectation_lin _ _ _ _ 1 1 E (expectation_lin _ _ _ _ (-1) 1 (live_mean fm F v t LV) (live_mean fm F' v t LV))) as B.
      apply Rle_trans with (1 * e + 1 * (-1 * F + 1 * F')); [|lra]. refine (expectation_le _ _ _ _ _ E' B). intros z. cbv beta.
      destruct (collared_lift floor cap _ _ (MO z)). lra.
  Qed.
  Lemma ratio_lift floor cap fm F s v t e e' : 0 < t \/ no_time_value v t -> s <> 0 ->
    expectation (fun z => collared floor cap (PStrikes.forward_at fm F v t z)) e ->
    expectation (fun z => collared floor cap (PStrikes.forward_at fm (F + s) v t z)) e' -> 0 <= (e' - e) / s <= 1.
  Proof.
    intros LV NZ E E'. destruct (Rtotal_order s 0) as [N | [Z | PZ]]; [|contradiction|].
    - destruct (expected_lift floor cap fm (F + s) F v t e' e LV ltac:(lra) E' E). replace ((e' - e) / s) with ((e - e') / - s) by (field; lra).
      split; [apply Rmult_le_pos; [lra|left; apply Rinv_0_lt_compat; lra]|]. apply Rmult_le_reg_r with (- s); [lra|]. unfold Rdiv. rewrite Rmult_assoc, Rinv_l by lra. lra.
    - destruct (expected_lift floor cap fm F (F + s) v t e e' LV ltac:(lra) E E').
      split; [apply Rmult_le_pos; [lra|left; apply Rinv_0_lt_compat; lra]|]. apply Rmult_le_reg_r with s; [lra|]. unfold Rdiv. rewrite Rmult_assoc, Rinv_l by lra. lra.
  Qed.

  (** what can be valued before and after the shift; discounted accruals are not negative *)
  Definition shiftable (DF : D -> R) fm (floor cap : option R) (s : R) (q : caplet D) : Prop :=
    0 <= DF (cp_pay q) * cp_weight q /\ live q /\
    valuable fm q floor /\ valuable fm q cap /\ valuable fm (lifted s q) floor /\ valuable fm (lifted s q) cap.
  Definition shift_accuracy fm (floor cap : option R) (s : R) (q : caplet D) : R :=
    (accuracy fm q floor + accuracy fm q cap + accuracy fm (lifted s q) floor + accuracy fm (lifted s q) cap) / Rabs s.

  (** * C121: the basis point value of the leg along its forward curve is that of the plain
      leg plus that of the floorlets minus that of the caplets, and lies between zero and that
      of the plain leg, which is a ten thousandth of its discounted accruals, up to the
      accuracy of the model *)
  Theorem C121_forward_delta : forall fuel flr h i k f v o dates amounts count fixing payo c floor cap m DF qs shift,
    capped_leg DS tm DC fuel flr h i k v o dates amounts count fixing payo c floor cap m DF qs ->
    forward_from h i f -> k <> f -> shift <> 0 -> ordered floor cap ->
    (forall q, In q (still_due DS v qs) -> shiftable DF (om_formula m) floor cap shift q) ->
    let tol := leg_value DF (shift_accuracy (om_formula m) floor cap shift) (still_due DS v qs) / 10000 in
    exists x, returns (get_basis_point_value fuel flr (PrList i) k (Some v) (Some [f]) shift) h x /\
      - tol <= x <= leg_value DF (fun _ => 1) (still_due DS v qs) / 10000 + tol.
  Proof.
    intros fuel flr h i k f v o dates amounts count fixing payo c floor cap m DF qs shift CL FF NE NZ O HV tol.
    assert (PC : plain_curves h (deltas k (Some [f]))).
    { destruct FF as ((fwd & og & Hf & K & SP & OG) & _). split; [repeat constructor; intros []|]. intros j [<-|[]]. eauto. }
    destruct (C48_value DS DC tm L fuel flr (PrList i) k (Some v) (Some [f]) shift h PC NZ) as (h1 & SB & BPV).
    change (deltas k (Some [f])) with [f] in SB.
    destruct (capped_lifted _ _ _ _ _ _ _ _ _ _ _ _ _ _ _ _ _ _ _ _ _ CL FF NE SB) as (m' & FM & CL').
    pose proof (due_market DS tm DC L _ _ _ _ _ _ _ _ _ _ _ _ _ _ _ _ _ _ CL) as MK.
    pose proof (due_market DS tm DC L _ _ _ _ _ _ _ _ _ _ _ _ _ _ _ _ _ _ CL') as MK'. rewrite due_lifted in MK'.
    assert (CE : forall q, In q (still_due DS v qs) -> exists e,
      (match floor with Some a => get_put_value fuel flr m (cp_fix q) (Some a) = Ok (floorlet_value DS DC fuel flr m floor q) | None => floorlet_value DS DC fuel flr m floor q = 0 end /\
       match cap with Some b => get_call_value fuel flr m (cp_fix q) (Some b) = Ok (caplet_value DS DC fuel flr m cap q) | None => caplet_value DS DC fuel flr m cap q = 0 end) /\
      expectation (fun z => collared floor cap (PStrikes.forward_at (om_formula m) (cp_fwd q) (cp_vol q) (cp_time q) z)) e /\
      Rabs (cp_fwd q + floorlet_value DS DC fuel flr m floor q - caplet_value DS DC fuel flr m cap q - e) <= accuracy (om_formula m) q floor + accuracy (om_formula m) q cap).
    { intros q I. destruct (HV q I) as (_ & LV & V1 & V2 & _). destruct (coupon_expected DS DC fuel flr m floor cap q (MK q I) O LV V1 V2) as (A & e & B). eauto. }
    assert (CE' : forall q, In q (still_due DS v qs) -> exists e,
      (match floor with Some a => get_put_value fuel flr m' (cp_fix (lifted shift q)) (Some a) = Ok (floorlet_value DS DC fuel flr m' floor (lifted shift q)) | None => floorlet_value DS DC fuel flr m' floor (lifted shift q) = 0 end /\
       match cap with Some b => get_call_value fuel flr m' (cp_fix (lifted shift q)) (Some b) = Ok (caplet_value DS DC fuel flr m' cap (lifted shift q)) | None => caplet_value DS DC fuel flr m' cap (lifted shift q) = 0 end) /\
      expectation (fun z => collared floor cap (PStrikes.forward_at (om_formula m) (cp_fwd q + shift) (cp_vol q) (cp_time q) z)) e /\
      Rabs (cp_fwd q + shift + floorlet_value DS DC fuel flr m' floor (lifted shift q) - caplet_value DS DC fuel flr m' cap (lifted shift q) - e) <=
        accuracy (om_formula m) (lifted shift q) floor + accuracy (om_formula m) (lifted shift q) cap).
    { intros q I. destruct (HV q I) as (_ & LV & _ & _ & V1 & V2). rewrite <- FM in *.
      destruct (coupon_expected DS DC fuel flr m' floor cap (lifted shift q) (MK' _ (in_map _ _ _ I)) O LV V1 V2) as (A & e & B). eauto. }
    eexists. split.
    { apply BPV. eexists. eexists. split; [|split; [|reflexivity]].
      - eapply C118_decomposition; [exact L|exact CL|]. intros q I. destruct (CE q I) as (e & A & _). exact A.
      - eapply C118_decomposition; [exact L|exact CL'|]. intros q I. rewrite due_lifted in I. apply in_map_iff in I. destruct I as (q0 & <- & I).
        destruct (CE' q0 I) as (e & A & _). exact A. }
    rewrite due_lifted.
    assert (AS : 0 < Rabs shift) by now apply Rabs_pos_lt.
    assert (G : forall ql, (forall q, In q ql -> In q (still_due DS v qs)) ->
      - leg_value DF (shift_accuracy (om_formula m) floor cap shift) ql <=
      ((leg_value DF (fun q => cp_fwd q + c) (map (lifted shift) ql) + leg_value DF (floorlet_value DS DC fuel flr m' floor) (map (lifted shift) ql)
        - leg_value DF (caplet_value DS DC fuel flr m' cap) (map (lifted shift) ql)) -
       (leg_value DF (fun q => cp_fwd q + c) ql + leg_value DF (floorlet_value DS DC fuel flr m floor) ql - leg_value DF (caplet_value DS DC fuel flr m cap) ql)) / shift
      <= leg_value DF (fun _ => 1) ql + leg_value DF (shift_accuracy (om_formula m) floor cap shift) ql).
    { intros ql. unfold leg_value. induction ql as [|q ql IH]; intros SUB; cbn [map Rsum].
      - replace ((0 + 0 - 0 - (0 + 0 - 0)) / shift) with 0 by (field; auto). lra.
      - specialize (IH (fun q' I => SUB q' (or_intror I))). destruct (CE q (SUB q (or_introl eq_refl))) as (e & _ & E & A). destruct (CE' q (SUB q (or_introl eq_refl))) as (e' & _ & E' & A').
        destruct (HV q (SUB q (or_introl eq_refl))) as (W & LV & _).
        pose proof (ratio_lift floor cap (om_formula m) (cp_fwd q) shift (cp_vol q) (cp_time q) e e' LV NZ E E') as RL.
        cbn [lifted cp_pay cp_weight cp_fwd] in *. fold (lifted shift q) in *.
        set (B := DF (cp_pay q) * cp_weight q) in *.
        set (a := cp_fwd q + floorlet_value DS DC fuel flr m floor q - caplet_value DS DC fuel flr m cap q - e) in *.
        set (a' := cp_fwd q + shift + floorlet_value DS DC fuel flr m' floor (lifted shift q) - caplet_value DS DC fuel flr m' cap (lifted shift q) - e') in *.
        match goal with |- - (_ + ?s1) <= ?g <= _ => match type of IH with _ <= ?r <= _ =>
          replace g with (B * ((e' - e) / shift + (a' - a) / shift) + r) by (unfold a, a', Rdiv; ring) end end.
        assert (Q : - shift_accuracy (om_formula m) floor cap shift q <= (a' - a) / shift <= shift_accuracy (om_formula m) floor cap shift q).
        { assert (RB : Rabs ((a' - a) / shift) <= shift_accuracy (om_formula m) floor cap shift q); [|pose proof (Rle_abs ((a' - a) / shift)) as Z1; pose proof (Rle_abs (- ((a' - a) / shift))) as Z2; rewrite Rabs_Ropp in Z2; lra].
          unfold shift_accuracy, Rdiv. rewrite Rabs_mult, Rabs_inv. apply Rmult_le_compat_r; [left; now apply Rinv_0_lt_compat|].
          unfold Rminus. eapply Rle_trans; [apply Rabs_triang|]. rewrite Rabs_Ropp. lra. }
        assert (B * - shift_accuracy (om_formula m) floor cap shift q <= B * ((e' - e) / shift + (a' - a) / shift)) by (apply Rmult_le_compat_l; [exact W|lra]).
        assert (B * ((e' - e) / shift + (a' - a) / shift) <= B * (1 + shift_accuracy (om_formula m) floor cap shift q)) by (apply Rmult_le_compat_l; [exact W|lra]).
        lra. }
    specialize (G _ (fun q I => I)). unfold tol. lra.
  Qed.

  (** floor and cap at the same strike: no delta at all, for every model and shift *)
  Theorem C121_locked : forall fuel flr h i k f v o dates amounts count fixing payo c K m DF qs shift,
    capped_leg DS tm DC fuel flr h i k v o dates amounts count fixing payo c (Some K) (Some K) m DF qs ->
    forward_from h i f -> k <> f -> shift <> 0 ->
    (forall q, In q (still_due DS v qs) -> valuable (om_formula m) q (Some K) /\ valuable (om_formula m) (lifted shift q) (Some K)) ->
    returns (get_basis_point_value fuel flr (PrList i) k (Some v) (Some [f]) shift) h 0.
  Proof.
    intros fuel flr h i k f v o dates amounts count fixing payo c K m DF qs shift CL FF NE NZ HP.
    assert (PC : plain_curves h (deltas k (Some [f]))).
    { destruct FF as ((fwd & og & Hf & KC & SP & OG) & _). split; [repeat constructor; intros []|]. intros j [<-|[]]. eauto. }
    destruct (C48_value DS DC tm L fuel flr (PrList i) k (Some v) (Some [f]) shift h PC NZ) as (h1 & SB & BPV).
    change (deltas k (Some [f])) with [f] in SB.
    destruct (capped_lifted _ _ _ _ _ _ _ _ _ _ _ _ _ _ _ _ _ _ _ _ _ CL FF NE SB) as (m' & FM & CL').
    apply BPV. eexists. eexists. split; [|split].
    - eapply C118_locked; [exact L|exact CL|]. intros q I. pose proof (due_market DS tm DC L _ _ _ _ _ _ _ _ _ _ _ _ _ _ _ _ _ _ CL q I) as MK.
      destruct (option_expectations DS DC _ _ _ _ _ MK (proj1 (HP q I))) as (y & x & ey & ex & _ & E & _). eauto.
    - eapply C118_locked; [exact L|exact CL'|]. intros q I. pose proof (due_market DS tm DC L _ _ _ _ _ _ _ _ _ _ _ _ _ _ _ _ _ _ CL' q I) as MK.
      rewrite due_lifted in I. apply in_map_iff in I. destruct I as (q0 & <- & I).
      destruct (option_expectations DS DC _ _ _ _ K MK) as (y & x & ey & ex & _ & E & _); [|eauto]. rewrite FM. apply (HP q0 I).
    - rewrite due_lifted. unfold leg_value. rewrite map_map. cbn [lifted cp_pay cp_weight]. field. exact NZ.
  Qed.
End CapDelta.
Print Assumptions C121_forward_delta.
Print Assumptions C121_locked.

(** the collar of C118 with forward rates from a curve of half-year cash rates, flat 3% *)
#[local] Instance no_names : DayCounts R R := [].
Definition curve_model (cs : list (rcurve R R (fperiod R))) : omodel R R (fperiod R) :=
  mkOM FLogNormal default_gconst None (match nth_error cs 1 with Some c => FwRate c | None => FwNone end) (VoNum (1 / 5)) None false.
Example C121_instance : exists (h : heap R R (fperiod R)) DF qs m n,
  capped_leg FloatDates (fun x => x) no_names n None h 0 0 (1 / 4) (1 / 2) [1; 3 / 2] [100; 100] DcDefault None None 0 (Some (1 / 100)) (Some (4 / 100)) m DF qs /\
  forward_from h 0 1 /\ still_due FloatDates (1 / 4) qs = qs /\ length qs = 2%nat /\
  (forall q, In q qs -> shiftable DF (om_formula m) (Some (1 / 100)) (Some (4 / 100)) (1 / 10000) q) /\
  exists x, returns (get_basis_point_value n None (PrList 0) 0 (Some (1 / 4)) (Some [1%nat]) (1 / 10000)) h x.
Proof.
  destruct (flat_zero (DC := no_names) (L:=float_laws) 0 (5 / 100) None) as (disc & ED & OD & _ & DF).
  destruct (single_curve (DC := no_names) (L:=float_laws) DcDefault _ CCashRate 0 (3 / 100) (Some (FP (1 / 2))) None 0 (default_additive (L:=float_laws)) eq_refl eq_refl)
    as (c & EC & BC & VC).
  destruct BC as (C_1 & C_2 & C_3 & C_4 & C_5 & C_6 & C_7 & C_8 & C_9 & C_10).
  assert (TR : forall x : R, x <> 0 -> ntruthy x = true) by (intros x X; unfold ntruthy; cbn; unfold Reqb; destruct (Req_EM_T x 0); [lra|reflexivity]).
  assert (OL : exists l, contrate_new (DS := FloatDates (T:=R)) [1; 3 / 2] (Many [100; 100]) (Some (1 / 2)) DcDefault None None 0 (Some (4 / 100)) (Some (1 / 100)) (PmSource FwNone) = Ok l).
  { unfold contrate_new. cbn [cont_start_dates d_truthy FloatDates]. rewrite TR by lra. eexists. reflexivity. }
  destruct OL as (l & EL). set (h := mkH [disc; c] [mkHM None curve_model] [mkHL l (HModel 0)]).
  set (m := model_view h (mkHM (Some (1 / 4)) curve_model)).
  assert (CL : capped_leg FloatDates (fun x => x) no_names 2 None h 0 0 (1 / 4) (1 / 2) [1; 3 / 2] [100; 100] DcDefault None None 0 (Some (1 / 100)) (Some (4 / 100))
    m (fun e => exp (- (5 / 100 * (e - 1 / 4))))
    [mkCap R 1 (1 / 2) 50 (3 / 100) (1 / 5) (1 / 2 - 1 / 4); mkCap R (3 / 2) 1 50 (3 / 100) (1 / 5) (1 - 1 / 4)]).
  { assert (MK : forall d, market 2 None m d None (3 / 100) (3 / 100) (1 / 5) (d - 1 / 4)).
    { intros d. exists (Some (1 / 5)). split; [|now left]. unfold m, model_view, curve_model, om_details, h. cbn [h_curves nth_error om_forward om_vol hm_model hm_valuation fw_value vo_value bind rmap].
      rewrite C_1. cbn [is_interest].
      destruct (C24_cash_rate_curve FloatDates (fun x => x) no_names float_laws c d (d + 1 / 2) (3 / 100) 1 C_1) as [G _].
      - unfold rc_tenor. rewrite C_7. reflexivity.
      - apply VC.
      - rewrite G. cbn [rmap bind]. rewrite TR by lra. cbn [bind].
        match goal with |- (t <- ?T ;; _) = _ => replace T with (Ok (d - 1 / 4) : res R); [reflexivity|] end.
        unfold om_time. cbn [om_count om_vol vo_count om_forward fw_count om_valuation]. symmetry. apply C_4. }
    constructor.
    - exists l, 0%nat, (mkHM None curve_model), (PmSource FwNone). repeat split; auto.
    - apply TR. lra.
    - simpl. repeat constructor; simpl; intuition lra.
    - constructor; [|constructor; [|constructor]].
      + split; [reflexivity|]. exists (1 / 2), 1, (1 - 1 / 2). repeat (split; [reflexivity|]). split; [cbn; lra|]. apply MK.
      + split; [reflexivity|]. exists 1, (3 / 2), (3 / 2 - 1). repeat (split; [reflexivity|]). split; [cbn; lra|]. apply MK.
    - exists disc. split; [reflexivity|]. intros e _ _. apply DF. }
  assert (FF : forward_from h 0 1).
  { split; [exists c, 0; repeat split; auto|]. exists l, 0%nat, (mkHM None curve_model). do 5 eexists. split; [reflexivity|]. split; [reflexivity|].
    intros cs c' E. exists None. cbn [hm_model]. unfold curve_model. rewrite E. reflexivity. }
  assert (LT : forall a b : R, a <= b -> d_leb (DateSys := FloatDates (T:=R)) a b = true) by (intros; now apply (leb_t (L:=float_laws))).
  match type of CL with capped_leg _ _ _ _ _ _ _ _ _ _ _ _ _ _ _ _ _ _ _ _ ?qs => assert (SD : still_due FloatDates (1 / 4) qs = qs) end.
  { unfold still_due. cbn [filter cp_pay]. rewrite !(LT (1 / 4)) by lra. reflexivity. }
  match type of CL with capped_leg _ _ _ _ _ _ _ _ _ _ _ _ _ _ _ _ _ _ _ ?DF0 ?qs =>
    assert (SH : forall q, In q qs -> shiftable DF0 (om_formula m) (Some (1 / 100)) (Some (4 / 100)) (1 / 10000) q) end.
  { intros q [<- |[<- |[]]]; (split; [cbn [cp_pay cp_weight]; apply Rmult_le_pos; [left; apply exp_pos|lra]|]).
    all: split; [left; cbn; lra|]. all: repeat split; left; cbn; repeat split; lra. }
  exists h. do 4 eexists. split; [exact CL|]. split; [exact FF|]. split; [exact SD|]. split; [reflexivity|]. split; [exact SH|].
  destruct (C121_forward_delta FloatDates (fun x => x) no_names float_laws _ _ _ _ _ 1 _ _ _ _ _ _ _ _ _ _ _ _ _ (1 / 10000) CL FF) as (x & RX & _).
  { discriminate. } { lra. } { cbn. lra. } { rewrite SD. exact SH. } { exists x. exact RX. }
Qed.
