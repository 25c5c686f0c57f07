(** Property C122: basis point values of capped and floored legs along their volatility curve
    (pricer.py:363-440, contingent.py:212-275, models/optionpricing.py:193-275,
    curves/volatilitycurve.py:67-103). *)
From Coq Require Import Reals Lra Lia List Bool ZArith.
From Verif Require Import Num Py Spec SInterpolation SCurve SDates SRateCurve SOption SNormal SCashflow SPricer LBase MInterpolation MDates
  MCurve MRateCurve MOption MCashflow MBracket MPricer LSort LDates LInterpolation LCurve LCurve2 LDateCurve LRateCurve LRateCurve3 LMore LOption LCashflow
  LTable LExpect LPricer LPricer2 LPricer3 PCashflow PCashflow2 PRateCurve2 PPricer PPricer3 PBuckets2 POption PNormal PExpect PStrikes PCaps PCapDelta.
Import ListNotations.
Open Scope R_scope.

(** the same coupon with the volatility higher by s *)
Definition stirred {D} (s : R) (q : caplet D) : caplet D :=
  mkCap D (cp_pay q) (cp_fix q) (cp_weight q) (cp_fwd q) (cp_vol q + s) (cp_time q).

Section Vega.
  Context {D P : Type} (DS : DateSys R D P) (tm : D -> R) (DC : DayCounts R D) (L : DateLaws DS tm).
  Implicit Types (h : heap R D P).

  (** the model of list i takes its volatilities from curve f, a curve of terminal
      volatilities without spread, and does not use curve f otherwise *)
  Definition vol_from h (i f : nat) : Prop :=
    (exists vol og, nth_error (h_curves h) f = Some vol /\ rc_cls vol = CTermVol /\ rc_spread vol = None /\ rc_origin vol = Some og) /\
    exists l j hm fm gc fw ct b, nth_error (h_lists h) i = Some (mkHL l (HModel j)) /\ nth_error (h_models h) j = Some hm /\
      forall cs c, nth_error cs f = Some c -> (forall g, g <> f -> nth_error cs g = nth_error (h_curves h) g) ->
        exists d, hm_model hm cs = mkOM fm gc d fw (VoRate c) ct b.

  Lemma due_stirred v s qs : still_due DS v (map (stirred s) qs) = map (stirred s) (still_due DS v qs).
  Proof. unfold still_due. induction qs as [|q qs IH]; auto. cbn [map filter stirred cp_pay]. destruct (d_leb v (cp_pay q)); cbn [map]; congruence. Qed.

  Lemma capped_stirred fuel flr h h' i k f v o dates amounts count fixing payo c floor cap m DF qs s :
    capped_leg DS tm DC fuel flr h i k v o dates amounts count fixing payo c floor cap m DF qs ->
    vol_from h i f -> k <> f -> shifted_by h [f] (fun _ => s) h' ->
    exists m', om_formula m' = om_formula m /\
      capped_leg DS tm DC fuel flr h' i k v o dates amounts count fixing payo c floor cap m' DF (map (stirred s) qs).
  Proof.
    intros [(l & j & hm & pm & HL & HN & HM & EM) HT ND FQ (disc & Hk & FD)] ((vol & og & Hf & K & SP & OG) & l2 & j2 & hm2 & fm & gc & fw & ct & b & HL2 & HM2 & VIEW) NE (SM & SL & SO & SC).
    rewrite HL in HL2. injection HL2 as <- <-. rewrite HM in HM2. injection HM2 as <-.
    destruct (SC f vol (or_introl eq_refl) Hf) as (sp & Hf' & _ & VS).
    set (vol' := mkR (rc_cls vol) (rc_dc vol) (rc_tenor0 vol) (Some sp)) in *.
    exists (model_view h' (mkHM (Some v) (hm_model hm))).
    destruct (VIEW (h_curves h) vol Hf) as (d0 & V0); [reflexivity|].
    destruct (VIEW (h_curves h') vol' Hf') as (d1 & V1). { intros g G. apply SO. intros [Q|[]]. congruence. }
    assert (E0 : m = mkOM fm gc (Some v) fw (VoRate vol) ct b) by (rewrite EM; unfold model_view; cbn [hm_model hm_valuation]; now rewrite V0).
    assert (E1 : model_view h' (mkHM (Some v) (hm_model hm)) = mkOM fm gc (Some v) fw (VoRate vol') ct b) by (unfold model_view; cbn [hm_model hm_valuation]; now rewrite V1).
    split; [now rewrite E0, E1|]. constructor; auto.
    - exists l, j, hm, pm. rewrite SL, SM. auto.
    - rewrite E1. rewrite E0 in FQ. clear -FQ VS K L. induction FQ as [|[[a e] n] q ps qs (Q & s' & e' & u & M1 & M2 & M3 & U & W & MK) F IH]; cbn [map]; constructor; auto.
      split; [exact Q|]. exists s', e', u. repeat (split; [assumption|]). destruct MK as (ov & OD & VV).
      cbn [stirred cp_fix cp_fwd cp_vol cp_time] in *. exists (Some (cp_vol q + s)). split; [|now left].
      unfold om_details in *. cbn [om_forward om_vol] in *.
      destruct (fw_value fuel fw (cp_fix q)) as [fv|]; [|discriminate]. cbn [bind] in *.
      cbn [vo_value] in *. replace (rc_cls vol') with CTermVol by now cbn. rewrite K in OD. cbn [is_vol] in *.
      destruct fuel; [discriminate|]. cbn [terminal_vol] in *. replace (rc_cls vol') with CTermVol by now cbn. rewrite K in OD.
      destruct (rc_call vol (cp_fix q)) as [x|] eqn:CV; [|discriminate]. rewrite (VS _ _ CV). cbn [rmap bind] in *.
      assert (TM : om_time (mkOM fm gc (Some v) fw (VoRate vol') ct b) (cp_fix q) = om_time (mkOM fm gc (Some v) fw (VoRate vol) ct b) (cp_fix q)) by reflexivity.
      rewrite TM. destruct (om_time _ _) as [t0|]; [|discriminate]. cbn [bind] in *. injection OD as A1 A2 A3 A4. rewrite A1, A4.
      destruct VV as [-> | [-> _]]; [|discriminate]. injection A3 as ->. rewrite ?A2. reflexivity.
    - exists disc. split; [|exact FD]. rewrite SO; [exact Hk|]. intros [Q|[]]; congruence.
  Qed.

  (** expected payoffs grow with the volatility *)
  Lemma expected_stirred fm (q : caplet D) K s ey ex ey' ex' : 0 < s -> live q ->
    valuable fm q (Some K) -> valuable fm (stirred s q) (Some K) -> 0 <= cp_vol q ->
    expectation (fun z => call_payoff K (PStrikes.forward_at fm (cp_fwd q) (cp_vol q) (cp_time q) z)) ey ->
    expectation (fun z => put_payoff K (PStrikes.forward_at fm (cp_fwd q) (cp_vol q) (cp_time q) z)) ex ->
    expectation (fun z => call_payoff K (PStrikes.forward_at fm (cp_fwd q) (cp_vol q + s) (cp_time q) z)) ey' ->
    expectation (fun z => put_payoff K (PStrikes.forward_at fm (cp_fwd q) (cp_vol q + s) (cp_time q) z)) ex' -> ey <= ey' /\ ex <= ex'.
  Proof.
    intros S LV V V' NN Y X Y' X'. set (F := cp_fwd q) in *. set (w := cp_vol q) in *. set (t := cp_time q) in *.
    assert (M : expectation (PStrikes.forward_at fm F w t) F) by now apply live_mean.
    assert (M' : expectation (PStrikes.forward_at fm F (w + s) t) F).
    { apply live_mean. destruct LV as [T | [Z | Z]]; auto; [|right; now right]. destruct V' as [(_ & T & _) | NT]; [now left|now right]. }
    assert (PA : forall g y x, expectation (fun z => call_payoff K (g z)) y -> expectation (fun z => put_payoff K (g z)) x -> expectation g F -> y - x = F - K).
    { intros g y x A B C. replace (y - x) with (1 * y + -1 * x) by ring. replace (F - K) with (1 * F + -1 * K) by ring.
      refine (expectation_unique _ _ _ (expectation_lin _ _ _ _ 1 (-1) A B) _). generalize (expectation_lin _ _ _ _ 1 (-1) C (expectation_const K)).
      apply expectation_ext. intros z. cbv beta. unfold call_payoff, put_payoff, Rmax. repeat destruct Rle_dec; lra. }
    pose proof (PA _ _ _ Y X M) as Q. pose proof (PA _ _ _ Y' X' M') as Q'.
    assert (B : ey <= ey'); [|split; lra].
    destruct V as [PR | NT].
    - destruct V' as [PR' | [Z | Z]]; [| |].
      + destruct the_distribution as [N HN]. pose proof PR as (Hv & Ht & O). pose proof PR' as (Hv' & _).
        cbn [stirred cp_vol cp_fwd cp_time] in *. fold F w t in PR, PR', Hv, Ht, Hv', O.
        rewrite (vanilla_closed N _ _ _ _ _ _ HN PR Y), (vanilla_closed N _ _ _ _ _ _ HN PR' Y').
        assert (SQ : 0 < sqrt t) by now apply sqrt_lt_R0.
        assert (A1 : 0 < w * sqrt t) by (apply Rmult_lt_0_compat; auto). assert (A2 : w * sqrt t < (w + s) * sqrt t) by (apply Rmult_lt_compat_r; lra).
        left. destruct fm; try contradiction; cbn.
        * apply bach_grows; auto.
        * destruct O. apply blk_grows; auto.
        * destruct O. apply blk_grows; auto.
      + cbn [stirred cp_vol] in Z. fold w in Z. lra.
      + destruct PR as (_ & T & _). cbn [stirred cp_time] in Z. rewrite Z in T. lra.
    - assert (E : ey = call_payoff K F).
      { refine (expectation_unique _ _ _ Y _). generalize (expectation_const (call_payoff K F)). apply expectation_ext. intros z. now rewrite still_forward. }
      assert (G1 : 0 <= ey'). { refine (expectation_le _ _ _ _ _ (expectation_const 0) Y'). intros z. unfold call_payoff, Rmax. destruct Rle_dec; lra. }
      assert (G2 : 1 * F + -1 * K <= ey').
      { refine (expectation_le _ _ _ _ _ (expectation_lin _ _ _ _ 1 (-1) M' (expectation_const K)) Y'). intros z. cbv beta. unfold call_payoff, Rmax. destruct Rle_dec; lra. }
      rewrite E. unfold call_payoff, Rmax. destruct Rle_dec; lra.
  Qed.
  Lemma stirred_back s (q : caplet D) : stirred (- s) (stirred s q) = q.
  Proof. destruct q. unfold stirred. cbn. f_equal. ring. Qed.
  Lemma ratio_stirred fm (q : caplet D) K s ey ex ey' ex' : s <> 0 -> live q ->
    valuable fm q (Some K) -> valuable fm (stirred s q) (Some K) -> 0 <= cp_vol q -> 0 <= cp_vol q + s ->
    expectation (fun z => call_payoff K (PStrikes.forward_at fm (cp_fwd q) (cp_vol q) (cp_time q) z)) ey ->
    expectation (fun z => put_payoff K (PStrikes.forward_at fm (cp_fwd q) (cp_vol q) (cp_time q) z)) ex ->
    expectation (fun z => call_payoff K (PStrikes.forward_at fm (cp_fwd q) (cp_vol q + s) (cp_time q) z)) ey' ->
    expectation (fun z => put_payoff K (PStrikes.forward_at fm (cp_fwd q) (cp_vol q + s) (cp_time q) z)) ex' ->
    0 <= (ey' - ey) / s /\ 0 <= (ex' - ex) / s.
  Proof.
    intros NZ LV V V' N N' Y X Y' X'. destruct (Rtotal_order s 0) as [S | [S | S]]; [|contradiction|].
    - assert (LV' : live (stirred s q)).
      { unfold live in *. cbn [stirred cp_time cp_vol]. destruct LV as [T | [Z | Z]]; [now left|lra|right; now right]. }
      assert (W : cp_vol q + s + - s = cp_vol q) by ring.
      destruct (expected_stirred fm (stirred s q) K (- s) ey' ex' ey ex) as [A B]; auto; try lra;
        try (rewrite stirred_back; exact V); cbn [stirred cp_vol cp_fwd cp_time]; rewrite ?W; auto.
      replace ((ey' - ey) / s) with ((ey - ey') * / - s) by (field; lra). replace ((ex' - ex) / s) with ((ex - ex') * / - s) by (field; lra).
      split; (apply Rmult_le_pos; [lra|left; apply Rinv_0_lt_compat; lra]).
    - destruct (expected_stirred fm q K s ey ex ey' ex' S LV V V' N Y X Y' X') as [A B].
      split; (apply Rmult_le_pos; [lra|left; apply Rinv_0_lt_compat; lra]).
  Qed.

  (** what can be valued before and after the shift; discounted accruals are not negative *)
  Definition stirrable (DF : D -> R) fm (floor cap : option R) (s : R) (q : caplet D) : Prop :=
    0 <= DF (cp_pay q) * cp_weight q /\ live q /\ 0 <= cp_vol q /\ 0 <= cp_vol q + s /\
    valuable fm q floor /\ valuable fm q cap /\ valuable fm (stirred s q) floor /\ valuable fm (stirred s q) cap.
  Definition stir_accuracy fm (s : R) (K : option R) (q : caplet D) : R := (accuracy fm q K + accuracy fm (stirred s q) K) / Rabs s.

  Lemma ratio_accuracy a a' b b' s : s <> 0 -> Rabs a <= b -> Rabs a' <= b' -> - ((b + b') / Rabs s) <= (a' - a) / s <= (b + b') / Rabs s.
  Proof.
    intros NZ A A'. assert (AS : 0 < Rabs s) by now apply Rabs_pos_lt.
    assert (RB : Rabs ((a' - a) / s) <= (b + b') / Rabs s).
    { unfold Rdiv. rewrite Rabs_mult, Rabs_inv. apply Rmult_le_compat_r; [left; now apply Rinv_0_lt_compat|].
      unfold Rminus. eapply Rle_trans; [apply Rabs_triang|]. rewrite Rabs_Ropp. lra. }
    pose proof (Rle_abs ((a' - a) / s)) as Z1. pose proof (Rle_abs (- ((a' - a) / s))) as Z2. rewrite Rabs_Ropp in Z2. lra.
  Qed.

  Lemma leg_stirred DF x s qs : leg_value DF x (map (stirred s) qs) = leg_value DF (fun q : caplet D => x (stirred s q)) qs.
  Proof. unfold leg_value. rewrite map_map. reflexivity. Qed.
  Lemma ratio_sum DF (g a a' b b' : caplet D -> R) s qs : s <> 0 ->
    leg_value DF (fun q => (a' q - a q) / s) qs / 10000 - leg_value DF (fun q => (b' q - b q) / s) qs / 10000 =
    ((leg_value DF g qs + leg_value DF a' qs - leg_value DF b' qs) - (leg_value DF g qs + leg_value DF a qs - leg_value DF b qs)) / s * (1 / 10000).
  Proof.
    intros NZ. assert (E : forall x x' : caplet D -> R, leg_value DF (fun q => (x' q - x q) / s) qs = (leg_value DF x' qs - leg_value DF x qs) / s).
    { intros x x'. unfold leg_value. induction qs as [|q ql IH]; cbn [map Rsum]; [field; exact NZ|]. rewrite IH. field. exact NZ. }
    rewrite !E. field. exact NZ.
  Qed.

  (** * C122: the basis point value along the volatility curve is that of the floorlets minus
      that of the caplets: the plain coupons do not move, each floorlet and each caplet gains
      with the volatility, up to the accuracy of the model *)
  Theorem C122_volatility_delta : forall fuel flr h i k f v o dates amounts count fixing payo c floor cap m DF qs shift,
    capped_leg DS tm DC fuel flr h i k v o dates amounts count fixing payo c floor cap m DF qs ->
    vol_from h i f -> k <> f -> shift <> 0 ->
    (forall q, In q (still_due DS v qs) -> stirrable DF (om_formula m) floor cap shift q) ->
    exists fl cl : caplet D -> R,
      returns (get_basis_point_value fuel flr (PrList i) k (Some v) (Some [f]) shift) h
        (leg_value DF fl (still_due DS v qs) / 10000 - leg_value DF cl (still_due DS v qs) / 10000) /\
      forall q, In q (still_due DS v qs) ->
        - stir_accuracy (om_formula m) shift floor q <= fl q /\ - stir_accuracy (om_formula m) shift cap q <= cl q /\
        (floor = None -> fl q = 0) /\ (cap = None -> cl q = 0).
  Proof.
    intros fuel flr h i k f v o dates amounts count fixing payo c floor cap m DF qs shift CL FF NE NZ HV.
    assert (PC : plain_curves h (deltas k (Some [f]))).
    { destruct FF as ((vol & og & Hf & K & SP & OG) & _). split; [repeat constructor; intros []|]. intros j [<-|[]]. eauto. }
    destruct (C48_value DS DC tm L fuel flr (PrList i) k (Some v) (Some [f]) shift h PC NZ) as (h1 & SB & BPV).
    change (deltas k (Some [f])) with [f] in SB.
    destruct (capped_stirred _ _ _ _ _ _ _ _ _ _ _ _ _ _ _ _ _ _ _ _ _ CL FF NE SB) as (m' & FM & CL').
    pose proof (due_market DS tm DC L _ _ _ _ _ _ _ _ _ _ _ _ _ _ _ _ _ _ CL) as MK.
    pose proof (due_market DS tm DC L _ _ _ _ _ _ _ _ _ _ _ _ _ _ _ _ _ _ CL') as MK'. rewrite due_stirred in MK'.
    set (fl := fun q => (floorlet_value DS DC fuel flr m' floor (stirred shift q) - floorlet_value DS DC fuel flr m floor q) / shift).
    set (cl := fun q => (caplet_value DS DC fuel flr m' cap (stirred shift q) - caplet_value DS DC fuel flr m cap q) / shift).
    assert (OV : forall q K, In q (still_due DS v qs) -> valuable (om_formula m) q (Some K) -> valuable (om_formula m) (stirred shift q) (Some K) ->
      exists y x y' x', get_call_value fuel flr m (cp_fix q) (Some K) = Ok y /\ get_put_value fuel flr m (cp_fix q) (Some K) = Ok x /\
        get_call_value fuel flr m' (cp_fix q) (Some K) = Ok y' /\ get_put_value fuel flr m' (cp_fix q) (Some K) = Ok x' /\
        - stir_accuracy (om_formula m) shift (Some K) q <= (y' - y) / shift /\ - stir_accuracy (om_formula m) shift (Some K) q <= (x' - x) / shift).
    { intros q K I V V'. destruct (HV q I) as (_ & LV & N & N' & _).
      destruct (option_expectations DS DC _ _ _ _ K (MK q I) V) as (y & x & ey & ex & Y & X & EY & EX & AY & AX).
      pose proof V' as V2. rewrite <- FM in V2.
      destruct (option_expectations DS DC _ _ _ _ K (MK' _ (in_map _ _ _ I)) V2) as (y' & x' & ey' & ex' & Y' & X' & EY' & EX' & AY' & AX').
      rewrite FM in *. exists y, x, y', x'. repeat (split; [assumption|]).
      destruct (ratio_stirred (om_formula m) q K shift ey ex ey' ex' NZ LV V V' N N' EY EX EY' EX') as [G1 G2].
      pose proof (ratio_accuracy _ _ _ _ shift NZ AY AY') as B1. pose proof (ratio_accuracy _ _ _ _ shift NZ AX AX') as B2.
      unfold stir_accuracy. split.
      - replace ((y' - y) / shift) with ((ey' - ey) / shift + (y' - ey' - (y - ey)) / shift) by (unfold Rdiv; ring). lra.
      - replace ((x' - x) / shift) with ((ex' - ex) / shift + (x' - ex' - (x - ex)) / shift) by (unfold Rdiv; ring). lra. }
    assert (FV : forall q, In q (still_due DS v qs) ->
      (match floor with Some a => get_put_value fuel flr m (cp_fix q) (Some a) = Ok (floorlet_value DS DC fuel flr m floor q) | None => floorlet_value DS DC fuel flr m floor q = 0 end /\
       match cap with Some b => get_call_value fuel flr m (cp_fix q) (Some b) = Ok (caplet_value DS DC fuel flr m cap q) | None => caplet_value DS DC fuel flr m cap q = 0 end) /\
      (match floor with Some a => get_put_value fuel flr m' (cp_fix q) (Some a) = Ok (floorlet_value DS DC fuel flr m' floor (stirred shift q)) | None => floorlet_value DS DC fuel flr m' floor (stirred shift q) = 0 end /\
       match cap with Some b => get_call_value fuel flr m' (cp_fix q) (Some b) = Ok (caplet_value DS DC fuel flr m' cap (stirred shift q)) | None => caplet_value DS DC fuel flr m' cap (stirred shift q) = 0 end) /\
      - stir_accuracy (om_formula m) shift floor q <= fl q /\ - stir_accuracy (om_formula m) shift cap q <= cl q /\
      (floor = None -> fl q = 0) /\ (cap = None -> cl q = 0)).
    { intros q I. destruct (HV q I) as (_ & _ & _ & _ & V1 & V2 & V1' & V2').
      assert (Z : 0 <= 0 / Rabs shift) by (unfold Rdiv; lra).
      assert (GF : match floor with Some a => get_put_value fuel flr m (cp_fix q) (Some a) = Ok (floorlet_value DS DC fuel flr m floor q) | None => floorlet_value DS DC fuel flr m floor q = 0 end /\
        match floor with Some a => get_put_value fuel flr m' (cp_fix q) (Some a) = Ok (floorlet_value DS DC fuel flr m' floor (stirred shift q)) | None => floorlet_value DS DC fuel flr m' floor (stirred shift q) = 0 end /\
        - stir_accuracy (om_formula m) shift floor q <= fl q /\ (floor = None -> fl q = 0)).
      { unfold fl, floorlet_value. cbn [stirred cp_fix]. destruct floor as [a|].
        - destruct (OV q a I V1 V1') as (y & x & y' & x' & _ & X & _ & X' & _ & G). rewrite X, X'. cbn [value_or_0]. repeat split; auto. discriminate.
        - unfold stir_accuracy, accuracy. repeat split; unfold Rdiv; intros; lra. }
      assert (GC : match cap with Some b => get_call_value fuel flr m (cp_fix q) (Some b) = Ok (caplet_value DS DC fuel flr m cap q) | None => caplet_value DS DC fuel flr m cap q = 0 end /\
        match cap with Some b => get_call_value fuel flr m' (cp_fix q) (Some b) = Ok (caplet_value DS DC fuel flr m' cap (stirred shift q)) | None => caplet_value DS DC fuel flr m' cap (stirred shift q) = 0 end /\
        - stir_accuracy (om_formula m) shift cap q <= cl q /\ (cap = None -> cl q = 0)).
      { unfold cl, caplet_value. cbn [stirred cp_fix]. destruct cap as [a|].
        - destruct (OV q a I V2 V2') as (y & x & y' & x' & Y & _ & Y' & _ & G & _). rewrite Y, Y'. cbn [value_or_0]. repeat split; auto. discriminate.
        - unfold stir_accuracy, accuracy. repeat split; unfold Rdiv; intros; lra. }
      tauto. }
    exists fl, cl. split; [|intros q I; apply (FV q I)].
    apply BPV. eexists. eexists. split; [|split].
    - eapply C118_decomposition; [exact L|exact CL|]. intros q I. exact (proj1 (FV q I)).
    - eapply C118_decomposition; [exact L|exact CL'|]. intros q I. rewrite due_stirred in I. apply in_map_iff in I. destruct I as (q0 & <- & I).
      exact (proj1 (proj2 (FV q0 I))).
    - rewrite due_stirred, !leg_stirred. apply ratio_sum. exact NZ.
  Qed.

  (** so a floored leg gains and a capped leg loses with the volatility, and a leg without
      floor and cap does not move *)
  Theorem C122_sign : forall fuel flr h i k f v o dates amounts count fixing payo c floor cap m DF qs shift,
    capped_leg DS tm DC fuel flr h i k v o dates amounts count fixing payo c floor cap m DF qs ->
    vol_from h i f -> k <> f -> shift <> 0 ->
    (forall q, In q (still_due DS v qs) -> stirrable DF (om_formula m) floor cap shift q) ->
    exists x, returns (get_basis_point_value fuel flr (PrList i) k (Some v) (Some [f]) shift) h x /\
      (cap = None -> - (leg_value DF (stir_accuracy (om_formula m) shift floor) (still_due DS v qs) / 10000) <= x) /\
      (floor = None -> x <= leg_value DF (stir_accuracy (om_formula m) shift cap) (still_due DS v qs) / 10000) /\
      (floor = None -> cap = None -> x = 0).
  Proof.
    intros fuel flr h i k f v o dates amounts count fixing payo c floor cap m DF qs shift CL FF NE NZ HV.
    destruct (C122_volatility_delta _ _ _ _ _ _ _ _ _ _ _ _ _ _ _ _ _ _ _ _ CL FF NE NZ HV) as (fl & cl & X & B).
    eexists. split; [exact X|].
    assert (LE : forall g g' : caplet D -> R, (forall q, In q (still_due DS v qs) -> g q <= g' q) -> leg_value DF g (still_due DS v qs) <= leg_value DF g' (still_due DS v qs)).
    { intros g g' G. unfold leg_value. assert (W : forall q, In q (still_due DS v qs) -> 0 <= DF (cp_pay q) * cp_weight q) by (intros q I; apply (HV q I)).
      clear -G W. induction (still_due DS v qs) as [|q ql IH]; cbn [map Rsum]; [lra|]. specialize (IH (fun q I => G q (or_intror I)) (fun q I => W q (or_intror I))).
      pose proof (Rmult_le_compat_l _ _ _ (W q (or_introl eq_refl)) (G q (or_introl eq_refl))). lra. }
    assert (OP : forall g, leg_value DF (fun q => - g q) (still_due DS v qs) = - leg_value DF g (still_due DS v qs)).
    { intros g. clear. unfold leg_value. induction (still_due DS v qs) as [|q ql IH]; cbn [map Rsum]; [lra|]. rewrite IH. ring. }
    assert (Z : leg_value DF (fun _ => 0) (still_due DS v qs) = 0).
    { clear. unfold leg_value. induction (still_due DS v qs) as [|q ql IH]; cbn [map Rsum]; [lra|]. rewrite IH. ring. }
    assert (ZC : cap = None -> leg_value DF cl (still_due DS v qs) = 0).
    { intros N. apply Rle_antisym; rewrite <- Z; apply LE; intros q I; destruct (B q I) as (_ & _ & _ & B4); rewrite B4 by exact N; lra. }
    assert (ZF : floor = None -> leg_value DF fl (still_due DS v qs) = 0).
    { intros N. apply Rle_antisym; rewrite <- Z; apply LE; intros q I; destruct (B q I) as (_ & _ & B3 & _); rewrite B3 by exact N; lra. }
    split; [|split].
    - intros N. rewrite (ZC N). assert (G := LE (fun q => - stir_accuracy (om_formula m) shift floor q) fl (fun q I => proj1 (B q I))). rewrite OP in G. lra.
    - intros N. rewrite (ZF N). assert (G := LE (fun q => - stir_accuracy (om_formula m) shift cap q) cl (fun q I => proj1 (proj2 (B q I)))). rewrite OP in G. lra.
    - intros N N'. rewrite (ZF N), (ZC N'). lra.
  Qed.

  (** floor and cap at the same strike: no delta at all *)
  Theorem C122_locked : forall fuel flr h i k f v o dates amounts count fixing payo c K m DF qs shift,
    capped_leg DS tm DC fuel flr h i k v o dates amounts count fixing payo c (Some K) (Some K) m DF qs ->
    vol_from h i f -> k <> f -> shift <> 0 ->
    (forall q, In q (still_due DS v qs) -> valuable (om_formula m) q (Some K) /\ valuable (om_formula m) (stirred shift q) (Some K)) ->
    returns (get_basis_point_value fuel flr (PrList i) k (Some v) (Some [f]) shift) h 0.
  Proof.
    intros fuel flr h i k f v o dates amounts count fixing payo c K m DF qs shift CL FF NE NZ HP.
    assert (PC : plain_curves h (deltas k (Some [f]))).
    { destruct FF as ((vol & og & Hf & KC & SP & OG) & _). split; [repeat constructor; intros []|]. intros j [<-|[]]. eauto. }
    destruct (C48_value DS DC tm L fuel flr (PrList i) k (Some v) (Some [f]) shift h PC NZ) as (h1 & SB & BPV).
    change (deltas k (Some [f])) with [f] in SB.
    destruct (capped_stirred _ _ _ _ _ _ _ _ _ _ _ _ _ _ _ _ _ _ _ _ _ CL FF NE SB) as (m' & FM & CL').
    apply BPV. eexists. eexists. split; [|split].
    - eapply C118_locked; [exact L|exact CL|]. intros q I. pose proof (due_market DS tm DC L _ _ _ _ _ _ _ _ _ _ _ _ _ _ _ _ _ _ CL q I) as MK.
      destruct (option_expectations DS DC _ _ _ _ _ MK (proj1 (HP q I))) as (y & x & ey & ex & _ & E & _). eauto.
    - eapply C118_locked; [exact L|exact CL'|]. intros q I. pose proof (due_market DS tm DC L _ _ _ _ _ _ _ _ _ _ _ _ _ _ _ _ _ _ CL' q I) as MK.
      rewrite due_stirred in I. apply in_map_iff in I. destruct I as (q0 & <- & I).
      destruct (option_expectations DS DC _ _ _ _ K MK) as (y & x & ey & ex & _ & E & _); [|eauto]. rewrite FM. apply (HP q0 I).
    - rewrite due_stirred. unfold leg_value. rewrite map_map. cbn [stirred cp_pay cp_weight]. field. exact NZ.
  Qed.
End Vega.
Print Assumptions C122_volatility_delta.
Print Assumptions C122_sign.
Print Assumptions C122_locked.

(** the collar of C118 with the volatilities from a curve of terminal volatilities, flat 20% *)
#[local] Instance no_names : DayCounts R R := [].
Definition vol_model (cs : list (rcurve R R (fperiod R))) : omodel R R (fperiod R) :=
  mkOM FLogNormal default_gconst None (FwNum (3 / 100)) (match nth_error cs 1 with Some c => VoRate c | None => VoNone end) None false.
Example C122_instance : exists (h : heap R R (fperiod R)) DF qs m n,
  capped_leg FloatDates (fun x => x) no_names n None h 0 0 (1 / 4) (1 / 2) [1; 3 / 2] [100; 100] DcDefault None None 0 (Some (1 / 100)) (Some (4 / 100)) m DF qs /\
  vol_from h 0 1 /\ still_due FloatDates (1 / 4) qs = qs /\ length qs = 2%nat /\
  (forall q, In q qs -> stirrable DF (om_formula m) (Some (1 / 100)) (Some (4 / 100)) (1 / 10000) q) /\
  exists x, returns (get_basis_point_value n None (PrList 0) 0 (Some (1 / 4)) (Some [1%nat]) (1 / 10000)) h x.
Proof.
  destruct (flat_zero (DC := no_names) (L:=float_laws) 0 (5 / 100) None) as (disc & ED & OD & _ & DF).
  destruct (single_curve (DC := no_names) (L:=float_laws) DcDefault _ CTermVol 0 (1 / 5) None None 0 (default_additive (L:=float_laws)) eq_refl eq_refl)
    as (c & EC & BC & VC).
  destruct BC as (C_1 & C_2 & C_3 & C_4 & C_5 & C_6 & C_7 & C_8 & C_9 & C_10).
  assert (TR : forall x : R, x <> 0 -> ntruthy x = true) by (intros x X; unfold ntruthy; cbn; unfold Reqb; destruct (Req_EM_T x 0); [lra|reflexivity]).
  assert (OL : exists l, contrate_new (DS := FloatDates (T:=R)) [1; 3 / 2] (Many [100; 100]) (Some (1 / 2)) DcDefault None None 0 (Some (4 / 100)) (Some (1 / 100)) (PmSource FwNone) = Ok l).
  { unfold contrate_new. cbn [cont_start_dates d_truthy FloatDates]. rewrite TR by lra. eexists. reflexivity. }
  destruct OL as (l & EL). set (h := mkH [disc; c] [mkHM None vol_model] [mkHL l (HModel 0)]).
  set (m := model_view h (mkHM (Some (1 / 4)) vol_model)).
  assert (CL : capped_leg FloatDates (fun x => x) no_names 2 None h 0 0 (1 / 4) (1 / 2) [1; 3 / 2] [100; 100] DcDefault None None 0 (Some (1 / 100)) (Some (4 / 100))
    m (fun e => exp (- (5 / 100 * (e - 1 / 4))))
    [mkCap R 1 (1 / 2) 50 (3 / 100) (1 / 5) (1 / 2 - 1 / 4); mkCap R (3 / 2) 1 50 (3 / 100) (1 / 5) (1 - 1 / 4)]).
  { assert (MK : forall d, market 2 None m d None (3 / 100) (3 / 100) (1 / 5) (d - 1 / 4)).
    { intros d. exists (Some (1 / 5)). split; [|now left]. unfold m, model_view, vol_model, om_details, h. cbn [h_curves nth_error om_forward om_vol hm_model hm_valuation fw_value vo_value bind rmap].
      rewrite TR by lra. cbn [bind]. rewrite C_1. cbn [is_vol terminal_vol]. rewrite C_1. rewrite VC. cbn [rmap bind].
      match goal with |- (t <- ?T ;; _) = _ => replace T with (Ok (d - 1 / 4) : res R); [reflexivity|] end.
      unfold om_time. cbn [om_count om_vol vo_count om_forward fw_count om_valuation]. symmetry. apply C_4. }
    constructor.
    - exists l, 0%nat, (mkHM None vol_model), (PmSource FwNone). repeat split; auto.
    - apply TR. lra.
    - simpl. repeat constructor; simpl; intuition lra.
    - constructor; [|constructor; [|constructor]].
      + split; [reflexivity|]. exists (1 / 2), 1, (1 - 1 / 2). repeat (split; [reflexivity|]). split; [cbn; lra|]. apply MK.
      + split; [reflexivity|]. exists 1, (3 / 2), (3 / 2 - 1). repeat (split; [reflexivity|]). split; [cbn; lra|]. apply MK.
    - exists disc. split; [reflexivity|]. intros e _ _. apply DF. }
  assert (FF : vol_from h 0 1).
  { split; [exists c, 0; repeat split; auto|]. exists l, 0%nat, (mkHM None vol_model). do 5 eexists. split; [reflexivity|]. split; [reflexivity|].
    intros cs c' E _. exists None. cbn [hm_model]. unfold vol_model. rewrite E. reflexivity. }
  assert (LT : forall a b : R, a <= b -> d_leb (DateSys := FloatDates (T:=R)) a b = true) by (intros; now apply (leb_t (L:=float_laws))).
  match type of CL with capped_leg _ _ _ _ _ _ _ _ _ _ _ _ _ _ _ _ _ _ _ _ ?qs => assert (SD : still_due FloatDates (1 / 4) qs = qs) end.
  { unfold still_due. cbn [filter cp_pay]. rewrite !(LT (1 / 4)) by lra. reflexivity. }
  match type of CL with capped_leg _ _ _ _ _ _ _ _ _ _ _ _ _ _ _ _ _ _ _ ?DF0 ?qs =>
    assert (SH : forall q, In q qs -> stirrable DF0 (om_formula m) (Some (1 / 100)) (Some (4 / 100)) (1 / 10000) q) end.
  { intros q [<- |[<- |[]]]; (split; [cbn [cp_pay cp_weight]; apply Rmult_le_pos; [left; apply exp_pos|lra]|]).
    all: split; [left; cbn; lra|]. all: split; [cbn; lra|]. all: split; [cbn; lra|]. all: repeat split; left; cbn; repeat split; lra. }
  exists h. do 4 eexists. split; [exact CL|]. split; [exact FF|]. split; [exact SD|]. split; [reflexivity|]. split; [exact SH|].
  destruct (C122_sign FloatDates (fun x => x) no_names float_laws _ _ _ _ _ 1 _ _ _ _ _ _ _ _ _ _ _ _ _ (1 / 10000) CL FF) as (x & RX & _).
  { discriminate. } { lra. } { rewrite SD. exact SH. } { exists x. exact RX. }
Qed.
