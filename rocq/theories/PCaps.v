(** Properties C118 and C119: present values of capped and floored floating legs
    (contingent.py:212-275, payoffs.py:330-420, pricer.py:28-66, models/optionpricing.py:193-275). *)
From Coq Require Import Reals Lra Lia List Bool ZArith.
From Verif Require Import Num Py Spec SInterpolation SCurve SDates SRateCurve SOption SNormal SCashflow SPricer LBase MInterpolation MDates
  MCurve MRateCurve MOption MCashflow MBracket MPricer LSort LDates LInterpolation LCurve LCurve2 LDateCurve LRateCurve LRateCurve3 LMore LOption LCashflow
  LTable LExpect LPricer LPricer2 LPricer3 PCashflow PCashflow2 PRateCurve2 PPricer PBuckets2 POption PNormal PExpect PStrikes.
Import ListNotations.
Open Scope R_scope.

(** a coupon: paid at [cp_pay], fixed at [cp_fix], notional times year fraction [cp_weight],
    and what the model sees at the fixing date: forward, volatility, time to expiry *)
Record caplet {D : Type} := mkCap { cp_pay : D; cp_fix : D; cp_weight : R; cp_fwd : R; cp_vol : R; cp_time : R }.
Arguments caplet : clear implicits.

(** a rate between floor and cap *)
Definition collared (floor cap : option R) (x : R) : R :=
  let y := match cap with Some b => Rmin x b | None => x end in
  match floor with Some a => Rmax a y | None => y end.
Definition ordered (floor cap : option R) : Prop :=
  match floor, cap with Some a, Some b => a <= b | _, _ => True end.

(** the formula can value an option of the coupon with that strike: the model is one of the
    vanilla ones inside its domain, or there is no time value *)
Definition valuable {D} (fm : formula R) (q : caplet D) (K : option R) : Prop :=
  match K with
  | Some k => priced fm (cp_fwd q) k (cp_vol q) (cp_time q) \/ no_time_value (cp_vol q) (cp_time q)
  | None => True
  end.
Definition accuracy {D} (fm : formula R) (q : caplet D) (K : option R) : R :=
  match K with Some k => Rabs (tolerance fm (cp_fwd q) k (cp_vol q) (cp_time q)) | None => 0 end.

Section Caps.
  Context {D P : Type} (DS : DateSys R D P) (tm : D -> R) (DC : DayCounts R D) (L : DateLaws DS tm).
  Implicit Types (h : heap R D P).

  (** the coupon q of the period from s to e on the notional a, seen by the model m *)
  Definition capped_period fuel flr (m : omodel R D P) (count : dcspec R D) (fixing payo : option P)
             (p : D * D * R) (q : caplet D) : Prop :=
    let '(s, e, a) := p in
    cp_pay q = e /\ exists s' e' u, moved_back s payo s' /\ moved_back e payo e' /\ moved_back s' fixing (cp_fix q) /\
      pay_count count s' e' = Ok u /\ cp_weight q = u * a /\
      market fuel flr m (cp_fix q) None (cp_fwd q) (cp_fwd q) (cp_vol q) (cp_time q).

  (** list i is a floating leg with margin c, floor and cap and the coupons qs; its model,
      asked for the valuation date v, is m *)
  Record capped_leg fuel flr h (i k : nat) (v o : D) (dates : list D) (amounts : list R) (count : dcspec R D)
         (fixing payo : option P) (c : R) (floor cap : option R) (m : omodel R D P) (DF : D -> R) (qs : list (caplet D)) : Prop := {
    cl_list : exists l j hm pm, nth_error (h_lists h) i = Some (mkHL l (HModel j)) /\
      contrate_new dates (Many amounts) (Some o) count fixing payo c cap floor pm = Ok l /\
      nth_error (h_models h) j = Some hm /\ m = model_view h (mkHM (Some v) (hm_model hm));
    cl_origin : d_truthy o = true;
    cl_dates : NoDup (map tm dates);
    cl_coupons : Forall2 (capped_period fuel flr m count fixing payo) (combine (combine (o :: dates) dates) amounts) qs;
    cl_disc : exists disc, nth_error (h_curves h) k = Some disc /\
      forall e, In e dates -> d_leb v e = true -> get_discount_factor fuel disc v e = Ok (DF e) }.

  (** the coupons paid at v or later *)
  Definition still_due (v : D) (qs : list (caplet D)) : list (caplet D) := filter (fun q => d_leb v (cp_pay q)) qs.
  (** discounted notionals times year fractions times the rates x *)
  Definition leg_value (DF : D -> R) (x : caplet D -> R) (qs : list (caplet D)) : R :=
    Rsum (map (fun q => DF (cp_pay q) * cp_weight q * x q) qs).

  Lemma caplet_flow fuel flr h i k v o dates amounts count fixing payo c floor cap m DF qs :
    capped_leg fuel flr h i k v o dates amounts count fixing payo c floor cap m DF qs ->
    exists l, seen h v i l /\ cf_domain l = dates /\
      Forall2 (fun e q => cp_pay q = e /\ exists r u, rp_rate r = Some c /\ pay_count (rp_count r) (rp_start r) (rp_end r) = Ok u /\
        moved_back (rp_start r) (rp_fixing r) (cp_fix q) /\ cp_weight q = u * rp_amount r /\
        market fuel flr m (cp_fix q) None (cp_fwd q) (cp_fwd q) (cp_vol q) (cp_time q) /\
        cf_get fuel flr l e = pay fuel flr (PContRate r floor cap) (PmModel m)) dates qs.
  Proof.
    intros [(l & j & hm & pm & HL & HN & HM & EM) HT ND FQ _].
    exists (mkCF (cf_domain l) (cf_flows l) (cf_origin0 l) (LModel (PmModel m)) (cf_rated l)). split; [|].
    { exists (mkHL l (HModel j)). eexists. split; [exact HL|]. split; [reflexivity|]. cbn. exists hm. now rewrite EM. }
    destruct (C38_contingent DS tm L dates amounts o count fixing payo c cap floor pm l HT HN ND) as (LEN & DM & N).
    split; [exact DM|].
    assert (W : forall j s e a q, nth_error (o :: dates) j = Some s -> nth_error dates j = Some e -> nth_error amounts j = Some a ->
      capped_period fuel flr m count fixing payo (s, e, a) q ->
      cp_pay q = e /\ exists r u, rp_rate r = Some c /\ pay_count (rp_count r) (rp_start r) (rp_end r) = Ok u /\
        moved_back (rp_start r) (rp_fixing r) (cp_fix q) /\ cp_weight q = u * rp_amount r /\
        market fuel flr m (cp_fix q) None (cp_fwd q) (cp_fwd q) (cp_vol q) (cp_time q) /\
        cf_get fuel flr (mkCF (cf_domain l) (cf_flows l) (cf_origin0 l) (LModel (PmModel m)) (cf_rated l)) e = pay fuel flr (PContRate r floor cap) (PmModel m)).
    { intros n s e a q Hs He Ha (E & s' & e' & u & M1 & M2 & M3 & U & WE & MK). split; [exact E|].
      destruct (N n s e a Hs He Ha) as (s2 & e2 & N1 & N2 & G). apply moved_offset in M1, M2, N1, N2.
      rewrite M1 in N1. rewrite M2 in N2. injection N1 as <-. injection N2 as <-.
      exists (mkRP s' e' a count fixing (Some c)), u. cbn [rp_rate rp_count rp_start rp_end rp_fixing rp_amount].
      repeat (split; [assumption || reflexivity|]).
      unfold cf_get, cf_flow. cbn [cf_flows cf_attr]. unfold cf_payoff in G. rewrite G. reflexivity. }
    clear -W FQ LEN. revert o amounts qs W LEN FQ. generalize (mkCF (cf_domain l) (cf_flows l) (cf_origin0 l) (LModel (PmModel m)) (cf_rated l)) as l'.
    intros l'. induction dates as [|d ds IH]; intros o am qs W LEN FQ.
    - inversion FQ. constructor.
    - destruct am as [|a am]; [cbn in LEN; lia|]. cbn [combine] in FQ. inversion FQ; subst. constructor.
      + apply (W 0%nat o d a); auto.
      + apply (IH d am); [|cbn in LEN; lia|auto]. intros j s e a' q Hs He Ha Cq. apply (W (S j) s e a'); auto.
  Qed.

  (** * C118: the leg is worth the plain floating leg plus the floorlets minus the caplets *)
  Theorem C118_decomposition : forall fuel flr h i k v o dates amounts count fixing payo c floor cap m DF qs (p cv : caplet D -> R),
    capped_leg fuel flr h i k v o dates amounts count fixing payo c floor cap m DF qs ->
    (forall q, In q (still_due v qs) ->
      match floor with Some a => get_put_value fuel flr m (cp_fix q) (Some a) = Ok (p q) | None => p q = 0 end /\
      match cap with Some b => get_call_value fuel flr m (cp_fix q) (Some b) = Ok (cv q) | None => cv q = 0 end) ->
    returns (get_present_value fuel flr (PrList i) k (Some v)) h
      (leg_value DF (fun q => cp_fwd q + c) (still_due v qs) + leg_value DF p (still_due v qs) - leg_value DF cv (still_due v qs)).
  Proof.
    intros fuel flr h i k v o dates amounts count fixing payo c floor cap m DF qs p cv CL HO.
    destruct (caplet_flow _ _ _ _ _ _ _ _ _ _ _ _ _ _ _ _ _ _ CL) as (l & SE & DM & F).
    destruct (cl_disc _ _ _ _ _ _ _ _ _ _ _ _ _ _ _ _ _ _ CL) as (disc & Hk & FD).
    eapply C40_list; eauto. unfold worth, due. rewrite DM.
    exists (map (fun q => DF (cp_pay q) * cp_weight q * (cp_fwd q + c + p q - cv q)) (still_due v qs)). split.
    - clear DM SE CL Hk. unfold still_due in *. induction F as [|e q ds qs (E & r & u & R1 & R2 & R3 & R4 & R5 & R6) F IH]; [constructor|].
      cbn [filter] in HO |- *. rewrite E in *. destruct (d_leb v e) eqn:B.
      + cbn [map]. constructor.
        * exists (DF e), ((cp_fwd q + c + p q - cv q) * u * rp_amount r). rewrite E. split; [apply FD; auto; now left|]. split; [|rewrite R4; ring].
          rewrite R6. destruct (HO q) as [H1 H2]; [now left|]. eapply C58_general; eauto.
        * apply IH; [|intros; apply FD; auto; now right]. intros q' I'. apply HO. now right.
      + apply IH; [exact HO|]. intros; apply FD; auto; now right.
    - unfold leg_value. generalize (still_due v qs). intros ql. induction ql as [|q ql IH]; cbn [map Rsum]; [lra|]. rewrite <- IH. lra.
  Qed.

  (** with cap and floor at the same strike it is the leg of fixed coupons at the strike *)
  Theorem C118_locked : forall fuel flr h i k v o dates amounts count fixing payo c K m DF qs,
    capped_leg fuel flr h i k v o dates amounts count fixing payo c (Some K) (Some K) m DF qs ->
    (forall q, In q (still_due v qs) -> exists p, get_put_value fuel flr m (cp_fix q) (Some K) = Ok p) ->
    returns (get_present_value fuel flr (PrList i) k (Some v)) h (leg_value DF (fun _ => K + c) (still_due v qs)).
  Proof.
    intros fuel flr h i k v o dates amounts count fixing payo c K m DF qs CL HO.
    set (val := fun r : res R => match r with Ok x => x | Err _ => 0 end).
    assert (MK : forall q, In q (still_due v qs) -> market fuel flr m (cp_fix q) None (cp_fwd q) (cp_fwd q) (cp_vol q) (cp_time q)).
    { intros q I. destruct (caplet_flow _ _ _ _ _ _ _ _ _ _ _ _ _ _ _ _ _ _ CL) as (l & _ & _ & F).
      apply filter_In in I. destruct I as [I _]. clear -F I. induction F as [|e q' ds ql (E & r & u & _ & _ & _ & _ & M & _) F IH]; [destruct I|].
      destruct I as [<- |I]; auto. }
    assert (V : forall q, In q (still_due v qs) -> exists x y, get_put_value fuel flr m (cp_fix q) (Some K) = Ok x /\
      get_call_value fuel flr m (cp_fix q) (Some K) = Ok y /\ y - x = cp_fwd q - K).
    { intros q I. destruct (HO q I) as [x E]. pose proof (market_strike _ _ _ _ _ _ _ _ _ K (MK q I)) as M.
      destruct (C51_parity DS DC _ _ _ _ _ _ _ _ _ M) as [A B].
      destruct (get_call_value fuel flr m (cp_fix q) (Some K)) as [y|er] eqn:EC.
      - exists x, y. repeat split; auto.
      - destruct (B er) as [B1 _]. rewrite (B1 eq_refl) in E. discriminate. }
    replace (leg_value DF (fun _ => K + c) (still_due v qs)) with
      (leg_value DF (fun q => cp_fwd q + c) (still_due v qs) + leg_value DF (fun q => val (get_put_value fuel flr m (cp_fix q) (Some K))) (still_due v qs)
       - leg_value DF (fun q => val (get_call_value fuel flr m (cp_fix q) (Some K))) (still_due v qs)).
    - eapply C118_decomposition; [exact CL|]. intros q I. destruct (V q I) as (x & y & E1 & E2 & _). rewrite E1, E2. split; reflexivity.
    - clear -V. unfold leg_value. induction (still_due v qs) as [|q ql IH]; cbn [map Rsum]; [lra|].
      destruct (V q (or_introl eq_refl)) as (x & y & E1 & E2 & E3). rewrite E1, E2. cbn [val].
      assert (IH' := IH (fun q I => V q (or_intror I))).
      assert (T : DF (cp_pay q) * cp_weight q * (K + c) = DF (cp_pay q) * cp_weight q * (cp_fwd q + c) + DF (cp_pay q) * cp_weight q * x - DF (cp_pay q) * cp_weight q * y)
        by (replace K with (cp_fwd q + x - y) by lra; ring).
      lra.
  Qed.

  (** the forward rate without time value does not move *)
  Lemma still_forward fm F v t z : no_time_value v t -> PStrikes.forward_at fm F v t z = F.
  Proof.
    intros H. assert (S : v * sqrt t = 0) by (destruct H as [-> | ->]; rewrite ?sqrt_0; ring).
    assert (Q : v ^ 2 * t / 2 = 0) by (destruct H as [-> | ->]; cbn; field).
    destruct fm; cbn [PStrikes.forward_at]; unfold displaced_forward, lognormal_forward, normal_forward; rewrite ?S, ?Q, ?Rmult_0_l, ?Rminus_0_r, ?exp_0; ring.
  Qed.
  Lemma expectation_const a : expectation (fun _ => a) a.
  Proof.
    destruct C110_expectation as (_ & _ & MEAN). destruct (MEAN a 0 1 ltac:(lra)) as [_ B]. revert B. apply expectation_ext. intros z.
    unfold lognormal_forward. replace (0 * sqrt 1 * z - 0 ^ 2 * 1 / 2) with 0 by (cbn; field). rewrite exp_0. ring.
  Qed.
  Lemma option_expectations fuel flr m (q : caplet D) K :
    market fuel flr m (cp_fix q) None (cp_fwd q) (cp_fwd q) (cp_vol q) (cp_time q) -> valuable (om_formula m) q (Some K) ->
    exists y x ey ex, get_call_value fuel flr m (cp_fix q) (Some K) = Ok y /\ get_put_value fuel flr m (cp_fix q) (Some K) = Ok x /\
      expectation (fun z => call_payoff K (PStrikes.forward_at (om_formula m) (cp_fwd q) (cp_vol q) (cp_time q) z)) ey /\
      expectation (fun z => put_payoff K (PStrikes.forward_at (om_formula m) (cp_fwd q) (cp_vol q) (cp_time q) z)) ex /\
      Rabs (y - ey) <= accuracy (om_formula m) q (Some K) /\ Rabs (x - ex) <= accuracy (om_formula m) q (Some K).
  Proof.
    intros M [PR | NT]; pose proof (market_strike _ _ _ _ _ _ _ _ _ K M) as MK.
    - destruct (priced_value DS DC _ _ _ _ _ _ _ _ _ MK PR) as (y & x & ey & ex & A & B & E1 & E2 & X & Y). exists y, x, ey, ex.
      repeat (split; [assumption|]). cbn [accuracy]. pose proof (Rle_abs (tolerance (om_formula m) (cp_fwd q) K (cp_vol q) (cp_time q))). lra.
    - destruct (C53_no_time_value DS DC _ _ _ _ _ _ _ _ _ MK NT) as [A B].
      exists (call_payoff K (cp_fwd q)), (put_payoff K (cp_fwd q)), (call_payoff K (cp_fwd q)), (put_payoff K (cp_fwd q)).
      split; [exact A|]. split; [exact B|].
      split; [generalize (expectation_const (call_payoff K (cp_fwd q))); apply expectation_ext; intros z; now rewrite still_forward|].
      split; [generalize (expectation_const (put_payoff K (cp_fwd q))); apply expectation_ext; intros z; now rewrite still_forward|].
      cbn [accuracy]. rewrite !Rminus_diag_eq, Rabs_R0 by reflexivity. split; apply Rabs_pos.
  Qed.
  Lemma valuable_mean fuel flr m (q : caplet D) K :
    market fuel flr m (cp_fix q) None (cp_fwd q) (cp_fwd q) (cp_vol q) (cp_time q) -> valuable (om_formula m) q (Some K) ->
    expectation (PStrikes.forward_at (om_formula m) (cp_fwd q) (cp_vol q) (cp_time q)) (cp_fwd q).
  Proof.
    intros _ [(_ & T & _) | NT]; [now apply forward_mean|]. generalize (expectation_const (cp_fwd q)). apply expectation_ext. intros z. now rewrite still_forward.
  Qed.

  Definition value_or_0 (r : res R) : R := match r with Ok x => x | Err _ => 0 end.
  (** what the floor adds to and the cap takes from the rate *)
  Definition floorlet_value fuel flr (m : omodel R D P) (floor : option R) (q : caplet D) : R :=
    match floor with Some a => value_or_0 (get_put_value fuel flr m (cp_fix q) (Some a)) | None => 0 end.
  Definition caplet_value fuel flr (m : omodel R D P) (cap : option R) (q : caplet D) : R :=
    match cap with Some b => value_or_0 (get_call_value fuel flr m (cp_fix q) (Some b)) | None => 0 end.
  (** the fixing is still to come, or nothing can change until then *)
  Definition live (q : caplet D) : Prop := 0 < cp_time q \/ no_time_value (cp_vol q) (cp_time q).

  Lemma collared_split floor cap x : ordered floor cap ->
    collared floor cap x = x + match floor with Some a => put_payoff a x | None => 0 end - match cap with Some b => call_payoff b x | None => 0 end.
  Proof.
    unfold ordered, collared, put_payoff, call_payoff, Rmax, Rmin. destruct floor, cap; intros; repeat destruct Rle_dec; lra.
  Qed.
  Lemma coupon_expected fuel flr m floor cap (q : caplet D) :
    market fuel flr m (cp_fix q) None (cp_fwd q) (cp_fwd q) (cp_vol q) (cp_time q) -> ordered floor cap -> live q ->
    valuable (om_formula m) q floor -> valuable (om_formula m) q cap ->
    (match floor with Some a => get_put_value fuel flr m (cp_fix q) (Some a) = Ok (floorlet_value fuel flr m floor q) | None => floorlet_value fuel flr m floor q = 0 end /\
     match cap with Some b => get_call_value fuel flr m (cp_fix q) (Some b) = Ok (caplet_value fuel flr m cap q) | None => caplet_value fuel flr m cap q = 0 end) /\
    exists e, expectation (fun z => collared floor cap (PStrikes.forward_at (om_formula m) (cp_fwd q) (cp_vol q) (cp_time q) z)) e /\
      Rabs (cp_fwd q + floorlet_value fuel flr m floor q - caplet_value fuel flr m cap q - e) <= accuracy (om_formula m) q floor + accuracy (om_formula m) q cap.
  Proof.
    intros M O LV VF VC. set (X := PStrikes.forward_at (om_formula m) (cp_fwd q) (cp_vol q) (cp_time q)).
    assert (MEAN : expectation X (cp_fwd q)).
    { destruct LV as [T | NT]; [now apply forward_mean|]. generalize (expectation_const (cp_fwd q)). apply expectation_ext. intros z. unfold X. now rewrite still_forward. }
    assert (FL : exists ef, expectation (fun z => match floor with Some a => put_payoff a (X z) | None => 0 end) ef /\
      Rabs (floorlet_value fuel flr m floor q - ef) <= accuracy (om_formula m) q floor /\
      match floor with Some a => get_put_value fuel flr m (cp_fix q) (Some a) = Ok (floorlet_value fuel flr m floor q) | None => floorlet_value fuel flr m floor q = 0 end).
    { destruct floor as [a|].
      - destruct (option_expectations _ _ _ _ _ M VF) as (y & x & ey & ex & _ & B & _ & E & _ & A). exists ex. unfold floorlet_value. rewrite B. cbn [value_or_0]. auto.
      - exists 0. split; [apply expectation_const|]. cbn. rewrite Rminus_0_r, Rabs_R0. split; [lra|reflexivity]. }
    assert (CP : exists ec, expectation (fun z => match cap with Some a => call_payoff a (X z) | None => 0 end) ec /\
      Rabs (caplet_value fuel flr m cap q - ec) <= accuracy (om_formula m) q cap /\
      match cap with Some b => get_call_value fuel flr m (cp_fix q) (Some b) = Ok (caplet_value fuel flr m cap q) | None => caplet_value fuel flr m cap q = 0 end).
    { destruct cap as [a|].
      - destruct (option_expectations _ _ _ _ _ M VC) as (y & x & ey & ex & B & _ & E & _ & A & _). exists ey. unfold caplet_value. rewrite B. cbn [value_or_0]. auto.
      - exists 0. split; [apply expectation_const|]. cbn. rewrite Rminus_0_r, Rabs_R0. split; [lra|reflexivity]. }
    destruct FL as (ef & EF & AF & VF'). destruct CP as (ec & EC & AC & VC'). split; [auto|].
    exists (1 * (1 * cp_fwd q + 1 * ef) + -1 * ec). split.
    - generalize (expectation_lin _ _ _ _ 1 (-1) (expectation_lin _ _ _ _ 1 1 MEAN EF) EC). apply expectation_ext. intros z. cbv beta.
      rewrite collared_split by exact O. fold X. ring.
    - replace (cp_fwd q + floorlet_value fuel flr m floor q - caplet_value fuel flr m cap q - (1 * (1 * cp_fwd q + 1 * ef) + -1 * ec))
        with ((floorlet_value fuel flr m floor q - ef) + - (caplet_value fuel flr m cap q - ec)) by ring.
      eapply Rle_trans; [apply Rabs_triang|]. rewrite Rabs_Ropp. lra.
  Qed.
  Lemma due_market fuel flr h i k v o dates amounts count fixing payo c floor cap m DF qs :
    capped_leg fuel flr h i k v o dates amounts count fixing payo c floor cap m DF qs ->
    forall q, In q (still_due v qs) -> market fuel flr m (cp_fix q) None (cp_fwd q) (cp_fwd q) (cp_vol q) (cp_time q).
  Proof.
    intros CL q I. destruct (caplet_flow _ _ _ _ _ _ _ _ _ _ _ _ _ _ _ _ _ _ CL) as (l & _ & _ & F).
    apply filter_In in I. destruct I as [I _]. clear -F I. induction F as [|e q' ds ql (E & r & u & _ & _ & _ & _ & M & _) F IH]; [destruct I|].
    destruct I as [<- |I]; auto.
  Qed.

  (** the present value is the sum of the discounted expected payments, the rate kept
      between floor and cap, up to the accuracy of the model *)
  Theorem C118_expected : forall fuel flr h i k v o dates amounts count fixing payo c floor cap m DF qs,
    capped_leg fuel flr h i k v o dates amounts count fixing payo c floor cap m DF qs -> ordered floor cap ->
    (forall q, In q (still_due v qs) -> live q /\ valuable (om_formula m) q floor /\ valuable (om_formula m) q cap) ->
    exists x es, returns (get_present_value fuel flr (PrList i) k (Some v)) h x /\
      Forall2 (fun q e => expectation (fun z => collared floor cap (PStrikes.forward_at (om_formula m) (cp_fwd q) (cp_vol q) (cp_time q) z)) e)
              (still_due v qs) es /\
      Rabs (x - Rsum (map (fun qe => DF (cp_pay (fst qe)) * cp_weight (fst qe) * (snd qe + c)) (combine (still_due v qs) es))) <=
        Rsum (map (fun q => Rabs (DF (cp_pay q) * cp_weight q) * (accuracy (om_formula m) q floor + accuracy (om_formula m) q cap)) (still_due v qs)).
  Proof.
    intros fuel flr h i k v o dates amounts count fixing payo c floor cap m DF qs CL O HV.
    pose proof (due_market _ _ _ _ _ _ _ _ _ _ _ _ _ _ _ _ _ _ CL) as MK.
    pose proof (fun q I => coupon_expected fuel flr m floor cap q (MK q I) O (proj1 (HV q I)) (proj1 (proj2 (HV q I))) (proj2 (proj2 (HV q I)))) as CE.
    pose proof (C118_decomposition _ _ _ _ _ _ _ _ _ _ _ _ _ _ _ _ _ _ (floorlet_value fuel flr m floor) (caplet_value fuel flr m cap) CL (fun q I => proj1 (CE q I))) as PV.
    eexists.
    assert (Q : exists es, Forall2 (fun q e => expectation (fun z => collared floor cap (PStrikes.forward_at (om_formula m) (cp_fwd q) (cp_vol q) (cp_time q) z)) e /\
      Rabs (cp_fwd q + floorlet_value fuel flr m floor q - caplet_value fuel flr m cap q - e) <= accuracy (om_formula m) q floor + accuracy (om_formula m) q cap) (still_due v qs) es).
    { clear -CE. induction (still_due v qs) as [|q ql IH]; [exists []; constructor|]. destruct IH as [es E]; [intros; apply CE; now right|].
      destruct (CE q (or_introl eq_refl)) as [_ [e H]]. exists (e :: es). now constructor. }
    destruct Q as [es Q]. exists es. split; [exact PV|]. split.
    - clear -Q. induction Q as [|q e ql el [E _] Q IH]; constructor; auto.
    - clear -Q. unfold leg_value. induction Q as [|q e ql el [_ E] Q IH]; cbn [map combine Rsum fst snd].
      + replace (0 + 0 - 0 - 0) with 0 by ring. rewrite Rabs_R0. lra.
      + set (A := cp_fwd q + floorlet_value fuel flr m floor q - caplet_value fuel flr m cap q - e) in *. set (B := DF (cp_pay q) * cp_weight q) in *.
        match goal with |- Rabs ?g <= _ => match type of IH with Rabs ?r <= _ => replace g with (B * A + r) by (unfold A; ring) end end.
        eapply Rle_trans; [apply Rabs_triang|]. rewrite Rabs_mult. apply Rplus_le_compat; [|exact IH].
        apply Rmult_le_compat_l; [apply Rabs_pos|exact E].
  Qed.

  (** * C119: REFUTED: a coupon fixed before the valuation date but paid later cannot be
      valued, and with it the whole leg *)
  Lemma expired_values fuel flr m d K F v t : market fuel flr m d (Some K) F K v t -> t < 0 -> v <> 0 ->
    match om_formula m with FNormal | FLogNormal | FDisplaced _ => True | _ => False end ->
    get_call_value fuel flr m d (Some K) = Err ValueError /\ get_put_value fuel flr m d (Some K) = Err ValueError.
  Proof.
    intros M T V FM. destruct (value_live _ _ _ _ _ _ _ _ _ M V ltac:(lra)) as [E1 E2]. rewrite E1, E2.
    assert (S : Rsqrtp t = Err ValueError) by (unfold Rsqrtp; destruct (Rle_dec 0 t); [lra|reflexivity]).
    destruct (om_formula m); try contradiction; cbn [call_price]; unfold normal_price, black_price, bachelier_d, black_d; cbn [bind nsqrt Rnum]; rewrite S; split; reflexivity.
  Qed.
  Theorem C119_fixed_refuted : forall fuel flr h i k v o dates amounts count fixing payo c floor cap m DF qs q,
    capped_leg fuel flr h i k v o dates amounts count fixing payo c floor cap m DF qs ->
    In q (still_due v qs) -> cp_time q < 0 -> cp_vol q <> 0 -> floor <> None \/ cap <> None ->
    match om_formula m with FNormal | FLogNormal | FDisplaced _ => True | _ => False end ->
    (forall x, ~ returns (get_present_value fuel flr (PrList i) k (Some v)) h x) /\
    forall l, seen h v i l -> cf_get fuel flr l (cp_pay q) = Err ValueError.
  Proof.
    intros fuel flr h i k v o dates amounts count fixing payo c floor cap m DF qs q CL IQ T V FC FM.
    destruct (caplet_flow _ _ _ _ _ _ _ _ _ _ _ _ _ _ _ _ _ _ CL) as (l & SE & DM & F).
    destruct (cl_disc _ _ _ _ _ _ _ _ _ _ _ _ _ _ _ _ _ _ CL) as (disc & Hk & FD).
    apply filter_In in IQ. destruct IQ as [IQ LE].
    assert (G : In (cp_pay q) dates /\ cf_get fuel flr l (cp_pay q) = Err ValueError).
    { clear -F IQ T V FC FM. induction F as [|e q' ds ql (E & r & u & R1 & R2 & R3 & R4 & R5 & R6) F IH]; [destruct IQ|].
      destruct IQ as [-> |IQ]; [|destruct (IH IQ); split; auto; now right]. rewrite E. split; [now left|]. rewrite R6.
      destruct (market_forward _ _ _ _ _ _ _ _ _ R5) as [TR FW].
      cbn [pay]. unfold cont_cashflow. cbn [pm_source].
      rewrite (rate_details_ok fuel r (om_forward m) u (cp_fix q) (cp_fwd q) c R2 R3 FW R1). cbn [bind rd_fixing rd_cashflow rd_yf].
      rewrite TR. pose proof (fun K => expired_values _ _ _ _ _ _ _ _ (market_strike _ _ _ _ _ _ _ _ _ K R5) T V FM) as X.
      destruct floor as [a|]; [rewrite (proj2 (X a)); reflexivity|]. destruct cap as [b|]; [|destruct FC; congruence]. cbn [bind]. rewrite (proj1 (X b)). reflexivity. }
    destruct G as [ID GE]. split.
    - intros x RX. apply (C40_list DS DC fuel flr h i k disc v l x Hk SE) in RX. destruct RX as (xs & FX & _). unfold due in FX. rewrite DM in FX.
      assert (I2 : In (cp_pay q) (filter (fun d => d_leb v d) dates)) by (apply filter_In; auto). clear -FX I2 GE.
      induction FX as [|d y ds ys (df & a & _ & A & _) FX IH]; [destruct I2|]. destruct I2 as [-> |I2]; auto. rewrite A in GE. discriminate.
    - intros l' (l0 & a & H1 & H2 & H3). destruct SE as (l1 & a1 & G1 & G2 & G3). rewrite H1 in G1. injection G1 as <-.
      replace l' with l; auto. rewrite H2, G2. f_equal. destruct (hl_attr l0); [| | |contradiction].
      all: try congruence. destruct H3 as (m1 & M1 & ->), G3 as (m2 & M2 & ->). rewrite M1 in M2. now injection M2 as ->.
  Qed.

  (** the same with an option expiring before and paid after the valuation date *)
  Theorem C119_option_refuted : forall fuel flr h i k v e e' d A K put fixing payo o m F vol t l j hm pm,
    nth_error (h_lists h) i = Some (mkHL l (HModel j)) ->
    optionlist_new [e] (One A) (One (Some K)) (One put) fixing payo o pm = Ok l ->
    nth_error (h_models h) j = Some hm -> m = model_view h (mkHM (Some v) (hm_model hm)) ->
    moved_back e payo e' -> moved_back e' fixing d -> market fuel flr m d None F F vol t ->
    d_leb v e = true -> t < 0 -> vol <> 0 ->
    match om_formula m with FNormal | FLogNormal | FDisplaced _ => True | _ => False end ->
    forall x, ~ returns (get_present_value fuel flr (PrList i) k (Some v)) h x.
  Proof.
    intros fuel flr h i k v e e' d A K put fixing payo o m F vol t l j hm pm HL HN HM EM M1 M2 MK LE T V FM x RX.
    destruct (nth_error (h_curves h) k) as [disc|] eqn:Hk.
    2:{ unfold returns, get_present_value, bindS, get_curve, nth_res in RX. rewrite Hk in RX. discriminate. }
    set (l' := mkCF (cf_domain l) (cf_flows l) (cf_origin0 l) (LModel (PmModel m)) (cf_rated l)).
    assert (SE : seen h v i l'). { exists (mkHL l (HModel j)). eexists. split; [exact HL|]. split; [reflexivity|]. cbn. exists hm. now rewrite EM. }
    apply (C40_list DS DC fuel flr h i k disc v l' x Hk SE) in RX. destruct RX as (xs & FX & _).
    apply moved_offset in M1, M2. unfold optionlist_new, expiry_of in HN. cbn [length spread_arg repeat combine mapM] in HN. rewrite M1 in HN. cbn [bind] in HN.
    rewrite M2 in HN. cbn in HN. injection HN as <-. unfold due, l' in FX. cbn [cf_domain filter] in FX. rewrite LE in FX.
    inversion FX as [|? ? ? ? (df & a & _ & A1 & _)]; subst. unfold cf_get, cf_flow in A1. cbn [cf_flows cf_attr attr_model map combine assoc] in A1.
    rewrite (eqb_refl (tm:=tm)) in A1. cbn [flow_value pay] in A1.
    pose proof (expired_values _ _ _ _ _ _ _ _ (market_strike _ _ _ _ _ _ _ _ _ K MK) T V FM) as [X1 X2].
    destruct put; cbn in A1; rewrite ?X1, ?X2 in A1; discriminate.
  Qed.

  (** a floor makes the leg worth at least its intrinsic value, a cap at most, if the
      discounted accruals are not negative *)
  Theorem C118_intrinsic : forall fuel flr h i k v o dates amounts count fixing payo c floor cap m DF qs,
    capped_leg fuel flr h i k v o dates amounts count fixing payo c floor cap m DF qs ->
    (forall q, In q (still_due v qs) -> 0 <= DF (cp_pay q) * cp_weight q /\ live q /\ valuable (om_formula m) q floor /\ valuable (om_formula m) q cap) ->
    let tol := leg_value DF (fun q => accuracy (om_formula m) q floor + accuracy (om_formula m) q cap) (still_due v qs) in
    (forall K, floor = Some K -> cap = None -> exists x, returns (get_present_value fuel flr (PrList i) k (Some v)) h x /\
      leg_value DF (fun q => Rmax K (cp_fwd q) + c) (still_due v qs) <= x + tol) /\
    (forall K, floor = None -> cap = Some K -> exists x, returns (get_present_value fuel flr (PrList i) k (Some v)) h x /\
      x <= leg_value DF (fun q => Rmin (cp_fwd q) K + c) (still_due v qs) + tol).
  Proof.
    intros fuel flr h i k v o dates amounts count fixing payo c floor cap m DF qs CL HV tol.
    pose proof (due_market _ _ _ _ _ _ _ _ _ _ _ _ _ _ _ _ _ _ CL) as MK.
    assert (MEAN : forall q, live q -> expectation (PStrikes.forward_at (om_formula m) (cp_fwd q) (cp_vol q) (cp_time q)) (cp_fwd q)).
    { intros q [T | NT]; [now apply forward_mean|]. generalize (expectation_const (cp_fwd q)). apply expectation_ext. intros z. now rewrite still_forward. }
    assert (SM : forall f g ql, (forall q, In q ql -> In q (still_due v qs)) -> (forall q, In q ql -> f q <= g q) -> leg_value DF f ql <= leg_value DF g ql).
    { clear -HV. intros f g ql S LE. unfold leg_value. induction ql as [|q ql IH]; cbn [map Rsum]; [lra|]. apply Rplus_le_compat.
      - apply Rmult_le_compat_l; [apply (HV q (S q (or_introl eq_refl)))|apply LE; now left].
      - apply IH; intros; [apply S|apply LE]; now right. }
    assert (ADD : forall f g ql, leg_value DF f ql + leg_value DF g ql = leg_value DF (fun q => f q + g q) ql).
    { clear. intros f g ql. unfold leg_value. induction ql as [|q ql IH]; cbn [map Rsum]; [lra|]. rewrite <- IH. ring. }
    assert (SUB : forall f g ql, leg_value DF f ql - leg_value DF g ql = leg_value DF (fun q => f q - g q) ql).
    { clear. intros f g ql. unfold leg_value. induction ql as [|q ql IH]; cbn [map Rsum]; [lra|]. rewrite <- IH. ring. }
    assert (O : forall K, floor = Some K /\ cap = None \/ floor = None /\ cap = Some K -> ordered floor cap) by (intros K [[-> ->]|[-> ->]]; exact Logic.I).
    split; intros K E1 E2; specialize (O K ltac:(auto));
      pose proof (fun q I => coupon_expected fuel flr m floor cap q (MK q I) O (proj1 (proj2 (HV q I))) (proj1 (proj2 (proj2 (HV q I)))) (proj2 (proj2 (proj2 (HV q I))))) as CE;
      (eexists; split; [exact (C118_decomposition _ _ _ _ _ _ _ _ _ _ _ _ _ _ _ _ _ _ (floorlet_value fuel flr m floor) (caplet_value fuel flr m cap) CL (fun q I => proj1 (CE q I)))|]);
      unfold tol; rewrite ADD, SUB, ADD; apply SM; auto; intros q I; destruct (CE q I) as [_ (e & EE & AE)];
      pose proof (MEAN q (proj1 (proj2 (HV q I)))) as ME;
      pose proof (Rle_abs (cp_fwd q + floorlet_value fuel flr m floor q - caplet_value fuel flr m cap q - e)) as B1;
      pose proof (Rle_abs (- (cp_fwd q + floorlet_value fuel flr m floor q - caplet_value fuel flr m cap q - e))) as B2; rewrite Rabs_Ropp in B2;
      subst floor cap; cbn [collared] in EE.
    - assert (cp_fwd q <= e) by (refine (expectation_le _ _ _ _ _ ME EE); intros z; apply Rmax_r).
      assert (K <= e) by (refine (expectation_le _ _ _ _ _ (expectation_const K) EE); intros z; apply Rmax_l).
      assert (Rmax K (cp_fwd q) <= e) by now apply Rmax_lub. lra.
    - assert (e <= cp_fwd q) by (refine (expectation_le _ _ _ _ _ EE ME); intros z; apply Rmin_l).
      assert (e <= K) by (refine (expectation_le _ _ _ _ _ EE (expectation_const K)); intros z; apply Rmin_r).
      assert (e <= Rmin (cp_fwd q) K) by now apply Rmin_glb. lra.
  Qed.
End Caps.

(** a leg of two coupons on 100, half a year each, capped at 4% and floored at 1%, in a Black model with
    forward rate 3% and volatility 20%: worth its expected payments a quarter before the
    first fixing, and without value a quarter after it *)
#[local] Instance no_names : DayCounts R R := [].
Definition flat_model (cs : list (rcurve R R (fperiod R))) : omodel R R (fperiod R) :=
  mkOM FLogNormal default_gconst None (FwNum (3 / 100)) (VoNum (1 / 5)) None false.

Example C118_instance : exists (h : heap R R (fperiod R)) DF DF' qs qs' m m' n,
  capped_leg FloatDates (fun x => x) no_names n None h 0 0 (1 / 4) (1 / 2) [1; 3 / 2] [100; 100] DcDefault None None 0 (Some (1 / 100)) (Some (4 / 100)) m DF qs /\
  still_due FloatDates (1 / 4) qs = qs /\ length qs = 2%nat /\
  (forall q, In q qs -> 0 <= DF (cp_pay q) * cp_weight q /\ live q /\ valuable (om_formula m) q (Some (1 / 100)) /\ valuable (om_formula m) q (Some (4 / 100))) /\
  capped_leg FloatDates (fun x => x) no_names n None h 0 0 (3 / 4) (1 / 2) [1; 3 / 2] [100; 100] DcDefault None None 0 (Some (1 / 100)) (Some (4 / 100)) m' DF' qs' /\
  exists q, In q (still_due FloatDates (3 / 4) qs') /\ cp_pay q = 1 /\ cp_time q < 0 /\ cp_vol q <> 0 /\
  forall x, ~ returns (get_present_value n None (PrList 0) 0 (Some (3 / 4))) h x.
Proof.
  destruct (flat_zero (DC := no_names) (L:=float_laws) 0 (5 / 100) None) as (disc & ED & OD & _ & DF).
  assert (TR : forall x : R, x <> 0 -> ntruthy x = true) by (intros x X; unfold ntruthy; cbn; unfold Reqb; destruct (Req_EM_T x 0); [lra|reflexivity]).
  assert (OL : exists l, contrate_new (DS := FloatDates (T:=R)) [1; 3 / 2] (Many [100; 100]) (Some (1 / 2)) DcDefault None None 0 (Some (4 / 100)) (Some (1 / 100)) (PmSource FwNone) = Ok l).
  { unfold contrate_new. cbn [cont_start_dates d_truthy FloatDates]. rewrite TR by lra. eexists. reflexivity. }
  destruct OL as (l & EL). set (h := mkH [disc] [mkHM None flat_model] [mkHL l (HModel 0)]).
  set (m := fun v : R => model_view h (mkHM (Some v) flat_model)).
  assert (CL : forall v, 0 < v < 1 -> capped_leg FloatDates (fun x => x) no_names 2 None h 0 0 v (1 / 2) [1; 3 / 2] [100; 100] DcDefault None None 0 (Some (1 / 100)) (Some (4 / 100))
    (m v) (fun e => exp (- (5 / 100 * (e - v))))
    [mkCap R 1 (1 / 2) 50 (3 / 100) (1 / 5) (1 / 2 - v); mkCap R (3 / 2) 1 50 (3 / 100) (1 / 5) (1 - v)]).
  { intros v V.
    assert (MK : forall d, market 2 None (m v) d None (3 / 100) (3 / 100) (1 / 5) (d - v)).
    { intros d. exists (Some (1 / 5)). split; [|now left]. unfold m, model_view, flat_model, om_details. cbn [om_forward om_vol hm_model hm_valuation fw_value vo_value bind rmap].
      rewrite !TR by lra. reflexivity. }
    constructor.
    - exists l, 0%nat, (mkHM None flat_model), (PmSource FwNone). repeat split; auto.
    - apply TR. lra.
    - simpl. repeat constructor; simpl; intuition lra.
    - constructor; [|constructor; [|constructor]].
      + split; [reflexivity|]. exists (1 / 2), 1, (1 - 1 / 2). repeat (split; [reflexivity|]). split; [cbn; lra|]. apply MK.
      + split; [reflexivity|]. exists 1, (3 / 2), (3 / 2 - 1). repeat (split; [reflexivity|]). split; [cbn; lra|]. apply MK.
    - exists disc. split; [reflexivity|]. intros e _ _. apply DF. }
  assert (LT : forall a b : R, a <= b -> d_leb (DateSys := FloatDates (T:=R)) a b = true) by (intros; now apply (leb_t (L:=float_laws))).
  exists h. do 7 eexists. split; [apply (CL (1 / 4)); lra|]. split.
  { unfold still_due. cbn [filter cp_pay]. rewrite !(LT (1 / 4)) by lra. reflexivity. }
  split; [reflexivity|]. split.
  { intros q [<- |[<- |[]]]; cbn [cp_pay cp_weight].
    all: split; [apply Rmult_le_pos; [left; apply exp_pos|lra]|]. all: split; [left; cbn; lra|]. all: split; left; cbn; repeat split; lra. }
  pose proof (CL (3 / 4) ltac:(lra)) as C2. split; [exact C2|].
  eexists.
  match type of C2 with capped_leg _ _ _ _ _ _ _ _ _ _ _ _ _ _ _ _ _ _ _ _ (?q :: ?ql) =>
    assert (I : In q (still_due FloatDates (3 / 4) (q :: ql))) by (unfold still_due; cbn [filter cp_pay]; rewrite (LT (3 / 4) 1) by lra; now left) end.
  split; [exact I|]. cbn [cp_pay cp_time cp_vol]. split; [reflexivity|]. split; [lra|]. split; [lra|].
  refine (proj1 (C119_fixed_refuted FloatDates (fun x => x) no_names float_laws _ _ _ _ _ _ _ _ _ _ _ _ _ _ _ _ _ _ _ C2 I _ _ _ _)); cbn; try lra; left; discriminate.
Qed.
Print Assumptions C118_decomposition.
Print Assumptions C118_locked.
Print Assumptions C118_expected.
Print Assumptions C118_intrinsic.
Print Assumptions C119_fixed_refuted.
Print Assumptions C119_option_refuted.
