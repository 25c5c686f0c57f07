(** Property C47: accrued interest. *)
From Coq Require Import Reals Lra Lia List Bool ZArith Sorted.
From Verif Require Import Num Py Spec MDates MCurve MRateCurve MOption MCashflow MBracket MPricer
  SDates SRateCurve SCashflow SPricer SYield LBase LSort LDates LDateCurve LCashflow LRateCurve LPricer
  LPricer2 LAccrued LOption PCashflow.
Import ListNotations.
Open Scope R_scope.

Section Accrued.
  Context {D P : Type} (DS : DateSys R D P) (DC : DayCounts R D) (tm : D -> R) (L : DateLaws DS tm).
  Implicit Types (h : heap R D P) (l : cflist R D P) (v s e : D) (dates : list D).

  (** what one payment date contributes *)
  Lemma period_accrues : forall fuel flr dates amounts o count tau fixing payo c fwd l v i s e x,
    additive (pay_count count) tau -> no_offset payo -> NoDup (map tm dates) ->
    ratelist_new dates (Many amounts) (Some o) count fixing payo c fwd = Ok l ->
    nth_error (o :: dates) i = Some s -> nth_error dates i = Some e ->
    tm s < tm v <= tm e -> cf_get fuel flr l e = Ok x ->
    accrued_flow fuel flr l v e = Ok (x * (tau s v / tau s e)).
  Proof.
    intros fuel flr dates amounts o count tau fixing payo c fwd l v i s e x A NO ND H Hs He [V1 V2] X.
    unfold ratelist_new in H. cbn [start_dates bind spread_arg] in H.
    destruct (rates_inv (tm:=tm) (fun r => FlPay (PRate r)) _ _ _ _ _ _ _ _ _ _ H ND) as (LEN & _ & AT & C).
    assert (Ha : exists a, nth_error amounts i = Some a).
    { destruct (nth_error amounts i) eqn:E; eauto. apply nth_error_None in E.
      assert (i < length dates)%nat by (apply nth_error_Some; congruence). lia. }
    destruct Ha as [a Ha]. destruct (C i s e a Hs He Ha) as (s' & e' & M1 & M2 & F).
    apply moved_offset in M1, M2. rewrite offset_none in M1, M2 by auto. injection M1 as <-. injection M2 as <-.
    specialize (F e (eqb_refl (L:=L) e)).
    unfold accrued_flow. rewrite (proj2 (law_leb v e)) by auto. unfold cf_payoff. rewrite F.
    cbn [rp_start rp_end rp_count]. rewrite (proj2 (law_ltb s v)) by auto.
    rewrite !(add_val _ _ A). cbn [bind]. rewrite AT.
    unfold cf_get, cf_flow in X. rewrite F, AT in X. cbn [flow_value attr_model] in X. rewrite X. cbn [bind].
    change (ndiv (tau v e) (tau s e)) with (Rdivp (tau v e) (tau s e)).
    assert (NZ : tau s e <> 0). { intros Z. apply (add_zero _ _ A) in Z. apply (eqb_inv (tm:=tm)) in Z. lra. }
    rewrite Rdivp_ok by auto. cbn [bind]. f_equal. change (nmul x (nsub n1 (tau v e / tau s e))) with (x * (1 - tau v e / tau s e)).
    rewrite <- (add_add _ _ A s v e) in *. field. auto.
  Qed.

  Lemma period_silent : forall fuel flr dates amounts o count fixing payo c fwd l v i s e,
    no_offset payo -> NoDup (map tm dates) ->
    ratelist_new dates (Many amounts) (Some o) count fixing payo c fwd = Ok l ->
    nth_error (o :: dates) i = Some s -> nth_error dates i = Some e ->
    tm v <= tm s \/ tm e < tm v ->
    accrued_flow fuel flr l v e = Ok 0.
  Proof.
    intros fuel flr dates amounts o count fixing payo c fwd l v i s e NO ND H Hs He V.
    unfold ratelist_new in H. cbn [start_dates bind spread_arg] in H.
    destruct (rates_inv (tm:=tm) (fun r => FlPay (PRate r)) _ _ _ _ _ _ _ _ _ _ H ND) as (LEN & _ & AT & C).
    assert (Ha : exists a, nth_error amounts i = Some a).
    { destruct (nth_error amounts i) eqn:E; eauto. apply nth_error_None in E.
      assert (i < length dates)%nat by (apply nth_error_Some; congruence). lia. }
    destruct Ha as [a Ha]. destruct (C i s e a Hs He Ha) as (s' & e' & M1 & M2 & F).
    apply moved_offset in M1, M2. rewrite offset_none in M1, M2 by auto. injection M1 as <-. injection M2 as <-.
    specialize (F e (eqb_refl (L:=L) e)). unfold accrued_flow. destruct (d_leb v e) eqn:LE; [|reflexivity].
    apply law_leb in LE. destruct V as [V|V]; [|lra]. unfold cf_payoff. rewrite F. cbn [rp_start].
    replace (d_ltb s v) with false; [reflexivity|]. symmetry. apply not_true_is_false. intros Q. apply law_ltb in Q. lra.
  Qed.

  (** within a period the accrued interest is the coupon times the elapsed share of the
      period *)
  Theorem C47_period : forall fuel flr h k dates amounts o count tau fixing payo c src l v i s e x,
    additive (pay_count count) tau -> no_offset payo -> increasing (map tm (o :: dates)) ->
    ratelist_new dates (Many amounts) (Some o) count fixing payo c (src (h_curves h)) = Ok l ->
    nth_error (h_lists h) k = Some (mkHL l (HForward src)) ->
    nth_error (o :: dates) i = Some s -> nth_error dates i = Some e ->
    tm s < tm v <= tm e -> pays fuel flr l e x ->
    returns (get_interest_accrued fuel flr (PrList k) v) h (x * (tau s v / tau s e)).
  Proof.
    intros fuel flr h k dates amounts o count tau fixing payo c src l v i s e x A NO INC H Hl Hs He V X.
    assert (ND : NoDup (map tm dates)) by (cbn [map] in INC; inversion INC; subst; now apply incr_nodup).
    specialize (X e (eqb_refl (L:=L) e)).
    destruct (nth_error_split _ _ He) as (pre & post & E & LE).
    assert (Es : s = last pre o).
    { rewrite E in Hs. rewrite <- LE in Hs. rewrite (nth_last pre o (e :: post)) in Hs. congruence. }
    assert (AT : cf_attr l = LForward (src (h_curves h)) /\ cf_domain l = dates).
    { pose proof H as H'. unfold ratelist_new in H'. cbn [start_dates bind spread_arg] in H'.
      destruct (rates_inv (tm:=tm) (fun r => FlPay (PRate r)) _ _ _ _ _ _ _ _ _ _ H' ND) as (_ & Q1 & Q2 & _). auto. }
    destruct AT as [AT HD]. unfold returns, get_interest_accrued. rewrite (accrued_run fuel flr h k l src v Hl AT), HD.
    rewrite <- (periods_snd dates o) at 1. rewrite mapM_map.
    set (g := fun se : D * D => if d_eqb (snd se) e then x * (tau s v / tau s e) else 0).
    assert (M : mapM (fun se => accrued_flow fuel flr l v (snd se)) (periods o dates) = Ok (map g (periods o dates))).
    { apply mapM_ok. intros [s1 e1] I. cbn [snd]. destruct (periods_in _ _ _ _ I) as (j & J1 & J2).
      unfold g. cbn [snd]. destruct (d_eqb e1 e) eqn:Q.
      - apply (eqb_inv (tm:=tm)) in Q.
        assert (j = i). { apply (NoDup_nth_error (map tm dates)); auto.
          - rewrite map_length. apply nth_error_Some. congruence.
          - rewrite (map_nth_error tm _ _ J2), (map_nth_error tm _ _ He). congruence. }
        subst j. assert (e1 = e) by congruence. subst e1. assert (s1 = s) by congruence. subst s1.
        eapply period_accrues; eauto.
      - apply (eqb_finv (tm:=tm)) in Q. eapply period_silent; eauto.
        assert (INC' := INC). rewrite E in INC', I.
        rewrite periods_app in I. apply in_app_or in I. destruct I as [I|I].
        + right. assert (tm e1 <= tm s); [|lra]. rewrite Es. eapply periods_before; eauto.
          cbn [map] in *. rewrite map_app in INC'. change (tm o :: map tm pre ++ map tm (e :: post)) with ((tm o :: map tm pre) ++ map tm (e :: post)) in INC'.
          apply ss_app_inv in INC'. tauto.
        + left. rewrite <- Es in I. destruct I as [I|I]; [congruence|].
          assert (tm e <= tm s1); [|lra]. eapply periods_after; eauto.
          cbn [map] in *. rewrite map_app in INC'. change (tm o :: map tm pre ++ map tm (e :: post)) with ((tm o :: map tm pre) ++ map tm (e :: post)) in INC'.
          apply ss_app_inv in INC'. tauto. }
    rewrite M. cbn [rmap]. rewrite nsum_Rsum. do 2 f_equal.
    rewrite E, periods_app. cbn [periods]. rewrite map_app. cbn [map]. rewrite Rsum_app. cbn [Rsum].
    rewrite !Rsum_zero.
    - unfold g. cbn [snd]. rewrite (eqb_refl (L:=L)). lra.
    - intros [s1 e1] I. unfold g. cbn [snd]. replace (d_eqb e1 e) with false; auto. symmetry. apply (eqb_f (tm:=tm)).
      intros Q. rewrite E in ND. rewrite map_app in ND. cbn [map] in ND. apply NoDup_remove_2 in ND. apply ND.
      apply in_or_app. right. rewrite <- Q. apply in_map. rewrite <- (periods_snd post e). now apply (in_map snd _ (s1, e1)).
    - intros [s1 e1] I. unfold g. cbn [snd]. replace (d_eqb e1 e) with false; auto. symmetry. apply (eqb_f (tm:=tm)).
      intros Q. rewrite E in ND. rewrite map_app in ND. cbn [map] in ND. apply NoDup_remove_2 in ND. apply ND.
      apply in_or_app. left. rewrite <- Q. apply in_map. rewrite <- (periods_snd pre o). now apply (in_map snd _ (s1, e1)).
  Qed.

  (** outside of the periods nothing has accrued *)
  Theorem C47_outside : forall fuel flr h k dates amounts o count fixing payo c src l v,
    no_offset payo -> NoDup (map tm dates) ->
    ratelist_new dates (Many amounts) (Some o) count fixing payo c (src (h_curves h)) = Ok l ->
    nth_error (h_lists h) k = Some (mkHL l (HForward src)) ->
    (forall i s e, nth_error (o :: dates) i = Some s -> nth_error dates i = Some e ->
       ~ (tm s < tm v <= tm e)) ->
    returns (get_interest_accrued fuel flr (PrList k) v) h 0.
  Proof.
    intros fuel flr h k dates amounts o count fixing payo c src l v NO ND H Hl V.
    assert (AT : cf_attr l = LForward (src (h_curves h)) /\ cf_domain l = dates).
    { pose proof H as H'. unfold ratelist_new in H'. cbn [start_dates bind spread_arg] in H'.
      destruct (rates_inv (tm:=tm) (fun r => FlPay (PRate r)) _ _ _ _ _ _ _ _ _ _ H' ND) as (_ & Q1 & Q2 & _). auto. }
    destruct AT as [AT HD]. unfold returns, get_interest_accrued. rewrite (accrued_run fuel flr h k l src v Hl AT), HD.
    rewrite <- (periods_snd dates o) at 1. rewrite mapM_map.
    rewrite (mapM_ok _ (fun _ => 0)).
    - cbn [rmap]. rewrite nsum_Rsum, Rsum_zero; auto.
    - intros [s e] I. cbn [snd]. destruct (periods_in _ _ _ _ I) as (j & J1 & J2).
      eapply period_silent; eauto. specialize (V j s e J1 J2). lra.
  Qed.

  (** the share grows from 0 to 1 within the period, so the accrued interest lies between
      zero and the coupon and reaches it at the end *)
  Theorem C47_share : forall count tau s v e,
    additive (pay_count count) tau -> monotone tau -> tm s < tm v <= tm e ->
    0 < tau s v / tau s e <= 1 /\ (tm v = tm e -> tau s v / tau s e = 1) /\
    forall v', tm s < tm v' <= tm e -> tm v < tm v' -> tau s v / tau s e < tau s v' / tau s e.
  Proof.
    intros count tau s v e A M V.
    assert (LT : forall a b, tm a < tm b -> 0 < tau a b) by (intros a b Q; apply M, law_ltb; auto).
    pose proof (LT s v ltac:(lra)). pose proof (LT s e ltac:(lra)).
    assert (EQ : tm v = tm e -> tau v e = 0).
    { intros Q. apply (add_zero _ _ A), (eqb_t (tm:=tm)), Q. }
    assert (VE : 0 <= tau v e). { destruct (Req_dec (tm v) (tm e)) as [Q|Q]; [rewrite EQ; auto; lra|]. left. apply LT. lra. }
    pose proof (add_add _ _ A s v e) as AD. split; [|split].
    - split; [apply Rdiv_lt_0_compat; auto|]. apply (Rmult_le_reg_r (tau s e)); auto.
      unfold Rdiv. rewrite Rmult_assoc, Rinv_l by lra. lra.
    - intros Q. rewrite <- AD, (EQ Q). field. lra.
    - intros v' V' LV. pose proof (LT v v' LV). pose proof (add_add _ _ A s v v').
      unfold Rdiv. apply Rmult_lt_compat_r; [now apply Rinv_0_lt_compat|lra].
  Qed.

  (** other flows do not accrue *)
  Theorem C47_fixed : forall fuel flr h k l v,
    nth_error (h_lists h) k = Some (mkHL l HNone) ->
    (forall d f, cf_payoff l d = Some f -> (exists x, f = FlNum x) \/ (exists x, f = FlPay (PFixed x))) ->
    returns (get_interest_accrued fuel flr (PrList k) v) h 0.
  Proof.
    intros fuel flr h k l v Hl HF. unfold returns, get_interest_accrued, accrued_list, bindS, get_list, view, list_view, attr_view, lift, ret.
    rewrite (nth_res_some _ _ _ Hl). cbn [hl_attr hl_list bind cf_domain].
    rewrite (mapM_ok _ (fun _ => 0)).
    - rewrite nsum_Rsum, Rsum_zero; auto.
    - intros d _. unfold accrued_flow. destruct (d_leb v d); auto. unfold cf_payoff in *. cbn [cf_flows].
      destruct (assoc d_eqb d (cf_flows l)) as [f|] eqn:E; auto.
      destruct (HF d f E) as [[x ->]|[x ->]]; reflexivity.
  Qed.

  (** the accrued interest of a leg list is the sum of those of its legs *)
  Theorem C47_legs : forall fuel flr h legs dom o v x,
    returns (get_interest_accrued fuel flr (PrLegs legs dom o) v) h x <->
    exists xs, Forall2 (fun k y => returns (get_interest_accrued fuel flr (PrList k) v) h y) legs xs /\ x = Rsum xs.
  Proof.
    intros fuel flr h legs dom o v x. unfold returns, get_interest_accrued, bindS, ret. split.
    - intros H. destruct (mapS (accrued_list fuel flr v) legs h) as [[xs|e] h1] eqn:E; [|discriminate].
      apply mapS_pure_inv in E.
      + destruct E as [-> F]. exists xs. split; auto. rewrite nsum_Rsum in H. congruence.
      + intros k h0 y h0'. unfold accrued_list, bindS, get_list, view, lift, ret. intros Q.
        destruct (nth_res (h_lists h0) k) as [l|]; [|congruence]. destruct (list_view h0 l); [|congruence].
        destruct (mapM _ _); congruence.
    - intros (xs & F & ->). rewrite (mapS_pure _ h legs xs F). now rewrite nsum_Rsum.
  Qed.
End Accrued.
Print Assumptions C47_period.
Print Assumptions C47_outside.
Print Assumptions C47_share.
Print Assumptions C47_fixed.
Print Assumptions C47_legs.

#[local] Instance no_counts {D} : DayCounts R D := [].

(** instance: a coupon of 10 for the period from 1 to 3, a quarter of it over *)
Example C47_example : exists l,
  ratelist_new (DS := FloatDates (T:=R)) [1; 3] (Many [100; 100]) (Some 0) DcDefault None None (5/100) FwNone = Ok l /\
  let h := mkH [] [] [mkHL l (HForward (fun _ => FwNone))] in
  returns (get_interest_accrued 0 None (PrList 0) (3/2)) h (5/2).
Proof.
  assert (ND : NoDup (map (fun d : R => d) [1; 3])) by (repeat constructor; cbn; intuition lra).
  destruct (C38_total FloatDates [1; 3] [100; 100] 0 DcDefault None None (5/100) FwNone I) as (T & _ & _).
  destruct (T ltac:(cbn; lia)) as (l & E). clear T. exists l. split; auto. cbv zeta.
  set (h := mkH [] [] [mkHL l (HForward (fun _ => FwNone))]).
  pose proof (C38_flow FloatDates no_counts (fun d => d) float_laws 0 None [1; 3] [100; 100] 0 DcDefault None None (5/100) FwNone l E ND
    1 1 3 100 1 3 1 0 2 eq_refl eq_refl eq_refl eq_refl eq_refl eq_refl eq_refl) as X.
  assert (T2 : pay_count (DS:=FloatDates) DcDefault 1 3 = Ok 2) by (change (@Ok R (3 - 1) = Ok 2); f_equal; lra).
  specialize (X T2).
  pose proof (C47_period FloatDates no_counts (fun d => d) float_laws 0 None h 0 [1; 3] [100; 100] 0 DcDefault (fun a b => b - a) None None
    (5/100) (fun _ => FwNone) l (3/2) 1 1 3 ((5 / 100 + 0) * 2 * 100) (yf_additive (L:=float_laws)) I) as Q.
  replace (5/2) with ((5 / 100 + 0) * 2 * 100 * ((3 / 2 - 1) / (3 - 1))) by lra. apply Q; auto; try lra.
  repeat constructor; cbn; lra.
Qed.

(** REFUTED with pay offset: between the end of a period and its payment date more than
      the coupon accrues, here 5/4 of it *)
Theorem C47_pay_offset_refuted : exists l,
  ratelist_new (DS := FloatDates (T:=R)) [1; 2] (Many [100; 100]) (Some 0) DcDefault None (Some (FP (1/4))) (5/100) FwNone = Ok l /\
  (forall d, In d [1; 2] -> cf_get 0 None l d = Ok 5) /\
  let h := mkH [] [] [mkHL l (HForward (fun _ => FwNone))] in
  returns (get_interest_accrued 0 None (PrList 0) (7/8)) h (25/4).
Proof.
  assert (ND : NoDup (map (fun d : R => d) [1; 2])) by (repeat constructor; cbn; intuition lra).
  assert (OF : forall d : R, offset (DS:=FloatDates) d (Some (FP (1/4))) = Ok (d - 1/4)).
  { intros d. unfold offset. cbn [p_truthy FloatDates]. rewrite (truthy_ne (1/4)) by lra. reflexivity. }
  assert (E : exists l, ratelist_new (DS := FloatDates (T:=R)) [1; 2] (Many [100; 100]) (Some 0) DcDefault None (Some (FP (1/4))) (5/100) FwNone = Ok l).
  { unfold ratelist_new. cbn [start_dates bind spread_arg]. unfold rate_payoffs. cbn [removelast combine mapM].
    rewrite !OF. cbn [bind map]. rewrite cf_new_ok by reflexivity. eauto. }
  destruct E as (l & E). exists l. split; [exact E|].
  pose proof E as E'. unfold ratelist_new in E'. cbn [start_dates bind spread_arg] in E'.
  destruct (rates_inv (L:=float_laws) (fun r => FlPay (PRate r)) _ _ _ _ _ _ _ _ _ _ E' ND) as (_ & HD & AT & C).
  destruct (C 0%nat 0 1 100 eq_refl eq_refl eq_refl) as (s1 & e1 & M1 & M2 & F1).
  destruct (C 1%nat 1 2 100 eq_refl eq_refl eq_refl) as (s2 & e2 & M3 & M4 & F2).
  apply moved_offset in M1, M2, M3, M4. rewrite OF in M1, M2, M3, M4.
  injection M1 as <-. injection M2 as <-. injection M3 as <-. injection M4 as <-.
  specialize (F1 1 (eqb_refl (L:=float_laws) 1)). specialize (F2 2 (eqb_refl (L:=float_laws) 2)).
  assert (PAY : forall s e, e - s = 1 -> pay (DS:=FloatDates) 0 None (PRate (mkRP s e 100 DcDefault None (Some (5/100)))) (PmSource FwNone) = Ok 5).
  { intros s e Q. cbn [pay]. rewrite (rate_details_ok (DS:=FloatDates) 0 _ _ (e - s) s 0 (5/100)); cbn; auto.
    f_equal. rewrite Q. lra. }
  split.
  - intros d [<-|[<-|[]]]; unfold cf_get, cf_flow; [rewrite F1|rewrite F2]; rewrite AT; cbn [flow_value attr_model]; apply PAY; lra.
  - cbv zeta. unfold returns, get_interest_accrued.
    rewrite (accrued_run 0 None (mkH [] [] [mkHL l (HForward (fun _ => FwNone))]) 0 l (fun _ => FwNone) (7/8) eq_refl AT), HD. cbn [mapM].
    assert (B1 : Rleb (7/8) 1 = true) by (apply Rleb_true; lra).
    assert (B2 : Rleb (7/8) 2 = true) by (apply Rleb_true; lra).
    assert (B3 : Rltb (0 - 1/4) (7/8) = true) by (apply Rltb_true; lra).
    assert (B4 : Rltb (1 - 1/4) (7/8) = true) by (apply Rltb_true; lra).
    assert (Q1 : accrued_flow (DS:=FloatDates) 0 None l (7/8) 1 = Ok (45/8)).
    { unfold accrued_flow, cf_payoff. cbn [d_leb FloatDates nleb Rnum]. rewrite B1, F1. cbn [rp_start rp_end rp_count d_ltb FloatDates nltb Rnum].
      rewrite B3, AT, PAY by lra. cbn [pay_count d_yf FloatDates yf_float bind].
      change (ndiv (nsub (1 - 1/4) (7/8)) (nsub (1 - 1/4) (0 - 1/4))) with (Rdivp (1 - 1/4 - 7/8) (1 - 1/4 - (0 - 1/4))).
      rewrite Rdivp_ok by lra. cbn [bind]. f_equal. rn. lra. }
    assert (Q2 : accrued_flow (DS:=FloatDates) 0 None l (7/8) 2 = Ok (5/8)).
    { unfold accrued_flow, cf_payoff. cbn [d_leb FloatDates nleb Rnum]. rewrite B2, F2. cbn [rp_start rp_end rp_count d_ltb FloatDates nltb Rnum].
      rewrite B4, AT, PAY by lra. cbn [pay_count d_yf FloatDates yf_float bind].
      change (ndiv (nsub (2 - 1/4) (7/8)) (nsub (2 - 1/4) (1 - 1/4))) with (Rdivp (2 - 1/4 - 7/8) (2 - 1/4 - (1 - 1/4))).
      rewrite Rdivp_ok by lra. cbn [bind]. f_equal. rn. lra. }
    rewrite Q1, Q2. cbn [bind rmap]. rewrite nsum_Rsum. cbn [Rsum]. do 2 f_equal. lra.
Qed.
Print Assumptions C47_pay_offset_refuted.

(** REFUTED for rate lists with caps and floors: they have no forward curve to ask for, so
    accrued interest within one of their periods cannot be computed *)
Theorem C47_contingent_refuted : exists l,
  contrate_new (DS := FloatDates (T:=R)) [2] (One 100) (Some 1) DcDefault None None (5/100) None None (PmSource FwNone) = Ok l /\
  cf_get 0 None l 2 = Ok 5 /\
  let h := mkH [] [] [mkHL l (HOther (PmSource FwNone))] in
  get_interest_accrued 0 None (PrList 0) (3/2) h = (Err AttributeError, h).
Proof.
  unfold contrate_new. cbn [cont_start_dates d_truthy FloatDates].
  rewrite (truthy_ne 1) by lra. cbn [bind rate_payoffs combine removelast spread_arg length repeat mapM offset map].
  eexists. split; [reflexivity|].
  assert (R1 : Reqb 2 2 = true) by (apply Reqb_refl).
  split.
  - unfold cf_get, cf_flow. cbn [cf_flows dict_of fold_left assoc_set fst snd combine assoc d_eqb FloatDates spread_arg]. rn. rewrite R1.
    cbn [flow_value attr_model cf_attr pay]. unfold cont_cashflow. cbn [pm_source].
    rewrite (rate_details_ok (DS:=FloatDates) 0 _ _ (2 - 1) 1 0 (5/100)); cbn; auto; try reflexivity.
    f_equal. lra.
  - cbv zeta. unfold get_interest_accrued, accrued_list, bindS, get_list, view, list_view, attr_view, lift, ret.
    cbn [h_lists nth_res nth_error hl_attr bind hl_list cf_domain cf_flows cf_origin0 cf_rated mapM].
    unfold accrued_flow, cf_payoff. cbn [d_leb FloatDates nleb Rnum cf_flows dict_of fold_left assoc_set fst snd combine assoc d_eqb spread_arg cf_attr].
    rn. rewrite R1. replace (Rleb (3/2) 2) with true by (symmetry; apply Rleb_true; lra). cbn [rp_start rp_count rp_end d_ltb FloatDates].
    rn. replace (Rltb 1 (3/2)) with true by (symmetry; apply Rltb_true; lra). reflexivity.
Qed.
Print Assumptions C47_contingent_refuted.
