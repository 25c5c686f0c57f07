(** Property C101: rebuilding a cash flow list from its constructor arguments,
    [type(l)( **l.kwargs )] (dcf/cashflows/cashflow.py:57-78). *)
From Coq Require Import Reals Lra Lia ZArith List Bool.
From Verif Require Import Num Py Spec MPlans MDates MCurve MRateCurve MOption MCashflow MListArgs
  SDates SOption SCashflow LBase LSort LDates LDateCurve2 LCast LOption LCashflow PDateCurve.
Import ListNotations.
Open Scope R_scope.

Section Rebuild.
  Context {D P : Type} (DS : DateSys R D P) (DC : DayCounts R D) (tm : D -> R) (L : DateLaws DS tm).
  Implicit Types (l : cflist R D P) (dates : list D) (origin : option D).

  Lemma dict_of_fun {V} (F : D -> V) (ds : list D) x : (forall a b, tm a = tm b -> F a = F b) ->
    assoc d_eqb x (dict_of d_eqb (combine ds (map F ds))) = if mem d_eqb x ds then Some (F x) else None.
  Proof.
    intros HF. destruct (mem d_eqb x ds) eqn:E.
    - unfold mem in E. apply existsb_exists in E. destruct E as (k & I & E).
      rewrite (dict_get (tm:=tm)).
      assert (IC : In (k, F k) (rev (combine ds (map F ds)))).
      { apply -> in_rev. clear -I. induction ds; cbn in *; [easy|]. destruct I as [->|I]; auto. }
      destruct (assoc_in_some _ x _ _ IC E) as [w W]. rewrite W.
      apply assoc_some_in in W. destruct W as (k' & I' & E'). apply in_rev in I'.
      assert (w = F k').
      { clear -I'. induction ds as [|a ds IH]; cbn in *; [easy|]. destruct I' as [H|H]; auto. now injection H as -> <-. }
      subst w. f_equal. apply HF. now apply (eqb_inv (tm:=tm)).
    - apply (dict_none (tm:=tm)). intros k v I. apply in_combine_l in I. unfold mem in E.
      destruct (d_eqb k x) eqn:F'; auto. rewrite <- E. symmetry. apply existsb_exists. eauto.
  Qed.

  (** what the list holds at a payment date *)
  Definition held l (d : D) : amount R D P :=
    match assoc d_eqb d (cf_flows l) with Some f => amount_of f | None => AName end.
  Lemma held_congr l a b : tm a = tm b -> held l a = held l b.
  Proof. intros E. unfold held. now rewrite (assoc_congr (tm:=tm) _ _ _ E). Qed.

  Lemma made_some l d : made l -> mem d_eqb d (cf_domain l) = true -> exists f, assoc d_eqb d (cf_flows l) = Some f.
  Proof.
    intros (ds & am & o & at_ & ra & H) M. destruct (cf_new_inv _ _ _ _ _ _ H) as [LE ->]. cbn in *.
    rewrite (dict_get (tm:=tm)). unfold mem in M. apply existsb_exists in M. destruct M as (k & I & E).
    destruct (In_nth_error _ _ I) as [i Hi].
    destruct (nth_error (spread_arg am (length ds)) i) as [f|] eqn:F.
    - apply (assoc_in_some _ d k f); auto. apply -> in_rev. apply (nth_error_In _ i). now apply nth_error_combine.
    - exfalso. apply nth_error_None in F. rewrite LE in F.
      assert (i < length ds)%nat by (apply nth_error_Some; congruence). lia.
  Qed.
  Lemma self_mem (ds : list D) d : In d ds -> mem d_eqb d ds = true.
  Proof. intros I. unfold mem. apply existsb_exists. exists d. split; auto. now apply (eqb_t (tm:=tm)). Qed.

  Lemma amounts_held l : made l -> amounts_kwarg l = Ok (map (held l) (cf_domain l)).
  Proof.
    intros M. unfold amounts_kwarg.
    assert (G : forall ds, incl ds (cf_domain l) ->
      mapM (fun d => match assoc d_eqb d (cf_flows l) with Some f => Ok (amount_of f) | None => Err KeyError end) ds
      = Ok (map (held l) ds)).
    { induction ds as [|d ds IH]; intros I; [reflexivity|]. cbn [mapM map].
      destruct (made_some l d M) as [f F]; [apply self_mem, I; now left|].
      unfold held at 1. rewrite F. cbn [bind]. rewrite IH; [reflexivity|]. intros y Y. apply I. now right. }
    apply G, incl_refl.
  Qed.
  Lemma re_new_ok ds (es : list (entry R D P)) o : length es = length ds ->
    re_new ds es o = Ok (mkRe ds (dict_of d_eqb (combine ds es)) o).
  Proof. intros H. unfold re_new. now rewrite H, Nat.eqb_refl. Qed.

  (** * plain lists *)
  (** a CashFlowList is rebuilt: same dates, same origin and the same flow at every date,
      as long as no flow is a bare function *)
  Theorem C101_plain : forall fuel flr dates amounts origin l,
    cf_new dates amounts origin LNone false = Ok l ->
    (forall d f, assoc d_eqb d (cf_flows l) <> Some (FlPay (PCall f))) ->
    exists r, list_rebuild KPlain l = Ok r /\
      re_domain r = dates /\ re_origin r = cf_origin l /\
      forall d, re_get fuel flr r d = (x <- cf_get fuel flr l d ;; Ok (AFlow (FlNum x))).
  Proof.
    intros fuel flr dates amounts origin l H NF. pose proof (made_new _ _ _ _ _ _ H) as M.
    destruct (cf_new_inv _ _ _ _ _ _ H) as [LE EL].
    assert (ED : cf_domain l = dates) by now rewrite EL.
    assert (EO : cf_origin0 l = origin) by now rewrite EL.
    assert (EA : cf_attr l = LNone) by now rewrite EL. clear EL.
    unfold list_rebuild. rewrite (amounts_held l M). cbn [bind]. rewrite re_new_ok by now rewrite !map_length.
    eexists. split; [reflexivity|]. split; [exact ED|]. split; [unfold re_origin, cf_origin; cbn; now rewrite ED, EO|].
    intros d. unfold re_get. cbn [re_flows]. rewrite map_map.
    rewrite (dict_of_fun (fun d => EAmount (held l d))) by (intros a b E; now rewrite (held_congr l a b E)).
    unfold cf_get, cf_flow. rewrite EA. cbn [attr_model].
    destruct (mem d_eqb d (cf_domain l)) eqn:E.
    - destruct (made_some l d M E) as [f F]. unfold held. rewrite F.
      destruct f as [x|p]; [reflexivity|].
      destruct p; try reflexivity. now contradiction (NF d f).
    - now rewrite (made_none (tm:=tm) l d M E).
  Qed.

  (** a flow given as a function is replaced by its name, which cannot be called *)
  Theorem C101_function_refuted : forall fuel flr dates amounts origin l d f,
    cf_new dates amounts origin LNone false = Ok l ->
    assoc d_eqb d (cf_flows l) = Some (FlPay (PCall f)) ->
    cf_get fuel flr l d = f (PmSource FwNone) /\
    exists r, list_rebuild KPlain l = Ok r /\ re_get fuel flr r d = Err TypeError.
  Proof.
    intros fuel flr dates amounts origin l d f H F. pose proof (made_new _ _ _ _ _ _ H) as M.
    split.
    { unfold cf_get, cf_flow. rewrite F. destruct (cf_new_inv _ _ _ _ _ _ H) as [_ ->]. reflexivity. }
    unfold list_rebuild. rewrite (amounts_held l M). cbn [bind]. rewrite re_new_ok by now rewrite !map_length.
    eexists. split; [reflexivity|]. unfold re_get. cbn [re_flows]. rewrite map_map.
    rewrite (dict_of_fun (fun d => EAmount (held l d))) by (intros a b E; now rewrite (held_congr l a b E)).
    destruct (mem d_eqb d (cf_domain l)) eqn:E.
    - unfold held. now rewrite F.
    - rewrite (made_none (tm:=tm) l d M E) in F. discriminate.
  Qed.

  (** * fixed lists *)
  (** a rebuilt FixedCashFlowList gives payoff objects in place of amounts, at every
      payment date *)
  Theorem C101_fixed_refuted : forall fuel flr dates (amounts : list R) origin l,
    fixed_new dates (Many amounts) origin = Ok l ->
    exists r, list_rebuild KFixed l = Ok r /\ re_domain r = dates /\
      forall d, In d dates -> exists a,
        cf_get fuel flr l d = Ok a /\ re_get fuel flr r d = Ok (AFlow (FlPay (PFixed a))).
  Proof.
    intros fuel flr dates amounts origin l H. unfold fixed_new in H. pose proof (made_new _ _ _ _ _ _ H) as M.
    destruct (cf_new_inv _ _ _ _ _ _ H) as [LE EL]. cbn [spread_arg] in LE, EL.
    assert (ED : cf_domain l = dates) by now rewrite EL.
    unfold list_rebuild. rewrite (amounts_held l M). cbn [bind]. rewrite re_new_ok by now rewrite !map_length.
    eexists. split; [reflexivity|]. split; [exact ED|]. intros d I.
    assert (E : mem d_eqb d (cf_domain l) = true) by (rewrite ED; now apply self_mem).
    unfold re_get. cbn [re_flows]. rewrite map_map.
    rewrite (dict_of_fun (fun d => EFixed (held l d))) by (intros a b E'; now rewrite (held_congr l a b E')).
    rewrite E. destruct (made_some l d M E) as [f F].
    assert (G : exists a, f = FlPay (PFixed a)).
    { rewrite EL in F. cbn [cf_flows] in F. rewrite (dict_get (tm:=tm)) in F. apply assoc_some_in in F.
      destruct F as (k & F & _). apply in_rev in F. apply in_combine_r in F. apply in_map_iff in F.
      destruct F as (a & <- & _). eauto. }
    destruct G as [a ->]. exists a. unfold cf_get, cf_flow, held. rewrite F. split; reflexivity.
  Qed.

  (** * lists of interest payments *)
  Lemma rate_entries (ds : list D) (es : list (entry R D P)) fuel flr o d :
    length es = length ds -> In d ds ->
    (forall x, In x es -> exists s e a, x = ERate s e a /\ forall z, a <> AFlow (FlNum z)) ->
    forall x, re_get fuel flr (mkRe ds (dict_of d_eqb (combine ds es)) o) d <> Ok x.
  Proof.
    intros LE I HE x. unfold re_get. cbn [re_flows]. rewrite (dict_get (tm:=tm)).
    destruct (In_nth_error _ _ I) as [i Hi].
    destruct (nth_error es i) as [f|] eqn:F.
    2:{ apply nth_error_None in F. rewrite LE in F. assert (i < length ds)%nat by (apply nth_error_Some; congruence). lia. }
    destruct (assoc_in_some (rev (combine ds es)) d d f) as [w W];
      [apply -> in_rev; apply (nth_error_In _ i); now apply nth_error_combine|now apply (eqb_t (tm:=tm))|].
    rewrite W. apply assoc_some_in in W. destruct W as (k & W & _). apply in_rev in W. apply in_combine_r in W.
    destruct (HE w W) as (s & e & a & -> & NA). destruct (d_yf s e); cbn [bind]; [|discriminate].
    destruct a as [[z|p]|]; try discriminate. now contradiction (NA z).
  Qed.

  (** no amount of a rebuilt RateCashFlowList can be computed any more *)
  Theorem C101_rate_refuted : forall fuel flr dates amounts origin count fixo payo c fwd l,
    ratelist_new dates amounts origin count fixo payo c fwd = Ok l ->
    exists r, list_rebuild KRate l = Ok r /\ re_domain r = dates /\
      forall d x, In d dates -> re_get fuel flr r d <> Ok x.
  Proof.
    intros fuel flr dates amounts origin count fixo payo c fwd l H. unfold ratelist_new in H.
    destruct (start_dates origin dates) as [starts|e] eqn:ES; [|discriminate]. cbn [bind] in H.
    destruct (rate_payoffs starts dates (spread_arg amounts (length dates)) count fixo payo c) as [rs|e] eqn:ER; [|discriminate].
    cbn [bind] in H. pose proof (made_new _ _ _ _ _ _ H) as M.
    destruct (cf_new_inv _ _ _ _ _ _ H) as [LE EL]. cbn [spread_arg] in LE, EL.
    assert (ED : cf_domain l = dates) by now rewrite EL.
    assert (EO : cf_origin0 l = origin) by now rewrite EL.
    assert (LS : (length dates <= length starts)%nat).
    { rewrite map_length in LE. unfold rate_payoffs in ER. apply mapM_length in ER.
      rewrite !combine_length in ER. lia. }
    unfold list_rebuild. rewrite (amounts_held l M). cbn [bind]. rewrite EO, ED, ES. cbn [bind].
    rewrite re_new_ok by (rewrite map_length, !combine_length, map_length; lia).
    eexists. split; [reflexivity|]. split; [reflexivity|]. intros d x I.
    apply rate_entries; auto; [rewrite map_length, !combine_length, map_length; lia|].
    intros y Y. apply in_map_iff in Y. destruct Y as (z & <- & Z). do 3 eexists. split; [reflexivity|].
    intros v. destruct z as [se a]. apply in_combine_r in Z. cbn [snd]. apply in_map_iff in Z.
    destruct Z as (d' & <- & I').
    destruct (made_some l d' M) as [f F]; [rewrite ED; now apply self_mem|]. unfold held. rewrite F.
    rewrite EL in F. cbn [cf_flows] in F. rewrite (dict_get (tm:=tm)) in F. apply assoc_some_in in F.
    destruct F as (k & F & _). apply in_rev in F. apply in_combine_r in F. apply in_map_iff in F.
    destruct F as (rr & <- & _). cbn. discriminate.
  Qed.

  (** the same for capped and floored interest payments *)
  Theorem C101_capped_refuted : forall fuel flr dates amounts origin count fixo payo c cap floor model l,
    contrate_new dates amounts origin count fixo payo c cap floor model = Ok l ->
    exists r, list_rebuild KContRate l = Ok r /\ re_domain r = dates /\
      forall d x, In d dates -> re_get fuel flr r d <> Ok x.
  Proof.
    intros fuel flr dates amounts origin count fixo payo c cap floor model l H. unfold contrate_new in H.
    destruct (cont_start_dates origin dates) as [starts|e] eqn:ES; [|discriminate]. cbn [bind] in H.
    destruct (rate_payoffs starts dates (spread_arg amounts (length dates)) count fixo payo c) as [rs|e] eqn:ER; [|discriminate].
    cbn [bind] in H. pose proof (made_new _ _ _ _ _ _ H) as M.
    destruct (cf_new_inv _ _ _ _ _ _ H) as [LE EL]. cbn [spread_arg] in LE, EL.
    assert (ED : cf_domain l = dates) by now rewrite EL.
    assert (EO : cf_origin0 l = origin) by now rewrite EL.
    assert (LS : (length dates <= length starts)%nat).
    { rewrite map_length in LE. unfold rate_payoffs in ER. apply mapM_length in ER.
      rewrite !combine_length in ER. lia. }
    unfold list_rebuild. rewrite (amounts_held l M). cbn [bind]. rewrite EO, ED, ES. cbn [bind].
    rewrite re_new_ok by (rewrite map_length, !combine_length, map_length; lia).
    eexists. split; [reflexivity|]. split; [reflexivity|]. intros d x I.
    apply rate_entries; auto; [rewrite map_length, !combine_length, map_length; lia|].
    intros y Y. apply in_map_iff in Y. destruct Y as (z & <- & Z). do 3 eexists. split; [reflexivity|].
    intros v. destruct z as [se a]. apply in_combine_r in Z. cbn [snd]. apply in_map_iff in Z.
    destruct Z as (d' & <- & I').
    destruct (made_some l d' M) as [f F]; [rewrite ED; now apply self_mem|]. unfold held. rewrite F.
    rewrite EL in F. cbn [cf_flows] in F. rewrite (dict_get (tm:=tm)) in F. apply assoc_some_in in F.
    destruct F as (k & F & _). apply in_rev in F. apply in_combine_r in F. apply in_map_iff in F.
    destruct F as (rr & <- & _). cbn. discriminate.
  Qed.

  (** * options *)
  (** a list of options cannot be rebuilt at all; a general list of payoffs only if it has
      one payment date, which pays nothing then *)
  Theorem C101_options_refuted : forall l, made l -> cf_domain l <> [] ->
    list_rebuild KOption l = Err ValueError /\
    (length (cf_domain l) <> 1%nat -> list_rebuild KContingent l = Err ValueError) /\
    forall d, cf_domain l = [d] -> exists r, list_rebuild KContingent l = Ok r /\
      forall fuel flr d', re_get fuel flr r d' = Ok (AFlow (FlNum 0)).
  Proof.
    intros l M NE. split; [|split].
    - unfold list_rebuild. rewrite (amounts_held l M). cbn [bind]. unfold re_new.
      rewrite map_length, combine_length. cbn [length]. rewrite Nat.min_0_r.
      destruct (cf_domain l); [easy|reflexivity].
    - intros H. unfold list_rebuild, re_new. cbn [length].
      destruct (1 =? length (cf_domain l))%nat eqn:E; [apply Nat.eqb_eq in E; lia|reflexivity].
    - intros d E. unfold list_rebuild. rewrite E. eexists. split; [reflexivity|].
      intros fuel flr d'. unfold re_get. cbn. destruct (d_eqb d d'); reflexivity.
  Qed.

  (** a list of option strategies is rebuilt as a list which pays nothing, ever *)
  Theorem C101_strategies_refuted : forall l, exists r, list_rebuild KStrategy l = Ok r /\
    re_domain r = cf_domain l /\
    forall fuel flr d, re_get fuel flr r d = Ok (AFlow (FlNum 0)).
  Proof.
    intros l. unfold list_rebuild. rewrite re_new_ok by now rewrite map_length.
    eexists. split; [reflexivity|]. split; [reflexivity|]. intros fuel flr d. unfold re_get. cbn [re_flows].
    destruct (assoc d_eqb d _) as [w|] eqn:W; [|reflexivity].
    rewrite (dict_get (tm:=tm)) in W. apply assoc_some_in in W. destruct W as (k & W & _).
    apply in_rev in W. apply in_combine_r in W. apply in_map_iff in W. destruct W as (d0 & <- & _). reflexivity.
  Qed.

  (** a leg list cannot be rebuilt *)
  Theorem C101_legs_refuted : forall ll, Forall made (ll_legs ll) ->
    legs_rebuild ll = Err ValueError.
  Proof.
    intros ll HM. unfold legs_rebuild.
    assert (G : exists a, mapM amounts_kwarg (ll_legs ll) = Ok a).
    { induction (ll_legs ll) as [|l ls IH]; cbn [mapM]; [eauto|]. inversion HM; subst.
      rewrite (amounts_held l) by auto. cbn [bind]. destruct IH as [a ->]; auto. cbn. eauto. }
    destruct G as [a ->]. cbn [bind]. destruct (ll_legs ll) as [|l ls]; reflexivity.
  Qed.
End Rebuild.
Print Assumptions C101_plain.
Print Assumptions C101_function_refuted.
Print Assumptions C101_fixed_refuted.
Print Assumptions C101_rate_refuted.
Print Assumptions C101_capped_refuted.
Print Assumptions C101_options_refuted.
Print Assumptions C101_strategies_refuted.
Print Assumptions C101_legs_refuted.

(** a list with a repeated date, and one of each other class *)
Section Instances.
  #[local] Existing Instance no_registry.
  Example C101_plain_instance : exists l : cflist R R (fperiod R),
    cf_new (DS := FloatDates) [1; 2; 1] (Many [FlNum 5; FlNum 6; FlNum 7]) (Some 0) LNone false = Ok l /\
    (forall d f, assoc d_eqb d (cf_flows l) <> Some (FlPay (PCall f))) /\ cf_get 0 None l 1 = Ok 7.
  Proof.
    eexists. split; [reflexivity|]. split.
    - intros d f H. cbn [cf_flows spread_arg length] in H. rewrite (dict_get (L:=float_laws)) in H.
      apply assoc_some_in in H. destruct H as (k & H & _). cbn in H. intuition discriminate.
    - unfold cf_get, cf_flow. cbn [cf_flows spread_arg length]. rewrite (dict_get (L:=float_laws)).
      cbn [combine rev app assoc]. rewrite (eqb_refl (L:=float_laws)). reflexivity.
  Qed.
  Example C101_rate_instance : exists l l' l'' : cflist R R (fperiod R),
    ratelist_new (DS := FloatDates) [1; 2] (Many [100; 100]) (Some 0) DcDefault None None 0.02 FwNone = Ok l /\
    contrate_new (DS := FloatDates) [1; 2] (Many [100; 100]) (Some 1) DcDefault None None 0.02 None None (PmSource FwNone) = Ok l' /\
    fixed_new (DS := FloatDates) [1; 2] (Many [100; 100]) None = Ok l''.
  Proof.
    do 3 eexists. split; [reflexivity|]. split; [|reflexivity].
    unfold contrate_new, cont_start_dates. cbn [d_truthy FloatDates ntruthy].
    replace (ntruthy 1) with true; [reflexivity|]. unfold ntruthy. cbn. unfold Reqb. destruct Req_EM_T; [lra|reflexivity].
  Qed.
  Example C101_function_instance : exists l : cflist R R (fperiod R),
    cf_new (DS := FloatDates) [1] (Many [FlPay (PCall (fun _ => Ok 5))]) None LNone false = Ok l /\
    assoc d_eqb 1 (cf_flows l) = Some (FlPay (PCall (fun _ => Ok 5))).
  Proof. eexists. split; [reflexivity|]. cbn [cf_flows spread_arg length combine dict_of fold_left assoc_set assoc fst snd].
    now rewrite (eqb_refl (L:=float_laws)). Qed.
  (** the list pays before it is rebuilt *)
  Example C101_rate_pays : forall l : cflist R R (fperiod R),
    ratelist_new (DS := FloatDates) [1; 2] (Many [100; 100]) (Some 0) DcDefault None None 0.02 FwNone = Ok l ->
    exists x, cf_get 0 None l 2 = Ok x /\ x <> 0.
  Proof.
    intros l H. injection H as <-. unfold cf_get, cf_flow. cbn [cf_flows spread_arg length].
    rewrite (dict_get (L:=float_laws)). cbn [combine map rev app assoc].
    rewrite (eqb_refl (L:=float_laws)). eexists. split; [reflexivity|]. cbn. lra.
  Qed.
End Instances.
