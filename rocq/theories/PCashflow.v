(** Properties C37-C39: cash flow lists. *)
From Coq Require Import Reals Lra Lia ZArith List Bool Permutation.
From Verif Require Import Num Py Spec MDates MCurve MRateCurve MOption MCashflow SDates SOption SCashflow
  LBase LSort LDates LDateCurve2 LCast LOption LCashflow.
Import ListNotations.
Open Scope R_scope.

Section Maps.
  Context {D P : Type} (DS : DateSys R D P) (DC : DayCounts R D) (tm : D -> R) (L : DateLaws DS tm).
  Implicit Types (l : cflist R D P) (dates : list D) (origin : option D).

  (** * C37: cash flow lists are maps from dates to amounts *)
  (** the constructor accepts lists of the same length and nothing else *)
  Theorem C37_lengths : forall dates (amounts : list (flow R D P)) origin attr rated,
    (length amounts = length dates ->
       exists l, cf_new dates (Many amounts) origin attr rated = Ok l /\ cf_domain l = dates) /\
    (length amounts <> length dates ->
       cf_new dates (Many amounts) origin attr rated = Err ValueError).
  Proof.
    intros dates amounts origin attr rated. split; intros H.
    - rewrite cf_new_ok by auto. eauto.
    - unfold cf_new. cbn [spread_arg]. apply Nat.eqb_neq in H. now rewrite H.
  Qed.

  (** distinct dates: each date pays its amount, every other date pays zero *)
  Theorem C37_amounts : forall fuel flr dates (amounts : list R) origin l,
    cf_new dates (Many (map FlNum amounts)) origin LNone false = Ok l -> NoDup (map tm dates) ->
    cf_domain l = dates /\
    (forall i d a, nth_error dates i = Some d -> nth_error amounts i = Some a -> pays fuel flr l d a) /\
    (forall d, ~ In (tm d) (map tm dates) -> cf_get fuel flr l d = Ok 0) /\
    cf_get_list fuel flr l dates = Ok amounts.
  Proof.
    intros fuel flr dates amounts origin l H ND. destruct (cf_new_inv _ _ _ _ _ _ H) as [LEN ->].
    cbn [spread_arg] in LEN |- *. rewrite map_length in LEN.
    assert (A : forall i d a, nth_error dates i = Some d -> nth_error amounts i = Some a ->
              forall d', d_eqb d' d = true ->
              cf_get fuel flr (mkCF dates (dict_of d_eqb (combine dates (map FlNum amounts))) origin LNone false) d' = Ok a).
    { intros i d a Hd Ha d' E. unfold cf_get, cf_flow. cbn [cf_flows].
      rewrite (dict_distinct (tm:=tm) dates _ i d (FlNum a) d'); auto. now apply map_nth_error. }
    split; [reflexivity|]. split; [exact A|]. split.
    - intros d NI. unfold cf_get, cf_flow. cbn [cf_flows]. rewrite (dict_none (tm:=tm)); [reflexivity|].
      intros k v I. apply (eqb_f (tm:=tm)). intros E. apply NI. rewrite <- E. apply in_map.
      apply in_combine_l in I. auto.
    - unfold cf_get_list.
      assert (G : forall ds' am' k, (forall i, nth_error dates (k + i) = nth_error ds' i) ->
                (forall i, nth_error amounts (k + i) = nth_error am' i) -> length am' = length ds' ->
                mapM (cf_get fuel flr (mkCF dates (dict_of d_eqb (combine dates (map FlNum amounts))) origin LNone false)) ds' = Ok am').
      { induction ds' as [|d ds' IH]; intros [|a am'] k H1 H2 H3; try discriminate; [reflexivity|].
        cbn [mapM]. rewrite (A k d a).
        - cbn [bind]. rewrite (IH am' (S k)); auto.
          + intros i. specialize (H1 (S i)). cbn in H1. rewrite <- H1. f_equal. lia.
          + intros i. specialize (H2 (S i)). cbn in H2. rewrite <- H2. f_equal. lia.
        - specialize (H1 O). cbn in H1. rewrite <- H1. f_equal. lia.
        - specialize (H2 O). cbn in H2. rewrite <- H2. f_equal. lia.
        - apply (eqb_refl (tm:=tm)). }
      apply (G dates amounts O); auto.
  Qed.

  (** one number as amount is paid at every date *)
  Theorem C37_scalar : forall fuel flr dates (x : R) origin, exists l,
    cf_new dates (One (FlNum x)) origin LNone false = Ok l /\ cf_domain l = dates /\
    forall d, In (tm d) (map tm dates) -> cf_get fuel flr l d = Ok x.
  Proof.
    intros fuel flr dates x origin. unfold cf_new. cbn [spread_arg]. rewrite repeat_length, Nat.eqb_refl.
    eexists. split; [reflexivity|]. split; [reflexivity|]. intros d I.
    apply in_map_iff in I. destruct I as (k & E & I). unfold cf_get, cf_flow. cbn [cf_flows].
    rewrite (dict_get (tm:=tm)).
    assert (J : exists i, nth_error (combine dates (repeat (@FlNum R D P x) (length dates))) i = Some (k, FlNum x)).
    { destruct (In_nth_error _ _ I) as [i Hi]. exists i. apply nth_error_combine; auto.
      apply nth_error_repeat. apply nth_error_Some. rewrite Hi. discriminate. }
    destruct J as [i Hi]. apply nth_error_In in Hi.
    destruct (assoc_in_some _ d k (FlNum x) (proj1 (in_rev _ _) Hi)) as [w W]; [now apply eqb_t|].
    rewrite W. apply assoc_some_in in W. destruct W as (k' & I' & _). apply in_rev in I'.
    apply in_combine_r in I'. apply repeat_spec in I'. now subst.
  Qed.

  (** lists of dates are looked up date by date *)
  Theorem C37_pointwise : forall fuel flr l ds xs,
    cf_get_list fuel flr l ds = Ok xs <-> Forall2 (fun d x => cf_get fuel flr l d = Ok x) ds xs.
  Proof.
    intros fuel flr l ds xs. split; [apply mapM_inv|].
    intros F. unfold cf_get_list. induction F; cbn; auto. rewrite H. cbn. now rewrite IHF.
  Qed.

  (** FixedCashFlowList: amounts are paid as given *)
  Theorem C37_fixed : forall fuel flr dates (amounts : list R) origin l,
    fixed_new dates (Many amounts) origin = Ok l -> NoDup (map tm dates) ->
    length amounts = length dates /\ cf_domain l = dates /\
    (forall i d a, nth_error dates i = Some d -> nth_error amounts i = Some a -> pays fuel flr l d a) /\
    (forall d, ~ In (tm d) (map tm dates) -> cf_get fuel flr l d = Ok 0).
  Proof.
    intros fuel flr dates amounts origin l H ND. unfold fixed_new in H. cbn [spread_arg] in H.
    destruct (cf_new_inv _ _ _ _ _ _ H) as [LEN ->]. cbn [spread_arg] in LEN |- *. rewrite map_length in LEN.
    split; [auto|]. split; [reflexivity|]. split.
    - intros i d a Hd Ha d' E. unfold cf_get, cf_flow. cbn [cf_flows].
      rewrite (dict_distinct (tm:=tm) dates _ i d (FlPay (PFixed a)) d'); auto.
      now apply (map_nth_error (fun a => FlPay (PFixed a))).
    - intros d NI. unfold cf_get, cf_flow. cbn [cf_flows]. rewrite (dict_none (tm:=tm)); [reflexivity|].
      intros k v I. apply (eqb_f (tm:=tm)). intros E. apply NI. rewrite <- E. apply in_map.
      apply in_combine_l in I. auto.
  Qed.

  (** FixedCashFlowList(cf) and cf() have the dates and the flows of cf at every date, for
      lists of any kind (also with contingent flows and repeated dates) *)
  Theorem C37_conversion : forall fuel flr l,
    made l -> (forall d, In d (cf_domain l) -> exists x, cf_get fuel flr l d = Ok x) ->
    (exists l', fixed_of fuel flr l None = Ok l' /\ cf_domain l' = cf_domain l /\
                cf_origin l' = cf_origin l /\
                forall d, cf_get fuel flr l' d = cf_get fuel flr l d) /\
    (exists l', cf_call fuel flr l None = Ok l' /\ cf_domain l' = cf_domain l /\
                cf_origin l' = cf_origin l /\
                forall d, cf_get fuel flr l' d = cf_get fuel flr l d).
  Proof.
    intros fuel flr l M HV. destruct (mapM_total _ _ HV) as [vals V].
    pose proof (mapM_length _ _ _ V) as LV. split.
    - unfold fixed_of, cf_get_list, fixed_new. rewrite V. cbn [bind spread_arg].
      rewrite cf_new_ok by (rewrite map_length; auto).
      eexists. split; [reflexivity|]. split; [reflexivity|]. split; [reflexivity|].
      apply (same_flows (tm:=tm)) with (mk := fun a => FlPay (PFixed a)); auto.
    - unfold cf_call.
      assert (E : mapM (fun d => flow_value fuel flr (cf_flow l d) (attr_model (cf_attr l))) (cf_domain l) = Ok vals) by exact V.
      rewrite E. cbn [bind]. rewrite cf_new_ok by (rewrite map_length; auto).
      eexists. split; [reflexivity|]. split; [reflexivity|]. split; [reflexivity|].
      apply (same_flows (tm:=tm)) with (mk := FlNum); auto.
  Qed.

  (** cf(curve) and cf(model) have the dates of cf and, at each date, the value of what cf
      pays there for the given curve or model, not for its own *)
  Theorem C37_call : forall fuel flr l a,
    made l -> a <> PmSource FwNone ->
    (forall d, In d (cf_domain l) -> exists x, flow_value fuel flr (cf_flow l d) a = Ok x) ->
    exists l', cf_call fuel flr l (Some a) = Ok l' /\ cf_domain l' = cf_domain l /\
               cf_origin l' = cf_origin l /\
               forall d, cf_get fuel flr l' d = flow_value fuel flr (cf_flow l d) a.
  Proof.
    intros fuel flr l a M NA HV. destruct (mapM_total _ _ HV) as [vals V].
    pose proof (mapM_length _ _ _ V) as LV.
    set (l2 := mkCF (cf_domain l) (cf_flows l) (cf_origin0 l) (LModel a) (cf_rated l)).
    assert (M2 : made l2).
    { destruct M as (ds & am & o & at_ & ra & H). destruct (cf_new_inv _ _ _ _ _ _ H) as [L2 E].
      exists ds, am, o, (LModel a), ra. unfold l2. rewrite E. cbn. apply cf_new_ok. exact L2. }
    unfold cf_call.
    assert (E : mapM (fun d => flow_value fuel flr (cf_flow l d)
                  (match Some a with Some (PmSource FwNone) | None => attr_model (cf_attr l) | Some a => a end))
                  (cf_domain l) = Ok vals).
    { destruct a as [[]|]; try exact V. now destruct NA. }
    cbv zeta. rewrite E. cbn [bind]. rewrite cf_new_ok by (rewrite map_length; auto).
    eexists. split; [reflexivity|]. split; [reflexivity|]. split; [reflexivity|].
    apply (same_flows (tm:=tm) fuel flr l2 vals FlNum); auto.
  Qed.

  (** the origin is the given one, else the first date *)
  Theorem C37_origin : forall dates amounts origin attr rated l,
    cf_new dates amounts origin attr rated = Ok l ->
    cf_origin l = match origin with Some o => Some o | None => hd_error dates end.
  Proof.
    intros dates amounts origin attr rated l H. destruct (cf_new_inv _ _ _ _ _ _ H) as [_ ->].
    reflexivity.
  Qed.

  (** repeated dates: the last amount given for a date counts *)
  Theorem C37_repeated : forall fuel flr dates (amounts : list R) origin l pre d a post,
    cf_new dates (Many (map FlNum amounts)) origin LNone false = Ok l ->
    combine dates amounts = pre ++ (d, a) :: post ->
    (forall d' a', In (d', a') post -> tm d' <> tm d) ->
    pays fuel flr l d a.
  Proof.
    intros fuel flr dates amounts origin l pre d a post H E NP d' Ed. destruct (cf_new_inv _ _ _ _ _ _ H) as [LEN ->].
    cbn [spread_arg] in *. unfold cf_get, cf_flow. cbn [cf_flows].
    assert (CM : combine dates (map (@FlNum R D P) amounts) = map (fun kv => (fst kv, FlNum (snd kv))) (combine dates amounts)).
    { clear. revert amounts. induction dates as [|x ds IH]; intros [|y am]; cbn; auto. now rewrite IH. }
    rewrite CM, E, map_app. cbn [map fst snd]. apply (eqb_inv (tm:=tm)) in Ed.
    rewrite (dict_last (tm:=tm)); [reflexivity|apply (eqb_t (tm:=tm)); auto|].
    intros k v I. apply in_map_iff in I. destruct I as ([k0 v0] & X & I). cbn in X. injection X as -> _.
    apply (eqb_f (tm:=tm)). rewrite Ed. eauto.
  Qed.

  (** the column 'cashflow' of the table of a list without payoff model shows the flows *)
  Theorem C37_table : forall fuel flr l,
    (forall a, cf_attr l <> LModel a) ->
    (forall d f, In d (cf_domain l) -> cf_flow l d <> FlPay (PCall f)) ->
    cf_table fuel flr l = rmap (combine (cf_domain l)) (cf_get_list fuel flr l (cf_domain l)).
  Proof.
    intros fuel flr l NM NC. unfold cf_table, cf_get_list.
    assert (A : attr_model (cf_attr l) = PmSource (match cf_attr l with LForward s => s | _ => FwNone end)).
    { destruct (cf_attr l) eqn:E; auto. now destruct (NM a). }
    assert (B : forall ds, incl ds (cf_domain l) ->
      mapM (fun d => match cf_flow l d with
                     | FlNum x => Ok (d, x)
                     | FlPay (PCall _) => Err TypeError
                     | FlPay p => v <- pay fuel flr p (PmSource (match cf_attr l with LForward s => s | _ => FwNone end)) ;; Ok (d, v)
                     end) ds = rmap (combine ds) (mapM (cf_get fuel flr l) ds)).
    { induction ds as [|d ds IH]; intros I; [reflexivity|]. cbn [mapM].
      rewrite IH by (intros x X; apply I; right; auto). unfold cf_get at 2. rewrite A. unfold flow_value.
      assert (In d (cf_domain l)) by (apply I; left; auto).
      specialize (NC d).
      destruct (cf_flow l d) as [x|p].
      - cbn [bind rmap]. destruct (mapM (cf_get fuel flr l) ds); reflexivity.
      - destruct p; try (now destruct (NC f H));
          match goal with |- context [pay ?a ?b ?c ?d] => destruct (pay a b c d) end; cbn [bind rmap]; auto;
          destruct (mapM (cf_get fuel flr l) ds); reflexivity. }
    apply B. intros x; auto.
  Qed.
End Maps.
Print Assumptions C37_lengths.
Print Assumptions C37_amounts.
Print Assumptions C37_scalar.
Print Assumptions C37_pointwise.
Print Assumptions C37_fixed.
Print Assumptions C37_conversion.
Print Assumptions C37_call.
Print Assumptions C37_origin.
Print Assumptions C37_repeated.
Print Assumptions C37_table.

(** non-trivial instance: five float dates, one of them twice *)
Example map_instance : exists l,
  cf_new (DS := FloatDates (T:=R)) (P := fperiod R) [0; 1] (Many [FlNum (-100); FlNum 100]) None LNone false = Ok l /\
  NoDup (map (fun d => d) [0; 1]) /\
  cf_get_list (DC := []) 0 None l [-1; 0; 1; 2] = Ok [0; -100; 100; 0].
Proof.
  eexists. assert (ND : NoDup (map (fun d : R => d) [0; 1])).
  { cbn. constructor; [intros [H|[]]; lra|]. constructor; [easy|constructor]. }
  assert (E := C37_amounts (FloatDates (T:=R)) [] (fun d => d) float_laws 0 None [0; 1] [-100; 100] None _ eq_refl ND).
  cbn [map] in E. split; [reflexivity|]. split; [exact ND|]. destruct E as (_ & A & Z & _).
  apply C37_pointwise. repeat constructor.
  - apply Z. cbn. intros [H|[H|[]]]; lra.
  - apply (A 0%nat 0 (-100)); auto. apply (eqb_refl (L:=float_laws)).
  - apply (A 1%nat 1 100); auto. apply (eqb_refl (L:=float_laws)).
  - apply Z. cbn. intros [H|[H|[]]]; lra.
Qed.

(** REFUTED: with a repeated date the list is no longer the list of given amounts: the
    domain keeps both dates and both show the last amount *)
Theorem C37_repeated_refuted : exists l,
  cf_new (DS := FloatDates (T:=R)) (P := fperiod R) [1; 1] (Many [FlNum 100; FlNum 50]) None LNone false = Ok l /\
  cf_domain l = [1; 1] /\
  cf_get_list (DC := []) 0 None l (cf_domain l) = Ok [50; 50].
Proof.
  eexists. split; [reflexivity|]. split; [reflexivity|].
  assert (A : forall d', d' = 1 -> cf_get (DC := []) (DS := FloatDates (T:=R)) (P:=fperiod R) 0 None
     (mkCF [1; 1] (dict_of d_eqb (combine [1; 1] [FlNum 100; FlNum 50])) None LNone false) d' = Ok 50).
  { intros d' ->. apply (C37_repeated (FloatDates (T:=R)) [] (fun d => d) float_laws 0 None [1; 1] [100; 50] None _ [(1, 100)] 1 50 []);
      auto; try easy. apply (eqb_refl (L:=float_laws)). }
  apply C37_pointwise. repeat constructor; apply A; reflexivity.
Qed.
Print Assumptions C37_repeated_refuted.

(** REFUTED: the table of a list with payoff model does not show the flows of the list *)
Theorem C37_table_refuted : exists l,
  contrate_new (DS := FloatDates (T:=R)) [2] (One 100) (Some 1) DcDefault None None 0 None None
               (PmSource (FwNum (5/100))) = Ok l /\
  cf_get (DC := []) 0 None l 2 = Ok 5 /\ cf_table (DC := []) 0 None l = Ok [(2, 0)].
Proof.
  unfold contrate_new. cbn [cont_start_dates d_truthy FloatDates].
  rewrite (truthy_ne 1) by lra. cbn [bind rate_payoffs combine removelast spread_arg length repeat mapM offset map].
  eexists. split; [reflexivity|].
  assert (R1 : Reqb 2 2 = true) by (apply Reqb_refl).
  split.
  - unfold cf_get, cf_flow. cbn [cf_flows dict_of fold_left assoc_set fst snd combine assoc d_eqb FloatDates spread_arg]. rn. rewrite R1.
    cbn [flow_value attr_model cf_attr pay]. unfold cont_cashflow. cbn [pm_source].
    rewrite (rate_details_ok (DS:=FloatDates) 0 _ _ (2 - 1) 1 (5/100) 0); cbn; auto; try reflexivity.
    f_equal. lra.
  - unfold cf_table. cbn [cf_domain mapM cf_attr]. unfold cf_flow.
    cbn [cf_flows dict_of fold_left assoc_set fst snd combine assoc d_eqb FloatDates spread_arg]. rn. rewrite R1.
    cbn [pay]. unfold cont_cashflow. cbn [pm_source].
    rewrite (rate_details_ok (DS:=FloatDates) 0 _ _ (2 - 1) 1 0 0); cbn; auto; try reflexivity.
    repeat f_equal. lra.
Qed.
Print Assumptions C37_table_refuted.

Section RateLists.
  Context {D P : Type} (DS : DateSys R D P) (DC : DayCounts R D) (tm : D -> R) (L : DateLaws DS tm).
  Implicit Types (l : cflist R D P) (dates : list D).

  (** * C38: rate cash flow lists *)
  (** with distinct dates the i-th payoff accrues from the previous date (the origin for
      the first one) to its own date, both moved back by the pay offset; surplus notional
      amounts are ignored *)
  Theorem C38_periods : forall dates amounts o count fixing payo c fwd l,
    ratelist_new dates (Many amounts) (Some o) count fixing payo c fwd = Ok l ->
    NoDup (map tm dates) ->
    (length dates <= length amounts)%nat /\ cf_domain l = dates /\
    forall i s e a, nth_error (o :: dates) i = Some s -> nth_error dates i = Some e ->
      nth_error amounts i = Some a ->
      exists s' e', moved_back s payo s' /\ moved_back e payo e' /\
        cf_payoff l e = Some (FlPay (PRate (mkRP s' e' a count fixing (Some c)))).
  Proof.
    intros dates amounts o count fixing payo c fwd l H ND. unfold ratelist_new in H. cbn [start_dates bind spread_arg] in H.
    destruct (rates_inv (tm:=tm) (fun r => FlPay (PRate r)) _ _ _ _ _ _ _ _ _ _ H ND) as (A & B & _ & C).
    split; [auto|]. split; [auto|]. intros i s e a Hs He Ha.
    destruct (C i s e a Hs He Ha) as (s' & e' & M1 & M2 & F). exists s', e'. split; [auto|]. split; [auto|].
    apply F. apply (eqb_refl (tm:=tm)).
  Qed.

  (** ContingentRateCashFlowList has the same periods if the origin is true *)
  Theorem C38_contingent : forall dates amounts o count fixing payo c cap floor model l,
    d_truthy o = true ->
    contrate_new dates (Many amounts) (Some o) count fixing payo c cap floor model = Ok l ->
    NoDup (map tm dates) ->
    (length dates <= length amounts)%nat /\ cf_domain l = dates /\
    forall i s e a, nth_error (o :: dates) i = Some s -> nth_error dates i = Some e ->
      nth_error amounts i = Some a ->
      exists s' e', moved_back s payo s' /\ moved_back e payo e' /\
        cf_payoff l e = Some (FlPay (PContRate (mkRP s' e' a count fixing (Some c)) floor cap)).
  Proof.
    intros dates amounts o count fixing payo c cap floor model l HT H ND. unfold contrate_new in H.
    cbn [cont_start_dates bind spread_arg] in H. rewrite HT in H. cbn [bind] in H.
    destruct (rates_inv (tm:=tm) (fun r => FlPay (PContRate r floor cap)) _ _ _ _ _ _ _ _ _ _ H ND) as (A & B & _ & C).
    split; [auto|]. split; [auto|]. intros i s e a Hs He Ha.
    destruct (C i s e a Hs He Ha) as (s' & e' & M1 & M2 & F). exists s', e'. split; [auto|]. split; [auto|].
    apply F. apply (eqb_refl (tm:=tm)).
  Qed.

  (** the list exists whenever there are enough amounts (without pay offset); one number as
      notional is used for every period *)
  Theorem C38_total : forall dates amounts o count fixing payo c fwd,
    no_offset payo ->
    ((length dates <= length amounts)%nat -> exists l, ratelist_new dates (Many amounts) (Some o) count fixing payo c fwd = Ok l) /\
    ((length amounts < length dates)%nat -> ratelist_new dates (Many amounts) (Some o) count fixing payo c fwd = Err ValueError) /\
    forall n, ratelist_new dates (One n) (Some o) count fixing payo c fwd =
              ratelist_new dates (Many (repeat n (length dates))) (Some o) count fixing payo c fwd.
  Proof.
    intros dates amounts o count fixing payo c fwd NO. unfold ratelist_new. cbn [start_dates bind spread_arg].
    rewrite !rate_payoffs_plain by auto. cbn [bind]. rewrite combine_periods. split; [|split].
    - intros H. rewrite cf_new_ok; eauto. rewrite !map_length, combine_length, periods_length. lia.
    - intros H. unfold cf_new. cbn [spread_arg]. rewrite !map_length, combine_length, periods_length.
      replace (Nat.min (length dates) (length amounts) =? length dates)%nat with false; auto.
      symmetry. apply Nat.eqb_neq. lia.
    - reflexivity.
  Qed.

  (** each flow is (fixed rate + forward rate at the fixing date) * year fraction * notional,
      the fixing date being the start date moved back by the fixing offset *)
  Theorem C38_flow : forall fuel flr dates amounts o count fixing payo c fwd l,
    ratelist_new dates (Many amounts) (Some o) count fixing payo c fwd = Ok l ->
    NoDup (map tm dates) ->
    forall i s e a s' e' d f tau, nth_error (o :: dates) i = Some s -> nth_error dates i = Some e ->
      nth_error amounts i = Some a ->
      moved_back s payo s' -> moved_back e payo e' -> moved_back s' fixing d ->
      forward_at fuel fwd d f -> pay_count count s' e' = Ok tau ->
      pays fuel flr l e ((c + f) * tau * a).
  Proof.
    intros fuel flr dates amounts o count fixing payo c fwd l H ND i s e a s' e' d f tau Hs He Ha M1 M2 M3 F T d' E.
    unfold ratelist_new in H. cbn [start_dates bind spread_arg] in H.
    destruct (rates_inv (tm:=tm) (fun r => FlPay (PRate r)) _ _ _ _ _ _ _ _ _ _ H ND) as (_ & _ & AT & C).
    destruct (C i s e a Hs He Ha) as (s2 & e2 & N1 & N2 & G).
    apply moved_offset in M1, M2, N1, N2.
    rewrite M1 in N1. rewrite M2 in N2. injection N1 as <-. injection N2 as <-.
    unfold cf_get, cf_flow. rewrite (G d' E), AT. cbn [flow_value attr_model pay].
    rewrite (rate_details_ok fuel _ fwd tau d f c); auto.
  Qed.

  (** a given day count function gets the start of the period first; without one it is the
      default year fraction; a name other than the empty one is never looked up *)
  Theorem C38_day_count : forall fuel flr dates amounts o count fixing payo c fwd l,
    ratelist_new dates (Many amounts) (Some o) count fixing payo c fwd = Ok l ->
    NoDup (map tm dates) ->
    forall i s e a s' e' d f, nth_error (o :: dates) i = Some s -> nth_error dates i = Some e ->
      nth_error amounts i = Some a ->
      moved_back s payo s' -> moved_back e payo e' -> moved_back s' fixing d -> forward_at fuel fwd d f ->
      (forall name g tau, count = DcFun name g -> g s' e' = Ok tau -> pays fuel flr l e ((c + f) * tau * a)) /\
      (forall tau, count = DcDefault \/ count = DcName String.EmptyString -> d_yf s' e' = Ok tau ->
       pays fuel flr l e ((c + f) * tau * a)) /\
      (forall name, count = DcName name -> name <> String.EmptyString -> cf_get fuel flr l e = Err TypeError).
  Proof.
    intros fuel flr dates amounts o count fixing payo c fwd l H ND i s e a s' e' d f Hs He Ha M1 M2 M3 F.
    pose proof (C38_flow fuel flr dates amounts o count fixing payo c fwd l H ND i s e a s' e' d f) as Q.
    split; [|split].
    - intros name g tau -> G. now apply Q.
    - intros tau [-> | ->] G; now apply Q.
    - intros name -> NE. unfold ratelist_new in H. cbn [start_dates bind spread_arg] in H.
      destruct (rates_inv (tm:=tm) (fun r => FlPay (PRate r)) _ _ _ _ _ _ _ _ _ _ H ND) as (_ & _ & _ & C).
      destruct (C i s e a Hs He Ha) as (s2 & e2 & _ & _ & G).
      unfold cf_get, cf_flow. rewrite (G e (eqb_refl (L:=L) e)). cbn [flow_value pay]. unfold rate_details. cbn [rp_count pay_count].
      destruct (String.eqb_spec name String.EmptyString); [contradiction|reflexivity].
  Qed.

  (** without fixing offset and pay offset and with a constant forward rate the flows of a
      constant notional add up to the interest for the whole time from the origin to the
      last date, for every additive day count *)
  Theorem C38_accrual : forall fuel flr dates n o count tau fixing payo c x l,
    no_offset payo -> no_offset fixing ->
    additive (pay_count count) tau -> NoDup (map tm dates) ->
    ratelist_new dates (One n) (Some o) count fixing payo c (FwNum x) = Ok l ->
    exists flows, cf_get_list fuel flr l dates = Ok flows /\
                  Rsum flows = (c + x) * tau o (last dates o) * n.
  Proof.
    intros fuel flr dates n o count tau fixing payo c x l NP NF AD ND H.
    assert (NF' : forall d, moved_back d fixing d) by (intros; apply moved_offset, offset_none; auto).
    assert (NP' : forall d, moved_back d payo d) by (intros; apply moved_offset, offset_none; auto).
    change (ratelist_new dates (Many (repeat n (length dates))) (Some o) count fixing payo c (FwNum x) = Ok l) in H.
    exists (map (fun se => (c + x) * tau (fst se) (snd se) * n) (periods o dates)). split.
    - apply C37_pointwise.
      assert (V : forall i s e, nth_error (o :: dates) i = Some s -> nth_error dates i = Some e ->
                cf_get fuel flr l e = Ok ((c + x) * tau s e * n)).
      { intros i s e Hs He. apply (C38_flow fuel flr _ _ _ _ _ _ _ _ _ H ND i s e n s e s x (tau s e)); auto.
        - apply nth_error_repeat. apply nth_error_Some. rewrite He. discriminate.
        - reflexivity.
        - apply AD.
        - apply (eqb_refl (tm:=tm)). }
      clear -V. revert o V. induction dates as [|d ds IH]; intros o V; cbn; constructor.
      + apply (V 0%nat); reflexivity.
      + apply IH. intros i s e Hs He. apply (V (S i)); auto.
    - clear -AD L. revert o. induction dates as [|d ds IH]; intros o; cbn [periods map Rsum].
      + rewrite (tau_self (yf := pay_count count)) by auto. cbn. lra.
      + rewrite IH. cbn [fst snd].
        replace (last (d :: ds) o) with (last ds d).
        * rewrite <- (add_add _ _ AD o d (last ds d)). lra.
        * symmetry. apply last_default.
  Qed.

  (** without origin the first period has the length of the second: the list has the flows
      of the list with origin t1 - (t2 - t1) *)
  Theorem C38_default_origin : forall t1 t2 dates amounts count fixing payo c fwd l,
    ratelist_new (t1 :: t2 :: dates) amounts None count fixing payo c fwd = Ok l ->
    exists step o l', d_diff t2 t1 = Ok step /\ d_sub t1 step = Ok o /\
      ratelist_new (t1 :: t2 :: dates) amounts (Some o) count fixing payo c fwd = Ok l' /\
      cf_domain l = cf_domain l' /\
      forall fuel flr d, cf_get fuel flr l d = cf_get fuel flr l' d.
  Proof.
    intros t1 t2 dates amounts count fixing payo c fwd l H. unfold ratelist_new in *. cbn [start_dates] in *.
    destruct (d_diff t2 t1) as [step|] eqn:E1; cbn [bind] in H; [|discriminate].
    destruct (d_sub t1 step) as [o|] eqn:E2; cbn [bind] in H; [|discriminate].
    exists step, o. cbn [bind].
    match goal with |- context [rate_payoffs ?a ?b ?c ?d ?e ?f ?g] => destruct (rate_payoffs a b c d e f g) as [rs|] end;
      cbn [bind] in *; [|discriminate].
    destruct (cf_new_inv _ _ _ _ _ _ H) as [LEN ->]. cbn [spread_arg] in LEN.
    rewrite cf_new_ok by auto. eexists. do 2 (split; [auto|]). do 2 (split; [reflexivity|]). reflexivity.
  Qed.
End RateLists.
Print Assumptions C38_periods.
Print Assumptions C38_contingent.
Print Assumptions C38_total.
Print Assumptions C38_flow.
Print Assumptions C38_day_count.
Print Assumptions C38_accrual.
Print Assumptions C38_default_origin.

(** instance: three years of quarterly float dates from 0, 4 % *)
Example tiling_instance : exists l flows,
  ratelist_new (DS := FloatDates (T:=R)) [1/4; 1/2; 1] (One 100) (Some 0) DcDefault None None (4/100) (FwNum 0) = Ok l /\
  cf_get_list (DC := []) 0 None l [1/4; 1/2; 1] = Ok flows /\ Rsum flows = 4.
Proof.
  destruct (C38_total (FloatDates (T:=R)) [1/4; 1/2; 1] (repeat 100 3) 0 DcDefault None None (4/100) (FwNum 0) I) as [(l & E) _].
  { cbn. lia. }
  assert (AD : additive (pay_count (DS := FloatDates (T:=R)) DcDefault) (fun a b => b - a)).
  { split; [reflexivity|intros; lra|]. intros a b. split; intros H.
    - apply (eqb_t (L:=float_laws)). lra.
    - apply (eqb_inv (L:=float_laws)) in H. lra. }
  assert (ND : NoDup (map (fun d : R => d) [1/4; 1/2; 1])).
  { cbn. repeat constructor; cbn; intuition lra. }
  destruct (C38_accrual (FloatDates (T:=R)) [] (fun d => d) float_laws 0 None [1/4; 1/2; 1] 100 0 DcDefault
              (fun a b => b - a) None None (4/100) 0 l I I AD ND E) as (flows & F & S).
  exists l, flows. split; [exact E|]. split; [exact F|]. rewrite S. cbn. lra.
Qed.

(** REFUTED: the documentation says that the pay offset does not move the first start date;
    it does: with pay offset 1/4 the first period starts at o - 1/4 *)
Theorem C38_first_start_refuted : forall o, exists l,
  ratelist_new (DS := FloatDates (T:=R)) [o + 1; o + 2] (One 100) (Some o) DcDefault None (Some (FP (1/4))) (4/100) FwNone = Ok l /\
  cf_payoff l (o + 1) =
    Some (FlPay (PRate (mkRP (o - 1/4) (o + 1 - 1/4) 100 DcDefault None (Some (4/100))))).
Proof.
  intros o. unfold ratelist_new.
  cbn [start_dates bind rate_payoffs combine removelast spread_arg length repeat mapM offset map p_truthy FloatDates].
  rewrite truthy_ne by lra. cbn [bind d_sub FloatDates mapM].
  eexists. split; [reflexivity|]. unfold cf_payoff.
  match goal with |- assoc _ _ (cf_flows ?l) = Some ?v =>
    apply (dict_distinct (tm := fun d : R => d) (L := float_laws) [o + 1; o + 2]
             (map (fun r => FlPay (PRate r)) [mkRP (o - 1/4) (o + 1 - 1/4) 100 DcDefault None (Some (4/100));
              mkRP (o + 1 - 1/4) (o + 2 - 1/4) 100 DcDefault None (Some (4/100))]) 0 (o + 1)) end; auto.
  - cbn. repeat constructor; cbn; intuition lra.
  - apply (eqb_refl (L := float_laws)).
Qed.
Print Assumptions C38_first_start_refuted.

(** REFUTED: without origin the list of no dates does not exist (an unbound local), and a
    single date gets a period of no length *)
Theorem C38_no_origin_refuted : forall {D P} (DS : DateSys R D P) (DC : DayCounts R D) (tm : D -> R),
  DateLaws DS tm -> forall amounts count fixing payo c fwd,
  ratelist_new (DS := DS) [] amounts None count fixing payo c fwd = Err UnboundLocalError /\
  forall d n, no_offset payo -> exists l,
    ratelist_new (DS := DS) [d] (One n) None count fixing payo c fwd = Ok l /\
    cf_payoff l d = Some (FlPay (PRate (mkRP d d n count fixing (Some c)))).
Proof.
  intros D P DS DC tm L amounts count fixing payo c fwd. split; [reflexivity|].
  intros d n NO. unfold ratelist_new. cbn [start_dates bind spread_arg length repeat].
  rewrite rate_payoffs_plain by auto. cbn. eexists. split; [reflexivity|].
  unfold cf_payoff. cbn. rewrite (eqb_refl (tm:=tm)). reflexivity.
Qed.
Print Assumptions C38_no_origin_refuted.

(** REFUTED: a ContingentRateCashFlowList with an origin that is false (the number 0) has
    periods of no length *)
Theorem C38_contingent_refuted : forall dates amounts count fixing c cap floor model,
  (length dates <= length amounts)%nat -> dates <> [] -> NoDup dates -> exists l,
  contrate_new (DS := FloatDates (T:=R)) dates (Many amounts) (Some 0) count fixing None c cap floor model = Ok l /\
  forall i e a, nth_error dates i = Some e -> nth_error amounts i = Some a ->
    cf_payoff l e = Some (FlPay (PContRate (mkRP e e a count fixing (Some c)) floor cap)).
Proof.
  intros dates amounts count fixing c cap floor model LEN NE ND. unfold contrate_new.
  cbn [cont_start_dates d_truthy FloatDates]. rewrite truthy_0.
  destruct dates as [|d0 ds] eqn:ED; [congruence|]. rewrite <- ED in *. cbn [bind spread_arg].
  rewrite rate_payoffs_plain by exact I. cbn [bind].
  assert (EQ : combine dates dates = map (fun d => (d, d)) dates).
  { clear. induction dates; cbn; congruence. }
  rewrite cf_new_ok.
  2:{ cbn [spread_arg]. rewrite !map_length, !combine_length. lia. }
  eexists. split; [reflexivity|]. intros i e a He Ha. unfold cf_payoff. cbn [cf_flows spread_arg].
  apply (dict_distinct (tm := fun d : R => d) (L := float_laws)) with i e; auto.
  - cbn. rewrite map_id. auto.
  - rewrite map_map. rewrite EQ.
    apply (map_nth_error (fun x : R * R * R => FlPay (PContRate (let '(s, e, a) := x in mkRP s e a count fixing (Some c)) floor cap))
             i _ (d := ((e, e), a))).
    apply nth_error_combine; auto. now apply map_nth_error with (f := fun d => (d, d)).
  - apply (eqb_refl (L := float_laws)).
Qed.
Print Assumptions C38_contingent_refuted.

Section Legs.
  Context {D P : Type} (DS : DateSys R D P) (DC : DayCounts R D) (tm : D -> R) (L : DateLaws DS tm).
  Implicit Types (l : cflist R D P) (legs : list (cflist R D P)).

  (** * C39: leg lists *)
  (** the flow of a leg list at any date is the sum of the flows of its legs *)
  Theorem C39_get : forall fuel flr legs ll d vs,
    legs_new legs = Ok ll -> Forall made legs ->
    Forall2 (fun l v => cf_get fuel flr l d = Ok v) legs vs ->
    ll_get fuel flr ll d = Ok (Rsum vs).
  Proof.
    intros fuel flr legs ll d vs H M F.
    assert (EL : ll_legs ll = legs).
    { unfold legs_new in H. destruct (min_origin (map cf_origin legs)); cbn [bind] in H; [|discriminate].
      destruct (cf_new _ _ _ _ _) in H; cbn [bind] in H; [|discriminate]. injection H as <-. reflexivity. }
    unfold ll_get. rewrite EL. clear H EL.
    cut (exists ws, mapM (fun leg => cf_get fuel flr leg d) (filter (fun leg => mem d_eqb d (cf_domain leg)) legs) = Ok ws
                    /\ Rsum ws = Rsum vs).
    { intros (ws & E & S). rewrite E. cbn [bind]. now rewrite nsum_Rsum, S. }
    induction F as [|l v legs vs E F IH]; [exists []; auto|].
    inversion M as [|? ? M1 M2]; subst. destruct (IH M2) as (ws & EW & S). cbn [filter].
    destruct (mem d_eqb d (cf_domain l)) eqn:B.
    - cbn [mapM]. rewrite E. cbn [bind]. rewrite EW. cbn [bind]. exists (v :: ws). split; [reflexivity|]. cbn. now rewrite S.
    - exists ws. split; [exact EW|]. cbn. rewrite S.
      assert (v = 0); [|subst; lra].
      unfold cf_get, cf_flow in E. rewrite (made_none (tm:=tm) l d M1 B) in E.
      cbn in E. congruence.
  Qed.

  Lemma legs_inv : forall legs ll, legs_new legs = Ok ll ->
    exists o, min_origin (map cf_origin legs) = Ok o /\
      let dom := date_set (concat (map cf_domain legs)) in
      ll = mkLL legs (mkCF dom (dict_of d_eqb (combine dom (repeat (FlNum 0) (length dom)))) o LNone false).
  Proof.
    intros legs ll H. unfold legs_new in H. destruct (min_origin (map cf_origin legs)) as [o|]; cbn [bind] in H; [|discriminate].
    rewrite cf_new_ok in H by (now rewrite repeat_length). cbn [bind] in H.
    injection H as <-. exists o. split; reflexivity.
  Qed.

  (** its domain: the dates of all legs, once each, increasing *)
  Theorem C39_domain : forall legs ll, legs_new legs = Ok ll ->
    increasing (map tm (ll_domain ll)) /\
    forall x, In x (map tm (ll_domain ll)) <-> exists l, In l legs /\ In x (map tm (cf_domain l)).
  Proof.
    intros legs ll H. destruct (legs_inv _ _ H) as (o & _ & ->). cbn [ll_domain ll_base cf_domain]. split.
    - set (l := concat (map cf_domain legs)).
      pose proof (date_set_sorted (L:=L) l) as SS. pose proof (date_set_nodup (L:=L) l) as ND.
      revert SS ND. generalize (date_set l). clear. intros l SS ND. unfold increasing.
      induction SS as [|a l SS IH F]; cbn; [constructor|]. cbn in ND. inversion ND as [|? ? N1 N2]; subst.
      constructor; auto. rewrite Forall_forall in *. intros x I. apply in_map_iff in I. destruct I as (y & <- & I).
      specialize (F y I). destruct (Rle_lt_or_eq_dec _ _ F) as [|E]; auto. destruct N1. rewrite E. now apply in_map.
    - intros x. rewrite (date_set_times (L:=L)). rewrite in_map_iff. split.
      + intros (d & <- & I). apply in_concat in I. destruct I as (ds & I & J). apply in_map_iff in I.
        destruct I as (l & <- & I). exists l. split; auto. now apply in_map.
      + intros (l & I & J). apply in_map_iff in J. destruct J as (d & <- & J). exists d. split; auto.
        apply in_concat. exists (cf_domain l). split; auto. now apply in_map.
  Qed.

  (** its origin is the first of the legs' origins *)
  Theorem C39_origin : forall legs os, legs <> [] -> map cf_origin legs = map Some os ->
    exists ll o, legs_new legs = Ok ll /\ ll_origin ll = Some o /\ In o os /\ forall o', In o' os -> tm o <= tm o'.
  Proof.
    intros legs os NE EO.
    assert (NO : os <> []) by (destruct legs, os; cbn in *; congruence).
    assert (MO : exists o, min_origin (map Some os) = Ok (Some o) /\ In o os /\ forall o', In o' os -> tm o <= tm o').
    { destruct os as [|o [|o2 os]]; [congruence| |].
      - exists o. cbn. split; auto. split; auto. intros o' [<-|[]]. lra.
      - destruct (d_min_ok (L:=L) (o :: o2 :: os)) as (m & E & I & Q); [discriminate|].
        exists m. split; [|split; auto]. unfold min_origin. cbn [map].
        change (Some o :: Some o2 :: map Some os) with (map Some (o :: o2 :: os)).
        rewrite mapM_map. rewrite mapM_ok with (g := fun d => d) by auto. rewrite map_id. cbn [bind]. rewrite E. reflexivity. }
    destruct MO as (o & E & I & Q). unfold legs_new. rewrite EO, E. cbn [bind].
    rewrite cf_new_ok by (now rewrite repeat_length). cbn [bind]. eexists; exists o. split; [reflexivity|]. auto.
  Qed.

  (** a leg without origin (no dates, no origin given) beside another leg is an error *)
  Theorem C39_no_origin : forall legs l, In l legs -> (1 < length legs)%nat -> cf_origin l = None ->
    legs_new legs = Err TypeError.
  Proof.
    intros legs l I LEN E. unfold legs_new.
    assert (X : min_origin (map cf_origin legs) = Err TypeError).
    { assert (F : mapM (fun o : option D => match o with Some d => Ok d | None => Err TypeError end) (map cf_origin legs) = Err TypeError).
      { clear LEN. induction legs as [|a legs IH]; [easy|]. cbn. destruct I as [->|I]; [now rewrite E|].
        rewrite (IH I). destruct (cf_origin a); reflexivity. }
      destruct legs as [|a [|b legs]]; cbn in LEN; try lia. unfold min_origin. cbn [map] in *. now rewrite F. }
    now rewrite X.
  Qed.

  (** FixedCashFlowList(leg list) has the flows of the leg list *)
  Theorem C39_fixed : forall fuel flr legs ll f,
    legs_new legs = Ok ll -> ll_fixed fuel flr ll None = Ok f ->
    cf_domain f = ll_domain ll /\ cf_origin f = ll_origin ll /\
    forall d, ll_get fuel flr ll d = cf_get fuel flr f d.
  Proof.
    intros fuel flr legs ll f H F. pose proof (C39_domain _ _ H) as [INC DOM].
    destruct (legs_inv _ _ H) as (o & _ & EL). cbv zeta in EL.
    unfold ll_fixed, ll_get_list, fixed_new in F.
    destruct (mapM (ll_get fuel flr ll) (ll_domain ll)) as [vals|] eqn:V; cbn [bind spread_arg] in F; [|discriminate].
    pose proof (mapM_length _ _ _ V) as LV.
    rewrite cf_new_ok in F by (now rewrite map_length). injection F as <-. split; [reflexivity|].
    split; [subst ll; reflexivity|]. intros d.
    destruct (in_dec Req_EM_T (tm d) (map tm (ll_domain ll))) as [I|NI].
    - apply in_map_iff in I. destruct I as (e & Q & I). apply In_nth_error in I. destruct I as (i & I).
      destruct (mapM_nth _ _ _ _ _ V I) as (v & E & N).
      assert (C : ll_get fuel flr ll d = ll_get fuel flr ll e).
      { unfold ll_get. f_equal.
        assert (FE : filter (fun leg => mem d_eqb d (cf_domain leg)) (ll_legs ll) = filter (fun leg => mem d_eqb e (cf_domain leg)) (ll_legs ll)).
        { apply filter_ext. intros l. unfold mem. induction (cf_domain l) as [|y ys IH]; cbn; auto. rewrite IH. f_equal.
          destruct (d_eqb y e) eqn:U.
          - apply (eqb_inv (tm:=tm)) in U. apply (eqb_t (tm:=tm)). congruence.
          - apply (eqb_finv (tm:=tm)) in U. apply (eqb_f (tm:=tm)). congruence. }
        rewrite FE. apply mapM_ext_in. intros l _. apply (get_congr (tm:=tm)). auto. }
      rewrite C, E. unfold cf_get, cf_flow. cbn [cf_flows cf_attr].
      rewrite (dict_distinct (tm:=tm) _ _ i e (FlPay (PFixed v)) d); auto.
      + clear - INC. revert INC. unfold increasing. induction 1 as [|a l SS IH F]; constructor; auto.
        rewrite Forall_forall in F. intros I. specialize (F _ I). lra.
      + now apply map_nth_error with (f := fun a => FlPay (PFixed a)).
      + apply (eqb_t (tm:=tm)). auto.
    - assert (Z : filter (fun leg => mem d_eqb d (cf_domain leg)) (ll_legs ll) = []).
      { assert (EQ : ll_legs ll = legs) by (subst ll; reflexivity). rewrite EQ.
        assert (NOT : forall l, In l legs -> mem d_eqb d (cf_domain l) = false).
        { intros l I. destruct (mem d_eqb d (cf_domain l)) eqn:B; auto. destruct NI. apply DOM. exists l. split; auto.
          unfold mem in B. apply existsb_exists in B. destruct B as (y & J & B). apply (eqb_inv (tm:=tm)) in B.
          apply in_map_iff. exists y. auto. }
        clear -NOT. induction legs as [|a legs IH]; cbn; auto. rewrite (NOT a) by (left; auto). apply IH. intros; apply NOT; right; auto. }
      unfold ll_get. rewrite Z. cbn [mapM bind]. unfold cf_get, cf_flow. cbn [cf_flows].
      rewrite (dict_none (tm:=tm)); [reflexivity|]. intros k v I. apply in_combine_l in I. apply (eqb_f (tm:=tm)).
      intros X. apply NI. rewrite <- X. now apply in_map.
  Qed.

  (** REFUTED: calling a leg list (with or without a forward curve or model) does not give
      its flows: the result pays nothing at all *)
  Theorem C39_call_refuted : forall fuel flr legs ll a, legs_new legs = Ok ll ->
    exists f, ll_call fuel flr ll a = Ok f /\ cf_domain f = ll_domain ll /\
    forall d, cf_get fuel flr f d = Ok 0.
  Proof.
    intros fuel flr legs ll a H. destruct (legs_inv _ _ H) as (o & _ & ->). unfold ll_call, cf_call. cbn [ll_base cf_domain].
    set (dom := date_set (concat (map cf_domain legs))).
    set (l0 := mkCF _ _ _ _ _).
    assert (NUM : forall d, cf_flow l0 d = FlNum 0).
    { intros d. unfold cf_flow, l0. cbn [cf_flows].
      destruct (assoc d_eqb d _) eqn:E; auto. rewrite (dict_get (tm:=tm)) in E.
      destruct (assoc_some_in _ _ _ E) as (k & I & _). apply in_rev in I. apply in_combine_r in I. apply repeat_spec in I. auto. }
    rewrite mapM_ok with (g := fun _ => 0).
    2:{ intros d _. rewrite NUM. reflexivity. }
    cbn [bind]. rewrite cf_new_ok by (now rewrite !map_length).
    eexists. split; [reflexivity|]. split; [reflexivity|]. intros d. unfold cf_get, cf_flow. cbn [cf_flows].
    destruct (assoc d_eqb d _) eqn:E; auto. rewrite (dict_get (tm:=tm)) in E.
    destruct (assoc_some_in _ _ _ E) as (k & I & _). apply in_rev in I. apply in_combine_r in I.
    apply in_map_iff in I. destruct I as (y & <- & I). apply in_map_iff in I. destruct I as (z & <- & _). reflexivity.
  Qed.
End Legs.
Print Assumptions C39_get.
Print Assumptions C39_domain.
Print Assumptions C39_origin.
Print Assumptions C39_no_origin.
Print Assumptions C39_fixed.
Print Assumptions C39_call_refuted.

(** instance: two legs with a common date *)
Example legs_instance : exists l1 l2 ll,
  cf_new (DS := FloatDates (T:=R)) (P := fperiod R) [1; 2] (Many [FlNum 3; FlNum 103]) None LNone false = Ok l1 /\
  cf_new (DS := FloatDates (T:=R)) (P := fperiod R) [2; 3] (Many [FlNum (-4); FlNum (-5)]) (Some 0) LNone false = Ok l2 /\
  legs_new [l1; l2] = Ok ll /\ ll_origin ll = Some 0 /\ ll_get (DC := []) 0 None ll 2 = Ok 99.
Proof.
  assert (ND : forall a b : R, a <> b -> NoDup (map (fun d => d) [a; b])).
  { intros a b H. cbn. repeat constructor; cbn; intuition congruence. }
  do 2 eexists.
  assert (A := C37_amounts (FloatDates (T:=R)) [] (fun d => d) float_laws 0 None [1; 2] [3; 103] None _ eq_refl (ND 1 2 ltac:(lra))).
  assert (B := C37_amounts (FloatDates (T:=R)) [] (fun d => d) float_laws 0 None [2; 3] [-4; -5] (Some 0) _ eq_refl (ND 2 3 ltac:(lra))).
  destruct A as (_ & A & _). destruct B as (_ & B & _).
  specialize (A 1%nat 2 103 eq_refl eq_refl 2 (eqb_refl (L:=float_laws) 2)).
  specialize (B 0%nat 2 (-4) eq_refl eq_refl 2 (eqb_refl (L:=float_laws) 2)).
  match type of A with cf_get _ _ ?l1 _ = _ => match type of B with cf_get _ _ ?l2 _ = _ =>
    destruct (C39_origin (FloatDates (T:=R)) (fun d => d) float_laws [l1; l2] [1; 0]) as (ll & o & E & O & I & Q);
      [discriminate|reflexivity|] end end.
  exists ll. split; [reflexivity|]. split; [reflexivity|]. split; [exact E|]. split.
  - rewrite O. f_equal. specialize (Q 0 ltac:(cbn; auto)). destruct I as [<-|[<-|[]]]; lra.
  - rewrite (C39_get (FloatDates (T:=R)) [] (fun d => d) float_laws 0 None _ ll 2 [103; -4] E).
    + cbn. f_equal. lra.
    + apply Forall_cons; [|apply Forall_cons; [|constructor]].
      * apply (made_new [1; 2] (Many [FlNum 3; FlNum 103]) None LNone false). reflexivity.
      * apply (made_new [2; 3] (Many [FlNum (-4); FlNum (-5)]) (Some 0) LNone false). reflexivity.
    + repeat constructor; [exact A|exact B].
Qed.

(** offsets of calendar dates: an offset of days moves a date back by that many days,
    whatever their sign; only the empty period and no offset at all leave it in place *)
Theorem C38_calendar_offset : forall (d : bdate) (n : Z),
  (forall d', moved_back (DS := DayDates (T:=R)) d (Some (BP 0 n)) d' -> bd_day d' = (bd_day d - n)%Z) /\
  (exists d', moved_back (DS := DayDates (T:=R)) d (Some (BP 0 n)) d') /\
  (forall d', moved_back (DS := DayDates (T:=R)) d None d' -> d' = d).
Proof.
  intros d n. unfold moved_back. cbn [p_truthy DayDates d_sub bp_months bp_days]. change (0 =? 0)%Z with true. cbn [andb].
  destruct (n =? 0)%Z eqn:E; cbn [negb].
  - apply Z.eqb_eq in E. subst n. repeat split; [intros d' <-; lia | eauto | auto].
  - repeat split; [|eauto|auto]. intros d' H. injection H as <-. cbn [bd_day]. unfold bd_plus. cbn [bp_months bp_days]. cbn. lia.
Qed.
Print Assumptions C38_calendar_offset.

(** on calendar dates no origin is taken for a missing one *)
Theorem C38_contingent_calendar : forall (DC : DayCounts R bdate) dates amounts o count fixing payo c cap floor model l,
  contrate_new (DS := DayDates) dates (Many amounts) (Some o) count fixing payo c cap floor model = Ok l ->
  NoDup (map bd_day dates) ->
  (length dates <= length amounts)%nat /\ cf_domain l = dates /\
  forall i s e a, nth_error (o :: dates) i = Some s -> nth_error dates i = Some e -> nth_error amounts i = Some a ->
    exists s' e', moved_back (DS := DayDates (T:=R)) s payo s' /\ moved_back (DS := DayDates (T:=R)) e payo e' /\
      cf_payoff (DS := DayDates) l e = Some (FlPay (PContRate (mkRP s' e' a count fixing (Some c)) floor cap)).
Proof.
  intros DC dates amounts o count fixing payo c cap floor model l H ND.
  apply (C38_contingent DayDates _ day_laws dates amounts o count fixing payo c cap floor model l); auto.
  rewrite <- (map_map bd_day (fun z => IZR z / (1461 / 4))). apply FinFun.Injective_map_NoDup; auto. intros a b E. apply eq_IZR. lra.
Qed.
Print Assumptions C38_contingent_calendar.
