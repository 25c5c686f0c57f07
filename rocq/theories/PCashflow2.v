(** Properties C58 and C59: caps and floors, option strategies. *)
From Coq Require Import Reals Lra Lia ZArith List Bool Sorted Permutation.
From Verif Require Import Num Py Spec MDates MCurve MRateCurve MOption MCashflow SDates SOption SCashflow
  LBase LSort LDates LOption LCashflow POption.
Import ListNotations.
Open Scope R_scope.

Section Collar.
  Context {D P : Type} (DS : DateSys R D P) (DC : DayCounts R D).
  (** a payoff on the rate r, its year fraction tau, its fixing date d, and a model m which
      sees there the forward F, the volatility v and the time t *)
  Context (fuel : nat) (flr : option R) (r : ratep R D P) (c tau : R) (d : D)
          (m : omodel R D P) (F v t : R).
  Hypothesis HC : rp_rate r = Some c.
  Hypothesis HT : pay_count (rp_count r) (rp_start r) (rp_end r) = Ok tau.
  Hypothesis HD : moved_back (rp_start r) (rp_fixing r) d.
  Hypothesis HM : market fuel flr m d None F F v t.
  Let n := rp_amount r.

  (** * C58: caps and floors *)
  (** every model: the rate payment plus the put struck at the floor minus the call struck
      at the cap *)
  Theorem C58_general : forall floor cap pv cv,
    match floor with Some k => get_put_value fuel flr m d (Some k) = Ok pv | None => pv = 0 end ->
    match cap with Some k => get_call_value fuel flr m d (Some k) = Ok cv | None => cv = 0 end ->
    pay fuel flr (PContRate r floor cap) (PmModel m) = Ok ((F + c + pv - cv) * tau * n).
  Proof.
    intros floor cap pv cv HP HV. destruct (market_forward _ _ _ _ _ _ _ _ _ HM) as [TR FW].
    cbn [pay]. unfold cont_cashflow. cbn [pm_source].
    rewrite (rate_details_ok fuel r (om_forward m) tau d F c HT HD FW HC). cbn [bind rd_fixing rd_cashflow rd_yf].
    rewrite TR.
    destruct floor, cap; rewrite ?HP; cbn [bind]; rewrite ?HV; cbn [bind]; f_equal; unfold n; rn; lra.
  Qed.

  Section Intrinsic.
    (** intrinsic valuation: by its formula, or there is no volatility or no time left *)
    Hypothesis HI : om_formula m = FIntrinsic \/ no_time_value v t.

    Lemma intrinsic_values : forall k, get_call_value fuel flr m d (Some k) = Ok (Rmax (F - k) 0) /\
                                       get_put_value fuel flr m d (Some k) = Ok (Rmax (k - F) 0).
    Proof.
      intros k. pose proof (market_strike _ _ _ _ _ _ _ _ _ k HM) as MK. destruct HI as [I | Z].
      - eapply C53_intrinsic; eauto.
      - eapply C53_no_time_value; eauto.
    Qed.

    Theorem C58_collar : forall K L, K <= L ->
      pay fuel flr (PContRate r (Some K) (Some L)) (PmModel m) = Ok ((Rmax K (Rmin F L) + c) * tau * n).
    Proof.
      intros K L H. destruct (intrinsic_values K) as [_ E1]. destruct (intrinsic_values L) as [E2 _].
      rewrite (C58_general (Some K) (Some L) _ _ E1 E2). do 3 f_equal. unfold Rmax, Rmin.
      repeat destruct (Rle_dec _ _); lra.
    Qed.

    Theorem C58_floor : forall K,
      pay fuel flr (PContRate r (Some K) None) (PmModel m) = Ok ((Rmax K F + c) * tau * n) /\
      Rmax K F = F + Rmax (K - F) 0.
    Proof.
      intros K. assert (Q : Rmax K F = F + Rmax (K - F) 0) by (unfold Rmax; repeat destruct (Rle_dec _ _); lra).
      split; auto. destruct (intrinsic_values K) as [_ E1].
      rewrite (C58_general (Some K) None _ 0 E1 eq_refl). rewrite Q. f_equal. lra.
    Qed.

    Theorem C58_cap : forall L,
      pay fuel flr (PContRate r None (Some L)) (PmModel m) = Ok ((Rmin F L + c) * tau * n).
    Proof.
      intros L. destruct (intrinsic_values L) as [E2 _].
      rewrite (C58_general None (Some L) 0 _ eq_refl E2). do 3 f_equal. unfold Rmax, Rmin.
      repeat destruct (Rle_dec _ _); lra.
    Qed.

    (** REFUTED for a cap below the floor: between the two the payment falls with the rate *)
    Theorem C58_collar_refuted : forall K L, L < F < K ->
      pay fuel flr (PContRate r (Some K) (Some L)) (PmModel m) = Ok ((K + L - F + c) * tau * n) /\
      K + L - F < Rmax K (Rmin F L).
    Proof.
      intros K L H. destruct (intrinsic_values K) as [_ E1]. destruct (intrinsic_values L) as [E2 _].
      rewrite (C58_general (Some K) (Some L) _ _ E1 E2). split.
      - do 3 f_equal. unfold Rmax. repeat destruct (Rle_dec _ _); lra.
      - unfold Rmax, Rmin. repeat destruct (Rle_dec _ _); lra.
    Qed.
  End Intrinsic.

  (** without cap and floor it is the rate payment; without model cap and floor are ignored *)
  Theorem C58_plain : pay fuel flr (PContRate r None None) (PmModel m) = Ok ((F + c) * tau * n).
  Proof. rewrite (C58_general None None 0 0 eq_refl eq_refl). f_equal. lra. Qed.
  Theorem C58_no_model : forall floor cap s f, forward_at fuel s d f ->
    pay fuel flr (PContRate r floor cap) (PmSource s) = Ok ((f + c) * tau * n).
  Proof.
    intros floor cap s f H. cbn [pay]. unfold cont_cashflow. cbn [pm_source].
    rewrite (rate_details_ok fuel r s tau d f c HT HD H HC). cbn [bind rd_cashflow]. f_equal. unfold n. lra.
  Qed.
End Collar.

(** REFUTED for the forward rate zero given as a number: every valuation with a model raises *)
Theorem C58_zero_forward_refuted : forall {D P} (DS : DateSys R D P) (DC : DayCounts R D)
  fuel flr r c tau m floor cap,
  rp_rate r = Some c -> pay_count (rp_count r) (rp_start r) (rp_end r) = Ok tau ->
  om_forward m = FwNum 0 ->
  pay fuel flr (PContRate r floor cap) (PmModel m) = Err KeyError.
Proof.
  intros D P DS DC fuel flr r c tau m floor cap HC HT HF. cbn [pay]. unfold cont_cashflow, rate_details. cbn [pm_source pm_truthy].
  rewrite HF, HT. cbn [bind src_truthy]. rewrite truthy_0. cbn [bind]. rewrite HC. reflexivity.
Qed.
Print Assumptions C58_general.
Print Assumptions C58_collar.
Print Assumptions C58_floor.
Print Assumptions C58_cap.
Print Assumptions C58_collar_refuted.
Print Assumptions C58_plain.
Print Assumptions C58_no_model.
Print Assumptions C58_zero_forward_refuted.

(** instance: half a year on 100 with spread 1 %, floor 2 %, cap 4 %, forward 5 % *)
Example collar_instance :
  pay (DS := FloatDates (T:=R)) (DC := []) 0 None
    (PContRate (mkRP 1 (3/2) 100 DcDefault None (Some (1/100))) (Some (2/100)) (Some (4/100)))
    (PmModel (mkOM FIntrinsic default_gconst (Some 0) (FwNum (5/100)) (VoNum (1/10)) None false))
  = Ok (5/2).
Proof.
  rewrite (C58_collar (FloatDates (T:=R)) [] 0 None _ (1/100) (1/2) 1 _ (5/100) (1/10) 1); auto; try reflexivity; try lra.
  - cbn [rp_amount]. f_equal. unfold Rmax, Rmin. repeat destruct (Rle_dec _ _); lra.
  - change (@Ok R (3/2 - 1) = Ok (1/2)). f_equal. lra.
  - apply (C69_numbers (FloatDates (T:=R)) [] 0 None FIntrinsic default_gconst (5/100) (1/10) 0 1 None 1 false); [lra|].
    change (@Ok R (1 - 0) = Ok 1). f_equal. lra.
Qed.

Section Strategy.
  Context {D P : Type} (DS : DateSys R D P) (DC : DayCounts R D) (tm : D -> R) (L : DateLaws DS tm).
  Implicit Types (m : omodel R D P) (ca pa cs ps : list R).

  (** * C59: option strategies *)
  (** amount times value, summed *)
  Definition weighted (ns vs : list R) : R := Rsum (map (fun nv => fst nv * snd nv) (combine ns vs)).

  Lemma options_value fuel flr m d b ns ks vs : length ns = length ks ->
    Forall2 (fun k v => option_value fuel flr m d b (Some k) v) ks vs ->
    mapM (fun o => option_cashflow fuel flr o (PmModel m))
         (map (fun ak => mkOP d (fst ak) (Some (snd ak)) b) (combine ns ks))
    = Ok (map (fun nv => fst nv * snd nv) (combine ns vs)).
  Proof.
    intros LEN F. revert ns LEN. induction F as [|k v ks vs E F IH]; intros [|x ns] LEN; try discriminate; [reflexivity|].
    cbn [combine map mapM]. unfold option_cashflow at 1. cbn [op_put op_expiry op_strike op_amount fst snd].
    unfold option_value in E. rewrite E. cbn [bind]. rewrite IH by (cbn in LEN; lia). reflexivity.
  Qed.

  (** the strategy is worth the calls and the puts, each with its amount *)
  Theorem C59_sum : forall fuel flr m d ca cs pa ps cv pv,
    length ca = length cs -> length pa = length ps ->
    Forall2 (fun k v => get_call_value fuel flr m d (Some k) = Ok v) cs cv ->
    Forall2 (fun k v => get_put_value fuel flr m d (Some k) = Ok v) ps pv ->
    pay fuel flr (strategy_new d (Many ca) cs (Many pa) ps) (PmModel m)
    = Ok (weighted ca cv + weighted pa pv).
  Proof.
    intros fuel flr m d ca cs pa ps cv pv L1 L2 F1 F2. unfold strategy_new. cbn [spread_arg pay]. unfold strategy_cashflow.
    set (l := _ ++ _).
    assert (E : mapM (fun o => option_cashflow fuel flr o (PmModel m)) l =
      Ok (map (fun nv => fst nv * snd nv) (combine pa pv) ++ map (fun nv => fst nv * snd nv) (combine ca cv))).
    { unfold l. apply mapM_app; apply options_value; auto. }
    destruct (mapM_perm _ _ _ _ (Permutation_sym (sort_perm strike_ltb l)) E) as (r & E2 & Q).
    rewrite E2. cbn [bind]. rewrite nsum_Rsum, <- (Rsum_perm _ _ Q), Rsum_app. unfold weighted. f_equal. lra.
  Qed.

  (** one number as amount applies to every strike *)
  Theorem C59_scalar : forall (d : D) n k cs ps,
    strategy_new (P:=P) d (One n) cs (One k) ps =
    strategy_new d (Many (repeat n (length cs))) cs (Many (repeat k (length ps))) ps.
  Proof. reflexivity. Qed.

  (** the order in which the options are given does not matter *)
  Theorem C59_order : forall fuel flr a (d : D) ca cs pa ps ca' cs' pa' ps' x,
    Permutation (combine ca cs) (combine ca' cs') -> Permutation (combine pa ps) (combine pa' ps') ->
    pay fuel flr (strategy_new (P:=P) d (Many ca) cs (Many pa) ps) a = Ok x ->
    pay fuel flr (strategy_new d (Many ca') cs' (Many pa') ps') a = Ok x.
  Proof.
    intros fuel flr a d ca cs pa ps ca' cs' pa' ps' x Q1 Q2. unfold strategy_new. cbn [spread_arg pay]. unfold strategy_cashflow.
    set (l := map _ (combine pa ps) ++ _). set (l' := map _ (combine pa' ps') ++ _). intros H.
    destruct (mapM _ (sort strike_ltb l)) as [r|] eqn:E in H; cbn [bind] in H; [|discriminate].
    assert (Q : Permutation (sort strike_ltb l) (sort strike_ltb l')).
    { rewrite !sort_perm. unfold l, l'. apply Permutation_app; now apply Permutation_map. }
    destruct (mapM_perm _ _ _ _ Q E) as (r' & E2 & QR). rewrite E2. cbn [bind].
    rewrite nsum_Rsum in *. now rewrite <- (Rsum_perm _ _ QR).
  Qed.

  (** the options of a strategy: those given, in the order of rising strikes *)
  Theorem C59_sorted : forall (d : D) ca cs pa ps, exists os,
    strategy_new (P:=P) d (Many ca) cs (Many pa) ps = PStrategy os /\
    Permutation os (map (fun ak => mkOP d (fst ak) (Some (snd ak)) true) (combine pa ps) ++
                    map (fun ak => mkOP d (fst ak) (Some (snd ak)) false) (combine ca cs)) /\
    StronglySorted (fun a b => exists j k, op_strike a = Some j /\ op_strike b = Some k /\ j <= k) os.
  Proof.
    intros d ca cs pa ps. unfold strategy_new. cbn [spread_arg]. eexists. split; [reflexivity|]. split; [apply sort_perm|].
    set (l := _ ++ _). assert (SO : forall o, In o l -> exists k, op_strike o = Some k).
    { intros o I. unfold l in I. apply in_app_or in I. destruct I as [I|I]; apply in_map_iff in I; destruct I as (x & <- & _); cbn; eauto. }
    set (key := fun o : optp R D => match op_strike o with Some k => k | None => 0 end).
    assert (E : sort strike_ltb l = sort (fun a b => Rltb (key a) (key b)) l).
    { clearbody l. induction l as [|o l IH]; [reflexivity|]. cbn [sort]. rewrite <- IH by (intros; apply SO; now right).
      assert (SO' : forall x, In x (sort strike_ltb l) -> exists k, op_strike x = Some k).
      { intros x I. apply SO. right. apply (Permutation_in x (sort_perm strike_ltb l) I). }
      destruct (SO o (or_introl eq_refl)) as [k Ek]. clear -Ek SO'. induction (sort strike_ltb l) as [|y r IH]; [reflexivity|].
      cbn [insert]. destruct (SO' y (or_introl eq_refl)) as [j Ej].
      replace (strike_ltb y o) with (Rltb (key y) (key o)) by (unfold strike_ltb, key; rewrite Ej, Ek; reflexivity).
      destruct (Rltb (key y) (key o)); [|reflexivity]. f_equal. apply IH. intros; apply SO'; now right. }
    assert (SO' : forall x, In x (sort strike_ltb l) -> exists k, op_strike x = Some k).
    { intros x I. apply SO. apply (Permutation_in x (sort_perm strike_ltb l) I). }
    assert (SS : StronglySorted (fun a b => Rltb (key b) (key a) = false) (sort strike_ltb l)).
    { rewrite E. apply (sort_sorted (fun a b => Rltb (key a) (key b))).
      - intros a b. rewrite Rltb_true, Rltb_false. lra.
      - intros a b c. rewrite !Rltb_false. lra. }
    clear E. revert SO' SS. generalize (sort strike_ltb l). clear. intros r SO' SS. induction SS as [|x r SS IH F]; constructor.
    - apply IH. intros; apply SO'; now right.
    - rewrite Forall_forall in *. intros y I. destruct (SO' x (or_introl eq_refl)) as [j Ej]. destruct (SO' y (or_intror I)) as [k Ek].
      exists j, k. split; auto. split; auto. specialize (F y I). unfold key in F. rewrite Ej, Ek in F. apply Rltb_false in F. lra.
  Qed.

  (** without model it pays nothing *)
  Theorem C59_no_model : forall fuel flr (d : D) (ca : arg R) cs (pa : arg R) ps,
    pay fuel flr (strategy_new (P:=P) d ca cs pa ps) (PmSource FwNone) = Ok 0.
  Proof.
    intros. unfold strategy_new. cbn [pay]. unfold strategy_cashflow.
    rewrite mapM_ok with (g := fun _ => 0) by reflexivity. cbn [bind]. rewrite nsum_Rsum. f_equal.
    match goal with |- Rsum (map _ ?l) = 0 => induction l; cbn; lra end.
  Qed.

  (** lists: the option or strategy paid at a date expires at this date moved back by the
      pay offset and then by the fixing offset *)
  Theorem C59_option_list : forall dates ns ks bs fixing payo origin model l,
    optionlist_new dates (Many ns) (Many ks) (Many bs) fixing payo origin model = Ok l ->
    NoDup (map tm dates) ->
    cf_domain l = dates /\
    forall i d n k b, nth_error dates i = Some d -> nth_error ns i = Some n ->
      nth_error ks i = Some k -> nth_error bs i = Some b ->
      exists d1 d2, moved_back d payo d1 /\ moved_back d1 fixing d2 /\
      cf_payoff l d = Some (FlPay (POption (mkOP d2 n k b))).
  Proof.
    intros dates ns ks bs fixing payo origin model l H ND. unfold optionlist_new in H. cbn [spread_arg] in H.
    destruct (mapM _ _) as [os|] eqn:E in H; cbn [bind] in H; [|discriminate]. unfold contingent_new in H.
    destruct (cf_new_inv _ _ _ _ _ _ H) as [LEN ->]. split; [reflexivity|]. intros i d n k b Hd Hn Hk Hb.
    pose proof (nth_error_combine _ _ _ _ _ (nth_error_combine _ _ _ _ _ (nth_error_combine _ _ _ _ _ Hd Hn) Hk) Hb) as HX.
    destruct (mapM_nth _ _ _ _ _ E HX) as (y & EY & NY). cbv beta iota in EY. unfold expiry_of in EY.
    destruct (offset d payo) as [d1|] eqn:O1; cbn [bind] in EY; [|discriminate].
    destruct (offset d1 fixing) as [d2|] eqn:O2; cbn [bind] in EY; [|discriminate].
    injection EY as <-. exists d1, d2. rewrite <- !moved_offset. split; auto. split; auto.
    apply (dict_distinct (tm:=tm)) with i d; auto. apply (eqb_refl (tm:=tm)).
  Qed.

  Theorem C59_strategy_list : forall (dates : list D) (ca : arg R) cs (pa : arg R) ps fixing payo origin model l,
    strategylist_new dates ca cs pa ps fixing payo origin model = Ok l ->
    NoDup (map tm dates) ->
    cf_domain l = dates /\ (length cs + length ps <= 10)%nat /\
    forall d, In d dates -> exists d1 d2, moved_back d payo d1 /\ moved_back d1 fixing d2 /\
      cf_payoff l d = Some (FlPay (strategy_new d2 ca cs pa ps)).
  Proof.
    intros dates ca cs pa ps fixing payo origin model l H ND. unfold strategylist_new in H.
    destruct (Nat.ltb_spec 10 (length ps + length cs)) as [|LE]; [discriminate|].
    destruct (mapM _ _) as [os|] eqn:E in H; cbn [bind] in H; [|discriminate]. unfold contingent_new in H.
    destruct (cf_new_inv _ _ _ _ _ _ H) as [LEN ->]. split; [reflexivity|]. split; [lia|]. intros d I.
    apply In_nth_error in I. destruct I as (i & I).
    destruct (mapM_nth _ _ _ _ _ E I) as (y & EY & NY). cbv beta iota in EY. unfold expiry_of in EY.
    destruct (offset d payo) as [d1|] eqn:O1; cbn [bind] in EY; [|discriminate].
    destruct (offset d1 fixing) as [d2|] eqn:O2; cbn [bind] in EY; [|discriminate].
    injection EY as <-. exists d1, d2. rewrite <- !moved_offset. split; auto. split; auto.
    apply (dict_distinct (tm:=tm)) with i d; auto. apply (eqb_refl (tm:=tm)).
  Qed.

  (** REFUTED: more than ten options are rejected, but not with the documented KeyError *)
  Theorem C59_many_refuted : forall (dates : list D) (ca : arg R) cs (pa : arg R) ps fixing payo origin model,
    (10 < length cs + length ps)%nat ->
    strategylist_new (P:=P) dates ca cs pa ps fixing payo origin model = Err TypeError.
  Proof.
    intros. unfold strategylist_new. destruct (Nat.ltb_spec 10 (length ps + length cs)); auto; lia.
  Qed.

  (** REFUTED: a contingent list without payoffs exists for a single date only *)
  Theorem C59_no_payoffs_refuted : forall (dates : list D) origin model,
    (length dates <> 1%nat -> contingent_new (P:=P) dates None origin model = Err ValueError) /\
    (length dates = 1%nat -> exists l, contingent_new (P:=P) dates None origin model = Ok l /\
       forall fuel flr d, cf_get fuel flr l d = Ok 0).
  Proof.
    intros dates origin model. unfold contingent_new. split; intros H.
    - unfold cf_new. cbn [spread_arg length]. destruct (Nat.eqb_spec 1 (length dates)); auto; congruence.
    - rewrite cf_new_ok by auto. eexists. split; [reflexivity|]. intros. unfold cf_get, cf_flow. cbn [cf_flows].
      destruct dates as [|d0 [|]]; try discriminate. cbn. destruct (d_eqb d0 d); reflexivity.
  Qed.
End Strategy.
Print Assumptions C59_sum.
Print Assumptions C59_sorted.
Print Assumptions C59_scalar.
Print Assumptions C59_order.
Print Assumptions C59_no_model.
Print Assumptions C59_option_list.
Print Assumptions C59_strategy_list.
Print Assumptions C59_many_refuted.
Print Assumptions C59_no_payoffs_refuted.

(** instance: a long straddle at 100 against two calls at 120, forward 110 *)
Example strategy_instance :
  pay (DS := FloatDates (T:=R)) (DC := []) 0 None
    (strategy_new 1 (Many [1; -2]) [100; 120] (One 1) [100])
    (PmModel (mkOM FIntrinsic default_gconst (Some 0) (FwNum 110) (VoNum (1/10)) None false))
  = Ok 10.
Proof.
  change (strategy_new (P:=fperiod R) 1 (Many [1; -2]) [100; 120] (One 1) [100])
    with (strategy_new (P:=fperiod R) 1 (Many [1; -2]) [100; 120] (Many [1]) [100]).
  assert (M : forall k, market (DS := FloatDates (T:=R)) (DC := []) 0 None
     (mkOM FIntrinsic default_gconst (Some 0) (FwNum 110) (VoNum (1/10)) None false) 1 (Some k) 110 k (1/10) 1).
  { intros k. apply (C69_numbers (FloatDates (T:=R)) [] 0 None FIntrinsic default_gconst 110 (1/10) 0 1 (Some k) 1 false); [lra|].
    change (@Ok R (1 - 0) = Ok 1). f_equal. lra. }
  rewrite (C59_sum (FloatDates (T:=R)) [] 0 None _ 1 [1; -2] [100; 120] [1] [100] [Rmax (110 - 100) 0; Rmax (110 - 120) 0]
             [Rmax (100 - 110) 0]); auto.
  - f_equal. unfold weighted. cbn. unfold Rmax. repeat destruct (Rle_dec _ _); lra.
  - repeat constructor; eapply C53_intrinsic; auto; apply M.
  - repeat constructor; eapply C53_intrinsic; auto; apply M.
Qed.
