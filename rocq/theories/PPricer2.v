(** Property C42: what the pricer functions leave behind. *)
From Coq Require Import Reals Lra Lia List Bool ZArith.
From Verif Require Import Num Py Spec MDates MInterpolation MCurve MRateCurve MOption MCashflow MBracket MPricer
  SDates SPricer LBase LSort LDates LCurve LCurve2 LCashflow LPricer LPricer2.
Import ListNotations.
Open Scope R_scope.

Section Unchanged.
  Context {D P : Type} (DS : DateSys R D P) (DC : DayCounts R D).
  Implicit Types (h : heap R D P) (p : product (D:=D)) (v : option D).

  (** * C42: every call that returns leaves all curves, models and lists as they were *)
  Theorem C42_present_value : forall fuel flr p k v h x h',
    get_present_value fuel flr p k v h = (Ok x, h') -> h' = h.
  Proof. intros *. apply pv_still. Qed.

  Theorem C42_yield_to_maturity : forall fuel flr p v target precision a b i origin count tenor h x h',
    get_yield_to_maturity fuel flr p v target precision a b i origin count tenor h = (Ok x, h') -> h' = h.
  Proof.
    intros fuel flr p v target precision a b i origin count tenor h x h' H.
    unfold get_yield_to_maturity in H. apply bind_ok in H. destruct H as (w & h1 & E & H).
    assert (h1 = h).
    { destruct v as [v|]; [unfold ret in E; congruence|]. unfold pr_origin in E. destruct p as [j|? ? ?].
      - apply bind_ok in E. destruct E as (l & h2 & E1 & E2). unfold get_list in E1. unfold ret in E2. congruence.
      - unfold ret in E. congruence. }
    subst h1. destruct w as [w|]; [|discriminate]. apply bind_ok in H. destruct H as (c & h1 & E' & H).
    unfold lift in E'. injection E' as _ <-.
    destruct (bracketing fuel (ytm_err fuel flr p w target) a b precision (h, c)) as [[r|e] s] eqn:B; [|discriminate].
    cbn [bind] in H. injection H as _ <-.
    apply (bracket_still (fun s => fst s = h)) in B; auto.
    intros y s1 z s2 I Q. unfold ytm_err in Q. apply bind_ok in Q. destruct Q as (u & s3 & Q1 & Q2).
    assert (I3 : fst s3 = h) by (destruct (rc_setitem (snd s1) w y); [injection Q1 as _ <-; exact I|discriminate]).
    apply bind_ok in Q2. destruct Q2 as (z2 & s4 & Q3 & Q4). unfold ret in Q4. injection Q4 as _ <-.
    unfold on_heap in Q3. destruct (pv_of fuel flr (snd s3) (Some w) p (fst s3)) as [r3 h3] eqn:Q5.
    destruct r3; [|discriminate]. apply pv_of_still in Q5. injection Q3 as _ <-. cbn. congruence.
  Qed.

  (** accrued interest never changes anything, also if it raises *)
  Theorem C42_interest_accrued : forall fuel flr p (v : D) h x h',
    get_interest_accrued fuel flr p v h = (x, h') -> h' = h.
  Proof.
    intros fuel flr p v h x h'.
    assert (A : forall i h x h', accrued_list fuel flr v i h = (x, h') -> h' = h).
    { intros i h0 x0 h0' H. unfold accrued_list, bindS, get_list, view, lift, ret in H.
      destruct (nth_res (h_lists h0) i) as [l|]; [|congruence]. destruct (list_view h0 l); [|congruence].
      destruct (mapM _ _); congruence. }
    destruct p as [i|legs dom o]; cbn; [apply A|].
    assert (M : forall legs h x h', mapS (accrued_list fuel flr v) legs h = (x, h') -> h' = h).
    { induction legs0 as [|i legs0 IH]; intros h0 x0 h0' H; cbn in H; unfold bindS, ret in H; [congruence|].
      destruct (accrued_list fuel flr v i h0) as [[y|e] h1] eqn:E; apply A in E; [|congruence]. subst h1.
      destruct (mapS _ legs0 h0) as [[ys|e] h1] eqn:E; apply IH in E; congruence. }
    intros H. unfold bindS, ret in H. destruct (mapS _ legs h) as [[ys|e] h1] eqn:E; apply M in E; congruence.
  Qed.

  (** the fixed rate is restored if all flows have the same one *)
  Theorem C42_fair_rate : forall fuel flr i k v target precision a b h l r x h',
    nth_error (h_lists h) i = Some l -> fixed_rate (hl_list l) = Ok (Some r) ->
    get_fair_rate fuel flr (PrList i) k v target precision a b h = (Ok x, h') -> h' = h.
  Proof.
    intros fuel flr i k v target precision a b h l r x h' Hl Hr H.
    unfold get_fair_rate in H. apply bind_ok in H. destruct H as (l' & h1 & E & H).
    unfold get_list in E. injection E as E <-. apply nth_res_get in E. assert (l' = l) by congruence. subst l'.
    apply bind_ok in H. destruct H as (r' & h1 & E' & H). unfold lift in E'. injection E' as E' <-.
    assert (r' = Some r) by congruence. subst r'. apply bind_ok in H. destruct H as (amb & h1 & B & H).
    apply (bracket_still (rate_only i l h)) in B.
    2:{ intros. eapply fair_err_rate; eauto. }
    2:{ now apply rate_only_refl. }
    apply bind_ok in H. destruct H as (u & h2 & S & H). unfold ret in H. injection H as _ <-.
    destruct (set_rate_ok _ _ _ _ _ _ _ B S) as ((M & C & O & _) & N & _).
    rewrite (same_rate _ _ Hr (uniform_rate _ _ Hr)) in N.
    rewrite (heap_eta h2), (heap_eta h), M, C. f_equal. apply list_ext. intros j.
    destruct (Nat.eq_dec j i) as [->|NE]; auto. rewrite N, Hl. f_equal. now destruct l.
  Qed.

  Theorem C42_basis_point_value : forall fuel flr p k v delta shift h x h',
    get_basis_point_value fuel flr p k v delta shift h = (Ok x, h') -> h' = h.
  Proof.
    intros fuel flr p k v delta shift h x h' H. unfold get_basis_point_value in H.
    apply bind_ok in H. destruct H as (pv & h1 & E & H). apply pv_still in E. subst h1. cbv zeta in H.
    set (ks := match delta with Some l => l | None => [k] end) in *.
    apply bind_ok in H. destruct H as (us & h1 & E1 & H). apply bind_ok in H. destruct H as (sh & h2 & E2 & H).
    apply pv_still in E2. subst h2. apply bind_ok in H. destruct H as (us' & h2 & E2 & H).
    apply bind_ok in H. destruct H as (q & h3 & E3 & H). unfold lift in E3. injection E3 as _ <-.
    unfold ret in H. injection H as _ <-. eapply there_and_back; eauto. apply shift_puts.
  Qed.

  Theorem C42_bucketed_delta : forall fuel flr p k v delta grid shift h x h',
    get_bucketed_delta fuel flr p k v delta grid shift h = (Ok x, h') -> h' = h.
  Proof.
    intros fuel flr p k v delta grid shift h x h' H. unfold get_bucketed_delta in H.
    apply bind_ok in H. destruct H as (pv & h1 & E & H). apply pv_still in E. subst h1. cbv zeta in H.
    set (ks := match delta with Some l => l | None => [k] end) in *.
    apply bind_ok in H. destruct H as (c & h1 & E1 & H). unfold get_curve in E1. injection E1 as _ <-.
    apply bind_ok in H. destruct H as (gs & h1 & E1 & H). unfold lift in E1. injection E1 as _ <-.
    apply (mapS_still _ (fun s => s = h)) in H; auto. clear x h' H. intros g h0 y h' _ -> H.
    unfold bucket_value in H. apply bind_ok in H. destruct H as (us & h1 & E1 & H).
    apply bind_ok in H. destruct H as (sh & h2 & E2 & H).
    apply pv_still in E2. subst h2. apply bind_ok in H. destruct H as (us' & h2 & E2 & H).
    apply bind_ok in H. destruct H as (q & h3 & E3 & H). unfold lift in E3. injection E3 as _ <-.
    unfold ret in H. injection H as _ <-. eapply there_and_back; eauto. apply bucket_puts.
  Qed.

  Theorem C42_curve_fit : forall fuel flr ps k v fitting grid targets precision a b h x h',
    get_curve_fit fuel flr ps k v fitting grid targets precision a b h = (Ok x, h') -> h' = h.
  Proof.
    intros fuel flr ps k v fitting grid targets precision a b h x h' H. unfold get_curve_fit in H. cbv zeta in H.
    set (fit := match fitting with Some i => i | None => k end) in *.
    assert (DOM : forall h dom h', spread_domain fit h = (Ok dom, h') -> h' = h).
    { intros h0 dom h0' Q. unfold spread_domain in Q. apply bind_ok in Q. destruct Q as (c & h1 & Q1 & Q2).
      unfold get_curve in Q1. injection Q1 as _ <-. destruct (rc_spread c) as [[s|s]|]; unfold ret, raise in Q2; congruence. }
    apply bind_ok in H. destruct H as (c & h1 & E1 & H). unfold get_curve in E1. injection E1 as E1 <-.
    apply nth_res_get in E1.
    apply bind_ok in H. destruct H as (s & h1 & E2 & H). unfold lift in E2. injection E2 as _ <-.
    apply bind_ok in H. destruct H as (u & h1 & E2 & H).
    destruct (put_spread_ok _ _ _ _ _ E2) as (c' & Hc' & SO & _ & NS). assert (c' = c) by congruence. subst c'.
    specialize (NS ltac:(discriminate)).
    apply bind_ok in H. destruct H as (dom & h2 & E3 & H). apply DOM in E3. subst h2.
    apply bind_ok in H. destruct H as (us & h2 & E3 & H).
    apply (mapS_still _ (spreads_only [fit] h)) in E3; auto.
    2:{ intros d s1 y s2 _ I Q. eapply so_trans; eauto. eapply set_spread_value_so; eauto. }
    apply bind_ok in H. destruct H as (dom2 & h3 & E4 & H). apply DOM in E4. subst h3.
    apply bind_ok in H. destruct H as (us2 & h3 & E5 & H).
    apply (mapS_still _ (spreads_only [fit] h)) in E5; auto.
    2:{ intros d s1 y s2 _ I Q. apply bind_ok in Q. destruct Q as (fs & s3 & Q1 & Q2).
        assert (s3 = s1).
        { clear - Q1. unfold matured in Q1. apply bind_ok in Q1. destruct Q1 as (bs & s4 & Q1 & Q2). unfold ret in Q2.
          apply mapS_pure_inv in Q1; [destruct Q1; congruence|]. clear. intros x s y s' Q. apply bind_ok in Q.
          destruct Q as (dom & s1 & Q1 & Q2). apply bind_ok in Q2. destruct Q2 as (m & s2 & Q2 & Q3).
          unfold lift in Q2. unfold ret in Q3.
          assert (s1 = s); [|congruence]. unfold pr_domain in Q1. destruct (fst x) as [j|? ? ?].
          - apply bind_ok in Q1. destruct Q1 as (l & s3 & Q1 & Q4). unfold get_list in Q1. unfold ret in Q4. congruence.
          - unfold ret in Q1. congruence. }
        subst s3. apply (bracket_still (spreads_only [fit] h)) in Q2; auto.
        intros z t1 w t2 J T. eapply so_trans; eauto. eapply fit_err_so; eauto. }
    apply bind_ok in H. destruct H as (c2 & h4 & E6 & H). unfold get_curve in E6. injection E6 as _ <-.
    apply bind_ok in H. destruct H as (dom3 & h4 & E6 & H). apply DOM in E6. subst h4.
    apply bind_ok in H. destruct H as (data & h4 & E6 & H). unfold lift in E6. injection E6 as _ <-.
    apply bind_ok in H. destruct H as (u2 & h4 & E6 & H). unfold ret in H. injection H as _ <-.
    destruct (put_spread_ok _ _ _ _ _ E6) as (c3 & Hc3 & SO2 & N3 & _).
    apply (so_eq [fit]).
    - exact (so_trans _ _ _ _ E5 SO2).
    - intros j cj [<-|[]] Ej. congruence.
    - intros j cj [<-|[]] Ej. rewrite N3 in Ej. injection Ej as <-. reflexivity.
  Qed.

  (** * ... but not the ones that raise *)
  (** exactly what a raising get_present_value leaves: everything as it was, except for the
      valuation date of the payoff model if a flow raised *)
  Theorem C42_present_value_raises : forall fuel flr i k disc (v : D) h c e h',
    nth_error (h_curves h) k = Some disc -> seen h v i c ->
    get_present_value fuel flr (PrList i) k (Some v) h = (Err e, h') ->
    h' = h \/
    (cf_get_list fuel flr c (due v c) = Err e /\ h_curves h' = h_curves h /\ h_lists h' = h_lists h /\
     exists l j m, nth_error (h_lists h) i = Some l /\ hl_attr l = HModel j /\ nth_error (h_models h) j = Some m /\
       h_models h' = set_nth j (mkHM (Some v) (hm_model m)) (h_models h)).
  Proof.
    intros fuel flr i k disc v h c e h' Hk S H. unfold get_present_value, bindS, get_curve in H.
    rewrite (nth_res_some _ _ _ Hk) in H. cbn [pv_of] in H. rewrite (pv_list_run _ _ _ _ _ _ _ S) in H.
    destruct (cf_get_list fuel flr c (due v c)) as [xs|e'] eqn:E; [left; congruence|].
    injection H as -> <-. unfold valued. destruct S as (l & a & Hl & _ & Ha). rewrite Hl.
    destruct (hl_attr l) as [|s|j|b] eqn:EA; auto.
    destruct Ha as (m & Hm & _). rewrite Hm. right. do 3 (split; auto). exists l, j, m. auto.
  Qed.

  (** REFUTED: a flow that raises leaves the model with the valuation date of the call *)
  Theorem C42_present_value_refuted : forall fuel flr i k disc (v : D) h c e l j m,
    nth_error (h_curves h) k = Some disc -> seen h v i c ->
    nth_error (h_lists h) i = Some l -> hl_attr l = HModel j -> nth_error (h_models h) j = Some m ->
    cf_get_list fuel flr c (due v c) = Err e ->
    exists h', get_present_value fuel flr (PrList i) k (Some v) h = (Err e, h') /\
      nth_error (h_models h') j = Some (mkHM (Some v) (hm_model m)) /\
      (hm_valuation m <> Some v -> h' <> h).
  Proof.
    intros fuel flr i k disc v h c e l j m Hk S Hl EA Hm E. exists (valued h v i).
    assert (N : nth_error (h_models (valued h v i)) j = Some (mkHM (Some v) (hm_model m))).
    { unfold valued. rewrite Hl, EA, Hm. cbn. apply set_nth_nth. apply nth_error_Some. congruence. }
    split; [|split; auto].
    - unfold get_present_value, bindS, get_curve.
      rewrite (nth_res_some _ _ _ Hk). cbn [pv_of]. rewrite (pv_list_run _ _ _ _ _ _ _ S), E. reflexivity.
    - intros NV X. rewrite X, Hm in N. injection N as N. apply NV. now rewrite N.
  Qed.

  (** REFUTED: without a sign change get_fair_rate raises AssertionError and leaves the upper
      bound as fixed rate *)
  Theorem C42_fair_rate_refuted : forall fuel flr i k v target precision a b h l r ya yb h1 h2,
    nth_error (h_lists h) i = Some l -> fixed_rate (hl_list l) = Ok r ->
    fair_err fuel flr i k v target a h = (Ok ya, h1) -> fair_err fuel flr i k v target b h1 = (Ok yb, h2) ->
    (0 < ya /\ 0 < yb) \/ (ya < 0 /\ yb < 0) ->
    (0 < fuel)%nat ->
    get_fair_rate fuel flr (PrList i) k v target precision a b h = (Err AssertionError, h2) /\
    nth_error (h_lists h2) i = Some (mkHL (set_fixed_rate (hl_list l) (Some b)) (hl_attr l)).
  Proof.
    intros fuel flr i k v target precision a b h l r ya yb h1 h2 Hl Hr Ha Hb SG F. split.
    - unfold get_fair_rate, bindS, get_list, lift. rewrite (nth_res_some _ _ _ Hl), Hr.
      destruct fuel as [|fuel]; [lia|]. cbn [bracketing]. unfold bindS. rewrite Ha, Hb. cbv zeta.
      change (nltb yb ya) with (Rltb yb ya).
      change (nleb (if Rltb yb ya then yb else ya) n0) with (Rleb (if Rltb yb ya then yb else ya) 0).
      change (nleb n0 (if Rltb yb ya then ya else yb)) with (Rleb 0 (if Rltb yb ya then ya else yb)).
      assert (X : (Rleb (if Rltb yb ya then yb else ya) 0 && Rleb 0 (if Rltb yb ya then ya else yb))%bool = false).
      { apply andb_false_iff. destruct SG as [[? ?]|[? ?]].
        - left. apply Rleb_false. destruct (Rltb yb ya); auto.
        - right. apply Rleb_false. destruct (Rltb yb ya); auto. }
      rewrite X. reflexivity.
    - pose proof (fair_err_rate _ _ _ _ _ _ _ _ _ _ _ _ (rate_only_refl i l h Hl) Ha) as RO.
      unfold fair_err in Hb. apply bind_ok in Hb. destruct Hb as (u & h3 & E & Hb).
      destruct (set_rate_ok _ _ _ _ _ _ _ RO E) as (_ & N & _).
      apply bind_ok in Hb. destruct Hb as (z & h4 & E2 & Hb). apply pv_still in E2. subst h4.
      unfold ret in Hb. injection Hb as _ <-. exact N.
  Qed.

  (** REFUTED: if the valuation with the shifted curves raises, the spreads stay *)
  Theorem C42_spread_refuted : forall fuel flr p k v ks shift h pv us h1 e h2,
    get_present_value fuel flr p k v h = (Ok pv, h) ->
    mapS (shift_curve shift) ks h = (Ok us, h1) ->
    get_present_value fuel flr p k v h1 = (Err e, h2) -> h_curves h2 = h_curves h1 ->
    get_basis_point_value fuel flr p k v (Some ks) shift h = (Err e, h2) /\
    forall d, In d ks -> exists c s, nth_error (h_curves h2) d = Some c /\ rc_spread c = Some s.
  Proof.
    intros fuel flr p k v ks shift h pv us h1 e h2 E1 E2 E3 E4. split.
    - unfold get_basis_point_value, bindS. now rewrite E1, E2, E3.
    - destruct (spread_loop _ (shift_puts shift) _ _ _ _ E2) as (_ & _ & S). rewrite E4. exact S.
  Qed.
End Unchanged.
Print Assumptions C42_present_value.
Print Assumptions C42_yield_to_maturity.
Print Assumptions C42_interest_accrued.
Print Assumptions C42_fair_rate.
Print Assumptions C42_basis_point_value.
Print Assumptions C42_bucketed_delta.
Print Assumptions C42_curve_fit.
Print Assumptions C42_present_value_raises.
Print Assumptions C42_present_value_refuted.
Print Assumptions C42_fair_rate_refuted.
Print Assumptions C42_spread_refuted.
