(** Properties C40 and C41: the present value. *)
From Coq Require Import Reals Lra Lia List Bool ZArith.
From Verif Require Import Num Py Spec MDates MCurve MRateCurve MOption MCashflow MBracket MPricer
  SDates SRateCurve SCashflow SPricer LBase LSort LDates LDateCurve LCast LCashflow LRateCurve LPricer PCashflow.
Import ListNotations.
Open Scope R_scope.

Section Value.
  Context {D P : Type} (DS : DateSys R D P) (DC : DayCounts R D).
  Implicit Types (h : heap R D P) (disc : rcurve R D P) (c : cflist R D P) (v : D).

  (** * C40: the present value is the sum of the discounted flows at the valuation date and
      later; in particular the call leaves all objects unchanged *)
  Theorem C40_list : forall fuel flr h i k disc v c x,
    nth_error (h_curves h) k = Some disc -> seen h v i c ->
    (worth fuel flr disc v c x <->
     returns (get_present_value fuel flr (PrList i) k (Some v)) h x).
  Proof.
    intros fuel flr h i k disc v c x Hk S. unfold returns, get_present_value, bindS, get_curve.
    rewrite (nth_res_some _ _ _ Hk). now apply pv_list_ok.
  Qed.

  (** without valuation date the origin of the discount curve is used *)
  Theorem C40_default_date : forall fuel flr h p k disc o,
    nth_error (h_curves h) k = Some disc -> rc_origin disc = Some o ->
    get_present_value fuel flr p k None h = get_present_value fuel flr p k (Some o) h.
  Proof.
    intros fuel flr h p k disc o Hk HO. unfold get_present_value, bindS, get_curve.
    rewrite (nth_res_some _ _ _ Hk). unfold pv_of. now rewrite HO.
  Qed.

  (** leg lists: the sum of the values of the legs *)
  Theorem C40_legs : forall fuel flr h legs dom o k disc v x,
    nth_error (h_curves h) k = Some disc ->
    (returns (get_present_value fuel flr (PrLegs legs dom o) k (Some v)) h x <->
     exists xs, Forall2 (fun i y => returns (get_present_value fuel flr (PrList i) k (Some v)) h y) legs xs /\
                x = Rsum xs).
  Proof.
    intros fuel flr h legs dom o k disc v x Hk. unfold returns, get_present_value, bindS, get_curve.
    rewrite (nth_res_some _ _ _ Hk). cbn [pv_of]. unfold bindS, ret. split.
    - intros H. destruct (mapS _ legs h) as [[vs|e] s] eqn:E; [|discriminate].
      apply mapS_pure_inv in E; [|intros; eapply pv_list_still; eauto].
      destruct E as [-> F]. exists vs. split; auto. rewrite nsum_Rsum in H. congruence.
    - intros (xs & F & ->). rewrite (mapS_pure _ _ _ _ F). now rewrite nsum_Rsum.
  Qed.
End Value.

Section Aggregated.
  Context {D P : Type} (DS : DateSys R D P) (DC : DayCounts R D) (tm : D -> R) (L : DateLaws DS tm).
  Implicit Types (h : heap R D P) (disc : rcurve R D P) (c : cflist R D P) (v : D).

  (** ... which is the value of the aggregated flows of the leg list, if no leg has a date
      twice *)
  Theorem C40_aggregated : forall fuel flr h legs cs dom o k disc v all df,
    nth_error (h_curves h) k = Some disc -> Forall2 (seen h v) legs cs -> legs_new cs = Ok all ->
    (forall c, In c cs -> NoDup (map tm (cf_domain c)) /\
       forall d, In d (due v c) -> get_discount_factor fuel disc v d = Ok (df (tm d)) /\
                                   exists a, cf_get fuel flr c d = Ok a) ->
    exists xs, Forall2 (fun d x => exists a, ll_get fuel flr all d = Ok a /\ x = df (tm d) * a)
                       (filter (fun d => d_leb v d) (ll_domain all)) xs /\
      returns (get_present_value fuel flr (PrLegs legs dom o) k (Some v)) h (Rsum xs).
  Proof.
    intros fuel flr h legs cs dom o k disc v all df Hk F HA HC.
    assert (DOM : ll_domain all = date_set (concat (map cf_domain cs)) /\ ll_legs all = cs).
    { clear - HA. unfold legs_new in HA. destruct (min_origin _) as [oo|]; [|discriminate]. cbn [bind] in HA.
      rewrite cf_new_ok in HA by apply repeat_length. cbn [bind] in HA. injection HA as <-. split; reflexivity. }
    destruct DOM as [DOM LEG].
    set (g := fun c d => df (tm d) * val 0 (cf_get fuel flr c d)).
    set (A := fun c => map (fun d => (tm d, g c d)) (due v c)).
    set (U := filter (fun d => d_leb v d) (ll_domain all)).
    set (inleg := fun d c => mem d_eqb d (cf_domain c)).
    set (tot := fun d => Rsum (map (fun c => val 0 (cf_get fuel flr c d)) (filter (inleg d) cs))).
    assert (MEM : forall c d, In c cs -> inleg d c = true -> d_leb v d = true ->
              exists d', In d' (due v c) /\ tm d' = tm d /\ exists a, cf_get fuel flr c d = Ok a /\ cf_get fuel flr c d' = Ok a).
    { intros c d Ic M Le. apply (mem_dates (L:=L)) in M. apply in_map_iff in M. destruct M as (d' & E & I).
      assert (I' : In d' (due v c)).
      { apply filter_In. split; auto. apply (law_leb (DateLaws:=L)). rewrite E. now apply (law_leb (DateLaws:=L)). }
      exists d'. split; auto. split; auto. destruct (HC c Ic) as (_ & H). destruct (H d' I') as (_ & a & Ha).
      exists a. split; auto. rewrite (get_congr (tm:=tm) fuel flr c d d'); auto. }
    assert (HU : forall d, In d U -> d_leb v d = true) by (intros d I; apply filter_In in I; tauto).
    exists (map (fun d => df (tm d) * tot d) U). split.
    - assert (G : forall V, (forall d, In d V -> d_leb v d = true) ->
         Forall2 (fun d x => exists a, ll_get fuel flr all d = Ok a /\ x = df (tm d) * a) V (map (fun d => df (tm d) * tot d) V)).
      { induction V as [|d V IH]; intros HV; constructor; [|apply IH; intros; apply HV; now right].
        exists (tot d). split; auto. unfold ll_get. rewrite LEG. fold (inleg d).
        rewrite (mapM_ok _ (fun c => val 0 (cf_get fuel flr c d))).
        - cbn [bind]. now rewrite nsum_Rsum.
        - intros c Ic. apply filter_In in Ic. destruct Ic as [Ic M].
          destruct (MEM c d Ic M (HV d (or_introl eq_refl))) as (_ & _ & _ & a & -> & _). reflexivity. }
      apply G. exact HU.
    - apply (C40_legs DS DC) with (disc := disc); auto. exists (map (fun c => Rsum (map snd (A c))) cs). split.
      + clear - F Hk HC g A. revert HC. induction F as [|i c legs cs S F IH]; intros HC; constructor.
        * apply (C40_list DS DC fuel flr h i k disc v c); auto. unfold A. rewrite map_map. cbn [snd].
          exists (map (g c) (due v c)). split; auto.
          assert (G : forall V, incl V (due v c) -> Forall2 (discounted fuel flr disc v c) V (map (g c) V)).
          { induction V as [|d V IHV]; intros HV; constructor; [|apply IHV; intros y Iy; apply HV; now right].
            destruct (HC c (or_introl eq_refl)) as (_ & H).
            destruct (H d (HV d (or_introl eq_refl))) as (H1 & a & H2).
            exists (df (tm d)), a. split; auto. split; auto. unfold g. now rewrite H2. }
          apply G. apply incl_refl.
        * apply IH. intros c' I'. apply HC. now right.
      + rewrite <- (map_map (fun c => map snd (A c)) Rsum), <- Rsum_concat.
        rewrite <- (map_map A (map snd)), <- concat_map.
        destruct (C39_domain DS tm L cs all HA) as [INC INU].
        rewrite (Rsum_split _ (map tm U)).
        * rewrite map_map. f_equal. apply map_ext_in. intros d Id. pose proof (HU d Id) as Le.
          assert (E : forall l, incl l cs -> Rsum (map snd (at_time (tm d) (concat (map A l)))) =
                     df (tm d) * Rsum (map (fun c => if inleg d c then val 0 (cf_get fuel flr c d) else 0) l)).
          { induction l as [|c l IH]; intros HI; [cbn; lra|].
            cbn [map concat Rsum]. rewrite at_time_app, map_app, Rsum_app, IH by (intros y Iy; apply HI; now right).
            assert (Ic : In c cs) by (apply HI; now left). destruct (HC c Ic) as (ND & _).
            unfold A. destruct (inleg d c) eqn:M.
            - destruct (MEM c d Ic M Le) as (d' & I' & E' & a & H1 & H2). rewrite <- E'.
              rewrite (at_time_one (due v c) tm (g c) d'); auto.
              + unfold g. rewrite H1, H2. cbn [val]. rewrite E'. lra.
              + now apply nodup_filter.
            - rewrite (at_time_none (due v c) tm (g c)); [lra|]. intros I. apply in_map_iff in I.
              destruct I as (d' & E' & I'). apply filter_In in I'.
              assert (X : inleg d c = true); [|congruence]. apply (mem_dates (L:=L)). rewrite <- E'. apply in_map. tauto. }
          rewrite E by apply incl_refl. unfold tot. rewrite Rsum_filter. reflexivity.
        * apply nodup_filter. now apply incr_nodup.
        * intros p I. apply in_concat in I. destruct I as (l & I & Ip). apply in_map_iff in I.
          destruct I as (c & <- & Ic). apply in_map_iff in Ip. destruct Ip as (d & <- & Id). cbn [fst].
          apply filter_In in Id. destruct Id as [Id Le].
          assert (X : In (tm d) (map tm (ll_domain all))).
          { apply INU. exists c. split; auto. now apply in_map. }
          apply in_map_iff in X. destruct X as (d2 & E2 & I2). apply in_map_iff. exists d2. split; auto.
          apply filter_In. split; auto. apply (law_leb (DateLaws:=L)). rewrite E2. now apply (law_leb (DateLaws:=L)).
  Qed.

  (** a FixedCashFlowList or CashFlowList of numbers is worth the sum over the given pairs of
      dates and amounts, if the dates are distinct *)
  Definition pairs_value (v : D) (df : D -> R) (dates : list D) (amounts : list R) : R :=
    Rsum (map (fun p => if d_leb v (fst p) then df (fst p) * snd p else 0) (combine dates amounts)).

  Theorem C40_pairs : forall fuel flr h i k disc v l dates amounts origin df,
    nth_error (h_curves h) k = Some disc -> nth_error (h_lists h) i = Some (mkHL l HNone) ->
    fixed_new dates (Many amounts) origin = Ok l \/
    cf_new dates (Many (map FlNum amounts)) origin LNone false = Ok l ->
    NoDup (map tm dates) ->
    (forall d, In d dates -> d_leb v d = true -> get_discount_factor fuel disc v d = Ok (df d)) ->
    returns (get_present_value fuel flr (PrList i) k (Some v)) h (pairs_value v df dates amounts).
  Proof.
    intros fuel flr h i k disc v l dates amounts origin df Hk Hi HN ND HD.
    assert (K : length amounts = length dates /\ cf_domain l = dates /\ cf_attr l = LNone /\
              forall i d a, nth_error dates i = Some d -> nth_error amounts i = Some a -> cf_get fuel flr l d = Ok a).
    { destruct HN as [HN|HN].
      - destruct (C37_fixed DS DC tm L fuel flr dates amounts origin l HN ND) as (K1 & K2 & K3 & _).
        do 2 (split; auto). split.
        + unfold fixed_new in HN. cbn [spread_arg] in HN. destruct (cf_new_inv _ _ _ _ _ _ HN) as [_ ->]. reflexivity.
        + intros j d a H1 H2. apply (K3 j d a H1 H2). apply (eqb_refl (tm:=tm)).
      - destruct (C37_amounts DS DC tm L fuel flr dates amounts origin l HN ND) as (K2 & K3 & _).
        destruct (cf_new_inv _ _ _ _ _ _ HN) as [K1 E]. cbn [spread_arg] in K1. rewrite map_length in K1.
        do 2 (split; auto). split; [now rewrite E|].
        intros j d a H1 H2. apply (K3 j d a H1 H2). apply (eqb_refl (tm:=tm)). }
    destruct K as (K1 & K2 & K3 & K4).
    assert (S : seen h v i l).
    { exists (mkHL l HNone), LNone. split; auto. split; [|reflexivity]. cbn. rewrite <- K3. now destruct l. }
    apply (C40_list DS DC fuel flr h i k disc v l); auto.
    unfold worth, due, pairs_value. rewrite K2.
    assert (G : forall ds am, length am = length ds ->
       (forall j d a, nth_error ds j = Some d -> nth_error am j = Some a -> cf_get fuel flr l d = Ok a) ->
       (forall d, In d ds -> d_leb v d = true -> get_discount_factor fuel disc v d = Ok (df d)) ->
       exists xs, Forall2 (discounted fuel flr disc v l) (filter (fun d => d_leb v d) ds) xs /\
         Rsum (map (fun p => if d_leb v (fst p) then df (fst p) * snd p else 0) (combine ds am)) = Rsum xs).
    { clear. induction ds as [|d ds IH]; intros [|a am] LE HV HD; try discriminate.
      - exists []. split; [constructor|reflexivity].
      - destruct (IH am) as (xs & F & E); [cbn in LE; lia|intros j; apply (HV (S j))|intros; apply HD; cbn; auto|].
        cbn [filter combine map fst snd Rsum]. rewrite E. destruct (d_leb v d) eqn:Le.
        + exists (df d * a :: xs). split; auto. constructor; auto. exists (df d), a.
          split; [apply HD; cbn; auto|]. split; auto. apply (HV 0%nat); auto.
        + exists xs. split; auto. lra. }
    apply G; auto.
  Qed.

  (** REFUTED for repeated dates: two amounts x and y paid at the same date are worth twice
      the second one *)
  Theorem C40_repeated_refuted : forall fuel flr h i k disc v l d x y origin df,
    nth_error (h_curves h) k = Some disc -> nth_error (h_lists h) i = Some (mkHL l HNone) ->
    fixed_new [d; d] (Many [x; y]) origin = Ok l -> d_leb v d = true ->
    get_discount_factor fuel disc v d = Ok df ->
    returns (get_present_value fuel flr (PrList i) k (Some v)) h (2 * (df * y)) /\
    (x <> y -> df <> 0 -> 2 * (df * y) <> df * x + df * y).
  Proof.
    intros fuel flr h i k disc v l d x y origin df Hk Hi HN Le HD. split; [|intros N1 N2 E; apply N1; nra].
    unfold fixed_new in HN. cbn [spread_arg] in HN. destruct (cf_new_inv _ _ _ _ _ _ HN) as [_ ->].
    cbn [spread_arg map combine] in *.
    set (l := mkCF _ _ _ _ _) in *.
    assert (S : seen h v i l) by (exists (mkHL l HNone), LNone; split; auto; split; reflexivity).
    apply (C40_list DS DC fuel flr h i k disc v l); auto.
    exists [df * y; df * y]. split; [|cbn; lra]. unfold due, l. cbn [cf_domain filter]. rewrite Le.
    assert (V : discounted fuel flr disc v l d (df * y)).
    { exists df, y. split; auto. split; auto. unfold cf_get, cf_flow, l. cbn [cf_flows].
      change [(d, FlPay (PFixed x)); (d, FlPay (PFixed y))] with
        ([(d, @FlPay R D P (PFixed x))] ++ (d, FlPay (PFixed y)) :: []).
      rewrite (dict_last (tm:=tm)); [reflexivity|apply (eqb_refl (tm:=tm))|]. intros ? ? []. }
    constructor; auto.
  Qed.
End Aggregated.

(** * C41 *)
Section Linear.
  Context {D P : Type} (DS : DateSys R D P) (DC : DayCounts R D).
  Implicit Types (h : heap R D P) (disc : rcurve R D P) (c : cflist R D P) (v : D).

  (** linear: a list with the payment dates of two others which pays k times the first plus
      the second is worth k times the first plus the second *)
  Theorem C41_linear : forall fuel flr h i1 i2 i3 n disc v c1 c2 c3 k x1 x2,
    nth_error (h_curves h) n = Some disc ->
    seen h v i1 c1 -> seen h v i2 c2 -> seen h v i3 c3 ->
    cf_domain c2 = cf_domain c1 -> cf_domain c3 = cf_domain c1 ->
    (forall d a b, In d (due v c1) -> cf_get fuel flr c1 d = Ok a -> cf_get fuel flr c2 d = Ok b ->
       cf_get fuel flr c3 d = Ok (k * a + b)) ->
    returns (get_present_value fuel flr (PrList i1) n (Some v)) h x1 ->
    returns (get_present_value fuel flr (PrList i2) n (Some v)) h x2 ->
    returns (get_present_value fuel flr (PrList i3) n (Some v)) h (k * x1 + x2).
  Proof.
    intros fuel flr h i1 i2 i3 n disc v c1 c2 c3 k x1 x2 Hn S1 S2 S3 D2 D3 HF H1 H2.
    apply (C40_list DS DC _ _ _ _ _ disc _ _ _ Hn S1) in H1. apply (C40_list DS DC _ _ _ _ _ disc _ _ _ Hn S2) in H2.
    apply (C40_list DS DC _ _ _ _ _ disc _ _ _ Hn S3). clear S1 S2 S3.
    destruct H1 as (xs & F1 & ->), H2 as (ys & F2 & ->). unfold worth, due in *. rewrite D2 in F2. rewrite D3.
    revert F1 F2 HF. generalize (filter (fun d => d_leb v d) (cf_domain c1)). intros ds F1. revert ys.
    induction F1 as [|d x ds xs (df & a & A1 & A2 & ->) F1 IH]; intros ys F2 HF; inversion F2; subst.
    - exists []. split; auto. cbn. lra.
    - destruct H1 as (df' & b & B1 & B2 & ->). assert (df' = df) by congruence. subst df'.
      destruct (IH l' H3) as (zs & F3 & E); [intros; eapply HF; eauto; now right|].
      exists (df * (k * a + b) :: zs). split.
      + constructor; auto. exists df, (k * a + b). split; auto. split; auto. eapply HF; eauto. now left.
      + cbn [Rsum]. rewrite <- E. lra.
  Qed.

  (** time consistent: if no flow is due from v to before w, and discounting from v to later
      dates is discounting to w and from there *)
  Theorem C41_time : forall fuel flr h i n disc v w cv cw dvw x,
    nth_error (h_curves h) n = Some disc -> seen h v i cv -> seen h w i cw ->
    get_discount_factor fuel disc v w = Ok dvw ->
    due v cv = due w cw ->
    (forall d, In d (due w cw) -> cf_get fuel flr cv d = cf_get fuel flr cw d) ->
    (forall d y, In d (due w cw) -> get_discount_factor fuel disc w d = Ok y ->
       get_discount_factor fuel disc v d = Ok (dvw * y)) ->
    returns (get_present_value fuel flr (PrList i) n (Some w)) h x ->
    returns (get_present_value fuel flr (PrList i) n (Some v)) h (dvw * x).
  Proof.
    intros fuel flr h i n disc v w cv cw dvw x Hn Sv Sw Hd DU HF HM H.
    apply (C40_list DS DC _ _ _ _ _ disc _ _ _ Hn Sw) in H. apply (C40_list DS DC _ _ _ _ _ disc _ _ _ Hn Sv).
    destruct H as (xs & F & ->). unfold worth. rewrite DU. revert F HF HM. generalize (due w cw). clear.
    intros ds F. induction F as [|d x ds xs (df & a & A1 & A2 & ->) F IH]; intros HF HM.
    - exists []. split; auto. cbn. lra.
    - destruct IH as (ys & F2 & E); [intros; apply HF; now right|intros; apply HM; auto; now right|].
      exists (dvw * df * a :: ys). split.
      + constructor; auto. exists (dvw * df), a. split; [apply HM; auto; now left|]. split; auto.
        rewrite HF; auto. now left.
      + cbn [Rsum]. rewrite <- E. lra.
  Qed.

  (** non-negative flows have a non-negative value, a zero value only if no flow is worth
      anything *)
  Theorem C41_nonneg : forall fuel flr h i n disc v c x,
    nth_error (h_curves h) n = Some disc -> seen h v i c ->
    (forall d df, In d (due v c) -> get_discount_factor fuel disc v d = Ok df -> 0 < df) ->
    (forall d a, In d (due v c) -> cf_get fuel flr c d = Ok a -> 0 <= a) ->
    returns (get_present_value fuel flr (PrList i) n (Some v)) h x ->
    0 <= x /\ (x = 0 <-> forall d, In d (due v c) -> cf_get fuel flr c d = Ok 0).
  Proof.
    intros fuel flr h i n disc v c x Hn S HD HF H.
    apply (C40_list DS DC _ _ _ _ _ disc _ _ _ Hn S) in H. destruct H as (xs & F & ->).
    revert F HD HF. generalize (due v c). clear. intros ds F.
    induction F as [|d x ds xs (df & a & A1 & A2 & ->) F IH]; intros HD HF; cbn [Rsum].
    - split; [lra|]. split; [intros _ d []|reflexivity].
    - destruct IH as [IH1 IH2]; [intros; eapply HD; eauto; now right|intros; eapply HF; eauto; now right|].
      assert (0 < df) by (eapply HD; eauto; now left). assert (0 <= a) by (eapply HF; eauto; now left).
      assert (0 <= df * a) by nra. split; [lra|]. split.
      + intros E. assert (df * a = 0) by lra. assert (a = 0) by nra. subst a.
        assert (Rsum xs = 0) by lra. intros d' [<-|I]; auto. now apply IH2.
      + intros Z. rewrite (Z d) in A2 by now left. injection A2 as <-.
        assert (Rsum xs = 0) by (apply IH2; intros; apply Z; now right). lra.
  Qed.
End Linear.
Print Assumptions C40_list.
Print Assumptions C40_default_date.
Print Assumptions C40_legs.
Print Assumptions C40_aggregated.
Print Assumptions C40_pairs.
Print Assumptions C40_repeated_refuted.
Print Assumptions C41_linear.
Print Assumptions C41_time.
Print Assumptions C41_nonneg.

(** instance: 100 after one and 50 after two years and the same amounts twice plus 1 each, flat
    zero rate of five percent, valued at 1/2 and at 1 *)
Local Instance no_counts : DayCounts R R := [].
Example value_instance : exists (disc : rcurve R R (fperiod R)) (l l2 l3 : cflist R R (fperiod R)),
  rc_new (DS:=FloatDates) CZeroRate [0] [5/100] None None DcDefault None = Ok disc /\
  fixed_new (DS:=FloatDates) [1; 2] (Many [100; 50]) None = Ok l /\
  fixed_new (DS:=FloatDates) [1; 2] (Many [1; 1]) None = Ok l2 /\
  fixed_new (DS:=FloatDates) [1; 2] (Many [201; 101]) None = Ok l3 /\
  let h := mkH [disc] [] [mkHL l HNone; mkHL l2 HNone; mkHL l3 HNone] in
  returns (get_present_value (DS:=FloatDates) 2 None (PrList 0) 0 (Some 1)) h (100 + 50 * exp (- (5/100))) /\
  returns (get_present_value (DS:=FloatDates) 2 None (PrList 0) 0 (Some (1/2))) h
    (exp (- (5/100 * (1/2))) * (100 + 50 * exp (- (5/100)))) /\
  returns (get_present_value (DS:=FloatDates) 2 None (PrLegs [0; 1]%nat [1; 2] None) 0 (Some (3/2))) h
    (51 * exp (- (5/100 * (1/2)))) /\
  returns (get_present_value (DS:=FloatDates) 2 None (PrList 2) 0 (Some 1)) h
    (2 * (100 + 50 * exp (- (5/100))) + (1 + exp (- (5/100)))).
Proof.
  destruct (flat_zero (L:=float_laws) 0 (5/100) None) as (disc & E & HO & V & DF).
  assert (F : forall a b : R, exists l, fixed_new (DS:=FloatDates) (P:=fperiod R) [1; 2] (Many [a; b]) None = Ok l).
  { intros a b. unfold fixed_new. cbn [spread_arg]. rewrite cf_new_ok by reflexivity. eauto. }
  destruct (F 100 50) as [l E1], (F 1 1) as [l2 E2], (F 201 101) as [l3 E3].
  exists disc, l, l2, l3. do 4 (split; auto). cbv zeta. set (h := mkH _ _ _).
  assert (ND : NoDup (map (fun d : R => d) [1; 2])) by (repeat constructor; cbn; intuition lra).
  assert (PV : forall i l a b v, nth_error (h_lists h) i = Some (mkHL l HNone) ->
     fixed_new (DS:=FloatDates) [1; 2] (Many [a; b]) None = Ok l ->
     returns (get_present_value (DS:=FloatDates) 2 None (PrList i) 0 (Some v)) h
       ((if Rle_dec v 1 then exp (- (5/100 * (1 - v))) * a else 0) +
        ((if Rle_dec v 2 then exp (- (5/100 * (2 - v))) * b else 0) + 0))).
  { intros i c a b v Hi Hc.
    pose proof (C40_pairs FloatDates no_counts (fun d => d) float_laws 2 None h i 0 disc v c [1; 2] [a; b] None
      (fun d => exp (- (5/100 * (d - v)))) eq_refl Hi (or_introl Hc) ND (fun d _ _ => DF 0%nat v d)) as H.
    assert (Q : pairs_value FloatDates v (fun d => exp (- (5/100 * (d - v)))) [1; 2] [a; b] =
       (if Rle_dec v 1 then exp (- (5/100 * (1 - v))) * a else 0) +
        ((if Rle_dec v 2 then exp (- (5/100 * (2 - v))) * b else 0) + 0)).
    { unfold pairs_value. cbn [combine map fst snd Rsum d_leb FloatDates nleb Rnum]. unfold Rleb.
      destruct (Rle_dec v 1), (Rle_dec v 2); reflexivity. }
    rewrite Q in H. exact H. }
  assert (P0 : forall v x, (if Rle_dec v 1 then exp (- (5/100 * (1 - v))) * 100 else 0) +
        ((if Rle_dec v 2 then exp (- (5/100 * (2 - v))) * 50 else 0) + 0) = x ->
     returns (get_present_value (DS:=FloatDates) 2 None (PrList 0) 0 (Some v)) h x).
  { intros v x <-. apply (PV 0%nat l); auto. }
  assert (R1 : returns (get_present_value (DS:=FloatDates) 2 None (PrList 0) 0 (Some 1)) h (100 + 50 * exp (- (5/100)))).
  { apply P0. destruct (Rle_dec 1 1), (Rle_dec 1 2); try lra.
    replace (- (5 / 100 * (1 - 1))) with 0 by lra. rewrite exp_0.
    replace (5 / 100 * (2 - 1)) with (5/100) by lra. lra. }
  split; [exact R1|]. split; [|split].
  - apply (C41_time FloatDates no_counts 2 None h 0 0 disc (1/2) 1 l l); auto.
    + exists (mkHL l HNone), LNone. split; auto. split; [|reflexivity]. unfold fixed_new in E1. cbn [spread_arg] in E1.
      destruct (cf_new_inv _ _ _ _ _ _ E1) as [_ ->]. reflexivity.
    + exists (mkHL l HNone), LNone. split; auto. split; [|reflexivity]. unfold fixed_new in E1. cbn [spread_arg] in E1.
      destruct (cf_new_inv _ _ _ _ _ _ E1) as [_ ->]. reflexivity.
    + rewrite DF. do 4 f_equal. lra.
    + unfold fixed_new in E1. cbn [spread_arg] in E1. destruct (cf_new_inv _ _ _ _ _ _ E1) as [_ ->].
      unfold due. cbn [cf_domain filter d_leb FloatDates nleb Rnum]. unfold Rleb.
      destruct (Rle_dec (1/2) 1), (Rle_dec (1/2) 2), (Rle_dec 1 1), (Rle_dec 1 2); try lra. reflexivity.
    + intros d y _. rewrite !DF. intros H. injection H as <-. f_equal. rewrite <- exp_plus. f_equal. lra.
  - apply (C40_legs FloatDates no_counts) with (disc := disc); auto.
    exists [50 * exp (- (5/100 * (1/2))); exp (- (5/100 * (1/2)))]. split; [|cbn; lra].
    replace (exp (- (5/100 * (1/2)))) with (exp (- (5/100 * (2 - 3/2)))) by (do 3 f_equal; lra).
    constructor; [|constructor; [|constructor]].
    + apply P0. destruct (Rle_dec (3/2) 1), (Rle_dec (3/2) 2); try lra.
    + pose proof (PV 1%nat l2 1 1 (3/2) eq_refl E2) as H.
      destruct (Rle_dec (3/2) 1), (Rle_dec (3/2) 2); try lra.
      replace (exp (- (5/100 * (2 - 3/2)))) with (0 + (exp (- (5/100 * (2 - 3/2))) * 1 + 0)) by lra. exact H.
  - assert (SE : forall i c a b v, nth_error (h_lists h) i = Some (mkHL c HNone) ->
       fixed_new (DS:=FloatDates) [1; 2] (Many [a; b]) None = Ok c -> seen h v i c /\ cf_domain c = [1; 2]).
    { intros i c a b v Hi Hc. unfold fixed_new in Hc. cbn [spread_arg] in Hc. destruct (cf_new_inv _ _ _ _ _ _ Hc) as [_ ->].
      split; [|reflexivity]. eexists. eexists. split; [exact Hi|]. split; [|reflexivity]. reflexivity. }
    destruct (SE 0%nat l 100 50 1 eq_refl E1) as [S1 D1], (SE 1%nat l2 1 1 1 eq_refl E2) as [S2 D2],
      (SE 2%nat l3 201 101 1 eq_refl E3) as [S3 D3].
    apply (C41_linear FloatDates no_counts 2 None h 0 1 2 0 disc 1 l l2 l3); auto; try congruence.
    + intros d a b I. apply filter_In in I. rewrite D1 in I. destruct I as [I _].
      destruct (C37_fixed FloatDates no_counts (fun d => d) float_laws 2 None [1; 2] [100; 50] None l E1 ND) as (_ & _ & Q1 & _).
      destruct (C37_fixed FloatDates no_counts (fun d => d) float_laws 2 None [1; 2] [1; 1] None l2 E2 ND) as (_ & _ & Q2 & _).
      destruct (C37_fixed FloatDates no_counts (fun d => d) float_laws 2 None [1; 2] [201; 101] None l3 E3 ND) as (_ & _ & Q3 & _).
      destruct I as [<-|[<-|[]]].
      * rewrite (Q1 0%nat 1 100 eq_refl eq_refl 1), (Q2 0%nat 1 1 eq_refl eq_refl 1), (Q3 0%nat 1 201 eq_refl eq_refl 1) by (apply (eqb_refl (L:=float_laws))).
        intros H1 H2. injection H1 as <-. injection H2 as <-. f_equal. lra.
      * rewrite (Q1 1%nat 2 50 eq_refl eq_refl 2), (Q2 1%nat 2 1 eq_refl eq_refl 2), (Q3 1%nat 2 101 eq_refl eq_refl 2) by (apply (eqb_refl (L:=float_laws))).
        intros H1 H2. injection H1 as <-. injection H2 as <-. f_equal. lra.
    + pose proof (PV 1%nat l2 1 1 1 eq_refl E2) as H.
      destruct (Rle_dec 1 1), (Rle_dec 1 2); try lra.
      replace (1 + exp (- (5 / 100))) with (exp (- (5 / 100 * (1 - 1))) * 1 + (exp (- (5 / 100 * (2 - 1))) * 1 + 0)); [exact H|].
      replace (- (5 / 100 * (1 - 1))) with 0 by lra. rewrite exp_0.
      replace (5 / 100 * (2 - 1)) with (5/100) by lra. lra.
Qed.
