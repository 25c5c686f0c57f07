(** Property C127, one curve which discounts the swaps and gives their forward rates. *)
From Coq Require Import Reals Lra Lia List Bool ZArith Sorted.
From Verif Require Import Num Py Spec MDates MInterpolation MCurve MRateCurve MOption MCashflow MBracket MPricer
  SDates SInterpolation SCurve SRateCurve SCashflow SPricer SBracket SYield SFit SBootstrap LBase LSort LDates LInterpolation LCurve LCurve2
  LDateCurve LDateCurve2 LCashflow LRateCurve LRateCurve3 LCast LPricer LPricer2 LPricer3 LBracket LYield LFair LFit LMore LInterpolation2
  PBracket PCashflow PRateCurve2 PPricer PFit LBootstrap LFitForward PBootstrap PFitFail PBootstrapForward.
Import ListNotations.
Open Scope R_scope.

Section Single.
  Context {D P : Type} (DS : DateSys R D P) (tm : D -> R) (DC : DayCounts R D) (L : DateLaws DS tm).
  Implicit Types (c : rcurve R D P) (h : heap R D P).

  (** the list number i pays at the first j + 1 grid dates at most: either amounts which do not
      depend on the curve number k, or the forward rates of that curve *)
  Definition swap_leg h (v : D) (k : nat) (grid : list D) (og : D) (pc : dcspec R D) (j i : nat) : Prop :=
    (exists am, pays_on h v (PrList i) grid am /\ (length am <= S j)%nat) \/
    (exists rate ns, floater h k grid og pc (PrList i) rate ns /\ (length ns <= S j)%nat).

  (** the product is a CashFlowLegList of such lists with last payment at d *)
  Definition swap h (v : D) (k : nat) (grid : list D) (og : D) (pc : dcspec R D) (j : nat) (d : D) (p : @product D) : Prop :=
    exists legs dom o', p = PrLegs legs dom o' /\ d_max dom = Ok d /\ forall i, In i legs -> swap_leg h v k grid og pc j i.

  Section Curve.
    Context (tau : D -> D -> R) (grid : list D) (o v og : D) (tn : P).
    Context (INC : increasing (map tm grid)) (AV : forall d, In d grid -> tm v <= tm d) (AG : forall d, In d grid -> tm og < tm d).
    Context (TE : forall m s e, nth_error (og :: grid) m = Some s -> nth_error grid m = Some e -> exists e', d_add s tn = Ok e' /\ d_eqb e' e = true).

    (** a curve with the zero rates zs on the grid, flat before *)
    Definition zcurve c (zs : list R) : Prop :=
      rc_cls c = CZeroRate /\ rc_origin c = Some o /\ additive (rc_yf c) tau /\ date_values c /\ rc_tenor c = tn /\
      (forall i d, nth_error grid i = Some d -> rc_call c d = Ok (nth i zs 0)) /\
      forall d, (forall g, In g grid -> tm d <= tm g) -> rc_call c d = Ok (nth 0 zs 0).

    Notation dz := (fun zs => dfx tau grid zs o v []).
    Notation FZ := (zforward tau grid og o).

    Lemma nil_nth i : nth i (@nil R) 0 = 0.
    Proof. now destruct i. Qed.

    Lemma zcurve_df c zs n : zcurve c zs -> forall d, In d grid -> get_discount_factor (S (S n)) c v d = Ok (dz zs d).
    Proof.
      intros (K & HO & AC & DV & _ & V & V0). apply (curve_df (L:=L) tau grid zs o v c [] K HO AC DV).
      - unfold zv. rewrite nil_nth, Rplus_0_r. auto.
      - intros d Id. destruct (in_grid grid d Id) as (i & Hi & _). rewrite (zr_at (L:=L) grid zs INC [] i d Hi), nil_nth, Rplus_0_r. auto.
    Qed.

    Lemma zcurve_forward c zs n : zcurve c zs -> forall m x, (m < length grid)%nat -> nth_error (og :: grid) m = Some x ->
      forward_at (S (S (S n))) (FwRate c) x (FZ zs m).
    Proof.
      intros (K & HO & AC & DV & RT & V & V0) m x Lm Hx. destruct (nth_lt_Some grid m Lm) as (e & He). destruct (TE m x e Hx He) as (e' & E1 & E2).
      unfold zforward. rewrite (nth_error_nth _ _ og Hx), (nth_error_nth _ _ og He). apply (zero_forward DS tm DC L c tau o n x e e'); auto.
      - now rewrite RT.
      - destruct m as [|m].
        + injection Hx as <-. pose proof (AG e (nth_error_In _ _ He)). lra.
        + cbn [nth_error] in Hx. intro Q. assert (S m <= m)%nat; [|lia]. apply (grid_order tm grid INC m (S m) x e); auto. lra.
      - destruct m as [|m]; [injection Hx as <-; apply V0; intros; left; auto|]. cbn [nth_error pred] in *. auto.
    Qed.

    (** V is the value of the product, as function of the zero rates, of which it takes the
        first j + 1 *)
    Definition valued h k fuel flr (j : nat) (p : @product D) (V : list R -> R) : Prop :=
      (forall h' c zs, h_lists h' = h_lists h -> nth_error (h_curves h') k = Some c -> zcurve c zs -> returns (get_present_value fuel flr p k (Some v)) h' (V zs)) /\
      forall zs zs', (forall m, (m <= j)%nat -> nth m zs 0 = nth m zs' 0) -> V zs = V zs'.

    Lemma dz_ext zs zs' i d : nth_error grid i = Some d -> nth 0 zs 0 = nth 0 zs' 0 -> nth i zs 0 = nth i zs' 0 -> dz zs d = dz zs' d.
    Proof. intros Hi E0 Ei. unfold dfx, zv. rewrite !(zr_at (L:=L) grid _ INC [] i d Hi), E0, Ei. reflexivity. Qed.

    Lemma fixed_valued h k n flr j i am : pays_on h v (PrList i) grid am -> (length am <= S j)%nat ->
      valued h k (S (S (S n))) flr j (PrList i) (fun zs => value_on grid (dz zs) am).
    Proof.
      intros PO LM. split.
      - intros h' c zs HL HK Z. apply (PO (S (S (S n))) flr h' k c (dz zs)); auto; [lia|]. now apply zcurve_df.
      - intros zs zs' E. apply value_ext. intros m d Hm Lm. apply (dz_ext zs zs' m d Hm); apply E; lia.
    Qed.

    Lemma floater_valued h k n flr pc pt j i rate ns : (j < length grid)%nat -> (forall a b, pay_count pc a b = Ok (pt a b)) ->
      floater h k grid og pc (PrList i) rate ns -> (length ns <= S j)%nat ->
      valued h k (S (S (S n))) flr j (PrList i) (fun zs => value_on grid (dz zs) (floats pt grid og (FZ zs) rate ns)).
    Proof.
      intros Lj PC FL LN. split.
      - intros h' c zs HL HK Z.
        apply (floater_value DS tm DC L grid og v k k c (dz zs) pc pt (S (S (S n))) flr h h' c (PrList i) rate ns (FZ zs)); auto; [|lia|].
        + now apply zcurve_df.
        + now apply zcurve_forward.
      - intros zs zs' E.
        assert (EF : floats pt grid og (FZ zs) rate ns = floats pt grid og (FZ zs') rate ns).
        { unfold floats. apply map_ext_in. intros m Im. apply in_seq in Im. unfold zforward.
          rewrite (E m), (E (pred m)) by lia. reflexivity. }
        rewrite EF. apply value_ext. intros m d Hm Lm. unfold floats in Lm. rewrite map_length, seq_length in Lm.
        apply (dz_ext zs zs' m d Hm); apply E; lia.
    Qed.

    Lemma leg_valued h k n flr pc pt j i : (j < length grid)%nat -> (forall a b, pay_count pc a b = Ok (pt a b)) ->
      swap_leg h v k grid og pc j i -> exists V, valued h k (S (S (S n))) flr j (PrList i) V.
    Proof.
      intros Lj PC [(am & PO & LM)|(rate & ns & FL & LN)]; eexists; [now apply fixed_valued; eauto|now apply (floater_valued h k n flr pc pt j i rate ns)].
    Qed.

    Lemma legs_valued h k fuel flr j legs dom o' Vs : Forall2 (fun i V => valued h k fuel flr j (PrList i) V) legs Vs ->
      valued h k fuel flr j (PrLegs legs dom o') (fun zs => Rsum (map (fun V => V zs) Vs)).
    Proof.
      intros F. split.
      - intros h' c zs HL HK Z. apply (C40_legs DS DC _ flr h' legs dom o' k c v _ HK). exists (map (fun V => V zs) Vs). split; [|reflexivity].
        clear -F HL HK Z. induction F as [|i V l l' [H1 _] F IH]; cbn [map]; constructor; auto. now apply (H1 h' c zs).
      - intros zs zs' E. f_equal. clear -F E. induction F as [|i V l l' [_ H1] F IH]; cbn [map]; [reflexivity|]. rewrite IH. f_equal. now apply H1.
    Qed.

    Lemma swap_valued h k n flr pc pt j d p : (j < length grid)%nat -> (k < length (h_curves h))%nat -> (forall a b, pay_count pc a b = Ok (pt a b)) ->
      swap h v k grid og pc j d p -> last_payment h p d /\ exists V, valued h k (S (S (S n))) flr j p V.
    Proof.
      intros Lj Lk PC (legs & dom & o' & -> & DM & LE). split; [exists dom; split; [reflexivity|exact DM]|].
      assert (VS : exists Vs, Forall2 (fun i V => valued h k (S (S (S n))) flr j (PrList i) V) legs Vs).
      { clear DM. induction legs as [|i l IH]; [exists []; constructor|].
        destruct IH as (Vs & F); [intros; apply LE; now right|]. destruct (leg_valued h k n flr pc pt j i Lj PC (LE i (or_introl eq_refl))) as (V & HV).
        exists (V :: Vs). now constructor. }
      destruct VS as (Vs & F). eexists. apply legs_valued. exact F.
    Qed.
  End Curve.

  (** the values of all swaps *)
  Lemma all_valued tau grid o v og tn h k n flr pc pt ps :
    increasing (map tm grid) -> (forall d, In d grid -> tm v <= tm d) -> (forall d, In d grid -> tm og < tm d) ->
    (forall m s e, nth_error (og :: grid) m = Some s -> nth_error grid m = Some e -> exists e', d_add s tn = Ok e' /\ d_eqb e' e = true) ->
    (k < length (h_curves h))%nat -> (forall a b, pay_count pc a b = Ok (pt a b)) -> length ps = length grid ->
    (forall j d p, nth_error grid j = Some d -> nth_error ps j = Some p -> swap h v k grid og pc j d p) ->
    exists Vs, length Vs = length grid /\ forall j d p V, nth_error grid j = Some d -> nth_error ps j = Some p -> nth_error Vs j = Some V ->
      last_payment h p d /\ valued tau grid o v tn h k (S (S (S n))) flr j p V.
  Proof.
    intros INC AV AG TE Lk PC LP SW.
    assert (G : forall m, (m <= length grid)%nat -> exists Vs, length Vs = m /\ forall j d p V, nth_error grid j = Some d -> nth_error ps j = Some p -> nth_error Vs j = Some V ->
      last_payment h p d /\ valued tau grid o v tn h k (S (S (S n))) flr j p V).
    { induction m as [|m IH]; intros Lm.
      - exists []. split; [reflexivity|]. intros [|j] d p V _ _ H; discriminate.
      - destruct IH as (Vs & LV & H); [lia|]. destruct (nth_lt_Some grid m) as (d & Hd); [lia|]. destruct (nth_lt_Some ps m) as (p & Hp); [lia|].
        destruct (swap_valued tau grid o v og tn INC AV AG TE h k n flr pc pt m d p) as (LA & V & HV); auto.
        exists (Vs ++ [V]). split; [rewrite app_length; cbn; lia|]. intros j d' p' V' Hd' Hp' HV'.
        destruct (Nat.lt_ge_cases j m) as [J|J].
        + rewrite nth_error_app1 in HV' by lia. now apply (H j d' p' V').
        + rewrite nth_error_app2 in HV' by lia. rewrite LV in HV'.
          assert (j = m). { apply nth_Some_lt in HV'. cbn in HV'. lia. } subst j. rewrite Nat.sub_diag in HV'. injection HV' as <-.
          rewrite Hd in Hd'. injection Hd' as <-. rewrite Hp in Hp'. injection Hp' as <-. auto. }
    apply (G (length grid)). lia.
  Qed.

  (** the values of the swaps as functions of the spread *)
  Definition squotes (grid : list D) (ys : list R) (Vs : list (list R -> R)) : list (D * (list R -> R)) :=
    map (fun dV => (fst dV, fun xs => snd dV (added ys xs))) (combine grid Vs).

  Lemma single_quotes count tau grid ys orig o v tenor c k n flr h ps Vs :
    additive (dc_apply count) tau -> monotone tau -> dc_kwarg count = count ->
    grid <> [] -> increasing (map tm grid) -> dom_origin orig grid = Some o ->
    (forall d, In d grid -> tm v <= tm d) -> length ys = length grid ->
    rc_new CZeroRate grid ys None orig count tenor = Ok c -> nth_error (h_curves h) k = Some c ->
    length ps = length grid -> length Vs = length grid ->
    (forall j d p V, nth_error grid j = Some d -> nth_error ps j = Some p -> nth_error Vs j = Some V ->
      last_payment h p d /\ valued tau grid o v (rc_tenor c) h k (S (S (S n))) flr j p V) ->
    (forall zs t x, length zs = length grid -> rc_new CZeroRate grid zs None orig count t = Ok x ->
      built count tau CZeroRate grid orig o t x /\ (forall i d, nth_error grid i = Some d -> rc_call x d = Ok (nth i zs 0)) /\
      (forall d, (forall g, In g grid -> tm d <= tm g) -> rc_call x d = Ok (nth 0 zs 0)) /\ forall d, exists w, rc_call x d = Ok w) /\
    (forall xs s, length xs = length grid -> on_grid c grid xs = Ok s ->
      zcurve tau grid o (rc_tenor c) (mkR (rc_cls c) (rc_dc c) (rc_tenor0 c) (Some (inr s))) (added ys xs)) /\
    one_each tm grid (squotes grid ys Vs) /\ Forall (local tm grid) (squotes grid ys Vs) /\
    Forall2 (fun p q => last_payment h p (fst q) /\ priced (S (S (S n))) flr h k (Some v) k c grid p (snd q)) ps (squotes grid ys Vs).
  Proof.
    intros A MO KW NE INC OG AV LY HN HK LP LV HV.
    pose proof (increasing_distinct _ INC) as ND.
    assert (Lk : (k < length (h_curves h))%nat) by (now apply nth_Some_lt in HK).
    assert (NP : (0 < length grid)%nat) by (destruct grid; [congruence|cbn; lia]).
    (* the curves built on the grid *)
    assert (BC : forall zs t x, length zs = length grid -> rc_new CZeroRate grid zs None orig count t = Ok x ->
      built count tau CZeroRate grid orig o t x /\ (forall i d, nth_error grid i = Some d -> rc_call x d = Ok (nth i zs 0)) /\
      (forall d, (forall g, In g grid -> tm d <= tm g) -> rc_call x d = Ok (nth 0 zs 0)) /\ forall d, exists w, rc_call x d = Ok w).
    { intros zs t x LZ E. destruct (built_curve (L:=L) count tau A MO grid ys orig o v NE INC OG AV LY zs t LZ) as (x' & E' & B & V & _ & W).
      rewrite E in E'. injection E' as <-. split; [exact B|]. split; [exact V|]. split; [|exact W].
      intros d Hd. destruct (built_curve (L:=L) count tau A MO grid ys orig o d NE INC OG Hd LY zs t LZ) as (x' & E' & _ & _ & V0 & _).
      rewrite E in E'. injection E' as <-. exact V0. }
    destruct (BC ys tenor c LY HN) as ((B1 & B2 & B3 & B4 & B5 & B6 & B7 & B8 & B9 & B10) & VC & VC0 & WC).
    assert (AN : forall xs i, length xs = length grid -> (i < length grid)%nat -> nth i (added ys xs) 0 = nth i ys 0 + nth i xs 0).
    { intros xs i LX Li. apply added_nth; lia. }
    assert (ZS : forall xs s, length xs = length grid -> on_grid c grid xs = Ok s ->
      zcurve tau grid o (rc_tenor c) (mkR (rc_cls c) (rc_dc c) (rc_tenor0 c) (Some (inr s))) (added ys xs)).
    { intros xs s LX GR. unfold on_grid in GR. rewrite B1, B5, B6, KW in GR.
      destruct (BC xs None s LX GR) as ((_ & _ & _ & _ & _ & _ & _ & _ & S9 & _) & W & W0 & WS).
      unfold zcurve. split; [exact B1|]. split; [exact B3|]. split; [exact B10|]. split; [|split; [reflexivity|split]].
      - intros x y Exy. destruct (WC x) as (yx & Yx). destruct (WS x) as (zx & Zx).
        rewrite (with_spread_call DS DC c s x yx zx B8 Yx Zx). symmetry. apply (with_spread_call DS DC); auto.
        + rewrite <- (B9 x y Exy). exact Yx.
        + rewrite <- (S9 x y Exy). exact Zx.
      - intros i d Hi. rewrite AN by (auto; now apply nth_Some_lt in Hi). apply (with_spread_call DS DC); auto.
      - intros d Hd. rewrite AN by auto. apply (with_spread_call DS DC); auto. }
    set (qs := squotes grid ys Vs).
    assert (LQ : length qs = length grid) by (unfold qs, squotes; rewrite map_length, combine_length; lia).
    assert (QN : forall j q, nth_error qs j = Some q -> exists d V, nth_error grid j = Some d /\ nth_error Vs j = Some V /\ q = (d, fun xs => V (added ys xs))).
    { intros j q Hq. assert (Lj : (j < length grid)%nat) by (rewrite <- LQ; now apply nth_Some_lt in Hq).
      destruct (nth_lt_Some grid j Lj) as (d & Hd). destruct (nth_lt_Some Vs j) as (V & HV'); [lia|]. exists d, V. split; [exact Hd|]. split; [exact HV'|].
      unfold qs, squotes in Hq. rewrite nth_error_map, (combine_nth_both _ _ _ _ _ Hd HV') in Hq. cbn in Hq. now injection Hq as <-. }
    assert (ONE : one_each tm grid qs).
    { split; [exact LQ|]. intros i j d q Hi Hq. destruct (QN j q Hq) as (e & V & He & _ & ->). cbn [fst]. apply (increasing_nth _ INC); now apply map_nth_error. }
    assert (LOC : Forall (local tm grid) qs).
    { apply Forall_forall. intros q Iq. destruct (In_nth_error _ _ Iq) as [j Hq]. destruct (QN j q Hq) as (d & V & Hd & HV' & ->).
      intros i e xs zs Hi Le LX LZ EQ. cbn [fst snd] in *.
      assert (Lji : (j <= i)%nat) by (apply (increasing_nth _ INC j i (tm d) (tm e)); [now apply map_nth_error..|lra]).
      destruct (nth_lt_Some ps j) as (p & Hp); [rewrite LP; now apply nth_Some_lt in Hd|]. destruct (HV j d p V Hd Hp HV') as (_ & _ & DEP). apply DEP.
      intros m Lm. assert (Li : (i < length grid)%nat) by (now apply nth_Some_lt in Hi). rewrite !AN by (auto; lia). f_equal.
      specialize (EQ m ltac:(lia)). rewrite (nth_error_nth' xs 0), (nth_error_nth' zs 0) in EQ by lia. congruence. }
    assert (PR : Forall2 (fun p q => last_payment h p (fst q) /\ priced (S (S (S n))) flr h k (Some v) k c grid p (snd q)) ps qs).
    { assert (G : forall j p q, nth_error ps j = Some p -> nth_error qs j = Some q ->
        last_payment h p (fst q) /\ priced (S (S (S n))) flr h k (Some v) k c grid p (snd q)).
      { intros j p q Hp Hq. destruct (QN j q Hq) as (d & V & Hd & HV' & ->). cbn [fst snd]. destruct (HV j d p V Hd Hp HV') as (LA & VA & _). split; [exact LA|].
        intros xs s LX GR. apply (VA _ (mkR (rc_cls c) (rc_dc c) (rc_tenor0 c) (Some (inr s)))); [reflexivity| |now apply ZS].
        unfold with_spread. cbn [h_curves]. now apply set_nth_nth. }
      assert (LE : length ps = length qs) by congruence. clear -G LE. revert G LE. generalize qs, ps.
      intros q l. revert q. induction l as [|p l IH]; intros [|q qs'] G LE; try discriminate; constructor.
      - apply (G 0%nat); reflexivity.
      - apply IH; [|cbn in LE; lia]. intros j p' q' H1 H2. apply (G (S j) p' q' H1 H2). }
    split; [exact BC|]. split; [exact ZS|]. split; [exact ONE|]. split; [exact LOC|exact PR].
  Qed.

  (** One ZeroRateCurve both discounts the swaps and gives their forward rates, one swap per
      grid date: if the fit returns, the curve rebuilt from the data gives every swap its target
      up to twice the precision, the first one up to the precision *)
  Theorem C127_single_curve : forall count tau grid ys orig o og v tenor c k pc pt n flr h ps fitting grid0 targets precision a b data h',
    additive (dc_apply count) tau -> monotone tau -> dc_kwarg count = count ->
    grid <> [] -> increasing (map tm grid) -> dom_origin orig grid = Some o ->
    (forall d, In d grid -> tm og < tm d) -> (forall d, In d grid -> tm v <= tm d) -> length ys = length grid ->
    rc_new CZeroRate grid ys None orig count tenor = Ok c -> nth_error (h_curves h) k = Some c ->
    (forall m s e, nth_error (og :: grid) m = Some s -> nth_error grid m = Some e -> exists e', d_add s (rc_tenor c) = Ok e' /\ d_eqb e' e = true) ->
    (forall a b, pay_count pc a b = Ok (pt a b)) ->
    length ps = length grid ->
    (forall j d p, nth_error grid j = Some d -> nth_error ps j = Some p -> swap h v k grid og pc j d p) ->
    match fitting with Some i => i | None => k end = k -> match grid0 with Some g => g | None => grid end = grid ->
    get_curve_fit (S (S (S n))) flr ps k (Some v) fitting grid0 targets precision a b h = (Ok data, h') ->
    h' = h /\ length data = length grid /\ exists c', rc_new CZeroRate grid data None orig count tenor = Ok c' /\
      forall j p t, nth_error ps j = Some p -> nth_error (spread_arg targets (length ps)) j = Some t ->
        exists w, returns (get_present_value (S (S (S n))) flr p k (Some v)) (with_curve h k c') w /\
          Rabs (w - t) < 2 * precision /\ (j = 0%nat -> Rabs (w - t) < precision).
  Proof.
    intros count tau grid ys orig o og v tenor c k pc pt n flr h ps fitting grid0 targets prec a b data h'
      A MO KW NE INC OG AG AV LY HN HK TE PC LP SW EF EG H.
    pose proof (increasing_distinct _ INC) as ND.
    assert (Lk : (k < length (h_curves h))%nat) by (now apply nth_Some_lt in HK).
    assert (NP : (0 < length grid)%nat) by (destruct grid; [congruence|cbn; lia]).
    destruct (all_valued tau grid o v og (rc_tenor c) h k n flr pc pt ps INC AV AG TE Lk PC LP SW) as (Vs & LV & HV).
    destruct (single_quotes count tau grid ys orig o v tenor c k n flr h ps Vs A MO KW NE INC OG AV LY HN HK LP LV HV) as (BC & ZS & ONE & LOC & PR).
    destruct (BC ys tenor c LY HN) as ((B1 & B2 & B3 & B4 & B5 & B6 & B7 & B8 & B9 & B10) & VC & _).
    assert (PL : plain_cls (rc_cls c)) by (rewrite B1; exact I).
    assert (A' : additive (dc_apply (dc_kwarg (dc_count (rc_dc c)))) tau) by (rewrite B6, KW; exact A).
    assert (EG' : match grid0 with Some g => g | None => rc_domain c end = grid) by (now rewrite B2).
    set (qs := squotes grid ys Vs) in *.
    destruct (C50_cumulative DS tm DC L tau (S (S (S n))) flr h c k k (Some v) fitting grid0 grid targets ps qs prec a b data h'
      HK B8 PL A' NE ND EF EG' PR LOC H) as (EH & _).
    destruct (C50_each DS tm DC L tau (S (S (S n))) flr h c k k (Some v) fitting grid0 grid targets ps qs prec a b data h'
      HK B8 PL A' NE ND EF EG' PR LOC ONE H) as (xs & s & LX & GR & LD & DA & PV).
    split; [exact EH|]. split; [exact LD|].
    assert (AD : added ys xs = data).
    { apply (nth_ext _ _ 0 0); [unfold added; rewrite map_length, combine_length; lia|]. intros i Li.
      unfold added in Li. rewrite map_length, combine_length in Li. rewrite added_nth by lia. symmetry.
      destruct (nth_lt_Some grid i) as (d & Hd); [lia|]. apply nth_error_nth. apply (DA i d); auto. apply nth_error_nth'. lia. }
    destruct (built_curve (L:=L) count tau A MO grid ys orig o v NE INC OG AV LY data tenor LD) as (c' & E' & _).
    exists c'. split; [exact E'|]. intros j p t Hp Ht. destruct (PV j p t Hp Ht) as (w & RW & WE). exists w. split; [|exact WE].
    destruct (BC data tenor c' LD E') as ((D1 & D2 & D3 & D4 & D5 & D6 & D7 & D8 & D9 & D10) & V' & V0' & _).
    destruct (nth_lt_Some grid j) as (d & Hd); [rewrite <- LP; now apply nth_Some_lt in Hp|].
    destruct (nth_lt_Some Vs j) as (V & HV'); [rewrite LV; now apply nth_Some_lt in Hd|].
    destruct (HV j d p V Hd Hp HV') as (_ & VA & _).
    assert (R1 : returns (get_present_value (S (S (S n))) flr p k (Some v)) (with_spread h k c s) (V (added ys xs))).
    { apply (VA _ (mkR (rc_cls c) (rc_dc c) (rc_tenor0 c) (Some (inr s)))); [reflexivity| |now apply ZS].
      unfold with_spread. cbn [h_curves]. now apply set_nth_nth. }
    unfold returns in RW, R1. rewrite RW in R1. injection R1 as ->. rewrite AD.
    apply (VA _ c'); [reflexivity| |].
    - unfold with_curve. cbn [h_curves]. now apply set_nth_nth.
    - unfold zcurve. repeat (split; [assumption|]). split; [|split; assumption]. unfold rc_tenor. now rewrite D7, B7, D1, B1.
  Qed.
End Single.
Print Assumptions C127_single_curve.

Local Notation fl := (FloatDates (T:=R)).

(** two swaps of 3% and notional 1000: the fit of the single curve from zero rates of zero to
    values of zero returns, and on the curve rebuilt the second swap is at par *)
Example C127_single_swaps : exists (h : heap R R (fperiod R)) c data c',
  nth_error (h_curves h) 0 = Some c /\
  rc_new (DS := fl) (DC := no_counts) CZeroRate [1; 2] [0; 0] None (Some 0) DcDefault (Some (FP 1)) = Ok c /\
  swap fl no_counts h 0 0 [1; 2] 0 DcDefault 0 1 (PrLegs [0%nat; 1%nat] [1] (Some 0)) /\
  swap fl no_counts h 0 0 [1; 2] 0 DcDefault 1 2 (PrLegs [2%nat; 3%nat] [1; 2] (Some 0)) /\
  get_curve_fit (DS := fl) (DC := no_counts) 23 None [PrLegs [0%nat; 1%nat] [1] (Some 0); PrLegs [2%nat; 3%nat] [1; 2] (Some 0)] 0 (Some 0) None None
      (Many [0; 0]) (1 / 1000) (- (1 / 10)) (2 / 10) h = (Ok data, h) /\
  rc_new (DS := fl) (DC := no_counts) CZeroRate [1; 2] data None (Some 0) DcDefault (Some (FP 1)) = Ok c' /\
  exists w, returns (get_present_value (DS := fl) (DC := no_counts) 23 None (PrLegs [2%nat; 3%nat] [1; 2] (Some 0)) 0 (Some 0)) (with_curve h 0 c') w /\
    Rabs w < 2 / 1000.
Proof.
  set (tau := fun a b : R => b - a).
  assert (A : additive (DS := fl) (dc_apply (DS := fl) (DC := no_counts) DcDefault) tau) by exact add_f.
  assert (INC : increasing (map (fun d : R => d) [1; 2])) by (cbn; repeat constructor; lra).
  assert (AF : forall d, In d [1; 2] -> 0 <= d) by (intros d [<-|[<-|[]]]; lra).
  assert (AG : forall d, In d [1; 2] -> 0 < d) by (intros d [<-|[<-|[]]]; lra).
  assert (OG : dom_origin (Some 0) [1; 2] = Some 0) by reflexivity.
  destruct (built_curve (L:=float_laws) (DC := no_counts) DcDefault tau A tau_f_monotone [1; 2] [0; 0] (Some 0) 0 0
    ne_f INC OG AF eq_refl [0; 0] (Some (FP 1)) eq_refl) as (c & HN & BC & VC & _ & WC).
  destruct BC as (C1 & C2 & C3 & C4 & C5 & C6 & C7 & C8 & C9 & C10).
  set (at_ := HForward (fun cs => match nth_error cs 0 with Some c => FwRate c | None => FwNone end) : hattr R R (fperiod R)).
  destruct (ratelist_new (DS := fl) (P := fperiod R) [1] (Many [1000]) (Some 0) DcDefault None None 0 (FwRate c)) as [l1|] eqn:E1; [|discriminate E1].
  destruct (ratelist_new (DS := fl) (P := fperiod R) [1; 2] (Many [1000; 1000]) (Some 0) DcDefault None None 0 (FwRate c)) as [l3|] eqn:E3; [|discriminate E3].
  destruct (fixed_new (DS := fl) (P := fperiod R) [1] (Many [-30]) (Some 0)) as [l0|] eqn:E0; [|discriminate E0].
  destruct (fixed_new (DS := fl) (P := fperiod R) [1; 2] (Many [-30; -30]) (Some 0)) as [l2|] eqn:E2; [|discriminate E2].
  set (h := mkH [c] [] [mkHL l0 HNone; mkHL l1 at_; mkHL l2 HNone; mkHL l3 at_]).
  set (p0 := PrLegs [0%nat; 1%nat] [1] (Some 0)). set (p1 := PrLegs [2%nat; 3%nat] [1; 2] (Some 0)).
  assert (F1 : floater (DS := fl) h 0 [1; 2] 0 DcDefault (PrList 1) 0 [1000]) by (exists 1%nat, l1, c; auto).
  assert (F3 : floater (DS := fl) h 0 [1; 2] 0 DcDefault (PrList 3) 0 [1000; 1000]) by (exists 3%nat, l3, c; auto).
  destruct (C127_fixed_list fl (fun d => d) no_counts float_laws [1; 2] 0 h 0 0 1 l0 [-30] (Some 0) INC AF eq_refl eq_refl eq_refl E0) as (_ & P0).
  destruct (C127_fixed_list fl (fun d => d) no_counts float_laws [1; 2] 0 h 2 1 2 l2 [-30; -30] (Some 0) INC AF eq_refl eq_refl eq_refl E2) as (_ & P2).
  assert (M2 : d_max (DS := fl) [1; 2] = Ok 2).
  { cbn. rn. unfold Rltb. destruct (Rlt_dec _ _); auto; lra. }
  assert (S0 : swap fl no_counts h 0 0 [1; 2] 0 DcDefault 0 1 p0).
  { exists [0%nat; 1%nat], [1], (Some 0). split; [reflexivity|]. split; [reflexivity|].
    intros i [<-|[<-|[]]]; [left; exists [-30]; auto|right; exists 0, [1000]; auto]. }
  assert (S1 : swap fl no_counts h 0 0 [1; 2] 0 DcDefault 1 2 p1).
  { exists [2%nat; 3%nat], [1; 2], (Some 0). split; [reflexivity|]. split; [exact M2|].
    intros i [<-|[<-|[]]]; [left; exists [-30; -30]; auto|right; exists 0, [1000; 1000]; auto]. }
  assert (TE : forall m s e, nth_error (0 :: [1; 2]) m = Some s -> nth_error [1; 2] m = Some e ->
    exists e', d_add (DateSys := fl) s (rc_tenor (DS := fl) c) = Ok e' /\ d_eqb (DateSys := fl) e' e = true).
  { intros m s e Hs He. unfold rc_tenor. rewrite C7. exists (s + 1). split; [reflexivity|].
    cbn [d_eqb FloatDates]. rn. unfold Reqb.
    destruct m as [|[|m]]; cbn in Hs, He; [| |destruct m; discriminate]; injection Hs as <-; injection He as <-; destruct (Req_EM_T _ _); auto; lra. }
  set (df := fun zs => dfx (DS := fl) tau [1; 2] zs 0 0 []).
  set (V := fun am ns zs => Rsum (map (fun V => V zs) [(fun zs => value_on [1; 2] (df zs) am);
    (fun zs => value_on [1; 2] (df zs) (floats tau [1; 2] 0 (zforward tau [1; 2] 0 0 zs) 0 ns))])).
  set (Vs := [V [-30] [1000]; V [-30; -30] [1000; 1000]]).
  assert (HV : forall j d p W, nth_error [1; 2] j = Some d -> nth_error [p0; p1] j = Some p -> nth_error Vs j = Some W ->
      last_payment (DS := fl) h p d /\ valued fl (fun d => d) no_counts tau [1; 2] 0 0 (rc_tenor (DS := fl) c) h 0 23 None j p W).
  { intros [|[|j]] d p W Hd Hp HW; [| |destruct j; discriminate]; injection Hd as <-; injection Hp as <-; injection HW as <-.
    - split; [exists [1]; split; reflexivity|]. apply legs_valued. constructor; [|constructor; [|constructor]].
      + now apply (fixed_valued fl (fun d => d) no_counts float_laws tau [1; 2] 0 0 _ INC AF h 0 20 None 0 0 [-30]).
      + apply (floater_valued fl (fun d => d) no_counts float_laws tau [1; 2] 0 0 0 _ INC AF AG TE h 0 20 None DcDefault tau 0 1 0 [1000]); auto; try reflexivity; cbn; lia.
    - split; [exists [1; 2]; split; [reflexivity|exact M2]|]. apply legs_valued. constructor; [|constructor; [|constructor]].
      + now apply (fixed_valued fl (fun d => d) no_counts float_laws tau [1; 2] 0 0 _ INC AF h 0 20 None 1 2 [-30; -30]).
      + apply (floater_valued fl (fun d => d) no_counts float_laws tau [1; 2] 0 0 0 _ INC AF AG TE h 0 20 None DcDefault tau 1 3 0 [1000; 1000]); auto; try reflexivity; cbn; lia. }
  destruct (single_quotes fl (fun d => d) no_counts float_laws DcDefault tau [1; 2] [0; 0] (Some 0) 0 0 (Some (FP 1)) c 0 20 None h [p0; p1] Vs
    A tau_f_monotone eq_refl ne_f INC OG AF eq_refl HN eq_refl eq_refl eq_refl HV) as (_ & _ & ONE & LOC & PR).
  set (qs := squotes [1; 2] [0; 0] Vs) in *.
  assert (DF1 : forall x0 x1, df (added [0; 0] [x0; x1]) 1 = exp (- x0)).
  { intros x0 x1. unfold df, dfx, zv. rewrite (zr_at (L:=float_laws) [1; 2] _ INC [] 0 1 eq_refl). f_equal. unfold tau, added. cbn. ring. }
  assert (DF2 : forall x0 x1, df (added [0; 0] [x0; x1]) 2 = exp (- (2 * x1))).
  { intros x0 x1. unfold df, dfx, zv. rewrite (zr_at (L:=float_laws) [1; 2] _ INC [] 1 2 eq_refl). f_equal. unfold tau, added. cbn. ring. }
  assert (TE1 : forall x0 x1, total_error (DS := fl) qs (spread_arg (Many [0; 0]) 2) [x0; x1] 1 = 1000 - 1030 * exp (- x0)).
  { intros x0 x1. rewrite (total_first (L:=float_laws) [1; 2] qs (spread_arg (Many [0; 0]) 2) [x0; x1] 1 (1, fun xs => V [-30] [1000] (added [0; 0] xs)) 0 ONE eq_refl eq_refl eq_refl).
    unfold V, value_on. cbn [map combine Rsum fst snd floats seq length nth]. rewrite DF1. unfold zforward, tau, added. cbn [map combine fst snd nth pred].
    replace ((0 + x0) * (1 - 0) - (0 + x0) * (0 - 0)) with (- - x0) by ring. rewrite (exp_Ropp (- x0)). pose proof (exp_pos (- x0)). field. lra. }
  assert (TE2 : forall x0 x1, total_error (DS := fl) qs (spread_arg (Many [0; 0]) 2) [x0; x1] 2 = (1000 - 1030 * exp (- x0)) + (1000 - 30 * exp (- x0) - 1030 * exp (- (2 * x1)))).
  { intros x0 x1. rewrite (total_step (L:=float_laws) [1; 2] qs (spread_arg (Many [0; 0]) 2) [x0; x1] 0 2 1 (2, fun xs => V [-30; -30] [1000; 1000] (added [0; 0] xs)) 0 ONE eq_refl eq_refl eq_refl eq_refl).
    rewrite TE1. unfold V, value_on. cbn [map combine Rsum fst snd floats seq length nth]. rewrite DF1, DF2. unfold zforward, tau, added. cbn [map combine fst snd nth pred].
    replace ((0 + x0) * (1 - 0) - (0 + x0) * (0 - 0)) with (- - x0) by ring. replace ((0 + x1) * (2 - 0) - (0 + x0) * (1 - 0)) with (- - (2 * x1) + - x0) by ring.
    rewrite exp_plus, (exp_Ropp (- x0)), (exp_Ropp (- (2 * x1))). pose proof (exp_pos (- x0)). pose proof (exp_pos (- (2 * x1))). field. lra. }
  assert (PL : plain_cls (rc_cls c)) by (rewrite C1; exact I).
  assert (A' : additive (DS := fl) (dc_apply (DS := fl) (DC := no_counts) (dc_kwarg (dc_count (rc_dc c)))) tau) by (rewrite C6; exact A).
  destruct (zero_cast fl (fun d => d) no_counts float_laws DcDefault tau [1; 2] [0; 0] (Some 0) 0 0 (Some (FP 1)) c 21 None A tau_f_monotone eq_refl ne_f INC OG AF eq_refl HN) as (s0 & CA).
  assert (exists zs, mapM (rc_call (DS := fl) (DC := no_counts) c) [1; 2] = Ok zs) as (zs & MZ) by (apply mapM_total; intros; apply WC).
  assert (UP : forall x, 0 <= x -> (1 + x) * exp (- x) <= 1).
  { intros x X. rewrite exp_Ropp. pose proof (exp_ineq1_le x). pose proof (exp_pos x). apply (Rmult_le_reg_r (exp x)); [lra|]. rewrite Rmult_assoc, Rinv_l by lra. lra. }
  destruct (C50_returns fl (fun d => d) no_counts float_laws tau 22 None h c 0 0 (Some 0) None None [1; 2] (Many [0; 0]) [p0; p1] qs (1 / 1000) (- (1 / 10)) (2 / 10) s0 zs 4000
    eq_refl C8 PL A' ne_f nd_f eq_refl C2 PR LOC CA MZ) as (data & RUN).
  { cbv zeta. intros i d xs Hi LX PREV. destruct xs as [|x0 [|x1 [|]]]; try discriminate LX.
    destruct i as [|[|i]]; cbn in Hi; [| |destruct i; discriminate]; injection Hi as <-; cbn [set_nth].
    - split.
      + left. rewrite !TE1. split.
        * pose proof (exp_ineq1_le (- - (1 / 10))). lra.
        * pose proof (UP (2 / 10) ltac:(lra)). lra.
      + intros x y Ix Iy. rewrite !TE1. unfold inside in Ix, Iy. rewrite Rmin_left, Rmax_right in Ix, Iy by lra.
        replace (1000 - 1030 * exp (- x) - (1000 - 1030 * exp (- y))) with (1030 * (exp (- y) - exp (- x))) by ring. rewrite Rabs_mult, (Rabs_pos_eq 1030) by lra.
        pose proof (exp_near (- y) (- x) (1 / 10) ltac:(lra) ltac:(lra) ltac:(lra)) as N. replace (- y - - x) with (x - y) in N by ring. pose proof (Rabs_pos (x - y)). lra.
    - specialize (PREV 0%nat 1 ltac:(lia) eq_refl). rewrite TE1 in PREV. apply Rabs_def2 in PREV.
      split.
      + left. rewrite !TE2. split.
        * pose proof (exp_ineq1_le (- (2 * - (1 / 10)))). lra.
        * pose proof (UP (2 * (2 / 10)) ltac:(lra)). lra.
      + intros x y Ix Iy. rewrite !TE2. unfold inside in Ix, Iy. rewrite Rmin_left, Rmax_right in Ix, Iy by lra.
        match goal with |- Rabs ?t <= _ => replace t with (1030 * (exp (- (2 * y)) - exp (- (2 * x)))) by ring end.
        rewrite Rabs_mult, (Rabs_pos_eq 1030) by lra.
        pose proof (exp_near (- (2 * y)) (- (2 * x)) (2 / 10) ltac:(lra) ltac:(lra) ltac:(lra)) as N.
        replace (- (2 * y) - - (2 * x)) with (2 * (x - y)) in N by ring. rewrite Rabs_mult, (Rabs_pos_eq 2) in N by lra. pose proof (Rabs_pos (x - y)). lra. }
  { rewrite Rabs_pos_eq by lra. lra. }
  { rewrite Rabs_pos_eq by lra. lra. }
  destruct (C127_single_curve fl (fun d => d) no_counts float_laws DcDefault tau [1; 2] [0; 0] (Some 0) 0 0 0 (Some (FP 1)) c 0
    DcDefault tau 20 None h [p0; p1] None None (Many [0; 0]) (1 / 1000) (- (1 / 10)) (2 / 10) data h
    A tau_f_monotone eq_refl ne_f INC OG AG AF eq_refl HN eq_refl TE) as (_ & LD & c' & HN' & PV); auto; try reflexivity.
  { intros [|[|j]] d p Hd Hp; [| |destruct j; discriminate]; injection Hd as <-; injection Hp as <-; assumption. }
  destruct (PV 1%nat p1 0 eq_refl eq_refl) as (w & RW & WE & _).
  exists h, c, data, c'. repeat (split; [first [reflexivity|assumption]|]). exists w. split; [exact RW|]. rewrite Rminus_0_r in WE. lra.
Qed.
