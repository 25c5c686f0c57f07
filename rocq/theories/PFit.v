(** Property C50: curve fitting. *)
From Coq Require Import Reals Lra Lia List Bool ZArith Sorted.
From Verif Require Import Num Py Spec MDates MInterpolation MCurve MRateCurve MOption MCashflow MBracket MPricer
  SDates SInterpolation SCurve SRateCurve SCashflow SPricer SBracket SYield SFit LBase LSort LDates LInterpolation LCurve LCurve2
  LDateCurve LDateCurve2 LCashflow LRateCurve LRateCurve3 LPricer LPricer2 LPricer3 LBracket LYield LFair LFit LMore LInterpolation2 PBracket PCashflow PRateCurve2.
Import ListNotations.
Open Scope R_scope.

Section Fit.
  Context {D P : Type} (DS : DateSys R D P) (tm : D -> R) (DC : DayCounts R D) (L : DateLaws DS tm).
  Implicit Types (h : heap R D P) (c s : rcurve R D P).

  (** if the fit returns, the objects are unchanged, the data are the values of the curve
      plus the values xs of a spread within the bounds, and with this spread the summed up
      error of the products maturing up to each grid date is below the precision *)
  Theorem C50_cumulative : forall tau fuel flr h c fit disc v fitting grid0 grid targets ps qs precision a b data h',
    nth_error (h_curves h) fit = Some c -> rc_spread c = None -> plain_cls (rc_cls c) ->
    additive (dc_apply (dc_kwarg (dc_count (rc_dc c)))) tau ->
    grid <> [] -> NoDup (map tm grid) ->
    match fitting with Some i => i | None => disc end = fit ->
    match grid0 with Some g => g | None => rc_domain c end = grid ->
    Forall2 (fun p q => last_payment h p (fst q) /\ priced fuel flr h disc v fit c grid p (snd q)) ps qs ->
    Forall (local tm grid) qs ->
    get_curve_fit fuel flr ps disc v fitting grid0 targets precision a b h = (Ok data, h') ->
    h' = h /\ exists xs s, length xs = length grid /\ on_grid c grid xs = Ok s /\ length data = length grid /\
      (forall i d x y, nth_error grid i = Some d -> nth_error xs i = Some x -> rc_call c d = Ok y ->
         nth_error data i = Some (y + x)) /\
      (forall x, In x xs -> inside a b x) /\
      (forall p V, In (p, V) (combine ps (map snd qs)) ->
         returns (get_present_value fuel flr p disc v) (with_spread h fit c s) (V xs)) /\
      forall d, In d grid -> Rabs (total_error qs (spread_arg targets (length ps)) xs d) < precision.
  Proof.
    intros tau fuel flr h c fit disc v fitting grid0 grid targets ps qs p a b data h' HC NS PC A NE ND EF EG Q LOC H.
    destruct (fit_run (L:=L) c grid tau PC NE ND A h fit HC fuel flr disc v ps qs _ Q LOC a b p h grid0 targets fitting data h'
      eq_refl NS eq_refl EF EG H) as (E & xs & s & LX & G & M & F).
    split; [exact E|]. exists xs, s. split; [exact LX|]. split; [exact G|]. split; [exact (mapM_length _ _ _ M)|].
    pose proof (on_grid_values (L:=L) c grid tau PC NE ND A xs s LX G) as V. split; [|split; [|split]].
    - intros i d x y I X Y. destruct (mapM_nth _ _ _ i d M I) as (z & Z2 & Z1).
      rewrite Z1. f_equal. destruct (mapM_nth _ _ _ i d V I) as (x' & X2 & X1). assert (x' = x) by congruence. subst x'.
      cbn [rc_call] in Z2. rewrite X2 in Z2. destruct c as [k dc t sp]. cbn in NS. subst sp. cbn [rc_dc] in Z2.
      rewrite rc_call_plain in Y. cbn [rc_dc] in Y. rewrite Y in Z2. cbn in Z2. injection Z2 as <-. reflexivity.
    - intros x I. destruct (In_nth_error _ _ I) as [i J].
      assert (K : (i < length grid)%nat) by (rewrite <- LX; apply nth_error_Some; congruence).
      destruct (nth_error grid i) as [d|] eqn:Ed; [|apply nth_error_None in Ed; lia].
      destruct (F i K d Ed) as ((x' & X & B) & _). assert (x' = x) by congruence. now subst.
    - intros q V0 I. clear -Q I G LX. induction Q as [|q0 [m W] ps qs [_ HP] Q IH]; [contradiction|].
      cbn in I. destruct I as [I|I]; auto. injection I as -> ->. apply (HP xs s LX G).
    - intros d I. destruct (In_nth_error _ _ I) as [i J].
      assert (K : (i < length grid)%nat) by (apply nth_error_Some; congruence).
      apply (F i K d J).
  Qed.


  (** one product per grid date: every product meets its target up to twice the precision,
      the first one up to the precision *)
  Theorem C50_each : forall tau fuel flr h c fit disc v fitting grid0 grid targets ps qs precision a b data h',
    nth_error (h_curves h) fit = Some c -> rc_spread c = None -> plain_cls (rc_cls c) ->
    additive (dc_apply (dc_kwarg (dc_count (rc_dc c)))) tau ->
    grid <> [] -> NoDup (map tm grid) ->
    match fitting with Some i => i | None => disc end = fit ->
    match grid0 with Some g => g | None => rc_domain c end = grid ->
    Forall2 (fun p q => last_payment h p (fst q) /\ priced fuel flr h disc v fit c grid p (snd q)) ps qs ->
    Forall (local tm grid) qs -> one_each tm grid qs ->
    get_curve_fit fuel flr ps disc v fitting grid0 targets precision a b h = (Ok data, h') ->
    exists xs s, length xs = length grid /\ on_grid c grid xs = Ok s /\ length data = length grid /\
      (forall i d x y, nth_error grid i = Some d -> nth_error xs i = Some x -> rc_call c d = Ok y ->
         nth_error data i = Some (y + x)) /\
      forall j p t, nth_error ps j = Some p -> nth_error (spread_arg targets (length ps)) j = Some t ->
        exists w, returns (get_present_value fuel flr p disc v) (with_spread h fit c s) w /\
          Rabs (w - t) < 2 * precision /\ (j = 0%nat -> Rabs (w - t) < precision).
  Proof.
    intros tau fuel flr h c fit disc v fitting grid0 grid targets ps qs p a b data h' HC NS PC A NE ND EF EG Q LOC ONE H.
    destruct (C50_cumulative tau fuel flr h c fit disc v fitting grid0 grid targets ps qs p a b data h' HC NS PC A NE ND EF EG Q LOC H)
      as (_ & xs & s & LX & G & LD & DA & _ & PV & TE).
    exists xs, s. split; [exact LX|]. split; [exact G|]. split; [exact LD|]. split; [exact DA|]. intros j pr t J T.
    assert (exists q, nth_error qs j = Some q) as (q & Jq).
    { assert (length ps = length qs) as LQ by (clear -Q; induction Q; cbn; auto).
      assert (j < length qs)%nat as LJ by (rewrite <- LQ; apply nth_error_Some; congruence).
      apply nth_error_Some in LJ. destruct (nth_error qs j) eqn:EE; [eauto|congruence]. }
    assert (exists d, nth_error grid j = Some d) as (d & Jd).
    { assert (j < length grid)%nat as LJ by (rewrite <- (proj1 ONE); apply nth_error_Some; congruence).
      apply nth_error_Some in LJ. destruct (nth_error grid j) eqn:EE; [eauto|congruence]. }
    exists (snd q xs). split.
    { apply PV. apply (nth_error_In _ j). apply combine_nth_both; auto. rewrite nth_error_map, Jq. reflexivity. }
    pose proof (TE d (nth_error_In _ _ Jd)) as T1. destruct j as [|j].
    - rewrite (total_first (L:=L) grid qs _ xs d q t ONE Jd Jq T) in T1.
      split; [|auto]. pose proof (Rabs_pos (snd q xs - t)). lra.
    - assert (exists d', nth_error grid j = Some d') as (d' & Jd').
      { assert (j < length grid)%nat as LJ by (assert (S j < length grid)%nat by (apply nth_error_Some; congruence); lia).
        apply nth_error_Some in LJ. destruct (nth_error grid j) eqn:EE; [eauto|congruence]. }
      pose proof (TE d' (nth_error_In _ _ Jd')) as T0.
      rewrite (total_step (L:=L) grid qs _ xs j d d' q t ONE Jd Jd' Jq T) in T1.
      split; [|discriminate]. revert T0 T1. unfold Rabs. repeat destruct (Rcase_abs _); lra.
  Qed.

  (** ... and up to the precision if raising the spread at its date raises the value of each
      product, or lowers the value of each of them *)
  Theorem C50_same_direction : forall tau fuel flr h c fit disc v fitting grid0 grid targets ps qs precision a b data h',
    nth_error (h_curves h) fit = Some c -> rc_spread c = None -> plain_cls (rc_cls c) ->
    additive (dc_apply (dc_kwarg (dc_count (rc_dc c)))) tau ->
    grid <> [] -> NoDup (map tm grid) -> a <= b ->
    match fitting with Some i => i | None => disc end = fit ->
    match grid0 with Some g => g | None => rc_domain c end = grid ->
    Forall2 (fun p q => last_payment h p (fst q) /\ priced fuel flr h disc v fit c grid p (snd q)) ps qs ->
    Forall (local tm grid) qs -> one_each tm grid qs ->
    (forall j q xs x y, nth_error qs j = Some q -> length xs = length grid -> x <= y ->
       snd q (set_nth j x xs) <= snd q (set_nth j y xs)) \/
    (forall j q xs x y, nth_error qs j = Some q -> length xs = length grid -> x <= y ->
       snd q (set_nth j y xs) <= snd q (set_nth j x xs)) ->
    get_curve_fit fuel flr ps disc v fitting grid0 targets precision a b h = (Ok data, h') ->
    exists xs s, length xs = length grid /\ on_grid c grid xs = Ok s /\ length data = length grid /\
      (forall i d x y, nth_error grid i = Some d -> nth_error xs i = Some x -> rc_call c d = Ok y ->
         nth_error data i = Some (y + x)) /\
      forall j p t, nth_error ps j = Some p -> nth_error (spread_arg targets (length ps)) j = Some t ->
        exists w, returns (get_present_value fuel flr p disc v) (with_spread h fit c s) w /\
          Rabs (w - t) < precision.
  Proof.
    intros tau fuel flr h c fit disc v fitting grid0 grid targets ps qs p a b data h' HC NS PC A NE ND AB EF EG Q LOC ONE MON H.
    destruct (C50_cumulative tau fuel flr h c fit disc v fitting grid0 grid targets ps qs p a b data h' HC NS PC A NE ND EF EG Q LOC H)
      as (_ & xs0 & s0 & LX0 & G0 & LD & DA & _).
    destruct (fit_run (L:=L) c grid tau PC NE ND A h fit HC fuel flr disc v ps qs _ Q LOC a b p h grid0 targets fitting data h'
      eq_refl NS eq_refl EF EG H) as (_ & xs & s & LX & G & M & F).
    set (ts := spread_arg targets (length ps)) in *.
    assert (XX : xs0 = xs).
    { pose proof (on_grid_values (L:=L) c grid tau PC NE ND A xs s LX G) as V.
      apply list_ext. intros i. destruct (nth_error grid i) as [d|] eqn:I.
      - destruct (mapM_nth _ _ _ i d M I) as (z & Z2 & Z1). destruct (mapM_nth _ _ _ i d V I) as (x & X2 & X1).
        cbn [rc_call] in Z2. rewrite X2 in Z2.
        destruct (dc_val (rc_dc c) d) as [y|] eqn:Y; [|discriminate]. cbn in Z2. injection Z2 as <-.
        assert (i < length xs0)%nat as LI by (rewrite LX0; apply nth_error_Some; congruence).
        apply nth_error_Some in LI. destruct (nth_error xs0 i) as [x0|] eqn:E0; [|congruence].
        rewrite (DA i d x0 y) in Z1; auto.
        + injection Z1 as Z1. rewrite X1. f_equal. lra.
        + destruct c as [k dc t sp]. cbn in NS. subst sp. rewrite rc_call_plain. exact Y.
      - apply nth_error_None in I. rewrite (proj2 (nth_error_None xs0 i)), (proj2 (nth_error_None xs i)); auto; lia. }
    subst xs0. clear s0 G0.
    exists xs, s. split; [exact LX|]. split; [exact G|]. split; [exact LD|]. split; [exact DA|].
    assert (DIFF : forall i d q t x y, nth_error grid i = Some d -> nth_error qs i = Some q -> nth_error ts i = Some t ->
      total_error qs ts (set_nth i x xs) d - total_error qs ts (set_nth i y xs) d = snd q (set_nth i x xs) - snd q (set_nth i y xs)).
    { intros i d q t x y I Iq It. destruct i as [|i].
      - rewrite !(total_first (L:=L) grid qs ts _ d q t ONE I Iq It). lra.
      - assert (i < length grid)%nat as LI by (assert (S i < length grid)%nat by (apply nth_error_Some; congruence); lia).
        apply nth_error_Some in LI. destruct (nth_error grid i) as [d'|] eqn:I'; [|congruence].
        rewrite !(total_step (L:=L) grid qs ts _ i d d' q t ONE I I' Iq It).
        rewrite (total_local (L:=L) grid qs ts LOC i d' (set_nth (S i) x xs) (set_nth (S i) y xs)); auto; try (now rewrite set_nth_length); [lra|].
        intros k K. rewrite !set_nth_other by lia. reflexivity. }
    assert (SIGN : (forall i d q t, nth_error grid i = Some d -> nth_error qs i = Some q -> nth_error ts i = Some t -> 0 <= total_error qs ts xs d) \/
                   (forall i d q t, nth_error grid i = Some d -> nth_error qs i = Some q -> nth_error ts i = Some t -> total_error qs ts xs d <= 0)).
    { destruct MON as [UP|DN]; [left|right]; intros i d q t I Iq It.
      - assert (K : (i < length grid)%nat) by (apply nth_error_Some; congruence).
        destruct (F i K d I) as (_ & _ & S1 & _). apply S1.
        pose proof (DIFF i d q t a b I Iq It). pose proof (UP i q xs a b Iq LX AB). lra.
      - assert (K : (i < length grid)%nat) by (apply nth_error_Some; congruence).
        destruct (F i K d I) as ((x & X & B) & _ & _ & S2 & SC). unfold sign_change in SC.
        unfold inside in B. rewrite Rmin_left, Rmax_right in B by auto.
        pose proof (DIFF i d q t a b I Iq It) as D1. pose proof (DN i q xs a b Iq LX AB) as D2.
        pose proof (DIFF i d q t a x I Iq It) as D3. pose proof (DN i q xs a x Iq LX (proj1 B)) as D4.
        rewrite (set_nth_same xs i x X) in *.
        assert (LE : total_error qs ts (set_nth i b xs) d <= total_error qs ts (set_nth i a xs) d) by lra.
        destruct (Rle_lt_or_eq_dec _ _ LE) as [LT|EQ]; [auto|].
        lra. }
    intros j pr t J T.
    assert (exists q, nth_error qs j = Some q) as (q & Jq).
    { assert (length ps = length qs) as LQ by (clear -Q; induction Q; cbn; auto).
      assert (j < length qs)%nat as LJ by (rewrite <- LQ; apply nth_error_Some; congruence).
      apply nth_error_Some in LJ. destruct (nth_error qs j) eqn:EE; [eauto|congruence]. }
    assert (exists d, nth_error grid j = Some d) as (d & Jd).
    { assert (j < length grid)%nat as LJ by (rewrite <- (proj1 ONE); apply nth_error_Some; congruence).
      apply nth_error_Some in LJ. destruct (nth_error grid j) eqn:EE; [eauto|congruence]. }
    exists (snd q xs). split.
    { clear -Q J Jq G LX. revert j J Jq. induction Q as [|p0 q0 ps qs [_ HP] Q IH]; intros j J Jq; [destruct j; discriminate|].
      destruct j as [|j]; cbn in *; [|eauto]. injection J as ->. injection Jq as ->. apply (HP xs s LX G). }
    assert (TE : forall i d, nth_error grid i = Some d -> Rabs (total_error qs ts xs d) < p).
    { intros i d0 I. assert (K : (i < length grid)%nat) by (apply nth_error_Some; congruence). apply (F i K d0 I). }
    pose proof (TE j d Jd) as T1. destruct j as [|j].
    - now rewrite (total_first (L:=L) grid qs _ xs d q t ONE Jd Jq T) in T1.
    - assert (exists d', nth_error grid j = Some d') as (d' & Jd').
      { assert (j < length grid)%nat as LJ by (assert (S j < length grid)%nat by (apply nth_error_Some; congruence); lia).
        apply nth_error_Some in LJ. destruct (nth_error grid j) eqn:EE; [eauto|congruence]. }
      assert (exists q', nth_error qs j = Some q') as (q' & Jq').
      { assert (j < length qs)%nat as LJ by (assert (S j < length qs)%nat by (apply nth_error_Some; congruence); lia).
        apply nth_error_Some in LJ. destruct (nth_error qs j) eqn:EE; [eauto|congruence]. }
      assert (exists t', nth_error ts j = Some t') as (t' & Jt').
      { assert (j < length ts)%nat as LJ by (assert (S j < length ts)%nat by (apply nth_error_Some; congruence); lia).
        apply nth_error_Some in LJ. destruct (nth_error ts j) eqn:EE; [eauto|congruence]. }
      pose proof (TE j d' Jd') as T0.
      assert (SG : (0 <= total_error qs ts xs d /\ 0 <= total_error qs ts xs d') \/ (total_error qs ts xs d <= 0 /\ total_error qs ts xs d' <= 0)).
      { destruct SIGN as [S1|S1]; [left|right]; split; eauto. }
      rewrite (total_step (L:=L) grid qs _ xs j d d' q t ONE Jd Jd' Jq T) in T1, SG.
      revert T0 T1 SG. unfold Rabs. repeat destruct (Rcase_abs _); lra.
  Qed.

  (** the fit returns if at each grid date the bounds bracket the target, whatever the
      spreads fitting the products matured before, and the values do not vary too fast *)
  Theorem C50_returns : forall tau n flr h c fit disc v fitting grid0 grid targets ps qs precision a b s0 zs K,
    nth_error (h_curves h) fit = Some c -> rc_spread c = None -> plain_cls (rc_cls c) ->
    additive (dc_apply (dc_kwarg (dc_count (rc_dc c)))) tau ->
    grid <> [] -> NoDup (map tm grid) ->
    match fitting with Some i => i | None => disc end = fit ->
    match grid0 with Some g => g | None => rc_domain c end = grid ->
    Forall2 (fun p q => last_payment h p (fst q) /\ priced (S n) flr h disc v fit c grid p (snd q)) ps qs ->
    Forall (local tm grid) qs ->
    rc_cast_on (S n) flr (rc_cls c) grid c None None DcDefault None = Ok s0 -> mapM (rc_call c) grid = Ok zs ->
    let E := total_error qs (spread_arg targets (length ps)) in
    (forall i d xs, nth_error grid i = Some d -> length xs = length grid ->
       (forall k d', (k < i)%nat -> nth_error grid k = Some d' -> Rabs (E xs d') < precision) ->
       sign_change (fun x => E (set_nth i x xs) d) a b /\
       forall x y, inside a b x -> inside a b y -> Rabs (E (set_nth i x xs) d - E (set_nth i y xs) d) <= K * Rabs (x - y)) ->
    Rabs (b - a) / 2 ^ n < precision -> K * (Rabs (b - a) / 2 ^ n) < precision ->
    exists data, get_curve_fit (S n) flr ps disc v fitting grid0 targets precision a b h = (Ok data, h).
  Proof.
    intros tau n flr h c fit disc v fitting grid0 grid targets ps qs p a b s0 zs K HC NS PC A NE ND EF EG Q LOC CA ZS E HE W1 W2.
    destruct (fit_forward (L:=L) c grid tau PC NE ND A h fit HC (S n) flr disc v ps (spread_arg targets (length ps)) a b p (fun _ => True) grid0 targets fitting s0 zs
      NS eq_refl EF EG CA ZS) as (data & xs & s & R & _); [|eauto].
    intros xs h' AT.
    destruct (fit_stages (L:=L) c grid h fit (S n) flr disc v ps qs (spread_arg targets (length ps)) LOC a b p) with (suf := grid) (pre := @nil D) (xs := xs) (h' := h') as (r & xs' & h2 & R & A2); auto.
    - intros i d ys h1 I AT1 FI. destruct (HE i d ys I (proj1 AT1) FI) as (SC & LI).
      apply (fit_stage (L:=L) c grid tau PC NE ND A h fit HC (S n) flr disc v ps qs (spread_arg targets (length ps)) Q a b p i d ys h1 I AT1).
      intros fs Inv at_ EV.
      assert (J0 : Inv h1) by (exists ys; auto).
      destruct (C44_lipschitz Inv at_ _ _ a b p h1 n K EV J0 SC LI W1 W2) as ([[a' m] b'] & h2 & B). eauto.
    - intros k d' K0. cbn in K0. lia.
    - exists r, xs', h2. auto.
  Qed.

  (** a curve of discount factors, survival or default probabilities cannot be fitted: the
      initial spread 0 is refused, and the copy of the curve stays as its spread *)
  Theorem C50_probability_refuted : forall tau fuel flr h c fit disc v fitting grid0 grid targets ps precision a b s0 zs,
    nth_error (h_curves h) fit = Some c -> rc_spread c = None -> ~ plain_cls (rc_cls c) ->
    additive (dc_apply (dc_kwarg (dc_count (rc_dc c)))) tau ->
    grid <> [] -> NoDup (map tm grid) ->
    match fitting with Some i => i | None => disc end = fit ->
    match grid0 with Some g => g | None => rc_domain c end = grid ->
    rc_cast_on fuel flr (rc_cls c) grid c None None DcDefault None = Ok s0 -> mapM (rc_call s0) grid = Ok zs ->
    get_curve_fit fuel flr ps disc v fitting grid0 targets precision a b h = (Err ValueError, with_spread h fit c s0).
  Proof.
    intros tau fuel flr h c fit disc v fitting grid0 grid targets ps p a b s0 zs HC NS PC A NE ND EF EG CA ZS.
    unfold get_curve_fit. rewrite EF.
    assert (G1 : get_curve fit h = (Ok c, h)) by (unfold get_curve, lift; now rewrite (nth_res_some _ _ _ HC)).
    rewrite (bind_run _ _ _ _ _ G1), EG.
    rewrite (bind_run _ _ h s0 h) by (unfold lift; now rewrite CA).
    pose proof (put_spread_run fit (inr s0) h c HC NS) as PS. rewrite (bind_run _ _ _ _ _ PS). clear PS.
    change (mkH _ (h_models h) (h_lists h)) with (with_spread h fit c s0).
    assert (FL : (fit < length (h_curves h))%nat) by (apply nth_error_Some; congruence).
    assert (W : nth_error (h_curves (with_spread h fit c s0)) fit = Some (mkR (rc_cls c) (rc_dc c) (rc_tenor0 c) (Some (inr s0))))
      by (unfold with_spread; cbn [h_curves]; now apply set_nth_nth).
    assert (G2 : get_curve fit (with_spread h fit c s0) = (Ok (mkR (rc_cls c) (rc_dc c) (rc_tenor0 c) (Some (inr s0))), with_spread h fit c s0))
      by (unfold get_curve, lift; now rewrite (nth_res_some _ _ _ W)).
    unfold rc_cast_on in CA. destruct (mapM _ grid) as [xs|] eqn:Ex; [|discriminate]. cbn [bind] in CA.
    destruct (mapM _ (rc_domain c)); [|discriminate]. cbn [bind origin_or dc_or] in CA.
    pose proof (mapM_length _ _ _ Ex) as LX. symmetry in LX.
    assert (exists o, dom_origin (dc_origin0 (rc_dc c)) grid = Some o) as (o & HO).
    { unfold dom_origin. destruct (dc_origin0 (rc_dc c)); eauto. destruct grid; [congruence|]. cbn. eauto. }
    destruct (dc_new _ _ _ _ _ _) as [d0|] eqn:Ed; [|discriminate]. cbn [bind] in CA. injection CA as <-.
    apply (dstate_iff (L:=L) _ tau A _ _ _ _ _ o) in Ed; auto.
    pose proof (dstate_origin _ _ _ _ _ _ _ _ _ Ed) as (_ & _ & HD & _).
    assert (SD : spread_domain fit (with_spread h fit c (mkR (rc_cls c) d0 None None)) = (Ok grid, with_spread h fit c (mkR (rc_cls c) d0 None None))).
    { unfold spread_domain. rewrite (bind_run _ _ _ _ _ G2). cbn [rc_spread]. unfold rc_domain. cbn [rc_dc]. now rewrite HD. }
    rewrite (bind_run _ _ _ _ _ SD).
    destruct grid as [|g grid']; [congruence|]. set (grid := g :: grid') in *.
    assert (SV : set_spread_value fit g n0 (with_spread h fit c (mkR (rc_cls c) d0 None None))
                 = (Err ValueError, with_spread h fit c (mkR (rc_cls c) d0 None None))).
    { unfold set_spread_value. rewrite (bind_run _ _ _ _ _ G2). cbn [rc_spread]. unfold rc_setitem. cbn [rc_dc].
      rewrite (setitem_with_form (L:=L) _ tau A _ _ _ _ _ _ _ zs _ g n0 Ed ZS).
      assert (IX : index_of d_eqb g grid = Some 0%nat) by (cbn; now rewrite (eqb_refl (L:=L))).
      unfold d_upd. rewrite IX. cbn [fst snd].
      pose proof (mapM_length _ _ _ ZS) as LZ.
      rewrite (dc_new_form (L:=L) _ tau A _ _ _ _ _ o); auto; [|now rewrite set_nth_length].
      assert (IN : exists y, In y (set_nth 0 (n0 (T:=R)) zs) /\ y <= 0).
      { destruct zs as [|z zs]; [discriminate LZ|]. exists 0. split; [now left|lra]. }
      assert (LT : length (map (tau o) grid) = length (set_nth 0 (n0 (T:=R)) zs)) by (now rewrite map_length, set_nth_length).
      assert (NT : NoDup (map (tau o) grid)) by (now apply (times_nodup (L:=L) _ tau A)).
      assert (ER : fn_new (dc_spec (cls_interp (rc_cls c)) None) (map (tau o) grid) (set_nth 0 (n0 (T:=R)) zs) = Err ValueError).
      { cbn [dc_spec]. unfold fn_new, scheme_new, resolve.
        assert (DE : length (dedup neqb (map (tau o) grid)) = length (map (tau o) grid)) by (now apply dedup_length_nodup).
        destruct (rc_cls c); try (exfalso; apply PC; exact I); cbn [cls_interp log_linear_rate_scheme log_linear_scheme];
          rewrite (proj2 (Nat.eqb_eq _ _) LT), DE, Nat.eqb_refl; cbn [negb]; rewrite log_nonpositive'; auto. }
      rewrite ER. reflexivity. }
    unfold grid at 1. cbn [mapS]. unfold bindS at 1 2. now rewrite SV.
  Qed.

  (** the data give a curve with the fitted values at every date, not only on the grid: a
      piecewise linear curve on its own grid *)
  Theorem C50_rebuild : forall k count tau grid ys xs orig tenor c s,
    linear_cls k -> additive (dc_apply count) tau -> dc_kwarg count = count ->
    grid <> [] -> NoDup (map tm grid) -> length ys = length grid -> length xs = length grid ->
    rc_new k grid ys None orig count tenor = Ok c -> on_grid c grid xs = Ok s ->
    exists c', rc_new k grid (map (fun yx => fst yx + snd yx) (combine ys xs)) None orig count tenor = Ok c' /\
      rc_cls c' = rc_cls c /\ rc_domain c' = rc_domain c /\ rc_origin c' = rc_origin c /\ rc_tenor c' = rc_tenor c /\
      forall d, exists y x, rc_call c d = Ok y /\ rc_call s d = Ok x /\ rc_call c' d = Ok (y + x).
  Proof.
    intros k count tau grid ys xs orig tenor c s K A KW NE ND LY LX Ec Es.
    assert (exists o, dom_origin orig grid = Some o) as (o & HO).
    { unfold dom_origin. destruct orig; eauto. destruct grid; [congruence|]. cbn. eauto. }
    set (zs := map (fun yx => fst yx + snd yx) (combine ys xs)).
    assert (LZ : length zs = length grid) by (unfold zs; rewrite map_length, combine_length; lia).
    destruct (rc_new_linear (L:=L) count tau A k grid ys orig o tenor K (eq_sym LY) ND NE HO) as (c1 & E1 & B1 & V1 & W1).
    rewrite Ec in E1. injection E1 as <-.
    assert (CL : rc_cls c = k /\ dc_origin0 (rc_dc c) = orig /\ dc_count (rc_dc c) = count).
    { destruct B1 as (Q1 & _ & _ & _ & Q5 & Q6 & _). auto. }
    destruct CL as (C1 & C2 & C3). unfold on_grid in Es. rewrite C1, C2, C3, KW in Es.
    destruct (rc_new_linear (L:=L) count tau A k grid xs orig o None K (eq_sym LX) ND NE HO) as (s1 & E2 & B2 & V2 & W2).
    rewrite Es in E2. injection E2 as <-.
    destruct (rc_new_linear (L:=L) count tau A k grid zs orig o tenor K (eq_sym LZ) ND NE HO) as (c' & E3 & B3 & V3 & W3).
    exists c'. split; [exact E3|].
    destruct B1 as (Q1 & Q2 & Q3 & _ & _ & _ & Q7 & _). destruct B3 as (Z1 & Z2 & Z3 & _ & _ & _ & Z7 & _).
    split; [congruence|]. split; [congruence|]. split; [congruence|].
    split; [unfold rc_tenor; rewrite Q1, Z1, Q7, Z7; reflexivity|].
    assert (TT : forall x y, tau x y = tau o y - tau o x) by (intros x y; pose proof (add_add _ _ A o x y); lra).
    assert (NDt : NoDup (map (tau o) grid)) by (now apply (times_nodup (L:=L) count tau A)).
    assert (NEt : map (tau o) grid <> []) by (destruct grid; [congruence|discriminate]).
    destruct (pl_function (map (tau o) grid) ys) as (f & Hf); [now rewrite map_length|auto|auto|].
    destruct (pl_function (map (tau o) grid) xs) as (g & Hg); [now rewrite map_length|auto|auto|].
    destruct (pl_function (map (tau o) grid) zs) as (j & Hj); [now rewrite map_length|auto|auto|].
    assert (MF : forall l : list R, length l = length grid -> map fst (combine (map (tau o) grid) l) = map (tau o) grid).
    { intros l HL. apply map_fst_combine. now rewrite map_length. }
    assert (DD : forall l : list R, length l = length grid -> distinct (combine (map (tau o) grid) l)).
    { intros l HL. unfold distinct. now rewrite MF. }
    assert (NN : forall l : list R, length l = length grid -> combine (map (tau o) grid) l <> []).
    { intros l HL Z. apply NEt. rewrite <- (MF l HL), Z. reflexivity. }
    assert (SUM : forall t, j t = f t + 1 * g t).
    { apply (pl_sum (combine (map (tau o) grid) ys) (combine (map (tau o) grid) xs) (combine (map (tau o) grid) zs) f g j); auto.
      - intros t. rewrite !MF by auto. tauto.
      - intros t z I. destruct (In_nth_error _ _ I) as [i J].
        assert (KI : (i < length grid)%nat).
        { assert (i < length (combine (map (tau o) grid) zs))%nat as J' by (apply nth_error_Some; congruence). rewrite combine_length, map_length in J'. lia. }
        assert (nth_error ys i <> None) as NY by (apply nth_error_Some; lia).
        assert (nth_error xs i <> None) as NX by (apply nth_error_Some; lia).
        assert (nth_error (map (tau o) grid) i <> None) as NT by (apply nth_error_Some; rewrite map_length; lia).
        destruct (nth_error ys i) as [y|] eqn:EY; [|congruence]. destruct (nth_error xs i) as [x|] eqn:EX; [|congruence].
        destruct (nth_error (map (tau o) grid) i) as [t'|] eqn:ET; [|congruence].
        assert (EZ : nth_error zs i = Some (y + x)).
        { unfold zs. rewrite nth_error_map, (combine_nth_both _ _ _ _ _ EY EX). reflexivity. }
        rewrite (combine_nth_both _ _ _ _ _ ET EZ) in J. injection J as <- <-.
        pose proof (nth_error_In _ _ (combine_nth_both _ _ _ _ _ ET EY)) as IY.
        pose proof (nth_error_In _ _ (combine_nth_both _ _ _ _ _ ET EX)) as IX.
        rewrite (pl_node _ t' (f t') y (DD ys LY) IY (Hf t')), (pl_node _ t' (g t') x (DD xs LX) IX (Hg t')). lra. }
    intros d. destruct (W1 d) as (y & Y & PY). destruct (W2 d) as (x & X & PX). destruct (W3 d) as (z & Z & PZ).
    exists y, x. split; [exact Y|]. split; [exact X|]. rewrite Z. f_equal.
    specialize (PY (tau o) TT). specialize (PX (tau o) TT). specialize (PZ (tau o) TT).
    rewrite (pl_fun _ _ _ _ (DD ys LY) PY (Hf _)), (pl_fun _ _ _ _ (DD xs LX) PX (Hg _)), (pl_fun _ _ _ _ (DD zs LZ) PZ (Hj _)).
    rewrite SUM. lra.
  Qed.
End Fit.
Print Assumptions C50_cumulative.
Print Assumptions C50_each.
Print Assumptions C50_same_direction.
Print Assumptions C50_rebuild.
Print Assumptions C50_returns.
Print Assumptions C50_probability_refuted.

(** * Instances *)
#[local] Instance no_counts : DayCounts R R := [].
Definition fwd_source (cs : list (rcurve R R (fperiod R))) : fsource R R (fperiod R) :=
  match nth_error cs 1 with Some f => FwRate f | None => FwNone end.

(** a single floating coupon *)
Lemma one_coupon (o e n : R) : exists fl, forall fwd,
  ratelist_new (DS := FloatDates (T:=R)) [e] (Many [n]) (Some o) DcDefault None None 0 fwd
  = Ok (mkCF [e] fl (Some o) (LForward fwd) true).
Proof.
  eexists. intros fwd. unfold ratelist_new. cbn [start_dates bind spread_arg]. unfold rate_payoffs.
  cbn [removelast combine mapM offset bind map]. rewrite cf_new_ok by reflexivity. reflexivity.
Qed.

Lemma spread_call (c s : rcurve R R (fperiod R)) x y z : rc_spread c = None -> rc_call c x = Ok y -> rc_call s x = Ok z ->
  rc_call (mkR (rc_cls c) (rc_dc c) (rc_tenor0 c) (Some (inr s))) x = Ok (y + z).
Proof.
  intros NS Y Z. destruct c as [k0 d0 t0 sp0]. cbn [rc_spread] in NS. subst sp0. rewrite rc_call_plain in Y.
  cbn [rc_call rc_cls rc_dc rc_tenor0]. rewrite Y. cbn [bind]. rewrite Z. reflexivity.
Qed.

Section Instances.
  Context (disc fc : rcurve R R (fperiod R)) (n1 n2 : R).
  Context (fl1 fl2 : list (R * flow R R (fperiod R))).
  Context (H1 : forall fwd, ratelist_new (DS := FloatDates (T:=R)) [1] (Many [n1]) (Some 0) DcDefault None None 0 fwd
                            = Ok (mkCF [1] fl1 (Some 0) (LForward fwd) true)).
  Context (H2 : forall fwd, ratelist_new (DS := FloatDates (T:=R)) [2] (Many [n2]) (Some (3/2)) DcDefault None None 0 fwd
                            = Ok (mkCF [2] fl2 (Some (3/2)) (LForward fwd) true)).
  Context (HD : rc_new (DS := FloatDates (T:=R)) CZeroRate [0] [0] None None DcDefault None = Ok disc).

  Definition two_lists (cs : list (rcurve R R (fperiod R))) : heap R R (fperiod R) :=
    mkH cs [] [mkHL (mkCF [1] fl1 (Some 0) (LForward FwNone) true) (HForward fwd_source);
               mkHL (mkCF [2] fl2 (Some (3/2)) (LForward FwNone) true) (HForward fwd_source)].

  Lemma coupon_worth o e n fl g u i fuel : 
    (forall fwd, ratelist_new (DS := FloatDates (T:=R)) [e] (Many [n]) (Some o) DcDefault None None 0 fwd
                            = Ok (mkCF [e] fl (Some o) (LForward fwd) true)) ->
    nth_error (h_lists (two_lists [disc; g])) i = Some (mkHL (mkCF [e] fl (Some o) (LForward FwNone) true) (HForward fwd_source)) ->
    rc_cls g = CCashRate -> rc_tenor0 g = Some (FP 1) -> rc_call g o = Ok u -> 0 <= e ->
    returns (get_present_value (S (S fuel)) None (PrList i) 0 (Some 0)) (two_lists [disc; g]) (u * (e - o) * n).
  Proof.
    intros H HI KG TG V POS.
    set (l := mkCF [e] fl (Some o) (LForward (FwRate g)) true).
    assert (SE : seen (two_lists [disc; g]) 0 i l).
    { eexists. eexists. split; [exact HI|]. split; [|cbn; reflexivity]. reflexivity. }
    unfold returns, get_present_value, bindS, get_curve. cbn [two_lists h_curves nth_res nth_error].
    apply (pv_list_ok _ _ _ _ _ _ _ _ SE).
    destruct (flat_zero (DC := no_counts) (L:=float_laws) 0 0 None) as (disc' & ED & _ & _ & DF).
    rewrite HD in ED. injection ED as <-.
    exists [u * (e - o) * n]. split; [|cbn; lra].
    assert (DU : due 0 l = [e]).
    { unfold due, l. cbn [cf_domain filter d_leb FloatDates nleb Rnum]. unfold Rleb. destruct (Rle_dec 0 e); [reflexivity|contradiction]. }
    rewrite DU. constructor; [|constructor]. exists 1, (u * (e - o) * n). split; [|split; [|lra]].
    - rewrite DF. f_equal. transitivity (exp 0); [f_equal; ring|apply exp_0].
    - replace (u * (e - o) * n) with ((0 + u) * (e - o) * n) by ring.
      apply (C38_flow FloatDates no_counts (fun d => d) float_laws (S (S fuel)) None [e] [n] o DcDefault None None 0 (FwRate g) l (H (FwRate g))
        ltac:(repeat constructor; intros []) 0%nat o e n o e o u (e - o)); try reflexivity.
      + cbn [forward_at]. rewrite KG. cbn [is_interest].
        apply (C24_cash_rate_curve FloatDates (fun d => d) no_counts float_laws g o (o + 1) u (S fuel) KG).
        * unfold rc_tenor. rewrite TG. reflexivity.
        * exact V.
      + apply (eqb_refl (L:=float_laws)).
  Qed.
  Context (HF : rc_new (DS := FloatDates (T:=R)) CCashRate [1; 2] [0; 0] None None DcDefault (Some (FP 1)) = Ok fc).

  Definition tau_f (a b : R) : R := b - a.
  Lemma add_f : additive (dc_apply (DS := FloatDates (T:=R)) (DC := no_counts) (dc_kwarg DcDefault)) tau_f.
  Proof. apply float_additive. Qed.
  Lemma ne_f : [1; 2] <> []. Proof. discriminate. Qed.
  Lemma nd_f : NoDup (map (fun d : R => d) [1; 2]).
  Proof. cbn. constructor; [intros [H|[]]; lra|]. constructor; auto. constructor. Qed.

  Lemma two_points (x1 x2 : R) tenor : exists c, rc_new (DS := FloatDates (T:=R)) (P := fperiod R) CCashRate [1; 2] [x1; x2] None None DcDefault tenor = Ok c /\
    built (DS := FloatDates (T:=R)) DcDefault tau_f CCashRate [1; 2] None 1 tenor c /\
    rc_call c 0 = Ok x1 /\ rc_call c 1 = Ok x1 /\ rc_call c 2 = Ok x2 /\ rc_call c (3 / 2) = Ok ((x1 + x2) / 2).
  Proof.
    destruct (rc_new_linear (L:=float_laws) DcDefault tau_f add_f CCashRate [1; 2] [x1; x2] None 1 tenor eq_refl eq_refl nd_f ne_f eq_refl)
      as (c & E & B & V & W).
    exists c. split; [exact E|]. split; [exact B|].
    assert (DD : distinct (combine [1; 2] [x1; x2])) by (unfold distinct; cbn; exact nd_f).
    assert (TT : forall a b, tau_f a b = (fun d : R => d) b - (fun d : R => d) a) by reflexivity.
    split; [|split; [apply V; cbn; auto|split; [apply V; cbn; auto|]]].
    - destruct (W 0) as (y & Y & PL). rewrite Y. f_equal. specialize (PL _ TT). cbn [map] in PL.
      apply (pl_fun _ _ _ _ DD PL). right. left. exists 1. split; [cbn; auto|]. split; [|lra].
      intros b yb [I|[I|[]]]; injection I as <- <-; lra.
    - destruct (W (3/2)) as (y & Y & PL). rewrite Y. f_equal. specialize (PL _ TT). cbn [map] in PL.
      apply (pl_fun _ _ _ _ DD PL). left. exists 1, x1, 2, x2. split; [|split; [lra|unfold chord; field]].
      split; [cbn; auto|]. split; [cbn; auto|]. split; [lra|].
      intros b yb [I|[I|[]]]; injection I as <- <-; lra.
  Qed.

  Lemma fc_form : rc_cls fc = CCashRate /\ dc_origin0 (rc_dc fc) = None /\ dc_count (rc_dc fc) = DcDefault /\
    rc_domain fc = [1; 2] /\ rc_spread fc = None /\ rc_tenor0 fc = Some (FP 1) /\
    rc_call fc 0 = Ok 0 /\ rc_call fc 1 = Ok 0 /\ rc_call fc 2 = Ok 0 /\ rc_call fc (3 / 2) = Ok 0.
  Proof.
    destruct (two_points 0 0 (Some (FP 1))) as (c & E & B & V0 & V1 & V2 & V3). rewrite HF in E. injection E as <-.
    destruct B as (B1 & B2 & _ & _ & B5 & B6 & B7 & B8 & _). replace ((0 + 0) / 2) with 0 in V3 by field. auto 12.
  Qed.

  (** the values as function of the spreads *)
  Definition value1 (xs : list R) : R := match xs with [x1; x2] => n1 * x1 | _ => 0 end.
  Definition value2 (xs : list R) : R := match xs with [x1; x2] => n2 / 4 * (x1 + x2) | _ => 0 end.
  Definition two_quotes := [(1, value1); (2, value2)].
  Notation h := (two_lists [disc; fc]).

  Lemma two_priced fuel : Forall2 (fun p q => last_payment h p (fst q) /\ priced (S (S fuel)) None h 0 (Some 0) 1 fc [1; 2] p (snd q))
    [PrList 0; PrList 1] two_quotes.
  Proof.
    destruct fc_form as (K & O & C & _ & NS & TN & V0 & V1 & V2 & V3).
    assert (SP : forall xs s, length xs = 2%nat -> on_grid fc [1; 2] xs = Ok s -> exists x1 x2, xs = [x1; x2] /\
      let g := mkR (rc_cls fc) (rc_dc fc) (rc_tenor0 fc) (Some (inr s)) in
      rc_call g 0 = Ok x1 /\ rc_call g (3 / 2) = Ok ((x1 + x2) / 2)).
    { intros xs s LX E. destruct xs as [|x1 [|x2 [|]]]; try discriminate LX. exists x1, x2. split; [reflexivity|].
      unfold on_grid in E. rewrite K, O, C in E. cbn [dc_kwarg] in E.
      destruct (two_points x1 x2 None) as (s1 & E1 & _ & W0 & _ & _ & W3). rewrite E in E1. injection E1 as <-.
      cbn zeta. split; [rewrite (spread_call fc s _ _ _ NS V0 W0)|rewrite (spread_call fc s _ _ _ NS V3 W3)]; f_equal; lra. }
    constructor; [|constructor; [|constructor]]; cbn [fst snd]; split.
    - exists [1]. split; reflexivity.
    - intros xs s LX E. destruct (SP xs s LX E) as (x1 & x2 & -> & W0 & W3).
      unfold with_spread. cbn [h_curves two_lists set_nth h_models h_lists].
      cbn [value1]. replace (n1 * x1) with (x1 * (1 - 0) * n1) by ring.
      apply (coupon_worth 0 1 n1 fl1 _ x1 0); auto; try reflexivity. lra.
    - exists [2]. split; reflexivity.
    - intros xs s LX E. destruct (SP xs s LX E) as (x1 & x2 & -> & W0 & W3).
      unfold with_spread. cbn [h_curves two_lists set_nth h_models h_lists].
      cbn [value2]. replace (n2 / 4 * (x1 + x2)) with ((x1 + x2) / 2 * (2 - 3 / 2) * n2) by field.
      apply (coupon_worth (3 / 2) 2 n2 fl2 _ ((x1 + x2) / 2) 1); auto; try reflexivity. lra.
  Qed.

  Lemma two_local : Forall (local (fun d : R => d) [1; 2]) two_quotes.
  Proof.
    constructor; [|constructor; [|constructor]]; intros i d xs ys I T LX LY S0;
      destruct xs as [|x1 [|x2 [|]]]; try discriminate LX; destruct ys as [|y1 [|y2 [|]]]; try discriminate LY; cbn [fst snd] in *.
    - pose proof (S0 0%nat ltac:(lia)) as Q. cbn in Q. injection Q as ->. reflexivity.
    - destruct i as [|i]; [injection I as <-; lra|].
      pose proof (S0 0%nat ltac:(lia)) as Q. pose proof (S0 1%nat ltac:(lia)) as Q'. cbn in Q, Q'. injection Q as ->. injection Q' as ->. reflexivity.
  Qed.

  Lemma two_each : one_each (fun d : R => d) [1; 2] two_quotes.
  Proof.
    split; [reflexivity|]. intros i j d q I J.
    destruct i as [|[|[|]]]; try discriminate I; destruct j as [|[|[|]]]; try discriminate J; injection I as <-; injection J as <-;
      cbn [fst]; split; intro; try lra; lia.
  Qed.

  Lemma two_errors t1 t2 x1 x2 : total_error (DS := FloatDates (T:=R)) two_quotes [t1; t2] [x1; x2] 1 = n1 * x1 - t1 /\
    total_error (DS := FloatDates (T:=R)) two_quotes [t1; t2] [x1; x2] 2 = n1 * x1 - t1 + (n2 / 4 * (x1 + x2) - t2).
  Proof.
    unfold total_error, two_quotes. cbn [combine filter fst snd d_leb FloatDates nleb Rnum]. unfold Rleb.
    destruct (Rle_dec 1 1); [|lra]. destruct (Rle_dec 2 1); [lra|]. destruct (Rle_dec 1 2); [|lra]. destruct (Rle_dec 2 2); [|lra].
    cbn. split; lra.
  Qed.

  Lemma two_cast fuel : exists s0, rc_cast_on (S fuel) None CCashRate [1; 2] fc None None DcDefault None = Ok s0.
  Proof.
    destruct fc_form as (K & O & C & DM & NS & TN & V0 & V1 & V2 & V3).
    assert (G : forall x y, rc_call fc x = Ok y -> storage_value (S fuel) None CCashRate fc x = Ok y).
    { intros x y V. cbn [storage_value].
      apply (C24_cash_rate_curve FloatDates (fun d => d) no_counts float_laws fc x (x + 1) y fuel K); auto.
      unfold rc_tenor. rewrite TN. reflexivity. }
    unfold rc_cast_on. cbn [mapM]. rewrite (G 1 0 V1), (G 2 0 V2), DM. cbn [bind mapM]. rewrite V1, V2. cbn [bind].
    rewrite O, C. cbn [origin_or dc_or dc_kwarg].
    destruct (two_points 0 0 None) as (c & E & _). unfold rc_new, prepare_data in E. cbn [bind] in E. exists c. exact E.
  Qed.

  Lemma two_data : mapM (rc_call fc) [1; 2] = Ok [0; 0].
  Proof. destruct fc_form as (_ & _ & _ & _ & _ & _ & _ & V1 & V2 & _). cbn [mapM]. rewrite V1, V2. reflexivity. Qed.
End Instances.

(** two floating coupons, each paying more the higher the rate, are fitted by a cash rate
    curve: the search returns, and both have their target value to the precision *)
Example C50_example : exists (h : heap R R (fperiod R)) (c : rcurve R R (fperiod R)) data,
  nth_error (h_curves h) 1 = Some c /\ rc_cls c = CCashRate /\ rc_domain c = [1; 2] /\
  get_curve_fit 9 None [PrList 0; PrList 1] 0 (Some 0) (Some 1%nat) None (Many [1 / 10; 2 / 10]) (1 / 100) (-1) 1 h = (Ok data, h) /\
  exists xs s w1 w2, on_grid c [1; 2] xs = Ok s /\ data = xs /\
    returns (get_present_value 9 None (PrList 0) 0 (Some 0)) (with_spread h 1 c s) w1 /\ Rabs (w1 - 1 / 10) < 1 / 100 /\
    returns (get_present_value 9 None (PrList 1) 0 (Some 0)) (with_spread h 1 c s) w2 /\ Rabs (w2 - 2 / 10) < 1 / 100.
Proof.
  destruct (one_coupon 0 1 1) as (fl1 & H1). destruct (one_coupon (3 / 2) 2 4) as (fl2 & H2).
  destruct (flat_zero (DC := no_counts) (L:=float_laws) 0 0 None) as (disc & HD & _).
  destruct (two_points 0 0 (Some (FP 1))) as (fc & HF & _).
  destruct (fc_form fc HF) as (K & O & C & DM & NS & TN & V0 & V1 & V2 & V3).
  pose proof (two_data fc HF) as ZS. destruct (two_cast fc HF 8) as (s0 & CA).
  pose proof (two_priced disc fc 1 4 fl1 fl2 H1 H2 HD HF 7) as PR.
  set (h := two_lists fl1 fl2 [disc; fc]) in *.
  assert (A : additive (dc_apply (DS := FloatDates (T:=R)) (DC := no_counts) (dc_kwarg (dc_count (rc_dc fc)))) tau_f) by (rewrite C; exact add_f).
  assert (PC : plain_cls (rc_cls fc)) by (rewrite K; exact I).
  assert (GR : match @None (list R) with Some g => g | None => rc_domain fc end = [1; 2]) by exact DM.
  assert (G : exists data, get_curve_fit 9 None [PrList 0; PrList 1] 0 (Some 0) (Some 1%nat) None (Many [1 / 10; 2 / 10]) (1 / 100) (-1) 1 h = (Ok data, h)).
  { apply (C50_returns FloatDates (fun d => d) no_counts float_laws tau_f 8 None h fc 1 0 (Some 0) (Some 1%nat) None [1; 2] (Many [1 / 10; 2 / 10])
      [PrList 0; PrList 1] (two_quotes 1 4) (1 / 100) (-1) 1 s0 [0; 0] 1); auto using ne_f, nd_f, two_local.
    - rewrite K. exact CA.
    - cbv zeta. cbn [spread_arg]. intros i d xs J LX FI. destruct xs as [|x1 [|x2 [|]]]; try discriminate LX.
      destruct i as [|[|[|]]]; try discriminate J; injection J as <-; cbn [set_nth].
      + split.
        * left. rewrite !(proj1 (two_errors 1 4 _ _ _ _)). lra.
        * intros x y _ _. rewrite !(proj1 (two_errors 1 4 _ _ _ _)). apply Req_le. replace (1 * Rabs (x - y)) with (Rabs (x - y)) by ring. f_equal. lra.
      + specialize (FI 0%nat 1 ltac:(lia) eq_refl). rewrite (proj1 (two_errors 1 4 _ _ _ _)) in FI. apply Rabs_def2 in FI.
        split.
        * left. rewrite !(proj2 (two_errors 1 4 _ _ _ _)). lra.
        * intros x y _ _. rewrite !(proj2 (two_errors 1 4 _ _ _ _)). apply Req_le. replace (1 * Rabs (x - y)) with (Rabs (x - y)) by ring. f_equal. lra.
    - rewrite Rabs_pos_eq; lra.
    - rewrite Rabs_pos_eq; lra. }
  destruct G as (data & G). exists h, fc, data. split; [reflexivity|]. split; [exact K|]. split; [exact DM|]. split; [exact G|].
  destruct (C50_same_direction FloatDates (fun d => d) no_counts float_laws tau_f 9 None h fc 1 0 (Some 0) (Some 1%nat) None [1; 2] (Many [1 / 10; 2 / 10])
      [PrList 0; PrList 1] (two_quotes 1 4) (1 / 100) (-1) 1 data h) as (xs & s & LX & ES & LD & DT & EA); auto using ne_f, nd_f, two_local, two_each; try lra.
  { left. intros j q xs x y J LX XY. destruct xs as [|x1 [|x2 [|]]]; try discriminate LX.
    destruct j as [|[|[|]]]; try discriminate J; injection J as <-; cbn [set_nth snd value1 value2]; lra. }
  destruct (EA 0%nat _ _ eq_refl eq_refl) as (w1 & R1 & B1). destruct (EA 1%nat _ _ eq_refl eq_refl) as (w2 & R2 & B2).
  exists xs, s, w1, w2. split; [exact ES|]. split; [|auto].
  destruct xs as [|x1 [|x2 [|]]]; try discriminate LX.
  pose proof (DT 0%nat _ _ _ eq_refl eq_refl V1) as D1. pose proof (DT 1%nat _ _ _ eq_refl eq_refl V2) as D2.
  destruct data as [|y1 [|y2 [|]]]; try discriminate LD. cbn in D1, D2. injection D1 as ->. injection D2 as ->. f_equal; [lra|f_equal; lra].
Qed.
Print Assumptions C50_example.

(** if one product gains and the other loses with a rising rate, the second one may miss its
    target by more than the precision, whatever that is *)
Theorem C50_precision_refuted : forall r, 0 < r ->
  exists (h : heap R R (fperiod R)) (c : rcurve R R (fperiod R)) data s w,
  nth_error (h_curves h) 1 = Some c /\ rc_cls c = CCashRate /\
  get_curve_fit 9 None [PrList 0; PrList 1] 0 (Some 0) (Some 1%nat) None (Many [- (9 / 10 * r); 18 / 10 * r]) (3 * r) (- r) r h = (Ok data, h) /\
  data = [r; r] /\ on_grid c [1; 2] data = Ok s /\
  returns (get_present_value 9 None (PrList 1) 0 (Some 0)) (with_spread h 1 c s) w /\
  ~ Rabs (w - 18 / 10 * r) < 3 * r.
Proof.
  intros r POS.
  destruct (one_coupon 0 1 1) as (fl1 & H1). destruct (one_coupon (3 / 2) 2 (-4)) as (fl2 & H2).
  destruct (flat_zero (DC := no_counts) (L:=float_laws) 0 0 None) as (disc & HD & _).
  destruct (two_points 0 0 (Some (FP 1))) as (fc & HF & _).
  destruct (fc_form fc HF) as (K & O & C & DM & NS & TN & V0 & V1 & V2 & V3).
  pose proof (two_data fc HF) as ZS. destruct (two_cast fc HF 8) as (s0 & CA).
  pose proof (two_priced disc fc 1 (-4) fl1 fl2 H1 H2 HD HF 7) as PR.
  set (h := two_lists fl1 fl2 [disc; fc]) in *.
  assert (A : additive (dc_apply (DS := FloatDates (T:=R)) (DC := no_counts) (dc_kwarg (dc_count (rc_dc fc)))) tau_f) by (rewrite C; exact add_f).
  assert (PC : plain_cls (rc_cls fc)) by (rewrite K; exact I).
  set (ts := [- (9 / 10 * r); 18 / 10 * r]).
  destruct (fit_forward (L:=float_laws) fc [1; 2] tau_f PC ne_f nd_f A h 1 eq_refl 9 None 0 (Some 0) [PrList 0; PrList 1] ts (- r) r (3 * r)
    (fun xs => xs = [r; r]) None (Many ts) (Some 1%nat) s0 [0; 0] NS eq_refl eq_refl DM) as (data & xs & s & G & -> & ES & MD).
  - rewrite K. exact CA.
  - exact ZS.
  - intros xs h' AT. pose proof (proj1 AT) as LX. destruct xs as [|x1 [|x2 [|]]]; try discriminate LX.
    destruct (fit_stage_now (L:=float_laws) fc [1; 2] tau_f PC ne_f nd_f A h 1 eq_refl 9 None 0 (Some 0) [PrList 0; PrList 1] (two_quotes 1 (-4)) ts PR (- r) r (3 * r) 0 1 [x1; x2] h' 8)
      as (r1 & h1 & R1 & AT1); auto.
    + left; unfold ts; cbn [set_nth]; rewrite !(proj1 (two_errors _ _ _ _ _ _)). lra.
    + rewrite Rabs_pos_eq; lra.
    + unfold ts; cbn [set_nth]; rewrite !(proj1 (two_errors _ _ _ _ _ _)). rewrite Rabs_pos_eq; lra.
    + cbn [set_nth] in AT1.
      destruct (fit_stage_now (L:=float_laws) fc [1; 2] tau_f PC ne_f nd_f A h 1 eq_refl 9 None 0 (Some 0) [PrList 0; PrList 1] (two_quotes 1 (-4)) ts PR (- r) r (3 * r) 1 2 [r; x2] h1 8)
        as (r2 & h2 & R2 & AT2); try exact AT1; auto.
      * right; unfold ts; cbn [set_nth]; rewrite !(proj2 (two_errors _ _ _ _ _ _)). lra.
      * rewrite Rabs_pos_eq; lra.
      * unfold ts; cbn [set_nth]; rewrite !(proj2 (two_errors _ _ _ _ _ _)). rewrite Rabs_left; lra.
      * exists [r1; r2], [r; r], h2. split; [|split; [exact AT2|reflexivity]].
        cbn [mapS]. rewrite (bind_run _ _ _ _ _ R1). cbv beta. apply bind_run with (x := [r2]) (s1 := h2).
        rewrite (bind_run _ _ _ _ _ R2). reflexivity.
  - assert (DD : data = [r; r]).
    { pose proof (on_grid_values (L:=float_laws) fc [1; 2] tau_f PC ne_f nd_f A [r; r] s eq_refl ES) as VS.
      cbn [mapM] in VS, MD. destruct (rc_call s 1) as [u1|] eqn:U1; [|discriminate]. destruct (rc_call s 2) as [u2|] eqn:U2; [|discriminate].
      cbn [bind] in VS. injection VS as -> ->.
      rewrite (spread_call fc s 1 _ _ NS V1 U1), (spread_call fc s 2 _ _ NS V2 U2) in MD. cbn [bind] in MD. injection MD as <-.
      f_equal; [lra|f_equal; lra]. }
    exists h, fc, data, s, (value2 (-4) [r; r]). split; [reflexivity|]. split; [exact K|]. split; [exact G|]. split; [exact DD|].
    split; [rewrite DD; exact ES|]. split.
    + inversion PR as [|? ? ? ? _ PR']. inversion PR' as [|? ? ? ? [_ Q] _]. exact (Q [r; r] s eq_refl ES).
    + cbn [value2]. rewrite Rabs_left; lra.
Qed.
Print Assumptions C50_precision_refuted.

(** a curve of discount factors with its own grid *)
Theorem C50_discount_factor_refuted : exists c s0 : rcurve R R (fperiod R),
  rc_new (DS := FloatDates (T:=R)) CDiscountFactor [1; 2] [9 / 10; 8 / 10] None (Some 0) DcDefault None = Ok c /\
  forall ps v targets p a b models lists, let h := mkH [c] models lists in
  get_curve_fit 2 None ps 0 v None None targets p a b h = (Err ValueError, with_spread h 0 c s0).
Proof.
  destruct (rc_new_rate (L:=float_laws) DcDefault tau_f add_f CDiscountFactor [1; 2] [9 / 10; 8 / 10] [9 / 10; 8 / 10] (Some 0) 0 None)
    as (c & E & B & V & _); auto using nd_f.
  { now left. } { exists 1. split; [now left|]. lra. } { intros y [<-|[<-|[]]]; lra. }
  destruct (rc_new_rate (L:=float_laws) DcDefault tau_f add_f CDiscountFactor [1; 2] [9 / 10; 8 / 10] [9 / 10; 8 / 10] (Some 0) 0 None)
    as (s & Es & Bs & Vs & _); auto using nd_f.
  { now left. } { exists 1. split; [now left|]. lra. } { intros y [<-|[<-|[]]]; lra. }
  exists c, s. split; [exact E|]. intros ps v targets p a b models lists h.
  destruct B as (B1 & B2 & B3 & _ & B5 & B6 & B7 & B8 & _).
  apply (C50_probability_refuted FloatDates (fun d => d) no_counts float_laws tau_f 2 None h c 0 0 v None None [1; 2] targets ps p a b s [9 / 10; 8 / 10]); auto using ne_f, nd_f.
  - rewrite B1. intros [].
  - rewrite B6. exact add_f.
  - assert (G : forall x y, rc_call c x = Ok y -> storage_value 2 None CDiscountFactor c x = Ok y).
    { intros x y Y. cbn [storage_value]. unfold get_discount_factor1, from_origin, get_discount_factor, interest_only. rewrite B3, B1.
      cbn [is_interest factor]. rewrite B1. unfold at_origin. rewrite B3. cbn [d_is FloatDates].
      change (d_is 0 0) with (neqb (T:=R) 0 0). rn. unfold Reqb. destruct (Req_EM_T 0 0); [exact Y|congruence]. }
    unfold rc_cast_on. rewrite B1. cbn [mapM]. rewrite (G 1 (9 / 10)), (G 2 (8 / 10)) by (apply V; cbn; auto). rewrite B2.
    cbn [bind mapM]. rewrite (V 1 (9 / 10)), (V 2 (8 / 10)) by (cbn; auto). cbn [bind]. rewrite B5, B6.
    cbn [origin_or dc_or dc_kwarg]. unfold rc_new, prepare_data in Es. cbn [bind] in Es. exact Es.
  - cbn [mapM]. rewrite (Vs 1 (9 / 10)), (Vs 2 (8 / 10)) by (cbn; auto). reflexivity.
Qed.
Print Assumptions C50_discount_factor_refuted.
