(** Property C127, that bootstrapping from bonds succeeds. *)
From Coq Require Import Reals Lra Lia List Bool ZArith Sorted.
From Verif Require Import Num Py Spec MDates MInterpolation MCurve MRateCurve MOption MCashflow MBracket MPricer
  SDates SInterpolation SCurve SRateCurve SCashflow SPricer SBracket SYield SFit SBootstrap LBase LSort LDates LInterpolation LCurve LCurve2
  LDateCurve LDateCurve2 LCashflow LRateCurve LRateCurve3 LCast LPricer LPricer2 LPricer3 LBracket LYield LFair LFit LMore LInterpolation2
  PBracket PCashflow PRateCurve2 PPricer PFit LBootstrap PBootstrap PFitFail.
Import ListNotations.
Open Scope R_scope.

(** values on discount factors which differ by e at most *)
Lemma value_close {D} (grid : list D) (df df' e : D -> R) : forall am,
  (forall i d, nth_error grid i = Some d -> (i < length am)%nat -> Rabs (df d - df' d) <= e d) ->
  Rabs (value_on grid df am - value_on grid df' am) <= value_on grid e (map Rabs am).
Proof.
  unfold value_on. induction grid as [|g l IH]; intros [|x am] H; cbn [map combine Rsum fst snd]; try (rewrite Rminus_0_r, Rabs_R0; lra).
  specialize (IH am (fun i d Hi Li => H (S i) d Hi ltac:(cbn; lia))). pose proof (H 0%nat g eq_refl ltac:(cbn; lia)) as H0.
  match goal with |- Rabs ?u <= ?w => replace u with ((df g - df' g) * x +
    (Rsum (map (fun da => df (fst da) * snd da) (combine l am)) - Rsum (map (fun da => df' (fst da) * snd da) (combine l am)))) by ring end.
  eapply Rle_trans; [apply Rabs_triang|]. rewrite Rabs_mult. apply Rplus_le_compat; [|exact IH].
  apply Rmult_le_compat_r; [apply Rabs_pos|exact H0].
Qed.

Lemma abs_le_inv x y : Rabs x <= y -> - y <= x <= y.
Proof. unfold Rabs. destruct (Rcase_abs x); lra. Qed.

(** the slope of an exponential *)
Lemma exp_slope m t y a u w : 0 < m -> 0 < t -> a <= u -> u <= w ->
  0 <= m * exp (- ((y + u) * t)) - m * exp (- ((y + w) * t)) <= m * t * exp (- ((y + a) * t)) * (w - u).
Proof.
  intros M TP U W. set (eu := - ((y + u) * t)).
  replace (- ((y + w) * t)) with (eu + - ((w - u) * t)) by (unfold eu; ring). rewrite exp_plus.
  pose proof (exp_pos eu) as PE.
  assert (Q1 : exp (- ((w - u) * t)) <= 1).
  { rewrite <- exp_0. destruct (Req_dec (- ((w - u) * t)) 0) as [->|Q]; [lra|]. left. apply exp_increasing. nra. }
  assert (Q2 : 1 - (w - u) * t <= exp (- ((w - u) * t))) by (pose proof (exp_ineq1_le (- ((w - u) * t))); lra).
  assert (Q3 : eu <= - ((y + a) * t)) by (unfold eu; nra).
  assert (Q4 : exp eu <= exp (- ((y + a) * t))).
  { destruct Q3 as [Q3|Q3]; [left; now apply exp_increasing|rewrite Q3; lra]. }
  assert (Q5 : 0 <= exp eu * (1 - exp (- ((w - u) * t))) <= exp (- ((y + a) * t)) * ((w - u) * t)).
  { split; [apply Rmult_le_pos; lra|]. apply (Rle_trans _ (exp eu * ((w - u) * t))); [apply Rmult_le_compat_l; lra|].
    apply Rmult_le_compat_r; [nra|exact Q4]. }
  split.
  - replace (m * exp eu - m * (exp eu * exp (- ((w - u) * t)))) with (m * (exp eu * (1 - exp (- ((w - u) * t))))) by ring.
    apply Rmult_le_pos; lra.
  - replace (m * exp eu - m * (exp eu * exp (- ((w - u) * t)))) with (m * (exp eu * (1 - exp (- ((w - u) * t))))) by ring.
    replace (m * t * exp (- ((y + a) * t)) * (w - u)) with (m * (exp (- ((y + a) * t)) * ((w - u) * t))) by ring.
    apply Rmult_le_compat_l; lra.
Qed.

Section Return.
  Context {D P : Type} (DS : DateSys R D P) (tm : D -> R) (DC : DayCounts R D) (L : DateLaws DS tm).
  Implicit Types (c : rcurve R D P) (h : heap R D P).

  (** the common part: gl and gh bound the factor by which the rate at the first date moves
      the discount factors of the later ones *)
  Lemma products_return count tau grid ys orig o v tenor c ams h ps k flr v0 fitting grid0 targets precision a b (df e : D -> R) gl gh :
    additive (dc_apply count) tau -> monotone tau -> dc_kwarg count = count ->
    grid <> [] -> increasing (map tm grid) -> dom_origin orig grid = Some o -> (forall d, In d grid -> tm v < tm d) ->
    (forall j d, nth_error grid (S j) = Some d -> tm o < tm d) -> length ys = length grid ->
    rc_new CZeroRate grid ys None orig count tenor = Ok c -> nth_error (h_curves h) k = Some c ->
    stairs h v grid ps ams -> (forall j before m, nth_error ams j = Some (before ++ [m]) -> m <> 0) -> a <= b -> 0 < precision ->
    match v0 with Some w => w | None => o end = v ->
    match fitting with Some i => i | None => k end = k -> match grid0 with Some g => g | None => grid end = grid ->
    length (spread_arg targets (length ps)) = length ps ->
    (forall xs d0, nth_error grid 0 = Some d0 -> Rabs (dfx tau grid ys o v xs d0 - df d0) <= e d0 -> gl <= exp (zv ys xs * tau o v) <= gh) ->
    (forall j d before m t, nth_error grid j = Some d -> nth_error ams j = Some (before ++ [m]) ->
       nth_error (spread_arg targets (length ps)) j = Some t ->
       t = value_on grid df (before ++ [m]) /\ 2 * precision + value_on grid e (map Rabs before) <= Rabs m * e d) ->
    (forall d m y, nth_error grid 0 = Some d -> nth_error ams 0 = Some [m] -> nth_error ys 0 = Some y ->
       Rabs m * exp (- ((y + b) * tau v d)) + precision <= Rabs m * df d /\
       Rabs m * df d + precision <= Rabs m * exp (- ((y + a) * tau v d))) ->
    (forall j d before m y, nth_error grid (S j) = Some d -> nth_error ams (S j) = Some (before ++ [m]) -> nth_error ys (S j) = Some y ->
       Rabs m * (gh * exp (- ((y + b) * tau o d))) + (precision + value_on grid e (map Rabs before)) <= Rabs m * df d /\
       Rabs m * df d + (precision + value_on grid e (map Rabs before)) <= Rabs m * (gl * exp (- ((y + a) * tau o d)))) ->
    exists steps, forall fuel, (steps <= fuel)%nat -> exists data,
      get_curve_fit fuel flr ps k v0 fitting grid0 targets precision a b h = (Ok data, h).
  Proof.
    rename precision into prec.
    intros A MO KW NE INC OG AF AO LY HN HK LA NZ AB PP HV EF EG LT HG HT HB0 HB1.
    pose proof (increasing_distinct _ INC) as ND.
    assert (AV : forall d, In d grid -> tm v <= tm d) by (intros d I; left; auto).
    destruct (curve_facts (L:=L) count tau A MO grid ys orig o v tenor NE INC OG AV LY c HN) as (C1 & C2 & C3 & C4 & C5 & C6 & C7 & C8).
    destruct (curve_built (L:=L) count tau A MO grid ys orig o v tenor NE INC OG AV LY c HN) as (_ & VC & _ & WC).
    assert (PC : plain_cls (rc_cls c)) by (rewrite C1; exact I).
    assert (A' : additive (dc_apply (dc_kwarg (dc_count (rc_dc c)))) tau) by (rewrite C5, KW; exact A).
    assert (EG' : match grid0 with Some g => g | None => rc_domain c end = grid) by (now rewrite C2).
    pose proof (ladder_local (L:=L) tau grid ys o v INC LY h ps ams LA) as LOC.
    pose proof (ladder_one_each tau grid ys o v INC LY h ps ams LA) as ONE.
    assert (LP : length ps = length grid) by apply LA. assert (LM : length ams = length grid) by apply LA.
    assert (SH : forall j d, nth_error grid j = Some d -> exists before m, nth_error ams j = Some (before ++ [m]) /\ length before = j /\ 0 < Rabs m).
    { intros j d Hd. destruct (nth_lt_Some ams j) as (am & Ha); [rewrite LM; now apply nth_Some_lt in Hd|].
      destruct (ladder_shape grid ys v LY h ps ams LA j d am Hd Ha) as (bf & m & -> & Q). exists bf, m. split; [exact Ha|]. split; [exact Q|]. apply Rabs_pos_lt. eapply NZ; eauto. }
    set (qs := quotes tau grid ys o v ams) in *. set (ts := spread_arg targets (length ps)) in *.
    assert (TS : forall j d, nth_error grid j = Some d -> exists t, nth_error ts j = Some t).
    { intros j d Hd. apply nth_lt_Some. rewrite LT, LP. now apply nth_Some_lt in Hd. }
    set (G := Rmax 1 gh).
    set (len := fun (j : nat) d => if Nat.eqb j 0 then tau v d else tau o d).
    (** a Lipschitz constant *)
    set (slope := fun f (dmy : D * list R * R) => Rabs (last (snd (fst dmy)) 0) * f (fst (fst dmy)) * exp (- ((snd dmy + a) * f (fst (fst dmy))))).
    assert (exists K, 0 <= K /\ forall j d bf m y, nth_error grid j = Some d -> nth_error ams j = Some (bf ++ [m]) -> nth_error ys j = Some y ->
      Rabs m * len j d * exp (- ((y + a) * len j d)) <= K) as (K & KP & HK').
    { exists (fold_right Rmax 0 (map (slope (tau v)) (combine (combine grid ams) ys) ++ map (slope (tau o)) (combine (combine grid ams) ys))).
      assert (Q : forall l, 0 <= fold_right Rmax 0 l /\ forall x, In x l -> x <= fold_right Rmax 0 l).
      { induction l as [|x l [IH1 IH2]]; cbn; [split; [lra|intros x []]|]. split; [apply (Rle_trans _ _ _ IH1), Rmax_r|].
        intros z [<-|Iz]; [apply Rmax_l|]. apply (Rle_trans _ _ _ (IH2 z Iz)), Rmax_r. }
      split; [apply (proj1 (Q _))|]. intros j d bf m y Hd Hm Hy.
      assert (IN : In (d, bf ++ [m], y) (combine (combine grid ams) ys)).
      { apply (nth_error_In _ j). apply (combine_nth_both _ _ _ _ _ (combine_nth_both _ _ _ _ _ Hd Hm) Hy). }
      apply (proj2 (Q _)). apply in_or_app. unfold len. destruct (Nat.eqb j 0); [left|right].
      - replace (Rabs m * tau v d * exp (- ((y + a) * tau v d))) with (slope (tau v) (d, bf ++ [m], y)) by (unfold slope; cbn [fst snd]; now rewrite last_last).
        now apply in_map.
      - replace (Rabs m * tau o d * exp (- ((y + a) * tau o d))) with (slope (tau o) (d, bf ++ [m], y)) by (unfold slope; cbn [fst snd]; now rewrite last_last).
        now apply in_map. }
    assert (G1 : 1 <= G) by apply Rmax_l. assert (GH : gh <= G) by apply Rmax_r.
    set (K1 := G * K). assert (KP1 : 0 <= K1) by (apply Rmult_le_pos; lra).
    destruct (halving ((1 + K1) * (b - a)) prec PP) as (n0 & Hn0).
    exists (S (S (S n0))). intros fuel LF. destruct fuel as [|[|n]]; try lia.
    assert (WN : (1 + K1) * ((b - a) / 2 ^ S n) < prec).
    { assert (Le : / 2 ^ S n <= / 2 ^ n0).
      { apply Rinv_le_contravar; [apply pow_lt; lra|]. apply Rle_pow; [lra|lia]. }
      apply (Rle_lt_trans _ ((1 + K1) * (b - a) / 2 ^ n0)); [|exact Hn0]. unfold Rdiv.
      rewrite <- Rmult_assoc. apply Rmult_le_compat_l; [|exact Le]. apply Rmult_le_pos; lra. }
    assert (WP : 0 <= (b - a) / 2 ^ S n).
    { apply Rmult_le_pos; [lra|]. left. apply Rinv_0_lt_compat, pow_lt. lra. }
    pose proof (ladder_priced (L:=L) count tau A MO KW grid ys orig o v tenor NE INC OG AV LY c HN h ps ams LA k HK n flr v0 HV) as PR.
    destruct (zero_cast DS tm DC L count tau grid ys orig o v tenor c n flr A MO KW NE INC OG AV LY HN) as (s0 & CA).
    assert (exists zs, mapM (rc_call c) grid = Ok zs) as (zs & MZ) by (apply mapM_total; intros; apply WC).
    apply (C50_returns DS tm DC L tau (S n) flr h c k k v0 fitting grid0 grid targets ps qs prec a b s0 zs K1
      HK C6 PC A' NE ND EF EG' PR LOC CA MZ).
    - intros i d xs Hd LX PREV. fold ts in PREV |- *.
      assert (Li : (i < length grid)%nat) by (now apply nth_Some_lt in Hd).
      (** the discount factors of the dates before are close *)
      assert (CL : forall l, (l < i)%nat -> forall dl, nth_error grid l = Some dl -> Rabs (dfx tau grid ys o v xs dl - df dl) <= e dl).
      { induction l as [l IH] using (well_founded_induction Nat.lt_wf_0). intros Ll dl Hl.
        destruct (SH l dl Hl) as (bf & m & Hm & LB & Pm). destruct (TS l dl Hl) as (t & Ht).
        destruct (HT l dl bf m t Hl Hm Ht) as [Et Ee].
        pose proof (quotes_at tau grid ys o v ams l dl _ Hl Hm) as Hq. fold qs in Hq.
        assert (ER : Rabs (value_on grid (dfx tau grid ys o v xs) (bf ++ [m]) - t) <= 2 * prec).
        { pose proof (PREV l dl Ll Hl) as E1. destruct l as [|l].
          - rewrite (total_first (L:=L) grid qs ts _ dl _ _ ONE Hl Hq Ht) in E1. cbn [quote_of snd] in E1. lra.
          - destruct (nth_lt_Some grid l) as (d' & Hd'); [lia|]. pose proof (PREV l d' ltac:(lia) Hd') as E2.
            rewrite (total_step (L:=L) grid qs ts _ l dl d' _ _ ONE Hl Hd' Hq Ht) in E1. cbn [quote_of snd] in E1.
            apply Rabs_def2 in E1. apply Rabs_def2 in E2. apply Rabs_le. lra. }
        assert (VC' : Rabs (value_on grid (dfx tau grid ys o v xs) bf - value_on grid df bf) <= value_on grid e (map Rabs bf)).
        { apply value_close. intros i' d' Hi' Li'. apply (IH i'); auto; lia. }
        rewrite Et, !(value_snoc grid _ bf m dl) in ER by (now rewrite LB).
        set (u := value_on grid (dfx tau grid ys o v xs) bf) in *. set (w := value_on grid df bf) in *. set (ev := value_on grid e (map Rabs bf)) in *.
        apply abs_le_inv in ER. apply abs_le_inv in VC'.
        apply (Rmult_le_reg_l (Rabs m)); [exact Pm|]. rewrite <- Rabs_mult. apply (Rle_trans _ (2 * prec + ev)); [|exact Ee]. apply Rabs_le. lra. }
      destruct (SH i d Hd) as (bf & m & Hm & LB & Pm). destruct (TS i d Hd) as (t & Ht).
      assert (Hy : nth_error ys i = Some (nth i ys 0)) by (apply nth_error_nth'; lia).
      pose proof (quotes_at tau grid ys o v ams i d _ Hd Hm) as Hq. fold qs in Hq.
      destruct (HT i d bf m t Hd Hm Ht) as [Et _].
      assert (VB : Rabs (value_on grid (dfx tau grid ys o v xs) bf - value_on grid df bf) <= value_on grid e (map Rabs bf)).
      { apply value_close. intros i' d' Hi' Li'. apply (CL i'); auto; lia. }
      (** what multiplies the discount factor *)
      set (g := if Nat.eqb i 0 then 1 else exp (zv ys xs * tau o v)).
      assert (GB : 0 < g <= G /\ Rabs m * (g * exp (- ((nth i ys 0 + b) * len i d))) + (prec + value_on grid e (map Rabs bf)) <= Rabs m * df d /\
         Rabs m * df d + (prec + value_on grid e (map Rabs bf)) <= Rabs m * (g * exp (- ((nth i ys 0 + a) * len i d)))).
      { unfold g, len. destruct i as [|i]; cbn [Nat.eqb].
        - destruct bf; [|discriminate LB]. destruct (HB0 d m _ Hd Hm Hy) as [B1 B2]. unfold value_on. cbn [map]. rewrite combine_nil. cbn [map Rsum].
          split; [lra|]. split; lra.
        - destruct (nth_lt_Some grid 0) as (d0 & Hd0); [lia|]. destruct (HG xs d0 Hd0) as [H1 H2]; [apply (CL 0%nat); auto; lia|].
          pose proof (exp_pos (zv ys xs * tau o v)) as H3. destruct (HB1 i d bf m _ Hd Hm Hy) as [B1 B2].
          pose proof (exp_pos (- ((nth (S i) ys 0 + b) * tau o d))) as P1. pose proof (exp_pos (- ((nth (S i) ys 0 + a) * tau o d))) as P2.
          split; [lra|]. split.
          + eapply Rle_trans; [|exact B1]. apply Rplus_le_compat_r, Rmult_le_compat_l; [lra|]. apply Rmult_le_compat_r; lra.
          + eapply Rle_trans; [exact B2|]. apply Rmult_le_compat_l; [lra|]. apply Rmult_le_compat_r; lra. }
      destruct GB as ((GP & GL) & B1 & B2).
      assert (VQ : forall x, snd (quote_of tau grid ys o v d (bf ++ [m])) (set_nth i x xs) =
        value_on grid (dfx tau grid ys o v xs) bf + m * g * exp (- ((nth i ys 0 + x) * len i d))).
      { intros x. cbn [quote_of snd]. rewrite (value_snoc grid _ _ m d) by (now rewrite LB). f_equal.
        - apply value_ext. intros l dl Hl Ll. unfold dfx, zv. rewrite !(zr_at (L:=L) grid ys INC _ l dl Hl), !nth_set_other by lia. reflexivity.
        - unfold dfx, zv, g, len. rewrite (zr_at (L:=L) grid ys INC _ i d Hd), nth_set_same by lia. destruct i as [|i]; cbn [Nat.eqb].
          + rewrite nth_set_same by lia. rewrite (tau_diff A o v d). rewrite Rmult_1_r, Rmult_comm. f_equal. f_equal. ring.
          + rewrite nth_set_other by lia. rewrite Rmult_assoc, <- exp_plus, Rmult_comm. f_equal. f_equal. unfold zv. ring. }
      assert (exists R0, Rabs R0 < prec /\ forall x, total_error qs ts (set_nth i x xs) d =
        R0 + (value_on grid (dfx tau grid ys o v xs) bf + m * g * exp (- ((nth i ys 0 + x) * len i d)) - t)) as (R0 & PR0 & TE).
      { destruct i as [|i].
        - exists 0. split; [rewrite Rabs_R0; lra|]. intros x. rewrite (total_first (L:=L) grid qs ts _ d _ _ ONE Hd Hq Ht), VQ. lra.
        - destruct (nth_lt_Some grid i) as (d' & Hd'); [lia|].
          exists (total_error qs ts xs d'). split; [apply (PREV i d'); auto|]. intros x.
          rewrite (total_step (L:=L) grid qs ts _ i d d' _ _ ONE Hd Hd' Hq Ht), VQ. f_equal.
          apply (total_local (L:=L) grid qs ts LOC i d'); auto; [now rewrite set_nth_length|].
          intros j Lj. apply set_nth_other. lia. }
      rewrite (value_snoc grid _ bf m d) in Et by (now rewrite LB). subst t.
      apply Rabs_def2 in PR0. apply abs_le_inv in VB.
      assert (MM : Rabs m = m \/ Rabs m = - m) by (unfold Rabs; destruct (Rcase_abs m); auto).
      split.
      { destruct MM as [MM|MM]; rewrite MM in B1, B2; [right|left]; rewrite !TE; lra. }
      intros x y [X1 X2] [Y1 Y2]. rewrite Rmin_left in X1, Y1 by lra. rewrite Rmax_right in X2, Y2 by lra. rewrite !TE.
      assert (TP : 0 < len i d).
      { unfold len. destruct i as [|i]; cbn [Nat.eqb]; apply MO; apply (ltb_t (L:=L)); [apply AF; eapply nth_error_In; eauto|now apply (AO i)]. }
      assert (MG : 0 < Rabs m * g) by (apply Rmult_lt_0_compat; lra).
      pose proof (HK' i d bf m _ Hd Hm Hy) as SL.
      apply (Rle_trans _ (Rabs m * g * len i d * exp (- ((nth i ys 0 + a) * len i d)) * Rabs (x - y))).
      2:{ apply Rmult_le_compat_r; [apply Rabs_pos|]. unfold K1.
          replace (Rabs m * g * len i d * exp (- ((nth i ys 0 + a) * len i d))) with (g * (Rabs m * len i d * exp (- ((nth i ys 0 + a) * len i d)))) by ring.
          apply Rmult_le_compat; try lra. apply Rmult_le_pos; [apply Rmult_le_pos; lra|left; apply exp_pos]. }
      match goal with |- Rabs ?u <= _ => assert (EU : Rabs u = Rabs (Rabs m * g * exp (- ((nth i ys 0 + x) * len i d)) - Rabs m * g * exp (- ((nth i ys 0 + y) * len i d)))) end.
      { destruct MM as [->| ->]; [|rewrite <- Rabs_Ropp]; f_equal; ring. }
      rewrite EU. destruct (Rle_dec x y) as [XY|XY].
      + destruct (exp_slope (Rabs m * g) (len i d) (nth i ys 0) a x y MG TP X1 XY) as [E1 E2]. rewrite Rabs_pos_eq by lra. rewrite (Rabs_left1 (x - y)) by lra. lra.
      + destruct (exp_slope (Rabs m * g) (len i d) (nth i ys 0) a y x MG TP Y1 ltac:(lra)) as [E1 E2]. rewrite Rabs_left1 by lra. rewrite (Rabs_pos_eq (x - y)) by lra. lra.
    - rewrite Rabs_pos_eq by lra. assert (0 <= K1 * ((b - a) / 2 ^ S n)) by (apply Rmult_le_pos; lra). lra.
    - rewrite Rabs_pos_eq by lra. lra.
  Qed.

  (** Products of any amounts whose targets are their values on some discount factors can be
      bootstrapped: if these are within those of the two bounds, with a margin e at each grid
      date for the errors of the dates before, then the fit returns, however small the
      precision is, if it is allowed enough bisection steps *)
  Theorem C127_products_return : forall count tau grid ys o tenor c ams h ps k flr v0 fitting grid0 targets precision a b (df e : D -> R),
    additive (dc_apply count) tau -> monotone tau -> dc_kwarg count = count ->
    grid <> [] -> increasing (map tm grid) -> (forall d, In d grid -> tm o < tm d) -> length ys = length grid ->
    rc_new CZeroRate grid ys None (Some o) count tenor = Ok c -> nth_error (h_curves h) k = Some c ->
    stairs h o grid ps ams -> (forall j before m, nth_error ams j = Some (before ++ [m]) -> m <> 0) -> a <= b -> 0 < precision ->
    match v0 with Some w => w | None => o end = o ->
    match fitting with Some i => i | None => k end = k -> match grid0 with Some g => g | None => grid end = grid ->
    length (spread_arg targets (length ps)) = length ps ->
    (forall j d before m t, nth_error grid j = Some d -> nth_error ams j = Some (before ++ [m]) ->
       nth_error (spread_arg targets (length ps)) j = Some t ->
       t = value_on grid df (before ++ [m]) /\ 2 * precision + value_on grid e (map Rabs before) <= Rabs m * e d) ->
    (forall j d before m y, nth_error grid j = Some d -> nth_error ams j = Some (before ++ [m]) -> nth_error ys j = Some y ->
       Rabs m * exp (- ((y + b) * tau o d)) + (precision + value_on grid e (map Rabs before)) <= Rabs m * df d /\
       Rabs m * df d + (precision + value_on grid e (map Rabs before)) <= Rabs m * exp (- ((y + a) * tau o d))) ->
    exists steps, forall fuel, (steps <= fuel)%nat -> exists data,
      get_curve_fit fuel flr ps k v0 fitting grid0 targets precision a b h = (Ok data, h).
  Proof.
    intros count tau grid ys o tenor c ams h ps k flr v0 fitting grid0 targets prec a b df e
      A MO KW NE INC AF LY HN HK LA NZ AB PP HV EF EG LT HT HB.
    assert (T0 : tau o o = 0) by (apply (add_zero _ _ A); apply (LDates.eqb_refl (L:=L))).
    apply (products_return count tau grid ys (Some o) o o tenor c ams h ps k flr v0 fitting grid0 targets prec a b df e 1 1); auto.
    - intros j d Hd. apply AF. eapply nth_error_In; eauto.
    - intros xs d0 _ _. rewrite T0, Rmult_0_r, exp_0. lra.
    - intros d m y Hd Hm Hy. pose proof (HB 0%nat d [] m y Hd Hm Hy) as Q. unfold value_on in Q. cbn [map] in Q. rewrite combine_nil in Q. cbn [map Rsum] in Q. lra.
    - intros j d bf m y Hd Hm Hy. rewrite !Rmult_1_l. now apply (HB (S j)).
  Qed.

  Lemma ladder_positive h v grid ps ams j before m : ladder h v grid ps ams -> nth_error ams j = Some (before ++ [m]) -> 0 < m.
  Proof.
    intros (LP & LM & LA) Hm. destruct (nth_lt_Some grid j) as (d & Hd); [rewrite <- LM; now apply nth_Some_lt in Hm|].
    destruct (nth_lt_Some ps j) as (p & Hp); [rewrite LP; now apply nth_Some_lt in Hd|].
    destruct (LA j d p _ Hd Hp Hm) as (_ & _ & bf & n & E & _ & Q). apply app_inj_tail in E. now destruct E as [_ ->].
  Qed.

  (** bonds pay a positive amount at maturity *)
  Theorem C127_bonds_return : forall count tau grid ys o tenor c ams h ps k flr v0 fitting grid0 targets precision a b (df e : D -> R),
    additive (dc_apply count) tau -> monotone tau -> dc_kwarg count = count ->
    grid <> [] -> increasing (map tm grid) -> (forall d, In d grid -> tm o < tm d) -> length ys = length grid ->
    rc_new CZeroRate grid ys None (Some o) count tenor = Ok c -> nth_error (h_curves h) k = Some c ->
    ladder h o grid ps ams -> a <= b -> 0 < precision ->
    match v0 with Some w => w | None => o end = o ->
    match fitting with Some i => i | None => k end = k -> match grid0 with Some g => g | None => grid end = grid ->
    length (spread_arg targets (length ps)) = length ps ->
    (forall j d before m t, nth_error grid j = Some d -> nth_error ams j = Some (before ++ [m]) ->
       nth_error (spread_arg targets (length ps)) j = Some t ->
       t = value_on grid df (before ++ [m]) /\ 2 * precision + value_on grid e (map Rabs before) <= m * e d) ->
    (forall j d before m y, nth_error grid j = Some d -> nth_error ams j = Some (before ++ [m]) -> nth_error ys j = Some y ->
       m * exp (- ((y + b) * tau o d)) + (precision + value_on grid e (map Rabs before)) <= m * df d /\
       m * df d + (precision + value_on grid e (map Rabs before)) <= m * exp (- ((y + a) * tau o d))) ->
    exists steps, forall fuel, (steps <= fuel)%nat -> exists data,
      get_curve_fit fuel flr ps k v0 fitting grid0 targets precision a b h = (Ok data, h).
  Proof.
    intros count tau grid ys o tenor c ams h ps k flr v0 fitting grid0 targets prec a b df e
      A MO KW NE INC AF LY HN HK LA AB PP HV EF EG LT HT HB.
    apply (C127_products_return count tau grid ys o tenor c ams h ps k flr v0 fitting grid0 targets prec a b df e); auto.
    - now apply ladder_stairs.
    - intros j bf m Hm. pose proof (ladder_positive _ _ _ _ _ j bf m LA Hm). lra.
    - intros j d bf m t Hd Hm Ht. rewrite (Rabs_pos_eq m) by (left; eapply (ladder_positive h o grid); eauto). eapply HT; eauto.
    - intros j d bf m y Hd Hm Hy. rewrite (Rabs_pos_eq m) by (left; eapply (ladder_positive h o grid); eauto). eapply HB; eauto.
  Qed.

  (** the same for a curve without given origin, which starts at the first grid date, and an
      earlier valuation date, as in the documentation *)
  Theorem C127_first_date_return : forall count tau grid ys v d0 tenor c ams h ps k flr fitting grid0 targets precision a b (df e : D -> R),
    additive (dc_apply count) tau -> monotone tau -> dc_kwarg count = count ->
    increasing (map tm grid) -> nth_error grid 0 = Some d0 -> tm v < tm d0 -> length ys = length grid ->
    rc_new CZeroRate grid ys None None count tenor = Ok c -> nth_error (h_curves h) k = Some c ->
    stairs h v grid ps ams -> (forall j before m, nth_error ams j = Some (before ++ [m]) -> m <> 0) -> a <= b -> 0 < precision ->
    match fitting with Some i => i | None => k end = k -> match grid0 with Some g => g | None => grid end = grid ->
    length (spread_arg targets (length ps)) = length ps ->
    (forall j d before m t, nth_error grid j = Some d -> nth_error ams j = Some (before ++ [m]) ->
       nth_error (spread_arg targets (length ps)) j = Some t ->
       t = value_on grid df (before ++ [m]) /\ 2 * precision + value_on grid e (map Rabs before) <= Rabs m * e d) ->
    (forall m y, nth_error ams 0 = Some [m] -> nth_error ys 0 = Some y ->
       Rabs m * exp (- ((y + b) * tau v d0)) + precision <= Rabs m * df d0 /\
       Rabs m * df d0 + precision <= Rabs m * exp (- ((y + a) * tau v d0))) ->
    (forall j d before m y, nth_error grid (S j) = Some d -> nth_error ams (S j) = Some (before ++ [m]) -> nth_error ys (S j) = Some y ->
       Rabs m * ((df d0 + e d0) * exp (- ((y + b) * tau d0 d))) + (precision + value_on grid e (map Rabs before)) <= Rabs m * df d /\
       Rabs m * df d + (precision + value_on grid e (map Rabs before)) <= Rabs m * ((df d0 - e d0) * exp (- ((y + a) * tau d0 d)))) ->
    exists steps, forall fuel, (steps <= fuel)%nat -> exists data,
      get_curve_fit fuel flr ps k (Some v) fitting grid0 targets precision a b h = (Ok data, h).
  Proof.
    intros count tau grid ys v d0 tenor c ams h ps k flr fitting grid0 targets prec a b df e
      A MO KW INC H0 V0 LY HN HK LA NZ AB PP EF EG LT HT HB0 HB1.
    assert (NE : grid <> []) by (intros ->; discriminate H0).
    assert (OG : dom_origin None grid = Some d0) by (destruct grid; [congruence|exact H0]).
    assert (AO : forall j d, nth_error grid (S j) = Some d -> tm d0 < tm d).
    { intros j d Hd. destruct (Rle_lt_dec (tm d) (tm d0)) as [Q|Q]; auto.
      apply (increasing_nth _ INC (S j) 0) in Q; [lia|now apply map_nth_error..]. }
    apply (products_return count tau grid ys None d0 v tenor c ams h ps k flr (Some v) fitting grid0 targets prec a b df e (df d0 - e d0) (df d0 + e d0)); auto.
    - intros d Id. destruct (In_nth_error _ _ Id) as [[|j] Hj]; [congruence|]. specialize (AO j d Hj). lra.
    - intros xs d1 H1 B. assert (d1 = d0) by congruence. subst d1. apply abs_le_inv in B.
      assert (E : dfx tau grid ys d0 v xs d0 = exp (zv ys xs * tau d0 v)).
      { unfold dfx. assert (T0 : tau d0 d0 = 0) by (apply (add_zero _ _ A); apply (LDates.eqb_refl (L:=L))). rewrite T0. f_equal. ring. }
      rewrite E in B. lra.
    - intros d m y Hd Hm Hy. assert (d = d0) by congruence. subst d. now apply HB0.
  Qed.
End Return.
Print Assumptions C127_products_return.
Print Assumptions C127_bonds_return.
Print Assumptions C127_first_date_return.

Lemma exp_gap u w : -1 <= u -> u <= w -> exp u + (1 + u) * (w - u) <= exp w.
Proof.
  intros U W. replace w with (u + (w - u)) at 2 by ring. rewrite exp_plus.
  pose proof (exp_ineq1_le u). pose proof (exp_ineq1_le (w - u)). pose proof (exp_pos u).
  assert (exp u * (1 + (w - u)) <= exp u * exp (w - u)) by (apply Rmult_le_compat_l; lra).
  assert ((1 + u) * (w - u) <= exp u * (w - u)) by (apply Rmult_le_compat_r; lra). lra.
Qed.

Lemma exp_le1 x : x <= 0 -> exp x <= 1.
Proof. intros [H| ->]; [rewrite <- exp_0; left; now apply exp_increasing|rewrite exp_0; lra]. Qed.

Local Notation fl := (FloatDates (T:=R)).

(** the lists of one per cent coupons of the documentation *)
Definition coupons (h : heap R R (fperiod R)) : Prop :=
  forall j, (j < 3)%nat -> exists l, nth_error (h_lists h) j = Some (mkHL l (HForward (fun _ => FwNone))) /\
     ratelist_new (DS := fl) (firstn (S j) [1; 2; 3]) (One 1000000) (Some 0) DcDefault None None (1 / 100) FwNone = Ok l.
Definition amounts : list (list R) := [[10000]; [10000; 10000]; [10000; 10000; 10000]].

Lemma inc3 : increasing (map (fun d : R => d) [1; 2; 3]). Proof. cbn. repeat constructor; lra. Qed.
Lemma pos3 d : In d [1; 2; 3] -> 0 <= d. Proof. intros [<-|[<-|[<-|[]]]]; lra. Qed.

Lemma coupons_exist (c : rcurve R R (fperiod R)) : exists h, nth_error (h_curves h) 0 = Some c /\ coupons h.
Proof.
  unfold coupons. set (new := fun j => ratelist_new (DS := fl) (firstn (S j) [1; 2; 3]) (One 1000000) (Some 0) DcDefault None None (1 / 100) FwNone).
  destruct (new 0%nat) as [l0|] eqn:E0; [|discriminate E0].
  destruct (new 1%nat) as [l1|] eqn:E1; [|discriminate E1].
  destruct (new 2%nat) as [l2|] eqn:E2; [|discriminate E2].
  set (at_ := HForward (fun _ => FwNone) : hattr R R (fperiod R)).
  exists (mkH [c] [] [mkHL l0 at_; mkHL l1 at_; mkHL l2 at_]). split; [reflexivity|].
  intros [|[|[|j]]] Lj; try lia; cbn; eauto.
Qed.

Lemma coupons_ladder h : coupons h -> ladder (DS := fl) (DC := no_counts) h 0 [1; 2; 3] [PrList 0; PrList 1; PrList 2] amounts.
Proof.
  intros LS. split; [reflexivity|]. split; [reflexivity|]. intros j d p am Hd Hp Ha.
  assert (Lj : (j < 3)%nat) by (apply nth_Some_lt in Hd; exact Hd).
  assert (EA : am = repeat 10000 (S j)) by (destruct j as [|[|[|j]]]; cbn in Ha; try lia; injection Ha as <-; reflexivity).
  assert (EP : p = PrList j) by (destruct j as [|[|[|j]]]; cbn in Hp; try lia; injection Hp as <-; reflexivity).
  subst am p. destruct (LS j Lj) as (l & Hl & Hn).
  destruct (C127_rate_list fl (fun d => d) no_counts float_laws [1; 2; 3] 0 h j j d l (One 1000000) (repeat 1000000 (S j)) 0 DcDefault (1 / 100) (fun a b => b - a)
    (repeat 10000 (S j)) inc3 pos3 Hd eq_refl (repeat_length _ _) (repeat_length _ _) Hl Hn) as [Q1 Q2].
  - reflexivity.
  - intros m s e n a Hs He Hn' Ha'. apply nth_error_In, repeat_spec in Hn', Ha'. subst n a.
    assert (S1 : e = s + 1).
    { destruct m as [|[|[|m]]]; cbn in Hs, He; try (injection Hs as <-; injection He as <-; lra). destruct m; discriminate. }
    rewrite S1. field.
  - split; [exact Q1|]. split; [exact Q2|]. exists (repeat 10000 j), 10000. split; [|split; [apply repeat_length|lra]].
    clear. induction j; cbn [repeat app] in *; congruence.
Qed.

Lemma amounts_at j before m : nth_error amounts j = Some (before ++ [m]) -> m = 10000 /\ before = repeat 10000 j /\ (j < 3)%nat.
Proof.
  intros H. assert (Lj : (j < 3)%nat) by (apply nth_Some_lt in H; exact H).
  destruct j as [|[|[|j]]]; try lia; cbn in H; injection H as H;
    [change [10000] with ([] ++ [10000]) in H|change [10000; 10000] with ([10000] ++ [10000]) in H|change [10000; 10000; 10000] with ([10000; 10000] ++ [10000]) in H];
    apply app_inj_tail in H; destruct H as [<- <-]; auto.
Qed.

(** margins of 2e-11, 4e-11 and 8e-11, given discount factors *)
Lemma margins D1 D2 D3 : exists df e : R -> R, df 1 = D1 /\ df 2 = D2 /\ df 3 = D3 /\
  e 1 = 2 / 100000000000 /\ e 2 = 4 / 100000000000 /\ e 3 = 8 / 100000000000.
Proof.
  exists (fun d : R => if Req_EM_T d 1 then D1 else if Req_EM_T d 2 then D2 else D3).
  exists (fun d : R => if Req_EM_T d 1 then 2 / 100000000000 else if Req_EM_T d 2 then 4 / 100000000000 else 8 / 100000000000).
  repeat split; repeat (destruct (Req_EM_T _ _); try lra).
Qed.

(** these lists, priced with zero rates of 1.0, 0.9 and 1.2 per cent, the documented
    precision and bounds *)
Example C127_coupons : exists (c : rcurve R R (fperiod R)) (h : heap R R (fperiod R)) steps,
  rc_new (DS := fl) (DC := no_counts) CZeroRate [1; 2; 3] [1 / 100; 1 / 100; 1 / 100] None (Some 0) DcDefault None = Ok c /\
  nth_error (h_curves h) 0 = Some c /\
  coupons h /\
  forall n, (steps <= S (S n))%nat -> exists data x y z,
    get_curve_fit (DS := fl) (DC := no_counts) (S (S n)) None [PrList 0; PrList 1; PrList 2] 0 (Some 0) (Some 0%nat) None
      (Many [10000 * exp (- (10 / 1000)); 10000 * (exp (- (10 / 1000)) + exp (- (9 / 1000 * 2)));
             10000 * (exp (- (10 / 1000)) + exp (- (9 / 1000 * 2)) + exp (- (12 / 1000 * 3)))])
      (1 / 10000000) (- (1 / 10)) (2 / 10) h = (Ok data, h) /\
    data = [x; y; z] /\ Rabs (10000 * exp (- x) - 10000 * exp (- (10 / 1000))) < 1 / 10000000 /\
    Rabs (10000 * exp (- (y * 2)) - 10000 * exp (- (9 / 1000 * 2))) < 2 / 10000000 /\
    Rabs (10000 * exp (- (z * 3)) - 10000 * exp (- (12 / 1000 * 3))) < 2 / 10000000.
Proof.
  set (tau := fun a b : R => b - a).
  assert (A : additive (DS := fl) (dc_apply (DS := fl) (DC := no_counts) DcDefault) tau) by exact add_f.
  pose proof inc3 as INC.
  pose proof pos3 as AF.
  assert (AF1 : forall d, In d [1; 2; 3] -> 0 < d) by (intros d [<-|[<-|[<-|[]]]]; lra).
  assert (NE : [1; 2; 3] <> []) by discriminate.
  assert (OG : dom_origin (Some 0) [1; 2; 3] = Some 0) by reflexivity.
  destruct (built_curve (L:=float_laws) (DC := no_counts) DcDefault tau A tau_f_monotone [1; 2; 3] [1 / 100; 1 / 100; 1 / 100] (Some 0) 0 0
    NE INC OG AF eq_refl [1 / 100; 1 / 100; 1 / 100] None eq_refl) as (c & HN & _).
  destruct (coupons_exist c) as (h & H0 & LS). pose proof (coupons_ladder h LS) as LA.
  set (D1 := exp (- (10 / 1000))). set (D2 := exp (- (9 / 1000 * 2))). set (D3 := exp (- (12 / 1000 * 3))).
  destruct (margins D1 D2 D3) as (df & e & F1 & F2 & F3 & G1 & G2 & G3).
  assert (AB : - (1 / 10) <= 2 / 10) by lra.
  destruct (C127_bonds_return fl (fun d => d) no_counts float_laws DcDefault tau [1; 2; 3] [1 / 100; 1 / 100; 1 / 100] 0 None c amounts h
    [PrList 0; PrList 1; PrList 2] 0 None (Some 0) (Some 0%nat) None
    (Many [10000 * D1; 10000 * (D1 + D2); 10000 * (D1 + D2 + D3)]) (1 / 10000000) (- (1 / 10)) (2 / 10) df e) as (steps & ST); auto; try reflexivity.
  { exact tau_f_monotone. }
  { lra. }
  { intros j d before m t Hd Hm Ht. destruct (amounts_at j before m Hm) as (-> & -> & Lj). unfold value_on.
    destruct j as [|[|[|j]]]; try lia; cbn in Hd, Ht; injection Hd as <-; injection Ht as <-;
      cbn [repeat app combine map Rsum fst snd]; rewrite ?(Rabs_pos_eq 10000), ?F1, ?F2, ?F3, ?G1, ?G2, ?G3 by lra; split; lra. }
  { intros j d before m y Hd Hm Hy. destruct (amounts_at j before m Hm) as (-> & -> & Lj). unfold value_on, tau.
    destruct j as [|[|[|j]]]; try lia; cbn in Hd, Hy; injection Hd as <-; injection Hy as <-;
      cbn [repeat app combine map Rsum fst snd]; rewrite ?(Rabs_pos_eq 10000), ?F1, ?F2, ?F3, ?G1, ?G2, ?G3 by lra.
    - pose proof (exp_gap (- ((1 / 100 + 2 / 10) * (1 - 0))) (- (10 / 1000)) ltac:(lra) ltac:(lra)).
      pose proof (exp_gap (- (10 / 1000)) (- ((1 / 100 + - (1 / 10)) * (1 - 0))) ltac:(lra) ltac:(lra)). fold D1 in H, H1. lra.
    - pose proof (exp_gap (- ((1 / 100 + 2 / 10) * (2 - 0))) (- (9 / 1000 * 2)) ltac:(lra) ltac:(lra)).
      pose proof (exp_gap (- (9 / 1000 * 2)) (- ((1 / 100 + - (1 / 10)) * (2 - 0))) ltac:(lra) ltac:(lra)). fold D2 in H, H1. lra.
    - pose proof (exp_gap (- ((1 / 100 + 2 / 10) * (3 - 0))) (- (12 / 1000 * 3)) ltac:(lra) ltac:(lra)).
      pose proof (exp_gap (- (12 / 1000 * 3)) (- ((1 / 100 + - (1 / 10)) * (3 - 0))) ltac:(lra) ltac:(lra)). fold D3 in H, H1. lra. }
  exists c, h, steps. split; [exact HN|]. split; [exact H0|]. split; [exact LS|]. intros n Ln. destruct (ST (S (S n)) Ln) as (data & RUN).
  destruct (C127_bonds fl (fun d => d) no_counts float_laws DcDefault tau [1; 2; 3] [1 / 100; 1 / 100; 1 / 100] (Some 0) 0 0 None c amounts h [PrList 0; PrList 1; PrList 2] 0 n None (Some 0) (Some 0%nat) None
    _ _ _ _ data h A tau_f_monotone eq_refl NE INC OG (fun d I => conj (AF d I) (AF d I)) eq_refl HN H0 LA AB eq_refl eq_refl eq_refl RUN) as (_ & LD & c' & df' & EC & DF & PV & _).
  destruct data as [|x [|y [|z [|]]]]; try discriminate LD.
  assert (DV : df' 1 = exp (- x) /\ df' 2 = exp (- (y * 2)) /\ df' 3 = exp (- (z * 3))).
  { destruct (built_curve (L:=float_laws) (DC := no_counts) DcDefault tau A tau_f_monotone [1; 2; 3] [x; y; z] (Some 0) 0 0
      NE INC OG AF eq_refl [x; y; z] None eq_refl) as (c2 & EC2 & B2 & V2 & V20 & W2). rewrite EC in EC2. injection EC2 as <-.
    destruct (curve_facts (L:=float_laws) (DC := no_counts) DcDefault tau A tau_f_monotone [1; 2; 3] [x; y; z] (Some 0) 0 0 None NE INC OG AF eq_refl c' EC) as (C1 & C2 & C3 & C4 & C5 & C6 & C7 & C8).
    assert (Q : forall j d w, nth_error [1; 2; 3] j = Some d -> nth j [x; y; z] 0 = w -> df' d = exp (- (w * d))).
    { intros j d w Hd Hw. pose proof (DF d (nth_error_In _ _ Hd)) as E. pose proof (V2 j d Hd) as V. rewrite Hw in V.
      unfold get_discount_factor, interest_only in E. rewrite C1 in E. cbn [is_interest] in E.
      rewrite (flat_factor (L:=float_laws) c' 0 tau C3 C8 n 0 d x w) in E; auto; [|now left].
      injection E as <-. unfold tau. f_equal. ring. }
    split; [rewrite (Q 0%nat 1 x); auto; f_equal; ring|]. split; [now apply (Q 1%nat)|now apply (Q 2%nat)]. }
  destruct DV as (V1 & V2 & V3).
  pose proof (PV 0%nat _ _ _ eq_refl eq_refl eq_refl) as [_ P1]. pose proof (PV 1%nat _ _ _ eq_refl eq_refl eq_refl) as [_ P2]. pose proof (PV 2%nat _ _ _ eq_refl eq_refl eq_refl) as [_ P3].
  unfold value_on in P1, P2, P3. cbn [combine map Rsum fst snd] in P1, P2, P3. rewrite ?V1, ?V2, ?V3 in P1, P2, P3.
  exists [x; y; z], x, y, z. split; [exact RUN|]. split; [reflexivity|].
  apply Rabs_def2 in P1. apply Rabs_def2 in P2. apply Rabs_def2 in P3.
  split; [apply Rabs_def1; lra|]. split; apply Rabs_def1; lra.
Qed.

(** ... and the documented curve, which has no origin *)
Example C127_documented_return : exists (c : rcurve R R (fperiod R)) (h : heap R R (fperiod R)) steps,
  rc_new (DS := fl) (DC := no_counts) CZeroRate [1; 2; 3] [1 / 100; 1 / 100; 1 / 100] None None DcDefault None = Ok c /\
  nth_error (h_curves h) 0 = Some c /\ coupons h /\
  forall fuel, (steps <= fuel)%nat -> exists data,
    get_curve_fit (DS := fl) (DC := no_counts) fuel None [PrList 0; PrList 1; PrList 2] 0 (Some 0) (Some 0%nat) None
      (Many [10000 * exp (- (10 / 1000)); 10000 * (exp (- (10 / 1000)) + exp (- (10 / 1000 + 9 / 1000 * 1)));
             10000 * (exp (- (10 / 1000)) + exp (- (10 / 1000 + 9 / 1000 * 1)) + exp (- (10 / 1000 + 12 / 1000 * 2)))])
      (1 / 10000000) (- (1 / 10)) (2 / 10) h = (Ok data, h).
Proof.
  set (tau := fun a b : R => b - a).
  assert (A : additive (DS := fl) (dc_apply (DS := fl) (DC := no_counts) DcDefault) tau) by exact add_f.
  pose proof inc3 as INC. pose proof pos3 as AF.
  assert (NE : [1; 2; 3] <> []) by discriminate.
  assert (OG : dom_origin None [1; 2; 3] = Some 1) by reflexivity.
  destruct (built_curve (L:=float_laws) (DC := no_counts) DcDefault tau A tau_f_monotone [1; 2; 3] [1 / 100; 1 / 100; 1 / 100] None 1 0
    NE INC OG AF eq_refl [1 / 100; 1 / 100; 1 / 100] None eq_refl) as (c & HN & _).
  destruct (coupons_exist c) as (h & H0 & LS). pose proof (coupons_ladder h LS) as LA.
  set (D1 := exp (- (10 / 1000))). set (D2 := exp (- (10 / 1000 + 9 / 1000 * 1))). set (D3 := exp (- (10 / 1000 + 12 / 1000 * 2))).
  destruct (margins D1 D2 D3) as (df & e & F1 & F2 & F3 & G1 & G2 & G3).
  assert (AB : - (1 / 10) <= 2 / 10) by lra.
  destruct (C127_first_date_return fl (fun d => d) no_counts float_laws DcDefault tau [1; 2; 3] [1 / 100; 1 / 100; 1 / 100] 0 1 None c amounts h
    [PrList 0; PrList 1; PrList 2] 0 None (Some 0%nat) None
    (Many [10000 * D1; 10000 * (D1 + D2); 10000 * (D1 + D2 + D3)]) (1 / 10000000) (- (1 / 10)) (2 / 10) df e) as (steps & ST); auto; try reflexivity.
  { exact tau_f_monotone. }
  { lra. }
  { now apply ladder_stairs. }
  { intros j before m Hm. destruct (amounts_at j before m Hm) as (-> & _). lra. }
  { lra. }
  { intros j d before m t Hd Hm Ht. destruct (amounts_at j before m Hm) as (-> & -> & Lj). unfold value_on.
    destruct j as [|[|[|j]]]; try lia; cbn in Hd, Ht; injection Hd as <-; injection Ht as <-;
      cbn [repeat app combine map Rsum fst snd]; rewrite ?(Rabs_pos_eq 10000), ?F1, ?F2, ?F3, ?G1, ?G2, ?G3 by lra; split; lra. }
  { intros m y Hm Hy. injection Hm as <-. injection Hy as <-. rewrite (Rabs_pos_eq 10000), F1 by lra. unfold tau.
    pose proof (exp_gap (- ((1 / 100 + 2 / 10) * (1 - 0))) (- (10 / 1000)) ltac:(lra) ltac:(lra)).
    pose proof (exp_gap (- (10 / 1000)) (- ((1 / 100 + - (1 / 10)) * (1 - 0))) ltac:(lra) ltac:(lra)). fold D1 in H, H1. lra. }
  { assert (DB : 0 < D1 <= 1).
    { split; [apply exp_pos|]. unfold D1. apply exp_le1. lra. }
    intros j d before m y Hd Hm Hy. destruct (amounts_at (S j) before m Hm) as (-> & -> & Lj). unfold value_on.
    set (p1 := exp (- ((y + 2 / 10) * tau 1 d))). set (p2 := exp (- ((y + - (1 / 10)) * tau 1 d))).
    destruct j as [|[|j]]; try lia; cbn in Hd, Hy; injection Hd as <-; injection Hy as <-;
      cbn [repeat app combine map Rsum fst snd]; rewrite ?(Rabs_pos_eq 10000), ?F1, ?F2, ?F3, ?G1, ?G2, ?G3 by lra.
    - assert (E1 : D1 * p1 = exp (- (10 / 1000 + (1 / 100 + 2 / 10)))) by (unfold D1, p1, tau; rewrite <- exp_plus; f_equal; ring).
      assert (E2 : D1 * p2 = exp (- (10 / 1000 + (1 / 100 + - (1 / 10))))) by (unfold D1, p2, tau; rewrite <- exp_plus; f_equal; ring).
      assert (B1 : 0 < p1 <= 1) by (split; [apply exp_pos|]; unfold p1, tau; apply exp_le1; lra).
      assert (B2 : 0 < p2 <= 2).
      { split; [apply exp_pos|]. apply (Rle_trans _ (/ (1 / 2))); [|lra]. unfold p2, tau. replace (- _) with (- - (9 / 100)) by field. rewrite exp_Ropp.
        pose proof (exp_ineq1_le (- (9 / 100))). apply Rinv_le_contravar; lra. }
      pose proof (exp_gap (- (10 / 1000 + (1 / 100 + 2 / 10))) (- (10 / 1000 + 9 / 1000 * 1)) ltac:(lra) ltac:(lra)) as Q1.
      pose proof (exp_gap (- (10 / 1000 + 9 / 1000 * 1)) (- (10 / 1000 + (1 / 100 + - (1 / 10)))) ltac:(lra) ltac:(lra)) as Q2.
      fold D2 in Q1, Q2. rewrite <- E1 in Q1. rewrite <- E2 in Q2. clearbody p1 p2 D1 D2.
      rewrite !Rmult_plus_distr_r, !Rmult_minus_distr_r. lra.
    - assert (E1 : D1 * p1 = exp (- (10 / 1000 + (1 / 100 + 2 / 10) * 2))) by (unfold D1, p1, tau; rewrite <- exp_plus; f_equal; ring).
      assert (E2 : D1 * p2 = exp (- (10 / 1000 + (1 / 100 + - (1 / 10)) * 2))) by (unfold D1, p2, tau; rewrite <- exp_plus; f_equal; ring).
      assert (B1 : 0 < p1 <= 1) by (split; [apply exp_pos|]; unfold p1, tau; apply exp_le1; lra).
      assert (B2 : 0 < p2 <= 2).
      { split; [apply exp_pos|]. apply (Rle_trans _ (/ (1 / 2))); [|lra]. unfold p2, tau. replace (- _) with (- - (18 / 100)) by field. rewrite exp_Ropp.
        pose proof (exp_ineq1_le (- (18 / 100))). apply Rinv_le_contravar; lra. }
      pose proof (exp_gap (- (10 / 1000 + (1 / 100 + 2 / 10) * 2)) (- (10 / 1000 + 12 / 1000 * 2)) ltac:(lra) ltac:(lra)) as Q1.
      pose proof (exp_gap (- (10 / 1000 + 12 / 1000 * 2)) (- (10 / 1000 + (1 / 100 + - (1 / 10)) * 2)) ltac:(lra) ltac:(lra)) as Q2.
      fold D3 in Q1, Q2. rewrite <- E1 in Q1. rewrite <- E2 in Q2. clearbody p1 p2 D1 D2 D3.
      rewrite !Rmult_plus_distr_r, !Rmult_minus_distr_r. lra. }
  exists c, h, steps. auto.
Qed.

(** payer swaps of one and two years against floating legs on a given forward rate function
    of 1 plus 1 per cent per year: amounts of negative sign; the rebuilt curve gives them
    their quoted values *)
Example C127_swaps : exists (h : heap R R (fperiod R)) steps, forall n, (steps <= S (S n))%nat ->
  let swap1 := PrLegs [0%nat; 1%nat] [1] (Some 0) in
  let swap2 := PrLegs [2%nat; 3%nat] [1; 2] (Some 0) in
  let quote1 := - 20 * exp (- (10 / 1000)) in
  let quote2 := - 20 * exp (- (10 / 1000)) - 10 * exp (- (18 / 1000)) in
  exists data c' x y,
    get_curve_fit (DS := fl) (DC := no_counts) (S (S n)) None [swap1; swap2] 0 None None None
      (Many [quote1; quote2]) (1 / 10000000) (- (1 / 10)) (2 / 10) h = (Ok data, h) /\
    rc_new (DS := fl) (DC := no_counts) CZeroRate [1; 2] data None (Some 0) DcDefault None = Ok c' /\
    returns (get_present_value (DS := fl) (DC := no_counts) (S (S n)) None swap1 0 None) (with_curve h 0 c') x /\
    returns (get_present_value (DS := fl) (DC := no_counts) (S (S n)) None swap2 0 None) (with_curve h 0 c') y /\
    Rabs (x - quote1) < 1 / 10000000 /\ Rabs (y - quote2) < 2 / 10000000.
Proof.
  set (tau := fun a b : R => b - a).
  assert (A : additive (DS := fl) (dc_apply (DS := fl) (DC := no_counts) DcDefault) tau) by exact add_f.
  assert (INC : increasing (map (fun d : R => d) [1; 2])) by (cbn; repeat constructor; lra).
  assert (AF : forall d, In d [1; 2] -> 0 <= d) by (intros d [<-|[<-|[]]]; lra).
  assert (AF1 : forall d, In d [1; 2] -> 0 < d) by (intros d [<-|[<-|[]]]; lra).
  assert (NE : [1; 2] <> []) by discriminate.
  assert (OG : dom_origin (Some 0) [1; 2] = Some 0) by reflexivity.
  destruct (built_curve (L:=float_laws) (DC := no_counts) DcDefault tau A tau_f_monotone [1; 2] [1 / 100; 1 / 100] (Some 0) 0 0
    NE INC OG AF eq_refl [1 / 100; 1 / 100] None eq_refl) as (c & HN & _).
  set (fwd := FwFun (fun s : R => Ok (1 / 100 * (1 + s))) : fsource R R (fperiod R)).
  set (fix_ := fun ds => ratelist_new (DS := fl) (P := fperiod R) ds (One (- 1000)) (Some 0) DcDefault None None (3 / 100) FwNone).
  set (flo := fun ds => ratelist_new (DS := fl) (P := fperiod R) ds (One 1000) (Some 0) DcDefault None None 0 fwd).
  destruct (fix_ [1]) as [l0|] eqn:E0; [|discriminate E0]. destruct (flo [1]) as [l1|] eqn:E1; [|discriminate E1].
  destruct (fix_ [1; 2]) as [l2|] eqn:E2; [|discriminate E2]. destruct (flo [1; 2]) as [l3|] eqn:E3; [|discriminate E3].
  set (no := HForward (fun _ => FwNone) : hattr R R (fperiod R)). set (yes := HForward (fun _ => fwd) : hattr R R (fperiod R)).
  set (h := mkH [c] [] [mkHL l0 no; mkHL l1 yes; mkHL l2 no; mkHL l3 yes]).
  set (ams := [[- 20]; [- 20; - 10]]).
  set (ps := [PrLegs [0%nat; 1%nat] [1] (Some 0); PrLegs [2%nat; 3%nat] [1; 2] (Some 0)]).
  assert (FX : forall i j d l am, nth_error [1; 2] j = Some d -> nth_error (h_lists h) i = Some (mkHL l no) ->
    fix_ (firstn (S j) [1; 2]) = Ok l -> am = repeat (- 30) (S j) -> pays_on (DS := fl) (DC := no_counts) h 0 (PrList i) [1; 2] am).
  { intros i j d l am Hd Hl HL ->.
    apply (C127_rate_list fl (fun d => d) no_counts float_laws [1; 2] 0 h i j d l (One (- 1000)) (repeat (- 1000) (S j)) 0 DcDefault (3 / 100) tau); auto; try apply repeat_length.
    intros m s e k a Hs He Hn Ha. apply nth_error_In, repeat_spec in Hn, Ha. subst k a. unfold tau.
    destruct m as [|[|m]]; cbn in Hs, He; [| |destruct m; discriminate]; injection Hs as <-; injection He as <-; field. }
  assert (FL : forall i j d l am, nth_error [1; 2] j = Some d -> nth_error (h_lists h) i = Some (mkHL l yes) ->
    flo (firstn (S j) [1; 2]) = Ok l -> am = firstn (S j) [10; 20] -> pays_on (DS := fl) (DC := no_counts) h 0 (PrList i) [1; 2] am).
  { intros i j d l am Hd Hl HL ->.
    assert (Lj : (j < 2)%nat) by (apply nth_Some_lt in Hd; exact Hd).
    apply (C127_floating_list fl (fun d => d) no_counts float_laws [1; 2] 0 h i j d l (One 1000) (repeat 1000 (S j)) 0 DcDefault 0 tau fwd (fun s => 1 / 100 * (1 + s))); auto; try apply repeat_length.
    - rewrite firstn_length. cbn [length]. lia.
    - intros fuel s _ _. reflexivity.
    - intros m s e k a Hs He Hn Ha. apply nth_error_In, repeat_spec in Hn. subst k. apply nth_firstn in Ha. destruct Ha as [Ha _]. unfold tau.
      destruct m as [|[|m]]; cbn in Hs, He, Ha; [| |destruct m; discriminate]; injection Hs as <-; injection He as <-; injection Ha as <-; field. }
  assert (LA : stairs (DS := fl) (DC := no_counts) h 0 [1; 2] ps ams).
  { split; [reflexivity|]. split; [reflexivity|]. intros [|[|j]] d p am Hd Hp Ha; [| |destruct j; discriminate];
      injection Hd as <-; injection Hp as <-; injection Ha as <-.
    - destruct (C127_leg_list fl no_counts [1; 2] 0 h [0%nat; 1%nat] [1] (Some 0) 1 [[- 30]; [10]] [- 20]) as [Q1 Q2]; [reflexivity| | |auto].
      + repeat constructor; [now apply (FX 0%nat 0%nat 1 l0)|now apply (FL 1%nat 0%nat 1 l1)].
      + intros [|m] x Hx; [|destruct m; discriminate]. injection Hx as <-. cbn. lra.
    - destruct (C127_leg_list fl no_counts [1; 2] 0 h [2%nat; 3%nat] [1; 2] (Some 0) 2 [[- 30; - 30]; [10; 20]] [- 20; - 10]) as [Q1 Q2]; [| | |auto].
      + destruct (d_max_ok (L := float_laws) [1; 2]) as (m & E & I & Q); [discriminate|]. rewrite E. destruct I as [<-|[<-|[]]]; [|reflexivity].
        specialize (Q 2 (or_intror (or_introl eq_refl))). lra.
      + repeat constructor; [now apply (FX 2%nat 1%nat 2 l2)|now apply (FL 3%nat 1%nat 2 l3)].
      + intros [|[|m]] x Hx; [| |destruct m; discriminate]; injection Hx as <-; cbn; lra. }
  set (D1 := exp (- (10 / 1000))). set (D2 := exp (- (18 / 1000))).
  assert (exists df e : R -> R, df 1 = D1 /\ df 2 = D2 /\ e 1 = 1 / 100000000 /\ e 2 = 4 / 100000000) as (df & e & F1 & F2 & G1 & G2).
  { exists (fun d : R => if Req_EM_T d 1 then D1 else D2), (fun d : R => if Req_EM_T d 1 then 1 / 100000000 else 4 / 100000000).
    repeat split; repeat (destruct (Req_EM_T _ _); try lra). }
  assert (AB : - (1 / 10) <= 2 / 10) by lra.
  assert (AM : forall j before m, nth_error ams j = Some (before ++ [m]) -> (j = 0%nat /\ before = [] /\ m = - 20) \/ (j = 1%nat /\ before = [- 20] /\ m = - 10)).
  { intros [|[|j]] before m H; cbn in H; [| |destruct j; discriminate]; injection H as H;
      [change [- 20] with ([] ++ [- 20]) in H|change [- 20; - 10] with ([- 20] ++ [- 10]) in H]; apply app_inj_tail in H; destruct H as [<- <-]; auto. }
  assert (B10 : Rabs (- 10) = 10) by (rewrite Rabs_left1; lra). assert (B20 : Rabs (- 20) = 20) by (rewrite Rabs_left1; lra).
  destruct (C127_products_return fl (fun d => d) no_counts float_laws DcDefault tau [1; 2] [1 / 100; 1 / 100] 0 None c ams h
    ps 0 None None None None (Many [- 20 * D1; - 20 * D1 - 10 * D2]) (1 / 10000000) (- (1 / 10)) (2 / 10) df e) as (steps & ST); auto; try reflexivity.
  { exact tau_f_monotone. }
  { intros j before m H. destruct (AM j before m H) as [(_ & _ & ->)|(_ & _ & ->)]; lra. }
  { lra. }
  { intros j d before m t Hd Hm Ht. unfold value_on. destruct (AM j before m Hm) as [(-> & -> & ->)|(-> & -> & ->)];
      cbn in Hd, Ht; injection Hd as <-; injection Ht as <-;
      cbn [app combine map Rsum fst snd]; rewrite ?B10, ?B20, ?F1, ?F2, ?G1, ?G2; split; lra. }
  { intros j d before m y Hd Hm Hy. unfold value_on, tau. destruct (AM j before m Hm) as [(-> & -> & ->)|(-> & -> & ->)];
      cbn in Hd, Hy; injection Hd as <-; injection Hy as <-;
      cbn [app combine map Rsum fst snd]; rewrite ?B10, ?B20, ?F1, ?F2, ?G1, ?G2.
    - pose proof (exp_gap (- ((1 / 100 + 2 / 10) * (1 - 0))) (- (10 / 1000)) ltac:(lra) ltac:(lra)) as H1.
      pose proof (exp_gap (- (10 / 1000)) (- ((1 / 100 + - (1 / 10)) * (1 - 0))) ltac:(lra) ltac:(lra)) as H2. fold D1 in H1, H2. lra.
    - pose proof (exp_gap (- ((1 / 100 + 2 / 10) * (2 - 0))) (- (18 / 1000)) ltac:(lra) ltac:(lra)) as H1.
      pose proof (exp_gap (- (18 / 1000)) (- ((1 / 100 + - (1 / 10)) * (2 - 0))) ltac:(lra) ltac:(lra)) as H2. fold D2 in H1, H2. lra. }
  exists h, steps. intros n Ln. cbv zeta. fold D1 D2. destruct (ST (S (S n)) Ln) as (data & RUN).
  destruct (C127_products fl (fun d => d) no_counts float_laws DcDefault tau [1; 2] [1 / 100; 1 / 100] (Some 0) 0 0 None c ams h ps 0 n None None None None
    _ _ _ _ data h A tau_f_monotone eq_refl NE INC OG AF eq_refl HN eq_refl LA AB eq_refl eq_refl eq_refl RUN) as (_ & LD & c' & df' & EC & DF & PV & _).
  destruct (PV 0%nat _ _ _ eq_refl eq_refl eq_refl) as (P1 & _ & Q1). destruct (PV 1%nat _ _ _ eq_refl eq_refl eq_refl) as (P2 & Q2 & _).
  exists data, c', (value_on [1; 2] df' [- 20]), (value_on [1; 2] df' [- 20; - 10]).
  split; [exact RUN|]. split; [exact EC|]. split; [exact P1|]. split; [exact P2|]. split; [now apply Q1|lra].
Qed.
