(** Property C127: bootstrapping a zero rate curve from bonds. *)
From Coq Require Import Reals Lra Lia List Bool ZArith Sorted.
From Verif Require Import Num Py Spec MDates MInterpolation MCurve MRateCurve MOption MCashflow MBracket MPricer
  SDates SInterpolation SCurve SRateCurve SCashflow SPricer SBracket SYield SFit SBootstrap LBase LSort LDates LInterpolation LCurve LCurve2
  LDateCurve LDateCurve2 LCashflow LRateCurve LRateCurve3 LCast LPricer LPricer2 LPricer3 LBracket LYield LFair LFit LMore LInterpolation2
  PBracket PCashflow PRateCurve2 PPricer PFit LBootstrap.
Import ListNotations.
Open Scope R_scope.

Section Bootstrap.
  Context {D P : Type} (DS : DateSys R D P) (tm : D -> R) (DC : DayCounts R D) (L : DateLaws DS tm).

  (** the curve rebuilt from the data *)
  Lemma rebuilt count tau grid ys orig o v tenor (c : rcurve R D P) ams h ps k n flr v0 targets data xs s (Q : nat -> R -> Prop) :
    additive (dc_apply count) tau -> monotone tau -> dc_kwarg count = count ->
    grid <> [] -> increasing (map tm grid) -> dom_origin orig grid = Some o ->
    (forall d, In d grid -> tm v <= tm d) -> length ys = length grid ->
    rc_new CZeroRate grid ys None orig count tenor = Ok c -> nth_error (h_curves h) k = Some c ->
    stairs h v grid ps ams -> match v0 with Some w => w | None => o end = v ->
    length data = length grid -> length xs = length grid -> on_grid c grid xs = Ok s ->
    (forall i d x y, nth_error grid i = Some d -> nth_error xs i = Some x -> rc_call c d = Ok y -> nth_error data i = Some (y + x)) ->
    (forall j p t, nth_error ps j = Some p -> nth_error (spread_arg targets (length ps)) j = Some t ->
       exists w, returns (get_present_value (S (S n)) flr p k v0) (with_spread h k c s) w /\ Q j (w - t)) ->
    exists c' df, rc_new CZeroRate grid data None orig count tenor = Ok c' /\
      (forall d, In d grid -> get_discount_factor (S (S n)) c' v d = Ok (df d)) /\
      forall j p am t, nth_error ps j = Some p -> nth_error ams j = Some am ->
         nth_error (spread_arg targets (length ps)) j = Some t ->
         returns (get_present_value (S (S n)) flr p k v0) (with_curve h k c') (value_on grid df am) /\ Q j (value_on grid df am - t).
  Proof.
    intros A MO KW NE INC OG AV LY HN HK LA HV LD LX G DA0 PV.
    destruct (curve_facts (L:=L) count tau A MO grid ys orig o v tenor NE INC OG AV LY c HN) as (C1 & C2 & C3 & C4 & C5 & C6 & C7 & C8).
    destruct (curve_built (L:=L) count tau A MO grid ys orig o v tenor NE INC OG AV LY c HN) as (_ & VC & _).
    assert (DA := DA0).
    destruct (built_curve (L:=L) count tau A MO grid ys orig o v NE INC OG AV LY data tenor LD) as (c' & E' & B' & V' & V0' & W').
    exists c', (dfx tau grid ys o v xs). split; [exact E'|].
    assert (VD : forall i d, nth_error grid i = Some d -> nth i data 0 = nth i ys 0 + nth i xs 0).
    { intros i d Hi. assert (Li : (i < length grid)%nat) by (now apply nth_Some_lt in Hi).
      apply nth_error_nth. apply (DA i d); auto. apply nth_error_nth'. now rewrite LX. }
    destruct B' as (B1 & B2 & B3 & B4 & B5 & B6 & B7 & B8 & B9 & B10).
    assert (DF : forall d, In d grid -> get_discount_factor (S (S n)) c' v d = Ok (dfx tau grid ys o v xs d)).
    { apply (curve_df (L:=L) tau grid ys o v c' xs B1 B3 B10 B9).
      - destruct (nth_lt_Some grid 0) as (d0 & H0); [destruct grid; [congruence|cbn; lia]|]. unfold zv. rewrite <- (VD 0%nat d0 H0). exact V0'.
      - intros d Id. destruct (in_grid grid d Id) as (i & Hi & _). rewrite (zr_at (L:=L) grid ys INC xs i d Hi), <- (VD i d Hi). auto. }
    split; [exact DF|].
    intros j p am t Hp Hb Ht.
    destruct (nth_lt_Some grid j) as (d & Hd); [destruct LA as (_ & <- & _); now apply nth_Some_lt in Hb|]. split.
    - apply (bond_value grid o v AV h ps ams LA (with_curve h k c') k c' v0 (S (S n)) flr j d am p); auto; [lia|].
      cbn. apply set_nth_nth. now apply nth_Some_lt in HK.
    - destruct (PV j p t Hp Ht) as (w & RW & WE).
      assert (W : w = value_on grid (dfx tau grid ys o v xs) am).
      { assert (RW' : returns (get_present_value (S (S n)) flr p k v0) (with_spread h k c s) (value_on grid (dfx tau grid ys o v xs) am)).
        { apply (bond_value grid o v AV h ps ams LA (with_spread h k c s) k
            (mkR (rc_cls c) (rc_dc c) (rc_tenor0 c) (Some (inr s))) v0 (S (S n)) flr j d am p); auto; [lia| |].
          - unfold with_spread. cbn [h_curves]. apply set_nth_nth. now apply nth_Some_lt in HK.
          - intros x X. now apply (spread_df (L:=L) count tau A MO KW grid ys orig o v tenor NE INC OG AV LY c HN). }
        unfold returns in RW, RW'. rewrite RW in RW'. injection RW'. auto. }
      now rewrite <- W.
  Qed.

  (** if the fit of a zero rate curve to one bond per grid date returns, the objects are
      unchanged and the zero rate curve built from the grid and the data values every bond
      at its target, with an error below the precision; the new zero rates are within the
      bounds of the old ones. The curve may or may not have a given origin; the valuation
      date, by default the origin, is not after the first grid date *)
  Theorem C127_bonds : forall count tau grid ys orig o v tenor (c : rcurve R D P) ams h ps k n flr v0 fitting grid0 targets precision a b data h',
    additive (dc_apply count) tau -> monotone tau -> dc_kwarg count = count ->
    grid <> [] -> increasing (map tm grid) -> dom_origin orig grid = Some o ->
    (forall d, In d grid -> tm o <= tm d /\ tm v <= tm d) -> length ys = length grid ->
    rc_new CZeroRate grid ys None orig count tenor = Ok c -> nth_error (h_curves h) k = Some c ->
    ladder h v grid ps ams -> a <= b ->
    match v0 with Some w => w | None => o end = v ->
    match fitting with Some i => i | None => k end = k -> match grid0 with Some g => g | None => grid end = grid ->
    get_curve_fit (S (S n)) flr ps k v0 fitting grid0 targets precision a b h = (Ok data, h') ->
    h' = h /\ length data = length grid /\ exists c' df, rc_new CZeroRate grid data None orig count tenor = Ok c' /\
      (forall d, In d grid -> get_discount_factor (S (S n)) c' v d = Ok (df d)) /\
      (forall j p am t, nth_error ps j = Some p -> nth_error ams j = Some am ->
         nth_error (spread_arg targets (length ps)) j = Some t ->
         returns (get_present_value (S (S n)) flr p k v0) (with_curve h k c') (value_on grid df am) /\
         Rabs (value_on grid df am - t) < precision) /\
      forall j y z, nth_error ys j = Some y -> nth_error data j = Some z -> y + a <= z <= y + b.
  Proof.
    intros count tau grid ys orig o v tenor c ams h ps k n flr v0 fitting grid0 targets prec a b data h'
      A MO KW NE INC OG AF LY HN HK LA AB HV EF EG H.
    pose proof (ladder_stairs _ _ _ _ _ LA) as LS.
    pose proof (increasing_distinct _ INC) as ND.
    assert (AV : forall d, In d grid -> tm v <= tm d) by (intros d I; apply (AF d I)).
    destruct (curve_facts (L:=L) count tau A MO grid ys orig o v tenor NE INC OG AV LY c HN) as (C1 & C2 & C3 & C4 & C5 & C6 & C7 & C8).
    destruct (curve_built (L:=L) count tau A MO grid ys orig o v tenor NE INC OG AV LY c HN) as (_ & VC & _).
    assert (PC : plain_cls (rc_cls c)) by (rewrite C1; exact I).
    assert (A' : additive (dc_apply (dc_kwarg (dc_count (rc_dc c)))) tau) by (rewrite C5, KW; exact A).
    assert (EG' : match grid0 with Some g => g | None => rc_domain c end = grid) by (now rewrite C2).
    pose proof (ladder_priced (L:=L) count tau A MO KW grid ys orig o v tenor NE INC OG AV LY c HN h ps ams LS k HK n flr v0 HV) as PR.
    pose proof (ladder_local (L:=L) tau grid ys o v INC LY h ps ams LS) as LOC.
    pose proof (ladder_one_each tau grid ys o v INC LY h ps ams LS) as ONE.
    set (qs := quotes tau grid ys o v ams) in *.
    destruct (C50_cumulative DS tm DC L tau (S (S n)) flr h c k k v0 fitting grid0 grid targets ps qs prec a b data h'
      HK C6 PC A' NE ND EF EG' PR LOC H) as (E & xs0 & s0 & LX0 & G0 & LD & DA0 & IN0 & _).
    split; [exact E|]. split; [exact LD|].
    destruct (C50_same_direction DS tm DC L tau (S (S n)) flr h c k k v0 fitting grid0 grid targets ps qs prec a b data h'
      HK C6 PC A' NE ND AB EF EG' PR LOC ONE) as (xs & s & LX & G & _ & DA & PV); [|exact H|].
    { right. intros j q zs x y Hq LZ XY. destruct (quotes_nth tau grid ys o v ams j q Hq) as (d & am & Hd & Hb & ->).
      destruct (ladder_last (L:=L) count tau A grid ys o v INC LY h ps ams LS j d am zs Hd Hb LZ) as (bf & nn & rest & fx & EA & _ & EQ).
      assert (NP : 0 < nn).
      { destruct LA as (LP & _ & LL). destruct (nth_lt_Some ps j) as (p & Hp); [rewrite LP; now apply nth_Some_lt in Hd|].
        destruct (LL j d p am Hd Hp Hb) as (_ & _ & bf' & n' & EA' & _ & NP). rewrite EA in EA'. apply app_inj_tail in EA'. now destruct EA' as [_ ->]. }
      rewrite !EQ. apply Rplus_le_compat_l, Rmult_le_compat_l; [lra|]. set (kp := if Nat.eqb j 0 then tau v d else tau o d).
      assert (TP : 0 <= kp).
      { unfold kp. destruct (AF d (nth_error_In _ _ Hd)). destruct (Nat.eqb j 0); now apply (tau_mono (L:=L) count tau A MO). }
      assert (Q : fx - (nth j ys 0 + y) * kp <= fx - (nth j ys 0 + x) * kp) by nra.
      destruct Q as [Q| ->]; [|lra]. left. now apply exp_increasing. }
    destruct (rebuilt count tau grid ys orig o v tenor c ams h ps k n flr v0 targets data xs s
      (fun _ x => Rabs x < prec) A MO KW NE INC OG AV LY HN HK LS HV LD LX G DA PV) as (c' & df & E' & DF & R').
    exists c', df. split; [exact E'|]. split; [exact DF|]. split; [exact R'|].
    intros j y z Hy Hz. destruct (nth_lt_Some grid j) as (d & Hd); [rewrite <- LY; now apply nth_Some_lt in Hy|].
      assert (Hx : nth_error xs0 j = Some (nth j xs0 0)) by (apply nth_error_nth'; rewrite LX0; now apply nth_Some_lt in Hd).
      pose proof (DA0 j d _ (nth j ys 0) Hd Hx (VC j d Hd)) as Q.
      rewrite (nth_error_nth _ _ 0 Hy) in Q. rewrite Hz in Q. injection Q as ->.
      pose proof (IN0 _ (nth_error_In _ _ Hx)) as [I1 I2]. rewrite Rmin_left in I1 by lra. rewrite Rmax_right in I2 by lra. lra.
  Qed.

  (** products which pay any amounts of any sign, swaps say: each is met up to twice the
      precision *)
  Theorem C127_products : forall count tau grid ys orig o v tenor (c : rcurve R D P) ams h ps k n flr v0 fitting grid0 targets precision a b data h',
    additive (dc_apply count) tau -> monotone tau -> dc_kwarg count = count ->
    grid <> [] -> increasing (map tm grid) -> dom_origin orig grid = Some o ->
    (forall d, In d grid -> tm v <= tm d) -> length ys = length grid ->
    rc_new CZeroRate grid ys None orig count tenor = Ok c -> nth_error (h_curves h) k = Some c ->
    stairs h v grid ps ams -> a <= b ->
    match v0 with Some w => w | None => o end = v ->
    match fitting with Some i => i | None => k end = k -> match grid0 with Some g => g | None => grid end = grid ->
    get_curve_fit (S (S n)) flr ps k v0 fitting grid0 targets precision a b h = (Ok data, h') ->
    h' = h /\ length data = length grid /\ exists c' df, rc_new CZeroRate grid data None orig count tenor = Ok c' /\
      (forall d, In d grid -> get_discount_factor (S (S n)) c' v d = Ok (df d)) /\
      (forall j p am t, nth_error ps j = Some p -> nth_error ams j = Some am ->
         nth_error (spread_arg targets (length ps)) j = Some t ->
         returns (get_present_value (S (S n)) flr p k v0) (with_curve h k c') (value_on grid df am) /\
         Rabs (value_on grid df am - t) < 2 * precision /\ (j = 0%nat -> Rabs (value_on grid df am - t) < precision)) /\
      forall j y z, nth_error ys j = Some y -> nth_error data j = Some z -> y + a <= z <= y + b.
  Proof.
    intros count tau grid ys orig o v tenor c ams h ps k n flr v0 fitting grid0 targets prec a b data h'
      A MO KW NE INC OG AF LY HN HK LS AB HV EF EG H.
    pose proof (increasing_distinct _ INC) as ND.
    assert (AV : forall d, In d grid -> tm v <= tm d) by exact AF.
    destruct (curve_facts (L:=L) count tau A MO grid ys orig o v tenor NE INC OG AV LY c HN) as (C1 & C2 & C3 & C4 & C5 & C6 & C7 & C8).
    destruct (curve_built (L:=L) count tau A MO grid ys orig o v tenor NE INC OG AV LY c HN) as (_ & VC & _).
    assert (PC : plain_cls (rc_cls c)) by (rewrite C1; exact I).
    assert (A' : additive (dc_apply (dc_kwarg (dc_count (rc_dc c)))) tau) by (rewrite C5, KW; exact A).
    assert (EG' : match grid0 with Some g => g | None => rc_domain c end = grid) by (now rewrite C2).
    pose proof (ladder_priced (L:=L) count tau A MO KW grid ys orig o v tenor NE INC OG AV LY c HN h ps ams LS k HK n flr v0 HV) as PR.
    pose proof (ladder_local (L:=L) tau grid ys o v INC LY h ps ams LS) as LOC.
    pose proof (ladder_one_each tau grid ys o v INC LY h ps ams LS) as ONE.
    set (qs := quotes tau grid ys o v ams) in *.
    destruct (C50_cumulative DS tm DC L tau (S (S n)) flr h c k k v0 fitting grid0 grid targets ps qs prec a b data h'
      HK C6 PC A' NE ND EF EG' PR LOC H) as (E & xs0 & s0 & LX0 & G0 & LD & DA0 & IN0 & _).
    split; [exact E|]. split; [exact LD|].
    destruct (C50_each DS tm DC L tau (S (S n)) flr h c k k v0 fitting grid0 grid targets ps qs prec a b data h'
      HK C6 PC A' NE ND EF EG' PR LOC ONE H) as (xs & s & LX & G & _ & DA & PV).
    destruct (rebuilt count tau grid ys orig o v tenor c ams h ps k n flr v0 targets data xs s
      (fun j x => Rabs x < 2 * prec /\ (j = 0%nat -> Rabs x < prec)) A MO KW NE INC OG AV LY HN HK LS HV LD LX G DA PV) as (c' & df & E' & DF & R').
    exists c', df. split; [exact E'|]. split; [exact DF|]. split; [exact R'|].
    intros j y z Hy Hz. destruct (nth_lt_Some grid j) as (d & Hd); [rewrite <- LY; now apply nth_Some_lt in Hy|].
      assert (Hx : nth_error xs0 j = Some (nth j xs0 0)) by (apply nth_error_nth'; rewrite LX0; now apply nth_Some_lt in Hd).
      pose proof (DA0 j d _ (nth j ys 0) Hd Hx (VC j d Hd)) as Q.
      rewrite (nth_error_nth _ _ 0 Hy) in Q. rewrite Hz in Q. injection Q as ->.
      pose proof (IN0 _ (nth_error_In _ _ Hx)) as [I1 I2]. rewrite Rmin_left in I1 by lra. rewrite Rmax_right in I2 by lra. lra.
  Qed.

  (** ** Which products pay on a grid *)

  (** a FixedCashFlowList with amounts at the first grid dates *)
  Theorem C127_fixed_list : forall grid v h i j d l am origin,
    increasing (map tm grid) -> (forall d, In d grid -> tm v <= tm d) -> nth_error grid j = Some d -> length am = S j ->
    nth_error (h_lists h) i = Some (mkHL l HNone : hlist R D P) -> fixed_new (firstn (S j) grid) (Many am) origin = Ok l ->
    last_payment h (PrList i) d /\ pays_on h v (PrList i) grid am.
  Proof.
    intros grid v h i j d l am origin INC AV Hd LM Li FN.
    assert (K : cf_domain l = firstn (S j) grid).
    { destruct (C37_fixed DS DC tm L 0 None _ _ _ _ FN (prefix_nodup grid INC (S j))) as (_ & DM & _). exact DM. }
    split; [now apply (list_last (L:=L) grid INC h i l HNone d j)|].
    apply (list_pays (L:=L) grid v AV h i l am).
    - intros h' HL. exists (mkHL l HNone), LNone. rewrite HL. split; [exact Li|]. split; [|reflexivity].
      unfold fixed_new in FN. destruct (cf_new_inv _ _ _ _ _ _ FN) as [_ ->]. reflexivity.
    - now rewrite LM.
    - rewrite LM. apply nth_Some_lt in Hd. lia.
    - intros fuel flr m x y _ Hx Hy.
      destruct (C37_fixed DS DC tm L fuel flr _ _ _ _ FN (prefix_nodup grid INC (S j))) as (_ & _ & PY & _).
      apply (PY m x y); auto; [|apply (LDates.eqb_refl (L:=L))]. apply prefix_nth; auto. apply nth_Some_lt in Hy. lia.
  Qed.

  (** a zero bond *)
  Theorem C127_zero_bond : forall grid v h p j d n,
    increasing (map tm grid) -> (forall d, In d grid -> tm v <= tm d) -> nth_error grid j = Some d -> zero_bond h p d n ->
    last_payment h p d /\ pays_on h v p grid (repeat 0 j ++ [n]).
  Proof.
    intros grid v h p j d n INC AV Hd (i & l & og & -> & Li & FN).
    assert (ND1 : NoDup (map tm [d])) by (cbn; repeat constructor; intros []).
    destruct (C37_fixed DS DC tm L 0 None _ _ _ _ FN ND1) as (_ & DM & _). split.
    - exists [d]. split; [|reflexivity]. unfold returns, pr_domain, bindS, get_list, lift, ret.
      rewrite (nth_res_some _ _ _ Li). cbn [hl_list]. now rewrite DM.
    - intros fuel flr h' k disc df _ HL HK HD. rewrite (value_snoc grid df _ n d) by (now rewrite repeat_length).
      rewrite value_zeros, Rplus_0_l.
      assert (Id : In d grid) by (eapply nth_error_In; eauto).
      replace (df d * n) with (pairs_value DS v df [d] [n]).
      + apply (C40_pairs DS DC tm L fuel flr h' i k disc v l [d] [n] og df HK); auto; [now rewrite HL|].
        intros x [<-|[]] _. auto.
      + unfold pairs_value. cbn [combine map Rsum fst snd]. rewrite (leb_t (L:=L)) by auto. ring.
  Qed.

  (** a RateCashFlowList with a forward curve which is not the fitted one *)
  Theorem C127_floating_list : forall grid v h i j d l amounts ns og count rate tau fwd (f : D -> R) am,
    increasing (map tm grid) -> (forall d, In d grid -> tm v <= tm d) -> nth_error grid j = Some d ->
    spread_arg amounts (S j) = ns -> length ns = S j -> length am = S j ->
    nth_error (h_lists h) i = Some (mkHL l (HForward (fun _ => fwd)) : hlist R D P) ->
    ratelist_new (firstn (S j) grid) amounts (Some og) count None None rate fwd = Ok l ->
    (forall a b, pay_count count a b = Ok (tau a b)) ->
    (forall fuel s, (2 <= fuel)%nat -> In s (og :: grid) -> forward_at fuel fwd s (f s)) ->
    (forall m s e n a, nth_error (og :: grid) m = Some s -> nth_error grid m = Some e -> nth_error ns m = Some n ->
       nth_error am m = Some a -> a = (rate + f s) * tau s e * n) ->
    last_payment h (PrList i) d /\ pays_on h v (PrList i) grid am.
  Proof.
    intros grid v h i j d l amounts ns og count rate tau fwd f am INC AV Hd SA LN LM Li RN PC FW AM.
    assert (RN' : ratelist_new (firstn (S j) grid) (Many ns) (Some og) count None None rate fwd = Ok l).
    { rewrite <- RN. unfold ratelist_new. cbn [start_dates bind]. cbn [spread_arg]. rewrite firstn_length, Nat.min_l, SA; [reflexivity|].
      apply nth_Some_lt in Hd. lia. }
    clear RN. rename RN' into RN.
    assert (DM : cf_domain l = firstn (S j) grid /\ cf_attr l = LForward fwd).
    { unfold ratelist_new in RN. cbn [start_dates bind] in RN.
      destruct (rate_payoffs _ _ _ _ _ _ _) as [rs|]; [|discriminate]. cbn [bind] in RN.
      destruct (cf_new_inv _ _ _ _ _ _ RN) as [_ ->]. split; reflexivity. }
    destruct DM as [DM AT].
    split; [now apply (list_last (L:=L) grid INC h i l (HForward (fun _ => fwd)) d j)|].
    apply (list_pays (L:=L) grid v AV h i l am).
    - intros h' HL. exists (mkHL l (HForward (fun _ => fwd))), (LForward fwd). rewrite HL. split; [exact Li|]. split; [|reflexivity].
      cbn [hl_list]. rewrite <- AT. now destruct l.
    - now rewrite LM.
    - rewrite LM. apply nth_Some_lt in Hd. lia.
    - intros fuel flr m e x LF He Hx. assert (Lm : (m < S j)%nat) by (apply nth_Some_lt in Hx; lia).
      destruct (nth_lt_Some ns m) as (n & Hn); [lia|].
      destruct (nth_lt_Some (og :: firstn (S j) grid) m) as (s & Hs).
      { cbn [length]. rewrite firstn_length. apply nth_Some_lt in Hd. lia. }
      assert (Hs' : nth_error (og :: grid) m = Some s).
      { destruct m as [|m]; [exact Hs|]. cbn [nth_error] in Hs |- *. now apply nth_firstn in Hs. }
      rewrite (AM m s e n x Hs' He Hn Hx).
      apply (C38_flow DS DC tm L fuel flr _ _ _ _ _ _ _ _ _ RN (prefix_nodup grid INC (S j)) m s e n s e s (f s) (tau s e)); auto.
      + now apply prefix_nth.
      + reflexivity.
      + reflexivity.
      + reflexivity.
      + apply FW; [exact LF|]. eapply nth_error_In; eauto.
      + apply (LDates.eqb_refl (L:=L)).
  Qed.

  (** a RateCashFlowList with fixed rate and without forward curve *)
  Theorem C127_rate_list : forall grid v h i j d l amounts ns og count rate tau am,
    increasing (map tm grid) -> (forall d, In d grid -> tm v <= tm d) -> nth_error grid j = Some d ->
    spread_arg amounts (S j) = ns -> length ns = S j -> length am = S j ->
    nth_error (h_lists h) i = Some (mkHL l (HForward (fun _ => FwNone)) : hlist R D P) ->
    ratelist_new (firstn (S j) grid) amounts (Some og) count None None rate FwNone = Ok l ->
    (forall a b, pay_count count a b = Ok (tau a b)) ->
    (forall m s e n a, nth_error (og :: grid) m = Some s -> nth_error grid m = Some e -> nth_error ns m = Some n ->
       nth_error am m = Some a -> a = rate * tau s e * n) ->
    last_payment h (PrList i) d /\ pays_on h v (PrList i) grid am.
  Proof.
    intros grid v h i j d l amounts ns og count rate tau am INC AV Hd SA LN LM Li RN PC AM.
    apply (C127_floating_list grid v h i j d l amounts ns og count rate tau FwNone (fun _ => 0) am); auto.
    - intros fuel s _ _. reflexivity.
    - intros m s e n x Hs He Hn Hx. rewrite Rplus_0_r. now apply (AM m s e n x).
  Qed.

  (** a CashFlowLegList of such lists pays the sums of the amounts *)
  Theorem C127_leg_list : forall grid v h legs dom og d ams am,
    d_max dom = Ok d ->
    Forall2 (fun i a => pays_on h v (PrList i) grid a /\ length a = length am) legs ams ->
    (forall m x, nth_error am m = Some x -> x = Rsum (map (fun a => nth m a 0) ams)) ->
    last_payment h (PrLegs legs dom og) d /\ pays_on h v (PrLegs legs dom og) grid am.
  Proof.
    intros grid v h legs dom og d ams am DM F AM. split; [exists dom; split; [reflexivity|exact DM]|].
    intros fuel flr h' k disc df LF HL HK HD.
    apply (C40_legs DS DC fuel flr h' legs dom og k disc v _ HK).
    exists (map (value_on grid df) ams). split.
    - clear AM. induction F as [|i a l l' [H1 _] F IH]; constructor; auto. now apply (H1 fuel flr h' k disc df).
    - assert (LE : forall a, In a ams -> length a = length am).
      { clear AM. induction F as [|i a l l' [_ H1] F IH]; intros x []; subst; auto. }
      clear F HD. revert ams am LE AM. unfold value_on. induction grid as [|g l IH]; intros ams am LE AM.
      + cbn. clear. induction ams; cbn; lra.
      + destruct am as [|x am].
        * cbn. assert (Z : forall a, In a ams -> a = []) by (intros a Ia; specialize (LE a Ia); now destruct a).
          clear -Z. induction ams as [|a l0 IH]; cbn; [lra|]. rewrite (Z a) by now left. rewrite <- IH; [cbn; lra|]. intros; apply Z; now right.
        * cbn [combine map Rsum fst snd]. rewrite (IH (map (@tl R) ams) am).
          -- rewrite (AM 0%nat x eq_refl). rewrite map_map. clear -LE. induction ams as [|a l0 IH0]; cbn [map Rsum]; [lra|].
             destruct a as [|y a]; [specialize (LE [] (or_introl eq_refl)); discriminate|]. cbn [tl combine map Rsum fst snd nth].
             specialize (IH0 (fun z Hz => LE z (or_intror Hz))). lra.
          -- intros a Ia. apply in_map_iff in Ia. destruct Ia as (a0 & <- & I0). specialize (LE a0 I0). destruct a0; cbn in *; [discriminate|lia].
          -- intros m y Hy. rewrite (AM (S m) y Hy), map_map. f_equal. apply map_ext. intros [|? ?]; [now destruct m|reflexivity].
  Qed.

  (** zero bonds are a ladder *)
  Definition zero_amounts (notionals : list R) : list (list R) :=
    map (fun jn => repeat 0 (fst jn) ++ [snd jn]) (combine (seq 0 (length notionals)) notionals).
  Lemma zero_ladder o grid notionals h ps : increasing (map tm grid) -> (forall d, In d grid -> tm o <= tm d) ->
    length notionals = length grid -> (forall m, In m notionals -> 0 < m) -> length ps = length grid ->
    (forall j p d m, nth_error ps j = Some p -> nth_error grid j = Some d -> nth_error notionals j = Some m -> zero_bond h p d m) ->
    ladder h o grid ps (zero_amounts notionals) /\
    forall j m, nth_error notionals j = Some m -> nth_error (zero_amounts notionals) j = Some (repeat 0 j ++ [m]).
  Proof.
    intros INC AV LN PN LP HB.
    assert (BN : forall j m, nth_error notionals j = Some m -> nth_error (zero_amounts notionals) j = Some (repeat 0 j ++ [m])).
    { intros j m Hm. unfold zero_amounts. rewrite nth_error_map.
      rewrite (combine_nth_both (seq 0 (length notionals)) notionals j j m); auto.
      rewrite (nth_error_nth' _ 0%nat) by (rewrite seq_length; now apply nth_Some_lt in Hm).
      rewrite seq_nth by (now apply nth_Some_lt in Hm). reflexivity. }
    split; [|exact BN]. split; [exact LP|]. split; [unfold zero_amounts; rewrite map_length, combine_length, seq_length; lia|].
    intros j d p am Hd Hp Ha. destruct (nth_lt_Some notionals j) as (m & Hm); [rewrite LN; now apply nth_Some_lt in Hd|].
    rewrite (BN j m Hm) in Ha. injection Ha as <-.
    destruct (C127_zero_bond grid o h p j d m INC AV Hd (HB j p d m Hp Hd Hm)) as [LP' PO]. split; [exact LP'|]. split; [exact PO|].
    exists (repeat 0 j), m. split; [reflexivity|]. split; [apply repeat_length|]. apply PN. eapply nth_error_In; eauto.
  Qed.

  (** zero bonds: with enough steps the fit returns, if the target of each bond lies, by at
      least the precision, between its values with the zero rate at the bounds *)
  Theorem C127_returns : forall count tau grid ys o tenor (c : rcurve R D P) notionals h ps k flr v0 fitting grid0 targets precision a b,
    additive (dc_apply count) tau -> monotone tau -> dc_kwarg count = count ->
    grid <> [] -> increasing (map tm grid) -> (forall d, In d grid -> tm o < tm d) -> length ys = length grid ->
    rc_new CZeroRate grid ys None (Some o) count tenor = Ok c -> nth_error (h_curves h) k = Some c ->
    length notionals = length grid -> (forall m, In m notionals -> 0 < m) -> length ps = length grid ->
    (forall j p d m, nth_error ps j = Some p -> nth_error grid j = Some d -> nth_error notionals j = Some m -> zero_bond h p d m) ->
    a <= b -> 0 < precision ->
    match v0 with Some w => w | None => o end = o ->
    match fitting with Some i => i | None => k end = k -> match grid0 with Some g => g | None => grid end = grid ->
    length (spread_arg targets (length ps)) = length ps ->
    (forall j d m y t, nth_error grid j = Some d -> nth_error notionals j = Some m -> nth_error ys j = Some y ->
       nth_error (spread_arg targets (length ps)) j = Some t ->
       m * exp (- ((y + b) * tau o d)) <= t - precision /\ t + precision <= m * exp (- ((y + a) * tau o d))) ->
    exists steps, forall fuel, (steps <= fuel)%nat -> exists data,
      get_curve_fit fuel flr ps k v0 fitting grid0 targets precision a b h = (Ok data, h).
  Proof.
    intros count tau grid ys o tenor c notionals h ps k flr v0 fitting grid0 targets prec a b
      A MO KW NE INC AF LY HN HK LN PN LP HB AB PP HV EF EG LT HT.
    pose proof (increasing_distinct _ INC) as ND.
    assert (AV : forall d, In d grid -> tm o <= tm d) by (intros d I; left; auto).
    destruct (zero_ladder o grid notionals h ps INC AV LN PN LP HB) as [LA0 BN]. set (ams := zero_amounts notionals) in *.
    pose proof (ladder_stairs _ _ _ _ _ LA0) as LA.
    assert (NG : forall j d, nth_error grid j = Some d -> exists m, nth_error notionals j = Some m /\ 0 < m).
    { intros j d Hd. destruct (nth_lt_Some notionals j) as (m & Hm); [rewrite LN; now apply nth_Some_lt in Hd|].
      exists m. split; auto. apply PN. eapply nth_error_In; eauto. }
    assert (OG : dom_origin (Some o) grid = Some o) by reflexivity.
    destruct (curve_facts (L:=L) count tau A MO grid ys (Some o) o o tenor NE INC OG AV LY c HN) as (C1 & C2 & C3 & C4 & C5 & C6 & C7 & C8).
    destruct (curve_built (L:=L) count tau A MO grid ys (Some o) o o tenor NE INC OG AV LY c HN) as (_ & VC & _ & WC).
    assert (PC : plain_cls (rc_cls c)) by (rewrite C1; exact I).
    assert (A' : additive (dc_apply (dc_kwarg (dc_count (rc_dc c)))) tau) by (rewrite C5, KW; exact A).
    assert (EG' : match grid0 with Some g => g | None => rc_domain c end = grid) by (now rewrite C2).
    pose proof (ladder_local (L:=L) tau grid ys o o INC LY h ps ams LA) as LOC.
    pose proof (ladder_one_each tau grid ys o o INC LY h ps ams LA) as ONE.
    set (qs := quotes tau grid ys o o ams) in *. set (ts := spread_arg targets (length ps)) in *.
    assert (T0 : tau o o = 0) by (apply (add_zero _ _ A); apply (LDates.eqb_refl (L:=L))).
    (** a Lipschitz constant *)
    set (slope := fun dmy : D * R * R => snd (fst dmy) * tau o (fst (fst dmy)) * exp (- ((snd dmy + a) * tau o (fst (fst dmy))))).
    assert (exists K, 0 <= K /\ forall j d m y, nth_error grid j = Some d -> nth_error notionals j = Some m -> nth_error ys j = Some y ->
      slope (d, m, y) <= K) as (K & KP & HK').
    { exists (fold_right Rmax 0 (map slope (combine (combine grid notionals) ys))).
      assert (Q : forall l, 0 <= fold_right Rmax 0 l /\ forall x, In x l -> x <= fold_right Rmax 0 l).
      { induction l as [|x l [IH1 IH2]]; cbn; [split; [lra|intros x []]|]. split; [apply (Rle_trans _ _ _ IH1), Rmax_r|].
        intros z [<-|Iz]; [apply Rmax_l|]. apply (Rle_trans _ _ _ (IH2 z Iz)), Rmax_r. }
      split; [apply (proj1 (Q _))|]. intros j d m y Hd Hm Hy. apply (proj2 (Q _)). apply (nth_error_In _ j). rewrite nth_error_map.
      rewrite (combine_nth_both _ _ _ _ _ (combine_nth_both _ _ _ _ _ Hd Hm) Hy). reflexivity. }
    destruct (halving ((1 + K) * (b - a)) prec PP) as (n0 & Hn0).
    exists (S (S (S n0))). intros fuel LF. destruct fuel as [|[|n]]; try lia.
    assert (WN : (1 + K) * ((b - a) / 2 ^ S n) < prec).
    { assert (Le : / 2 ^ S n <= / 2 ^ n0).
      { apply Rinv_le_contravar; [apply pow_lt; lra|]. apply Rle_pow; [lra|lia]. }
      apply (Rle_lt_trans _ ((1 + K) * (b - a) / 2 ^ n0)); [|exact Hn0]. unfold Rdiv.
      rewrite <- Rmult_assoc. apply Rmult_le_compat_l; [|exact Le]. apply Rmult_le_pos; lra. }
    assert (WP : 0 <= (b - a) / 2 ^ S n).
    { apply Rmult_le_pos; [lra|]. left. apply Rinv_0_lt_compat, pow_lt. lra. }
    pose proof (ladder_priced (L:=L) count tau A MO KW grid ys (Some o) o o tenor NE INC OG AV LY c HN h ps ams LA k HK n flr v0 HV) as PR.
    assert (exists s0, rc_cast_on (S (S n)) flr (rc_cls c) grid c None None DcDefault None = Ok s0) as (s0 & CA).
    { destruct (flat_cast_on (L:=L) count tau A c o ltac:(now rewrite C5) ltac:(intros x _; apply WC)
        CZeroRate (S (S n)) flr grid (fun d => value_of (rc_call c d))) as (s0 & E & _).
      - now left.
      - exact ND.
      - exact NE.
      - rewrite C4. reflexivity.
      - intros x Ix. cbn [storage_value]. unfold get_zero_rate1, from_origin, get_zero_rate, interest_only. rewrite C3, C1. cbn [is_interest].
        destruct (WC x) as (vx & Ex). destruct (WC o) as (vo & Eo). rewrite Ex. cbn [value_of].
        assert (NEQ : d_eqb o x = false) by (apply (eqb_f (L:=L)); specialize (AF x Ix); lra).
        rewrite (flat_rate (L:=L) c o tau C3 C8 (S n) o x vo vx); auto; [|now left].
        f_equal. rewrite T0.
        assert (tau o x <> 0) by (intro Q; apply (add_zero _ _ A) in Q; congruence). field. auto.
      - rewrite C1. eauto. }
    assert (exists zs, mapM (rc_call c) grid = Ok zs) as (zs & MZ) by (apply mapM_total; intros; apply WC).
    apply (C50_returns DS tm DC L tau (S n) flr h c k k v0 fitting grid0 grid targets ps qs prec a b s0 zs K
      HK C6 PC A' NE ND EF EG' PR LOC CA MZ).
    - intros i d xs Hd LX PREV. fold ts in PREV |- *.
      destruct (NG i d Hd) as (m & Hm & Pm). pose proof (BN i m Hm) as Hb.
      assert (Li : (i < length grid)%nat) by (now apply nth_Some_lt in Hd).
      assert (Hy : nth_error ys i = Some (nth i ys 0)) by (apply nth_error_nth'; lia).
      assert (Ht : nth_error ts i = Some (nth i ts 0)) by (apply nth_error_nth'; rewrite LT; lia).
      pose proof (quotes_at tau grid ys o o ams i d _ Hd Hb) as Hq. fold qs in Hq.
      assert (VQ : forall x, snd (quote_of tau grid ys o o d (repeat 0 i ++ [m])) (set_nth i x xs) = m * exp (- ((nth i ys 0 + x) * tau o d))).
      { intros x. cbn [quote_of snd]. rewrite (value_snoc grid _ _ m d) by (now rewrite repeat_length). rewrite value_zeros. unfold dfx.
        rewrite (zr_at (L:=L) grid ys INC _ i d Hd), nth_set_same by lia. rewrite T0, Rmult_0_r, Rminus_0_r. ring. }
      assert (exists R0, Rabs R0 < prec /\ forall x, total_error qs ts (set_nth i x xs) d = R0 + (m * exp (- ((nth i ys 0 + x) * tau o d)) - nth i ts 0))
        as (R0 & PR0 & TE).
      { destruct i as [|i].
        - exists 0. split; [rewrite Rabs_R0; lra|]. intros x. rewrite (total_first (L:=L) grid qs ts _ d _ _ ONE Hd Hq Ht), VQ. lra.
        - destruct (nth_lt_Some grid i) as (d' & Hd'); [lia|].
          exists (total_error qs ts xs d'). split; [apply (PREV i d'); auto|]. intros x.
          rewrite (total_step (L:=L) grid qs ts _ i d d' _ _ ONE Hd Hd' Hq Ht), VQ. f_equal.
          apply (total_local (L:=L) grid qs ts LOC i d'); auto; [now rewrite set_nth_length|].
          intros j Lj. apply set_nth_other. lia. }
      destruct (HT i d m _ _ Hd Hm Hy Ht) as [T1 T2]. apply Rabs_def2 in PR0.
      split; [right; rewrite !TE; lra|].
      intros x y [X1 X2] [Y1 Y2]. rewrite Rmin_left in X1, Y1 by lra. rewrite Rmax_right in X2, Y2 by lra. rewrite !TE.
      assert (TP : 0 < tau o d) by (apply MO; apply (ltb_t (L:=L)); apply AF; eapply nth_error_In; eauto).
      pose proof (HK' i d m _ Hd Hm Hy) as SL. unfold slope in SL. cbn [fst snd] in SL.
      apply (Rle_trans _ (m * tau o d * exp (- ((nth i ys 0 + a) * tau o d)) * Rabs (x - y))).
      2:{ apply Rmult_le_compat_r; [apply Rabs_pos|exact SL]. }
      assert (EXP : forall u w, a <= u -> u <= w -> 0 <= exp (- ((nth i ys 0 + u) * tau o d)) - exp (- ((nth i ys 0 + w) * tau o d)) <=
        tau o d * exp (- ((nth i ys 0 + a) * tau o d)) * (w - u)).
      { intros u w U W. set (eu := - ((nth i ys 0 + u) * tau o d)).
        replace (- ((nth i ys 0 + w) * tau o d)) with (eu + - ((w - u) * tau o d)) by (unfold eu; ring). rewrite exp_plus.
        pose proof (exp_pos eu) as PE.
        assert (Q1 : exp (- ((w - u) * tau o d)) <= 1).
        { rewrite <- exp_0. destruct (Req_dec (- ((w - u) * tau o d)) 0) as [->|Q]; [lra|]. left. apply exp_increasing. nra. }
        assert (Q2 : 1 - (w - u) * tau o d <= exp (- ((w - u) * tau o d))).
        { pose proof (exp_ineq1_le (- ((w - u) * tau o d))). lra. }
        assert (Q3 : eu <= - ((nth i ys 0 + a) * tau o d)) by (unfold eu; nra).
        assert (Q4 : exp eu <= exp (- ((nth i ys 0 + a) * tau o d))).
        { destruct Q3 as [Q3|Q3]; [left; now apply exp_increasing|rewrite Q3; lra]. }
        split; [nra|]. apply (Rle_trans _ (exp eu * ((w - u) * tau o d))); [nra|].
        replace (tau o d * exp (- ((nth i ys 0 + a) * tau o d)) * (w - u)) with (exp (- ((nth i ys 0 + a) * tau o d)) * ((w - u) * tau o d)) by ring.
        apply Rmult_le_compat_r; [nra|exact Q4]. }
      destruct (Rle_dec x y) as [XY|XY].
      + destruct (EXP x y X1 XY) as [E1 E2]. rewrite Rabs_pos_eq by nra. rewrite (Rabs_left1 (x - y)) by lra. nra.
      + destruct (EXP y x Y1 ltac:(lra)) as [E1 E2]. rewrite Rabs_left1 by nra. rewrite (Rabs_pos_eq (x - y)) by lra. nra.
    - rewrite Rabs_pos_eq by lra. nra.
    - rewrite Rabs_pos_eq by lra. nra.
  Qed.

  (** zero bonds: the data are the zero rates of the bonds, up to the precision divided by
      the slope of the value *)
  Theorem C127_zero_rates : forall count tau grid ys o tenor (c : rcurve R D P) notionals h ps k n flr v0 fitting grid0 targets precision a b data h',
    additive (dc_apply count) tau -> monotone tau -> dc_kwarg count = count ->
    grid <> [] -> increasing (map tm grid) -> (forall d, In d grid -> tm o <= tm d) -> length ys = length grid ->
    rc_new CZeroRate grid ys None (Some o) count tenor = Ok c -> nth_error (h_curves h) k = Some c ->
    length notionals = length grid -> (forall m, In m notionals -> 0 < m) -> length ps = length grid ->
    (forall j p d m, nth_error ps j = Some p -> nth_error grid j = Some d -> nth_error notionals j = Some m -> zero_bond h p d m) ->
    a <= b ->
    match v0 with Some w => w | None => o end = o ->
    match fitting with Some i => i | None => k end = k -> match grid0 with Some g => g | None => grid end = grid ->
    get_curve_fit (S (S n)) flr ps k v0 fitting grid0 targets precision a b h = (Ok data, h') ->
    length data = length grid /\
    forall j d m y r z, nth_error grid j = Some d -> nth_error notionals j = Some m -> nth_error ys j = Some y ->
      nth_error (spread_arg targets (length ps)) j = Some (m * exp (- (r * tau o d))) -> r <= y + b ->
      nth_error data j = Some z ->
      Rabs (z - r) * (m * tau o d * exp (- ((y + b) * tau o d))) < precision.
  Proof.
    intros count tau grid ys o tenor c notionals h ps k n flr v0 fitting grid0 targets prec a b data h'
      A MO KW NE INC AF LY HN HK LN PN LP HB AB HV EF EG H.
    destruct (zero_ladder o grid notionals h ps INC AF LN PN LP HB) as [LA BN].
    destruct (C127_bonds count tau grid ys (Some o) o o tenor c _ h ps k n flr v0 fitting grid0 targets prec a b data h'
      A MO KW NE INC eq_refl ltac:(auto) LY HN HK LA AB HV EF EG H) as (_ & LD & c' & df & E' & DF & PV & BD).
    split; [exact LD|]. intros j d m y r z Hd Hm Hy Ht RB Hz.
    destruct (nth_lt_Some ps j) as (p & Hp); [rewrite LP; now apply nth_Some_lt in Hd|].
    destruct (PV j p _ _ Hp (BN j m Hm) Ht) as [_ PE]. destruct (BD j y z Hy Hz) as [_ B2].
    destruct (built_curve (L:=L) count tau A MO grid ys (Some o) o o NE INC eq_refl AF LY data tenor LD) as (c2 & E2 & B & V & V0 & W).
    rewrite E' in E2. injection E2 as <-. destruct B as (Q1 & _ & Q3 & _ & _ & _ & _ & _ & Q9 & Q10).
    assert (Id : In d grid) by (eapply nth_error_In; eauto).
    assert (T0 : tau o o = 0) by (apply (add_zero _ _ A); apply (LDates.eqb_refl (L:=L))).
    assert (N0 : forall i, nth i (@nil R) 0 = 0) by (intros [|i]; reflexivity).
    assert (G : df d = exp (- (z * tau o d))).
    { assert (Q : get_discount_factor (S (S n)) c' o d = Ok (dfx tau grid data o o [] d)).
      { apply (curve_df (L:=L) tau grid data o o c' [] Q1 Q3 Q10 Q9); auto.
        - unfold zv. rewrite N0, Rplus_0_r. exact V0.
        - intros x X. destruct (in_grid grid x X) as (i & Hi & _). rewrite (zr_at (L:=L) grid data INC [] i x Hi).
          rewrite N0, Rplus_0_r. auto. }
      rewrite (DF d Id) in Q. injection Q as ->. unfold dfx. rewrite (zr_at (L:=L) grid data INC [] j d Hd), (nth_error_nth _ _ 0 Hz).
      rewrite N0, T0. do 2 f_equal. ring. }
    rewrite (value_snoc grid df _ m d) in PE by (now rewrite repeat_length). rewrite value_zeros, Rplus_0_l, G in PE.
    pose proof (tau_mono (L:=L) count tau A MO o d (AF d Id)) as TP.
    assert (MP : 0 < m) by (apply PN; eapply nth_error_In; eauto).
    assert (EXP : forall u w, w <= y + b -> u <= w -> (w - u) * tau o d * exp (- ((y + b) * tau o d)) <= exp (- (u * tau o d)) - exp (- (w * tau o d))).
    { intros u w W1 U. replace (- (u * tau o d)) with (- (w * tau o d) + (w - u) * tau o d) by ring. rewrite exp_plus.
      pose proof (exp_pos (- (w * tau o d))) as PE1. pose proof (exp_ineq1_le ((w - u) * tau o d)) as I1.
      assert (I2 : exp (- ((y + b) * tau o d)) <= exp (- (w * tau o d))).
      { assert (I3 : - ((y + b) * tau o d) <= - (w * tau o d)) by nra.
        destruct I3 as [I3|I3]; [left; now apply exp_increasing|rewrite I3; lra]. }
      assert (I4 : 0 <= (w - u) * tau o d) by nra. set (q := (w - u) * tau o d) in *.
      apply (Rle_trans _ (q * exp (- (w * tau o d)))); [now apply Rmult_le_compat_l|]. nra. }
    apply (Rle_lt_trans _ (Rabs (exp (- (z * tau o d)) * m - m * exp (- (r * tau o d))))); [|exact PE].
    replace (exp (- (z * tau o d)) * m - m * exp (- (r * tau o d))) with (m * (exp (- (z * tau o d)) - exp (- (r * tau o d)))) by ring.
    rewrite Rabs_mult, (Rabs_pos_eq m) by lra.
    replace (Rabs (z - r) * (m * tau o d * exp (- ((y + b) * tau o d)))) with (m * (Rabs (z - r) * tau o d * exp (- ((y + b) * tau o d)))) by ring.
    apply Rmult_le_compat_l; [lra|]. destruct (Rle_dec z r) as [ZR|ZR].
    - rewrite (Rabs_left1 (z - r)) by lra. pose proof (EXP z r RB ZR). pose proof (Rle_abs (exp (- (z * tau o d)) - exp (- (r * tau o d)))).
      replace (- (z - r)) with (r - z) by ring. lra.
    - rewrite (Rabs_pos_eq (z - r)) by lra. pose proof (EXP r z B2 ltac:(lra)). rewrite Rabs_minus_sym.
      pose proof (Rle_abs (exp (- (r * tau o d)) - exp (- (z * tau o d)))). lra.
  Qed.
End Bootstrap.
Print Assumptions C127_bonds.
Print Assumptions C127_fixed_list.
Print Assumptions C127_zero_bond.
Print Assumptions C127_products.
Print Assumptions C127_floating_list.
Print Assumptions C127_rate_list.
Print Assumptions C127_leg_list.
Print Assumptions C127_returns.
Print Assumptions C127_zero_rates.

(** zero bonds of one and two years, continuously paying five per cent *)
Local Notation fl := (FloatDates (T:=R)).
Lemma tau_f_monotone : monotone (DS := fl) (fun a b => b - a).
Proof.
  intros a b. cbn [d_ltb FloatDates]. rn. unfold Rltb. destruct (Rlt_dec a b); split; intros; try lra; try discriminate; reflexivity.
Qed.

Example C127_instance : exists (h : heap R R (fperiod R)) steps, forall n, (steps <= S (S n))%nat -> exists data c' x y,
  get_curve_fit (DS := fl) (DC := no_counts) (S (S n)) None [PrList 0; PrList 1] 0 None None None
    (Many [100 * exp (- (5 / 100)); 100 * exp (- (10 / 100))]) (1 / 1000) (- (1 / 10)) (2 / 10) h = (Ok data, h) /\
  data = [x; y] /\ Rabs (x - 5 / 100) < 1 / 10000 /\ Rabs (y - 5 / 100) < 1 / 10000 /\
  rc_new (DS := fl) (DC := no_counts) CZeroRate [1; 2] data None (Some 0) DcDefault None = Ok c' /\
  exists w, returns (get_present_value (DS := fl) (DC := no_counts) (S (S n)) None (PrList 1) 0 None) (with_curve h 0 c') w /\
    Rabs (w - 100 * exp (- (10 / 100))) < 1 / 1000.
Proof.
  set (tau := fun a b : R => b - a).
  assert (A : additive (DS := fl) (dc_apply (DS := fl) (DC := no_counts) DcDefault) tau) by exact add_f.
  assert (INC : increasing (map (fun d : R => d) [1; 2])) by (cbn; repeat constructor; lra).
  assert (AF : forall d, In d [1; 2] -> 0 <= d) by (intros d [<-|[<-|[]]]; lra).
  destruct (built_curve (L:=float_laws) (DC := no_counts) DcDefault tau A tau_f_monotone [1; 2] [0; 0] (Some 0) 0 0 ne_f INC eq_refl AF eq_refl [0; 0] None eq_refl) as (c & HN & _).
  destruct (fixed_new (DS := fl) (P := fperiod R) [1] (Many [100]) None) as [l1|] eqn:E1; [|discriminate E1].
  destruct (fixed_new (DS := fl) (P := fperiod R) [2] (Many [100]) None) as [l2|] eqn:E2; [|discriminate E2].
  set (h := mkH [c] [] [mkHL l1 HNone; mkHL l2 HNone] : heap R R (fperiod R)).
  assert (HB : forall j p d m, nth_error [PrList 0; PrList 1] j = Some p -> nth_error [1; 2] j = Some d -> nth_error [100; 100] j = Some m ->
    zero_bond (DS := fl) h p d m).
  { intros j p d m Hp Hd Hm. destruct j as [|[|j]]; cbn in Hp, Hd, Hm.
    - injection Hp as <-. injection Hd as <-. injection Hm as <-. exists 0%nat, l1, None. auto.
    - injection Hp as <-. injection Hd as <-. injection Hm as <-. exists 1%nat, l2, None. auto.
    - destruct j; discriminate. }
  assert (PN : forall m, In m [100; 100] -> 0 < m) by (intros m [<-|[<-|[]]]; lra).
  assert (GAP : forall u w, 0 <= u -> u <= w -> w <= 4 / 10 -> (w - u) / 2 <= exp (- u) - exp (- w)).
  { intros u w U0 U W. replace (- u) with (- w + (w - u)) by ring. rewrite exp_plus.
    pose proof (exp_ineq1_le (w - u)) as I1. pose proof (exp_ineq1_le (- w)) as I2. nra. }
  assert (GAP2 : forall u w, w <= u -> u <= 1 / 10 -> (u - w) / 2 <= exp (- w) - exp (- u)).
  { intros u w U W. replace (- w) with (- u + (u - w)) by ring. rewrite exp_plus.
    pose proof (exp_ineq1_le (u - w)) as I1. pose proof (exp_ineq1_le (- u)) as I2. nra. }
  destruct (C127_returns fl (fun d => d) no_counts float_laws DcDefault tau [1; 2] [0; 0] 0 None c [100; 100] h [PrList 0; PrList 1] 0 None None None None
    (Many [100 * exp (- (5 / 100)); 100 * exp (- (10 / 100))]) (1 / 1000) (- (1 / 10)) (2 / 10)) as (steps & ST); auto using tau_f_monotone, ne_f; try lra.
  { intros d [<-|[<-|[]]]; lra. }
  { intros j d m y t Hd Hm Hy Ht. unfold tau. destruct j as [|[|j]]; cbn in Hd, Hm, Hy, Ht.
    - injection Hd as <-. injection Hm as <-. injection Hy as <-. injection Ht as <-.
      pose proof (GAP (5 / 100) (2 / 10)). pose proof (GAP2 (5 / 100) (- (1 / 10))).
      replace ((0 + 2 / 10) * (1 - 0)) with (2 / 10) by field. replace ((0 + - (1 / 10)) * (1 - 0)) with (- (1 / 10)) by field. lra.
    - injection Hd as <-. injection Hm as <-. injection Hy as <-. injection Ht as <-.
      pose proof (GAP (10 / 100) (4 / 10)). pose proof (GAP2 (10 / 100) (- (2 / 10))).
      replace ((0 + 2 / 10) * (2 - 0)) with (4 / 10) by field. replace ((0 + - (1 / 10)) * (2 - 0)) with (- (2 / 10)) by field. lra.
    - destruct j; discriminate. }
  assert (AB : - (1 / 10) <= 2 / 10) by lra.
  exists h, steps. intros n LE. destruct (ST (S (S n)) LE) as (data & RUN).
  destruct (zero_ladder fl (fun d => d) no_counts float_laws 0 [1; 2] [100; 100] h [PrList 0; PrList 1] INC AF eq_refl PN eq_refl HB) as [LA _].
  assert (AF2 : forall d, In d [1; 2] -> 0 <= d /\ 0 <= d) by auto.
  destruct (C127_bonds fl (fun d => d) no_counts float_laws DcDefault tau [1; 2] [0; 0] (Some 0) 0 0 None c _ h _ 0 n None None None None _ _ _ _ data h
    A tau_f_monotone eq_refl ne_f INC eq_refl AF2 eq_refl HN eq_refl LA AB eq_refl eq_refl eq_refl RUN) as (_ & LD & c' & df & EC & _ & PV & _).
  destruct (C127_zero_rates fl (fun d => d) no_counts float_laws DcDefault tau [1; 2] [0; 0] 0 None c [100; 100] h [PrList 0; PrList 1] 0 n None None None None _ _ _ _ data h
    A tau_f_monotone eq_refl ne_f INC AF eq_refl HN eq_refl eq_refl PN eq_refl HB AB eq_refl eq_refl eq_refl RUN) as (_ & ZR).
  destruct data as [|x [|y [|]]]; try discriminate LD. exists [x; y], c', x, y. split; [exact RUN|]. split; [reflexivity|].
  assert (X1 : 1 / 2 <= exp (- (4 / 10))) by (pose proof (exp_ineq1_le (- (4 / 10))); lra).
  assert (X2 : 1 / 2 <= exp (- (2 / 10))) by (pose proof (exp_ineq1_le (- (2 / 10))); lra).
  split; [|split; [|split; [exact EC|]]].
  - specialize (ZR 0%nat 1 100 0 (5 / 100) x eq_refl eq_refl eq_refl). cbn [spread_arg length nth_error] in ZR.
    unfold tau in ZR. replace (5 / 100 * (1 - 0)) with (5 / 100) in ZR by field. specialize (ZR eq_refl ltac:(lra) eq_refl).
    replace ((0 + 2 / 10) * (1 - 0)) with (2 / 10) in ZR by field. pose proof (Rmult_le_pos (Rabs (x - 5 / 100)) (exp (- (2 / 10)) - 1 / 2) (Rabs_pos _) ltac:(lra)). lra.
  - specialize (ZR 1%nat 2 100 0 (5 / 100) y eq_refl eq_refl eq_refl). cbn [spread_arg length nth_error] in ZR.
    unfold tau in ZR. replace (5 / 100 * (2 - 0)) with (10 / 100) in ZR by field. specialize (ZR eq_refl ltac:(lra) eq_refl).
    replace ((0 + 2 / 10) * (2 - 0)) with (4 / 10) in ZR by field. pose proof (Rmult_le_pos (Rabs (y - 5 / 100)) (exp (- (4 / 10)) - 1 / 2) (Rabs_pos _) ltac:(lra)). lra.
  - destruct (PV 1%nat (PrList 1) _ _ eq_refl eq_refl eq_refl) as [R1 R2]. eauto.
Qed.

(** the documented calibration: rate lists from today with a fixed rate of one per cent up to
    each of the grid dates, the zero rate curve has the first grid date as origin and the
    valuation date is today *)
Example C127_documented : exists (c : rcurve R R (fperiod R)) (h : heap R R (fperiod R)) ams,
  rc_new (DS := fl) (DC := no_counts) CZeroRate [1; 2; 3] [1 / 100; 1 / 100; 1 / 100] None None DcDefault None = Ok c /\
  nth_error (h_curves h) 0 = Some c /\
  (forall j, (j < 3)%nat -> exists l, nth_error (h_lists h) j = Some (mkHL l (HForward (fun _ => FwNone))) /\
     ratelist_new (DS := fl) (firstn (S j) [1; 2; 3]) (One 1000000) (Some 0) DcDefault None None (1 / 100) FwNone = Ok l) /\
  ams = [[10000]; [10000; 10000]; [10000; 10000; 10000]] /\
  ladder (DS := fl) (DC := no_counts) h 0 [1; 2; 3] [PrList 0; PrList 1; PrList 2] ams /\
  forall n flr targets precision data h',
    get_curve_fit (DS := fl) (DC := no_counts) (S (S n)) flr [PrList 0; PrList 1; PrList 2] 0 (Some 0) (Some 0%nat) None targets precision (- (1 / 10)) (2 / 10) h
      = (Ok data, h') ->
    h' = h /\ exists c', rc_new (DS := fl) (DC := no_counts) CZeroRate [1; 2; 3] data None None DcDefault None = Ok c' /\
      forall j t, (j < 3)%nat -> nth_error (spread_arg targets 3) j = Some t ->
        exists w, returns (get_present_value (DS := fl) (DC := no_counts) (S (S n)) flr (PrList j) 0 (Some 0)) (with_curve h 0 c') w /\
          Rabs (w - t) < precision.
Proof.
  set (tau := fun a b : R => b - a).
  assert (A : additive (DS := fl) (dc_apply (DS := fl) (DC := no_counts) DcDefault) tau) by exact add_f.
  assert (INC : increasing (map (fun d : R => d) [1; 2; 3])) by (cbn; repeat constructor; lra).
  assert (AF : forall d, In d [1; 2; 3] -> 0 <= d) by (intros d [<-|[<-|[<-|[]]]]; lra).
  assert (AF2 : forall d, In d [1; 2; 3] -> 1 <= d /\ 0 <= d) by (intros d [<-|[<-|[<-|[]]]]; lra).
  assert (NE : [1; 2; 3] <> []) by discriminate.
  assert (OG : dom_origin None [1; 2; 3] = Some 1) by reflexivity.
  destruct (built_curve (L:=float_laws) (DC := no_counts) DcDefault tau A tau_f_monotone [1; 2; 3] [1 / 100; 1 / 100; 1 / 100] None 1 0
    NE INC OG AF eq_refl [1 / 100; 1 / 100; 1 / 100] None eq_refl) as (c & HN & _).
  set (new := fun j => ratelist_new (DS := fl) (firstn (S j) [1; 2; 3]) (One 1000000) (Some 0) DcDefault None None (1 / 100) FwNone).
  destruct (new 0%nat) as [l0|] eqn:E0; [|discriminate E0].
  destruct (new 1%nat) as [l1|] eqn:E1; [|discriminate E1].
  destruct (new 2%nat) as [l2|] eqn:E2; [|discriminate E2].
  set (at_ := HForward (fun _ => FwNone) : hattr R R (fperiod R)).
  set (h := mkH [c] [] [mkHL l0 at_; mkHL l1 at_; mkHL l2 at_] : heap R R (fperiod R)).
  assert (LS : forall j, (j < 3)%nat -> exists l, nth_error (h_lists h) j = Some (mkHL l at_) /\ new j = Ok l).
  { intros [|[|[|j]]] Lj; try lia; cbn; eauto. }
  set (ams := [[10000]; [10000; 10000]; [10000; 10000; 10000]]).
  assert (LA : ladder (DS := fl) (DC := no_counts) h 0 [1; 2; 3] [PrList 0; PrList 1; PrList 2] ams).
  { split; [reflexivity|]. split; [reflexivity|]. intros j d p am Hd Hp Ha.
    assert (Lj : (j < 3)%nat) by (apply nth_Some_lt in Hd; exact Hd).
    assert (EA : am = repeat 10000 (S j)) by (destruct j as [|[|[|j]]]; cbn in Ha; try lia; injection Ha as <-; reflexivity).
    assert (EP : p = PrList j) by (destruct j as [|[|[|j]]]; cbn in Hp; try lia; injection Hp as <-; reflexivity).
    subst am p. destruct (LS j Lj) as (l & Hl & Hn).
    destruct (C127_rate_list fl (fun d => d) no_counts float_laws [1; 2; 3] 0 h j j d l (One 1000000) (repeat 1000000 (S j)) 0 DcDefault (1 / 100) tau
      (repeat 10000 (S j)) INC AF Hd eq_refl (repeat_length _ _) (repeat_length _ _) Hl Hn) as [Q1 Q2].
    - reflexivity.
    - intros m s e n a Hs He Hn' Ha'. apply nth_error_In, repeat_spec in Hn', Ha'. subst n a.
      assert (S1 : e = s + 1).
      { destruct m as [|[|[|m]]]; cbn in Hs, He; try (injection Hs as <-; injection He as <-; lra). destruct m; discriminate. }
      unfold tau. rewrite S1. field.
    - split; [exact Q1|]. split; [exact Q2|]. exists (repeat 10000 j), 10000. split; [|split; [apply repeat_length|lra]].
      clear. induction j; cbn [repeat app] in *; congruence. }
  exists c, h, ams. split; [exact HN|]. split; [reflexivity|]. split; [exact LS|]. split; [reflexivity|]. split; [exact LA|].
  intros n flr targets prec data h' RUN. assert (AB : - (1 / 10) <= 2 / 10) by lra.
  destruct (C127_bonds fl (fun d => d) no_counts float_laws DcDefault tau [1; 2; 3] [1 / 100; 1 / 100; 1 / 100] None 1 0 None c ams h [PrList 0; PrList 1; PrList 2] 0 n flr (Some 0) (Some 0%nat) None targets prec _ _ data h'
    A tau_f_monotone eq_refl NE INC OG AF2 eq_refl HN eq_refl LA AB eq_refl eq_refl eq_refl RUN) as (E & _ & c' & df & EC & _ & PV & _).
  split; [exact E|]. exists c'. split; [exact EC|]. intros j t Lj Ht.
  destruct (nth_lt_Some ams j) as (am & Ha); [exact Lj|]. exists (value_on [1; 2; 3] df am). apply (PV j); auto.
  destruct j as [|[|[|j]]]; try lia; reflexivity.
Qed.

(** a bond of a rate list for the coupons and a fixed list for the redemption *)
Example C127_legs : exists (h : heap R R (fperiod R)),
  last_payment (DS := fl) h (PrLegs [0%nat; 1%nat] [1; 2] (Some 0)) 2 /\
  pays_on (DS := fl) (DC := no_counts) h 0 (PrLegs [0%nat; 1%nat] [1; 2] (Some 0)) [1; 2] [5; 105].
Proof.
  set (tau := fun a b : R => b - a).
  assert (INC : increasing (map (fun d : R => d) [1; 2])) by (cbn; repeat constructor; lra).
  assert (AF : forall d, In d [1; 2] -> 0 <= d) by (intros d [<-|[<-|[]]]; lra).
  destruct (ratelist_new (DS := fl) (P := fperiod R) [1; 2] (One 100) (Some 0) DcDefault None None (5 / 100) FwNone) as [l0|] eqn:E0; [|discriminate E0].
  destruct (fixed_new (DS := fl) (P := fperiod R) [1; 2] (Many [0; 100]) None) as [l1|] eqn:E1; [|discriminate E1].
  set (h := mkH [] [] [mkHL l0 (HForward (fun _ => FwNone)); mkHL l1 HNone] : heap R R (fperiod R)).
  exists h. apply (C127_leg_list fl no_counts [1; 2] 0 h [0%nat; 1%nat] [1; 2] (Some 0) 2 [[5; 5]; [0; 100]] [5; 105]).
  - destruct (d_max_ok (L := float_laws) [1; 2]) as (m & E & I & Q); [discriminate|]. rewrite E. destruct I as [<-|[<-|[]]]; [|reflexivity].
    specialize (Q 2 (or_intror (or_introl eq_refl))). lra.
  - repeat constructor.
    + apply (C127_rate_list fl (fun d => d) no_counts float_laws [1; 2] 0 h 0 1 2 l0 (One 100) [100; 100] 0 DcDefault (5 / 100) tau); auto.
      intros m s e n a Hs He Hn Ha. unfold tau.
      destruct m as [|[|m]]; cbn in Hs, He, Hn, Ha; [| |destruct m; discriminate];
        injection Hs as <-; injection He as <-; injection Hn as <-; injection Ha as <-; field.
    + apply (C127_fixed_list fl (fun d => d) no_counts float_laws [1; 2] 0 h 1 1 2 l1 [0; 100] None); auto.
  - intros m x Hx. destruct m as [|[|m]]; cbn in Hx; [| |destruct m; discriminate]; injection Hx as <-; cbn; lra.
Qed.
