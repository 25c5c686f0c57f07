(** Lemmas about fitting a curve. *)
From Coq Require Import Reals Lra Lia List Bool ZArith Sorted Permutation.
From Verif Require Import Num Py Spec MDates MInterpolation MCurve MRateCurve MOption MCashflow MBracket MPricer
  SDates SInterpolation SCurve SRateCurve SPricer SBracket SFit LBase LSort LDates LInterpolation LCurve LCurve2 LDateCurve LDateCurve2 LRateCurve LRateCurve3
  LCashflow LPricer LPricer2 LPricer3 LBracket PBracket LMore.
Import ListNotations.
Open Scope R_scope.

Lemma bind_run {S A B} (m : st S A) (k : A -> st S B) s x s1 : m s = (Ok x, s1) -> bindS m k s = k x s1.
Proof. intros H. unfold bindS. now rewrite H. Qed.

(** on which side of the root the search stops *)
Lemma bracket_side {St} (Inv : St -> Prop) (at_ : R -> St -> Prop) fuel f F a b p s a' m b' s' :
  evaluates Inv at_ a b f F -> Inv s -> bracketing fuel f a b p s = (Ok (a', m, b'), s') ->
  (F a <= F b -> 0 <= F b') /\ (F b < F a -> F b' <= 0) /\ sign_change F a b.
Proof.
  intros E J H. assert (SC : sign_change F a b).
  { destruct (classic_sign F a b) as [C|C]; auto. destruct fuel as [|fuel]; [discriminate|].
    destruct (no_sign_change Inv at_ p fuel f F a b s E J C) as (s2 & X & _). rewrite X in H. discriminate. }
  destruct (first Inv at_ p fuel f F a b s E J SC) as (g & G & EG & V & _ & SG & SI & B). rewrite B in H.
  destruct (loop Inv at_ p fuel g G a b s EG J SG) as [Q|Q].
  - destruct Q as (a2 & b2 & k & s2 & Q1 & _ & _ & _ & _ & _ & _ & _ & Q9).
    rewrite Q1 in H. injection H as <- <- <- <-. destruct (SI b2) as [_ Sb].
    destruct V as [V|V]; rewrite !V in *; [split; [|split; [|exact SC]]; lra|]. split; [|split; [lra|exact SC]]. intros LE.
    assert (F b2 <= 0 /\ F a <= F b \/ 0 <= F b2 /\ F b < F a) by (left; lra). specialize (Sb H). lra.
  - destruct Q as (s2 & Q1 & _). rewrite Q1 in H. discriminate.
Qed.

(** the search stops at once *)
Lemma bracket_now {St} (Inv : St -> Prop) (at_ : R -> St -> Prop) fuel f F a b p s :
  evaluates Inv at_ a b f F -> Inv s -> sign_change F a b -> Rabs (b - a) < p -> Rabs (F b - F a) < p ->
  exists s', bracketing (S fuel) f a b p s = (Ok (a, a + (b - a) * (1/2), b), s') /\ Inv s' /\ at_ b s'.
Proof.
  intros E J SC W1 W2. destruct (first Inv at_ p (S fuel) f F a b s E J SC) as (g & G & EG & V & DI & SG & _ & B).
  rewrite B. cbn [bracketing]. unfold bindS.
  destruct (EG a s (inside_l a b) J) as (s1 & Ea & J1 & _). rewrite Ea.
  destruct (EG b s1 (inside_r a b) J1) as (s2 & Eb & J2 & A2). rewrite Eb.
  rn. assert (N : Rltb (G b) (G a) = false) by (apply Rltb_false; lra). rewrite N.
  assert (L1 : Rleb (G a) 0 = true) by (apply Rleb_true; lra).
  assert (L2 : Rleb 0 (G b) = true) by (apply Rleb_true; lra).
  rewrite L1, L2. cbn [negb andb]. rewrite !nabs_R. change (n_ratio 1 2 : R) with (1/2).
  assert (B1 : Rltb (Rabs (b - a)) p = true) by (now apply Rltb_true).
  assert (B2 : Rltb (Rabs (G b - G a)) p = true) by (apply Rltb_true; now rewrite DI).
  rewrite B1, B2. cbn [andb]. exists s2. split; [reflexivity|auto].
Qed.

Section Fit.
  Context {D P : Type} {DS : DateSys R D P} {tm : D -> R} {DC : DayCounts R D} {L : DateLaws DS tm}.
  Implicit Types (h : heap R D P) (c s : rcurve R D P).

  Section Curve.
    Context (c : rcurve R D P) (grid : list D) (tau : D -> D -> R).
    Context (PC : plain_cls (rc_cls c)) (NE : grid <> []) (ND : NoDup (map tm grid))
            (A : additive (dc_apply (dc_kwarg (dc_count (rc_dc c)))) tau).

    Lemma plain_prob k : plain_cls k -> is_probability k = false /\ ~ prob_cls k /\ k <> CDiscountFactor.
    Proof. destruct k; cbn; intuition; try discriminate; unfold prob_cls in *; intuition discriminate. Qed.

    Lemma grid_origin : exists o, dom_origin (dc_origin0 (rc_dc c)) grid = Some o.
    Proof. unfold dom_origin. destruct (dc_origin0 (rc_dc c)); eauto. destruct grid; [congruence|]. cbn. eauto. Qed.

    Lemma plain_adm o xs : length grid = length xs -> admissible (dc_spec (cls_interp (rc_cls c)) None) (times tau o grid xs).
    Proof.
      intros HL. apply adm_admissible. destruct (plain_prob _ PC) as (N1 & N2 & N3).
      apply (cls_adm (L:=L) _ tau A); auto.
      - intros [E|E]; congruence.
      - intros E; contradiction.
    Qed.

    (** any values give a curve *)
    Lemma on_grid_ok xs : length xs = length grid -> exists s, on_grid c grid xs = Ok s.
    Proof.
      intros HL. destruct grid_origin as [o HO].
      destruct (dstate_exists (tm:=tm) (dc_kwarg (dc_count (rc_dc c))) tau (cls_interp (rc_cls c)) None (dc_origin0 (rc_dc c)) o grid xs) as [d S]; auto.
      { now apply plain_adm. }
      apply (dstate_iff (L:=L) _ tau A) in S; auto. unfold on_grid, rc_new, prepare_data.
      destruct (plain_prob _ PC) as (N1 & _). rewrite N1. cbn [bind]. rewrite S. cbn [bind]. eauto.
    Qed.

    Lemma on_grid_form xs s : length xs = length grid -> on_grid c grid xs = Ok s ->
      exists o d, dom_origin (dc_origin0 (rc_dc c)) grid = Some o /\
        dstate (tm:=tm) (dc_kwarg (dc_count (rc_dc c))) tau (cls_interp (rc_cls c)) None (dc_origin0 (rc_dc c)) o grid xs d /\
        s = mkR (rc_cls c) d None None.
    Proof.
      intros HL E. destruct grid_origin as [o HO]. unfold on_grid, rc_new, prepare_data in E.
      destruct (plain_prob _ PC) as (N1 & _). rewrite N1 in E. cbn [bind] in E.
      destruct (dc_new _ _ _ _ _ _) as [d|] eqn:Ed; [|discriminate]. cbn [bind] in E. injection E as <-.
      exists o, d. split; auto. split; auto. apply (dstate_iff (L:=L) _ tau A); auto.
    Qed.

    Lemma on_grid_domain xs s : length xs = length grid -> on_grid c grid xs = Ok s -> rc_domain s = grid.
    Proof.
      intros HL E. destruct (on_grid_form xs s HL E) as (o & d & _ & S & ->).
      destruct (dstate_origin _ _ _ _ _ _ _ _ _ S) as (_ & _ & HD & _). exact HD.
    Qed.

    Lemma on_grid_values xs s : length xs = length grid -> on_grid c grid xs = Ok s ->
      mapM (rc_call s) grid = Ok xs.
    Proof.
      intros HL E. destruct (on_grid_form xs s HL E) as (o & d & HO & S & ->).
      pose proof (plain_adm o xs (eq_sym HL)) as AD. symmetry in HL.
      assert (V : forall x y, In (x, y) (combine grid xs) -> rc_call (mkR (rc_cls c) d None None) x = Ok y).
      { intros x y I. rewrite rc_call_plain. cbn [rc_dc]. apply dc_val_some.
        apply (dstate_data (tm:=tm) _ tau A _ _ _ _ _ _ _ x y S AD). now apply in_times. }
      clear -HL V. revert xs HL V. induction grid as [|g l IH]; intros [|x xs] HL V; try discriminate; auto.
      cbn [mapM]. rewrite (V g x) by (now left). cbn [bind]. rewrite (IH xs); auto.
      intros a b I. apply V. now right.
    Qed.

    Lemma index_grid i d : nth_error grid i = Some d -> index_of d_eqb d grid = Some i.
    Proof.
      clear -ND L. revert i. induction grid as [|g l IH]; intros i H; [destruct i; discriminate|].
      cbn in ND. inversion ND as [|? ? NI ND']; subst. destruct i as [|i]; cbn in H |- *.
      - injection H as ->. now rewrite (LDates.eqb_refl (L:=L)).
      - rewrite (eqb_f (L:=L)). { now rewrite (IH ND' i H). }
        intros E. apply NI. rewrite E. apply in_map. eapply nth_error_In; eauto.
    Qed.

    (** assigning to a value *)
    Lemma on_grid_set xs s i d x : length xs = length grid -> on_grid c grid xs = Ok s -> nth_error grid i = Some d ->
      exists s', rc_setitem s d x = Ok s' /\ on_grid c grid (set_nth i x xs) = Ok s'.
    Proof.
      intros HL E I. pose proof (on_grid_values xs s HL E) as V.
      destruct (on_grid_form xs s HL E) as (o & d0 & HO & S & ->).
      destruct (on_grid_ok (set_nth i x xs)) as (s' & E'); [now rewrite set_nth_length|].
      exists s'. split; auto. unfold rc_setitem. cbn [rc_dc rc_cls rc_tenor0 rc_spread].
      rewrite (setitem_with_form (L:=L) _ tau A _ _ _ _ _ _ _ xs _ d x S V).
      unfold d_upd. rewrite (index_grid i d I). cbn [fst snd].
      unfold on_grid, rc_new, prepare_data in E'. destruct (plain_prob _ PC) as (N1 & _). rewrite N1 in E'. exact E'.
    Qed.

    (** the copy of the curve on the grid *)
    Lemma cast_on_grid fuel flr s : rc_cast_on fuel flr (rc_cls c) grid c None None DcDefault None = Ok s ->
      exists xs, length xs = length grid /\ on_grid c grid xs = Ok s.
    Proof.
      intros E. unfold rc_cast_on in E. destruct (mapM _ grid) as [xs|] eqn:Ex; [|discriminate]. cbn [bind] in E.
      destruct (mapM _ (rc_domain c)); [|discriminate]. cbn [bind origin_or dc_or] in E.
      exists xs. split; [eapply mapM_length; eauto|].
      unfold on_grid, rc_new, prepare_data. destruct (plain_prob _ PC) as (N1 & _). rewrite N1. exact E.
    Qed.

    Context (h : heap R D P) (fit : nat) (HC : nth_error (h_curves h) fit = Some c).

    (** the state: spread with values xs *)
    Definition at_spread (xs : list R) h' : Prop :=
      length xs = length grid /\ exists s, on_grid c grid xs = Ok s /\ h' = with_spread h fit c s.

    Lemma fit_lt : (fit < length (h_curves h))%nat.
    Proof. apply nth_error_Some. congruence. Qed.
    Lemma with_spread_nth s : nth_error (h_curves (with_spread h fit c s)) fit =
      Some (mkR (rc_cls c) (rc_dc c) (rc_tenor0 c) (Some (inr s))).
    Proof. cbn. apply set_nth_nth. apply fit_lt. Qed.

    Lemma set_step xs h' i d x : at_spread xs h' -> nth_error grid i = Some d ->
      exists h2, set_spread_value fit d x h' = (Ok tt, h2) /\ at_spread (set_nth i x xs) h2.
    Proof.
      intros (HL & s & E & ->) I. destruct (on_grid_set xs s i d x HL E I) as (s' & S1 & S2).
      exists (with_spread h fit c s'). split; [|split; [now rewrite set_nth_length|eauto]].
      unfold set_spread_value, bindS, get_curve, lift. rewrite (nth_res_some _ _ _ (with_spread_nth s)).
      cbn [rc_spread rc_cls rc_dc rc_tenor0]. rewrite S1. unfold put_curve, with_spread. cbn [h_curves h_models h_lists].
      now rewrite set_nth_twice.
    Qed.

    Lemma zero_loop : forall ds xs h', incl ds grid -> at_spread xs h' ->
      exists us xs' h2, mapS (fun d => set_spread_value fit d n0) ds h' = (Ok us, h2) /\ at_spread xs' h2.
    Proof.
      induction ds as [|d ds IH]; intros xs h' IN AT; [exists [], xs, h'; split; [reflexivity|exact AT]|].
      destruct (In_nth_error grid d (IN d (or_introl eq_refl))) as [i I].
      destruct (set_step xs h' i d n0 AT I) as (h1 & E1 & A1).
      destruct (IH (set_nth i n0 xs) h1) as (us & xs' & h2 & E2 & A2); [intros z Hz; apply IN; now right|exact A1|].
      exists (tt :: us), xs', h2. split; auto. cbn [mapS]. unfold bindS. now rewrite E1, E2.
    Qed.

    Lemma domain_at xs h' : at_spread xs h' -> spread_domain fit h' = (Ok grid, h').
    Proof.
      intros (HL & s & E & ->). unfold spread_domain, bindS, get_curve, lift.
      rewrite (nth_res_some _ _ _ (with_spread_nth s)). cbn [rc_spread]. unfold ret.
      now rewrite (on_grid_domain xs s HL E).
    Qed.

    (** the products *)
    Context (fuel : nat) (flr : option R) (disc : nat) (v : option D).
    Context (ps : list (@product D)) (qs : list (D * (list R -> R))) (ts : list R).
    Context (Q : Forall2 (fun p q => last_payment h p (fst q) /\ priced fuel flr h disc v fit c grid p (snd q)) ps qs).

    Lemma last_at p m xs h' : last_payment h p m -> at_spread xs h' ->
      (dom <~ pr_domain p ;; m <~ lift (d_max dom) ;; ret m) h' = (Ok m, h').
    Proof.
      intros (dom & E & M) (_ & s & _ & ->). unfold returns in E. destruct p as [i|legs dm o]; cbn [pr_domain] in *.
      - unfold bindS, get_list, lift, ret in *. cbn [with_spread h_lists]. destruct (nth_res (h_lists h) i) as [l|]; [|discriminate].
        injection E as <-. now rewrite M.
      - unfold ret in E. injection E as <-. unfold bindS, ret, lift. now rewrite M.
    Qed.

    Lemma matured_at d xs h' : at_spread xs h' ->
      exists fs, matured d (combine ps ts) h' = (Ok fs, h') /\
        Forall2 (fun p q => priced fuel flr h disc v fit c grid (fst p) (snd (fst q)) /\ snd p = snd q)
          fs (filter (fun qt => d_leb (fst (fst qt)) d) (combine qs ts)).
    Proof.
      intros AT. unfold matured.
      assert (M : forall us, exists bs, mapS (fun p : product * R => dom <~ pr_domain (fst p) ;; m <~ lift (d_max dom) ;; ret (d_leb m d)) (combine ps us) h' = (Ok bs, h') /\
        Forall2 (fun p q => priced fuel flr h disc v fit c grid (fst p) (snd (fst q)) /\ snd p = snd q)
          (map snd (filter fst (combine bs (combine ps us)))) (filter (fun qt => d_leb (fst (fst qt)) d) (combine qs us))).
      { induction Q as [|p q pl ql (H1 & H2) Q' IH]; intros us; [exists []; split; [reflexivity|constructor]|].
        destruct us as [|t us]; [exists []; split; [reflexivity|constructor]|].
        destruct (IH Q' us) as (bs & E & F). exists (d_leb (fst q) d :: bs). split.
        - cbn [combine mapS fst]. pose proof (last_at p (fst q) xs h' H1 AT) as LA.
          unfold bindS in LA |- *. destruct (pr_domain p h') as [[dom|] h1]; [|discriminate].
          unfold lift in LA |- *. destruct (d_max dom); [|discriminate]. unfold ret in LA |- *. injection LA as -> ->.
          unfold bindS, lift, ret in E. rewrite E. reflexivity.
        - cbn [combine filter fst]. destruct (d_leb (fst q) d); cbn [map snd]; [constructor; auto|exact F]. }
      destruct (M ts) as (bs & E & F). exists (map snd (filter fst (combine bs (combine ps ts)))). split; [|exact F].
      unfold bindS at 1. rewrite E. reflexivity.
    Qed.

    Lemma errors_at xs h' : at_spread xs h' -> forall (fs : list (@product D * R)) (qts : list (D * (list R -> R) * R)),
      Forall2 (fun p q => priced fuel flr h disc v fit c grid (fst p) (snd (fst q)) /\ snd p = snd q) fs qts ->
      mapS (fun p : product * R => x <~ get_present_value fuel flr (fst p) disc v ;; ret (nsub x (snd p))) fs h' =
      (Ok (map (fun qt : D * (list R -> R) * R => snd (fst qt) xs - snd qt) qts), h').
    Proof.
      intros (HL & s & E & ->) fs qts F. apply mapS_pure. induction F as [|p q fs qts [H1 H2] F IH]; [constructor|].
      cbn [map]. constructor; auto. unfold bindS. rewrite (H1 xs s HL E), H2. reflexivity.
    Qed.

    (** one step of the fit *)
    Lemma fit_evaluates i d fs xs h0 a b : nth_error grid i = Some d -> at_spread xs h0 ->
      matured d (combine ps ts) h0 = (Ok fs, h0) ->
      let Inv := fun h' => exists ys, at_spread ys h' /\ forall x, set_nth i x ys = set_nth i x xs in
      let at_ := fun x h' => at_spread (set_nth i x xs) h' in
      evaluates Inv at_ a b (fit_err fuel flr disc v fit d fs) (fun x => total_error qs ts (set_nth i x xs) d).
    Proof.
      intros I AT M Inv at_ x h' _ (ys & AY & EY).
      destruct (matured_at d xs h0 AT) as (fs' & M' & F). rewrite M in M'. injection M' as <-.
      destruct (set_step ys h' i d x AY I) as (h2 & E2 & A2). rewrite EY in A2.
      exists h2. split; [|split; [|exact A2]].
      - unfold fit_err, bindS at 1. rewrite E2. unfold bindS at 1. rewrite (errors_at _ _ A2 _ _ F). unfold ret.
        rewrite nsum_Rsum. reflexivity.
      - exists (set_nth i x xs). split; auto. intros y. apply set_nth_twice.
    Qed.

    Context (LOC : Forall (local tm grid) qs).

    Lemma total_local i d xs ys : nth_error grid i = Some d -> length xs = length grid -> length ys = length grid ->
      (forall k, (k <= i)%nat -> nth_error xs k = nth_error ys k) -> total_error qs ts xs d = total_error qs ts ys d.
    Proof.
      intros I LX LY EQ. unfold total_error. f_equal. apply map_ext_in. intros [q t] H.
      apply filter_In in H. destruct H as [H1 H2]. cbn [fst snd] in *. f_equal.
      apply in_combine_l in H1. rewrite Forall_forall in LOC. apply (LOC q H1 i d); auto. now apply (leb_inv (L:=L)).
    Qed.

    Context (a b p : R).

    (** the fit at grid date number k *)
    Definition fitted (k : nat) (xs : list R) : Prop :=
      forall d, nth_error grid k = Some d ->
        (exists x, nth_error xs k = Some x /\ inside a b x) /\ Rabs (total_error qs ts xs d) < p /\
        (total_error qs ts (set_nth k a xs) d <= total_error qs ts (set_nth k b xs) d -> 0 <= total_error qs ts xs d) /\
        (total_error qs ts (set_nth k b xs) d < total_error qs ts (set_nth k a xs) d -> total_error qs ts xs d <= 0) /\
        sign_change (fun x => total_error qs ts (set_nth k x xs) d) a b.

    Lemma fitted_stable k xs ys : length xs = length grid -> length ys = length grid ->
      (forall j, (j <= k)%nat -> nth_error xs j = nth_error ys j) -> fitted k xs -> fitted k ys.
    Proof.
      intros LX LY EQ F d I. destruct (F d I) as (F1 & F2 & F3 & F4 & F5).
      assert (T : forall x, total_error qs ts (set_nth k x xs) d = total_error qs ts (set_nth k x ys) d).
      { intros x. apply (total_local k d); auto; try (rewrite set_nth_length; auto). intros j J.
        assert (K : (k < length grid)%nat) by (apply nth_error_Some; congruence).
        destruct (Nat.eq_dec k j) as [<-|N]; [rewrite !set_nth_nth by lia; reflexivity|].
        rewrite !set_nth_other by auto. auto. }
      unfold sign_change in *. rewrite !T, (total_local k d xs ys I LX LY EQ) in *. rewrite <- (EQ k (le_n k)). auto.
    Qed.

    Lemma fit_loop : forall suf pre xs h' r h2, grid = pre ++ suf -> at_spread xs h' ->
      (forall k, (k < length pre)%nat -> fitted k xs) ->
      mapS (fun d => fs <~ matured d (combine ps ts) ;; bracketing fuel (fit_err fuel flr disc v fit d fs) a b p) suf h' = (Ok r, h2) ->
      exists xs', at_spread xs' h2 /\ forall k, (k < length grid)%nat -> fitted k xs'.
    Proof.
      induction suf as [|d suf IH]; intros pre xs h' r h2 EG AT GO H.
      - cbn in H. injection H as _ <-. exists xs. split; auto. intros k K. apply GO. rewrite EG, app_nil_r in K. exact K.
      - apply mapS_inv in H. destruct H as (y & ys & h1 & E1 & E2 & _).
        apply bind_ok in E1. destruct E1 as (fs & h1' & M & B).
        destruct (matured_at d xs h' AT) as (fs' & M' & _). rewrite M in M'. injection M' as <- ->.
        assert (I : nth_error grid (length pre) = Some d).
        { rewrite EG, nth_error_app2, Nat.sub_diag by lia. reflexivity. }
        pose proof (fit_evaluates (length pre) d fs xs h' a b I AT M) as EV. cbv zeta in EV.
        destruct y as [[a' m] b'].
        assert (J0 : exists ys, at_spread ys h' /\ forall x, set_nth (length pre) x ys = set_nth (length pre) x xs) by (exists xs; auto).
        destruct (C43_bracket _ _ _ _ _ _ _ _ _ _ _ _ _ EV J0 B) as (_ & _ & _ & _ & _ & IB & _ & AB).
        destruct (C43_values _ _ _ _ _ _ _ _ _ _ _ _ _ EV J0 B) as (_ & VB & _).
        pose proof (bracket_side _ _ _ _ _ _ _ _ _ _ _ _ _ EV J0 B) as (SU & SD & SC).
        apply (IH (pre ++ [d]) (set_nth (length pre) b' xs) h1 ys h2); auto.
        + rewrite <- app_assoc. exact EG.
        + pose proof (proj1 AT) as LX. assert (K0 : (length pre < length xs)%nat).
          { rewrite LX. apply nth_error_Some. congruence. }
          intros k K. rewrite app_length in K. cbn in K.
          destruct (Nat.eq_dec k (length pre)) as [->|N].
          * intros d' I'. assert (d' = d) by congruence. subst d'. unfold sign_change in *. rewrite !set_nth_twice. split; [|split; [|split; [|split]]]; auto.
            exists b'. split; auto. now apply set_nth_nth.
          * apply (fitted_stable k xs); auto; [now rewrite set_nth_length| |apply GO; lia].
            intros j J. rewrite set_nth_other; auto. lia.
    Qed.

    (** a stage of which the search returns *)
    Lemma fit_stage i d xs h' : nth_error grid i = Some d -> at_spread xs h' ->
      (forall fs, let Inv := fun h' => exists ys, at_spread ys h' /\ forall x, set_nth i x ys = set_nth i x xs in
         let at_ := fun x h' => at_spread (set_nth i x xs) h' in
         evaluates Inv at_ a b (fit_err fuel flr disc v fit d fs) (fun x => total_error qs ts (set_nth i x xs) d) ->
         exists a' m b' h2, bracketing fuel (fit_err fuel flr disc v fit d fs) a b p h' = (Ok (a', m, b'), h2)) ->
      exists b' r h2, (fs <~ matured d (combine ps ts) ;; bracketing fuel (fit_err fuel flr disc v fit d fs) a b p) h' = (Ok r, h2) /\
        at_spread (set_nth i b' xs) h2 /\ Rabs (total_error qs ts (set_nth i b' xs) d) < p.
    Proof.
      intros I AT B. destruct (matured_at d xs h' AT) as (fs & M & F).
      pose proof (fit_evaluates i d fs xs h' a b I AT M) as EV. specialize (B fs EV).
      destruct B as (a' & m & b' & h2 & B). exists b', (a', m, b'), h2. cbv zeta in EV.
      assert (J0 : exists ys, at_spread ys h' /\ forall x, set_nth i x ys = set_nth i x xs) by (exists xs; auto).
      destruct (C43_bracket _ _ _ _ _ _ _ _ _ _ _ _ _ EV J0 B) as (_ & _ & _ & _ & _ & _ & _ & AB).
      destruct (C43_values _ _ _ _ _ _ _ _ _ _ _ _ _ EV J0 B) as (_ & VB & _).
      split; [|split; auto]. unfold bindS. rewrite M. exact B.
    Qed.

    Lemma fit_stage_now i d xs h' n : fuel = S n -> nth_error grid i = Some d -> at_spread xs h' ->
      let F := fun x => total_error qs ts (set_nth i x xs) d in
      sign_change F a b -> Rabs (b - a) < p -> Rabs (F b - F a) < p ->
      exists r h2, (fs <~ matured d (combine ps ts) ;; bracketing fuel (fit_err fuel flr disc v fit d fs) a b p) h' = (Ok r, h2) /\
        at_spread (set_nth i b xs) h2.
    Proof.
      intros EF I AT F SC W1 W2. destruct (matured_at d xs h' AT) as (fs & M & _).
      pose proof (fit_evaluates i d fs xs h' a b I AT M) as EV. cbv zeta in EV.
      assert (J0 : exists ys, at_spread ys h' /\ forall x, set_nth i x ys = set_nth i x xs) by (exists xs; auto).
      destruct (bracket_now _ _ n _ _ _ _ _ _ EV J0 SC W1 W2) as (h2 & B & _ & A2). rewrite <- EF in B.
      eexists. exists h2. split; [|exact A2]. rewrite (bind_run _ _ _ _ _ M). exact B.
    Qed.

    Lemma fit_stages : 
      (forall i d xs h', nth_error grid i = Some d -> at_spread xs h' ->
         (forall k d', (k < i)%nat -> nth_error grid k = Some d' -> Rabs (total_error qs ts xs d') < p) ->
         exists b' r h2, (fs <~ matured d (combine ps ts) ;; bracketing fuel (fit_err fuel flr disc v fit d fs) a b p) h' = (Ok r, h2) /\
           at_spread (set_nth i b' xs) h2 /\ Rabs (total_error qs ts (set_nth i b' xs) d) < p) ->
      forall suf pre xs h', grid = pre ++ suf -> at_spread xs h' ->
      (forall k d', (k < length pre)%nat -> nth_error grid k = Some d' -> Rabs (total_error qs ts xs d') < p) ->
      exists r xs' h2,
        mapS (fun d => fs <~ matured d (combine ps ts) ;; bracketing fuel (fit_err fuel flr disc v fit d fs) a b p) suf h' = (Ok r, h2) /\
        at_spread xs' h2.
    Proof.
      intros ST. induction suf as [|d suf IH]; intros pre xs h' EG AT FI.
      - exists [], xs, h'. split; auto.
      - assert (I : nth_error grid (length pre) = Some d).
        { rewrite EG, nth_error_app2, Nat.sub_diag by lia. reflexivity. }
        destruct (ST (length pre) d xs h' I AT FI) as (b' & r & h1 & E1 & A1 & T1).
        destruct (IH (pre ++ [d]) (set_nth (length pre) b' xs) h1) as (rs & xs' & h2 & E2 & A2); auto.
        { rewrite <- app_assoc. exact EG. }
        { intros k d' K J. rewrite app_length in K. cbn in K. destruct (Nat.eq_dec k (length pre)) as [->|N].
          - assert (d' = d) by congruence. now subst.
          - rewrite <- (total_local k d' xs (set_nth (length pre) b' xs)); auto.
            + apply (FI k d'); auto. lia.
            + apply AT.
            + rewrite set_nth_length. apply AT.
            + intros j Jk. rewrite set_nth_other; auto. lia. }
        exists (r :: rs), xs', h2. split; auto. cbn [mapS]. unfold bindS at 1. rewrite E1. unfold bindS. unfold bindS in E2. rewrite E2. reflexivity.
    Qed.

    (** running the whole fit *)
    Lemma fit_forward (Post : list R -> Prop) grid0 targets fitting s0 zs : rc_spread c = None -> ts = spread_arg targets (length ps) ->
      match fitting with Some i => i | None => disc end = fit ->
      match grid0 with Some g => g | None => rc_domain c end = grid ->
      rc_cast_on fuel flr (rc_cls c) grid c None None DcDefault None = Ok s0 -> mapM (rc_call c) grid = Ok zs ->
      (forall xs h', at_spread xs h' -> exists r xs' h2,
        mapS (fun d => fs <~ matured d (combine ps ts) ;; bracketing fuel (fit_err fuel flr disc v fit d fs) a b p) grid h' = (Ok r, h2) /\
        at_spread xs' h2 /\ Post xs') ->
      exists data xs s, get_curve_fit fuel flr ps disc v fitting grid0 targets p a b h = (Ok data, h) /\ Post xs /\
        on_grid c grid xs = Ok s /\ mapM (rc_call (mkR (rc_cls c) (rc_dc c) (rc_tenor0 c) (Some (inr s)))) grid = Ok data.
    Proof.
      intros NS ET EF EGr CA ZS ST. unfold get_curve_fit. rewrite EF, <- ET.
      assert (G0 : get_curve fit h = (Ok c, h)) by (unfold get_curve; now rewrite (nth_res_some _ _ _ HC)).
      rewrite (bind_run _ _ _ _ _ G0), EGr.
      assert (G1 : @lift (heap R D P) _ (rc_cast_on fuel flr (rc_cls c) grid c None None DcDefault None) h = (Ok s0, h)) by (unfold lift; now rewrite CA).
      rewrite (bind_run _ _ _ _ _ G1), (bind_run _ _ _ _ _ (put_spread_run _ _ _ _ HC NS)).
      destruct (cast_on_grid _ _ _ CA) as (xs0 & L0 & G2).
      set (h1 := mkH _ _ _). assert (A1 : at_spread xs0 h1) by (split; auto; exists s0; auto).
      rewrite (bind_run _ _ _ _ _ (domain_at xs0 h1 A1)).
      destruct (zero_loop grid xs0 h1 (incl_refl _) A1) as (us' & xs1 & h3 & E1 & A3).
      rewrite (bind_run _ _ _ _ _ E1), (bind_run _ _ _ _ _ (domain_at xs1 h3 A3)).
      destruct (ST xs1 h3 A3) as (r & xs & h4 & E2 & A4 & PO). rewrite (bind_run _ _ _ _ _ E2).
      pose proof A4 as (L4 & s4 & G4 & E4).
      assert (G5 : get_curve fit h4 = (Ok (mkR (rc_cls c) (rc_dc c) (rc_tenor0 c) (Some (inr s4))), h4)).
      { unfold get_curve. rewrite E4. now rewrite (nth_res_some _ _ _ (with_spread_nth s4)). }
      rewrite (bind_run _ _ _ _ _ G5), (bind_run _ _ _ _ _ (domain_at xs h4 A4)).
      pose proof (on_grid_values xs s4 L4 G4) as V4.
      assert (MD : exists data, mapM (rc_call (mkR (rc_cls c) (rc_dc c) (rc_tenor0 c) (Some (inr s4)))) grid = Ok data).
      { assert (forall d, In d grid -> exists y, rc_call (mkR (rc_cls c) (rc_dc c) (rc_tenor0 c) (Some (inr s4))) d = Ok y).
        { intros d I. destruct (In_nth_error _ _ I) as [i J].
          destruct (mapM_nth _ _ _ i d ZS J) as (z & Z & _). destruct (mapM_nth _ _ _ i d V4 J) as (x & X & _).
          cbn [rc_call]. rewrite X. clear - Z NS. destruct c as [k dc t sp]. cbn in NS. subst sp. rewrite rc_call_plain in Z. cbn [rc_dc] in *.
          rewrite Z. cbn [bind]. eauto. }
        apply mapM_total; auto. }
      destruct MD as (data & MD). exists data, xs, s4. split; [|auto].
      assert (G6 : @lift (heap R D P) _ (mapM (rc_call (mkR (rc_cls c) (rc_dc c) (rc_tenor0 c) (Some (inr s4)))) grid) h4 = (Ok data, h4)) by (unfold lift; now rewrite MD).
      rewrite (bind_run _ _ _ _ _ G6).
      assert (G7 : put_spread fit None h4 = (Ok tt, h)).
      { unfold put_spread. rewrite (bind_run _ _ _ _ _ G5). cbn [set_spread rc_cls rc_dc rc_tenor0 rc_spread].
        unfold bindS, lift, put_curve. rewrite E4. unfold with_spread. cbn [h_curves h_models h_lists].
        rewrite set_nth_twice, set_nth_same; [now rewrite <- heap_eta|].
        rewrite HC. f_equal. clear - NS. destruct c as [k d t sp]. cbn in NS |- *. now subst sp. }
      rewrite (bind_run _ _ _ _ _ G7). reflexivity.
    Qed.

    (** the whole fit *)
    Lemma fit_run h0 grid0 targets fitting data h2 : h0 = h -> rc_spread c = None -> ts = spread_arg targets (length ps) ->
      match fitting with Some i => i | None => disc end = fit ->
      match grid0 with Some g => g | None => rc_domain c end = grid ->
      get_curve_fit fuel flr ps disc v fitting grid0 targets p a b h0 = (Ok data, h2) ->
      h2 = h /\ exists xs s, length xs = length grid /\ on_grid c grid xs = Ok s /\
        mapM (rc_call (mkR (rc_cls c) (rc_dc c) (rc_tenor0 c) (Some (inr s)))) grid = Ok data /\
        forall k, (k < length grid)%nat -> fitted k xs.
    Proof.
      intros -> NS ET EF EGr H. unfold get_curve_fit in H. rewrite EF, <- ET in H.
      apply bind_ok in H. destruct H as (c0 & h1 & E & H). unfold get_curve, lift in E.
      rewrite (nth_res_some _ _ _ HC) in E. injection E as <- <-. rewrite EGr in H.
      apply bind_ok in H. destruct H as (s0 & h1 & E & H). unfold lift in E. injection E as E <-.
      destruct (cast_on_grid _ _ _ E) as (xs0 & L0 & G0).
      apply bind_ok in H. destruct H as (u & h1 & E1 & H).
      rewrite (put_spread_run _ _ _ _ HC NS) in E1. injection E1 as <- <-.
      set (h1 := mkH _ _ _) in H. assert (A1 : at_spread xs0 h1) by (split; auto; exists s0; auto).
      apply bind_ok in H. destruct H as (dom & h1' & E1 & H).
      rewrite (domain_at xs0 h1 A1) in E1. injection E1 as <- <-.
      apply bind_ok in H. destruct H as (us & h3 & E1 & H).
      destruct (zero_loop grid xs0 h1 (incl_refl _) A1) as (us' & xs1 & h3' & E1' & A3).
      rewrite E1 in E1'. injection E1' as <- <-.
      apply bind_ok in H. destruct H as (dom & h3' & E2 & H).
      rewrite (domain_at xs1 h3 A3) in E2. injection E2 as <- <-.
      apply bind_ok in H. destruct H as (r & h4 & E2 & H).
      destruct (fit_loop grid [] xs1 h3 r h4 eq_refl A3) as (xs & A4 & GO); [intros k K; cbn in K; lia|exact E2|].
      apply bind_ok in H. destruct H as (c4 & h4' & E3 & H). pose proof A4 as (L4 & s4 & G4 & E4).
      unfold get_curve, lift in E3. rewrite E4, (nth_res_some _ _ _ (with_spread_nth s4)), <- E4 in E3. injection E3 as <- <-.
      apply bind_ok in H. destruct H as (dom & h4' & E3 & H).
      rewrite (domain_at xs h4 A4) in E3. injection E3 as <- <-.
      apply bind_ok in H. destruct H as (da & h4' & E3 & H). unfold lift in E3. injection E3 as E3 <-.
      apply bind_ok in H. destruct H as (u' & h5 & E5 & H). unfold ret in H. injection H as <- <-.
      split; [|exists xs, s4; auto].
      unfold put_spread, bindS, get_curve, lift in E5. rewrite E4, (nth_res_some _ _ _ (with_spread_nth s4)) in E5.
      cbn [set_spread rc_cls rc_dc rc_tenor0 rc_spread] in E5. unfold put_curve, with_spread in E5. injection E5 as _ <-.
      cbn [h_curves h_models h_lists]. rewrite set_nth_twice, set_nth_same; [symmetry; apply heap_eta|].
      rewrite HC. f_equal. destruct c as [k d t sp]. cbn in NS |- *. now subst sp.
    Qed.
  End Curve.
End Fit.

Lemma filter_prefix {A} (f : A -> bool) : forall l i,
  (forall j x, nth_error l j = Some x -> (f x = true <-> (j <= i)%nat)) -> filter f l = firstn (S i) l.
Proof.
  induction l as [|x l IH]; intros i H; [reflexivity|].
  assert (f x = true) as E by (apply (H 0%nat x eq_refl); lia). cbn [filter]. rewrite E.
  cbn [firstn]. f_equal. destruct i as [|i].
  - cbn [firstn]. clear -H. assert (G : forall y, In y l -> f y = false).
    { intros y I. destruct (In_nth_error l y I) as [j J]. destruct (f y) eqn:E; auto.
      apply (H (S j) y J) in E. lia. }
    clear H. induction l as [|y l IH]; [reflexivity|]. cbn. rewrite G by now left. apply IH. intros; apply G; now right.
  - apply IH. intros j y J. rewrite (H (S j) y J). lia.
Qed.

Lemma sum_step (l : list R) : forall i x, nth_error l i = Some x -> Rsum (firstn (S i) l) = Rsum (firstn i l) + x.
Proof.
  induction l as [|y l IH]; intros i x H; [destruct i; discriminate|]. destruct i as [|i].
  - cbn in H. injection H as ->. cbn. lra.
  - cbn [nth_error] in H. change (y + Rsum (firstn (S i) l) = y + Rsum (firstn i l) + x). rewrite (IH i x H). lra.
Qed.

Section Each.
  Context {D P : Type} {DS : DateSys R D P} {tm : D -> R} {L : DateLaws DS tm}.
  Implicit Types (grid : list D) (qs : list (D * (list R -> R))) (ts xs : list R).

  Lemma combine_nth_l {X Y} (l : list X) : forall (m : list Y) j x y, nth_error (combine l m) j = Some (x, y) -> nth_error l j = Some x.
  Proof.
    induction l as [|a l IH]; intros [|b m] j x y J; try (destruct j; discriminate).
    destruct j as [|j]; cbn in *; [congruence|eauto].
  Qed.
  Lemma combine_nth_both {X Y} (l : list X) : forall (m : list Y) j x y, nth_error l j = Some x -> nth_error m j = Some y ->
    nth_error (combine l m) j = Some (x, y).
  Proof.
    induction l as [|a l IH]; intros [|b m] j x y J K; try (destruct j; discriminate).
    destruct j as [|j]; cbn in *; [congruence|eauto].
  Qed.

  Lemma total_prefix grid qs ts xs i d : one_each tm grid qs -> nth_error grid i = Some d ->
    total_error qs ts xs d = Rsum (firstn (S i) (map (fun qt => snd (fst qt) xs - snd qt) (combine qs ts))).
  Proof.
    intros [_ O] I. unfold total_error. rewrite firstn_map. f_equal. f_equal. apply filter_prefix.
    intros j [q t] J. cbn [fst snd]. rewrite <- (O i j d q I (combine_nth_l _ _ _ _ _ J)). apply law_leb.
  Qed.

  Lemma total_first grid qs ts xs d q t : one_each tm grid qs -> nth_error grid 0 = Some d -> nth_error qs 0 = Some q ->
    nth_error ts 0 = Some t -> total_error qs ts xs d = snd q xs - t.
  Proof.
    intros O I Iq It. rewrite (total_prefix grid qs ts xs 0 d O I), (sum_step _ 0 (snd q xs - t)); [cbn; lra|].
    apply (map_nth_error (fun qt : D * (list R -> R) * R => snd (fst qt) xs - snd qt) _ _ (combine_nth_both qs ts _ _ _ Iq It)).
  Qed.

  Lemma total_step grid qs ts xs i d d' q t : one_each tm grid qs -> nth_error grid (S i) = Some d -> nth_error grid i = Some d' ->
    nth_error qs (S i) = Some q -> nth_error ts (S i) = Some t ->
    total_error qs ts xs d = total_error qs ts xs d' + (snd q xs - t).
  Proof.
    intros O I I' Iq It. rewrite (total_prefix grid qs ts xs (S i) d O I), (total_prefix grid qs ts xs i d' O I').
    apply sum_step. apply (map_nth_error (fun qt : D * (list R -> R) * R => snd (fst qt) xs - snd qt) _ _ (combine_nth_both qs ts _ _ _ Iq It)).
  Qed.
End Each.
