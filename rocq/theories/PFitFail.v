(** Property C128: curve fits which fail. *)
From Coq Require Import Reals Lra Lia List Bool ZArith Sorted.
From Verif Require Import Num Py Spec MDates MInterpolation MCurve MRateCurve MOption MCashflow MBracket MPricer
  SDates SInterpolation SCurve SRateCurve SCashflow SPricer SBracket SYield SFit SBootstrap LBase LSort LDates LInterpolation LCurve LCurve2
  LDateCurve LDateCurve2 LCashflow LRateCurve LRateCurve3 LCast LPricer LPricer2 LPricer3 LBracket LYield LFair LFit LMore LInterpolation2
  PBracket PCashflow PRateCurve2 PPricer PFit LBootstrap PBootstrap.
Import ListNotations.
Open Scope R_scope.

Lemma bind_err {S A B} (m : st S A) (k : A -> st S B) s e s1 : m s = (Err e, s1) -> bindS m k s = (Err e, s1).
Proof. intros E. unfold bindS. now rewrite E. Qed.

(** a search without sign change ends with the upper bound set *)
Lemma no_change_at {St} (Inv : St -> Prop) (at_ : R -> St -> Prop) fuel f F a b p s :
  evaluates Inv at_ a b f F -> Inv s -> ~ sign_change F a b ->
  exists s', bracketing (S fuel) f a b p s = (Err AssertionError, s') /\ at_ b s'.
Proof.
  intros E J H. cbn [bracketing]. unfold bindS.
  destruct (E a s (inside_l a b) J) as (s1 & Ea & J1 & _). rewrite Ea.
  destruct (E b s1 (inside_r a b) J1) as (s2 & Eb & J2 & A2). rewrite Eb. rn.
  exists s2. split; [|auto]. unfold sign_change in H.
  destruct (Rltb (F b) (F a)) eqn:B.
  - apply Rltb_true in B. destruct (Rleb (F b) 0) eqn:B1; auto. destruct (Rleb 0 (F a)) eqn:B2; auto.
    apply Rleb_true in B1, B2. lra.
  - apply Rltb_false in B. destruct (Rleb (F a) 0) eqn:B1; auto. destruct (Rleb 0 (F b)) eqn:B2; auto.
    apply Rleb_true in B1, B2. lra.
Qed.

(** a search for a root of a function which is zero goes to the lower bound *)
Lemma bracket_flat {St} (Inv : St -> Prop) (at_ : R -> St -> Prop) f F p : forall fuel a b s a' m b' s',
  evaluates Inv at_ a b f F -> (forall x, inside a b x -> F x = 0) -> Inv s ->
  bracketing fuel f a b p s = (Ok (a', m, b'), s') -> a' = a.
Proof.
  induction fuel as [|fuel IH]; intros a b s a' m b' s' E Z J H; [discriminate|]. cbn [bracketing] in H. unfold bindS in H.
  destruct (E a s (inside_l a b) J) as (s1 & Ea & J1 & _). rewrite Ea in H.
  destruct (E b s1 (inside_r a b) J1) as (s2 & Eb & J2 & _). rewrite Eb in H.
  rewrite (Z a (inside_l a b)), (Z b (inside_r a b)) in H. rn.
  assert (L0 : Rltb 0 0 = false) by (apply Rltb_false; lra). assert (L1 : Rleb 0 0 = true) by (apply Rleb_true; lra).
  rewrite L0, L1 in H. cbn [andb negb] in H.
  set (mm := a + (b - a) * _) in H.
  assert (EM : mm = (a + b) / 2) by (unfold mm; cbn; field).
  assert (IM : inside a b mm) by (rewrite EM; unfold inside, Rmin, Rmax; repeat destruct (Rle_dec _ _); lra).
  destruct (_ && _)%bool in H; [unfold ret in H; congruence|].
  destruct (E mm s2 IM J2) as (s3 & Em & J3 & _). rewrite Em, (Z mm IM), L0 in H.
  apply (IH a mm s3 a' m b' s'); auto.
  - intros x t I. apply E. revert I. rewrite EM. unfold inside, Rmin, Rmax. repeat destruct (Rle_dec _ _); lra.
  - intros x I. apply Z. revert I. rewrite EM. unfold inside, Rmin, Rmax. repeat destruct (Rle_dec _ _); lra.
Qed.

Section Fail.
  Context {D P : Type} (DS : DateSys R D P) (tm : D -> R) (DC : DayCounts R D) (L : DateLaws DS tm).
  Implicit Types (h : heap R D P) (c s : rcurve R D P).

  (** the curve values xs at the grid date number k solve the fit there: the summed up error is
      below the precision and changes its sign between the bounds; where it is zero whatever
      the value is, the value is next to the first bound *)
  Definition solved (grid : list D) (qs : list (D * (list R -> R))) (ts : list R) (precision a b : R) (xs : list R) (k : nat) : Prop :=
    forall d, nth_error grid k = Some d ->
      Rabs (total_error qs ts xs d) < precision /\ sign_change (fun x => total_error qs ts (set_nth k x xs) d) a b /\
      ((forall x, inside a b x -> total_error qs ts (set_nth k x xs) d = 0) ->
       exists x, nth_error xs k = Some x /\ inside a b x /\ Rabs (x - a) < precision).

  Lemma solved_stable grid qs ts p a b xs ys k : Forall (local tm grid) qs -> length xs = length grid -> length ys = length grid ->
    (forall j, (j <= k)%nat -> nth_error xs j = nth_error ys j) -> solved grid qs ts p a b xs k -> solved grid qs ts p a b ys k.
  Proof.
    intros LOC LX LY EQ F d I. destruct (F d I) as (F1 & F2 & F3).
    assert (T : forall x, total_error qs ts (set_nth k x xs) d = total_error qs ts (set_nth k x ys) d).
    { intros x. apply (total_local (L:=L) grid qs ts LOC k d); auto; try (rewrite set_nth_length; auto). intros j J.
      assert (K : (k < length grid)%nat) by (apply nth_error_Some; congruence).
      destruct (Nat.eq_dec k j) as [<-|N]; [rewrite !set_nth_nth by lia; reflexivity|].
      rewrite !set_nth_other by auto. auto. }
    unfold sign_change in *. rewrite !T, (total_local (L:=L) grid qs ts LOC k d xs ys I LX LY EQ) in *.
    split; [auto|]. split; [auto|]. intros Z. rewrite <- (EQ k (le_n k)). apply F3. intros x Ix. rewrite T. auto.
  Qed.

  (** a fit either returns and leaves everything as it was, or it raises and leaves a spread on
      the fitting curve. It raises AssertionError at the first grid date where the summed up
      error has the same sign at both bounds, and the upper bound is the value left there *)
  Theorem C128_outcomes : forall tau n flr h c fit disc v fitting grid0 grid targets ps qs precision a b s0 zs,
    nth_error (h_curves h) fit = Some c -> rc_spread c = None -> plain_cls (rc_cls c) ->
    additive (dc_apply (dc_kwarg (dc_count (rc_dc c)))) tau ->
    grid <> [] -> NoDup (map tm grid) ->
    match fitting with Some i => i | None => disc end = fit ->
    match grid0 with Some g => g | None => rc_domain c end = grid ->
    Forall2 (fun p q => last_payment h p (fst q) /\ priced (S n) flr h disc v fit c grid p (snd q)) ps qs ->
    Forall (local tm grid) qs ->
    rc_cast_on (S n) flr (rc_cls c) grid c None None DcDefault None = Ok s0 -> mapM (rc_call c) grid = Ok zs ->
    let ts := spread_arg targets (length ps) in
    (exists data xs, get_curve_fit (S n) flr ps disc v fitting grid0 targets precision a b h = (Ok data, h) /\
       length xs = length grid /\
       (forall i d x y, nth_error grid i = Some d -> nth_error xs i = Some x -> rc_call c d = Ok y -> nth_error data i = Some (y + x)) /\
       forall k, (k < length grid)%nat -> solved grid qs ts precision a b xs k) \/
    (exists e xs s i d, get_curve_fit (S n) flr ps disc v fitting grid0 targets precision a b h = (Err e, with_spread h fit c s) /\
       length xs = length grid /\ on_grid c grid xs = Ok s /\ nth_error grid i = Some d /\
       (forall k, (k < i)%nat -> solved grid qs ts precision a b xs k) /\
       (e = AssertionError /\ nth_error xs i = Some b /\ ~ sign_change (fun x => total_error qs ts (set_nth i x xs) d) a b \/
        e = OutOfFuel /\ sign_change (fun x => total_error qs ts (set_nth i x xs) d) a b)).
  Proof.
    intros tau n flr h c fit disc v fitting grid0 grid targets ps qs p a b s0 zs HC NS PC A NE ND EF EG Q LOC CA ZS ts.
    assert (LOOP : forall suf pre xs h', grid = pre ++ suf -> at_spread c grid h fit xs h' ->
      (forall k, (k < length pre)%nat -> solved grid qs ts p a b xs k) ->
      (exists r xs' h2, mapS (fun d => fs <~ matured d (combine ps ts) ;; bracketing (S n) (fit_err (S n) flr disc v fit d fs) a b p) suf h' = (Ok r, h2) /\
         at_spread c grid h fit xs' h2 /\ forall k, (k < length grid)%nat -> solved grid qs ts p a b xs' k) \/
      (exists e xs' h2 i d, mapS (fun d => fs <~ matured d (combine ps ts) ;; bracketing (S n) (fit_err (S n) flr disc v fit d fs) a b p) suf h' = (Err e, h2) /\
         at_spread c grid h fit xs' h2 /\ nth_error grid i = Some d /\ (forall k, (k < i)%nat -> solved grid qs ts p a b xs' k) /\
         (e = AssertionError /\ nth_error xs' i = Some b /\ ~ sign_change (fun x => total_error qs ts (set_nth i x xs') d) a b \/
          e = OutOfFuel /\ sign_change (fun x => total_error qs ts (set_nth i x xs') d) a b))).
    { induction suf as [|d suf IH]; intros pre xs h' EGr AT GO.
      - left. exists [], xs, h'. split; [reflexivity|]. split; [exact AT|]. intros k K. apply GO. rewrite EGr, app_nil_r in K. exact K.
      - assert (I : nth_error grid (length pre) = Some d).
        { rewrite EGr, nth_error_app2, Nat.sub_diag by lia. reflexivity. }
        destruct (matured_at c grid h fit (S n) flr disc v ps qs ts Q d xs h' AT) as (fs & M & _).
        pose proof (fit_evaluates (L:=L) c grid tau PC NE ND A h fit HC (S n) flr disc v ps qs ts Q (length pre) d fs xs h' a b I AT M) as EV.
        cbv zeta in EV. pose proof (proj1 AT) as LX.
        assert (K0 : (length pre < length xs)%nat) by (rewrite LX; apply nth_error_Some; congruence).
        assert (J0 : exists ys, at_spread c grid h fit ys h' /\ forall x, set_nth (length pre) x ys = set_nth (length pre) x xs) by (exists xs; auto).
        assert (KEEP : forall ys, length ys = length grid -> (forall j, j <> length pre -> nth_error ys j = nth_error xs j) ->
          forall k, (k < length pre)%nat -> solved grid qs ts p a b ys k).
        { intros ys LY EQ k K. apply (solved_stable grid qs ts p a b xs ys k LOC LX LY); auto. intros j J. symmetry. apply EQ. lia. }
        destruct (classic_sign (fun x => total_error qs ts (set_nth (length pre) x xs) d) a b) as [SC|SC].
        + destruct (search _ _ p (S n) _ _ a b h' EV J0 SC) as [W|W].
          * destruct W as (a' & b' & k0 & h1 & W1 & _).
            destruct (C43_bracket _ _ _ _ _ _ _ _ _ _ _ _ _ EV J0 W1) as (AW & _ & _ & _ & _ & IB & _ & AB).
            assert (FLAT : (forall x, inside a b x -> total_error qs ts (set_nth (length pre) x xs) d = 0) -> a' = a)
              by (intros Z; exact (bracket_flat _ _ _ _ _ _ _ _ _ _ _ _ _ EV Z J0 W1)).
            destruct (C43_values _ _ _ _ _ _ _ _ _ _ _ _ _ EV J0 W1) as (_ & VB & _). cbv beta in AB, VB.
            destruct (IH (pre ++ [d]) (set_nth (length pre) b' xs) h1) as [G|G].
            -- rewrite <- app_assoc. exact EGr.
            -- exact AB.
            -- intros k K. rewrite app_length in K. cbn in K. destruct (Nat.eq_dec k (length pre)) as [->|N].
               ++ intros d' I'. assert (d' = d) by congruence. subst d'. split; [exact VB|]. unfold sign_change in *. rewrite !set_nth_twice. split; [exact SC|].
                  intros Z. exists b'. split; [now apply set_nth_nth|]. split; [exact IB|].
                  rewrite <- FLAT; [exact AW|]. intros x Ix. rewrite <- (Z x Ix). now rewrite set_nth_twice.
               ++ apply KEEP; [now rewrite set_nth_length| |lia]. intros j J. apply set_nth_other; auto.
            -- left. destruct G as (r & xs' & h2 & G1 & G2 & G3). eexists (_ :: r), xs', h2. split; [|auto].
               cbn [mapS]. unfold bindS at 1 2. rewrite M. unfold bindS in W1 |- *. rewrite W1. unfold bindS in G1. now rewrite G1.
            -- right. destruct G as (e & xs' & h2 & i & d' & G1 & G2). exists e, xs', h2, i, d'. split; [|auto].
               cbn [mapS]. unfold bindS at 1 2. rewrite M. unfold bindS in W1 |- *. rewrite W1. unfold bindS in G1. now rewrite G1.
          * right. destruct W as (h2 & W1 & (ys & AY & EY) & _). exists OutOfFuel, ys, h2, (length pre), d.
            split; [cbn [mapS]; unfold bindS at 1 2; rewrite M; unfold bindS in W1 |- *; now rewrite W1|].
            split; [exact AY|]. split; [exact I|]. pose proof (proj1 AY) as LY. split; [|right; split; [reflexivity|]].
            -- apply KEEP; [exact LY|]. intros j J. pose proof (EY a) as E0. rewrite <- (set_nth_other xs (length pre) j a), <- (set_nth_other ys (length pre) j a) by auto.
               now rewrite E0.
            -- unfold sign_change in *. now rewrite !EY.
        + right. destruct (no_change_at _ _ n _ _ a b p h' EV J0 SC) as (h2 & W1 & AB).
          exists AssertionError, (set_nth (length pre) b xs), h2, (length pre), d.
          split; [cbn [mapS]; unfold bindS at 1 2; rewrite M; unfold bindS in W1 |- *; now rewrite W1|].
          split; [exact AB|]. split; [exact I|]. split; [|left; split; [reflexivity|]; split].
          * apply KEEP; [now rewrite set_nth_length|]. intros j J. apply set_nth_other; auto.
          * now apply set_nth_nth.
          * unfold sign_change in *. now rewrite !set_nth_twice. }
    destruct (cast_on_grid c grid PC _ _ _ CA) as (xs0 & L0 & G2).
    set (h1 := with_spread h fit c s0). assert (A1 : at_spread c grid h fit xs0 h1) by (split; auto; exists s0; auto).
    destruct (zero_loop (L:=L) c grid tau PC NE ND A h fit HC grid xs0 h1 (incl_refl _) A1) as (us' & xs1 & h3 & E1 & A3).
    assert (RUN : get_curve_fit (S n) flr ps disc v fitting grid0 targets p a b h =
      (_ <~ mapS (fun d => fs <~ matured d (combine ps ts) ;; bracketing (S n) (fit_err (S n) flr disc v fit d fs) a b p) grid ;;
       c <~ get_curve fit ;; dom <~ spread_domain fit ;; data <~ lift (mapM (rc_call c) dom) ;; _ <~ put_spread fit None ;; ret data) h3).
    { unfold get_curve_fit. rewrite EF. fold ts.
      assert (G0 : get_curve fit h = (Ok c, h)) by (unfold get_curve; now rewrite (nth_res_some _ _ _ HC)).
      rewrite (bind_run _ _ _ _ _ G0), EG.
      assert (G1 : @lift (heap R D P) _ (rc_cast_on (S n) flr (rc_cls c) grid c None None DcDefault None) h = (Ok s0, h)) by (unfold lift; now rewrite CA).
      rewrite (bind_run _ _ _ _ _ G1), (bind_run _ _ _ _ _ (put_spread_run _ _ _ _ HC NS)).
      change (mkH _ (h_models h) (h_lists h)) with h1.
      rewrite (bind_run _ _ _ _ _ (domain_at (L:=L) c grid tau PC NE ND A h fit HC xs0 h1 A1)).
      rewrite (bind_run _ _ _ _ _ E1), (bind_run _ _ _ _ _ (domain_at (L:=L) c grid tau PC NE ND A h fit HC xs1 h3 A3)). reflexivity. }
    destruct (LOOP grid [] xs1 h3 eq_refl A3) as [G|G]; [intros k K; cbn in K; lia| |].
    - left. destruct G as (r & xs & h4 & E2 & A4 & SO).
      pose proof A4 as (L4 & s4 & G4 & E4).
      assert (G5 : get_curve fit h4 = (Ok (mkR (rc_cls c) (rc_dc c) (rc_tenor0 c) (Some (inr s4))), h4)).
      { unfold get_curve. rewrite E4. now rewrite (nth_res_some _ _ _ (with_spread_nth c h fit HC s4)). }
      pose proof (on_grid_values (L:=L) c grid tau PC NE ND A xs s4 L4 G4) as V4.
      assert (MD : exists data, mapM (rc_call (mkR (rc_cls c) (rc_dc c) (rc_tenor0 c) (Some (inr s4)))) grid = Ok data).
      { assert (forall d, In d grid -> exists y, rc_call (mkR (rc_cls c) (rc_dc c) (rc_tenor0 c) (Some (inr s4))) d = Ok y).
        { intros d I. destruct (In_nth_error _ _ I) as [i J].
          destruct (mapM_nth _ _ _ i d ZS J) as (z & Z & _). destruct (mapM_nth _ _ _ i d V4 J) as (x & X & _).
          cbn [rc_call]. rewrite X. clear - Z NS. destruct c as [k dc t sp]. cbn in NS. subst sp. rewrite rc_call_plain in Z. cbn [rc_dc] in *.
          rewrite Z. cbn [bind]. eauto. }
        apply mapM_total; auto. }
      destruct MD as (data & MD). exists data, xs. split; [|split; [exact L4|split; [|exact SO]]].
      2:{ intros j e x y I X Y. destruct (mapM_nth _ _ _ j e MD I) as (z & Z2 & Z1).
          rewrite Z1. f_equal. destruct (mapM_nth _ _ _ j e V4 I) as (x' & X2 & X1). assert (x' = x) by congruence. subst x'.
          cbn [rc_call] in Z2. rewrite X2 in Z2. destruct c as [k dc t sp]. cbn in NS. subst sp. cbn [rc_dc] in Z2.
          rewrite rc_call_plain in Y. cbn [rc_dc] in Y. rewrite Y in Z2. cbn in Z2. injection Z2 as <-. reflexivity. }
      rewrite RUN, (bind_run _ _ _ _ _ E2), (bind_run _ _ _ _ _ G5), (bind_run _ _ _ _ _ (domain_at (L:=L) c grid tau PC NE ND A h fit HC xs h4 A4)).
      assert (G6 : @lift (heap R D P) _ (mapM (rc_call (mkR (rc_cls c) (rc_dc c) (rc_tenor0 c) (Some (inr s4)))) grid) h4 = (Ok data, h4)) by (unfold lift; now rewrite MD).
      rewrite (bind_run _ _ _ _ _ G6).
      assert (G7 : put_spread fit None h4 = (Ok tt, h)).
      { unfold put_spread. rewrite (bind_run _ _ _ _ _ G5). cbn [set_spread rc_cls rc_dc rc_tenor0 rc_spread].
        unfold bindS, lift, put_curve. rewrite E4. unfold with_spread. cbn [h_curves h_models h_lists].
        rewrite set_nth_twice, set_nth_same; [now rewrite <- heap_eta|].
        rewrite HC. f_equal. clear - NS. destruct c as [k d t sp]. cbn in NS |- *. now subst sp. }
      rewrite (bind_run _ _ _ _ _ G7). reflexivity.
    - right. destruct G as (e & xs & h4 & i & d & E2 & A4 & G). pose proof A4 as (LX & s & GR & E4).
      exists e, xs, s, i, d. split; [|destruct G as (G3 & G4 & G5); auto].
      rewrite RUN, <- E4. exact (bind_err _ _ _ _ _ E2).
  Qed.

  (** ... so a fit to products whose summed up error at some grid date does not depend on the
      curve value there can only return if that error is zero *)
  Theorem C128_insensitive : forall tau n flr h c fit disc v fitting grid0 grid targets ps qs precision a b data h' i d,
    nth_error (h_curves h) fit = Some c -> rc_spread c = None -> plain_cls (rc_cls c) ->
    additive (dc_apply (dc_kwarg (dc_count (rc_dc c)))) tau ->
    grid <> [] -> NoDup (map tm grid) ->
    match fitting with Some i => i | None => disc end = fit ->
    match grid0 with Some g => g | None => rc_domain c end = grid ->
    Forall2 (fun p q => last_payment h p (fst q) /\ priced n flr h disc v fit c grid p (snd q)) ps qs ->
    Forall (local tm grid) qs ->
    nth_error grid i = Some d ->
    (forall xs x, length xs = length grid ->
       total_error qs (spread_arg targets (length ps)) (set_nth i x xs) d = total_error qs (spread_arg targets (length ps)) xs d) ->
    get_curve_fit n flr ps disc v fitting grid0 targets precision a b h = (Ok data, h') ->
    exists xs s, length xs = length grid /\ on_grid c grid xs = Ok s /\
      (forall i d x y, nth_error grid i = Some d -> nth_error xs i = Some x -> rc_call c d = Ok y -> nth_error data i = Some (y + x)) /\
      total_error qs (spread_arg targets (length ps)) xs d = 0.
  Proof.
    intros tau n flr h c fit disc v fitting grid0 grid targets ps qs p a b data h' i d HC NS PC A NE ND EF EG Q LOC Hd INS H.
    destruct (fit_run (L:=L) c grid tau PC NE ND A h fit HC n flr disc v ps qs _ Q LOC a b p h grid0 targets fitting data h'
      eq_refl NS eq_refl EF EG H) as (_ & xs & s & LX & G & M & F).
    exists xs, s. split; [exact LX|]. split; [exact G|]. split.
    - pose proof (on_grid_values (L:=L) c grid tau PC NE ND A xs s LX G) as V.
      intros j e x y I X Y. destruct (mapM_nth _ _ _ j e M I) as (z & Z2 & Z1).
      rewrite Z1. f_equal. destruct (mapM_nth _ _ _ j e V I) as (x' & X2 & X1). assert (x' = x) by congruence. subst x'.
      cbn [rc_call] in Z2. rewrite X2 in Z2. destruct c as [k dc t sp]. cbn in NS. subst sp. cbn [rc_dc] in Z2.
      rewrite rc_call_plain in Y. cbn [rc_dc] in Y. rewrite Y in Z2. cbn in Z2. injection Z2 as <-. reflexivity.
    - assert (K : (i < length grid)%nat) by (apply nth_error_Some; congruence).
      destruct (F i K d Hd) as (_ & _ & _ & _ & SC). unfold sign_change in SC. rewrite !INS in SC by auto. lra.
  Qed.

  (** a grid date before the last payment of all products is not left alone: the curve value
      there becomes the old one plus the first bound, up to the precision *)
  Theorem C128_unmatured : forall tau n flr h c fit disc v fitting grid0 grid targets ps qs precision a b s0 zs data h' i d y,
    nth_error (h_curves h) fit = Some c -> rc_spread c = None -> plain_cls (rc_cls c) ->
    additive (dc_apply (dc_kwarg (dc_count (rc_dc c)))) tau ->
    grid <> [] -> NoDup (map tm grid) ->
    match fitting with Some i => i | None => disc end = fit ->
    match grid0 with Some g => g | None => rc_domain c end = grid ->
    Forall2 (fun p q => last_payment h p (fst q) /\ priced (S n) flr h disc v fit c grid p (snd q)) ps qs ->
    Forall (local tm grid) qs ->
    rc_cast_on (S n) flr (rc_cls c) grid c None None DcDefault None = Ok s0 -> mapM (rc_call c) grid = Ok zs ->
    get_curve_fit (S n) flr ps disc v fitting grid0 targets precision a b h = (Ok data, h') ->
    nth_error grid i = Some d -> (forall q, In q qs -> tm d < tm (fst q)) -> rc_call c d = Ok y ->
    exists z, nth_error data i = Some z /\ inside (y + a) (y + b) z /\ Rabs (z - (y + a)) < precision.
  Proof.
    intros tau n flr h c fit disc v fitting grid0 grid targets ps qs p a b s0 zs data h' i d y HC NS PC A NE ND EF EG Q LOC CA ZS H Hd UN Hy.
    destruct (C128_outcomes tau n flr h c fit disc v fitting grid0 grid targets ps qs p a b s0 zs HC NS PC A NE ND EF EG Q LOC CA ZS) as [W|W].
    - destruct W as (data' & xs & G & LX & DA & SO). rewrite G in H. injection H as -> _.
      assert (K : (i < length grid)%nat) by (apply nth_error_Some; congruence).
      destruct (SO i K d Hd) as (_ & _ & Z). destruct Z as (x & Hx & Ix & Bx).
      { intros x _. unfold total_error. replace (filter _ _) with (@nil (D * (list R -> R) * R)); [reflexivity|]. symmetry.
        assert (G0 : forall l : list (D * (list R -> R) * R), (forall qt, In qt l -> In (fst qt) qs) -> filter (fun qt => d_leb (fst (fst qt)) d) l = []).
        { induction l as [|qt l IH]; intros Hl; [reflexivity|]. cbn [filter].
          destruct (d_leb (fst (fst qt)) d) eqn:E; [|apply IH; intros; apply Hl; now right].
          apply (leb_inv (L:=L)) in E. specialize (UN (fst qt) (Hl qt (or_introl eq_refl))). lra. }
        apply G0. intros [q t] I. cbn. now apply in_combine_l in I. }
      exists (y + x). split; [now apply (DA i d)|]. split.
      + unfold inside, Rmin, Rmax in *. repeat destruct (Rle_dec _ _); lra.
      + now replace (y + x - (y + a)) with (x - a) by ring.
    - destruct W as (e & xs & s & j & d' & G & _). rewrite G in H. discriminate.
  Qed.

  (** a curve which has a spread, as one left by a failing fit, cannot be fitted: whatever the
      products, the grid, the targets and the bounds are, the fit raises *)
  Theorem C128_again : forall fuel flr h c sp fit disc v fitting grid0 targets ps precision a b,
    nth_error (h_curves h) fit = Some c -> rc_spread c = Some sp ->
    match fitting with Some i => i | None => disc end = fit ->
    exists e, get_curve_fit fuel flr ps disc v fitting grid0 targets precision a b h = (Err e, h) /\
      forall s, rc_cast_on fuel flr (rc_cls c) (match grid0 with Some g => g | None => rc_domain c end) c None None DcDefault None = Ok s -> e = TypeError.
  Proof.
    intros fuel flr h c sp fit disc v fitting grid0 targets ps p a b HC HS EF. unfold get_curve_fit. rewrite EF.
    assert (G0 : get_curve fit h = (Ok c, h)) by (unfold get_curve; now rewrite (nth_res_some _ _ _ HC)).
    rewrite (bind_run _ _ _ _ _ G0).
    destruct (rc_cast_on fuel flr (rc_cls c) _ c None None DcDefault None) as [s|e] eqn:CA.
    - exists TypeError. split; [|reflexivity]. unfold bindS at 1, lift at 1. unfold bindS at 1.
      rewrite (put_spread_twice _ _ _ _ _ HC HS). reflexivity.
    - exists e. split; [reflexivity|discriminate].
  Qed.

  Lemma zero_cast count tau grid ys orig o v tenor c n flr : additive (dc_apply count) tau -> monotone tau -> dc_kwarg count = count ->
    grid <> [] -> increasing (map tm grid) -> dom_origin orig grid = Some o -> (forall d, In d grid -> tm v <= tm d) -> length ys = length grid ->
    rc_new CZeroRate grid ys None orig count tenor = Ok c ->
    exists s0, rc_cast_on (S (S n)) flr (rc_cls c) grid c None None DcDefault None = Ok s0.
  Proof.
    intros A MO KW NE INC OG AV LY HN. pose proof (increasing_distinct _ INC) as ND.
    destruct (curve_facts (L:=L) count tau A MO grid ys orig o v tenor NE INC OG AV LY c HN) as (C1 & C2 & C3 & C4 & C5 & C6 & C7 & C8).
    destruct (curve_built (L:=L) count tau A MO grid ys orig o v tenor NE INC OG AV LY c HN) as (_ & VC & _ & WC).
    assert (T0 : tau o o = 0) by (apply (add_zero _ _ A); apply (LDates.eqb_refl (L:=L))).
    destruct (flat_cast_on (L:=L) count tau A c o ltac:(now rewrite C5) ltac:(intros x _; apply WC)
      CZeroRate (S (S n)) flr grid (fun d => value_of (rc_call c d))) as (s0 & E & _).
    - now left.
    - exact ND.
    - exact NE.
    - rewrite C4. exact OG.
    - intros x Ix. cbn [storage_value]. unfold get_zero_rate1, from_origin, get_zero_rate, interest_only. rewrite C3, C1. cbn [is_interest].
      destruct (WC x) as (vx & Ex). destruct (WC o) as (vo & Eo). rewrite Ex. cbn [value_of].
      destruct (d_eqb o x) eqn:Q0.
      + cbn [rate]. cbv zeta. rewrite C1. unfold both_origin. rewrite C3, Q0.
        assert (Q1 : d_eqb x o = true) by (apply (eqb_t (L:=L)); symmetry; now apply (eqb_inv (L:=L))). rewrite Q1. cbn [andb].
        rewrite (C7 o x Q0). exact Ex.
      + rewrite (flat_rate (L:=L) c o tau C3 C8 (S n) o x vo vx); auto; [|now left].
        f_equal. rewrite T0.
        assert (tau o x <> 0) by (intro Q; apply (add_zero _ _ A) in Q; congruence). field. auto.
    - rewrite C1. eauto.
  Qed.

  (** the documented default target of zero: no zero rate curve within the bounds makes a bond
      worthless, so the fit raises AssertionError and the upper bound stays on the curve as
      spread at the first grid date *)
  Theorem C128_default_target : forall count tau grid ys o tenor c ams h ps k n flr fitting grid0 precision a b,
    additive (dc_apply count) tau -> monotone tau -> dc_kwarg count = count ->
    grid <> [] -> increasing (map tm grid) -> (forall d, In d grid -> tm o < tm d) -> length ys = length grid ->
    rc_new CZeroRate grid ys None (Some o) count tenor = Ok c -> nth_error (h_curves h) k = Some c ->
    ladder h o grid ps ams ->
    match fitting with Some i => i | None => k end = k -> match grid0 with Some g => g | None => grid end = grid ->
    exists xs s, get_curve_fit (S (S n)) flr ps k None fitting grid0 (One 0) precision a b h = (Err AssertionError, with_spread h k c s) /\
      length xs = length grid /\ on_grid c grid xs = Ok s /\ nth_error xs 0 = Some b.
  Proof.
    intros count tau grid ys o tenor c ams h ps k n flr fitting grid0 prec a b A MO KW NE INC AF LY HN HK LA EF EG.
    pose proof (ladder_stairs _ _ _ _ _ LA) as LS.
    pose proof (increasing_distinct _ INC) as ND.
    assert (AV : forall d, In d grid -> tm o <= tm d) by (intros d I; left; auto).
    assert (OG : dom_origin (Some o) grid = Some o) by reflexivity.
    destruct (curve_facts (L:=L) count tau A MO grid ys (Some o) o o tenor NE INC OG AV LY c HN) as (C1 & C2 & C3 & C4 & C5 & C6 & C7 & C8).
    destruct (curve_built (L:=L) count tau A MO grid ys (Some o) o o tenor NE INC OG AV LY c HN) as (_ & VC & _ & WC).
    assert (PC : plain_cls (rc_cls c)) by (rewrite C1; exact I).
    assert (A' : additive (dc_apply (dc_kwarg (dc_count (rc_dc c)))) tau) by (rewrite C5, KW; exact A).
    assert (EG' : match grid0 with Some g => g | None => rc_domain c end = grid) by (now rewrite C2).
    pose proof (ladder_priced (L:=L) count tau A MO KW grid ys (Some o) o o tenor NE INC OG AV LY c HN h ps ams LS k HK n flr None eq_refl) as PR.
    pose proof (ladder_local (L:=L) tau grid ys o o INC LY h ps ams LS) as LOC.
    pose proof (ladder_one_each tau grid ys o o INC LY h ps ams LS) as ONE.
    set (qs := quotes tau grid ys o o ams) in *.
    destruct (zero_cast count tau grid ys (Some o) o o tenor c n flr A MO KW NE INC OG AV LY HN) as (s0 & CA).
    assert (exists zs, mapM (rc_call c) grid = Ok zs) as (zs & MZ) by (apply mapM_total; intros; apply WC).
    destruct (nth_lt_Some grid 0) as (d0 & Hd); [destruct grid; [congruence|cbn; lia]|].
    destruct (nth_lt_Some ams 0) as (am & Ha); [destruct LA as (_ & -> & _); now apply nth_Some_lt in Hd|].
    pose proof (quotes_at tau grid ys o o ams 0 d0 am Hd Ha) as Hq. fold qs in Hq.
    assert (LP : length ps = length grid) by apply LA.
    assert (Ht : nth_error (spread_arg (One 0) (length ps)) 0 = Some 0).
    { cbn [spread_arg]. rewrite LP. destruct grid; [congruence|reflexivity]. }
    assert (POS : forall xs, length xs = length grid -> 0 < total_error qs (spread_arg (One 0) (length ps)) xs d0).
    { intros xs LX. rewrite (total_first (L:=L) grid qs _ _ d0 _ _ ONE Hd Hq Ht), Rminus_0_r. cbn [quote_of snd].
      destruct (nth_lt_Some ps 0) as (p & Hp); [rewrite LP; now apply nth_Some_lt in Hd|].
      destruct LA as (_ & _ & LA). destruct (LA 0%nat d0 p am Hd Hp Ha) as (_ & _ & bf & m & -> & Lb & Pm).
      destruct bf; [|discriminate Lb]. cbn [app]. rewrite (value_snoc grid _ [] m d0) by exact Hd. unfold value_on. rewrite combine_nil. cbn [map Rsum].
      rewrite Rplus_0_l. apply Rmult_lt_0_compat; [|exact Pm]. apply exp_pos. }
    assert (NSC : forall xs, length xs = length grid -> ~ sign_change (fun x => total_error qs (spread_arg (One 0) (length ps)) (set_nth 0 x xs) d0) a b).
    { intros xs LX. unfold sign_change. pose proof (POS (set_nth 0 a xs)) as P1. pose proof (POS (set_nth 0 b xs)) as P2.
      rewrite set_nth_length in P1, P2. specialize (P1 LX). specialize (P2 LX). lra. }
    destruct (C128_outcomes tau (S n) flr h c k k None fitting grid0 grid (One 0) ps qs prec a b s0 zs HK C6 PC A' NE ND EF EG' PR LOC CA MZ) as [W|W].
    - exfalso. destruct W as (data & xs & _ & LX & _ & SO). destruct (SO 0%nat ltac:(now apply nth_Some_lt in Hd) d0 Hd) as (_ & SC & _). now apply (NSC xs LX).
    - destruct W as (e & xs & s & i & d & G & LX & GR & Hi & SO & CS). destruct i as [|i].
      + assert (d = d0) by congruence. subst d. destruct CS as [(-> & X0 & _)|(_ & SC)]; [|exfalso; now apply (NSC xs LX)].
        exists xs, s. auto.
      + exfalso. destruct (SO 0%nat ltac:(lia) d0 Hd) as (_ & SC & _). now apply (NSC xs LX).
  Qed.
End Fail.
Print Assumptions C128_outcomes.
Print Assumptions C128_insensitive.
Print Assumptions C128_unmatured.
Print Assumptions C128_again.
Print Assumptions C128_default_target.

Local Notation fl := (FloatDates (T:=R)).

(** zero bonds without targets: the fit fails and leaves 20 per cent on the curve, and so the
    next one fails, whatever its targets are *)
Example C128_instance : forall n, exists (h h' : heap R R (fperiod R)) c,
  get_curve_fit (DS := fl) (DC := no_counts) (S (S n)) None [PrList 0; PrList 1] 0 None None None (One 0) (1 / 1000) (- (1 / 10)) (2 / 10) h
    = (Err AssertionError, h') /\
  nth_error (h_curves h') 0 = Some c /\ rc_call (DS := fl) (DC := no_counts) c 1 = Ok (2 / 10) /\
  forall targets, exists e,
    get_curve_fit (DS := fl) (DC := no_counts) (S (S n)) None [PrList 0; PrList 1] 0 None None None targets (1 / 1000) (- (1 / 10)) (2 / 10) h' = (Err e, h').
Proof.
  intros n. set (tau := fun a b : R => b - a).
  assert (A : additive (DS := fl) (dc_apply (DS := fl) (DC := no_counts) DcDefault) tau) by exact add_f.
  assert (INC : increasing (map (fun d : R => d) [1; 2])) by (cbn; repeat constructor; lra).
  assert (AF : forall d, In d [1; 2] -> 0 <= d) by (intros d [<-|[<-|[]]]; lra).
  assert (AF' : forall d, In d [1; 2] -> 0 < d) by (intros d [<-|[<-|[]]]; lra).
  destruct (built_curve (L:=float_laws) (DC := no_counts) DcDefault tau A tau_f_monotone [1; 2] [0; 0] (Some 0) 0 0 ne_f INC eq_refl AF eq_refl [0; 0] None eq_refl)
    as (c & HN & _ & VC & _).
  destruct (fixed_new (DS := fl) (P := fperiod R) [1] (Many [100]) None) as [l1|] eqn:E1; [|discriminate E1].
  destruct (fixed_new (DS := fl) (P := fperiod R) [2] (Many [100]) None) as [l2|] eqn:E2; [|discriminate E2].
  set (h := mkH [c] [] [mkHL l1 HNone; mkHL l2 HNone] : heap R R (fperiod R)).
  assert (HB : forall j p d m, nth_error [PrList 0; PrList 1] j = Some p -> nth_error [1; 2] j = Some d -> nth_error [100; 100] j = Some m ->
    zero_bond (DS := fl) h p d m).
  { intros j p d m Hp Hd Hm. destruct j as [|[|j]]; cbn in Hp, Hd, Hm.
    - injection Hp as <-. injection Hd as <-. injection Hm as <-. exists 0%nat, l1, None. auto.
    - injection Hp as <-. injection Hd as <-. injection Hm as <-. exists 1%nat, l2, None. auto.
    - destruct j; discriminate. }
  assert (PN : forall m, In m [100; 100] -> 0 < m) by (intros m [<-|[<-|[]]]; lra).
  destruct (zero_ladder fl (fun d => d) no_counts float_laws 0 [1; 2] [100; 100] h [PrList 0; PrList 1] INC AF eq_refl PN eq_refl HB) as [LA _].
  pose proof (ladder_stairs _ _ _ _ _ LA) as LS.
  destruct (C128_default_target fl (fun d => d) no_counts float_laws DcDefault tau [1; 2] [0; 0] 0 None c _ h _ 0 n None None None (1 / 1000) (- (1 / 10)) (2 / 10)
    A tau_f_monotone eq_refl ne_f INC AF' eq_refl HN eq_refl LA eq_refl eq_refl) as (xs & s & RUN & LX & GR & X0).
  exists h, (with_spread h 0 c s), (mkR (rc_cls c) (rc_dc c) (rc_tenor0 c) (Some (inr s))).
  split; [exact RUN|]. split; [reflexivity|]. split.
  - destruct (spread_values (L:=float_laws) (DC := no_counts) DcDefault tau A tau_f_monotone eq_refl [1; 2] [0; 0] (Some 0) 0 0 None ne_f INC eq_refl AF eq_refl c HN xs s LX GR)
      as (_ & VS & _).
    rewrite (spread_calls (L:=float_laws) (DC := no_counts) DcDefault tau A tau_f_monotone [1; 2] [0; 0] (Some 0) 0 0 None ne_f INC eq_refl AF eq_refl c HN s 1 0 (2 / 10)).
    + f_equal. lra.
    + exact (VC 0%nat 1 eq_refl).
    + rewrite (VS 0%nat 1 eq_refl). f_equal. now apply nth_error_nth.
  - intros targets.
    destruct (C128_again fl no_counts (S (S n)) None (with_spread h 0 c s) _ _ 0 0 None None None targets [PrList 0; PrList 1] (1 / 1000) (- (1 / 10)) (2 / 10) eq_refl eq_refl eq_refl)
      as (e & Q & _). eauto.
Qed.

Lemma Forall2_inv_head {A B} (Q : A -> B -> Prop) x l y m : Forall2 Q (x :: l) (y :: m) -> Q x y.
Proof. intros H. now inversion H. Qed.

Lemma Forall2_inv_tail {A B} (Q : A -> B -> Prop) x l y m : Forall2 Q (x :: l) (y :: m) -> Forall2 Q l m.
Proof. intros H. now inversion H. Qed.

(** one bond for two grid dates: the value at the second date does not matter, and the fit only
    returns if the first value it finds gives the target exactly *)
Example C128_fewer_products : exists (h : heap R R (fperiod R)), forall n target data h',
  get_curve_fit (DS := fl) (DC := no_counts) (S (S n)) None [PrList 0] 0 None None None (One target) (1 / 1000) (- (1 / 10)) (2 / 10) h = (Ok data, h') ->
  exists x, nth_error data 0 = Some x /\ 100 * exp (- x) = target.
Proof.
  set (tau := fun a b : R => b - a).
  assert (A : additive (DS := fl) (dc_apply (DS := fl) (DC := no_counts) DcDefault) tau) by exact add_f.
  assert (INC : increasing (map (fun d : R => d) [1; 2])) by (cbn; repeat constructor; lra).
  assert (AF : forall d, In d [1; 2] -> 0 <= d) by (intros d [<-|[<-|[]]]; lra).
  destruct (built_curve (L:=float_laws) (DC := no_counts) DcDefault tau A tau_f_monotone [1; 2] [0; 0] (Some 0) 0 0 ne_f INC eq_refl AF eq_refl [0; 0] None eq_refl)
    as (c & HN & _ & VC & _).
  destruct (fixed_new (DS := fl) (P := fperiod R) [1] (Many [100]) None) as [l1|] eqn:E1; [|discriminate E1].
  destruct (fixed_new (DS := fl) (P := fperiod R) [2] (Many [100]) None) as [l2|] eqn:E2; [|discriminate E2].
  set (h := mkH [c] [] [mkHL l1 HNone; mkHL l2 HNone] : heap R R (fperiod R)).
  assert (HB : forall j p d m, nth_error [PrList 0; PrList 1] j = Some p -> nth_error [1; 2] j = Some d -> nth_error [100; 100] j = Some m ->
    zero_bond (DS := fl) h p d m).
  { intros j p d m Hp Hd Hm. destruct j as [|[|j]]; cbn in Hp, Hd, Hm.
    - injection Hp as <-. injection Hd as <-. injection Hm as <-. exists 0%nat, l1, None. auto.
    - injection Hp as <-. injection Hd as <-. injection Hm as <-. exists 1%nat, l2, None. auto.
    - destruct j; discriminate. }
  assert (PN : forall m, In m [100; 100] -> 0 < m) by (intros m [<-|[<-|[]]]; lra).
  destruct (zero_ladder fl (fun d => d) no_counts float_laws 0 [1; 2] [100; 100] h [PrList 0; PrList 1] INC AF eq_refl PN eq_refl HB) as [LA _].
  pose proof (ladder_stairs _ _ _ _ _ LA) as LS.
  exists h. intros n target data h' RUN.
  assert (OG : dom_origin (Some 0) [1; 2] = Some 0) by reflexivity.
  destruct (curve_facts (L:=float_laws) (DC := no_counts) DcDefault tau A tau_f_monotone [1; 2] [0; 0] (Some 0) 0 0 None ne_f INC OG AF eq_refl c HN) as (C1 & C2 & C3 & C4 & C5 & C6 & C7 & C8).
  pose proof (ladder_priced (L:=float_laws) (DC := no_counts) DcDefault tau A tau_f_monotone eq_refl [1; 2] [0; 0] (Some 0) 0 0 None ne_f INC OG AF eq_refl c HN h _ _ LS 0 eq_refl n None None eq_refl) as PR.
  pose proof (ladder_local (L:=float_laws) (DC := no_counts) tau [1; 2] [0; 0] 0 0 INC eq_refl h _ _ LS) as LOC.
  pose proof (quotes_at (DS := fl) tau [1; 2] [0; 0] 0 0 (zero_amounts [100; 100]) 0 1 [100] eq_refl eq_refl) as HQ.
  revert PR LOC HQ. generalize (quotes (DS := fl) tau [1; 2] [0; 0] 0 0 (zero_amounts [100; 100])). intros Q PR LOC HQ.
  destruct Q as [|q0 ql]; [discriminate HQ|]. cbn [nth_error] in HQ. injection HQ as HQ.
  assert (P0 := Forall2_inv_head _ _ _ _ _ PR). assert (L0 := Forall_inv LOC). cbv beta in P0. clear PR LOC.
  assert (VQ : forall xs, snd q0 xs = 100 * exp (- nth 0 xs 0)).
  { intros xs. rewrite HQ. cbn [quote_of snd]. unfold value_on. cbn [combine map Rsum fst snd]. unfold dfx.
    rewrite (zr_at (L:=float_laws) [1; 2] [0; 0] INC xs 0 1 eq_refl). unfold tau. cbn [nth]. 
    replace (- ((0 + nth 0 xs 0) * (1 - 0) - zv [0; 0] xs * (0 - 0))) with (- nth 0 xs 0) by ring. ring. }
  assert (FQ : fst q0 = 1) by (rewrite HQ; reflexivity).
  assert (TE : forall xs d, 1 <= d -> total_error (DS := fl) [q0] (spread_arg (One target) (length [@PrList R 0])) xs d = 100 * exp (- nth 0 xs 0) - target).
  { intros xs d Hd. unfold total_error. cbn [spread_arg length repeat combine filter fst snd]. rewrite FQ. cbn [d_leb FloatDates]. rn. unfold Rleb.
    destruct (Rle_dec 1 d); [|lra]. cbn [map Rsum fst snd]. rewrite VQ. ring. }
  assert (PC : plain_cls (rc_cls c)) by (rewrite C1; exact I).
  assert (A' : additive (DS := fl) (dc_apply (DS := fl) (DC := no_counts) (dc_kwarg (dc_count (rc_dc c)))) tau) by (rewrite C5; exact A).
  destruct (C128_insensitive fl (fun d => d) no_counts float_laws tau (S (S n)) None h c 0 0 None None None [1; 2] (One target) [PrList 0] [q0] (1 / 1000) (- (1 / 10)) (2 / 10) data h' 1 2)
    as (xs & s & LX & _ & DA & ZE); auto using ne_f, nd_f.
  { intros xs x LX. destruct xs as [|x1 [|x2 [|]]]; try discriminate LX. cbn [set_nth]. rewrite !TE by lra. reflexivity. }
  destruct xs as [|x1 [|x2 [|]]]; try discriminate LX. exists x1. split.
  - rewrite (DA 0%nat 1 x1 0 eq_refl eq_refl (VC 0%nat 1 eq_refl)). f_equal. ring.
  - rewrite TE in ZE by lra. cbn [nth] in ZE. lra.
Qed.

(** a bond of two years on a grid of one and two years: the fit returns, the two year rate is
    that of the bond, and the one year rate becomes minus ten per cent *)
Example C128_one_bond : exists (h : heap R R (fperiod R)) data x y,
  get_curve_fit (DS := fl) (DC := no_counts) 19 None [PrList 0] 0 None None None (One (100 * exp (- (10 / 100)))) (1 / 1000) (- (1 / 10)) (2 / 10) h = (Ok data, h) /\
  data = [x; y] /\ Rabs (x - (- (1 / 10))) < 1 / 1000 /\ Rabs (100 * exp (- (y * 2)) - 100 * exp (- (10 / 100))) < 1 / 1000.
Proof.
  set (tau := fun a b : R => b - a).
  assert (A : additive (DS := fl) (dc_apply (DS := fl) (DC := no_counts) DcDefault) tau) by exact add_f.
  assert (INC : increasing (map (fun d : R => d) [1; 2])) by (cbn; repeat constructor; lra).
  assert (AF : forall d, In d [1; 2] -> 0 <= d) by (intros d [<-|[<-|[]]]; lra).
  destruct (built_curve (L:=float_laws) (DC := no_counts) DcDefault tau A tau_f_monotone [1; 2] [0; 0] (Some 0) 0 0 ne_f INC eq_refl AF eq_refl [0; 0] None eq_refl)
    as (c & HN & _ & VC & _).
  destruct (fixed_new (DS := fl) (P := fperiod R) [1] (Many [100]) None) as [l1|] eqn:E1; [|discriminate E1].
  destruct (fixed_new (DS := fl) (P := fperiod R) [2] (Many [100]) None) as [l2|] eqn:E2; [|discriminate E2].
  set (h := mkH [c] [] [mkHL l2 HNone; mkHL l1 HNone] : heap R R (fperiod R)).
  assert (HB : forall j p d m, nth_error [PrList 1; PrList 0] j = Some p -> nth_error [1; 2] j = Some d -> nth_error [100; 100] j = Some m ->
    zero_bond (DS := fl) h p d m).
  { intros j p d m Hp Hd Hm. destruct j as [|[|j]]; cbn in Hp, Hd, Hm.
    - injection Hp as <-. injection Hd as <-. injection Hm as <-. exists 1%nat, l1, None. auto.
    - injection Hp as <-. injection Hd as <-. injection Hm as <-. exists 0%nat, l2, None. auto.
    - destruct j; discriminate. }
  assert (PN : forall m, In m [100; 100] -> 0 < m) by (intros m [<-|[<-|[]]]; lra).
  destruct (zero_ladder fl (fun d => d) no_counts float_laws 0 [1; 2] [100; 100] h [PrList 1; PrList 0] INC AF eq_refl PN eq_refl HB) as [LA _].
  pose proof (ladder_stairs _ _ _ _ _ LA) as LS.
  assert (OG : dom_origin (Some 0) [1; 2] = Some 0) by reflexivity.
  destruct (curve_facts (L:=float_laws) (DC := no_counts) DcDefault tau A tau_f_monotone [1; 2] [0; 0] (Some 0) 0 0 None ne_f INC OG AF eq_refl c HN) as (C1 & C2 & C3 & C4 & C5 & C6 & C7 & C8).
  pose proof (ladder_priced (L:=float_laws) (DC := no_counts) DcDefault tau A tau_f_monotone eq_refl [1; 2] [0; 0] (Some 0) 0 0 None ne_f INC OG AF eq_refl c HN h _ _ LS 0 eq_refl 17 None None eq_refl) as PR.
  pose proof (ladder_local (L:=float_laws) (DC := no_counts) tau [1; 2] [0; 0] 0 0 INC eq_refl h _ _ LS) as LOC.
  pose proof (quotes_at (DS := fl) tau [1; 2] [0; 0] 0 0 (zero_amounts [100; 100]) 1 2 [0; 100] eq_refl eq_refl) as HQ.
  revert PR LOC HQ. generalize (quotes (DS := fl) tau [1; 2] [0; 0] 0 0 (zero_amounts [100; 100])). intros Q PR LOC HQ.
  destruct Q as [|q1 [|q0 ql]]; try discriminate HQ. cbn [nth_error] in HQ. injection HQ as HQ.
  apply Forall2_inv_tail in PR. assert (P0 := Forall2_inv_head _ _ _ _ _ PR). assert (L0 := Forall_inv (Forall_inv_tail LOC)). cbv beta in P0. clear PR LOC.
  assert (VQ : forall xs, snd q0 xs = 100 * exp (- (nth 1 xs 0 * 2))).
  { intros xs. rewrite HQ. cbn [quote_of snd]. unfold value_on. cbn [combine map Rsum fst snd]. unfold dfx.
    rewrite (zr_at (L:=float_laws) [1; 2] [0; 0] INC xs 1 2 eq_refl). unfold tau. cbn [nth].
    replace (- ((0 + nth 1 xs 0) * (2 - 0) - zv [0; 0] xs * (0 - 0))) with (- (nth 1 xs 0 * 2)) by ring. ring. }
  assert (FQ : fst q0 = 2) by (rewrite HQ; reflexivity).
  set (target := 100 * exp (- (10 / 100))).
  assert (TE1 : forall xs, total_error (DS := fl) [q0] (spread_arg (One target) (length [@PrList R 0])) xs 1 = 0).
  { intros xs. unfold total_error. cbn [spread_arg length repeat combine filter fst snd]. rewrite FQ. cbn [d_leb FloatDates]. rn. unfold Rleb.
    destruct (Rle_dec 2 1); [lra|]. reflexivity. }
  assert (TE2 : forall xs, total_error (DS := fl) [q0] (spread_arg (One target) (length [@PrList R 0])) xs 2 = 100 * exp (- (nth 1 xs 0 * 2)) - target).
  { intros xs. unfold total_error. cbn [spread_arg length repeat combine filter fst snd]. rewrite FQ. cbn [d_leb FloatDates]. rn. unfold Rleb.
    destruct (Rle_dec 2 2); [|lra]. cbn [map Rsum fst snd]. rewrite VQ. ring. }
  assert (PC : plain_cls (rc_cls c)) by (rewrite C1; exact I).
  assert (A' : additive (DS := fl) (dc_apply (DS := fl) (DC := no_counts) (dc_kwarg (dc_count (rc_dc c)))) tau) by (rewrite C5; exact A).
  assert (FP : Forall2 (fun p q => last_payment (DS := fl) h p (fst q) /\ priced (DS := fl) (DC := no_counts) 19 None h 0 None 0 c [1; 2] p (snd q)) [PrList 0] [q0])
    by (constructor; [exact P0|constructor]).
  assert (FL : Forall (local (fun d => d) [1; 2]) [q0]) by (constructor; [exact L0|constructor]).
  assert (CA : exists s0, rc_cast_on (DS := fl) (DC := no_counts) 19 None (rc_cls c) [1; 2] c None None DcDefault None = Ok s0).
  { apply (zero_cast fl (fun d => d) no_counts float_laws DcDefault tau [1; 2] [0; 0] (Some 0) 0 0 None c 17 None A tau_f_monotone eq_refl ne_f INC); auto. }
  destruct CA as (s0 & CA).
  assert (MZ : mapM (rc_call (DS := fl) (DC := no_counts) c) [1; 2] = Ok [0; 0]).
  { cbn [mapM]. rewrite (VC 0%nat 1 eq_refl), (VC 1%nat 2 eq_refl). reflexivity. }
  assert (LIP : forall x y, - (1 / 10) <= x -> x <= y -> 0 <= exp (- (x * 2)) - exp (- (y * 2)) <= 4 * (y - x)).
  { intros x y X Y. assert (ES : exp (- (x * 2)) <= 2).
    { apply (Rle_trans _ (exp (2 / 10))); [destruct (Req_dec (- (x * 2)) (2 / 10)) as [->|]; [lra|left; apply exp_increasing; lra]|].
      replace (2 / 10) with (- - (2 / 10)) by ring. rewrite exp_Ropp. pose proof (exp_ineq1_le (- (2 / 10))).
      apply (Rle_trans _ (/ (1 / 2))); [apply Rinv_le_contravar; lra|lra]. }
    replace (- (y * 2)) with (- (x * 2) + - (2 * (y - x))) by ring. rewrite exp_plus.
    pose proof (exp_ineq1_le (- (2 * (y - x)))) as I1. pose proof (exp_pos (- (x * 2))) as I2.
    assert (I3 : exp (- (2 * (y - x))) <= 1).
    { rewrite <- exp_0. destruct (Req_dec x y) as [->|]; [replace (- (2 * (y - y))) with 0 by ring; lra|left; apply exp_increasing; lra]. }
    split; [nra|]. assert (0 <= exp (- (x * 2)) * (exp (- (2 * (y - x))) - (1 + - (2 * (y - x))))) by (apply Rmult_le_pos; lra). nra. }
  destruct (C50_returns fl (fun d => d) no_counts float_laws tau 18 None h c 0 0 None None None [1; 2] (One target) [PrList 0] [q0] (1 / 1000) (- (1 / 10)) (2 / 10) s0 [0; 0] 400)
    as (data & RUN); auto using ne_f, nd_f.
  { cbv zeta. intros i d xs Hi LX _. destruct xs as [|x1 [|x2 [|]]]; try discriminate LX.
    destruct i as [|[|i]]; cbn in Hi; [| |destruct i; discriminate].
    - injection Hi as <-. split; [left; rewrite !TE1; lra|]. intros x y _ _. rewrite !TE1, Rminus_0_r, Rabs_R0. pose proof (Rabs_pos (x - y)). lra.
    - injection Hi as <-. cbn [set_nth]. split.
      + right. rewrite !TE2. cbn [nth]. unfold target. split.
        * pose proof (LIP (5 / 100) (2 / 10) ltac:(lra) ltac:(lra)). replace (5 / 100 * 2) with (10 / 100) in H by field. lra.
        * pose proof (LIP (- (1 / 10)) (5 / 100) ltac:(lra) ltac:(lra)). replace (5 / 100 * 2) with (10 / 100) in H by field. lra.
      + intros x y Ix Iy. rewrite !TE2. cbn [nth]. unfold inside in Ix, Iy. rewrite Rmin_left in Ix, Iy by lra.
        replace (100 * exp (- (x * 2)) - target - (100 * exp (- (y * 2)) - target)) with (100 * (exp (- (x * 2)) - exp (- (y * 2)))) by ring.
        rewrite Rabs_mult, (Rabs_pos_eq 100) by lra.
        destruct (Rle_dec x y) as [XY|XY].
        * pose proof (LIP x y ltac:(lra) XY). rewrite (Rabs_pos_eq (exp _ - _)) by lra. rewrite (Rabs_minus_sym x y), (Rabs_pos_eq (y - x)) by lra. lra.
        * pose proof (LIP y x ltac:(lra) ltac:(lra)). rewrite Rabs_minus_sym, (Rabs_pos_eq (exp _ - _)), (Rabs_pos_eq (x - y)) by lra. lra. }
  { rewrite Rabs_pos_eq by lra. lra. }
  { rewrite Rabs_pos_eq by lra. lra. }
  destruct (C50_cumulative fl (fun d => d) no_counts float_laws tau 19 None h c 0 0 None None None [1; 2] (One target) [PrList 0] [q0] (1 / 1000) (- (1 / 10)) (2 / 10) data h)
    as (_ & xs & s & LX & _ & LD & DA & _ & _ & ER); auto using ne_f, nd_f.
  destruct (C128_unmatured fl (fun d => d) no_counts float_laws tau 18 None h c 0 0 None None None [1; 2] (One target) [PrList 0] [q0] (1 / 1000) (- (1 / 10)) (2 / 10) s0 [0; 0] data h 0 1 0)
    as (z & Z0 & _ & Z1); auto using ne_f, nd_f.
  { intros q [<-|[]]. rewrite FQ. lra. }
  { exact (VC 0%nat 1 eq_refl). }
  destruct data as [|x [|y [|]]]; try discriminate LD. destruct xs as [|x1 [|x2 [|]]]; try discriminate LX.
  exists h, [x; y], x, y. split; [exact RUN|]. split; [reflexivity|]. cbn in Z0. injection Z0 as ->. split.
  - now replace (z - - (1 / 10)) with (z - (0 + - (1 / 10))) by ring.
  - specialize (ER 2 (or_intror (or_introl eq_refl))). rewrite TE2 in ER. cbn [nth] in ER.
    pose proof (DA 1%nat 2 x2 0 eq_refl eq_refl (VC 1%nat 2 eq_refl)) as D1. cbn in D1. injection D1 as ->. now rewrite Rplus_0_l.
Qed.
