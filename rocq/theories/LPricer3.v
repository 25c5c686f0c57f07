(** Lemmas about shifting curves. *)
From Coq Require Import Reals Lra Lia List Bool ZArith Sorted Permutation.
From Verif Require Import Num Py Spec MDates MInterpolation MCurve MRateCurve MOption MCashflow MBracket MPricer
  SDates SInterpolation SCurve SRateCurve SPricer LBase LSort LDates LInterpolation LCurve LCurve2 LDateCurve LDateCurve2 LRateCurve3
  LPricer LPricer2.
Import ListNotations.
Open Scope R_scope.

Section Shift.
  Context {D P : Type} {DS : DateSys R D P} {DC : DayCounts R D} {tm : D -> R} {L : DateLaws DS tm}.
  Implicit Types (h : heap R D P) (c : rcurve R D P).

  (** a date curve on distinct dates: piecewise linear in time *)
  Lemma spread_curve (ds : list D) (ys : list R) : ds <> [] -> length ds = length ys -> NoDup (map tm ds) ->
    exists s f, dc_new linear_scheme ds ys None None DcDefault = Ok s /\
      (forall d, dc_val s d = Ok (f (tm d))) /\
      (forall t, piecewise_linear (combine (map tm ds) ys) t (f t)).
  Proof.
    intros NE HL ND.
    destruct (pl_function (map tm ds) ys) as (f & F1); [now rewrite map_length|auto|destruct ds; [congruence|discriminate]|].
    assert (exists o, dom_origin None ds = Some o) as [o HO] by (destruct ds; [congruence|cbn; eauto]).
    pose proof (default_additive (L:=L) (DC:=DC)) as A.
    destruct (dstate_exists (tm:=tm) DcDefault (fun a b => tm b - tm a) linear_scheme None None o ds ys HL ND HO) as [s S].
    { apply adm_linear. now apply (times_distinct (L:=L) DcDefault _ A). }
    exists s, f. split; [|split; auto].
    - now apply (dstate_iff (L:=L) DcDefault _ A linear_scheme ds ys None None o).
    - intros d. destruct (dstate_linear (L:=L) DcDefault _ A None o ds ys s d tm) as (y & E & PL); auto.
      unfold dc_val. rewrite E. cbn [bind some_float]. f_equal. apply (pl_fun (combine (map tm ds) ys) (tm d)); auto.
      unfold distinct. now rewrite map_fst_combine by (now rewrite map_length).
  Qed.

  Lemma flat_spread (o : D) (x : R) : exists s,
    dc_new linear_scheme [o] [x] None None DcDefault = Ok s /\ forall d, dc_val s d = Ok x.
  Proof.
    destruct (spread_curve [o] [x]) as (s & f & E & V & PL); [discriminate|reflexivity|repeat constructor; intros []|].
    exists s. split; auto. intros d. rewrite V. f_equal. apply (pl_single (tm o) x (tm d)). apply PL.
  Qed.

  Lemma put_spread_run k s h c : nth_error (h_curves h) k = Some c -> rc_spread c = None ->
    put_spread k (Some s) h =
    (Ok tt, mkH (set_nth k (mkR (rc_cls c) (rc_dc c) (rc_tenor0 c) (Some s)) (h_curves h)) (h_models h) (h_lists h)).
  Proof.
    intros H N. unfold put_spread, bindS, get_curve, lift. rewrite (nth_res_some _ _ _ H).
    unfold set_spread. rewrite N. reflexivity.
  Qed.

  Lemma put_spread_twice k s h c s' : nth_error (h_curves h) k = Some c -> rc_spread c = Some s' ->
    put_spread k (Some s) h = (Err TypeError, h).
  Proof.
    intros H N. unfold put_spread, bindS, get_curve, lift. rewrite (nth_res_some _ _ _ H).
    unfold set_spread. rewrite N. reflexivity.
  Qed.
End Shift.

Section Loop.
  Context {D P : Type} {DS : DateSys R D P} {DC : DayCounts R D}.
  Implicit Types (h : heap R D P) (c : rcurve R D P).

  (** giving spreads of value x to different curves without spread *)
  Lemma spread_run (f : nat -> st (heap R D P) unit) (x : D -> R) : forall ks h, NoDup ks ->
    (forall k, In k ks -> exists c, nth_error (h_curves h) k = Some c /\ rc_spread c = None) ->
    (forall h' k c, In k ks -> nth_error (h_curves h) k = Some c -> nth_error (h_curves h') k = Some c ->
       exists s, f k h' = put_spread k (Some (inl s)) h' /\ forall d, dc_val s d = Ok (x d)) ->
    exists us h1, mapS f ks h = (Ok us, h1) /\ shifted_by h ks x h1.
  Proof.
    induction ks as [|k ks IH]; intros h ND HC HF.
    - exists [], h. split; auto. split; auto. split; auto. split; auto. intros ? ? [].
    - inversion ND as [|? ? NI ND']; subst. destruct (HC k (or_introl eq_refl)) as (c & Ek & NS).
      destruct (HF h k c (or_introl eq_refl) Ek Ek) as (s & Ef & V).
      rewrite (put_spread_run _ _ _ _ Ek NS) in Ef.
      set (c1 := mkR (rc_cls c) (rc_dc c) (rc_tenor0 c) (Some (inl s))) in *.
      set (h0 := mkH (set_nth k c1 (h_curves h)) (h_models h) (h_lists h)) in *.
      assert (LT : (k < length (h_curves h))%nat) by (apply nth_error_Some; congruence).
      assert (OTH : forall j, j <> k -> nth_error (h_curves h0) j = nth_error (h_curves h) j).
      { intros j N. cbn. rewrite set_nth_other; auto. }
      destruct (IH h0 ND') as (us & h1 & E & (M & LI & C1 & C2)).
      + intros j Ij. rewrite OTH by (intros ->; contradiction). apply HC. now right.
      + intros h' j cj Ij Ej Ej'. rewrite OTH in Ej by (intros ->; contradiction). apply (HF h' j cj); auto. now right.
      + exists (tt :: us), h1. split.
        * cbn [mapS]. unfold bindS. rewrite Ef, E. reflexivity.
        * split; [exact M|]. split; [exact LI|]. split.
          -- intros j N. rewrite C1 by (intros I; apply N; now right). apply OTH. intros ->. apply N. now left.
          -- intros j cj [<-|Ij] Ej.
             ++ assert (cj = c) by congruence. subst cj. exists (inl s). rewrite C1 by auto.
                cbn [h0 h_curves]. split; [now apply set_nth_nth|]. split; auto.
                intros d y Hy. cbn [rc_call]. rewrite V. cbn [bind].
                destruct c as [kk dd tt0 sp]. cbn in NS. subst sp. cbn [rc_dc]. rewrite rc_call_plain in Hy. rewrite Hy. reflexivity.
             ++ apply C2; auto. rewrite OTH; auto. intros ->. contradiction.
  Qed.

  (** removing them again *)
  Lemma unspread_run ks x h h1 : shifted_by h ks x h1 -> 
    (forall k, In k ks -> exists c, nth_error (h_curves h) k = Some c /\ rc_spread c = None) ->
    exists us, mapS unshift_curve ks h1 = (Ok us, h).
  Proof.
    intros (M & LI & C1 & C2) HC.
    assert (SO : spreads_only ks h h1).
    { split; auto. split; auto. intros k. split; auto. destruct (in_dec Nat.eq_dec k ks) as [I|N]; [|now rewrite C1].
      destruct (HC k I) as (c & Ec & _). destruct (C2 k c I Ec) as (s & Es & _). rewrite Es, Ec. reflexivity. }
    assert (G : forall l h', incl l ks -> spreads_only ks h h' -> exists us h2, mapS unshift_curve l h' = (Ok us, h2)).
    { induction l as [|k l IH]; intros h' IN SO'; [exists [], h'; reflexivity|].
      assert (Ik : In k ks) by (apply IN; now left). destruct (HC k Ik) as (c & Ec & _).
      destruct SO' as (M' & L' & C'). destruct (C' k) as [A _]. rewrite Ec in A.
      destruct (nth_error (h_curves h') k) as [c'|] eqn:Ec'; [|discriminate].
      assert (R : unshift_curve k h' = (Ok tt, mkH (set_nth k (strip c') (h_curves h')) (h_models h') (h_lists h'))).
      { unfold unshift_curve, put_spread, bindS, get_curve, lift. rewrite (nth_res_some _ _ _ Ec').
        unfold set_spread. reflexivity. }
      destruct (IH (mkH (set_nth k (strip c') (h_curves h')) (h_models h') (h_lists h'))) as (us & h2 & E).
      - intros j I. apply IN. now right.
      - apply (so_trans _ _ h').
        + exact (conj M' (conj L' C')).
        + destruct (put_spread_ok k None h' tt _ R) as (_ & _ & S & _).
          apply (so_incl [k]); auto. intros j [->|[]]. exact Ik.
      - exists (tt :: us), h2. cbn [mapS]. unfold bindS. rewrite R, E. reflexivity. }
    destruct (G ks h1 (incl_refl _) SO) as (us & h2 & E). exists us. rewrite E. do 2 f_equal.
    destruct (unspread_loop _ _ _ _ E) as (SO2 & N2). apply (so_eq ks).
    - eapply so_trans; eauto.
    - intros k c I Ec. destruct (HC k I) as (c' & Ec' & N). congruence.
    - exact N2.
  Qed.
End Loop.

Lemma nth_combine {A B} (l : list A) (m : list B) i a b : nth_error (combine l m) i = Some (a, b) ->
  nth_error l i = Some a /\ nth_error m i = Some b.
Proof.
  revert m i. induction l as [|x l IH]; intros [|y m] [|i]; cbn; try discriminate.
  - intros [= -> ->]. auto.
  - apply IH.
Qed.

(** * Hat functions *)
Section Hat.
  Context {A : Type}.
  (** bucket j of the grid: the j-th point and its neighbours *)
  Definition hat (x : R) (grid : list A) (j : nat) (b : list A * list R) : Prop :=
    exists pre lft g rgt post, grid = pre ++ lft ++ [g] ++ rgt ++ post /\ length (pre ++ lft) = j /\
      (lft = [] \/ exists l, lft = [l]) /\ (lft = [] -> pre = []) /\
      (rgt = [] \/ exists r, rgt = [r]) /\ (rgt = [] -> post = []) /\
      b = (lft ++ [g] ++ rgt, map (fun _ => 0) lft ++ [x] ++ map (fun _ => 0) rgt).

  Lemma triples_cons (a b c : A) l : triples (a :: b :: c :: l) = [a; b; c] :: triples (b :: c :: l).
  Proof. reflexivity. Qed.

  Lemma triples_length : forall l : list A, length (triples l) = (length l - 2)%nat.
  Proof.
    induction l as [|a l IH]; auto. destruct l as [|b [|c l]]; auto.
    rewrite triples_cons. cbn [length]. rewrite IH. cbn. lia.
  Qed.

  Lemma triples_nth : forall (l : list A) j t, nth_error (triples l) j = Some t ->
    exists pre x y z post, l = pre ++ [x] ++ [y] ++ [z] ++ post /\ length pre = j /\ t = [x; y; z].
  Proof.
    induction l as [|a l IH]; intros j t H; [destruct j; discriminate|].
    destruct l as [|b [|c l]]; try (destruct j; discriminate).
    rewrite triples_cons in H. destruct j as [|j].
    - cbn in H. injection H as <-. exists [], a, b, c, l. auto.
    - cbn [nth_error] in H. destruct (IH j t H) as (pre & x & y & z & post & E & LJ & ->).
      exists (a :: pre), x, y, z, post. rewrite E. cbn. rewrite LJ. auto.
  Qed.
End Hat.

Lemma buckets_hat {D} (grid : list D) (x : R) : grid <> [] ->
  exists gs, buckets_of grid x = Ok gs /\ length gs = length grid /\
    forall j b, nth_error gs j = Some b -> hat x grid j b.
Proof.
  intros NE. destruct grid as [|a [|b l]]; [congruence| |].
  - eexists. split; [reflexivity|]. split; auto. intros [|[|j]] bb H; try discriminate. injection H as <-.
    exists [], [], a, [], []. repeat split; auto.
  - destruct l as [|c l].
    + eexists. split; [reflexivity|]. split; auto. intros [|[|[|j]]] bb H; try discriminate; injection H as <-.
      * exists [], [], a, [b], []. repeat split; eauto; try discriminate.
      * exists [], [a], b, [], []. repeat split; eauto. 
    + set (grid := a :: b :: c :: l).
      assert (LN : forall x0, nth (length grid - 2) grid x0 = nth (length l) (b :: c :: l) x0 /\
                              nth (length grid - 1) grid x0 = nth (length l) (c :: l) x0).
      { intros x0. unfold grid. cbn [length]. replace (S (S (S (length l))) - 2)%nat with (S (length l)) by lia.
        replace (S (S (S (length l))) - 1)%nat with (S (S (length l))) by lia. split; reflexivity. }
      assert (SP : exists pre p q, grid = pre ++ [p; q] /\ length pre = S (length l) /\
                 nth (length grid - 2) grid a = p /\ nth (length grid - 1) grid a = q).
      { destruct (exists_last (l := grid) ltac:(discriminate)) as (g1 & q & E1).
        assert (L1 : length g1 = S (S (length l))).
        { apply (f_equal (@length D)) in E1. rewrite app_length in E1. cbn in E1. lia. }
        destruct (exists_last (l := g1)) as (pre & p & E2); [intros ->; discriminate|].
        assert (L2 : length pre = S (length l)).
        { apply (f_equal (@length D)) in E2. rewrite app_length in E2. cbn in E2. lia. }
        exists pre, p, q. rewrite E1, E2, <- app_assoc. cbn [app].
        split; auto. split; auto. rewrite app_length, L2. cbn [length].
        replace (S (length l) + 2 - 2)%nat with (S (length l)) by lia.
        replace (S (length l) + 2 - 1)%nat with (S (S (length l))) by lia. split.
        - rewrite app_nth2 by lia. rewrite L2. replace (S (length l) - S (length l))%nat with 0%nat by lia. reflexivity.
        - rewrite app_nth2 by lia. rewrite L2. replace (S (S (length l)) - S (length l))%nat with 1%nat by lia. reflexivity. }
      destruct SP as (pre & p & q & E & LP & Np & Nq).
      eexists. split; [reflexivity|]. fold grid. split.
      * rewrite !app_length, map_length, triples_length. unfold grid. cbn [length]. lia.
      * intros j bb H. destruct j as [|j].
        -- cbn in H. injection H as <-. exists [], [], a, [b], (c :: l). repeat split; eauto; try discriminate.
        -- cbn [app nth_error] in H.
           destruct (Nat.lt_ge_cases j (length (map (fun g => (g, [n0; x; n0])) (triples grid)))) as [LT|GE].
           ++ rewrite nth_error_app1 in H by auto. rewrite nth_error_map in H.
              destruct (nth_error (triples grid) j) as [t|] eqn:ET; [|discriminate]. cbn in H. injection H as <-.
              destruct (triples_nth _ _ _ ET) as (pr & u & v & w & po & EG & LJ & ->).
              exists pr, [u], v, [w], po. split; [exact EG|]. split; [rewrite app_length; cbn; lia|].
              repeat split; eauto; try discriminate.
           ++ rewrite nth_error_app2 in H by auto. rewrite map_length, triples_length in GE, H.
              assert (LG : (length grid - 2 = S (length l))%nat) by (unfold grid; cbn; lia). rewrite LG in *.
              destruct (j - S (length l))%nat as [|k] eqn:EJ; [|destruct k; discriminate].
              cbn [nth_error] in H. rewrite Np, Nq in H. injection H as <-.
              exists pre, [p], q, [], []. split; [exact E|]. split; [rewrite app_length; cbn; lia|].
              repeat split; eauto; try discriminate.
Qed.

Section HatValues.
  Context {D P : Type} {DS : DateSys R D P} {DC : DayCounts R D} {tm : D -> R} {L : DateLaws DS tm}.

  Lemma hat_curve (x : R) (grid : list D) j b : increasing (map tm grid) -> hat x grid j b ->
    exists s f, dc_new linear_scheme (fst b) (snd b) None None DcDefault = Ok s /\
      (forall d, dc_val s d = Ok (f (tm d))) /\ pl_on (fun t => In t (map tm grid)) f /\
      forall i d, nth_error grid i = Some d -> f (tm d) = if Nat.eqb i j then x else 0.
  Proof.
    intros INC (pre & lft & g & rgt & post & EG & LJ & HLF & NPL & HRG & NPR & ->). cbn [fst snd].
    assert (LEN : length (lft ++ [g] ++ rgt) = length (map (fun _ : D => 0) lft ++ [x] ++ map (fun _ : D => 0) rgt)).
    { rewrite !app_length, !map_length. reflexivity. }
    pose proof INC as INC0. rewrite EG, !map_app in INC. unfold increasing in INC.
    destruct (ss_app_inv _ _ _ INC) as (_ & I1 & B1).
    assert (IB : increasing (map tm (lft ++ [g] ++ rgt))).
    { rewrite !map_app. rewrite !app_assoc in I1. destruct (ss_app_inv _ _ _ I1) as (I2 & _). rewrite <- !app_assoc in I2. exact I2. }
    pose proof (incr_nodup _ IB) as ND.
    destruct (spread_curve (L:=L) (lft ++ [g] ++ rgt) _ ltac:(destruct lft; discriminate) LEN ND) as (s & f & E & V & PL).
    set (ys := map (fun _ : D => 0) lft ++ [x] ++ map (fun _ : D => 0) rgt) in *.
    set (ps := combine (map tm (lft ++ [g] ++ rgt)) ys) in *.
    assert (MF : map fst ps = map tm (lft ++ [g] ++ rgt)) by (apply map_fst_combine; now rewrite map_length).
    assert (DD : distinct ps) by (unfold distinct; now rewrite MF).
    assert (NEP : ps <> []) by (unfold ps, ys; destruct lft; discriminate).
    assert (PS : ps = combine (map tm lft) (map (fun _ => 0) lft) ++ [(tm g, x)] ++ combine (map tm rgt) (map (fun _ => 0) rgt)).
    { unfold ps, ys. rewrite !map_app, combine_app' by (now rewrite !map_length). reflexivity. }
    exists s, f. split; [exact E|]. split; [exact V|]. split.
    { apply (pl_on_weaken (fun t => In t (map fst ps))); [|now apply pl_is_pl_on].
      intros c I. rewrite MF in I. rewrite EG. rewrite !map_app in *. rewrite !in_app_iff in *. tauto. }
    assert (NODE : forall a z, In (a, z) ps -> f a = z) by (intros a z I; apply (pl_node ps a (f a) z); auto).
    intros i d N.
    assert (LFT : forall e, In e lft -> f (tm e) = 0).
    { intros e I. apply NODE. rewrite PS. apply in_or_app. left. destruct HLF as [->|[l ->]]; [destruct I|].
      destruct I as [->|[]]. now left. }
    assert (RGT : forall e, In e rgt -> f (tm e) = 0).
    { intros e I. apply NODE. rewrite PS. apply in_or_app. right. right. destruct HRG as [->|[l ->]]; [destruct I|].
      destruct I as [->|[]]. now left. }
    assert (GG : f (tm g) = x) by (apply NODE; rewrite PS; apply in_or_app; right; now left).
    destruct (Nat.lt_total i j) as [LT|[->|GT]].
    - replace (Nat.eqb i j) with false by (symmetry; apply Nat.eqb_neq; lia).
      rewrite EG, app_assoc, nth_error_app1 in N by lia. apply nth_error_In, in_app_iff in N.
      destruct N as [I|I]; [|auto].
      destruct HLF as [->|[l ->]]; [now rewrite NPL in I|].
      assert (BL : tm d < tm l) by (apply B1; [now apply in_map|now left]).
      apply (pl_fun ps (tm d)); auto. right. left. exists (tm l). split; [rewrite PS; now left|]. split; [|lra].
      intros a z Ia. assert (Im : In a (map fst ps)) by (apply in_map_iff; exists (a, z); auto).
      rewrite MF in Im. apply in_map_iff in Im. destruct Im as (e & <- & [->|Ie]); [lra|].
      cbn in IB. inversion IB as [|? ? ? F]. rewrite Forall_forall in F. left. apply F. exact (in_map tm ([g] ++ rgt) e Ie).
    - rewrite Nat.eqb_refl. rewrite EG, app_assoc, nth_error_app2 in N by lia. rewrite LJ in N.
      replace (j - j)%nat with 0%nat in N by lia. injection N as <-. exact GG.
    - replace (Nat.eqb i j) with false by (symmetry; apply Nat.eqb_neq; lia).
      rewrite EG, app_assoc, nth_error_app2 in N by lia. rewrite LJ in N.
      destruct (i - j)%nat as [|m] eqn:EM; [lia|]. cbn [app nth_error] in N. apply nth_error_In, in_app_iff in N.
      destruct N as [I|I]; [auto|].
      destruct HRG as [->|[r ->]]; [now rewrite NPR in I|].
      rewrite !app_assoc in I1. destruct (ss_app_inv _ _ _ I1) as (_ & _ & B2).
      assert (BR : tm r < tm d) by (apply B2; [apply in_or_app; right; now left|now apply in_map]).
      apply (pl_fun ps (tm d)); auto. right. right. exists (tm r).
      split; [rewrite PS; apply in_or_app; right; right; now left|]. split; [|lra].
      intros a z Ia. assert (Im : In a (map fst ps)) by (apply in_map_iff; exists (a, z); auto).
      rewrite MF, app_assoc, map_app in Im. apply in_app_or in Im. destruct Im as [Im|[<-|[]]]; [|lra].
      rewrite app_assoc, map_app in IB. destruct (ss_app_inv _ _ _ IB) as (_ & _ & B3). left. apply B3; [exact Im|now left].
  Qed.

  Lemma pl_on_zero X : pl_on X (fun _ => 0).
  Proof. split; [|split]; intros; auto. unfold chord. lra. Qed.

  Lemma hats_sum (x : R) (grid : list D) : increasing (map tm grid) -> grid <> [] ->
    forall gs, length gs = length grid -> (forall j b, nth_error gs j = Some b -> hat x grid j b) ->
    exists fs : list (D -> R), Forall2 (fun g f => exists s,
        dc_new linear_scheme (fst g) (snd g) None None DcDefault = Ok s /\ forall d, dc_val s d = Ok (f d)) gs fs /\
      length fs = length grid /\
      (forall i j d f, nth_error grid i = Some d -> nth_error fs j = Some f -> f d = if Nat.eqb i j then x else 0) /\
      (forall j d f, nth_error fs j = Some f -> piecewise_linear (combine (map tm grid) (spike x (length grid) j)) (tm d) (f d)) /\
      forall d, Rsum (map (fun f => f d) fs) = x.
  Proof.
    intros INC NE gs LG HG.
    assert (G : forall gs (n : nat), (forall j b, nth_error gs j = Some b -> hat x grid (n + j) b) ->
      exists fs : list (R -> R), Forall2 (fun g (f : R -> R) => exists s,
        dc_new linear_scheme (fst g) (snd g) None None DcDefault = Ok s /\ forall d, dc_val s d = Ok (f (tm d))) gs fs /\
        (forall i j d f, nth_error grid i = Some d -> nth_error fs j = Some f -> f (tm d) = if Nat.eqb i (n + j) then x else 0) /\
        (forall f, In f fs -> pl_on (fun t => In t (map tm grid)) f) /\
        pl_on (fun t => In t (map tm grid)) (fun t => Rsum (map (fun f => f t) fs)) /\
        forall i d, nth_error grid i = Some d ->
          Rsum (map (fun f => f (tm d)) fs) = if (Nat.leb n i && Nat.ltb i (n + length gs))%bool then x else 0).
    { induction gs0 as [|b gs0 IH]; intros n H.
      - exists []. split; [constructor|]. split; [intros i [|j]; discriminate|]. split; [intros ? []|]. split; [apply pl_on_zero|].
        intros i d _. cbn [map Rsum length]. replace (Nat.leb n i && Nat.ltb i (n + 0))%bool with false; [reflexivity|].
        symmetry. apply andb_false_iff. destruct (Nat.leb n i) eqn:E1; auto. right. apply Nat.leb_le in E1. apply Nat.ltb_ge. lia.
      - destruct (hat_curve x grid n b INC) as (s & f & E & V & PL & N).
        { specialize (H 0%nat b eq_refl). now rewrite Nat.add_0_r in H. }
        destruct (IH (S n)) as (fs & F & NN & PF & PP & SS).
        { intros j b' Hb. specialize (H (S j) b' Hb). now rewrite Nat.add_succ_comm. }
        exists (f :: fs). split; [constructor; eauto|]. split; [|split; [intros g [<-|Ig]; auto|split]].
        + intros i [|j] d f' Hi Hj; cbn in Hj.
          * injection Hj as <-. rewrite Nat.add_0_r. auto.
          * rewrite <- Nat.add_succ_comm. eauto.
        + cbn [map Rsum]. now apply pl_on_plus.
        + intros i d Hi. cbn [map Rsum length]. rewrite (N i d Hi), (SS i d Hi).
          destruct (Nat.eqb_spec i n) as [->|NQ].
          * rewrite Nat.leb_refl. replace (Nat.leb (S n) n) with false by (symmetry; apply Nat.leb_gt; lia).
            replace (Nat.ltb n (n + S (length gs0))) with true by (symmetry; apply Nat.ltb_lt; lia). cbn. lra.
          * rewrite <- Nat.add_succ_comm. rewrite Rplus_0_l. do 2 f_equal.
            destruct (Nat.leb_spec n i), (Nat.leb_spec (S n) i); auto; lia. }
    destruct (G gs 0%nat) as (fs & F & NN & PF & PP & SS); [exact HG|].
    exists (map (fun f d => f (tm d)) fs). split; [|split; [|split; [|split]]].
    - clear -F. induction F as [|g f gs fs H F IH]; cbn; constructor; auto.
    - rewrite map_length. rewrite <- LG. clear -F. induction F; cbn; congruence.
    - intros i j d f Hi Hj. rewrite nth_error_map in Hj. destruct (nth_error fs j) as [f0|] eqn:E; [|discriminate].
      cbn in Hj. injection Hj as <-. apply (NN i j d f0); auto.
    - intros j d f Hj. rewrite nth_error_map in Hj. destruct (nth_error fs j) as [f0|] eqn:E; [|discriminate].
      cbn in Hj. injection Hj as <-. set (ps := combine (map tm grid) (spike x (length grid) j)).
      assert (LS : length (map tm grid) = length (spike x (length grid) j)) by (unfold spike; now rewrite !map_length, seq_length).
      assert (MF : map fst ps = map tm grid) by now apply map_fst_combine.
      assert (NEP : ps <> []) by (intro Q; rewrite Q in MF; destruct grid; [congruence|discriminate]).
      destruct (pl_total ps (tm d) NEP) as [y PY]. rewrite <- (pl_on_recover ps f0 (tm d) y); auto.
      + intros a z I. apply In_nth_error in I. destruct I as [i Hi]. apply nth_combine in Hi. destruct Hi as [Ha Hz].
        rewrite nth_error_map in Ha. destruct (nth_error grid i) as [e|] eqn:Ei; [|discriminate]. injection Ha as <-.
        unfold spike in Hz. rewrite nth_error_map in Hz. destruct (nth_error (seq 0 (length grid)) i) as [m|] eqn:Em; [|discriminate].
        injection Hz as <-. assert (m = i) as ->.
        { assert (LT : (i < length grid)%nat) by (apply nth_error_Some; congruence).
          rewrite (nth_error_nth' _ 0%nat) in Em by now rewrite seq_length. rewrite seq_nth in Em by auto. now injection Em. }
        symmetry. exact (NN i j e f0 Ei E).
      + rewrite MF. apply PF. eapply nth_error_In; eauto.
    - intros d. rewrite map_map. set (S := fun t => Rsum (map (fun f : R -> R => f t) fs)) in *. change (S (tm d) = x).
      set (ps := combine (map tm grid) (repeat x (length grid))).
      assert (MF : map fst ps = map tm grid) by (apply map_fst_combine; now rewrite repeat_length, map_length).
      assert (NEP : ps <> []) by (unfold ps; destruct grid; [congruence|discriminate]).
      destruct (pl_total ps (tm d) NEP) as [y PY].
      assert (VAL : forall a z, In (a, z) ps -> z = x).
      { intros a z I. apply in_combine_r in I. now apply repeat_spec in I. }
      rewrite <- (pl_on_recover ps S (tm d) y); auto.
      + assert (X : y = (fun _ => x) (tm d)).
        { apply (pl_on_recover ps (fun _ => x) (tm d)); auto. split; [|split]; intros; auto. unfold chord. lra. }
        exact X.
      + intros a z I. rewrite (VAL a z I). assert (Im : In a (map fst ps)) by (apply in_map_iff; exists (a, z); auto).
        rewrite MF in Im. apply in_map_iff in Im. destruct Im as (e & <- & Ie). apply In_nth_error in Ie. destruct Ie as [i Hi].
        unfold S. rewrite (SS i e Hi). assert ((i < length grid)%nat) by (apply nth_error_Some; congruence).
        cbn [Nat.leb Nat.add andb]. rewrite LG. now replace (Nat.ltb i (length grid)) with true by (symmetry; apply Nat.ltb_lt; lia).
      + rewrite MF. exact PP.
  Qed.
End HatValues.
