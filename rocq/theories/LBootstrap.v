(** Lemmas about bootstrapping a zero rate curve from bonds. *)
From Coq Require Import Reals Lra Lia List Bool ZArith Sorted.
From Verif Require Import Num Py Spec MDates MInterpolation MCurve MRateCurve MOption MCashflow MBracket MPricer
  SDates SInterpolation SCurve SRateCurve SCashflow SPricer SBracket SYield SFit SBootstrap LBase LSort LDates LInterpolation LCurve LCurve2
  LDateCurve LDateCurve2 LCashflow LRateCurve LRateCurve3 LPricer LPricer2 LPricer3 LBracket LYield LFair LFit LMore LInterpolation2 PBracket PCashflow PRateCurve2 PPricer.
Import ListNotations.
Open Scope R_scope.

Lemma increasing_nth (l : list R) : increasing l -> forall i j x y, nth_error l i = Some x -> nth_error l j = Some y -> (x <= y <-> (i <= j)%nat).
Proof.
  intros SS. induction SS as [|a l SS IH F]; intros i j x y I J; [destruct i; discriminate|].
  rewrite Forall_forall in F. destruct i as [|i], j as [|j]; cbn in I, J.
  - injection I as ->. injection J as ->. split; [lia|lra].
  - injection I as ->. specialize (F y (nth_error_In _ _ J)). split; [lia|lra].
  - injection J as ->. specialize (F x (nth_error_In _ _ I)). split; [lra|lia].
  - rewrite (IH i j x y I J). lia.
Qed.
Lemma increasing_distinct (l : list R) : increasing l -> NoDup l.
Proof.
  intros SS. induction SS as [|a l SS IH F]; constructor; auto. intros I. rewrite Forall_forall in F. specialize (F a I). lra.
Qed.
Lemma nth_firstn {A} (l : list A) : forall n i x, nth_error (firstn n l) i = Some x -> nth_error l i = Some x /\ (i < n)%nat.
Proof.
  induction l as [|a l IH]; intros [|n] [|i] x H; try discriminate; cbn in *; auto.
  - split; [auto|lia].
  - destruct (IH n i x H). split; [auto|lia].
Qed.
Lemma nth_set_same (l : list R) i x : (i < length l)%nat -> nth i (set_nth i x l) 0 = x.
Proof. intros H. apply nth_error_nth. now apply set_nth_nth. Qed.
Lemma nth_set_other (l : list R) i j x : i <> j -> nth j (set_nth i x l) 0 = nth j l 0.
Proof.
  intros H. pose proof (set_nth_other l i j x H) as E. destruct (nth_error l j) as [y|] eqn:N.
  - rewrite (nth_error_nth _ _ 0 N). now apply nth_error_nth.
  - rewrite !nth_overflow; auto; apply nth_error_None; auto.
Qed.

Lemma nodup_left {A} (a b : list A) : NoDup (a ++ b) -> NoDup a.
Proof.
  induction a as [|x a IH]; intros H; [constructor|]. cbn in H. inversion H; subst. constructor; auto. intros I. apply H2. apply in_or_app. auto.
Qed.
Lemma nth_Some_lt {A} (l : list A) i x : nth_error l i = Some x -> (i < length l)%nat.
Proof. intros H. apply nth_error_Some. congruence. Qed.
Lemma nth_lt_Some {A} (l : list A) i : (i < length l)%nat -> exists x, nth_error l i = Some x.
Proof. intros H. destruct (nth_error l i) as [x|] eqn:E; eauto. apply nth_error_None in E. lia. Qed.

Section Value.
  Context {D : Type}.
  Implicit Types (grid : list D) (am : list R).
  Lemma value_ext grid df df' am : (forall i d, nth_error grid i = Some d -> (i < length am)%nat -> df d = df' d) ->
    value_on grid df am = value_on grid df' am.
  Proof.
    unfold value_on. revert am. induction grid as [|g l IH]; intros [|a am] H; try reflexivity. cbn [combine map Rsum fst snd].
    rewrite (IH am), (H 0%nat g); auto; [cbn; lia|]. intros i d Hi Li. apply (H (S i) d Hi). cbn. lia.
  Qed.
  Lemma value_snoc grid df am n d : nth_error grid (length am) = Some d ->
    value_on grid df (am ++ [n]) = value_on grid df am + df d * n.
  Proof.
    unfold value_on. revert am. induction grid as [|g l IH]; intros [|a am] H; try discriminate; cbn in H.
    - injection H as ->. cbn. destruct l; cbn; lra.
    - cbn [app combine map Rsum fst snd]. rewrite (IH am H). lra.
  Qed.
  Lemma value_zeros grid df j : value_on grid df (repeat 0 j) = 0.
  Proof.
    unfold value_on. revert j. induction grid as [|g l IH]; intros [|j]; try reflexivity. cbn [repeat combine map Rsum fst snd]. rewrite IH. lra.
  Qed.
  Lemma value_firstn grid df am : value_on (firstn (length am) grid) df am = value_on grid df am.
  Proof.
    unfold value_on. revert am. induction grid as [|g l IH]; intros [|a am]; try reflexivity.
    cbn [length firstn combine map Rsum fst snd]. now rewrite IH.
  Qed.
End Value.

Section Bootstrap.
  Context {D P : Type} {DS : DateSys R D P} {tm : D -> R} {DC : DayCounts R D} {L : DateLaws DS tm}.
  Context (count : dcspec R D) (tau : D -> D -> R) (A : additive (dc_apply count) tau) (MO : monotone tau).
  Context (KW : dc_kwarg count = count).
  Context (grid : list D) (ys : list R) (orig : option D) (o v : D) (tenor : option P).
  Context (NE : grid <> []) (INC : increasing (map tm grid)) (OG : dom_origin orig grid = Some o).
  Context (AV : forall d, In d grid -> tm v <= tm d).
  Context (LY : length ys = length grid).

  Let ND : NoDup (map tm grid) := increasing_distinct _ INC.

  (** the zero rate of the curve plus spread at a grid date, and the discount factor *)
  Definition zr (xs : list R) (d : D) : R :=
    match index_of d_eqb d grid with Some i => nth i ys 0 + nth i xs 0 | None => 0 end.
  Definition zv (xs : list R) : R := nth 0 ys 0 + nth 0 xs 0.
  Definition dfx (xs : list R) (d : D) : R := exp (- (zr xs d * tau o d - zv xs * tau o v)).
  Definition quote_of (d : D) (am : list R) : D * (list R -> R) := (d, fun xs => value_on grid (dfx xs) am).

  Lemma zr_at xs i d : nth_error grid i = Some d -> zr xs d = nth i ys 0 + nth i xs 0.
  Proof. intros I. unfold zr. now rewrite (index_grid (L:=L) grid ND i d I). Qed.

  Lemma tau_mono a b : tm a <= tm b -> 0 <= tau a b.
  Proof.
    intros H. destruct (Req_dec (tm a) (tm b)) as [E|E].
    - right. symmetry. apply (add_zero _ _ A). now apply (eqb_t (L:=L)).
    - left. apply MO. apply (ltb_t (L:=L)). lra.
  Qed.

  Lemma in_grid d : In d grid -> exists i, nth_error grid i = Some d /\ (i < length grid)%nat.
  Proof.
    intros I. destruct (In_nth_error _ _ I) as [i H]. exists i. split; auto. now apply nth_Some_lt in H.
  Qed.

  (** a flat curve with the values of the curve plus spread *)
  Lemma curve_df (c : rcurve R D P) xs : rc_cls c = CZeroRate -> rc_origin c = Some o -> additive (rc_yf c) tau -> date_values c ->
    rc_call c v = Ok (zv xs) -> (forall d, In d grid -> rc_call c d = Ok (zr xs d)) ->
    forall n d, In d grid -> get_discount_factor (S (S n)) c v d = Ok (dfx xs d).
  Proof.
    intros K HO AC DV V VG n d I. unfold get_discount_factor, interest_only. rewrite K. cbn [is_interest].
    rewrite (flat_factor (L:=L) c o tau HO AC n v d (zv xs) (zr xs d)); auto; [now left|now apply VG].
  Qed.

  Lemma built_curve zs t : length zs = length grid -> exists c,
    rc_new CZeroRate grid zs None orig count t = Ok c /\ built count tau CZeroRate grid orig o t c /\
    (forall i d, nth_error grid i = Some d -> rc_call c d = Ok (nth i zs 0)) /\ rc_call c v = Ok (nth 0 zs 0) /\
    forall d, exists w, rc_call c d = Ok w.
  Proof.
    intros LZ. destruct (rc_new_linear (L:=L) count tau A CZeroRate grid zs orig o t) as (c & E & B & V & W); auto; [reflexivity|].
    exists c. split; auto. split; auto.
    assert (VG : forall i d, nth_error grid i = Some d -> In (d, nth i zs 0) (combine grid zs)).
    { intros i d I. apply (nth_error_In _ i). apply combine_nth_both; auto. apply nth_error_nth'. rewrite LZ. now apply nth_Some_lt in I. }
    split; [|split].
    - intros i d I. apply V. auto.
    - destruct (W v) as (w & Ew & PL). rewrite Ew. f_equal. specialize (PL (tau o) ltac:(intros; apply (tau_diff A))).
      destruct (nth_lt_Some grid 0) as (d0 & H0); [destruct grid; [congruence|cbn; lia]|].
      refine (pl_fun _ _ _ _ (times_distinct (L:=L) count tau A o grid zs (eq_sym LZ) ND) PL _).
      right. left. exists (tau o d0).
      assert (TD : forall a, tau v a = tau o a - tau o v) by (intros; apply (tau_diff A)).
      split; [|split].
      + apply (nth_error_In _ 0). apply combine_nth_both; [now apply map_nth_error|]. apply nth_error_nth'. rewrite LZ. now apply nth_Some_lt in H0.
      + intros a z I. apply in_combine_l in I. apply in_map_iff in I. destruct I as (d & <- & Id).
        assert (T : tm d0 <= tm d).
        { destruct (In_nth_error _ _ Id) as [i Hi]. apply (increasing_nth _ INC 0 i); [now apply map_nth_error..|lia]. }
        pose proof (tau_mono d0 d T). pose proof (tau_diff A o d0 d). lra.
      + pose proof (tau_mono v d0 (AV d0 (nth_error_In _ _ H0))). rewrite TD in *. lra.
    - intros d. destruct (W d) as (w & Ew & _). eauto.
  Qed.

  Context (c : rcurve R D P) (HN : rc_new CZeroRate grid ys None orig count tenor = Ok c).

  Lemma curve_built : built count tau CZeroRate grid orig o tenor c /\
    (forall i d, nth_error grid i = Some d -> rc_call c d = Ok (nth i ys 0)) /\ rc_call c v = Ok (nth 0 ys 0) /\
    forall d, exists w, rc_call c d = Ok w.
  Proof. destruct (built_curve ys tenor LY) as (c' & E & B). rewrite HN in E. injection E as <-. exact B. Qed.

  Lemma curve_facts : rc_cls c = CZeroRate /\ rc_domain c = grid /\ rc_origin c = Some o /\ dc_origin0 (rc_dc c) = orig /\
    dc_count (rc_dc c) = count /\ rc_spread c = None /\ date_values c /\ additive (rc_yf c) tau.
  Proof. destruct curve_built as ((B1 & B2 & B3 & B4 & B5 & B6 & B7 & B8 & B9 & B10) & _). repeat (split; auto). Qed.

  Lemma spread_values xs s : length xs = length grid -> on_grid c grid xs = Ok s ->
    built count tau CZeroRate grid orig o None s /\
    (forall i d, nth_error grid i = Some d -> rc_call s d = Ok (nth i xs 0)) /\ rc_call s v = Ok (nth 0 xs 0) /\
    forall d, exists w, rc_call s d = Ok w.
  Proof.
    intros LX E. destruct curve_facts as (C1 & _ & _ & C4 & C5 & _). unfold on_grid in E. rewrite C1, C4, C5, KW in E.
    destruct (built_curve xs None LX) as (s' & E' & B). rewrite E in E'. injection E' as <-. exact B.
  Qed.

  Lemma spread_calls (s : rcurve R D P) x y z : rc_call c x = Ok y -> rc_call s x = Ok z ->
    rc_call (mkR (rc_cls c) (rc_dc c) (rc_tenor0 c) (Some (inr s))) x = Ok (y + z).
  Proof.
    intros Y Z. destruct curve_facts as (_ & _ & _ & _ & _ & NS & _). destruct c as [k0 d0 t0 sp0]. cbn [rc_spread] in NS. subst sp0.
    rewrite rc_call_plain in Y. cbn [rc_call rc_cls rc_dc rc_tenor0]. rewrite Y. cbn [bind]. rewrite Z. reflexivity.
  Qed.

  (** the discount factors of the curve with spread *)
  Lemma spread_df xs s n d : length xs = length grid -> on_grid c grid xs = Ok s -> In d grid ->
    get_discount_factor (S (S n)) (mkR (rc_cls c) (rc_dc c) (rc_tenor0 c) (Some (inr s))) v d = Ok (dfx xs d).
  Proof.
    intros LX E I. destruct (spread_values xs s LX E) as (B & V & V0 & W). destruct curve_built as (_ & VC & VC0 & WC).
    destruct curve_facts as (C1 & C2 & C3 & C4 & C5 & C6 & C7 & C8).
    apply curve_df; auto.
    - intros a b Eab. destruct (WC a) as (ya & Ya). destruct (W a) as (xa & Xa).
      rewrite (spread_calls s a ya xa Ya Xa). symmetry. apply spread_calls.
      + rewrite <- (C7 a b Eab). exact Ya.
      + destruct B as (_ & _ & _ & _ & _ & _ & _ & _ & B9 & _). rewrite <- (B9 a b Eab). exact Xa.
    - now apply spread_calls.
    - intros d' I'. destruct (in_grid d' I') as (i & Hi & _). rewrite (zr_at xs i d' Hi). apply spread_calls; auto.
  Qed.

  Section Ladder.
    Context (h : heap R D P) (ps : list (@product D)) (ams : list (list R)) (LA : stairs h v grid ps ams).

    Definition quotes : list (D * (list R -> R)) := map (fun db => quote_of (fst db) (snd db)) (combine grid ams).

    Lemma quotes_nth j q : nth_error quotes j = Some q ->
      exists d am, nth_error grid j = Some d /\ nth_error ams j = Some am /\ q = quote_of d am.
    Proof.
      unfold quotes. intros H. rewrite nth_error_map in H. destruct (nth_error (combine grid ams) j) as [[d b]|] eqn:E; [|discriminate].
      cbn in H. injection H as <-. exists d, b. split; [now apply combine_nth_l in E|]. split; auto.
      clear -E. revert j ams E. induction grid as [|g l IH]; intros [|j] [|b0 bs] E; try discriminate; cbn in *; [congruence|eauto].
    Qed.
    Lemma quotes_at j d am : nth_error grid j = Some d -> nth_error ams j = Some am -> nth_error quotes j = Some (quote_of d am).
    Proof. intros I J. unfold quotes. rewrite nth_error_map, (combine_nth_both _ _ _ _ _ I J). reflexivity. Qed.
    Lemma quotes_length : length quotes = length grid.
    Proof. unfold quotes. rewrite map_length, combine_length. destruct LA as (_ & -> & _). lia. Qed.

    (** the value of a bond on any curve of given discount factors *)
    Lemma bond_value h' k disc v0 fuel flr j d am p df : (2 <= fuel)%nat -> h_lists h' = h_lists h -> nth_error (h_curves h') k = Some disc ->
      rc_origin disc = Some o -> match v0 with Some w => w | None => o end = v ->
      (forall x, In x grid -> get_discount_factor fuel disc v x = Ok (df x)) ->
      nth_error grid j = Some d -> nth_error ams j = Some am -> nth_error ps j = Some p ->
      returns (get_present_value fuel flr p k v0) h' (value_on grid df am).
    Proof.
      intros LF HL HK HO HV HD I J Hp. destruct LA as (_ & _ & LL). destruct (LL j d p am I Hp J) as (_ & PO & _).
      pose proof (PO fuel flr h' k disc df LF HL HK HD) as G.
      destruct v0 as [w|]; [subst w; exact G|]. subst v.
      unfold returns in *. rewrite (C40_default_date DS DC fuel flr h' _ k disc o HK HO). exact G.
    Qed.

    Context (k : nat) (HK : nth_error (h_curves h) k = Some c).

    Lemma ladder_priced n flr v0 : match v0 with Some w => w | None => o end = v ->
      Forall2 (fun p q => last_payment h p (fst q) /\ priced (S (S n)) flr h k v0 k c grid p (snd q)) ps quotes.
    Proof.
      intros HV.
      assert (G : forall j p q, nth_error ps j = Some p -> nth_error quotes j = Some q ->
        last_payment h p (fst q) /\ priced (S (S n)) flr h k v0 k c grid p (snd q)).
      { intros j p q Hp Hq. destruct (quotes_nth j q Hq) as (d & am & I & J & ->). unfold quote_of. cbn [fst snd]. split.
        - destruct LA as (_ & _ & LL). apply (LL j d p am I Hp J).
        - intros xs s LX E.
          apply (bond_value (with_spread h k c s) k (mkR (rc_cls c) (rc_dc c) (rc_tenor0 c) (Some (inr s))) v0 (S (S n)) flr j d am p (dfx xs)); auto; [lia| | |].
          + unfold with_spread. cbn [h_curves]. apply set_nth_nth. now apply nth_Some_lt in HK.
          + now destruct curve_facts as (_ & _ & C3 & _).
          + intros x X. now apply spread_df. }
      pose proof quotes_length as LQ. destruct LA as (LP & _).
      assert (LE : length ps = length quotes) by congruence. clear -G LE. revert G LE. generalize quotes, ps.
      intros qs l. revert qs. induction l as [|p l IH]; intros [|q qs] G LE; try discriminate; constructor.
      - apply (G 0%nat); reflexivity.
      - apply IH; [|cbn in LE; lia]. intros j p' q' H1 H2. apply (G (S j) p' q' H1 H2).
    Qed.

    Lemma ladder_shape j d am : nth_error grid j = Some d -> nth_error ams j = Some am ->
      exists before n, am = before ++ [n] /\ length before = j.
    Proof.
      intros I J. destruct LA as (LP & _ & LL). destruct (nth_lt_Some ps j) as (p & Hp); [rewrite LP; now apply nth_Some_lt in I|].
      destruct (LL j d p am I Hp J) as (_ & _ & LM). destruct (exists_last (l := am)) as (bf & n & ->); [now destruct am|].
      rewrite app_length in LM. cbn in LM. exists bf, n. split; [reflexivity|lia].
    Qed.

    Lemma ladder_local : Forall (local tm grid) quotes.
    Proof.
      apply Forall_forall. intros q Iq. destruct (In_nth_error _ _ Iq) as [j Hq]. destruct (quotes_nth j q Hq) as (d & am & I & J & ->).
      intros i e xs zs Hi Le LX LZ EQ. cbn [fst snd quote_of] in *.
      assert (Lji : (j <= i)%nat). { apply (increasing_nth _ INC j i (tm d) (tm e)); [now apply map_nth_error..|lra]. }
      assert (EN : forall m, (m <= i)%nat -> nth m xs 0 = nth m zs 0).
      { intros m Lm. specialize (EQ m Lm). destruct (nth_error xs m) as [u|] eqn:U.
        - rewrite (nth_error_nth _ _ 0 U). symmetry. apply nth_error_nth. auto.
        - apply nth_error_None in U. apply nth_Some_lt in Hi. lia. }
      destruct (ladder_shape j d am I J) as (before & n & -> & LB).
      apply value_ext. intros m x Hm Lm. rewrite app_length in Lm. cbn in Lm. unfold dfx, zv. rewrite !(zr_at _ m x Hm), (EN m), (EN 0%nat) by lia. reflexivity.
    Qed.

    Lemma ladder_one_each : one_each tm grid quotes.
    Proof.
      split; [apply quotes_length|]. intros i j d q Hi Hq. destruct (quotes_nth j q Hq) as (e & b & I & J & ->). cbn [fst quote_of].
      apply (increasing_nth _ INC); now apply map_nth_error.
    Qed.

    (** the dependence of a value on the last zero rate *)
    Lemma ladder_last j d am xs : nth_error grid j = Some d -> nth_error ams j = Some am -> length xs = length grid ->
      exists before n rest fix_, am = before ++ [n] /\ length before = j /\
        forall x, snd (quote_of d am) (set_nth j x xs) =
          rest + n * exp (fix_ - (nth j ys 0 + x) * (if Nat.eqb j 0 then tau v d else tau o d)).
    Proof.
      intros I J LX. destruct (ladder_shape j d am I J) as (before & n & -> & LB).
      assert (Lj : (j < length xs)%nat) by (rewrite LX; now apply nth_Some_lt in I).
      exists before, n, (value_on grid (dfx xs) before), (if Nat.eqb j 0 then 0 else zv xs * tau o v).
      split; [reflexivity|]. split; [exact LB|]. intros z. cbn [snd quote_of].
      rewrite (value_snoc grid _ before n d) by (now rewrite LB). f_equal.
      - apply value_ext. intros i y Hi Li. unfold dfx, zv. rewrite !(zr_at _ i y Hi).
        rewrite (nth_set_other xs j i), (nth_set_other xs j 0) by lia. reflexivity.
      - rewrite Rmult_comm. f_equal. unfold dfx, zv. rewrite (zr_at _ j d I), nth_set_same by auto. f_equal. destruct j as [|j]; cbn [Nat.eqb].
        + rewrite nth_set_same by auto. rewrite (tau_diff A o v d). ring.
        + rewrite nth_set_other by lia. ring.
    Qed.
  End Ladder.
End Bootstrap.

Lemma ladder_stairs {D P : Type} {DS : DateSys R D P} {DC : DayCounts R D} (h : heap R D P) v grid ps ams :
  ladder h v grid ps ams -> stairs h v grid ps ams.
Proof.
  intros (L1 & L2 & L3). split; [exact L1|]. split; [exact L2|]. intros j d p am Hd Hp Ha.
  destruct (L3 j d p am Hd Hp Ha) as (Q1 & Q2 & bf & n & -> & LB & _). split; [exact Q1|]. split; [exact Q2|].
  rewrite app_length. cbn. lia.
Qed.

(** * What pays on a grid *)
Section Products.
  Context {D P : Type} {DS : DateSys R D P} {tm : D -> R} {DC : DayCounts R D} {L : DateLaws DS tm}.
  Context (grid : list D) (v : D) (INC : increasing (map tm grid)) (AV : forall d, In d grid -> tm v <= tm d).
  Implicit Types (h : heap R D P).

  Lemma max_of_prefix j d : nth_error grid j = Some d -> forall ds, In d ds -> incl ds (firstn (S j) grid) -> d_max ds = Ok d.
  Proof.
    intros I ds Id IN. destruct (d_max_ok (L:=L) ds) as (m & Em & Im & Hm); [now destruct ds|]. rewrite Em. f_equal.
    destruct (In_nth_error _ _ (IN m Im)) as [i Hi]. apply nth_firstn in Hi. destruct Hi as [Hi Li].
    assert (i = j). { assert (j <= i)%nat; [|lia]. apply (increasing_nth _ INC j i (tm d) (tm m)); [now apply map_nth_error..|]. now apply Hm. }
    subst i. congruence.
  Qed.

  (** a list seen the same way on every heap with the same lists *)
  Lemma list_pays h i l am : (forall h', h_lists h' = h_lists h -> seen h' v i l) ->
    cf_domain l = firstn (length am) grid -> (length am <= length grid)%nat ->
    (forall fuel flr j d a, (2 <= fuel)%nat -> nth_error grid j = Some d -> nth_error am j = Some a -> cf_get fuel flr l d = Ok a) ->
    pays_on h v (PrList i) grid am.
  Proof.
    intros SE DM LE G fuel flr h' k disc df LF HL HK HD.
    apply (C40_list DS DC fuel flr h' i k disc v l); auto. unfold worth, due. rewrite DM.
    assert (Q : forall g a', (forall d, In d g -> d_leb v d = true) -> (forall d, In d g -> get_discount_factor fuel disc v d = Ok (df d)) ->
      (length a' <= length g)%nat ->
      (forall j d x, nth_error g j = Some d -> nth_error a' j = Some x -> cf_get fuel flr l d = Ok x) ->
      exists xs, Forall2 (discounted fuel flr disc v l) (filter (fun d => d_leb v d) (firstn (length a') g)) xs /\ value_on g df a' = Rsum xs).
    { clear. unfold value_on. induction g as [|d g IH]; intros [|a a'] H1 H2 LE H3.
      - exists []. split; [constructor|reflexivity].
      - cbn in LE. lia.
      - exists []. split; [constructor|reflexivity].
      - destruct (IH a') as (xs & F & E); [intros; apply H1; now right|intros; apply H2; now right|cbn in LE; lia|intros j; apply (H3 (S j))|].
        exists (df d * a :: xs). cbn [length firstn filter]. rewrite H1 by now left. split.
        + constructor; auto. exists (df d), a. split; [apply H2; now left|]. split; auto. now apply (H3 0%nat).
        + cbn [combine map Rsum fst snd]. now rewrite E. }
    apply Q; auto.
    - intros d Id. apply (leb_t (L:=L)). auto.
    - intros j d x Hd Hx. now apply (G fuel flr j d x).
  Qed.

  Lemma list_last h i l at_ d j : nth_error (h_lists h) i = Some (mkHL l at_) -> nth_error grid j = Some d ->
    cf_domain l = firstn (S j) grid -> last_payment h (PrList i) d.
  Proof.
    intros Li I DM. exists (firstn (S j) grid). split.
    - unfold returns, pr_domain, bindS, get_list, lift, ret. rewrite (nth_res_some _ _ _ Li). cbn [hl_list]. now rewrite DM.
    - apply (max_of_prefix j d I); [|apply incl_refl]. apply (nth_error_In _ j).
      clear -I. revert j I. induction grid as [|g l0 IH]; intros [|j] I; try discriminate; cbn in *; auto.
  Qed.

  Lemma prefix_nodup j : NoDup (map tm (firstn j grid)).
  Proof.
    pose proof (increasing_distinct _ INC) as ND. rewrite <- (firstn_skipn j grid), map_app in ND. now apply nodup_left in ND.
  Qed.
  Lemma prefix_nth j i d : nth_error grid i = Some d -> (i < j)%nat -> nth_error (firstn j grid) i = Some d.
  Proof. clear. revert i j. induction grid as [|g l IH]; intros [|i] [|j] H Lt; try discriminate; try lia; cbn in *; auto. apply IH; [auto|lia]. Qed.
End Products.
