(** Lemmas about what the pricer functions leave behind. *)
From Coq Require Import Reals Lra Lia List Bool ZArith.
From Verif Require Import Num Py Spec MDates MInterpolation MCurve MRateCurve MOption MCashflow MBracket MPricer
  SPricer LBase LSort LCurve2 LPricer.
Import ListNotations.
Open Scope R_scope.

Lemma bind_ok {S A B} (m : st S A) (k : A -> st S B) s b s' : bindS m k s = (Ok b, s') ->
  exists a s1, m s = (Ok a, s1) /\ k a s1 = (Ok b, s').
Proof. unfold bindS. destruct (m s) as [[a|e] s1]; [eauto|discriminate]. Qed.

Lemma list_ext {A} (l l' : list A) : (forall i, nth_error l i = nth_error l' i) -> l = l'.
Proof.
  revert l'. induction l as [|x l IH]; intros [|y l'] H; auto.
  - specialize (H 0%nat). discriminate.
  - specialize (H 0%nat). discriminate.
  - pose proof (H 0%nat) as H0. cbn in H0. injection H0 as ->. f_equal. apply IH. intros i. apply (H (S i)).
Qed.

Lemma bracket_still {S} (I : S -> Prop) : forall fuel (f : R -> st S R) a b p s r s',
  (forall x s y s', I s -> f x s = (Ok y, s') -> I s') -> I s ->
  bracketing fuel f a b p s = (Ok r, s') -> I s'.
Proof.
  induction fuel as [|fuel IH]; intros f a b p s r s' HF HI H; [discriminate|].
  cbn [bracketing] in H. apply bind_ok in H. destruct H as (fa & s1 & Ea & H).
  apply bind_ok in H. destruct H as (fb & s2 & Eb & H). cbv zeta in H.
  pose proof (HF _ _ _ _ (HF _ _ _ _ HI Ea) Eb) as I2.
  set (f' := if (fb <? fa)%num then negated f else f) in *.
  assert (HF' : forall x s y s', I s -> f' x s = (Ok y, s') -> I s').
  { unfold f'. destruct (fb <? fa)%num; auto. intros x t y t' It E. unfold negated in E. apply bind_ok in E.
    destruct E as (z & t1 & E1 & E2). unfold ret in E2. injection E2 as _ <-. eapply HF; eauto. }
  destruct (negb _); [discriminate|].
  destruct (_ && _)%bool.
  - unfold ret in H. injection H as _ <-. auto.
  - apply bind_ok in H. destruct H as (fm & s3 & Em & H).
    pose proof (HF' _ _ _ _ I2 Em) as I3. destruct (fm <? n0)%num; eapply IH; eauto.
Qed.

Section Heap.
  Context {D P : Type} {DS : DateSys R D P} {DC : DayCounts R D}.
  Implicit Types (h : heap R D P) (c : rcurve R D P).

  Definition strip c : rcurve R D P := mkR (rc_cls c) (rc_dc c) (rc_tenor0 c) None.

  Lemma strip_none c : rc_spread c = None -> strip c = c.
  Proof. destruct c as [k d t sp]. cbn. now intros ->. Qed.

  (** the heaps differ in the spreads of the given curves only *)
  Definition spreads_only (ks : list nat) h h' : Prop :=
    h_models h' = h_models h /\ h_lists h' = h_lists h /\
    forall k, option_map strip (nth_error (h_curves h') k) = option_map strip (nth_error (h_curves h) k) /\
              (~ In k ks -> nth_error (h_curves h') k = nth_error (h_curves h) k).

  Lemma so_refl ks h : spreads_only ks h h.
  Proof. unfold spreads_only. auto. Qed.

  Lemma so_trans ks h1 h2 h3 : spreads_only ks h1 h2 -> spreads_only ks h2 h3 -> spreads_only ks h1 h3.
  Proof.
    intros (M1 & L1 & C1) (M2 & L2 & C2). split; [congruence|]. split; [congruence|]. intros k.
    destruct (C1 k) as [A1 B1], (C2 k) as [A2 B2]. split; [congruence|]. intros N. rewrite B2, B1; auto.
  Qed.

  Lemma so_incl ks ks' h h' : incl ks ks' -> spreads_only ks h h' -> spreads_only ks' h h'.
  Proof. intros I (M & Li & C). split; auto. split; auto. intros k. destruct (C k). split; auto. Qed.

  (** ... hence agree if all of these curves have no spread *)
  Lemma so_eq ks h h' : spreads_only ks h h' ->
    (forall k c, In k ks -> nth_error (h_curves h) k = Some c -> rc_spread c = None) ->
    (forall k c, In k ks -> nth_error (h_curves h') k = Some c -> rc_spread c = None) -> h' = h.
  Proof.
    intros (M & Li & C) H H'. rewrite (heap_eta h), (heap_eta h'). rewrite M, Li. f_equal.
    apply list_ext. intros k. destruct (C k) as [A B]. destruct (in_dec Nat.eq_dec k ks) as [I|N]; auto.
    destruct (nth_error (h_curves h') k) as [c'|] eqn:E', (nth_error (h_curves h) k) as [c|] eqn:E; cbn in A; try discriminate; auto.
    f_equal. injection A as A1 A2 A3. rewrite <- (strip_none c), <- (strip_none c') by eauto. unfold strip. congruence.
  Qed.

  Lemma put_curve_so k c c' h u h' : nth_error (h_curves h) k = Some c -> strip c' = strip c ->
    put_curve k c' h = (Ok u, h') ->
    spreads_only [k] h h' /\ nth_error (h_curves h') k = Some c'.
  Proof.
    intros E S H. unfold put_curve in H. injection H as _ <-.
    assert (LT : (k < length (h_curves h))%nat) by (apply nth_error_Some; congruence). split.
    - split; auto. split; auto. intros j. cbn [h_curves]. destruct (Nat.eq_dec j k) as [->|N].
      + rewrite set_nth_nth by auto. rewrite E. cbn. split; [congruence|]. intros X. exfalso. apply X. now left.
      + rewrite set_nth_other by auto. auto.
    - cbn. now apply set_nth_nth.
  Qed.

  Lemma put_spread_ok k s h u h' : put_spread k s h = (Ok u, h') ->
    exists c, nth_error (h_curves h) k = Some c /\ spreads_only [k] h h' /\
      nth_error (h_curves h') k = Some (mkR (rc_cls c) (rc_dc c) (rc_tenor0 c) s) /\
      (s <> None -> rc_spread c = None).
  Proof.
    unfold put_spread. intros H. apply bind_ok in H. destruct H as (c & h1 & E & H).
    unfold get_curve in E. injection E as E <-. apply nth_res_get in E.
    apply bind_ok in H. destruct H as (c' & h1 & E' & H). unfold lift in E'. injection E' as E' <-.
    exists c. split; auto.
    assert (F : c' = mkR (rc_cls c) (rc_dc c) (rc_tenor0 c) s /\ (s <> None -> rc_spread c = None)).
    { unfold set_spread in E'. destruct s as [s|], (rc_spread c) as [sp|]; try discriminate; injection E' as <-; split; auto; congruence. }
    destruct F as [-> F]. destruct (put_curve_so k c _ h u h' E (eq_refl : strip (mkR _ _ _ s) = _) H) as [A B]. auto.
  Qed.

  (** a loop giving a spread to each curve *)
  Lemma spread_loop (f : nat -> st (heap R D P) unit) :
    (forall k h u h', f k h = (Ok u, h') -> exists s, put_spread k (Some s) h = (Ok tt, h')) ->
    forall ks h r h', mapS f ks h = (Ok r, h') ->
    spreads_only ks h h' /\ (forall k c, In k ks -> nth_error (h_curves h) k = Some c -> rc_spread c = None) /\
    (forall k, In k ks -> exists c s, nth_error (h_curves h') k = Some c /\ rc_spread c = Some s).
  Proof.
    intros HF. induction ks as [|k ks IH]; intros h r h' H; apply mapS_inv in H.
    - destruct H as [_ ->]. split; [apply so_refl|]. split; [intros ? ? []|intros ? []].
    - destruct H as (y & ys & h1 & E & H & _). destruct (HF _ _ _ _ E) as [s E'].
      destruct (put_spread_ok _ _ _ _ _ E') as (c & Hc & SO & N & NS).
      destruct (IH _ _ _ H) as (SO2 & N2 & S2).
      assert (Hk : forall j, In j ks -> j <> k).
      { intros j Ij ->. specialize (N2 _ _ Ij N). cbn in N2. discriminate. }
      split; [|split].
      + apply (so_trans _ _ h1); [apply (so_incl [k]); auto|apply (so_incl ks); auto].
        * intros j [->|[]]. now left.
        * intros j I. now right.
      + intros j cj [<-|Ij] Ej.
        * assert (cj = c) by congruence. subst. apply NS. discriminate.
        * apply (N2 j); auto. destruct SO as (_ & _ & C). rewrite (proj2 (C j)); auto.
          intros [->|[]]. now apply (Hk j).
      + intros j [<-|Ij]; [|now apply S2].
        destruct (in_dec Nat.eq_dec k ks) as [I|NI]; [now apply S2|].
        destruct SO2 as (_ & _ & C). rewrite (proj2 (C k) NI). eexists. eexists. split; [exact N|reflexivity].
  Qed.

  Lemma unspread_loop : forall ks h r h', mapS unshift_curve ks h = (Ok r, h') ->
    spreads_only ks h h' /\ (forall k c, In k ks -> nth_error (h_curves h') k = Some c -> rc_spread c = None).
  Proof.
    induction ks as [|k ks IH]; intros h r h' H; apply mapS_inv in H.
    - destruct H as [_ ->]. split; [apply so_refl|]. intros ? ? [].
    - destruct H as (y & ys & h1 & E & H & _). destruct (put_spread_ok _ _ _ _ _ E) as (c & Hc & SO & N & _).
      destruct (IH _ _ _ H) as (SO2 & N2). split.
      + apply (so_trans _ _ h1); [apply (so_incl [k]); auto|apply (so_incl ks); auto].
        * intros j [->|[]]. now left.
        * intros j I. now right.
      + intros j cj [<-|Ij] Ej; [|eauto].
        destruct (in_dec Nat.eq_dec k ks) as [I|NI]; [eauto|].
        destruct SO2 as (_ & _ & C). rewrite (proj2 (C k) NI) in Ej. rewrite N in Ej. injection Ej as <-. reflexivity.
  Qed.

  (** with spreads and back *)
  Lemma there_and_back (f : nat -> st (heap R D P) unit) ks h r h1 r' h2 :
    (forall k h u h', f k h = (Ok u, h') -> exists s, put_spread k (Some s) h = (Ok tt, h')) ->
    mapS f ks h = (Ok r, h1) -> mapS unshift_curve ks h1 = (Ok r', h2) -> h2 = h.
  Proof.
    intros HF H1 H2. destruct (spread_loop f HF _ _ _ _ H1) as (A & B & _).
    destruct (unspread_loop _ _ _ _ H2) as (A2 & B2). apply (so_eq ks); auto. eapply so_trans; eauto.
  Qed.

  Lemma shift_puts shift : forall k h u h', shift_curve shift k h = (Ok u, h') -> exists s, put_spread k (Some s) h = (Ok tt, h').
  Proof.
    intros k h u h' H. unfold shift_curve in H. apply bind_ok in H. destruct H as (c & h1 & E & H).
    unfold get_curve in E. injection E as _ <-. destruct (rc_origin c) as [o|]; [|discriminate].
    apply bind_ok in H. destruct H as (s & h1 & E' & H). unfold lift in E'. injection E' as _ <-.
    exists (inl s). destruct u. exact H.
  Qed.

  Lemma bucket_puts g : forall k h u h', bucket_curve g k h = (Ok u, h') -> exists s, put_spread k (Some s) h = (Ok tt, h').
  Proof.
    intros k h u h' H. unfold bucket_curve in H. apply bind_ok in H. destruct H as (s & h1 & E & H).
    unfold lift in E. injection E as _ <-. exists (inl s). destruct u. exact H.
  Qed.

  (** assigning to a spread curve *)
  Lemma set_spread_value_so k d x h u h' : set_spread_value k d x h = (Ok u, h') -> spreads_only [k] h h'.
  Proof.
    unfold set_spread_value. intros H. apply bind_ok in H. destruct H as (c & h1 & E & H).
    unfold get_curve in E. injection E as E <-. apply nth_res_get in E.
    destruct (rc_spread c) as [[s|s]|]; [| |discriminate].
    - apply bind_ok in H. destruct H as (s' & h1 & E' & H). unfold lift in E'. injection E' as _ <-.
      eapply (put_curve_so k c); [exact E| |exact H]. reflexivity.
    - apply bind_ok in H. destruct H as (s' & h1 & E' & H). unfold lift in E'. injection E' as _ <-.
      eapply (put_curve_so k c); [exact E| |exact H]. reflexivity.
  Qed.

  Lemma fit_err_so fuel flr k v fit d ps x h y h' :
    fit_err fuel flr k v fit d ps x h = (Ok y, h') -> spreads_only [fit] h h'.
  Proof.
    unfold fit_err. intros H. apply bind_ok in H. destruct H as (u & h1 & E & H).
    apply set_spread_value_so in E. apply bind_ok in H. destruct H as (es & h2 & E2 & H).
    unfold ret in H. injection H as _ <-.
    assert (h2 = h1); [|now subst].
    apply mapS_pure_inv in E2; [tauto|]. intros q s z s' Q. apply bind_ok in Q. destruct Q as (w & s1 & Q & Q').
    unfold ret in Q'. injection Q' as _ <-. eapply pv_still; eauto.
  Qed.

  (** * The fixed rate *)
  (** the heaps differ in the fixed rate of list i only *)
  Definition rate_only (i : nat) (l : hlist R D P) h h' : Prop :=
    h_models h' = h_models h /\ h_curves h' = h_curves h /\
    (forall k, k <> i -> nth_error (h_lists h') k = nth_error (h_lists h) k) /\
    exists w, nth_error (h_lists h') i = Some w /\ hl_attr w = hl_attr l /\
      forall r, set_fixed_rate (hl_list w) r = set_fixed_rate (hl_list l) r.

  Lemma set_twice (l : cflist R D P) a b : set_fixed_rate (set_fixed_rate l a) b = set_fixed_rate l b.
  Proof.
    unfold set_fixed_rate. destruct (cf_rated l) eqn:E; cbn; [|now rewrite E].
    f_equal. rewrite map_map. apply map_ext. intros [k f]. cbn. f_equal.
    destruct f as [x|p]; auto. destruct p; auto.
  Qed.

  Lemma rate_only_refl i l h : nth_error (h_lists h) i = Some l -> rate_only i l h h.
  Proof. intros H. do 3 (split; auto). exists l. auto. Qed.

  Lemma set_rate_ok i l h0 h x u h' : rate_only i l h0 h -> set_rate i x h = (Ok u, h') ->
    rate_only i l h0 h' /\ nth_error (h_lists h') i = Some (mkHL (set_fixed_rate (hl_list l) x) (hl_attr l)) /\
    h' = mkH (h_curves h) (h_models h) (set_nth i (mkHL (set_fixed_rate (hl_list l) x) (hl_attr l)) (h_lists h)).
  Proof.
    intros (M & C & O & w & W & WA & WS) H. unfold set_rate in H. apply bind_ok in H. destruct H as (l' & h1 & E & H).
    unfold get_list in E. injection E as E <-. apply nth_res_get in E. assert (l' = w) by congruence. subst l'.
    unfold put_list in H. injection H as _ <-. rewrite WA, WS.
    assert (LT : (i < length (h_lists h))%nat) by (apply nth_error_Some; congruence).
    split; [|split; auto].
    - do 2 (split; auto). split.
      + intros k N. cbn. rewrite set_nth_other by auto. auto.
      + eexists. split; [cbn; now apply set_nth_nth|]. split; [reflexivity|]. intros r. cbn [hl_list]. apply set_twice.
    - cbn. now apply set_nth_nth.
  Qed.

  Lemma fair_err_rate fuel flr i k v target l h0 x h y h' : rate_only i l h0 h ->
    fair_err fuel flr i k v target x h = (Ok y, h') -> rate_only i l h0 h'.
  Proof.
    intros RO H. unfold fair_err in H. apply bind_ok in H. destruct H as (u & h1 & E & H).
    destruct (set_rate_ok _ _ _ _ _ _ _ RO E) as [R1 _]. apply bind_ok in H. destruct H as (z & h2 & E2 & H).
    apply pv_still in E2. subst h2. unfold ret in H. injection H as _ <-. auto.
  Qed.

  (** the rate all flows have in common *)
  Lemma same_rate (l : cflist R D P) r : fixed_rate l = Ok r ->
    (forall k f, In (k, f) (cf_flows l) -> flow_rate f = Ok r) -> set_fixed_rate l r = l.
  Proof.
    unfold fixed_rate, set_fixed_rate. destruct (cf_rated l) eqn:E; [|reflexivity]. intros _ H.
    destruct l as [dom fl o at_ ra]. cbn in *. subst ra. f_equal.
    induction fl as [|[k f] fl IH]; cbn; auto. f_equal.
    - f_equal. specialize (H k f (or_introl eq_refl)). unfold flow_rate in H. unfold with_rate.
      destruct f as [x|p]; auto. destruct p as [?|rp|?|?|rp ? ?|?]; auto; injection H as <-; now destruct rp.
    - apply IH. intros. eapply H. right; eauto.
  Qed.

  Lemma rate_eqb_eq (a b : option R) : rate_eqb a b = true <-> a = b.
  Proof.
    destruct a as [x|], b as [y|]; cbn; try (split; congruence).
    change (Reqb x y = true <-> Some x = Some y). rewrite Reqb_true. split; congruence.
  Qed.

  Lemma uniform_rate (l : cflist R D P) x : fixed_rate l = Ok (Some x) ->
    forall k f, In (k, f) (cf_flows l) -> flow_rate f = Ok (Some x).
  Proof.
    unfold fixed_rate. destruct (cf_rated l); [|discriminate]. intros H.
    destruct (mapM _ (cf_flows l)) as [rs|] eqn:E; [|discriminate]. cbn [bind] in H.
    apply mapM_forall2 in E.
    assert (A : forall r, In r rs -> r = Some x).
    { destruct rs as [|r rs]; [discriminate|]. destruct (forallb _ rs) eqn:F; [|discriminate]. injection H as ->.
      rewrite forallb_forall in F. intros r' [<-|I]; auto. specialize (F _ I). apply rate_eqb_eq in F. auto. }
    intros k f I. clear H. induction E as [|[k' f'] r fl rs H E IH]; [contradiction|].
    destruct I as [I|I].
    - injection I as -> ->. cbn in H. rewrite H. f_equal. apply A. now left.
    - apply IH; auto. intros r' I'. apply A. now right.
  Qed.
End Heap.
