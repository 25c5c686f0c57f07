(** Lemmas about yields, fair rates and accrued interest. *)
From Coq Require Import Reals Lra Lia List Bool ZArith.
From Verif Require Import Num Py Spec MDates MCurve MRateCurve MOption MCashflow MBracket MPricer
  SDates SCurve SRateCurve SPricer SBracket SYield LBase LSort LCurve LCurve2 LDates LDateCurve LRateCurve
  LRateCurve3 LMore LPricer LPricer2 LBracket.
Import ListNotations.
Open Scope R_scope.

(** the number of calls a search needs depends on the values only *)
Section Uniform.
  Context {St : Type} (Inv : St -> Prop) (at_ : R -> St -> Prop).
  Lemma uniform_search : forall F a b p, sign_change F a b -> 0 < p ->
    (forall x, inside a b x -> continuity_pt F x) ->
    exists n, forall fuel f s, (n < fuel)%nat -> evaluates Inv at_ a b f F -> Inv s ->
      exists a' m b' s', bracketing fuel f a b p s = (Ok (a', m, b'), s') /\ Inv s'.
  Proof.
    intros F a b p C HP CO.
    destruct (@Heine_cor2 F (Rmin a b) (Rmax a b) CO (mkposreal p HP)) as (delta & HD). cbn in HD.
    destruct delta as [delta Hd]. cbn in HD.
    destruct (halving (Rabs (b - a)) (Rmin delta p)) as (n & HN).
    { apply Rmin_glb_lt; auto. }
    pose proof (Rmin_l delta p). pose proof (Rmin_r delta p).
    exists n. intros fuel f s LT E J.
    destruct (search Inv at_ p fuel f F a b s E J C) as [Q|Q].
    - destruct Q as (a2 & b2 & k & s2 & Q1 & Q2 & _). eauto 7.
    - destruct Q as (s2 & Q1 & _ & Q3). destruct (Q3 n LT) as (a' & b' & R1 & R2 & R3 & R4).
      destruct R4. pose proof (pow_lt 2 n ltac:(lra)) as PW.
      assert (A : Rabs (b' - a') = Rabs (b - a) / 2 ^ n).
      { rewrite R1. unfold Rdiv. rewrite Rabs_mult, (Rabs_right (/ 2 ^ n)); auto.
        left. now apply Rinv_0_lt_compat. }
      split; [lra|]. apply HD; auto. rewrite A. lra.
  Qed.
End Uniform.

Section Flows.
  Context {D P : Type} {DS : DateSys R D P} {DC : DayCounts R D}.
  Implicit Types (h : heap R D P) (disc : rcurve R D P).

  Lemma list_flows_pv fuel flr disc v i h fl (df : D -> R) : list_flows fuel flr h v i fl ->
    (forall d a, In (d, a) fl -> get_discount_factor fuel disc v d = Ok (df d)) ->
    pv_list fuel flr disc (Some v) i h = (Ok (Rsum (map (fun da => df (fst da) * snd da) fl)), h).
  Proof.
    intros (c & S & E & V) DF. apply (pv_list_ok _ _ _ _ _ _ _ _ S).
    exists (map (fun da => df (fst da) * snd da) fl). split; auto. rewrite <- E. clear E S.
    induction fl as [|[d a] fl IH]; cbn [map fst snd]; constructor.
    - exists (df d), a. split; [apply (DF d a); now left|]. split; [apply V; now left|reflexivity].
    - apply IH; intros; [apply V|eapply DF]; right; eauto.
  Qed.

  Lemma product_flows_pv fuel flr disc v p h fl (df : D -> R) : product_flows fuel flr h v p fl ->
    (forall d a, In (d, a) fl -> get_discount_factor fuel disc v d = Ok (df d)) ->
    pv_of fuel flr disc (Some v) p h = (Ok (Rsum (map (fun da => df (fst da) * snd da) fl)), h).
  Proof.
    destruct p as [i|legs dom o]; cbn [product_flows pv_of]; intros F DF.
    - now apply list_flows_pv.
    - destruct F as (fls & F & ->). unfold bindS.
      rewrite (mapS_pure _ h legs (map (fun fl => Rsum (map (fun da => df (fst da) * snd da) fl)) fls)).
      + unfold ret. rewrite nsum_Rsum. do 2 f_equal. clear. induction fls as [|fl fls IH]; cbn; auto.
        rewrite map_app, Rsum_app. now f_equal.
      + induction F as [|i fl legs fls Hi F IH]; cbn [map]; constructor.
        * apply list_flows_pv; auto. intros d a I. apply (DF d a). cbn [concat]. apply in_or_app. now left.
        * apply IH. intros d a I. apply (DF d a). cbn [concat]. apply in_or_app. now right.
  Qed.
End Flows.

Section Local.
  Context {D P : Type} {DS : DateSys R D P} {DC : DayCounts R D} {tm : D -> R} {L : DateLaws DS tm}.
  Context (count : dcspec R D) (tau : D -> D -> R) (A : additive (dc_apply count) tau).

  Definition flat_curve (v : D) (orig : option D) (tenor : option P) (c : rcurve R D P) : Prop :=
    exists y, rc_new CZeroRate [v] [y] None orig count tenor = Ok c.

  Lemma flat_local (v : D) (y : R) (tenor : option P) orig : exists c,
    rc_new CZeroRate [v] [y] None orig count tenor = Ok c /\
    forall n s t, get_discount_factor (S (S n)) c s t = Ok (exp (- (y * tau s t))).
  Proof.
    assert (HO : exists o', dom_origin orig [v] = Some o') by (destruct orig; cbn; eauto). destruct HO as [o' HO].
    destruct (single_curve (L:=L) count _ CZeroRate v y tenor orig o' A eq_refl HO)
      as (c & E & (B1 & B2 & B3 & B4 & B5 & B6 & B7 & B8 & B9 & B10) & V).
    exists c. split; auto. intros n s t.
    unfold get_discount_factor, interest_only. rewrite B1. cbn [is_interest].
    rewrite (flat_factor (L:=L) c o' _ B3 B10 n s t y y); auto; [|left; auto|apply V|apply V].
    do 3 f_equal. pose proof (add_add _ _ A o' s t) as Q. rewrite <- Q. ring.
  Qed.

  Lemma flat_set (v : D) orig (tenor : option P) c x : flat_curve v orig tenor c ->
    exists c', rc_setitem c v x = Ok c' /\ rc_new CZeroRate [v] [x] None orig count tenor = Ok c'.
  Proof.
    intros (y & E).
    assert (HO : exists o', dom_origin orig [v] = Some o') by (destruct orig; cbn; eauto). destruct HO as [o' HO].
    assert (ND : NoDup (map tm [v])) by (repeat constructor; intros []).
    destruct (rc_new_dstate (L:=L) count tau A CZeroRate [v] [y] orig o' tenor c E ND HO) as (ys' & d & S & ->).
    destruct (single_curve (L:=L) count _ CZeroRate v y tenor orig o' A eq_refl HO) as (c1 & E1 & _ & V).
    rewrite E in E1. injection E1 as E1. subst c1.
    destruct (single_curve (L:=L) count _ CZeroRate v x tenor orig o' A eq_refl HO) as (c2 & E2 & _ & _).
    exists c2. split; auto. unfold rc_setitem. cbn [rc_dc rc_cls rc_tenor0 rc_spread].
    rewrite (setitem_with_form (L:=L) count tau A _ (cls_interp CZeroRate) None orig o' [v] ys' [y] d v x S).
    2: { cbn [mapM]. rewrite V. reflexivity. }
    assert (Q : index_of d_eqb v [v] = Some 0%nat).
    { cbn [index_of]. rewrite (proj2 (law_eqb v v)); auto. }
    unfold d_upd. rewrite Q. cbn [fst snd set_nth]. unfold rc_new in E2. cbn [prepare_data bind] in E2.
    exact E2.
  Qed.

  (** the error function of the yield search *)
  Lemma ytm_evaluates n flr p v target h fl a b orig tenor :
    product_flows (S (S n)) flr h v p fl ->
    evaluates (fun s => fst s = h /\ flat_curve v orig tenor (snd s)) (fun _ _ => True) a b
      (ytm_err (S (S n)) flr p v target) (fun y => yield_value tau v fl y - target).
  Proof.
    intros F x s _ (Hh & FC). destruct (flat_set v orig tenor (snd s) x FC) as (c' & E1 & E2).
    destruct (flat_local v x tenor orig) as (c2 & E3 & DF). rewrite E2 in E3. injection E3 as <-.
    exists (h, c'). unfold ytm_err, bindS. rewrite E1. unfold on_heap. cbn [fst snd]. rewrite Hh.
    rewrite (product_flows_pv _ _ c' v p h fl (fun d => exp (- (x * tau v d))) F) by (intros; apply DF).
    unfold ret. split; [reflexivity|]. split; auto. split; auto. now exists x.
  Qed.
End Local.

(** * The value as function of the yield *)
Section Value.
  Context {D : Type} (tau : D -> D -> R) (v : D).

  Lemma yield_value_cons d a fl y : yield_value tau v ((d, a) :: fl) y = exp (- (y * tau v d)) * a + yield_value tau v fl y.
  Proof. reflexivity. Qed.

  Lemma yield_continuous fl : forall y, continuity_pt (yield_value tau v fl) y.
  Proof.
    induction fl as [|[d a] fl IH]; intros y.
    - apply continuity_const. intros ? ?. reflexivity.
    - apply (continuity_pt_plus (fun y => exp (- (y * tau v d)) * a) (yield_value tau v fl)); auto.
      apply derivable_continuous_pt. reg.
  Qed.

  Lemma yield_decreasing fl : (forall d a, In (d, a) fl -> 0 <= a /\ 0 <= tau v d) ->
    forall x y, x <= y -> yield_value tau v fl y <= yield_value tau v fl x.
  Proof.
    induction fl as [|[d a] fl IH]; intros H x y L; [cbn; lra|]. rewrite !yield_value_cons.
    destruct (H d a (or_introl eq_refl)) as [A T].
    assert (E : exp (- (y * tau v d)) <= exp (- (x * tau v d))).
    { assert (Q : - (y * tau v d) <= - (x * tau v d)) by (apply Ropp_le_contravar, Rmult_le_compat_r; auto).
      destruct Q as [Q|Q]; [left; now apply exp_increasing|rewrite Q; lra]. }
    apply Rplus_le_compat; [now apply Rmult_le_compat_r|]. apply IH; auto. intros. apply H. now right.
  Qed.

  Lemma yield_strict fl : (forall d a, In (d, a) fl -> 0 <= a /\ 0 <= tau v d) ->
    (exists d a, In (d, a) fl /\ 0 < a /\ 0 < tau v d) ->
    forall x y, x < y -> yield_value tau v fl y < yield_value tau v fl x.
  Proof.
    induction fl as [|[d a] fl IH]; intros H (d0 & a0 & I & A0 & T0) x y L; [contradiction|].
    rewrite !yield_value_cons. destruct (H d a (or_introl eq_refl)) as [A T].
    assert (H' : forall d a, In (d, a) fl -> 0 <= a /\ 0 <= tau v d) by (intros; apply H; now right).
    destruct I as [E|I].
    - injection E as -> ->. apply Rplus_lt_le_compat; [|apply yield_decreasing; auto; lra].
      apply Rmult_lt_compat_r; auto. apply exp_increasing. apply Ropp_lt_contravar. now apply Rmult_lt_compat_r.
    - apply Rplus_le_lt_compat; [|apply IH; eauto].
      assert (E : exp (- (y * tau v d)) <= exp (- (x * tau v d))).
      { assert (Q : - (y * tau v d) <= - (x * tau v d)) by (apply Ropp_le_contravar, Rmult_le_compat_r; auto; lra).
        destruct Q as [Q|Q]; [left; now apply exp_increasing|rewrite Q; lra]. }
      now apply Rmult_le_compat_r.
  Qed.
End Value.
