(** Lemmas about assigning items of rate curves. *)
From Coq Require Import Reals Lra Lia List Bool Sorted Permutation.
From Verif Require Import Num Py Spec SInterpolation SCurve SDates LBase LSort MInterpolation
  LInterpolation MDates MCurve MRateCurve LDates LCurve LCurve2 LDateCurve SRateCurve LRateCurve LRateCurve3.
Import ListNotations.
Open Scope R_scope.

Section Set_.
  Context {D P : Type} {DS : DateSys R D P} {tm : D -> R} {DC : DayCounts R D} {L : DateLaws DS tm}.
  Context (count : dcspec R D) (tau : D -> D -> R) (A : additive (dc_apply count) tau).

  Lemma setitem_with_form (val : D -> res R) dflt i orig o ds ys zs c k v : dstate (tm:=tm) count tau dflt i orig o ds ys c ->
    mapM val ds = Ok zs ->
    dc_setitem_with val c k v = dc_new dflt (fst (d_upd ds zs k v)) (snd (d_upd ds zs k v)) i orig count.
  Proof.
    intros S V. unfold dc_setitem_with.
    destruct (dstate_origin _ _ _ _ _ _ _ _ _ S) as [HO [HC [HD HF]]]. rewrite HD, V. cbn [bind].
    destruct S as [HL [ND [DO [f [E EC]]]]].
    assert (HZ : length ds = length zs) by (symmetry; eapply mapM_length; eauto).
    rewrite (dc_new_form (L:=L) count tau A dflt _ _ i orig o);
      [|now apply d_upd_len|now apply (d_upd_nodup (L:=L))|now apply d_upd_origin].
    pose proof (d_upd_len ds zs k v HZ) as L1. pose proof (d_upd_nodup (L:=L) ds zs k v ND) as N1.
    unfold d_upd in *. destruct (index_of d_eqb k ds); cbn [fst snd] in *;
      rewrite (dc_update_form (L:=L) count tau A _ o) by auto; subst c; reflexivity.
  Qed.

  Lemma calls_ok (c : dcurve R D) ds : forall ys, mapM (dc_val c) ds = Ok ys -> exists l, mapM (dc_call c) ds = Ok l.
  Proof.
    induction ds as [|d ds IH]; cbn [mapM]; intros ys H; eauto. unfold dc_val at 1 in H.
    destruct (dc_call c d) as [v|]; [|discriminate]. cbn [bind] in *. destruct (some_float v); [|discriminate].
    cbn [bind] in H. destruct (mapM (dc_val c) ds) as [r|]; [|discriminate].
    destruct (IH r eq_refl) as [l ->]. cbn [bind]. eauto.
  Qed.

  Lemma cls_log k : (exists q, In q (spec_kinds (cls_interp k)) /\ log_kind q) -> k = CDiscountFactor \/ is_probability k = true.
  Proof.
    intros [q [I Q]]. apply log_kind_b in Q. destruct k; simpl in *; auto; exfalso; intuition; subst; discriminate.
  Qed.
  Lemma cls_adm k o ds zs : length ds = length zs -> NoDup (map tm ds) ->
    (k = CDiscountFactor \/ is_probability k = true -> forall z, In z zs -> 0 < z) ->
    (prob_cls k -> exists d, In d ds /\ tm d <> tm o) -> adm (cls_interp k) (times tau o ds zs).
  Proof.
    intros HL ND PO NO. split; [intros n; destruct k; discriminate|]. split; [now apply (times_distinct (L:=L) count tau A)|]. split; [|split].
    - unfold two_args. destruct k; simpl; intuition congruence.
    - intros LK. apply cls_log in LK. apply times_positive; auto.
    - destruct k; try (right; intros q Ik Rk; apply rate_kind_b in Rk; simpl in Ik; intuition; subst; discriminate);
        left; (destruct NO as [d [I N]]; [unfold prob_cls; auto|]);
        (assert (exists y, In (d, y) (combine ds zs)) as [y Iy];
         [clear -I HL; revert zs HL; induction ds; intros [|y zs] HL; simpl in *; try discriminate; [destruct I|];
          destruct I as [->|I]; eauto; destruct (IHds I zs) as [w Iw]; [lia|eauto]|]);
        exists (tau o d), y; (split; [now apply in_times|]); intro E; apply N;
        apply (tau_tm (L:=L) count tau A o); rewrite E; symmetry; apply (tau_self A).
  Qed.

  Lemma rc_new_dstate k ds ys orig o (tenor : option P) c : rc_new k ds ys None orig count tenor = Ok c ->
    NoDup (map tm ds) -> dom_origin orig ds = Some o ->
    exists ys' d, dstate (tm:=tm) count tau (cls_interp k) None orig o ds ys' d /\ c = mkR k d tenor None.
  Proof.
    intros E ND HO. unfold rc_new in E. destruct (prepare_data k ys) as [ys'|]; [|discriminate]. cbn [bind] in E.
    destruct (dc_new (cls_interp k) ds ys' None orig count) as [d|] eqn:Ed; [|discriminate]. cbn [bind] in E.
    inversion E; subst. exists ys', d. split; auto. apply (dstate_iff (L:=L) count tau A); auto.
    unfold dc_new in Ed. destruct (length ds =? length ys')%nat eqn:Q; [now apply Nat.eqb_eq|discriminate].
  Qed.

  Lemma update_origin (c c' : dcurve R D) ds ys o : dc_origin c = Some o -> dc_update c ds ys = Ok c' ->
    dom_origin (dc_origin0 c) ds = Some o -> dc_origin c' = Some o.
  Proof.
    intros O E H. unfold dc_update in E. destruct (mapM (dc_time c) ds); [|discriminate]. cbn [bind] in E.
    destruct (update_fn _ _ _); [|discriminate]. cbn [bind] in E. inversion E; subst. exact H.
  Qed.
  Lemma setitem_origin val (c c' : dcurve R D) key y o : dc_origin c = Some o -> dc_setitem_with val c key y = Ok c' ->
    dc_origin c' = Some o.
  Proof.
    intros O E. unfold dc_setitem_with in E. destruct (mapM val (dc_domain c)); [|discriminate]. cbn [bind] in E.
    destruct (index_of d_eqb key (dc_domain c)); eapply update_origin; eauto.
    unfold dc_origin, dom_origin in *. destruct (dc_origin0 c); auto. destruct (dc_domain c); [discriminate|]. exact O.
  Qed.
  Lemma in_combine_ex {B C} (l : list B) : forall (m : list C) x, length l = length m -> In x l -> exists z, In (x, z) (combine l m).
  Proof.
    induction l as [|a l IH]; intros [|b m] x HL I; simpl in *; try discriminate; try contradiction.
    destruct I as [->|I]; eauto. destruct (IH m x) as [z Iz]; eauto.
  Qed.

  (** assigning to a curve, if its values are known *)
  Lemma rc_setitem_values kl ds ys zs orig o tenor d sp key y :
    dstate (tm:=tm) count tau (cls_interp kl) None orig o ds ys d ->
    mapM (rc_call (mkR kl d tenor sp)) ds = Ok zs ->
    (kl = CDiscountFactor \/ is_probability kl = true -> 0 < y /\ forall z, In z zs -> 0 < z) ->
    (prob_cls kl -> exists d, In d ds /\ tm d <> tm o) ->
    exists d', rc_setitem (mkR kl d tenor sp) key y = Ok (mkR kl d' tenor sp) /\
      (forall x z, In (x, z) (combine ds zs) -> tm x <> tm key -> dc_val d' x = Ok z) /\
      (forall x, tm x = tm key -> dc_val d' x = Ok y).
  Proof.
    intros S V PO NO. pose proof S as [HL [ND [DO _]]].
    assert (HZ : length ds = length zs) by (symmetry; eapply mapM_length; eauto).
    pose proof (d_upd_points (L:=L) (tau o) ds zs key y (tau_inj (L:=L) count tau A o) HZ (times_nodup (L:=L) count tau A o ds ND)) as PM.
    set (ds' := fst (d_upd ds zs key y)) in *. set (zs' := snd (d_upd ds zs key y)) in *.
    assert (ND' : NoDup (map tm ds')) by now apply (d_upd_nodup (L:=L)).
    assert (AD : admissible (dc_spec (cls_interp kl) None) (times tau o ds' zs')).
    { apply adm_admissible.
      assert (PV : (exists q, In q (spec_kinds (cls_interp kl)) /\ log_kind q) -> 0 < y) by (intro LK; apply cls_log in LK; exact (proj1 (PO LK))).
      assert (AD0 : adm (cls_interp kl) (times tau o ds zs)) by (apply cls_adm; auto; intros Q; exact (proj2 (PO Q))).
      pose proof (adm_upd _ _ (tau o key) y AD0 PV) as [HK [H1 [H2 [H3 H4]]]].
      split; auto. split; [eapply distinct_perm; [symmetry; exact PM|exact H1]|]. split; auto. split.
      - intros LK a z I. apply (H3 LK a z). eapply Permutation_in; [exact PM|exact I].
      - destruct H4 as [[a [z [I N]]]|H4]; auto. left. exists a, z. split; auto.
        eapply Permutation_in; [symmetry; exact PM|exact I]. }
    destruct (dstate_exists (tm:=tm) count tau (cls_interp kl) None orig o ds' zs') as [d' S']; auto.
    { unfold ds', zs'. now apply d_upd_len. }
    { unfold ds'. now apply d_upd_origin. }
    exists d'. split; [|split].
    - unfold rc_setitem. cbn [rc_dc rc_cls rc_tenor0 rc_spread].
      rewrite (setitem_with_form _ (cls_interp kl) None orig o ds ys zs) by auto. fold ds' zs'.
      apply (dstate_iff (L:=L) count tau A (cls_interp kl) ds' zs' None orig o d') in S'; auto; [|apply S'|apply S'].
      rewrite S'. reflexivity.
    - intros x z I N. apply dc_val_some. apply (dstate_data (tm:=tm) count tau A _ _ _ _ _ _ _ x z S' AD).
      eapply Permutation_in; [symmetry; exact PM|]. apply in_upd. right. split.
      + intros E. apply N. now apply (tau_inj (L:=L) count tau A o).
      + now apply in_times.
    - intros x E. apply dc_val_some. apply (dstate_data (tm:=tm) count tau A _ _ _ _ _ _ _ x y S' AD).
      eapply Permutation_in; [symmetry; exact PM|]. apply in_upd. left. split; auto. now apply (tau_inj (L:=L) count tau A o).
  Qed.
End Set_.

Lemma in_combine_nth_error {A B} (l : list A) : forall (m : list B) x y,
  In (x, y) (combine l m) <-> exists i, nth_error l i = Some x /\ nth_error m i = Some y.
Proof.
  induction l as [|a l IH]; intros [|b m] x y; cbn [combine In].
  - split; [tauto|]. intros [[|i] [H _]]; discriminate.
  - split; [tauto|]. intros [[|i] [H _]]; discriminate.
  - split; [tauto|]. intros [[|i] [_ H]]; discriminate.
  - rewrite IH. split.
    + intros [E|[i H]]; [inversion E; subst; now exists 0%nat|now exists (S i)].
    + intros [[|i] [H H']]; [left; inversion H; inversion H'; reflexivity|right; exists i; auto].
Qed.
