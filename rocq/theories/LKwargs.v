(** Lemmas about the round trip through kwargs. *)
From Coq Require Import Reals Lra Lia List Bool Sorted Permutation.
From Verif Require Import Num Py Spec SInterpolation SCurve SDates LBase LSort MInterpolation
  LInterpolation LInterpolation2 MDates MCurve LDates LCurve LCurve2 LDateCurve LDateCurve2
  MRateCurve SRateCurve LRateCurve LRateCurve2 LRateCurve3 LCredit LMore MKwargs.
Import ListNotations.
Open Scope R_scope.

Definition found (i : option ispec) : Prop := forall s, i = Some s -> findable s.
Lemma kwarg_resolve i d : found i ->
  resolve (dc_spec d (interp_kwarg i)) = resolve (dc_spec d i).
Proof. intros F. destruct i as [s|]; cbn [dc_spec interp_kwarg]; [now apply findable_resolve, F|reflexivity]. Qed.

Lemma curve_rebuild_ok i ps c : admissible (curve_spec i) ps -> of_points i ps c -> found i ->
  curve_rebuild c = Ok (mkC (interp_kwarg i) (c_fn c) (c_domain c)).
Proof.
  intros A O F. destruct (of_points_domain i ps c O) as [ED EI].
  unfold curve_rebuild. rewrite ED, (curve_val_domain i ps c A O), EI. cbn [bind].
  assert (DC : distinct (canon ps)) by (eapply distinct_perm; [symmetry; apply canon_perm|apply A]).
  assert (O' : of_points i (canon ps) c) by (eapply of_points_perm; [symmetry; apply canon_perm|exact O]).
  destruct O' as [_ E].
  rewrite curve_new_form in E by (exact DC || now rewrite !map_length).
  rewrite curve_new_form by (exact DC || now rewrite !map_length).
  rewrite (fn_new_resolve (curve_spec (interp_kwarg i)) (curve_spec i)) by (apply (kwarg_resolve i linear_scheme); exact F).
  destruct (fn_new (curve_spec i) (map fst (canon ps)) (map snd (canon ps))) as [f|]; [|discriminate].
  cbn [bind] in *. inversion E; subst c. cbn [c_fn c_domain] in *. now rewrite ED.
Qed.

Lemma curve_rebuild_fails i ps c s : admissible (curve_spec i) ps -> of_points i ps c ->
  i = Some s -> ~ findable s -> curve_rebuild c = Err TypeError.
Proof.
  intros A O -> F. destruct (of_points_domain _ ps c O) as [ED EI].
  unfold curve_rebuild. rewrite ED, (curve_val_domain _ ps c A O), EI. cbn [bind].
  assert (DC : distinct (canon ps)) by (eapply distinct_perm; [symmetry; apply canon_perm|apply A]).
  rewrite curve_new_form by (exact DC || now rewrite !map_length).
  cbn [interp_kwarg curve_spec]. unfold fn_new at 1. now rewrite unfindable_resolve.
Qed.

Lemma mapM_ext' {A B} (f g : A -> res B) l : (forall x, f x = g x) -> mapM f l = mapM g l.
Proof. intro E. induction l as [|x l IH]; cbn [mapM]; auto. now rewrite E, IH. Qed.

Section Dates.
  Context {D P : Type} {DS : DateSys R D P} {tm : D -> R} {L : DateLaws DS tm} {DC : DayCounts R D}.
  Variables (count : dcspec R D) (tau : D -> D -> R).
  Hypothesis A : additive (dc_apply count) tau.
  Hypothesis A' : additive (dc_apply (dc_kwarg count)) tau.

  Lemma dc_rebuild_ok dflt i orig o ds ys c : dstate (tm:=tm) count tau dflt i orig o ds ys c ->
    admissible (dc_spec dflt i) (times tau o ds ys) -> found i ->
    dc_rebuild c = Ok (mkD dflt (interp_kwarg i) (dc_fn c) ds orig (dc_kwarg count) []).
  Proof.
    intros S AD F. pose proof S as [HL [ND [HO [f [Ef EC]]]]].
    unfold dc_rebuild. pose proof (dc_val_data (tm:=tm) count tau A _ _ _ _ _ _ _ S AD) as VAL.
    assert (ED : dc_domain c = ds) by now subst c. rewrite ED, VAL. subst c. cbn [dc_dflt dc_interp dc_origin0 dc_count bind dc_fn].
    rewrite (dc_new_form (L:=L) (dc_kwarg count) tau A' dflt ds ys _ orig o HL ND HO).
    rewrite (fn_new_resolve (dc_spec dflt (interp_kwarg i)) (dc_spec dflt i)) by now apply kwarg_resolve.
    now rewrite Ef.
  Qed.

  Lemma rebuilt_call dflt i orig ds f o d i' : dom_origin orig ds = Some o ->
    dc_call (mkD dflt i' f ds orig (dc_kwarg count) []) d = dc_call (mkD dflt i f ds orig count []) d.
  Proof.
    intros HO. unfold dc_call. cbn [dc_fix assoc dc_fn].
    set (c1 := mkD dflt i' f ds orig (dc_kwarg count) []). set (c2 := mkD dflt i f ds orig count []).
    rewrite (dc_time_ok (dc_kwarg count) tau A' c1 o d eq_refl HO), (dc_time_ok count tau A c2 o d eq_refl HO). reflexivity.
  Qed.

  (** rate curves: what the round trip gives for the data the curve returns *)
  Lemma rc_calls k i orig o ds zs d (tenor : option P) : dstate (tm:=tm) count tau (cls_interp k) i orig o ds zs d ->
    admissible (dc_spec (cls_interp k) i) (times tau o ds zs) ->
    mapM (rc_call (mkR k d tenor None)) ds = Ok zs.
  Proof.
    intros S AD. pose proof (dc_val_data (tm:=tm) count tau A _ _ _ _ _ _ _ S AD) as VAL.
    rewrite <- VAL. apply mapM_ext'. intros x. apply rc_call_plain.
  Qed.
  Lemma rc_rebuild_form k i orig o ds zs d (tenor : option P) : dstate (tm:=tm) count tau (cls_interp k) i orig o ds zs d ->
    admissible (dc_spec (cls_interp k) i) (times tau o ds zs) ->
    rc_rebuild (mkR k d tenor None) = rc_new k ds zs (interp_kwarg i) orig (dc_kwarg count) tenor.
  Proof.
    intros S AD. unfold rc_rebuild, rc_domain. cbn [rc_dc rc_cls rc_tenor0].
    pose proof (rc_calls k i orig o ds zs d tenor S AD) as V.
    destruct S as [HL [ND [HO [f [Ef ->]]]]]. cbn [dc_domain dc_interp dc_origin0 dc_count]. now rewrite V.
  Qed.
  Lemma rc_rebuild_ok k i orig o ds zs d (tenor : option P) : dstate (tm:=tm) count tau (cls_interp k) i orig o ds zs d ->
    admissible (dc_spec (cls_interp k) i) (times tau o ds zs) -> found i -> prepare_data k zs = Ok zs ->
    rc_rebuild (mkR k d tenor None) =
    Ok (mkR k (mkD (cls_interp k) (interp_kwarg i) (dc_fn d) ds orig (dc_kwarg count) []) tenor None).
  Proof.
    intros S AD F PD. rewrite (rc_rebuild_form k i orig o ds zs d tenor S AD). unfold rc_new. rewrite PD. cbn [bind].
    pose proof (dc_rebuild_ok _ _ _ _ _ _ _ S AD F) as E. unfold dc_rebuild in E.
    pose proof (dc_val_data (tm:=tm) count tau A _ _ _ _ _ _ _ S AD) as VAL.
    destruct S as [HL [ND [HO [f [Ef ->]]]]]. cbn [dc_domain dc_interp dc_origin0 dc_count dc_dflt] in E.
    rewrite VAL in E. cbn [bind] in E. rewrite E. reflexivity.
  Qed.
End Dates.

Lemma prepare_again k (ys zs : list R) : is_default k = false -> prepare_data k ys = Ok zs -> prepare_data k zs = Ok zs.
Proof.
  intros K E. destruct (is_probability k) eqn:PK.
  - rewrite prepare_ok in E by auto. inversion E; subst zs. rewrite prepare_ok by auto. f_equal.
    unfold survival_data. rewrite map_map. apply map_ext. intro y. rewrite K. apply clamp_id, clamp_range.
  - unfold prepare_data in *. now rewrite PK in *.
Qed.
