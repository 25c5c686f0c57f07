(** Property C79: rebuilding a curve from its constructor arguments,
    [type(c)( **c.kwargs )] (dcf/curves/curve.py:153-166). *)
From Coq Require Import String Reals Lra Lia List Bool Sorted Permutation.
From Verif Require Import Num Py Spec SInterpolation SCurve SDates LBase LSort MInterpolation
  LInterpolation LInterpolation2 MDates MCurve LDates LCurve LCurve2 LDateCurve LDateCurve2
  MRateCurve MFx SRateCurve LRateCurve LRateCurve2 LRateCurve3 LCredit LMore MKwargs LKwargs PCurve PDateCurve.
Import ListNotations.
Open Scope R_scope.

(** * the name of an interpolation *)
(** the name of a class gives the same interpolation exactly for the plain classes and
    three of the four predefined schemes; a string is its own name *)
Theorem C79_names : forall (s : ispec),
  (findable s -> forall xs ys : list R, fn_new (SName (spec_name s)) xs ys = fn_new s xs ys) /\
  (~ findable s -> forall xs ys : list R, fn_new (SName (spec_name s)) xs ys = Err TypeError).
Proof.
  intros s. split; intros F xs ys.
  - now apply fn_new_resolve, findable_resolve.
  - unfold fn_new. now rewrite unfindable_resolve.
Qed.
Print Assumptions C79_names.
(** the schemes which have a name of their own in the module are found by it *)
Theorem C79_scheme_names : forall xs ys : list R,
  fn_new (SName "linear_scheme"%string) xs ys = fn_new (SScheme Kconstant Klinear Kconstant) xs ys /\
  fn_new (SName "log_linear_scheme"%string) xs ys = fn_new (SScheme Kconstant Kloglinear Kconstant) xs ys /\
  fn_new (SName "log_linear_rate_scheme"%string) xs ys = fn_new (SScheme Klogconstantrate Kloglinearrate Klogconstantrate) xs ys /\
  fn_new (SName "zero_linear_scheme"%string) xs ys = fn_new (SScheme Kzero Klinear Kconstant) xs ys.
Proof. intros xs ys. repeat split. Qed.
Print Assumptions C79_scheme_names.
Example C79_names_example : findable linear_scheme /\ findable (SBase Kloglinear) /\ ~ findable log_linear_scheme /\
  ~ findable (SScheme Kzero Kloglinear Kconstant).
Proof. repeat split; cbn [findable linear_scheme log_linear_scheme log_linear_rate_scheme zero_linear_scheme]; auto; intuition discriminate. Qed.

(** * Curve *)
(** after every history of assignments the rebuilt curve is the same function *)
Theorem C79_curve : forall (i : option ispec) (xs ys : list R) (hist : list (R * R)),
  length xs = length ys -> NoDup xs -> known (curve_spec i) -> (forall s, i = Some s -> findable s) ->
  (forall k, In k (spec_kinds (curve_spec i)) -> two_args k) ->
  ((exists k, In k (spec_kinds (curve_spec i)) /\ log_kind k) ->
     (forall y, In y ys -> 0 < y) /\ forall k v, In (k, v) hist -> 0 < v) ->
  ((exists a, In a xs /\ a <> 0) \/ forall k, In k (scheme_ends (curve_spec i)) -> ~ rate_kind k) ->
  exists c c', curve_new i xs ys = Ok c /\
    run (fun c kv => curve_setitem c (fst kv) (snd kv)) c hist = Ok c' /\
    exists r, curve_rebuild c' = Ok r /\ c_domain r = c_domain c' /\
      forall x, curve_call r x = curve_call c' x.
Proof.
  intros i xs ys hist L ND KN F K PO Z.
  assert (A : adm (curve_spec i) (combine xs ys)).
  { split; auto. split; [now apply distinct_combine|]. split; auto. split.
    - intros LK a z I. apply (proj1 (PO LK)). eapply in_combine_r; eauto.
    - destruct Z as [[a [Ia Na]]|Z]; auto. left.
      assert (exists y, In (a, y) (combine xs ys)) as [y Iy].
      { clear -L Ia. revert ys L. induction xs as [|x xs IH]; intros [|y ys] L; simpl in *; try discriminate; [destruct Ia|].
        destruct Ia as [->|Ia]; eauto. destruct (IH Ia ys) as [w Iw]; [lia|eauto]. }
      eauto. }
  destruct (of_points_exists i _ (adm_admissible _ _ A)) as [c [O _]].
  destruct (history_gen i hist _ c A O) as [c' [ps' [E [O' [A' G]]]]].
  { intros LK. exact (proj2 (PO LK)). }
  exists c, c'. split; [now apply of_points_new|]. split; auto.
  eexists. split; [apply (curve_rebuild_ok i ps'); auto using adm_admissible|]. auto.
Qed.
Print Assumptions C79_curve.

Example C79_curve_example : exists c c' r, curve_new (Some (SBase Kloglinear)) [3; 1] [5; 6] = Ok c /\
  run (fun c kv => curve_setitem c (fst kv) (snd kv)) c [(2, 7); (1, 8)] = Ok c' /\
  curve_rebuild c' = Ok r /\ c_domain r = c_domain c' /\ c_interp r = Some (SName (kind_name Kloglinear)) /\
  forall x, curve_call r x = curve_call c' x.
Proof.
  destruct (C79_curve (Some (SBase Kloglinear)) [3; 1] [5; 6] [(2, 7); (1, 8)]) as [c [c' [E [RN [r [B [DM H]]]]]]].
  - reflexivity.
  - repeat constructor; simpl; intuition lra.
  - intros n. discriminate.
  - intros s Q. inversion Q; subst. exact I.
  - simpl. unfold two_args. intuition congruence.
  - intros _. split; simpl; [intuition lra|]. intros k v [Q|[Q|[]]]; inversion Q; lra.
  - left. exists 3. simpl. split; [auto|lra].
  - exists c, c', r. repeat split; auto. unfold curve_rebuild in B.
    destruct (mapM (curve_val c') (c_domain c')) as [vs|]; [|discriminate]. cbn [bind] in B.
    assert (IC : forall i xs ys k, curve_new (T:=R) i xs ys = Ok k -> c_interp k = i).
    { intros i xs ys k Q. unfold curve_new in Q. destruct (negb _); [discriminate|]. destruct (update_fn _ _ _); [|discriminate].
      cbn [bind] in Q. now inversion Q. }
    assert (IS : forall a k v b, curve_setitem (T:=R) a k v = Ok b -> c_interp b = c_interp a).
    { intros a k v b Q. unfold curve_setitem in Q. destruct (mapM _ _); [|discriminate]. cbn [bind] in Q.
      destruct (match index_of neqb k (c_domain a) with Some _ => _ | None => _ end) as [u w].
      destruct (update_fn _ _ _); [|discriminate]. cbn [bind] in Q. now inversion Q. }
    rewrite (IC _ _ _ _ B). cbn [run fst snd] in RN.
    destruct (curve_setitem c 2 7) as [c1|] eqn:Q1; [|discriminate]. cbn [bind] in RN.
    destruct (curve_setitem c1 1 8) as [c2|] eqn:Q2; [|discriminate]. cbn [bind] in RN. inversion RN; subst c2.
    rewrite (IS _ _ _ _ Q2), (IS _ _ _ _ Q1), (IC _ _ _ _ E). reflexivity.
Qed.

(** a curve with any other scheme class, among them log_linear_scheme, can neither be
    rebuilt nor sampled, copied or shifted *)
Theorem C79_scheme_refuted : forall l m r (xs ys : list R) c, ~ findable (SScheme l m r) ->
  length xs = length ys -> NoDup xs -> admissible (SScheme l m r) (combine xs ys) ->
  curve_new (Some (SScheme l m r)) xs ys = Ok c ->
  curve_rebuild c = Err TypeError /\ curve_copy c = Err TypeError /\
  forall delta, exists e, curve_shifted c delta = Err e.
Proof.
  intros l m r xs ys c F HL ND AD E. apply of_points_new in E; auto.
  assert (RB : curve_rebuild c = Err TypeError).
  { exact (curve_rebuild_fails (Some (SScheme l m r)) _ c _ AD E eq_refl F). }
  destruct (of_points_domain _ _ _ E) as [ED EI].
  split; auto. split; [exact RB|].
  intros delta. unfold curve_shifted, curve_sample.
  set (l' := if ntruthy delta then _ else _). destruct (mapM (curve_val c) l') as [vs|e]; [|eexists; reflexivity].
  cbn [bind]. rewrite EI. cbn [interp_or interp_kwarg]. unfold curve_new.
  destruct (negb _); [eexists; reflexivity|]. unfold update_fn. destruct (split _) as [us ws].
  cbn [curve_spec]. unfold fn_new. rewrite unfindable_resolve by exact F. eexists. reflexivity.
Qed.
Print Assumptions C79_scheme_refuted.
Example C79_scheme_refuted_example : exists c, curve_new (Some log_linear_scheme) [1; 2] [1; 4] = Ok c /\
  curve_call c 1 = Ok (Some 1) /\ curve_copy c = Err TypeError.
Proof.
  assert (ND : NoDup [1; 2]) by (repeat constructor; simpl; intuition lra).
  assert (AD : admissible (curve_spec (Some log_linear_scheme)) (combine [1; 2] [1; 4])).
  { apply log_adm; [now apply distinct_combine|]. intros a y [Q|[Q|[]]]; inversion Q; lra. }
  destruct (of_points_exists _ _ AD) as [c [O V]]. exists c.
  apply of_points_new in O; auto. split; auto. split; [apply V; simpl; auto|].
  eapply (C79_scheme_refuted _ _ _ [1; 2] [1; 4]); [|reflexivity|exact ND|exact AD|exact O].
  cbn [findable linear_scheme log_linear_rate_scheme zero_linear_scheme]. intuition discriminate.
Qed.

(** * DateCurve *)
(** the same for date curves without fixings, when the day count is found by its name *)
Theorem C79_date_curve : forall {D P} (DS : DateSys R D P) (tm : D -> R) (DC : DayCounts R D),
  DateLaws DS tm ->
  forall (count : dcspec R D) tau, additive (dc_apply count) tau -> additive (dc_apply (dc_kwarg count)) tau ->
  forall dflt i orig ds ys o (hist : list (D * R)),
  length ds = length ys -> NoDup (map tm ds) ->
  (orig = Some o \/ orig = None /\ hd_error ds = Some o) ->
  known (dc_spec dflt i) -> (forall s, i = Some s -> findable s) ->
  (forall k, In k (spec_kinds (dc_spec dflt i)) -> two_args k) ->
  ((exists k, In k (spec_kinds (dc_spec dflt i)) /\ log_kind k) ->
     (forall y, In y ys -> 0 < y) /\ forall k v, In (k, v) hist -> 0 < v) ->
  ((exists a, In a ds /\ tm a <> tm o) \/ forall k, In k (scheme_ends (dc_spec dflt i)) -> ~ rate_kind k) ->
  exists c c', dc_new dflt ds ys i orig count = Ok c /\
    run (fun c kv => dc_setitem c (fst kv) (snd kv)) c hist = Ok c' /\
    exists r, dc_rebuild c' = Ok r /\ dc_domain r = dc_domain c' /\ dc_origin r = Some o /\
      (forall a b, dc_yf r a b = dc_yf c' a b) /\ forall d, dc_call r d = dc_call c' d.
Proof.
  intros D P DS tm DC L count tau A A' dflt i orig ds ys o hist HL ND HO KN F K PO Z.
  assert (HO' : dom_origin orig ds = Some o) by (destruct HO as [->|[-> HO]]; auto).
  assert (AD : adm (dc_spec dflt i) (times tau o ds ys)).
  { split; auto. split; [now apply (times_distinct count tau A)|]. split; auto. split.
    - intro LK. apply times_positive; auto. apply PO, LK.
    - destruct Z as [[a [Ia Na]]|Z]; auto. left.
      assert (exists y, In (a, y) (combine ds ys)) as [y Iy].
      { clear -Ia HL. revert ys HL. induction ds; intros [|y ys] HL; simpl in *; try discriminate; [destruct Ia|].
        destruct Ia as [->|Ia]; eauto. destruct (IHds Ia ys) as [w Iw]; [lia|eauto]. }
      exists (tau o a), y. split; [now apply in_times|]. intro E. apply Na. symmetry.
      rewrite <- (tau_self A o) in E. symmetry. now apply (tau_tm (L:=L) count tau A o). }
  destruct (dstate_exists (tm:=tm) count tau dflt i orig o ds ys) as [c S]; auto using adm_admissible.
  destruct (dc_history (L:=L) count tau A dflt i orig o hist ds ys c S AD) as [c' [ds' [ys' [E [S' [AD' G]]]]]].
  { intro LK. apply PO, LK. }
  exists c, c'. split; [now apply (dstate_iff count tau A dflt ds ys i orig o)|]. split; auto.
  eexists. split; [apply (dc_rebuild_ok (L:=L) count tau A A' _ _ _ _ _ _ _ S' (adm_admissible _ _ AD') F)|].
  pose proof S' as [_ [_ [DO [f [_ EC]]]]]. subst c'. cbn [dc_domain]. split; auto. split; [exact DO|]. split.
  - intros a b. unfold dc_yf. cbn [dc_count]. now rewrite (add_val _ _ A), (add_val _ _ A').
  - intros d. cbn [dc_fn]. now apply (rebuilt_call count tau A A' _ _ _ _ _ o).
Qed.
Print Assumptions C79_date_curve.

#[local] Instance no_counts {D} : DayCounts R D := [].
Local Notation ftau := (fun a b : R => b - a).

Example C79_date_curve_example : exists (c c' r : dcurve R R),
  dc_new (DS:=FloatDates) linear_scheme [3; 1] [5; 6] (Some linear_scheme) None DcDefault = Ok c /\
  run (fun c kv => dc_setitem (DS:=FloatDates) c (fst kv) (snd kv)) c [(2, 7)] = Ok c' /\
  dc_rebuild (DS:=FloatDates) c' = Ok r /\
  forall d, dc_call (DS:=FloatDates) r d = dc_call (DS:=FloatDates) c' d.
Proof.
  pose proof (float_additive (DC:=no_counts)) as A.
  destruct (C79_date_curve FloatDates (fun d => d) no_counts float_laws DcDefault _ A A
              linear_scheme (Some linear_scheme) None [3; 1] [5; 6] 3 [(2, 7)]) as [c [c' [E [R [r [B [_ [_ [_ H]]]]]]]]]; auto.
  - repeat constructor; simpl; intuition lra.
  - intros n. discriminate.
  - intros s Q. inversion Q; subst. simpl. auto.
  - simpl. unfold two_args. intuition congruence.
  - intros [k [I K]]. exfalso. unfold log_kind in K. simpl in I. intuition congruence.
  - right. intros k I K. unfold rate_kind in K. simpl in I. intuition congruence.
  - exists c, c', r. auto.
Qed.

(** a day count function that is not registered under its name makes the round trip fail,
    and fixings are lost *)
Theorem C79_date_curve_refuted :
  (forall {D P} (DS : DateSys R D P) (tm : D -> R) (DC : DayCounts R D), DateLaws DS tm ->
     forall name f tau, additive f tau -> assoc String.eqb name dc_registry = None ->
     forall orig ds ys c, ds <> [] -> length ds = length ys -> NoDup (map tm ds) ->
     dc_new linear_scheme ds ys None orig (DcFun name f) = Ok c -> dc_rebuild c = Err TypeError) /\
  exists (c r : dcurve R R), dc_new (DS:=FloatDates) linear_scheme [1; 2] [10; 20] None None DcDefault = Ok c /\
    let c' := dc_set_fixing (DS:=FloatDates) c 0 7 in
    dc_rebuild (DS:=FloatDates) c' = Ok r /\
    dc_call (DS:=FloatDates) c' 0 = Ok (Some 7) /\ dc_call (DS:=FloatDates) r 0 = Ok (Some 10).
Proof.
  split.
  - intros D P DS tm DC L name f tau A NR orig ds ys c NE HL ND E.
    assert (A0 : additive (dc_apply (DcFun name f)) tau) by exact A.
    assert (exists o, dom_origin orig ds = Some o) as [o HO].
    { unfold dom_origin. destruct orig; eauto. destruct ds; [congruence|]. simpl. eauto. }
    assert (AD : admissible (dc_spec linear_scheme None) (times tau o ds ys)).
    { apply adm_linear. now apply (times_distinct (L:=L) _ _ A0). }
    pose proof (proj1 (dstate_iff (L:=L) _ _ A0 linear_scheme ds ys None orig o c HL ND HO) E) as S.
    unfold dc_rebuild. pose proof (dc_val_data (tm:=tm) _ _ A0 _ _ _ _ _ _ _ S AD) as VAL.
    destruct S as [_ [_ [_ [g [_ ->]]]]]. cbn [dc_domain dc_dflt dc_interp dc_origin0 dc_count dc_kwarg].
    rewrite VAL. cbn [bind]. unfold dc_new. rewrite HL, PeanoNat.Nat.eqb_refl. cbn [negb]. unfold dc_update.
    destruct ds as [|d ds]; [congruence|]. cbn [mapM]. unfold dc_time at 1, dc_origin. cbn [dc_origin0 dc_domain].
    rewrite HO. unfold dc_yf. cbn [dc_count dc_apply]. rewrite NR. reflexivity.
  - pose proof (float_additive (DC:=no_counts)) as A.
    assert (ND : NoDup (map (fun d : R => d) [1; 2])) by (repeat constructor; simpl; intuition lra).
    assert (AD : admissible (dc_spec linear_scheme None) (times ftau 1 [1; 2] [10; 20])).
    { apply adm_linear. now apply (times_distinct (L:=float_laws) DcDefault _ A). }
    destruct (dstate_exists (tm:=fun d : R => d) DcDefault ftau linear_scheme None None 1 [1; 2] [10; 20] eq_refl ND eq_refl AD) as [c S].
    exists c. eexists. split; [apply (dstate_iff (L:=float_laws) DcDefault ftau A _ _ _ _ _ 1); auto|]. cbv zeta.
    assert (V : forall d, d <> 0 -> dc_val (DS:=FloatDates) (dc_set_fixing (DS:=FloatDates) c 0 7) d = dc_val (DS:=FloatDates) c d).
    { intros d N. pose proof S as [_ [_ [_ [g [_ ->]]]]]. unfold dc_val, dc_call, dc_set_fixing. cbn [dc_fix assoc_set assoc dc_fn].
      unfold d_eqb, FloatDates. cbn. rn. replace (Reqb 0 d) with false by (symmetry; apply Reqb_false; auto). reflexivity. }
    pose proof (dc_val_data (tm:=fun d : R => d) DcDefault ftau A _ _ _ _ _ _ _ S AD) as VAL.
    split; [|split].
    + pose proof (dc_rebuild_ok (L:=float_laws) DcDefault ftau A A _ _ _ _ _ _ _ S AD) as RB.
      assert (F : found None) by (intros s Q; discriminate Q). specialize (RB F). rewrite <- RB.
      unfold dc_rebuild. pose proof S as [_ [_ [_ [g [_ EC]]]]].
      assert (DD : dc_domain (dc_set_fixing (DS:=FloatDates) c 0 7) = [1; 2]) by now subst c.
      assert (DE : dc_domain c = [1; 2]) by now subst c.
      rewrite DD, DE. cbn [mapM]. rewrite !V by lra. subst c. reflexivity.
    + pose proof S as [_ [_ [_ [g [_ ->]]]]]. unfold dc_call, dc_set_fixing. cbn [dc_fix assoc_set assoc].
      unfold d_eqb, FloatDates. cbn. rn. now rewrite (proj2 (Reqb_true 0 0) eq_refl).
    + pose proof S as [_ [_ [DO [g [_ EC]]]]]. rewrite EC. cbn [dc_fn].
      rewrite (rebuilt_call DcDefault ftau A A linear_scheme None None [1; 2] g 1 0 (interp_kwarg None) DO). rewrite <- EC.
      destruct (dstate_linear (L:=float_laws) DcDefault ftau A None 1 [1; 2] [10; 20] c 0 (fun d => d)) as [y [Ey PL]]; auto.
      { discriminate. }
      rewrite Ey. do 2 f_equal. apply (pl_fun (combine [1; 2] [10; 20]) 0); [apply distinct_combine; auto; rewrite <- (map_id [1; 2]); exact ND|rewrite map_id in PL; exact PL|].
      right; left. exists 1. split; [simpl; auto|]. split; [|lra].
      intros a z [Q|[Q|[]]]; inversion Q; lra.
Qed.
Print Assumptions C79_date_curve_refuted.

(** * ForwardCurve *)
(** rebuilt prices agree up to the last date; after it they are constant: the yield curve
    is lost *)
Theorem C79_forward_curve : forall {D P} (DS : DateSys R D P) (tm : D -> R) (DC : DayCounts R D),
  DateLaws DS tm ->
  forall (count : dcspec R D) tau, additive (dc_apply count) tau -> additive (dc_apply (dc_kwarg count)) tau ->
  forall ds0 l ys0 p orig (yc : yieldc R D),
  length ds0 = length ys0 -> increasing (map tm (ds0 ++ [l])) ->
  (forall y, In y (ys0 ++ [p]) -> 0 < y) ->
  exists f r, fc_new (ds0 ++ [l]) (ys0 ++ [p]) None orig count yc = Ok f /\ fc_rebuild f = Ok r /\
    (forall d, tm d <= tm l -> fc_price r d = fc_price f d) /\
    (forall d, tm l < tm d -> fc_price r d = Ok p).
Proof.
  intros D P DS tm DC L count tau A A' ds0 l ys0 p orig yc HL INC PO.
  destruct (C34_forward DS tm DC L count tau A ds0 l ys0 p orig yc HL INC PO) as [f [E [V1 [V2 V3]]]].
  destruct (C34_forward DS tm DC L (dc_kwarg count) tau A' ds0 l ys0 p orig (YFloat 0) HL INC PO) as [r [E' [W1 [W2 W3]]]].
  exists f, r. split; auto.
  assert (FC : dc_domain (fc_dc f) = ds0 ++ [l] /\ dc_interp (fc_dc f) = None /\ dc_origin0 (fc_dc f) = orig /\ dc_count (fc_dc f) = count).
  { unfold fc_new, dc_new in E. destruct (negb _); [discriminate|]. unfold dc_update in E. destruct (mapM _ _); [|discriminate].
    cbn [bind] in E. destruct (update_fn _ _ _); [|discriminate]. cbn [bind] in E. inversion E; subst f. cbn. auto. }
  destruct FC as (F1 & F2 & F3 & F4). split; [|split].
  - unfold fc_rebuild. rewrite F1, F2, F3, F4. rewrite (mapM_combine (fc_price f) (ds0 ++ [l]) (ys0 ++ [p])).
    + cbn [bind interp_kwarg]. exact E'.
    + rewrite !app_length, HL. reflexivity.
    + exact V1.
  - intros d Hd. destruct (V2 d Hd) as [v [-> [Pv PLv]]]. destruct (W2 d Hd) as [w [-> [Pw PLw]]]. f_equal.
    assert (exists o, dom_origin orig (ds0 ++ [l]) = Some o) as [o HO].
    { destruct orig; simpl; eauto. destruct (ds0 ++ [l]) eqn:Q; simpl; [destruct ds0; discriminate|eauto]. }
    assert (TD : forall a b, tau a b = tau o b - tau o a) by (intros a b; apply (tau_diff A)).
    specialize (PLv (tau o) TD). specialize (PLw (tau o) TD).
    apply ln_inv; auto. apply (pl_fun (combine (map (tau o) (ds0 ++ [l])) (map ln (ys0 ++ [p]))) (tau o d)); auto.
    apply distinct_combine.
    + rewrite !map_length, !app_length, HL. reflexivity.
    + apply (times_nodup (L:=L) count tau A o). now apply incr_nodup.
  - intros d Hd. destruct (W3 d Hd) as [_ [H _]]. rewrite (H 0 eq_refl). rewrite Rmult_0_l, exp_0. f_equal. lra.
Qed.
Print Assumptions C79_forward_curve.

Theorem C79_forward_curve_refuted : exists f r : fcurve R R,
  fc_new (DS:=FloatDates) [1; 2] [100; 110] None None DcDefault (YFloat 1) = Ok f /\
  fc_rebuild (DS:=FloatDates) f = Ok r /\
  fc_price (DS:=FloatDates) f 3 = Ok (110 * exp 1) /\ fc_price (DS:=FloatDates) r 3 = Ok 110.
Proof.
  pose proof (float_additive (DC:=no_counts)) as A.
  assert (INC : increasing (map (fun d : R => d) ([1] ++ [2]))) by (simpl; repeat constructor; lra).
  assert (PO : forall y, In y ([100] ++ [110]) -> 0 < y) by (simpl; intros y H; intuition lra).
  destruct (C34_forward FloatDates (fun d => d) no_counts float_laws DcDefault _ A [1] 2 [100] 110 None (YFloat 1) eq_refl INC PO) as [f [E [_ [_ V]]]].
  destruct (C79_forward_curve FloatDates (fun d => d) no_counts float_laws DcDefault _ A A [1] 2 [100] 110 None (YFloat 1) eq_refl INC PO) as [f' [r [E' [B [_ W]]]]].
  rewrite E in E'. inversion E'; subst f'. exists f, r. split; auto. split; auto. split.
  - destruct (V 3) as [_ [H _]]; [lra|]. rewrite (H 1 eq_refl). do 3 f_equal. lra.
  - apply W. lra.
Qed.
Print Assumptions C79_forward_curve_refuted.

(** * RateCurve *)
(** every class except the two of default probabilities: the same values *)
Theorem C79_rate_curve : forall {D P} (DS : DateSys R D P) (tm : D -> R) (DC : DayCounts R D), DateLaws DS tm ->
  forall count tau, additive (dc_apply count) tau -> additive (dc_apply (dc_kwarg count)) tau ->
  forall k ds ys orig o (tenor : option P) c, is_default k = false ->
  NoDup (map tm ds) -> dom_origin orig ds = Some o ->
  (k = CDiscountFactor -> forall y, In y ys -> 0 < y) ->
  (k = CDiscountFactor \/ k = CSurvival -> exists d, In d ds /\ tm d <> tm o) ->
  rc_new k ds ys None orig count tenor = Ok c ->
  exists r, rc_rebuild c = Ok r /\ rc_cls r = k /\ rc_domain r = ds /\ rc_origin r = Some o /\ rc_tenor r = rc_tenor c /\
    (forall a b, rc_yf r a b = rc_yf c a b) /\ (forall d, rc_call r d = rc_call c d).
Proof.
  intros D P DS tm DC L count tau A A' k ds ys orig o tenor c K ND HO PO NO E.
  unfold rc_new in E. destruct (prepare_data k ys) as [zs|] eqn:PD; [|discriminate]. cbn [bind] in E.
  destruct (dc_new (cls_interp k) ds zs None orig count) as [d|] eqn:Ed; [|discriminate]. cbn [bind] in E. inversion E; subst c.
  assert (HL : length ds = length zs).
  { unfold dc_new in Ed. destruct (length ds =? length zs)%nat eqn:Q; [now apply PeanoNat.Nat.eqb_eq|discriminate]. }
  pose proof (proj1 (dstate_iff (L:=L) count tau A (cls_interp k) ds zs None orig o d HL ND HO) Ed) as S.
  assert (AD : admissible (dc_spec (cls_interp k) None) (times tau o ds zs)).
  { apply adm_admissible. cbn [dc_spec]. apply (cls_adm (L:=L) count tau A); auto.
    - intros [->|PK] z I.
      + cbn in PD. inversion PD; subst. now apply (PO eq_refl).
      + rewrite prepare_ok in PD by auto. inversion PD; subst. apply survival_data_range in I. pose proof fmin_pos. lra.
    - intros [->|[->| ->]]; [now apply NO; auto|now apply NO; auto|discriminate K]. }
  assert (F : found None) by (intros s Q; discriminate Q).
  eexists. split; [apply (rc_rebuild_ok (L:=L) count tau A A' k None orig o ds zs d tenor S AD F); eapply prepare_again; eauto|].
  destruct S as [_ [_ [_ [f [_ ->]]]]].
  split; auto. split; auto. split; [exact HO|]. split; [reflexivity|]. split.
  - intros a b. unfold rc_yf, dc_yf. cbn [rc_dc dc_count]. now rewrite (add_val _ _ A), (add_val _ _ A').
  - intros x. rewrite !rc_call_plain. unfold dc_val. cbn [dc_fn].
    now rewrite (rebuilt_call count tau A A' (cls_interp k) None orig ds f o x _ HO).
Qed.
Print Assumptions C79_rate_curve.
Example C79_rate_curve_example : exists (c r : rcurve R R (fperiod R)),
  rc_new (DS:=FloatDates) CSurvival [1; 2] [9 / 10; 8 / 10] None (Some 0) DcDefault None = Ok c /\
  rc_rebuild (DS:=FloatDates) c = Ok r /\ forall d, rc_call (DS:=FloatDates) r d = rc_call (DS:=FloatDates) c d.
Proof.
  pose proof (float_additive (DC:=no_counts)) as A.
  assert (ND : NoDup (map (fun d : R => d) [1; 2])) by (repeat constructor; simpl; intuition lra).
  assert (PE : prepare_data CSurvival [9 / 10; 8 / 10] = Ok (survival_data CSurvival [9 / 10; 8 / 10])) by now apply prepare_ok.
  destruct (dstate_exists (tm:=fun d : R => d) DcDefault ftau (cls_interp CSurvival) None (Some 0) 0 [1; 2] (survival_data CSurvival [9 / 10; 8 / 10]) eq_refl ND eq_refl) as [d S].
  { apply (rate_adm (L:=float_laws) DcDefault ftau A); auto.
    - intros y I. apply survival_data_range in I. pose proof fmin_pos. lra.
    - exists 1. simpl. split; [auto|lra]. }
  pose proof (rc_new_state (L:=float_laws) DcDefault ftau A CSurvival [1; 2] [9 / 10; 8 / 10] _ None (Some 0) 0 (@None (fperiod R)) d PE eq_refl ND eq_refl S) as E.
  destruct (C79_rate_curve FloatDates (fun d => d) no_counts float_laws DcDefault ftau A A CSurvival [1; 2] [9 / 10; 8 / 10] (Some 0) 0 None (mkR CSurvival d None None) eq_refl ND eq_refl) as [r [B [_ [_ [_ [_ [_ H]]]]]]]; auto.
  - discriminate.
  - intros _. exists 1. simpl. split; [auto|lra].
  - exists (mkR CSurvival d None None), r. auto.
Qed.

(** a rebuilt curve of default probabilities returns the complement at the given dates *)
Theorem C79_default_probability : forall {D P} (DS : DateSys R D P) (tm : D -> R) (DC : DayCounts R D), DateLaws DS tm ->
  forall count tau, additive (dc_apply count) tau -> additive (dc_apply (dc_kwarg count)) tau ->
  forall k ds ys orig o (tenor : option P) c, is_default k = true ->
  NoDup (map tm ds) -> dom_origin orig ds = Some o -> (exists d, In d ds /\ tm d <> tm o) ->
  rc_new k ds ys None orig count tenor = Ok c ->
  exists r, rc_rebuild c = Ok r /\ rc_domain r = ds /\
    forall d, In d ds -> exists v, rc_call c d = Ok v /\ 0 < v < 1 /\ rc_call r d = Ok (1 - v).
Proof.
  intros D P DS tm DC L count tau A A' k ds ys orig o tenor c K ND HO NO E.
  assert (PK : is_probability k = true) by (destruct k; auto; discriminate).
  unfold rc_new in E. rewrite prepare_ok in E by auto. cbn [bind] in E.
  set (zs := survival_data k ys) in *.
  destruct (dc_new (cls_interp k) ds zs None orig count) as [d|] eqn:Ed; [|discriminate]. cbn [bind] in E. inversion E; subst c.
  assert (HL : length ds = length zs).
  { unfold dc_new in Ed. destruct (length ds =? length zs)%nat eqn:Q; [now apply PeanoNat.Nat.eqb_eq|discriminate]. }
  pose proof (proj1 (dstate_iff (L:=L) count tau A (cls_interp k) ds zs None orig o d HL ND HO) Ed) as S.
  pose proof fmin_pos as FP.
  assert (RZ : forall z, In z zs -> fmin <= z <= 1 - fmin) by (intros z; apply survival_data_range).
  assert (AD : forall us, length ds = length us -> (forall z, In z us -> fmin <= z <= 1 - fmin) ->
           admissible (dc_spec (cls_interp k) None) (times tau o ds us)).
  { intros us HU RU. apply adm_admissible. cbn [dc_spec]. apply (cls_adm (L:=L) count tau A); auto.
    intros _ z I. specialize (RU z I). lra. }
  pose proof (rc_rebuild_form (tm:=tm) count tau A k None orig o ds zs d tenor S (AD zs HL RZ)) as RB.
  set (us := survival_data k zs).
  assert (HU : length ds = length us) by (unfold us; rewrite survival_data_length; exact HL).
  assert (RU : forall z, In z us -> fmin <= z <= 1 - fmin) by (intros z; apply survival_data_range).
  destruct (dstate_exists (tm:=tm) (dc_kwarg count) tau (cls_interp k) None orig o ds us HU ND HO (AD us HU RU)) as [d' S'].
  assert (PR : prepare_data k zs = Ok us) by now apply prepare_ok.
  cbn [interp_kwarg] in RB. rewrite (rc_new_state (L:=L) (dc_kwarg count) tau A' k ds zs us None orig o tenor d' PR HU ND HO S') in RB.
  exists (mkR k d' tenor None). split; auto.
  split; [destruct S' as [_ [_ [_ [g [_ ->]]]]]; reflexivity|].
  intros x Ix.
  assert (exists z, In (x, z) (combine ds zs)) as [z Iz].
  { clear -HL Ix. revert Ix. revert HL. generalize zs as qs. clear. induction ds as [|a ds IH]; intros [|z qs] HL Ix; simpl in *; try discriminate; [destruct Ix|].
    destruct Ix as [->|Ix]; eauto. destruct (IH qs) as [w Iw]; [lia|auto|eauto]. }
  assert (RGz : fmin <= z <= 1 - fmin) by (apply RZ; eapply in_combine_r; eauto).
  exists z. split; [|split].
  - rewrite rc_call_plain. apply dc_val_some. eapply (dstate_data (tm:=tm) count tau A); [exact S|now apply AD|now apply in_times].
  - lra.
  - rewrite rc_call_plain. apply dc_val_some. eapply (dstate_data (tm:=tm) (dc_kwarg count) tau A'); [exact S'|now apply AD|].
    apply in_times. replace (1 - z) with (clamp (T:=R) (if is_default k then 1 - z else z)).
    + now apply survival_data_in.
    + rewrite K. apply clamp_id. lra.
Qed.
Print Assumptions C79_default_probability.
Theorem C79_default_probability_refuted : exists (c r : rcurve R R (fperiod R)),
  rc_new (DS:=FloatDates) CDefault [1; 2] [1 / 10; 2 / 10] None (Some 0) DcDefault None = Ok c /\
  rc_rebuild (DS:=FloatDates) c = Ok r /\ rc_call (DS:=FloatDates) c 1 = Ok (9 / 10) /\ rc_call (DS:=FloatDates) r 1 = Ok (1 / 10).
Proof.
  pose proof (float_additive (DC:=no_counts)) as A.
  assert (ND : NoDup (map (fun d : R => d) [1; 2])) by (repeat constructor; simpl; intuition lra).
  set (zs := survival_data CDefault [1 / 10; 2 / 10]).
  assert (PE : prepare_data CDefault [1 / 10; 2 / 10] = Ok zs) by now apply prepare_ok.
  assert (AD : admissible (dc_spec (cls_interp CDefault) None) (times ftau 0 [1; 2] zs)).
  { apply (rate_adm (L:=float_laws) DcDefault ftau A); auto.
    - intros y I. apply survival_data_range in I. pose proof fmin_pos. lra.
    - exists 1. simpl. split; [auto|lra]. }
  destruct (dstate_exists (tm:=fun d : R => d) DcDefault ftau (cls_interp CDefault) None (Some 0) 0 [1; 2] zs eq_refl ND eq_refl AD) as [d S].
  pose proof (rc_new_state (L:=float_laws) DcDefault ftau A CDefault [1; 2] [1 / 10; 2 / 10] zs None (Some 0) 0 (@None (fperiod R)) d PE eq_refl ND eq_refl S) as E.
  destruct (C79_default_probability FloatDates (fun d => d) no_counts float_laws DcDefault ftau A A CDefault [1; 2] [1 / 10; 2 / 10] (Some 0) 0 None (mkR CDefault d None None) eq_refl ND eq_refl) as [r [B [_ H]]]; auto.
  - exists 1. simpl. split; [auto|lra].
  - exists (mkR CDefault d None None), r. split; auto. split; auto.
    assert (V : rc_call (DS:=FloatDates) (mkR CDefault d (@None (fperiod R)) None) 1 = Ok (9 / 10)).
    { rewrite rc_call_plain. apply dc_val_some.
      eapply (dstate_data (tm:=fun d : R => d) DcDefault ftau A); [exact S|exact AD|]. apply (in_times ftau 0 [1; 2] zs 1 (9 / 10)). left. f_equal.
      cbn [is_default]. pose proof fmin_small. rewrite clamp_id by lra. lra. }
    split; auto. destruct (H 1) as [v [Ev [_ Rv]]]; [simpl; auto|]. rewrite V in Ev. inversion Ev; subst v.
    rewrite Rv. f_equal. lra.
Qed.
Print Assumptions C79_default_probability_refuted.

(** * FxForwardCurve *)
(** rebuilt prices agree up to the last date; after it there are none: the domestic and the
    foreign curve are lost, so every price after the last date raises AttributeError *)
Theorem C79_fx_curve_refuted : forall {D P} (DS : DateSys R D P) (tm : D -> R) (DC : DayCounts R D),
  DateLaws DS tm ->
  forall fuel (count : dcspec R D) tau, additive (dc_apply count) tau -> additive (dc_apply (dc_kwarg count)) tau ->
  forall ds0 l ys0 p orig (dom for_ : rcurve R D P),
  length ds0 = length ys0 -> increasing (map tm (ds0 ++ [l])) ->
  (forall y, In y (ys0 ++ [p]) -> 0 < y) ->
  exists f r, fx_new (ds0 ++ [l]) (ys0 ++ [p]) None orig count dom for_ = Ok f /\ fx_rebuild fuel f = Ok r /\
    (forall d, tm d <= tm l -> exists y, fx_price fuel f d = Ok y /\ fx_rebuilt_price r d = Ok y) /\
    (forall d, tm l < tm d -> fx_rebuilt_price r d = Err AttributeError).
Proof.
  intros D P DS tm DC L fuel count tau A A' ds0 l ys0 p orig dom for_ HL INC PO.
  destruct (C79_forward_curve DS tm DC L count tau A A' ds0 l ys0 p orig (YFloat 0) HL INC PO) as (f & r & E & B & SAME & _).
  destruct (C34_forward DS tm DC L count tau A ds0 l ys0 p orig (YFloat 0) HL INC PO) as [f2 [E2 [V1 [V2 _]]]].
  rewrite E in E2. injection E2 as <-.
  assert (FC : forall f i o' ct yc ys', fc_new (ds0 ++ [l]) ys' i o' ct yc = Ok f -> dc_domain (fc_dc f) = ds0 ++ [l]).
  { clear. intros f i o' ct yc ys' E. unfold fc_new, dc_new in E. destruct (negb _); [discriminate|]. unfold dc_update in E. destruct (mapM _ _); [|discriminate].
    cbn [bind] in E. destruct (update_fn _ _ _); [|discriminate]. cbn [bind] in E. inversion E; subst f. reflexivity. }
  pose proof (FC _ _ _ _ _ _ E) as DF.
  assert (LR : last_res (ds0 ++ [l]) = Ok l).
  { clear. induction ds0 as [|a ds IH]; [reflexivity|]. cbn [app last_res]. destruct (ds ++ [l]) eqn:Q; [destruct ds; discriminate|]. exact IH. }
  assert (PR : forall d, tm d <= tm l -> fx_price fuel (mkFx f dom for_) d = fc_price f d).
  { intros d Hd. unfold fx_price. cbn [fx_fc]. rewrite DF, LR. cbn [bind]. now rewrite (leb_t (L:=L) d l Hd). }
  assert (IN : forall d, In d (ds0 ++ [l]) -> tm d <= tm l).
  { clear -INC. induction ds0 as [|a ds IH]; intros d I.
    - destruct I as [<- |[]]. lra.
    - cbn [app map] in INC. inversion INC as [|? ? INC' FA]; subst. destruct I as [<- |I]; [|now apply IH].
      left. rewrite Forall_forall in FA. apply FA. apply in_map. apply in_or_app. right. now left. }
  assert (DR : dc_domain (fc_dc r) = ds0 ++ [l]).
  { unfold fc_rebuild in B. rewrite DF in B. destruct (mapM (fc_price f) _); [|discriminate]. cbn [bind] in B. eapply FC; eauto. }
  exists (mkFx f dom for_), r. split; [unfold fx_new; cbn [n0 Rnum] in *; rewrite E; reflexivity|]. split.
  { rewrite <- B. unfold fx_rebuild, fc_rebuild. cbn [fx_fc]. f_equal. rewrite DF. clear -PR IN. induction (ds0 ++ [l]) as [|d ds IH]; auto. cbn [mapM].
    rewrite PR by (apply IN; now left). rewrite IH by (intros; apply IN; now right). reflexivity. }
  split.
  - intros d Hd. destruct (V2 d Hd) as (y & Ey & _). exists y. rewrite PR by auto. split; auto. unfold fx_rebuilt_price. rewrite DR, LR. cbn [bind].
    rewrite (leb_t (L:=L) d l Hd). now rewrite SAME.
  - intros d Hd. unfold fx_rebuilt_price. rewrite DR, LR. cbn [bind]. destruct (d_leb d l) eqn:Q.
    + apply (leb_inv (L:=L)) in Q. lra.
    + destruct (V2 l (Rle_refl _)) as (y & Ey & _). rewrite SAME, Ey by lra. reflexivity.
Qed.
Print Assumptions C79_fx_curve_refuted.
