(** Lemmas about DateCurve and ForwardCurve. *)
From Coq Require Import Reals Lra Lia List Bool Sorted Permutation.
From Verif Require Import Num Py Spec SInterpolation SCurve SDates LBase LSort MInterpolation LInterpolation
  LInterpolation2 MDates MCurve LDates LCurve LCurve2.
Import ListNotations.
Open Scope R_scope.

Lemma pl_shift ps x y d : piecewise_linear ps x y ->
  piecewise_linear (map (fun p => (fst p + d, snd p)) ps) (x + d) y.
Proof.
  set (qs := map (fun p => (fst p + d, snd p)) ps).
  assert (I1 : forall a z, In (a, z) ps -> In (a + d, z) qs).
  { intros a z I. apply in_map_iff. exists (a, z). auto. }
  assert (I2 : forall a z, In (a, z) qs -> exists b, a = b + d /\ In (b, z) ps).
  { intros a z I. apply in_map_iff in I. destruct I as [[b w] [E I]]. simpl in E. inversion E; subst. eauto. }
  intros [[a [ya [b [yb [[Ia [Ib [Lab C]]] [Hx ->]]]]]]|[[a [Ia [F Hx]]]|[b [Ib [F Hx]]]]].
  - left. exists (a + d), ya, (b + d), yb. split; [|split].
    + split; auto. split; auto. split; [lra|]. intros c z Ic. destruct (I2 _ _ Ic) as [e [-> Ie]].
      destruct (C _ _ Ie); lra.
    + lra.
    + unfold chord. replace (x + d - (a + d)) with (x - a) by lra. replace (b + d - (a + d)) with (b - a) by lra. reflexivity.
  - right; left. exists (a + d). split; auto. split; [|lra].
    intros c z Ic. destruct (I2 _ _ Ic) as [e [-> Ie]]. specialize (F _ _ Ie). lra.
  - right; right. exists (b + d). split; auto. split; [|lra].
    intros c z Ic. destruct (I2 _ _ Ic) as [e [-> Ie]]. specialize (F _ _ Ie). lra.
Qed.

Lemma combine_map_l {A B} (g : A -> B) (xs : list A) (ys : list R) :
  combine (map g xs) ys = map (fun p => (g (fst p), snd p)) (combine xs ys).
Proof. revert ys; induction xs; intros [|y ys]; simpl; auto. now rewrite IHxs. Qed.

Lemma last_app_single {A} (l : list A) x d : last (l ++ [x]) d = x.
Proof. induction l as [|a l IH]; auto. simpl. destruct (l ++ [x]) eqn:E; [destruct l; discriminate|auto]. Qed.

Section DateCurve.
  Context {D P : Type} {DS : DateSys R D P} {tm : D -> R} {L : DateLaws DS tm} {DC : DayCounts R D}.
  Variables (count : dcspec R D) (tau : D -> D -> R).
  Hypothesis (A : additive (dc_apply count) tau).

  Lemma tau_tm o a b : tau o a = tau o b <-> tm a = tm b.
  Proof.
    rewrite <- law_eqb, <- (add_zero _ _ A). rewrite (tau_diff A o a b). split; lra.
  Qed.

  Lemma times_nodup o ds : NoDup (map tm ds) -> NoDup (map (tau o) ds).
  Proof.
    induction ds as [|d ds IH]; simpl; intro H; constructor; inversion H; subst; auto.
    intro I. apply H2. apply in_map_iff in I. destruct I as [e [E I]]. apply in_map_iff.
    exists e. split; auto. now apply (tau_tm o).
  Qed.

  Lemma get_tm o ds ys d : pairs_get (combine (map (tau o) ds) ys) (tau o d) = pairs_get (combine (map tm ds) ys) (tm d).
  Proof.
    revert ys; induction ds as [|a ds IH]; intros [|y ys]; simpl; auto.
    destruct (Req_EM_T (tau o a) (tau o d)) as [E|E], (Req_EM_T (tm a) (tm d)) as [F|F]; auto.
    - apply tau_tm in E. contradiction.
    - apply (tau_tm o) in F. contradiction.
  Qed.

  (** the shape of a curve made from data *)
  Definition dstate (dflt : ispec) (i : option ispec) (orig : option D) (o : D) (ds : list D) (ys : list R)
             (c : dcurve R D) : Prop :=
    length ds = length ys /\ NoDup (map tm ds) /\ dom_origin orig ds = Some o /\
    exists f, fn_new (dc_spec dflt i) (map (tau o) ds) ys = Ok f /\ c = mkD dflt i f ds orig count [].

  Lemma dc_time_ok c o d : dc_count c = count -> dc_origin c = Some o -> dc_time c d = Ok (tau o d).
  Proof. intros H H'. unfold dc_time. rewrite H'. unfold dc_yf. rewrite H. apply (add_val _ _ A). Qed.

  Lemma dc_update_form c o domain data : dc_count c = count -> dc_origin c = Some o ->
    length domain = length data -> NoDup (map tm domain) ->
    dc_update c domain data =
    (f <- fn_new (dc_spec (dc_dflt c) (dc_interp c)) (map (tau o) domain) data ;;
     Ok (mkD (dc_dflt c) (dc_interp c) f domain (dc_origin0 c) count (dc_fix c))).
  Proof.
    intros HC HO HL ND. unfold dc_update. rewrite (mapM_ok _ (tau o)).
    2:{ intros d _. now apply dc_time_ok. }
    cbn [bind]. rewrite update_fn_ok by (rewrite ?map_length; auto using times_nodup).
    rewrite HC. destruct (fn_new _ _ _); reflexivity.
  Qed.

  Lemma dc_new_form dflt ds ys i orig o : length ds = length ys -> NoDup (map tm ds) ->
    dom_origin orig ds = Some o ->
    dc_new dflt ds ys i orig count =
    (f <- fn_new (dc_spec dflt i) (map (tau o) ds) ys ;; Ok (mkD dflt i f ds orig count [])).
  Proof.
    intros HL ND HO. unfold dc_new. rewrite HL, Nat.eqb_refl. cbn [negb].
    now rewrite (dc_update_form _ o).
  Qed.

  Lemma dstate_iff dflt ds ys i orig o c : length ds = length ys -> NoDup (map tm ds) ->
    dom_origin orig ds = Some o ->
    dc_new dflt ds ys i orig count = Ok c <-> dstate dflt i orig o ds ys c.
  Proof.
    intros HL ND HO. rewrite (dc_new_form dflt ds ys i orig o) by auto. split.
    - destruct (fn_new _ _ _) eqn:E; [|discriminate]. cbn. intro H. inversion H; subst.
      repeat split; auto. exists a. auto.
    - intros [_ [_ [_ [f [-> ->]]]]]. reflexivity.
  Qed.

  Definition times (o : D) (ds : list D) (ys : list R) : points := combine (map (tau o) ds) ys.

  Lemma dstate_exists dflt i orig o ds ys : length ds = length ys -> NoDup (map tm ds) ->
    dom_origin orig ds = Some o -> admissible (dc_spec dflt i) (times o ds ys) ->
    exists c, dstate dflt i orig o ds ys c.
  Proof.
    intros HL ND HO AD. destruct (fn_reproduces (dc_spec dflt i) (map (tau o) ds) ys) as [f [E R]]; auto.
    { now rewrite map_length. }
    eexists. repeat split; eauto.
  Qed.

  Lemma dstate_origin dflt i orig o ds ys c : dstate dflt i orig o ds ys c ->
    dc_origin c = Some o /\ dc_count c = count /\ dc_domain c = ds /\ dc_fix c = [].
  Proof. intros [_ [_ [HO [f [_ ->]]]]]. auto. Qed.

  (** evaluation is interpolation at the year fraction from origin *)
  Lemma dstate_call dflt i orig o ds ys c d : dstate dflt i orig o ds ys c ->
    exists f, fn_new (dc_spec dflt i) (map (tau o) ds) ys = Ok f /\ dc_call c d = fn_call f (tau o d).
  Proof.
    intros S. destruct (dstate_origin _ _ _ _ _ _ _ S) as [HO [HC _]].
    destruct S as [_ [_ [_ [f [E ->]]]]]. exists f. split; auto.
    unfold dc_call. cbn [dc_fix assoc]. rewrite (dc_time_ok _ o) by auto. reflexivity.
  Qed.

  Lemma dstate_data dflt i orig o ds ys c d y : dstate dflt i orig o ds ys c ->
    admissible (dc_spec dflt i) (times o ds ys) ->
    In (tau o d, y) (times o ds ys) -> dc_call c d = Ok (Some y).
  Proof.
    intros S AD I. pose proof (proj1 S) as HL. destruct (dstate_call _ _ _ _ _ _ _ d S) as [f [E ->]].
    destruct (fn_reproduces (dc_spec dflt i) (map (tau o) ds) ys) as [f' [E' R]]; auto.
    { now rewrite map_length. }
    rewrite E in E'. inversion E'; subst. auto.
  Qed.
  Lemma in_times o ds ys d y : In (d, y) (combine ds ys) -> In (tau o d, y) (times o ds ys).
  Proof. intro I. unfold times. rewrite combine_map_l. apply in_map_iff. exists (d, y). auto. Qed.

  Lemma mem_dates ds d : mem d_eqb d ds = true <-> In (tm d) (map tm ds).
  Proof.
    unfold mem. rewrite existsb_exists, in_map_iff. split; intros [e [H1 H2]]; exists e.
    - apply law_eqb in H2. auto.
    - split; auto. now apply law_eqb.
  Qed.

  Lemma dstate_getitem dflt i orig o ds ys c d : dstate dflt i orig o ds ys c ->
    admissible (dc_spec dflt i) (times o ds ys) ->
    dc_getitem c d = match pairs_get (combine (map tm ds) ys) (tm d) with
                     | Some y => Ok (Some y) | None => Err KeyError end.
  Proof.
    intros S AD. unfold dc_getitem. destruct (dstate_origin _ _ _ _ _ _ _ S) as [_ [_ [-> _]]].
    pose proof (proj1 S) as HL.
    destruct (pairs_get (combine (map tm ds) ys) (tm d)) as [y|] eqn:E.
    - replace (mem d_eqb d ds) with true.
      + rewrite <- (get_tm o) in E. apply pairs_get_some in E. eapply dstate_data; eauto.
      + symmetry. apply mem_dates. apply pairs_get_some in E. eapply in_combine_l; eauto.
    - replace (mem d_eqb d ds) with false; auto. symmetry. apply not_true_is_false. rewrite mem_dates.
      apply pairs_get_none in E. rewrite map_fst_combine in E by now rewrite map_length. auto.
  Qed.

  (** item assignment *)
  Lemma index_dates d ds : match index_of d_eqb d ds with
    | Some j => exists e, nth_error ds j = Some e /\ tm e = tm d
    | None => ~ In (tm d) (map tm ds) end.
  Proof.
    induction ds as [|a ds IH]; simpl; auto.
    destruct (d_eqb a d) eqn:E; dbool.
    - exists a. auto.
    - destruct (index_of d_eqb d ds); simpl; auto. intros [H|H]; auto.
  Qed.

  Lemma dc_val_data dflt i orig o ds ys c : dstate dflt i orig o ds ys c ->
    admissible (dc_spec dflt i) (times o ds ys) -> mapM (dc_val c) ds = Ok ys.
  Proof.
    intros S AD. apply mapM_combine; [apply S|]. intros d y I. unfold dc_val.
    rewrite (dstate_data _ _ _ _ _ _ _ d y S AD); auto. now apply in_times.
  Qed.

  Definition d_upd (ds : list D) (ys : list R) (k : D) (v : R) : list D * list R :=
    match index_of d_eqb k ds with
    | Some j => (ds, set_nth j v ys)
    | None => (ds ++ [k], ys ++ [v])
    end.

  Lemma d_upd_len ds ys k v : length ds = length ys -> length (fst (d_upd ds ys k v)) = length (snd (d_upd ds ys k v)).
  Proof.
    unfold d_upd. destruct (index_of d_eqb k ds); simpl; rewrite ?set_nth_length, ?app_length; simpl; lia.
  Qed.
  Lemma d_upd_nodup ds ys k v : NoDup (map tm ds) -> NoDup (map tm (fst (d_upd ds ys k v))).
  Proof.
    unfold d_upd. pose proof (index_dates k ds) as H. destruct (index_of d_eqb k ds); simpl; auto.
    intro ND. rewrite map_app. eapply Permutation_NoDup; [apply Permutation_cons_append|]. constructor; auto.
  Qed.
  (** the points after the update, at the times given by any injective time function *)
  Lemma d_upd_points (g : D -> R) ds ys k v : (forall a b, g a = g b <-> tm a = tm b) ->
    length ds = length ys -> NoDup (map g ds) ->
    Permutation (combine (map g (fst (d_upd ds ys k v))) (snd (d_upd ds ys k v)))
                (upd (combine (map g ds) ys) (g k) v).
  Proof.
    intros G HL ND. assert (HL' : length (map g ds) = length ys) by now rewrite map_length.
    assert (NDt : NoDup (map tm ds)).
    { clear -ND G. induction ds as [|d ds IH]; simpl in *; constructor; inversion ND; subst; auto.
      intro I. apply H1. apply in_map_iff in I. destruct I as [e [E I]]. apply in_map_iff.
      exists e. split; auto. now apply G. }
    apply perm_of_mem.
    - unfold distinct. rewrite map_fst_combine.
      2:{ rewrite map_length. now apply d_upd_len. }
      pose proof (d_upd_nodup ds ys k v NDt) as H. clear -H G. revert H.
      generalize (fst (d_upd ds ys k v)). intro l. induction l as [|d l IH]; simpl; intro H; constructor; inversion H; subst; auto.
      intro I. apply H2. apply in_map_iff in I. destruct I as [e [E I]]. apply in_map_iff.
      exists e. split; auto. now apply G.
    - apply upd_distinct. unfold distinct. now rewrite map_fst_combine.
    - intros a z. rewrite in_upd. unfold d_upd. pose proof (index_dates k ds) as H.
      destruct (index_of d_eqb k ds) as [j|]; cbn [fst snd].
      + destruct H as [e [He Te]]. apply (in_set_nth j); auto.
        rewrite nth_error_map, He. simpl. f_equal. now apply G.
      + rewrite map_app, combine_app' by auto. rewrite in_app_iff. simpl. split.
        * intros [I|[I|[]]]; [|inversion I; auto]. right. split; auto. intro; subst. apply H.
          apply in_combine_l in I. apply in_map_iff in I. destruct I as [e [E I]]. apply in_map_iff.
          exists e. split; auto. now apply G.
        * intros [[-> ->]|[_ I]]; auto.
  Qed.

  Lemma dom_origin_app orig (ds l : list D) o : dom_origin orig ds = Some o -> dom_origin orig (ds ++ l) = Some o.
  Proof. unfold dom_origin. destruct orig; auto. destruct ds; simpl; [discriminate|auto]. Qed.

  Lemma d_upd_origin orig ds ys k v o : dom_origin orig ds = Some o ->
    dom_origin orig (fst (d_upd ds ys k v)) = Some o.
  Proof.
    intro H. unfold d_upd. destruct (index_of d_eqb k ds); simpl; auto. now apply dom_origin_app.
  Qed.

  Lemma tau_inj o : forall a b, tau o a = tau o b <-> tm a = tm b.
  Proof. exact (tau_tm o). Qed.

  Lemma dc_setitem_form dflt i orig o ds ys c k v : dstate dflt i orig o ds ys c ->
    admissible (dc_spec dflt i) (times o ds ys) ->
    dc_setitem c k v = dc_new dflt (fst (d_upd ds ys k v)) (snd (d_upd ds ys k v)) i orig count.
  Proof.
    intros S AD. unfold dc_setitem, dc_setitem_with.
    destruct (dstate_origin _ _ _ _ _ _ _ S) as [HO [HC [HD HF]]]. rewrite HD.
    rewrite (dc_val_data _ _ _ _ _ _ _ S AD). cbn [bind].
    destruct S as [HL [ND [DO [f [E EC]]]]].
    rewrite (dc_new_form dflt _ _ i orig o);
      [|now apply d_upd_len|now apply d_upd_nodup|now apply d_upd_origin].
    pose proof (d_upd_len ds ys k v HL) as L1. pose proof (d_upd_nodup ds ys k v ND) as N1.
    unfold d_upd in *. destruct (index_of d_eqb k ds); cbn [fst snd] in *;
      rewrite (dc_update_form _ o) by auto; subst c; reflexivity.
  Qed.

  Lemma dc_setitem_points dflt i orig o ds ys c k v : dstate dflt i orig o ds ys c ->
    adm (dc_spec dflt i) (times o ds ys) ->
    ((exists k, In k (spec_kinds (dc_spec dflt i)) /\ log_kind k) -> 0 < v) ->
    exists c', dc_setitem c k v = Ok c' /\
      dstate dflt i orig o (fst (d_upd ds ys k v)) (snd (d_upd ds ys k v)) c' /\
      adm (dc_spec dflt i) (times o (fst (d_upd ds ys k v)) (snd (d_upd ds ys k v))).
  Proof.
    intros S AD PV. pose proof S as [HL [ND [DO _]]].
    assert (PM := d_upd_points (tau o) ds ys k v (tau_inj o) HL (times_nodup o ds ND)).
    assert (A1 : adm (dc_spec dflt i) (times o (fst (d_upd ds ys k v)) (snd (d_upd ds ys k v)))).
    { pose proof (adm_upd _ _ (tau o k) v AD PV) as [HK [H1 [H2 [H3 H4]]]].
      split; auto. split; [eapply distinct_perm; [symmetry; exact PM|exact H1]|]. split; auto. split.
      - intros LK a z I. apply (H3 LK a z). eapply Permutation_in; [exact PM|exact I].
      - destruct H4 as [[a [z [I N]]]|H4]; auto. left. exists a, z. split; auto.
        eapply Permutation_in; [symmetry; exact PM|exact I]. }
    assert (DO1 := d_upd_origin orig ds ys k v o DO).
    destruct (dstate_exists dflt i orig o (fst (d_upd ds ys k v)) (snd (d_upd ds ys k v)))
      as [c' S']; auto using d_upd_len, d_upd_nodup, adm_admissible.
    exists c'. split; auto. rewrite (dc_setitem_form dflt i orig o ds ys) by auto using adm_admissible.
    apply (dstate_iff dflt _ _ i orig o); auto using d_upd_len, d_upd_nodup.
  Qed.

  Definition on_times (hist : list (D * R)) : points := map (fun kv => (tm (fst kv), snd kv)) hist.

  Lemma perm_pairs_get ps qs x : distinct ps -> Permutation ps qs -> pairs_get ps x = pairs_get qs x.
  Proof.
    intros H PM. assert (H' : distinct qs) by (eapply distinct_perm; eauto).
    destruct (pairs_get ps x) as [y|] eqn:E.
    - symmetry. apply pairs_get_in; auto. eapply Permutation_in; eauto. now apply pairs_get_some.
    - symmetry. apply pairs_get_none. apply pairs_get_none in E. intro I. apply E.
      eapply Permutation_in; [symmetry; apply Permutation_map; eauto|auto].
  Qed.

  Lemma dc_history dflt i orig o hist : forall ds ys c, dstate dflt i orig o ds ys c ->
    adm (dc_spec dflt i) (times o ds ys) ->
    ((exists k, In k (spec_kinds (dc_spec dflt i)) /\ log_kind k) -> forall k v, In (k, v) hist -> 0 < v) ->
    exists c' ds' ys', run (fun c kv => dc_setitem c (fst kv) (snd kv)) c hist = Ok c' /\
      dstate dflt i orig o ds' ys' c' /\ adm (dc_spec dflt i) (times o ds' ys') /\
      forall t, pairs_get (combine (map tm ds') ys') t =
                fold_left assign (on_times hist) (pairs_get (combine (map tm ds) ys)) t.
  Proof.
    induction hist as [|[k v] hist IH]; intros ds ys c S AD PV.
    - exists c, ds, ys. simpl. auto.
    - destruct (dc_setitem_points _ _ _ _ _ _ c k v S AD) as [c1 [E [S1 A1]]].
      { intro LK. apply (PV LK k v). simpl; auto. }
      destruct (IH _ _ c1 S1 A1) as [c' [ds' [ys' [E' [S' [A' G]]]]]].
      { intros LK a z I. apply (PV LK a z). simpl; auto. }
      exists c', ds', ys'. cbn [run fst snd]. rewrite E. cbn [bind]. split; auto. split; auto. split; auto.
      intro t. rewrite G. simpl.
      assert (EX : forall h m m', (forall x, m x = m' x) -> forall x, fold_left assign h m x = fold_left assign h m' x).
      { induction h as [|kv h IHh]; intros m m' Hm y; simpl; auto. apply IHh. intro w. unfold assign.
        destruct (Req_EM_T (fst kv) w); auto. }
      apply EX. intro w. rewrite <- pairs_get_upd.
      destruct S as [HL [ND _]]. symmetry. apply perm_pairs_get.
      + apply upd_distinct. unfold distinct. rewrite map_fst_combine by now rewrite map_length. auto.
      + symmetry. apply d_upd_points; auto. tauto.
  Qed.

  (** fixings *)
  Lemma assoc_set_get (l : list (D * R)) k v d :
    assoc d_eqb d (assoc_set d_eqb k v l) = (if Req_EM_T (tm k) (tm d) then Some v else assoc d_eqb d l).
  Proof.
    induction l as [|[a z] l IH]; simpl.
    - destruct (d_eqb k d) eqn:E; dbool; destruct (Req_EM_T (tm k) (tm d)); auto; contradiction.
    - destruct (d_eqb a k) eqn:E; simpl; dbool.
      + destruct (d_eqb a d) eqn:F; dbool; destruct (Req_EM_T (tm k) (tm d)); auto; try congruence.
      + rewrite IH. destruct (d_eqb a d) eqn:F; dbool; destruct (Req_EM_T (tm k) (tm d)); auto; congruence.
  Qed.

  Lemma set_fixings fx : forall c : dcurve R D, forall d,
    let c' := fold_left (fun c dv => dc_set_fixing c (fst dv) (snd dv)) fx c in
    dc_domain c' = dc_domain c /\ dc_origin0 c' = dc_origin0 c /\ dc_count c' = dc_count c /\ dc_fn c' = dc_fn c /\
    assoc d_eqb d (dc_fix c') = fold_left assign (on_times fx) (fun _ => assoc d_eqb d (dc_fix c)) (tm d).
  Proof.
    induction fx as [|[k v] fx IH]; intros c d c'; [simpl; auto|].
    subst c'. cbn [fold_left fst snd]. destruct (IH (dc_set_fixing c k v) d) as [H1 [H2 [H3 [H4 H5]]]].
    rewrite H1, H2, H3, H4, H5. repeat split; auto. cbn [dc_fix dc_set_fixing on_times map fold_left fst snd].
    assert (EX : forall h m m' x, m x = m' x -> fold_left assign h m x = fold_left assign h m' x).
    { induction h as [|kv h IHh]; intros m m' x Hm; simpl; auto. apply IHh. unfold assign.
      destruct (Req_EM_T (fst kv) x); auto. }
    apply EX. rewrite assoc_set_get. unfold assign. simpl. reflexivity.
  Qed.

  Lemma fixings_call fx (c : dcurve R D) d :
    let c' := fold_left (fun c dv => dc_set_fixing c (fst dv) (snd dv)) fx c in
    dc_fix c = [] ->
    dc_call c' d = match fold_left assign (on_times fx) (fun _ => None) (tm d) with
                   | Some v => Ok (Some v) | None => dc_call c d end.
  Proof.
    intros c' F. destruct (set_fixings fx c d) as [H1 [H2 [H3 [H4 H5]]]]. fold c' in H1, H2, H3, H4, H5.
    rewrite F in H5. cbn [assoc] in H5. unfold dc_call. rewrite H5, F. cbn [assoc].
    destruct (fold_left assign (on_times fx) (fun _ => None) (tm d)); auto.
    unfold dc_time, dc_origin, dc_yf. now rewrite H1, H2, H3, H4.
  Qed.

  (** linear interpolation does not depend on the origin *)
  Lemma dstate_linear orig o ds ys c d (h : D -> R) : (forall a b, tau a b = h b - h a) -> ds <> [] ->
    dstate linear_scheme None orig o ds ys c ->
    exists y, dc_call c d = Ok (Some y) /\ piecewise_linear (combine (map h ds) ys) (h d) y.
  Proof.
    intros Hh NE S. pose proof S as [HL [ND _]].
    destruct (dstate_call _ _ _ _ _ _ _ d S) as [f [E ->]]. change (dc_spec linear_scheme None) with linear_scheme in E.
    destruct (scheme_pl (map (tau o) ds) ys) as [f' [E' H]]; auto using times_nodup.
    { now rewrite map_length. } { destruct ds; simpl; congruence. }
    rewrite E in E'. inversion E'; subst f'. destruct (H (tau o d)) as [y [Hy PL]]. exists y. split; auto.
    apply (pl_shift _ _ _ (h o)) in PL. rewrite <- (combine_map_l (fun x => x + h o)), map_map in PL.
    replace (tau o d + h o) with (h d) in PL by (rewrite Hh; lra).
    replace (map h ds) with (map (fun x => tau o x + h o) ds); auto.
    apply map_ext. intro. rewrite Hh. lra.
  Qed.

  (** * ForwardCurve *)
  Lemma log_adm ps : distinct ps -> positive ps -> admissible log_linear_scheme ps.
  Proof.
    intros H H'. split; [intros n; discriminate|]. split; auto. split; [|split; auto].
    - simpl. unfold two_args. intuition congruence.
    - intros k Ik Rk. apply rate_kind_b in Rk. simpl in Ik. exfalso. intuition; subst; discriminate.
  Qed.
  Lemma times_distinct o ds ys : length ds = length ys -> NoDup (map tm ds) -> distinct (times o ds ys).
  Proof. intros H ND. unfold distinct, times. rewrite map_fst_combine by now rewrite map_length. now apply times_nodup. Qed.
  Lemma times_positive o ds ys : length ds = length ys -> (forall y, In y ys -> 0 < y) -> positive (times o ds ys).
  Proof. intros H H' x y I. apply H'. eapply in_combine_r; eauto. Qed.

  Lemma pl_transform_shift g (k : R -> R -> R) ps x y d : (forall a z, k (a + d) z = k a z) ->
    g = k -> piecewise_linear (transform g ps) x y ->
    piecewise_linear (transform g (map (fun p => (fst p + d, snd p)) ps)) (x + d) y.
  Proof.
    intros Hk -> H. apply (pl_shift _ _ _ d) in H. unfold transform in *. rewrite map_map in *. simpl in *.
    replace (map (fun x0 => (fst x0 + d, k (fst x0 + d) (snd x0))) ps) with
            (map (fun x0 => (fst x0 + d, k (fst x0) (snd x0))) ps); auto.
    apply map_ext. intros [a z]. simpl. now rewrite Hk.
  Qed.

  Lemma dstate_log i orig o ds ys c d (h : D -> R) : (forall a b, tau a b = h b - h a) -> ds <> [] ->
    (forall y, In y ys -> 0 < y) -> (i = None \/ i = Some log_linear_scheme) ->
    dstate log_linear_scheme i orig o ds ys c ->
    exists v, dc_call c d = Ok (Some v) /\ 0 < v /\
      piecewise_linear (combine (map h ds) (map ln ys)) (h d) (ln v).
  Proof.
    intros Hh NE PO HI S. pose proof S as [HL [ND _]].
    destruct (dstate_call _ _ _ _ _ _ _ d S) as [f [E ->]].
    replace (dc_spec log_linear_scheme i) with log_linear_scheme in E by (destruct HI; subst; auto).
    destruct (log_scheme_pl (map (tau o) ds) ys) as [f' [E' H]]; auto using times_nodup.
    { now rewrite map_length. } { destruct ds; simpl; congruence. }
    rewrite E in E'. inversion E'; subst f'. destruct (H (tau o d)) as [v [Hv [Pv PL]]]. exists v.
    split; auto. split; auto.
    apply (pl_transform_shift (fun _ y => ln y) (fun _ y => ln y) _ _ _ (h o)) in PL; auto.
    replace (tau o d + h o) with (h d) in PL by (rewrite Hh; lra).
    rewrite <- (combine_map_l (fun x => x + h o)), map_map in PL.
    replace (map (fun x => tau o x + h o) ds) with (map h ds) in PL.
    2:{ apply map_ext. intro. rewrite Hh. lra. }
    unfold transform in PL.
    replace (combine (map h ds) (map ln ys)) with
      (map (fun p => (fst p, ln (snd p))) (combine (map h ds) ys)); auto.
    clear. revert ys. induction ds; intros [|y ys]; simpl; auto. now rewrite IHds.
  Qed.

  Lemma forward_ok ds0 l ys0 p orig o yc :
    let ds := ds0 ++ [l] in let ys := ys0 ++ [p] in
    length ds0 = length ys0 -> NoDup (map tm ds) -> dom_origin orig ds = Some o ->
    (forall y, In y ys -> 0 < y) ->
    exists c, fc_new ds ys None orig count yc = Ok (mkF c yc) /\
      dstate log_linear_scheme None orig o ds ys c /\
      (forall d v, tm d <= tm l -> dc_call c d = Ok (Some v) -> fc_price (mkF c yc) d = Ok v) /\
      (forall d, tm l < tm d -> fc_price (mkF c yc) d =
         (df <- match yc with
                | YNone => Ok 1
                | YFloat y => Ok (exp (- y * tau l d))
                | YCurve f => f l d
                | YFun f => a <- f d ;; b <- f l ;; ndiv a b
                end ;; ndiv p df)).
  Proof.
    intros ds ys HL0 ND HO PO.
    assert (HL : length ds = length ys) by (unfold ds, ys; rewrite !app_length; simpl; lia).
    assert (AD : admissible (dc_spec log_linear_scheme None) (times o ds ys)).
    { apply log_adm; auto using times_distinct, times_positive. }
    destruct (dstate_exists log_linear_scheme None orig o ds ys) as [c S]; auto.
    exists c. split.
    { unfold fc_new. rewrite (proj2 (dstate_iff log_linear_scheme ds ys None orig o c HL ND HO) S). reflexivity. }
    split; auto.
    destruct (dstate_origin _ _ _ _ _ _ _ S) as [O1 [O2 [O3 O4]]].
    assert (LR : last_res (dc_domain (fc_dc (mkF c yc))) = Ok l).
    { cbn [fc_dc]. rewrite O3. rewrite (last_res_ok _ l) by (unfold ds; destruct ds0; discriminate).
      unfold ds. now rewrite last_app_single. }
    split.
    - intros d v Hd Hv. unfold fc_price. rewrite LR. cbn [bind]. rewrite (leb_t d l Hd). cbn [fc_dc].
      unfold dc_val. now rewrite Hv.
    - intros d Hd. unfold fc_price. rewrite LR. cbn [bind]. rewrite (leb_f d l Hd). cbn [fc_dc].
      unfold dc_val. rewrite (dstate_data _ _ _ _ _ _ _ l p S AD).
      2:{ apply in_times. unfold ds, ys. rewrite combine_app' by auto. apply in_app_iff. simpl; auto. }
      cbn [bind some_float]. unfold fc_df. cbn [fc_yield fc_dc]. destruct yc; auto.
      rewrite O1. rewrite !(dc_time_ok _ o) by auto. rn. rewrite Rdivp_ok.
      + cbn [bind]. do 2 f_equal. unfold Rdiv. rewrite <- exp_Ropp, <- exp_plus. f_equal.
        rewrite (tau_diff A o l d). lra.
      + pose proof (exp_pos (- tau o l * y)). lra.
  Qed.
End DateCurve.

(** * copying a DateCurve over float dates *)
Section Copy.
  Context {DC : DayCounts R R}.
  Let ftau : R -> R -> R := fun a b => b - a.
  Lemma float_additive : additive (DS:=FloatDates) (dc_apply DcDefault) ftau.
  Proof. exact (default_additive (L:=float_laws)). Qed.

  Lemma copy_form orig o (ds ys : list R) c : dstate (tm:=fun d : R => d) DcDefault ftau linear_scheme None orig o ds ys c ->
    ds <> [] ->
    exists f, dc_copy (DS:=FloatDates) (fun x => Ok x) c None None DcDefault =
        Ok (mkD linear_scheme None f (map (fun d => d - o) ds) None DcDefault []) /\
      fn_new linear_scheme (map (fun d => (d - o) - hd 0 ds) ds) ys = Ok f.
  Proof.
    intros S NE. pose proof S as [HL [ND [HO _]]].
    destruct (dstate_origin (tm:=fun d : R => d) _ _ _ _ _ _ _ _ _ S) as [O1 [O2 [O3 O4]]].
    assert (AD : admissible (dc_spec linear_scheme None) (times ftau o ds ys)).
    { apply adm_linear. apply (times_distinct (L:=float_laws) DcDefault ftau float_additive); auto. }
    unfold dc_copy. rewrite O3.
    rewrite (mapM_combine (dc_call c) ds (map Some ys)).
    2:{ now rewrite map_length. }
    2:{ intros a z I. assert (exists y, z = Some y /\ In (a, y) (combine ds ys)) as [y [-> Iy]].
        { clear -I. revert ys I. induction ds; intros [|y ys] I; simpl in *; try contradiction.
          destruct I as [I|I]; [inversion I; subst; eauto|]. destruct (IHds _ I) as [w [-> Iw]]. eauto. }
        apply (dstate_data (tm:=fun d : R => d) DcDefault ftau float_additive _ _ _ _ _ _ _ a y S AD). now apply in_times. }
    cbn [bind]. rewrite (dc_val_data (tm:=fun d : R => d) DcDefault ftau float_additive _ _ _ _ _ _ _ S AD).
    cbn [bind]. rewrite (mapM_ok (dc_time c) (ftau o)).
    2:{ intros d _. now apply (dc_time_ok DcDefault ftau float_additive). }
    cbn [bind]. rewrite (mapM_ok (fun x => Ok x) (fun x => x)) by auto. cbn [bind]. rewrite map_id.
    assert (NDT : NoDup (map (ftau o) ds)).
    { apply (times_nodup (L:=float_laws) DcDefault ftau float_additive). auto. }
    rewrite (dc_update_form (L:=float_laws) DcDefault ftau float_additive _ (hd 0 ds)).
    - cbn [dc_dflt dc_interp dc_origin0 dc_fix].
      replace (interp_or None (dc_interp c)) with (@None ispec).
      2:{ destruct S as [_ [_ [_ [f [_ ->]]]]]. reflexivity. }
      change (dc_spec linear_scheme None) with linear_scheme.
      destruct (scheme_pl (map (ftau (hd 0 ds)) (map (ftau o) ds)) ys) as [f [E _]].
      + now rewrite !map_length.
      + apply (times_nodup (L:=float_laws) DcDefault ftau float_additive). now rewrite map_id.
      + destruct ds; simpl; congruence.
      + exists f. rewrite E. cbn [bind]. split; auto. rewrite map_map in E. exact E.
    - reflexivity.
    - unfold dc_origin, dom_origin. simpl. destruct ds; [congruence|reflexivity].
    - now rewrite map_length.
    - now rewrite map_id.
  Qed.

  Lemma copy_call f dom (d : R) : dom <> [] ->
    dc_call (DS:=FloatDates) (mkD linear_scheme None f dom None DcDefault []) d = fn_call f (d - hd 0 dom).
  Proof.
    intro NE. unfold dc_call. cbn [dc_fix assoc]. rewrite (dc_time_ok DcDefault ftau float_additive _ (hd 0 dom)); auto.
    unfold dc_origin, dom_origin. simpl. destruct dom; [congruence|reflexivity].
  Qed.

  Lemma copy_moves orig (ds ys : list R) o c : length ds = length ys -> NoDup ds -> ds <> [] ->
    dc_new (DS:=FloatDates) linear_scheme ds ys None orig DcDefault = Ok c ->
    dc_origin c = Some o ->
    exists c', dc_copy (DS:=FloatDates) (fun x => Ok x) c None None DcDefault = Ok c' /\
      forall d : R, dc_call (DS:=FloatDates) c' d = dc_call (DS:=FloatDates) c (d + 2 * o).
  Proof.
    intros HL ND NE E O.
    assert (HO : exists o, dom_origin orig ds = Some o).
    { unfold dom_origin. destruct orig; eauto. destruct ds; [congruence|simpl; eauto]. }
    destruct HO as [o' HO].
    apply (dstate_iff (L:=float_laws) DcDefault ftau float_additive linear_scheme ds ys None orig o') in E;
      [|auto|now rewrite map_id|auto].
    destruct (dstate_origin (tm:=fun d : R => d) _ _ _ _ _ _ _ _ _ E) as [O1 _]. rewrite O in O1. inversion O1; subst o'.
    destruct (copy_form _ _ _ _ _ E NE) as [f [Ef Hf]]. eexists. split; [exact Ef|].
    intro d. rewrite copy_call by (destruct ds; simpl; congruence).
    destruct (dstate_linear (L:=float_laws) DcDefault ftau float_additive orig o ds ys c (d + 2 * o) (fun x => x)) as [y [Hy PL]]; auto.
    rewrite Hy. set (h0 := hd 0 ds) in *.
    destruct (scheme_pl (map (fun d => (d - o) - h0) ds) ys) as [f' [E' H]].
    - now rewrite map_length.
    - apply FinFun.Injective_map_NoDup; auto. intros u v Huv. lra.
    - destruct ds; simpl; congruence.
    - rewrite Hf in E'. inversion E'; subst f'.
      replace (hd 0 (map (fun d => d - o) ds)) with (h0 - o) by (unfold h0; destruct ds; simpl; [congruence|lra]).
      destruct (H (d - (h0 - o))) as [w [Hw PW]]. rewrite Hw. do 2 f_equal.
      apply (pl_shift _ _ _ (h0 + o)) in PW. rewrite <- (combine_map_l (fun x => x + (h0 + o))), map_map in PW.
      replace (map (fun x => x - o - h0 + (h0 + o)) ds) with ds in PW.
      2:{ rewrite <- (map_id ds) at 1. apply map_ext. intro. lra. }
      replace (d - (h0 - o) + (h0 + o)) with (d + 2 * o) in PW by lra. rewrite map_id in PL.
      apply (pl_fun (combine ds ys) (d + 2 * o)); auto. now apply distinct_combine.
  Qed.
End Copy.
