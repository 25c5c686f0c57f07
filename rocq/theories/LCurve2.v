(** Lemmas about Curve: item assignment and arithmetic. *)
From Coq Require Import Reals Lra Lia List Bool Sorted Permutation.
From Verif Require Import Num Py Spec SInterpolation SCurve LBase LSort MInterpolation LInterpolation
  LInterpolation2 MDates MCurve LCurve.
Import ListNotations.
Open Scope R_scope.

Definition upd (ps : points) (k v : R) : points :=
  (k, v) :: filter (fun p => if Req_EM_T (fst p) k then false else true) ps.

Lemma in_upd ps k v a z : In (a, z) (upd ps k v) <-> (a = k /\ z = v) \/ (a <> k /\ In (a, z) ps).
Proof.
  unfold upd. simpl. rewrite filter_In. simpl. destruct (Req_EM_T a k); split; intros H.
  - destruct H as [H|[_ H]]; [inversion H; auto|discriminate].
  - destruct H as [[-> ->]|[H _]]; [auto|contradiction].
  - destruct H as [H|[H _]]; [inversion H; subst; contradiction|auto].
  - destruct H as [[H _]|[_ H]]; [contradiction|auto].
Qed.
Lemma upd_distinct ps k v : distinct ps -> distinct (upd ps k v).
Proof.
  intro H. unfold distinct, upd. simpl. constructor; [|now apply NoDup_filter_fst].
  rewrite in_map_iff. intros [[a z] [E I]]. apply filter_In in I. destruct I as [_ I]. simpl in *.
  destruct (Req_EM_T a k); [discriminate|contradiction].
Qed.
Lemma pairs_get_upd ps k v x : pairs_get (upd ps k v) x = assign (pairs_get ps) (k, v) x.
Proof.
  unfold upd, assign. cbn [pairs_get fst snd]. destruct (Req_EM_T k x) as [|N]; auto.
  induction ps as [|[a z] ps IH]; simpl; auto.
  destruct (Req_EM_T a k) as [->|]; simpl.
  - destruct (Req_EM_T k x); [contradiction|auto].
  - destruct (Req_EM_T a x); auto.
Qed.

Lemma distinct_nodup ps : distinct ps -> NoDup ps.
Proof. apply NoDup_map_inv. Qed.
Lemma perm_of_mem ps qs : distinct ps -> distinct qs ->
  (forall a z, In (a, z) ps <-> In (a, z) qs) -> Permutation ps qs.
Proof.
  intros H H' E. apply NoDup_Permutation; auto using distinct_nodup. intros [a z]. apply E.
Qed.
Lemma distinct_perm ps qs : Permutation ps qs -> distinct ps -> distinct qs.
Proof. intros P H. eapply Permutation_NoDup; [apply Permutation_map, P|exact H]. Qed.

Lemma set_nth_length {A} i (v : A) l : length (set_nth i v l) = length l.
Proof. revert i; induction l; intros [|i]; simpl; auto. Qed.
Lemma combine_app' {A B} (l1 l2 : list A) (m1 m2 : list B) : length l1 = length m1 ->
  combine (l1 ++ l2) (m1 ++ m2) = combine l1 m1 ++ combine l2 m2.
Proof. revert m1; induction l1; intros [|b m1] H; simpl in *; try discriminate; auto. f_equal. auto. Qed.

Lemma in_set_nth : forall i (xs ys : list R) k v a z, length xs = length ys -> NoDup xs ->
  nth_error xs i = Some k ->
  In (a, z) (combine xs (set_nth i v ys)) <-> (a = k /\ z = v) \/ (a <> k /\ In (a, z) (combine xs ys)).
Proof.
  induction i; intros [|x xs] [|y ys] k v a z H ND E; simpl in *; try discriminate.
  - inversion E; subst. inversion ND; subst. split.
    + intros [I|I]; [inversion I; auto|]. right. split; auto. intro; subst. apply H2. eapply in_combine_l; eauto.
    + intros [[-> ->]|[N [I|I]]]; auto. congruence.
  - inversion ND; subst. rewrite (IHi xs ys k v a z) by (auto; lia).
    assert (N : x <> k) by (intro; subst; apply H2; eapply nth_error_In; eauto).
    split.
    + intros [I|[I|[I I']]]; [inversion I; subst; auto|auto|auto].
    + intros [I|[I [I'|I']]]; auto.
Qed.

(** the pairs of a curve *)
Definition of_points (i : option ispec) (ps : points) (c : curve R) : Prop :=
  distinct ps /\ curve_new i (map fst ps) (map snd ps) = Ok c.

Lemma of_points_domain i ps c : of_points i ps c ->
  c_domain c = map fst (canon ps) /\ c_interp c = i.
Proof.
  intros [D E]. rewrite curve_new_form in E by (auto; now rewrite !map_length).
  rewrite combine_map_fst_snd in E.
  destruct (fn_new (curve_spec i) (map fst ps) (map snd ps)); [|discriminate]. inversion E; subst. auto.
Qed.
Lemma of_points_perm i ps qs c : Permutation ps qs -> of_points i ps c -> of_points i qs c.
Proof.
  intros P [D E]. split; [eapply distinct_perm; eauto|].
  rewrite <- (curve_perm i (map fst ps) (map snd ps)); auto; try (now rewrite !map_length).
  now rewrite !combine_map_fst_snd.
Qed.

Lemma of_points_new i (xs ys : list R) : length xs = length ys -> NoDup xs ->
  forall c, curve_new i xs ys = Ok c <-> of_points i (combine xs ys) c.
Proof.
  intros H ND c. unfold of_points. rewrite map_fst_combine, map_snd_combine by auto.
  split; [|tauto]. intro E. split; auto. now apply distinct_combine.
Qed.

Lemma of_points_exists i ps : admissible (curve_spec i) ps ->
  exists c, of_points i ps c /\ forall x y, In (x, y) ps -> curve_call c x = Ok (Some y).
Proof.
  intro A. destruct (fn_reproduces (curve_spec i) (map fst ps) (map snd ps)) as [f [E R]].
  { now rewrite !map_length. } { now rewrite combine_map_fst_snd. }
  rewrite combine_map_fst_snd in R.
  exists (mkC i f (map fst (canon ps))). split; [split; [apply A|]|exact R].
  rewrite curve_new_form, E, combine_map_fst_snd; auto. { now rewrite !map_length. } apply A.
Qed.
Lemma of_points_fun i ps c c' : of_points i ps c -> of_points i ps c' -> c = c'.
Proof. intros [_ E] [_ E']. congruence. Qed.
Lemma of_points_call i ps c x y : admissible (curve_spec i) ps -> of_points i ps c -> In (x, y) ps ->
  curve_call c x = Ok (Some y).
Proof.
  intros A O I. destruct (of_points_exists i ps A) as [c' [O' R]].
  rewrite (of_points_fun i ps c c' O O'). auto.
Qed.

Lemma mapM_combine {A B} (f : A -> res B) xs ys : length xs = length ys ->
  (forall a z, In (a, z) (combine xs ys) -> f a = Ok z) -> mapM f xs = Ok ys.
Proof.
  revert ys; induction xs; intros [|y ys] H I; simpl in *; try discriminate; auto.
  rewrite (I a y) by auto. simpl. rewrite (IHxs ys); auto.
Qed.

Lemma curve_val_domain i ps c : admissible (curve_spec i) ps -> of_points i ps c ->
  mapM (curve_val c) (map fst (canon ps)) = Ok (map snd (canon ps)).
Proof.
  intros A O. apply mapM_combine; [now rewrite !map_length|].
  intros a z I. rewrite combine_map_fst_snd in I. unfold curve_val.
  rewrite (of_points_call i ps c a z); auto. eapply Permutation_in; [apply canon_perm|auto].
Qed.

Lemma index_of_nth_error x l i : index_of Reqb x l = Some i -> nth_error l i = Some x.
Proof.
  intro E. apply index_of_some in E. destruct E as [L [E _]].
  rewrite (nth_error_nth' l 0 L). now rewrite E.
Qed.

Lemma setitem_ok i ps c k v : admissible (curve_spec i) ps -> of_points i ps c ->
  exists ys xs, length xs = length ys /\ Permutation (upd ps k v) (combine xs ys) /\
  curve_setitem c k v = curve_new i xs ys.
Proof.
  intros A O. destruct (of_points_domain i ps c O) as [ED EI].
  unfold curve_setitem. rewrite ED, EI, (curve_val_domain i ps c A O). cbn [bind].
  pose proof (canon_perm ps) as P.
  assert (DC : distinct (canon ps)) by (eapply distinct_perm; [symmetry; exact P|apply A]).
  assert (MEM : forall a z, In (a, z) (canon ps) <-> In (a, z) ps).
  { intros; split; apply Permutation_in; [|symmetry]; exact P. }
  assert (L : length (map fst (canon ps)) = length (map snd (canon ps))) by now rewrite !map_length.
  rn. destruct (index_of Reqb k (map fst (canon ps))) as [j|] eqn:J.
  - exists (set_nth j v (map snd (canon ps))), (map fst (canon ps)).
    rewrite set_nth_length. split; auto. split.
    + apply perm_of_mem; [apply upd_distinct; apply A| |].
      * unfold distinct. rewrite map_fst_combine by now rewrite set_nth_length. apply DC.
      * intros a z. rewrite in_upd, (in_set_nth j _ _ k) by (auto; now apply index_of_nth_error).
        now rewrite combine_map_fst_snd, MEM.
    + unfold curve_new. rewrite set_nth_length, L, Nat.eqb_refl. reflexivity.
  - exists (map snd (canon ps) ++ [v]), (map fst (canon ps) ++ [k]). rewrite !app_length, L. split; auto.
    apply index_of_none in J. split.
    + apply perm_of_mem; [apply upd_distinct; apply A| |].
      * unfold distinct. rewrite map_fst_combine by (rewrite !app_length, L; reflexivity).
        eapply Permutation_NoDup; [apply Permutation_cons_append|]. constructor; auto.
      * intros a z. rewrite in_upd, combine_app' by auto. rewrite in_app_iff, combine_map_fst_snd, MEM.
        simpl. split.
        -- intros [[-> ->]|[N I]]; auto.
        -- intros [I|[I|[]]]; [|inversion I; auto]. right. split; auto. intro; subst.
           apply J. apply in_map_iff. exists (k, z). split; auto. now apply MEM.
    + unfold curve_new. rewrite !app_length, L, Nat.eqb_refl. reflexivity.
Qed.

Lemma setitem_points i ps c k v : admissible (curve_spec i) ps -> of_points i ps c ->
  admissible (curve_spec i) (upd ps k v) ->
  exists c', curve_setitem c k v = Ok c' /\ of_points i (upd ps k v) c'.
Proof.
  intros A O A'. destruct (setitem_ok i ps c k v A O) as [ys [xs [L [P E]]]].
  destruct (of_points_exists i _ A') as [c' [O' _]]. exists c'. split; auto.
  rewrite E. apply of_points_new; auto.
  - apply (distinct_combine xs ys L). eapply distinct_perm; eauto. apply upd_distinct. apply A.
  - eapply of_points_perm; eauto.
Qed.

(** an invariant implying admissibility *)
Definition adm (s : ispec) (ps : points) : Prop :=
  known s /\ distinct ps /\ (forall k, In k (spec_kinds s) -> two_args k) /\
  ((exists k, In k (spec_kinds s) /\ log_kind k) -> positive ps) /\
  ((exists a y, In (a, y) ps /\ a <> 0) \/ forall k, In k (scheme_ends s) -> ~ rate_kind k).
Lemma adm_admissible s ps : adm s ps -> admissible s ps.
Proof.
  intros [KN [D [K [L Z]]]]. split; auto. split; auto. split; auto. split; auto.
  intros k Ik Rk _. destruct Z as [Z|Z]; auto. destruct (Z k Ik Rk).
Qed.
Lemma adm_upd s ps k v : adm s ps -> ((exists k, In k (spec_kinds s) /\ log_kind k) -> 0 < v) ->
  adm s (upd ps k v).
Proof.
  intros [KN [D [K [L Z]]]] PV. split; auto. split; [now apply upd_distinct|]. split; auto. split.
  - intros LK a z I. apply in_upd in I. destruct I as [[-> ->]|[_ I]]; auto. now apply (L LK a z).
  - destruct Z as [[a [y [I N]]]|Z]; auto. left.
    destruct (Req_EM_T a k) as [->|Nk].
    + exists k, v. split; auto. apply in_upd; auto.
    + exists a, y. split; auto. apply in_upd; auto.
Qed.

Lemma history_gen i hist : forall ps c, adm (curve_spec i) ps -> of_points i ps c ->
  ((exists k, In k (spec_kinds (curve_spec i)) /\ log_kind k) -> positive hist) ->
  exists c' ps', run (fun c kv => curve_setitem c (fst kv) (snd kv)) c hist = Ok c' /\
    of_points i ps' c' /\ adm (curve_spec i) ps' /\
    forall x, pairs_get ps' x = fold_left assign hist (pairs_get ps) x.
Proof.
  induction hist as [|[k v] hist IH]; intros ps c A O PO.
  - exists c, ps. simpl. auto.
  - assert (A' : adm (curve_spec i) (upd ps k v)).
    { apply adm_upd; auto. intro L. apply (PO L k v). simpl; auto. }
    destruct (setitem_points i ps c k v) as [c1 [E O1]]; auto using adm_admissible.
    destruct (IH (upd ps k v) c1 A' O1) as [c' [ps' [E' [O' [A'' G]]]]].
    { intros L a z I. apply (PO L a z). simpl; auto. }
    exists c', ps'. cbn [run fst snd]. rewrite E. cbn [bind]. repeat split; auto.
    + apply O'. + apply O'. + apply A''. + apply A''. + apply A''. + apply A''. + apply A''.
    + intro x. rewrite G. cbn [fold_left].
      assert (EX : forall h m m', (forall x, m x = m' x) -> forall x, fold_left assign h m x = fold_left assign h m' x).
      { induction h as [|kv h IHh]; intros m m' Hm y; simpl; auto. apply IHh. intro w. unfold assign.
        destruct (Req_EM_T (fst kv) w); auto. }
      apply EX. intro w. apply pairs_get_upd.
Qed.

Lemma getitem_ok i ps c : admissible (curve_spec i) ps -> of_points i ps c ->
  forall x, curve_getitem c x = match pairs_get ps x with Some y => Ok (Some y) | None => Err KeyError end.
Proof.
  intros A O x. unfold curve_getitem. destruct (of_points_domain i ps c O) as [ED _]. rewrite ED. rn.
  assert (MEM : forall a, In a (map fst (canon ps)) <-> In a (map fst ps)).
  { intro a. split; apply Permutation_in; apply Permutation_map; [|symmetry]; apply canon_perm. }
  destruct (pairs_get ps x) as [y|] eqn:E.
  - apply pairs_get_some in E. replace (mem Reqb x (map fst (canon ps))) with true.
    + now apply (of_points_call i ps).
    + symmetry. apply mem_true, MEM, in_map_iff. exists (x, y). auto.
  - replace (mem Reqb x (map fst (canon ps))) with false; auto.
    symmetry. apply mem_false. rewrite MEM. now apply pairs_get_none.
Qed.

Lemma setitem_history i (xs ys : list R) (hist : list (R * R)) :
  length xs = length ys -> NoDup xs -> known (curve_spec i) ->
  (forall k, In k (spec_kinds (curve_spec i)) -> two_args k) ->
  ((exists k, In k (spec_kinds (curve_spec i)) /\ log_kind k) ->
     (forall y, In y ys -> 0 < y) /\ forall k v, In (k, v) hist -> 0 < v) ->
  ((exists a, In a xs /\ a <> 0) \/ forall k, In k (scheme_ends (curve_spec i)) -> ~ rate_kind k) ->
  exists c c', curve_new i xs ys = Ok c /\
    run (fun c kv => curve_setitem c (fst kv) (snd kv)) c hist = Ok c' /\
    let final := fold_left assign hist (pairs_get (combine xs ys)) in
    (forall x, curve_getitem c' x = match final x with
                                    | Some y => Ok (Some y)
                                    | None => Err KeyError
                                    end) /\
    increasing (c_domain c') /\
    (forall x, In x (c_domain c') <-> final x <> None).
Proof.
  intros L ND KN K PO Z.
  assert (A : adm (curve_spec i) (combine xs ys)).
  { split; auto. split; [now apply distinct_combine|]. split; auto. split.
    - intros LK a z I. apply (proj1 (PO LK)). eapply in_combine_r; eauto.
    - destruct Z as [[a [Ia Na]]|Z]; auto. left. destruct (fst_in_pair xs ys a L Ia) as [y Iy]. eauto. }
  destruct (of_points_exists i _ (adm_admissible _ _ A)) as [c [O _]].
  destruct (history_gen i hist _ c A O) as [c' [ps' [E [O' [A' G]]]]].
  { intros LK. exact (proj2 (PO LK)). }
  exists c, c'. split; [now apply of_points_new|]. split; auto. cbv zeta. split; [|split].
  - intro x. rewrite (getitem_ok i ps' c') by auto using adm_admissible. now rewrite G.
  - destruct (of_points_domain i ps' c' O') as [-> _]. apply canon_incr. apply A'.
  - intro x. rewrite <- G. destruct (of_points_domain i ps' c' O') as [-> _].
    destruct (pairs_get ps' x) as [y|] eqn:PG.
    + split; [congruence|]. intros _. apply pairs_get_some in PG. apply in_map_iff.
      exists (x, y). split; auto. eapply Permutation_in; [symmetry; apply canon_perm|auto].
    + split; [|congruence]. intro I. apply pairs_get_none in PG. exfalso. apply PG.
      eapply Permutation_in; [apply Permutation_map, canon_perm|exact I].
Qed.

(** * arithmetic *)
Definition good (ps : points) (c : curve R) : Prop := ps <> [] /\ of_points None ps c.

Lemma adm_linear ps : distinct ps -> admissible linear_scheme ps.
Proof.
  intro D. split; [intros n; discriminate|]. split; auto. split; [|split].
  - simpl. unfold two_args. intuition congruence.
  - intros [k [Ik Lk]]. apply log_kind_b in Lk. simpl in Ik. exfalso.
    intuition; subst; discriminate.
  - intros k Ik Rk. apply rate_kind_b in Rk. simpl in Ik. exfalso. intuition; subst; discriminate.
Qed.

Definition cv (c : curve R) (x : R) : R := match curve_call c x with Ok (Some y) => y | _ => 0 end.

Lemma good_val ps c : good ps c -> forall x, curve_call c x = Ok (Some (cv c x)) /\ piecewise_linear ps x (cv c x).
Proof.
  intros [NE [D E]] x. rewrite curve_new_form in E by (auto; now rewrite !map_length).
  destruct (scheme_pl (map fst ps) (map snd ps)) as [f [Ef H]]; auto.
  { now rewrite !map_length. } { destruct ps; simpl; congruence. }
  change (curve_spec None) with linear_scheme in E. rewrite Ef in E. inversion E; subst.
  unfold cv, curve_call. cbn [c_fn]. destruct (H x) as [y [Hy P]]. rewrite Hy.
  rewrite combine_map_fst_snd in P. auto.
Qed.
Lemma good_curve_val ps c x : good ps c -> curve_val c x = Ok (cv c x).
Proof. intro G. unfold curve_val. rewrite (proj1 (good_val ps c G x)). reflexivity. Qed.
Lemma good_domain ps c a : good ps c -> In a (c_domain c) <-> In a (map fst ps).
Proof.
  intros [_ O]. destruct (of_points_domain _ _ _ O) as [-> _].
  split; apply Permutation_in; apply Permutation_map; [|symmetry]; apply canon_perm.
Qed.
Lemma good_domain_incr ps c : good ps c -> increasing (c_domain c).
Proof. intros [_ O]. destruct (of_points_domain _ _ _ O) as [-> _]. apply canon_incr, O. Qed.
Lemma good_interp ps c : good ps c -> c_interp c = None.
Proof. intros [_ O]. now destruct (of_points_domain _ _ _ O). Qed.
Lemma good_domain_ne ps c : good ps c -> c_domain c <> [].
Proof.
  intros G. destruct ps as [|[a z] qs] eqn:E; [destruct G; congruence|]. rewrite <- E in G.
  apply (in_nonempty a). apply (good_domain ps c a G). subst. simpl; auto.
Qed.

(** sampling a function on increasing points *)
Lemma good_sample (xs : list R) (f : R -> R) : xs <> [] -> NoDup xs ->
  exists c, curve_new None xs (map f xs) = Ok c /\ good (combine xs (map f xs)) c.
Proof.
  intros NE ND. assert (L : length xs = length (map f xs)) by now rewrite map_length.
  destruct (of_points_exists None (combine xs (map f xs))) as [c [O _]].
  { apply adm_linear. now apply distinct_combine. }
  exists c. split; [now apply of_points_new|]. split; auto. now apply combine_nonempty.
Qed.

Lemma sample_domain (xs : list R) f c : good (combine xs (map f xs)) c -> NoDup xs ->
  forall a, In a (c_domain c) <-> In a xs.
Proof.
  intros G ND a. rewrite (good_domain _ _ _ G), map_fst_combine by now rewrite map_length. tauto.
Qed.
Lemma sample_value (xs : list R) f c x : good (combine xs (map f xs)) c -> NoDup xs -> In x xs ->
  curve_call c x = Ok (Some (f x)).
Proof.
  intros G ND I. destruct G as [NE O]. apply (of_points_call None (combine xs (map f xs))); auto.
  - apply adm_linear, O.
  - rewrite combine_map_r. apply in_map_iff. exists x. auto.
Qed.

Lemma union_ne a b : c_domain a <> [] -> sorted_set Rltb Reqb (c_domain a ++ c_domain b : list R) <> [].
Proof.
  intro N. destruct (list_exists_elem _ N) as [x I]. apply (in_nonempty x).
  apply sorted_set_in, in_app_iff. auto.
Qed.

Lemma zip_ok op ps qs a b : good ps a -> good qs b ->
  let xs := sorted_set Rltb Reqb (c_domain a ++ c_domain b) in
  exists c, curve_zip op a b = Ok c /\ good (combine xs (map (fun x => op (cv a x) (cv b x)) xs)) c.
Proof.
  intros GA GB xs. unfold curve_zip. rn. fold xs.
  rewrite (mapM_ok _ (fun x => op (cv a x) (cv b x))).
  - cbn [bind]. rewrite (good_interp _ _ GA). apply good_sample.
    + apply union_ne. eapply good_domain_ne; eauto.
    + apply incr_nodup, sorted_set_incr.
  - intros x _. rewrite (good_curve_val _ _ x GA), (good_curve_val _ _ x GB). reflexivity.
Qed.

Lemma union_in a b x : In x (sorted_set Rltb Reqb (c_domain a ++ c_domain b : list R)) <->
  In x (c_domain a) \/ In x (c_domain b).
Proof. rewrite sorted_set_in, in_app_iff. tauto. Qed.

Lemma good_pl_on ps c : good ps c -> pl_on (fun a => In a (c_domain c)) (cv c).
Proof.
  intro G. apply (pl_on_weaken (fun a => In a (map fst ps))).
  - intros a Ia. now apply (good_domain ps c a G).
  - apply pl_is_pl_on; [apply G|apply G|]. intro x. apply (good_val ps c G x).
Qed.

Lemma zip_linear op ps qs a b :
  (forall X f g, pl_on X f -> pl_on X g -> pl_on X (fun x => op (f x) (g x))) ->
  good ps a -> good qs b ->
  exists c, curve_zip op a b = Ok c /\
   forall x, curve_call c x = Ok (Some (op (cv a x) (cv b x))).
Proof.
  intros OP GA GB. destruct (zip_ok op ps qs a b GA GB) as [c [E G]]. exists c. split; auto.
  intro x. destruct (good_val _ _ G x) as [V PL]. rewrite V. do 2 f_equal.
  set (xs := sorted_set Rltb Reqb (c_domain a ++ c_domain b)) in *.
  apply (pl_on_recover (combine xs (map (fun x => op (cv a x) (cv b x)) xs)) (fun x => op (cv a x) (cv b x))); auto.
  - intros s z I. rewrite combine_map_r in I. apply in_map_iff in I. destruct I as [w [Ew _]].
    inversion Ew; subst. auto.
  - rewrite map_fst_combine by now rewrite map_length. apply OP.
    + eapply pl_on_weaken; [|eapply good_pl_on; exact GA]. intros s Is. apply union_in. auto.
    + eapply pl_on_weaken; [|eapply good_pl_on; exact GB]. intros s Is. apply union_in. auto.
Qed.

Lemma sub_pl X f g : pl_on X f -> pl_on X g -> pl_on X (fun x => f x - g x).
Proof.
  intros F G. destruct (pl_on_plus X f (fun x => (-1) * g x) F (pl_on_scale X g (-1) G)) as [H1 [H2 H3]].
  split; [|split].
  - intros u v x A B C. replace (f x - g x) with (f x + -1 * g x) by lra.
    replace (f u - g u) with (f u + -1 * g u) by lra. replace (f v - g v) with (f v + -1 * g v) by lra.
    apply H1; auto.
  - intros u x A B. pose proof (H2 u x A B). simpl in *. lra.
  - intros u x A B. pose proof (H3 u x A B). simpl in *. lra.
Qed.

Lemma div_ok ps qs a b : good ps a -> good qs b ->
  let xs := sorted_set Rltb Reqb (c_domain a ++ c_domain b) in
  ((forall x, In x xs -> cv b x <> 0) ->
   exists c, curve_div a b = Ok c /\ good (combine xs (map (fun x => cv a x / cv b x) xs)) c) /\
  ((exists x, In x xs /\ cv b x = 0) -> curve_div a b = Err ZeroDivisionError).
Proof.
  intros GA GB xs. unfold curve_div. rn. fold xs.
  rewrite (mapM_ok _ (fun x => negb (ntruthy (cv b x)))).
  2:{ intros x _. rewrite (proj1 (good_val _ _ GB x)). reflexivity. }
  cbn [bind]. split.
  - intro NZ. replace (existsb (fun z => z) (map (fun x => negb (ntruthy (cv b x))) xs)) with false.
    + rewrite (mapM_ok _ (fun x => cv a x / cv b x)).
      * cbn [bind]. rewrite (good_interp _ _ GA). apply good_sample.
        -- apply union_ne. eapply good_domain_ne; eauto.
        -- apply incr_nodup, sorted_set_incr.
      * intros x Ix. rewrite (good_curve_val _ _ x GA), (good_curve_val _ _ x GB). cbn [bind].
        apply Rdivp_ok. auto.
    + symmetry. apply not_true_is_false. rewrite existsb_exists. intros [z [Iz ->]].
      apply in_map_iff in Iz. destruct Iz as [x [Ex Ix]]. apply negb_true_iff, ntruthy_false in Ex.
      apply (NZ x); auto.
  - intros [x [Ix Ex]]. replace (existsb (fun z => z) (map (fun x => negb (ntruthy (cv b x))) xs)) with true; auto.
    symmetry. apply existsb_exists. exists true. split; auto. apply in_map_iff. exists x. split; auto.
    apply negb_true_iff, ntruthy_false; auto.
Qed.

Lemma sample_ok ps c xs : good ps c -> xs <> [] -> NoDup xs ->
  exists c', curve_sample c None xs = Ok c' /\ good (combine xs (map (cv c) xs)) c'.
Proof.
  intros G NE ND. unfold curve_sample. rewrite (mapM_ok _ (cv c)).
  - cbn [bind]. rewrite (good_interp _ _ G). now apply good_sample.
  - intros x _. apply (good_curve_val _ _ x G).
Qed.

Lemma shift_xs (l : list R) d : increasing l -> NoDup (map (fun x => x + d) l).
Proof.
  intro I. apply FinFun.Injective_map_NoDup; [|now apply incr_nodup].
  intros u v E. lra.
Qed.

Lemma shifted_ok ps c d : good ps c ->
  let xs := map (fun x => x + d) (c_domain c) in
  exists c', curve_shifted c d = Ok c' /\ good (combine xs (map (cv c) xs)) c'.
Proof.
  intros G xs. unfold curve_shifted. rn.
  replace (if ntruthy d then map (fun x => x + d) (c_domain c) else c_domain c) with xs.
  - apply (sample_ok ps); auto.
    + unfold xs. pose proof (good_domain_ne _ _ G). destruct (c_domain c); simpl; congruence.
    + apply shift_xs. eapply good_domain_incr; eauto.
  - destruct (ntruthy d) eqn:E; auto. apply ntruthy_false in E. subst. unfold xs.
    rewrite <- (map_id (c_domain c)) at 2. apply map_ext. intro. lra.
Qed.

Lemma reachable_good c : reachable c -> exists ps, good ps c.
Proof.
  induction 1.
  - assert (L : length xs = length ys).
    { unfold curve_new in H1. destruct (Nat.eqb_spec (length xs) (length ys)); [auto|discriminate]. }
    exists (combine xs ys). split; [now apply combine_nonempty|]. now apply of_points_new.
  - destruct IHreachable as [ps [NE O]].
    destruct (setitem_points None ps c k v) as [c1 [E O1]]; auto.
    + apply adm_linear, O. + apply adm_linear, upd_distinct, O.
    + exists (upd ps k v). assert (c1 = c') by congruence. subst. split; auto. discriminate.
  - destruct IHreachable1 as [ps GA], IHreachable2 as [qs GB].
    destruct (zip_ok Rplus ps qs a b GA GB) as [c1 [E G]]. unfold curve_add in *. rn.
    assert (c1 = c) by congruence. subst. eauto.
  - destruct IHreachable1 as [ps GA], IHreachable2 as [qs GB].
    destruct (zip_ok Rminus ps qs a b GA GB) as [c1 [E G]]. unfold curve_sub in *. rn.
    assert (c1 = c) by congruence. subst. eauto.
  - destruct IHreachable1 as [ps GA], IHreachable2 as [qs GB].
    destruct (zip_ok Rmult ps qs a b GA GB) as [c1 [E G]]. unfold curve_mul in *. rn.
    assert (c1 = c) by congruence. subst. eauto.
  - destruct IHreachable1 as [ps GA], IHreachable2 as [qs GB].
    destruct (div_ok ps qs a b GA GB) as [D1 D2].
    destruct (Exists_dec (fun x => cv b x = 0) (sorted_set Rltb Reqb (c_domain a ++ c_domain b))) as [X|X].
    { intro x. apply Req_EM_T. }
    + apply Exists_exists in X. rewrite D2 in H1 by auto. discriminate.
    + destruct D1 as [c1 [E G]].
      * intros x Ix E. apply X, Exists_exists. eauto.
      * assert (c1 = c) by congruence. subst. eauto.
  - destruct IHreachable as [ps G].
    destruct (sample_ok ps c (c_domain c) G) as [c1 [E G']].
    + eapply good_domain_ne; eauto. + eapply incr_nodup, good_domain_incr; eauto.
    + unfold curve_copy in H0. assert (c1 = c') by congruence. subst. eauto.
  - destruct IHreachable as [ps G]. destruct (shifted_ok ps c d G) as [c1 [E G']].
    assert (c1 = c') by congruence. subst. eauto.
Qed.

(** statements used for the properties *)
Lemma reachable_total c x : reachable c -> curve_call c x = Ok (Some (cv c x)).
Proof. intro R. destruct (reachable_good c R) as [ps G]. apply (good_val ps c G x). Qed.

Lemma add_everywhere a b : reachable a -> reachable b ->
  exists c, curve_add a b = Ok c /\ forall x, exists u v,
    curve_call a x = Ok (Some u) /\ curve_call b x = Ok (Some v) /\ curve_call c x = Ok (Some (u + v)).
Proof.
  intros RA RB. destruct (reachable_good a RA) as [ps GA], (reachable_good b RB) as [qs GB].
  destruct (zip_linear Rplus ps qs a b pl_on_plus GA GB) as [c [E V]]. exists c. split; auto.
  intro x. exists (cv a x), (cv b x). repeat split; auto using reachable_total.
Qed.
Lemma sub_everywhere a b : reachable a -> reachable b ->
  exists c, curve_sub a b = Ok c /\ forall x, exists u v,
    curve_call a x = Ok (Some u) /\ curve_call b x = Ok (Some v) /\ curve_call c x = Ok (Some (u - v)).
Proof.
  intros RA RB. destruct (reachable_good a RA) as [ps GA], (reachable_good b RB) as [qs GB].
  destruct (zip_linear Rminus ps qs a b sub_pl GA GB) as [c [E V]]. exists c. split; auto.
  intro x. exists (cv a x), (cv b x). repeat split; auto using reachable_total.
Qed.
Lemma zip_grid op a b : reachable a -> reachable b ->
  exists c, curve_zip op a b = Ok c /\ increasing (c_domain c) /\
    (forall x, In x (c_domain c) <-> In x (c_domain a) \/ In x (c_domain b)) /\
    forall x, In x (c_domain c) -> exists u v,
    curve_call a x = Ok (Some u) /\ curve_call b x = Ok (Some v) /\ curve_call c x = Ok (Some (op u v)).
Proof.
  intros RA RB. destruct (reachable_good a RA) as [ps GA], (reachable_good b RB) as [qs GB].
  destruct (zip_ok op ps qs a b GA GB) as [c [E V]]. exists c. split; auto.
  assert (ND : NoDup (sorted_set Rltb Reqb (c_domain a ++ c_domain b))) by apply incr_nodup, sorted_set_incr.
  split; [eapply good_domain_incr; eauto|]. split.
  - intro x. rewrite (sample_domain _ _ _ V) by auto. apply union_in.
  - intros x I. apply (sample_domain _ _ _ V) in I; auto. exists (cv a x), (cv b x).
    repeat split; auto using reachable_total. now apply (sample_value _ _ _ x V).
Qed.
Lemma div_grid a b : reachable a -> reachable b ->
  (forall x, In x (c_domain a) \/ In x (c_domain b) -> curve_call b x <> Ok (Some 0)) ->
  exists c, curve_div a b = Ok c /\ increasing (c_domain c) /\
    (forall x, In x (c_domain c) <-> In x (c_domain a) \/ In x (c_domain b)) /\
    forall x, In x (c_domain c) -> exists u v,
    curve_call a x = Ok (Some u) /\ curve_call b x = Ok (Some v) /\ curve_call c x = Ok (Some (u / v)).
Proof.
  intros RA RB NZ. destruct (reachable_good a RA) as [ps GA], (reachable_good b RB) as [qs GB].
  destruct (div_ok ps qs a b GA GB) as [D _]. destruct D as [c [E V]].
  { intros x Ix Z. apply (NZ x); [now apply union_in|]. rewrite reachable_total, Z; auto. }
  exists c. split; auto.
  assert (ND : NoDup (sorted_set Rltb Reqb (c_domain a ++ c_domain b))) by apply incr_nodup, sorted_set_incr.
  split; [eapply good_domain_incr; eauto|]. split.
  - intro x. rewrite (sample_domain _ _ _ V) by auto. apply union_in.
  - intros x I. apply (sample_domain _ _ _ V) in I; auto. exists (cv a x), (cv b x).
    repeat split; auto using reachable_total. now apply (sample_value _ _ _ x V).
Qed.
Lemma div_zero a b : reachable a -> reachable b ->
  (exists x, (In x (c_domain a) \/ In x (c_domain b)) /\ curve_call b x = Ok (Some 0)) ->
  curve_div a b = Err ZeroDivisionError.
Proof.
  intros RA RB [x [I Z]]. destruct (reachable_good a RA) as [ps GA], (reachable_good b RB) as [qs GB].
  destruct (div_ok ps qs a b GA GB) as [_ D]. apply D. exists x. split; [now apply union_in|].
  rewrite reachable_total in Z by auto. congruence.
Qed.

Lemma shifted_actual c d : reachable c ->
  exists c', curve_shifted c d = Ok c' /\ c_domain c' = map (fun x => x + d) (c_domain c) /\
    forall x, In x (c_domain c) -> curve_call c' (x + d) = curve_call c (x + d).
Proof.
  intro R. destruct (reachable_good c R) as [ps G]. destruct (shifted_ok ps c d G) as [c' [E V]].
  pose proof (good_domain_incr _ _ G) as INC.
  assert (ND : NoDup (map (fun x => x + d) (c_domain c))) by now apply shift_xs.
  exists c'. split; auto. split.
  - apply incr_ext.
    + eapply good_domain_incr; eauto.
    + clear -INC. induction INC; simpl; constructor; auto.
      rewrite Forall_forall in *. intros y Iy. apply in_map_iff in Iy. destruct Iy as [z [<- Iz]].
      specialize (H z Iz). lra.
    + intro a. apply (sample_domain _ _ _ V ND).
  - intros x Ix. rewrite (sample_value _ _ _ (x + d) V ND).
    + now rewrite reachable_total.
    + apply in_map_iff. eauto.
Qed.
