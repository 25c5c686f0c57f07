(** Lemmas about Curve. *)
From Coq Require Import Reals Lra Lia List Bool Sorted Permutation.
From Verif Require Import Num Py Spec SInterpolation SCurve LBase LSort MInterpolation LInterpolation
  LInterpolation2 MDates MCurve.
Import ListNotations.
Open Scope R_scope.

Lemma rate_kind_b k : rate_kind k <-> is_rate k = true.
Proof. unfold rate_kind; destruct k; simpl; intuition congruence. Qed.
Lemma log_kind_b k : log_kind k <-> is_log k = true.
Proof. unfold log_kind; destruct k; simpl; intuition congruence. Qed.

Lemma perm_length_l (xs ys xs' ys' : list R) : length xs = length ys -> length xs' = length ys' ->
  Permutation (combine xs ys) (combine xs' ys') -> length xs = length xs'.
Proof.
  intros H H' P. apply Permutation_length in P. rewrite !combine_length in P. lia.
Qed.
Lemma perm_fst (xs ys xs' ys' : list R) : length xs = length ys -> length xs' = length ys' ->
  Permutation (combine xs ys) (combine xs' ys') -> Permutation xs xs'.
Proof.
  intros H H' P. apply (Permutation_map fst) in P. now rewrite !map_fst_combine in P by auto.
Qed.

Lemma fn_perm s (xs ys xs' ys' : list R) :
  length xs = length ys -> length xs' = length ys' -> NoDup xs ->
  Permutation (combine xs ys) (combine xs' ys') ->
  fn_new s xs ys = fn_new s xs' ys'.
Proof.
  intros H H' ND P. pose proof (perm_fst _ _ _ _ H H' P) as PX.
  assert (ND' : NoDup xs') by (eapply Permutation_NoDup; eauto).
  pose proof (fun k => new_perm k _ _ _ _ H H' ND P) as E.
  unfold fn_new. destruct (resolve s) as [k|l m r|n]; [| |reflexivity].
  - now rewrite E.
  - unfold scheme_new. rewrite H, H', !Nat.eqb_refl. simpl.
    rn. rewrite !dedup_nodup_id by auto. rewrite <- H, <- H', !Nat.eqb_refl. simpl.
    now rewrite !E.
Qed.

Lemma split_map {A B} (l : list (A * B)) : split l = (map fst l, map snd l).
Proof.
  rewrite (surjective_pairing (split l)), fst_split, snd_split. reflexivity.
Qed.

Lemma distinct_combine (xs ys : list R) : length xs = length ys ->
  (NoDup xs <-> distinct (combine xs ys)).
Proof. intro H. unfold distinct. rewrite map_fst_combine by auto. tauto. Qed.

Lemma update_fn_ok s (xs ys : list R) : length xs = length ys -> NoDup xs ->
  update_fn s xs ys =
  (f <- fn_new s xs ys ;; Ok (f, map fst (canon (combine xs ys)))).
Proof.
  intros H ND. unfold update_fn. change (sort pair_ltb (combine xs ys)) with (canon (combine xs ys)).
  rewrite split_map.
  rewrite (fn_perm s (map fst (canon (combine xs ys))) (map snd (canon (combine xs ys))) xs ys); auto.
  - now rewrite !map_length.
  - pose proof (canon_perm (combine xs ys)) as P. apply (Permutation_map fst) in P.
    rewrite map_fst_combine in P by auto. eapply Permutation_NoDup; [symmetry; exact P|auto].
  - rewrite combine_map_fst_snd. apply canon_perm.
Qed.

Lemma curve_new_form i (xs ys : list R) : length xs = length ys -> NoDup xs ->
  curve_new i xs ys =
  (f <- fn_new (curve_spec i) xs ys ;; Ok (mkC i f (map fst (canon (combine xs ys))))).
Proof.
  intros H ND. unfold curve_new. rewrite H, Nat.eqb_refl. simpl. rewrite update_fn_ok by auto.
  destruct (fn_new (curve_spec i) xs ys); reflexivity.
Qed.

Lemma curve_perm i (xs ys xs' ys' : list R) :
  length xs = length ys -> length xs' = length ys' -> NoDup xs ->
  Permutation (combine xs ys) (combine xs' ys') ->
  curve_new i xs ys = curve_new i xs' ys'.
Proof.
  intros H H' ND P. pose proof (perm_fst _ _ _ _ H H' P) as PX.
  assert (ND' : NoDup xs') by (eapply Permutation_NoDup; eauto).
  rewrite !curve_new_form by auto. rewrite (fn_perm _ xs ys xs' ys'), (canon_unique _ _ P) by auto.
  reflexivity.
Qed.

(** every interpolation class and scheme reproduces its data *)
(** * names of interpolations *)
Lemma fn_new_resolve s s' (xs ys : list R) : resolve s = resolve s' -> fn_new s xs ys = fn_new s' xs ys.
Proof. intro E. unfold fn_new. now rewrite E. Qed.
Lemma kinds_all (f : ikind -> bool) :
  forallb f [Kflat; Kdefault; Kno; Kzero; Kleft; Kconstant; Kright; Knearest; Klinear; Kloglinear; Kloglinearrate; Klogconstantrate] = true ->
  forall k, f k = true.
Proof. intros H k. rewrite forallb_forall in H. apply H. destruct k; simpl; tauto. Qed.
Definition ikind_eqb (a b : ikind) : bool := String.eqb (kind_name a) (kind_name b).
Lemma ikind_eqb_eq a b : ikind_eqb a b = true <-> a = b.
Proof. split; [|intros ->; apply String.eqb_refl]. destruct a, b; vm_compute; congruence. Qed.
Lemma findable_resolve s : findable s -> resolve (SName (spec_name s)) = resolve s.
Proof.
  destruct s as [k|l m r|n]; intro F.
  - destruct k; reflexivity.
  - destruct F as [-> | [-> | ->]]; reflexivity.
  - reflexivity.
Qed.
Lemma unfindable_resolve s : ~ findable s -> resolve (SName (spec_name s)) = SName (spec_name s).
Proof.
  destruct s as [k|l m r|n]; intro F; try (exfalso; apply F; exact I).
  assert (C : (match assoc String.eqb (spec_name (SScheme l m r)) module_names with
               | Some _ => (ikind_eqb l Kconstant && ikind_eqb m Klinear && ikind_eqb r Kconstant)
                        || (ikind_eqb l Klogconstantrate && ikind_eqb m Kloglinearrate && ikind_eqb r Klogconstantrate)
                        || (ikind_eqb l Kzero && ikind_eqb m Klinear && ikind_eqb r Kconstant)
               | None => true end) = true).
  {
    assert (forall l, forallb (fun m => forallb (fun r => match assoc String.eqb (spec_name (SScheme l m r)) module_names with
               | Some _ => (ikind_eqb l Kconstant && ikind_eqb m Klinear && ikind_eqb r Kconstant)
                        || (ikind_eqb l Klogconstantrate && ikind_eqb m Kloglinearrate && ikind_eqb r Klogconstantrate)
                        || (ikind_eqb l Kzero && ikind_eqb m Klinear && ikind_eqb r Kconstant)
               | None => true end) 
       [Kflat; Kdefault; Kno; Kzero; Kleft; Kconstant; Kright; Knearest; Klinear; Kloglinear; Kloglinearrate; Klogconstantrate])
       [Kflat; Kdefault; Kno; Kzero; Kleft; Kconstant; Kright; Knearest; Klinear; Kloglinear; Kloglinearrate; Klogconstantrate] = true) as H.
    { intros [];  vm_compute; reflexivity. }
    pose proof (kinds_all _ (H l) m) as Hm. cbv beta in Hm. exact (kinds_all _ Hm r). }
  unfold resolve. destruct (assoc String.eqb (spec_name (SScheme l m r)) module_names); [|reflexivity].
  exfalso. apply F. simpl. rewrite !orb_true_iff, !andb_true_iff, !ikind_eqb_eq in C.
  destruct C as [[[[-> ->] ->]|[[-> ->] ->]]|[[-> ->] ->]]; auto.
Qed.

Lemma fn_reproduces s (xs ys : list R) : length xs = length ys -> admissible s (combine xs ys) ->
  exists f, fn_new s xs ys = Ok f /\
    forall x y, In (x, y) (combine xs ys) -> fn_call f x = Ok (Some y).
Proof.
  intros H [KN [DI [K [LP RZ]]]]. apply (distinct_combine xs ys H) in DI.
  unfold known, spec_kinds, scheme_ends, fn_new in *.
  assert (K' : forall k, k <> Kflat -> In k [Kdefault; Kno; Kzero; Kleft; Kconstant; Kright; Knearest; Klinear;
        Kloglinear; Kloglinearrate; Klogconstantrate]).
  { intros k Hk. destruct k; simpl; tauto. }
  assert (EX : forall k, In k (match resolve s with SBase k => [k] | SScheme l m r => [l; m; r] | SName _ => [] end) ->
    exists f, interp_new k xs ys = Ok f /\
    forall x y, In (x, y) (combine xs ys) -> interp_call f x = Ok (Some y)).
  { intros k Hk. apply reproduces_points; auto. { apply K', K, Hk. }
    intros L y Iy. assert (PO : positive (combine xs ys)).
    { apply LP. exists k. split; auto. now apply log_kind_b. }
    rewrite <- (map_snd_combine xs ys H) in Iy. apply in_map_iff in Iy.
    destruct Iy as [[a z] [<- Ia]]. apply (PO a z Ia). }
  destruct (resolve s) as [k|l m r|n]; [| |now destruct (KN n)].
  - destruct (EX k) as [f [E R]]; [simpl; auto|]. exists (FBase f). simpl. rewrite E. auto.
  - destruct (EX l) as [fl [El Rl]]; [simpl; auto|].
    destruct (EX m) as [fm [Em Rm]]; [simpl; auto|].
    destruct (EX r) as [fr [Er Rr]]; [simpl; auto|].
    exists (FScheme (mkS fl fm fr)).
    rewrite (scheme_new_ok l m r xs ys _ _ _ H DI El Em Er). split; auto.
    intros x y Ixy. simpl fn_call.
    assert (NE : combine xs ys <> []) by (intro E; rewrite E in Ixy; auto).
    destruct (new_xs _ _ _ _ El H DI) as [_ [_ IL]]. destruct (new_xs _ _ _ _ Er H DI) as [_ [_ IR]].
    assert (EXN : forall k f, In k [l; r] ->
       (forall a, In a (i_xs f) <-> In a xs /\ (is_rate k = true -> a <> 0)) -> i_xs f <> []).
    { intros k f Ik Hf. destruct (is_rate k) eqn:RK.
      - destruct (RZ k Ik) as [a [z [Ia Na]]]; auto. { now apply rate_kind_b. }
        apply (in_nonempty a). apply Hf. split; auto. eapply in_combine_l; eauto.
      - apply (in_nonempty x). apply Hf. split; [eapply in_combine_l; eauto|discriminate]. }
    assert (N1 : i_xs fl <> []) by (apply (EXN l); simpl; auto).
    assert (N2 : i_xs fr <> []) by (apply (EXN r); simpl; auto).
    unfold scheme_call. cbn [s_left s_mid s_right].
    rewrite (nth_res_ok _ 0 0) by (destruct (i_xs fl); [congruence|simpl; lia]).
    cbn [bind]. destruct (nltb x (nth 0 (i_xs fl) 0)); [now apply Rl|].
    rewrite (last_res_ok _ 0) by auto. cbn [bind].
    destruct (nltb (last (i_xs fr) 0) x); [now apply Rr|now apply Rm].
Qed.

(** * piecewise linear functions *)
Lemma dec_before (ps : points) (x : R) :
  (forall a z, In (a, z) ps -> x < a) \/ (exists a z, In (a, z) ps /\ a <= x).
Proof.
  induction ps as [|[a z] ps IH]; [left; simpl; tauto|].
  destruct (Rlt_le_dec x a).
  - destruct IH as [IH|[b [w [I L]]]].
    + left. intros b w [E|I]; [inversion E; subst; auto|eauto].
    + right. exists b, w. simpl; auto.
  - right. exists a, z. simpl; auto.
Qed.
Lemma dec_after (ps : points) (x : R) :
  (forall a z, In (a, z) ps -> a < x) \/ (exists a z, In (a, z) ps /\ x <= a).
Proof.
  induction ps as [|[a z] ps IH]; [left; simpl; tauto|].
  destruct (Rlt_le_dec a x).
  - destruct IH as [IH|[b [w [I L]]]].
    + left. intros b w [E|I]; [inversion E; subst; auto|eauto].
    + right. exists b, w. simpl; auto.
  - right. exists a, z. simpl; auto.
Qed.
(** greatest point satisfying a <= x *)
Lemma greatest_below (ps : points) (x : R) : (exists a z, In (a, z) ps /\ a <= x) ->
  exists a z, In (a, z) ps /\ a <= x /\ forall b w, In (b, w) ps -> b <= x -> b <= a.
Proof.
  induction ps as [|[a z] ps IH]; intros [b [w [I L]]]; [destruct I|].
  destruct (dec_before ps x) as [B|E].
  - destruct I as [I|I]; [|specialize (B _ _ I); lra]. inversion I; subst.
    exists b, w. simpl. split; auto. split; auto. intros c u [E|J] Hc; [inversion E; lra|].
    specialize (B _ _ J). lra.
  - destruct (IH E) as [c [u [Ic [Lc Mc]]]].
    destruct (Rle_lt_dec a x).
    + destruct (Rle_lt_dec a c).
      * exists c, u. simpl. split; auto. split; auto. intros d v [Ed|Jd] Hd; [inversion Ed; subst; auto|eauto].
      * exists a, z. simpl. split; auto. split; auto. intros d v [Ed|Jd] Hd; [inversion Ed; subst; lra|].
        specialize (Mc _ _ Jd Hd). lra.
    + exists c, u. simpl. split; auto. split; auto. intros d v [Ed|Jd] Hd; [inversion Ed; subst; lra|eauto].
Qed.
Lemma least_above (ps : points) (x : R) : (exists a z, In (a, z) ps /\ x <= a) ->
  exists a z, In (a, z) ps /\ x <= a /\ forall b w, In (b, w) ps -> x <= b -> a <= b.
Proof.
  induction ps as [|[a z] ps IH]; intros [b [w [I L]]]; [destruct I|].
  destruct (dec_after ps x) as [B|E].
  - destruct I as [I|I]; [|specialize (B _ _ I); lra]. inversion I; subst.
    exists b, w. simpl. split; auto. split; auto. intros c u [E|J] Hc; [inversion E; lra|].
    specialize (B _ _ J). lra.
  - destruct (IH E) as [c [u [Ic [Lc Mc]]]].
    destruct (Rle_lt_dec x a).
    + destruct (Rle_lt_dec c a).
      * exists c, u. simpl. split; auto. split; auto. intros d v [Ed|Jd] Hd; [inversion Ed; subst; auto|eauto].
      * exists a, z. simpl. split; auto. split; auto. intros d v [Ed|Jd] Hd; [inversion Ed; subst; lra|].
        specialize (Mc _ _ Jd Hd). lra.
    + exists c, u. simpl. split; auto. split; auto. intros d v [Ed|Jd] Hd; [inversion Ed; subst; lra|eauto].
Qed.

Lemma pl_total ps x : ps <> [] -> exists y, piecewise_linear ps x y.
Proof.
  intro NE. destruct ps as [|[a0 z0] ps0] eqn:EPS; [congruence|]. rewrite <- EPS.
  assert (I0 : In (a0, z0) ps) by (subst; simpl; auto). clear EPS NE.
  destruct (dec_before ps x) as [B|E].
  - destruct (least_above ps x) as [a [z [I [L M]]]].
    { exists a0, z0. split; auto. left. eauto. }
    exists z. right; left. exists a. split; auto. split; auto.
    intros b w Ib. apply (M b w Ib). left. eauto.
  - destruct (dec_after ps x) as [A|F].
    + destruct (greatest_below ps x) as [a [z [I [L M]]]]; auto.
      exists z. right; right. exists a. split; auto. split; auto.
      intros b w Ib. apply (M b w Ib). left. eauto.
    + destruct (greatest_below ps x E) as [a [z [Ia [La Ma]]]].
      destruct (least_above ps x F) as [b [w [Ib [Lb Mb]]]].
      destruct (Rlt_le_dec a b).
      * exists (chord a z b w x). left. exists a, z, b, w. split; [|auto].
        split; auto. split; auto. split; auto.
        intros c u Ic. destruct (Rle_lt_dec c x); [left; eauto|right; apply (Mb c u Ic); lra].
      * (* x is a data point *)
        assert (a = x) by lra. assert (b = x) by lra. subst.
        destruct (dec_after ps x) as [A'|_]; [specialize (A' _ _ Ia); lra|].
        (* next point after x, or last *)
        destruct (dec_after (filter (fun p => if Rlt_dec x (fst p) then true else false) ps) x) as [G|G].
        -- exists z. right; right. exists x. split; auto. split; [|lra].
           intros c u Ic. destruct (Rle_lt_dec c x); auto.
           assert (In (c, u) (filter (fun p => if Rlt_dec x (fst p) then true else false) ps)).
           { apply filter_In. split; auto. simpl. destruct (Rlt_dec x c); [auto|lra]. }
           specialize (G _ _ H). lra.
        -- destruct (least_above _ _ G) as [c [u [Ic [Lc Mc]]]]. apply filter_In in Ic.
           destruct Ic as [Ic Gc]. simpl in Gc. destruct (Rlt_dec x c) as [Lxc|]; [|discriminate].
           exists (chord x z c u x). left. exists x, z, c, u. split; [|split; [lra|auto]].
           split; auto. split; auto. split; auto.
           intros d v Id. destruct (Rle_lt_dec d x); [auto|]. right.
           apply (Mc d v); [|lra]. apply filter_In. split; auto. simpl. destruct (Rlt_dec x d); [auto|lra].
Qed.

Lemma pl_node ps x y z : distinct ps -> In (x, z) ps -> piecewise_linear ps x y -> y = z.
Proof.
  intros DD I [[a [ya [b [yb [[Ia [Ib [Lab C]]] [Hx ->]]]]]]|[[a [Ia [F Hx]]]|[b [Ib [F Hx]]]]].
  - destruct (C x z I) as [H|H].
    + assert (x = a) by lra. subst. rewrite chord_left by auto.
      exact (nodup_fst_fun ps a ya z DD Ia I).
    + assert (x = b) by lra. subst. rewrite chord_right by auto.
      exact (nodup_fst_fun ps b yb z DD Ib I).
  - assert (x = a) by (specialize (F _ _ I); lra). subst.
    exact (nodup_fst_fun ps a y z DD Ia I).
  - assert (x = b) by (specialize (F _ _ I); lra). subst.
    exact (nodup_fst_fun ps b y z DD Ib I).
Qed.

Lemma pl_fun ps x y y' : distinct ps -> piecewise_linear ps x y -> piecewise_linear ps x y' -> y = y'.
Proof.
  intros DD H H'.
  assert (Q : forall z, In (x, z) ps -> y = y').
  { intros z I. rewrite (pl_node ps x y z), (pl_node ps x y' z); auto. }
  destruct H as [[a [ya [b [yb [[Ia [Ib [Lab C]]] [Hx ->]]]]]]|[[a [Ia [F Hx]]]|[b [Ib [F Hx]]]]].
  - destruct H' as [[a' [ya' [b' [yb' [[Ia' [Ib' [Lab' C']]] [Hx' ->]]]]]]|[[a' [Ia' [F' Hx']]]|[b' [Ib' [F' Hx']]]]].
    + destruct (C _ _ Ia') as [h1|h1], (C _ _ Ib') as [h2|h2], (C' _ _ Ia) as [h3|h3], (C' _ _ Ib) as [h4|h4];
        try (assert (x = a) by lra; subst x; now apply (Q ya));
        try (assert (x = b) by lra; subst x; now apply (Q yb)); try lra.
      assert (a = a') by lra. assert (b = b') by lra. subst.
      rewrite (nodup_fst_fun ps a' ya ya' DD Ia Ia'), (nodup_fst_fun ps b' yb yb' DD Ib Ib'). auto.
    + assert (x = a') by (specialize (F' _ _ Ia); lra). subst. now apply (Q y').
    + assert (x = b') by (specialize (F' _ _ Ib); lra). subst. now apply (Q y').
  - destruct H' as [[a' [ya' [b' [yb' [[Ia' [Ib' [Lab' C']]] [Hx' ->]]]]]]|[[a' [Ia' [F' Hx']]]|[b' [Ib' [F' Hx']]]]].
    + assert (x = a) by (specialize (F _ _ Ia'); lra). subst. now apply (Q y).
    + assert (a = a') by (apply Rle_antisym; eauto). subst. exact (nodup_fst_fun ps a' y y' DD Ia Ia').
    + assert (x = a) by (specialize (F _ _ Ib'); lra). subst. now apply (Q y).
  - destruct H' as [[a' [ya' [b' [yb' [[Ia' [Ib' [Lab' C']]] [Hx' ->]]]]]]|[[a' [Ia' [F' Hx']]]|[b' [Ib' [F' Hx']]]]].
    + assert (x = b) by (specialize (F _ _ Ib'); lra). subst. now apply (Q y).
    + assert (x = b) by (specialize (F _ _ Ia'); lra). subst. now apply (Q y).
    + assert (b = b') by (apply Rle_antisym; eauto). subst. exact (nodup_fst_fun ps b' y y' DD Ib Ib').
Qed.

(** the linear scheme computes it *)
Lemma scheme_pl (xs ys : list R) : length xs = length ys -> NoDup xs -> xs <> [] ->
  exists f, fn_new linear_scheme xs ys = Ok f /\
    forall x, exists y, fn_call f x = Ok (Some y) /\ piecewise_linear (combine xs ys) x y.
Proof.
  intros H ND NE.
  destruct (linear_scheme_correct xs ys 0 H ND NE) as [f [_ [E _]]]. exists f. split; auto.
  intro x. destruct (linear_scheme_correct xs ys x H ND NE) as [f' [y [E' [C [H1 [H2 [H3 _]]]]]]].
  rewrite E in E'. inversion E'; subst f'. exists y. split; auto.
  pose proof (combine_nonempty xs ys H NE) as NE'.
  destruct (dec_before (combine xs ys) x) as [B|Q].
  - destruct (least_above (combine xs ys) x) as [a [z [I [L M]]]].
    { destruct xs as [|x0 xs]; [congruence|]. destruct ys as [|y0 ys]; [discriminate|].
      exists x0, y0. split; [simpl; auto|]. left. apply (B x0 y0). simpl; auto. }
    right; left. exists a. split; [|split; auto].
    + apply H1.
      * intros b Ib. destruct (fst_in_pair xs ys b H Ib) as [w Iw]. left. eauto.
      * eapply in_combine_l; eauto.
      * intros b Ib. destruct (fst_in_pair xs ys b H Ib) as [w Iw]. apply (M b w Iw). left. eauto.
    + intros b w Iw. apply (M b w Iw). left. eauto.
  - destruct (dec_after (combine xs ys) x) as [A|Q'].
    + destruct (greatest_below (combine xs ys) x Q) as [a [z [I [L M]]]].
      right; right. exists a. split; [|split; auto].
      * apply H2.
        -- intros b Ib. destruct (fst_in_pair xs ys b H Ib) as [w Iw]. left. eauto.
        -- eapply in_combine_l; eauto.
        -- intros b Ib. destruct (fst_in_pair xs ys b H Ib) as [w Iw]. apply (M b w Iw). left. eauto.
      * intros b w Iw. apply (M b w Iw). left. eauto.
    + assert (LV : linear_value (combine xs ys) x y).
      { apply H3. destruct Q as [a [z [Ia La]]]. destruct Q' as [b [w [Ib Lb]]].
        exists a, b. repeat split; auto; eapply in_combine_l; eauto. }
      destruct LV as [[a [Ia U]]|[a [ya [b [yb [CC [HA [HB ->]]]]]]]].
      * right; left. exists a. split; auto. destruct Q as [c [z [Ic Lc]]]. destruct Q' as [d [w [Id Ld]]].
        pose proof (U _ _ Ic). pose proof (U _ _ Id). split; [|lra].
        intros e v Ie. rewrite (U _ _ Ie). lra.
      * left. exists a, ya, b, yb. split; auto. split; auto.
        destruct Q as [c [z [Ic Lc]]]. destruct Q' as [d [w [Id Ld]]].
        destruct HA as [HA|HA], HB as [HB|HB]; split; auto.
        -- specialize (HB _ _ Id). lra.
        -- specialize (HA _ _ Ic). lra.
        -- specialize (HA _ _ Ic). lra.
        -- specialize (HB _ _ Id). lra.
Qed.

(** a function that is linear off the set of its knots and constant outside *)
Definition pl_on (X : R -> Prop) (f : R -> R) : Prop :=
  (forall u v x, u < v -> (forall c, X c -> c <= u \/ v <= c) -> u <= x <= v ->
     f x = chord u (f u) v (f v) x) /\
  (forall u x, (forall c, X c -> u <= c) -> x <= u -> f x = f u) /\
  (forall u x, (forall c, X c -> c <= u) -> u <= x -> f x = f u).

Lemma pl_on_weaken (X Y : R -> Prop) f : (forall c, X c -> Y c) -> pl_on X f -> pl_on Y f.
Proof.
  intros S [H1 [H2 H3]]. split; [|split]; intros.
  - apply H1; auto.
  - apply H2; auto.
  - apply H3; auto.
Qed.
Lemma chord_plus a b u v p q x : chord a u b v x + chord a p b q x = chord a (u + p) b (v + q) x.
Proof. unfold chord. lra. Qed.
Lemma pl_on_plus X f g : pl_on X f -> pl_on X g -> pl_on X (fun x => f x + g x).
Proof.
  intros [H1 [H2 H3]] [K1 [K2 K3]]. split; [|split]; intros.
  - rewrite (H1 u v x), (K1 u v x) by auto. apply chord_plus.
  - rewrite (H2 u x), (K2 u x) by auto. auto.
  - rewrite (H3 u x), (K3 u x) by auto. auto.
Qed.
Lemma pl_on_scale X f k : pl_on X f -> pl_on X (fun x => k * f x).
Proof.
  intros [H1 [H2 H3]]. split; [|split]; intros.
  - rewrite (H1 u v x) by auto. unfold chord. lra.
  - now rewrite (H2 u x).
  - now rewrite (H3 u x).
Qed.

Lemma chord_outside a ya b yb x : a < b -> chord a ya b yb x = ya + (yb - ya) * ((x - a) / (b - a)).
Proof. reflexivity. Qed.

(** interpolated data are such a function *)
Lemma pl_is_pl_on ps (f : R -> R) : ps <> [] -> distinct ps ->
  (forall x, piecewise_linear ps x (f x)) -> pl_on (fun a => In a (map fst ps)) f.
Proof.
  intros NE DD H.
  assert (IN : forall a, In a (map fst ps) -> exists z, In (a, z) ps).
  { intros a Ia. apply in_map_iff in Ia. destruct Ia as [[b z] [<- I]]. eauto. }
  assert (IN' : forall a z, In (a, z) ps -> In a (map fst ps)).
  { intros a z I. apply in_map_iff. exists (a, z). auto. }
  split; [|split].
  - intros u v x Huv N Hx.
    destruct (dec_before ps v) as [B|Q].
    + (* all points at or after v *)
      destruct (least_above ps v) as [a [z [Ia [La Ma]]]].
      { destruct ps as [|[a z] ps']; [congruence|]. exists a, z. split; [simpl; auto|]. left. apply (B a z). simpl; auto. }
      assert (C : forall t, t <= a -> f t = z).
      { intros t Ht. apply (pl_fun ps t); auto. right; left. exists a. split; auto. split; auto.
        intros b w Ib. apply (Ma b w Ib). left. eauto. }
      rewrite !C by lra. unfold chord. lra.
    + destruct (dec_after ps u) as [A|Q'].
      { destruct (greatest_below ps u) as [a [z [Ia [La Ma]]]].
        { destruct ps as [|[a z] ps']; [congruence|]. exists a, z. split; [simpl; auto|]. left. apply (A a z). simpl; auto. }
        assert (C : forall t, a <= t -> f t = z).
        { intros t Ht. apply (pl_fun ps t); auto. right; right. exists a. split; auto. split; auto.
          intros b w Ib. apply (Ma b w Ib). left. eauto. }
        rewrite !C by lra. unfold chord. lra. }
      destruct (dec_before ps u) as [B1|Q1].
      { (* first point is at v *)
        destruct Q as [a [z [Ia La]]]. assert (a = v).
        { destruct (N a (IN' _ _ Ia)); [specialize (B1 _ _ Ia); lra|lra]. }
        subst a. assert (C : forall t, t <= v -> f t = z).
        { intros t Ht. apply (pl_fun ps t); auto. right; left. exists v. split; auto. split; auto.
          intros b w Ib. destruct (N b (IN' _ _ Ib)); auto. specialize (B1 _ _ Ib). lra. }
        rewrite !C by lra. unfold chord. lra. }
      destruct (dec_after ps v) as [A1|Q2].
      { destruct Q' as [a [z [Ia La]]]. assert (a = u).
        { destruct (N a (IN' _ _ Ia)); [lra|specialize (A1 _ _ Ia); lra]. }
        subst a. assert (C : forall t, u <= t -> f t = z).
        { intros t Ht. apply (pl_fun ps t); auto. right; right. exists u. split; auto. split; auto.
          intros b w Ib. destruct (N b (IN' _ _ Ib)); auto. specialize (A1 _ _ Ib). lra. }
        rewrite !C by lra. unfold chord. lra. }
      destruct (greatest_below ps u Q1) as [a [ya [Ia [La Ma]]]].
      destruct (least_above ps v Q2) as [b [yb [Ib [Lb Mb]]]].
      assert (CC : consecutive ps a ya b yb).
      { split; auto. split; auto. split; [lra|]. intros c w Ic.
        destruct (N c (IN' _ _ Ic)); [left; eauto|right; eauto]. }
      assert (C : forall t, a <= t <= b -> f t = chord a ya b yb t).
      { intros t Ht. apply (pl_fun ps t); auto. left. exists a, ya, b, yb. auto. }
      rewrite !C by lra. unfold chord. field. split; lra.
  - intros u x N Hx. destruct (least_above ps u) as [a [z [Ia [La Ma]]]].
    { destruct ps as [|[a z] ps']; [congruence|]. exists a, z. split; [simpl; auto|].
      apply N. simpl; auto. }
    assert (C : forall t, t <= a -> f t = z).
    { intros t Ht. apply (pl_fun ps t); auto. right; left. exists a. split; auto. split; auto.
      intros b w Ib. apply (Ma b w Ib). apply N. eauto. }
    rewrite !C by lra. auto.
  - intros u x N Hx. destruct (greatest_below ps u) as [a [z [Ia [La Ma]]]].
    { destruct ps as [|[a z] ps']; [congruence|]. exists a, z. split; [simpl; auto|].
      apply N. simpl; auto. }
    assert (C : forall t, a <= t -> f t = z).
    { intros t Ht. apply (pl_fun ps t); auto. right; right. exists a. split; auto. split; auto.
      intros b w Ib. apply (Ma b w Ib). apply N. eauto. }
    rewrite !C by lra. auto.
Qed.

(** and such a function is recovered from its values on the knots *)
Lemma pl_on_recover ps (f : R -> R) x y : (forall a z, In (a, z) ps -> z = f a) ->
  pl_on (fun a => In a (map fst ps)) f -> piecewise_linear ps x y -> y = f x.
Proof.
  intros V [H1 [H2 H3]] P.
  assert (IN : forall (Q : R -> Prop), (forall a z, In (a, z) ps -> Q a) -> forall c, In c (map fst ps) -> Q c).
  { intros Q HQ c Ic. apply in_map_iff in Ic. destruct Ic as [[b z] [<- I]]. eapply HQ; eauto. }
  destruct P as [[a [ya [b [yb [[Ia [Ib [Lab C]]] [Hx ->]]]]]]|[[a [Ia [F Hx]]]|[b [Ib [F Hx]]]]].
  - rewrite (H1 a b x); auto.
    + now rewrite (V _ _ Ia), (V _ _ Ib).
    + apply (IN (fun c => c <= a \/ b <= c)). auto.
  - rewrite (H2 a x); auto. apply (IN (fun c => a <= c)). auto.
  - rewrite (H3 b x); auto. apply (IN (fun c => c <= b)). auto.
Qed.

(** pieces of a scheme put together *)
Lemma left_before_pl ps x y : ps <> [] -> (forall a z, In (a, z) ps -> x < a) -> left_value ps x y ->
  piecewise_linear ps x y.
Proof.
  intros NE B [[a [I [La _]]]|[_ [a [I M]]]].
  - specialize (B _ _ I). lra.
  - right; left. exists a. split; auto. split; [exact M|]. left. eauto.
Qed.
Lemma left_after_pl ps x y : ps <> [] -> (forall a z, In (a, z) ps -> a < x) -> left_value ps x y ->
  piecewise_linear ps x y.
Proof.
  intros NE B [[a [I [La M]]]|[C [a [I _]]]].
  - right; right. exists a. split; auto. split; auto. intros b z Ib. apply (M b z Ib). left. eauto.
  - specialize (B _ _ I). specialize (C _ _ I). lra.
Qed.
Lemma linear_inside_pl ps x y : (exists a z b w, In (a, z) ps /\ In (b, w) ps /\ a <= x <= b) ->
  linear_value ps x y -> piecewise_linear ps x y.
Proof.
  intros [a0 [z0 [b0 [w0 [Ia0 [Ib0 H]]]]]] [[a [Ia U]]|[a [ya [b [yb [CC [HA [HB ->]]]]]]]].
  - right; left. exists a. split; auto. pose proof (U _ _ Ia0). pose proof (U _ _ Ib0). split; [|lra].
    intros e v Ie. rewrite (U _ _ Ie). lra.
  - left. exists a, ya, b, yb. split; auto. split; auto.
    destruct HA as [HA|HA], HB as [HB|HB]; split; auto.
    + specialize (HB _ _ Ib0). lra.
    + specialize (HA _ _ Ia0). lra.
    + specialize (HA _ _ Ia0). lra.
    + specialize (HB _ _ Ib0). lra.
Qed.

Lemma transform_in_inv f ps a z : In (a, z) (transform f ps) -> exists y, In (a, y) ps /\ z = f a y.
Proof. apply in_transform. Qed.
Lemma left_value_transform f ps x y : left_value ps x y -> exists a, In (a, y) ps /\
  left_value (transform f ps) x (f a y).
Proof.
  intros [[a [I [La M]]]|[B [a [I M]]]]; exists a; split; auto.
  - left. exists a. split; [apply in_transform; eauto|]. split; auto.
    intros b z Ib. apply in_transform in Ib. destruct Ib as [w [Iw _]]. eauto.
  - right. split.
    + intros b z Ib. apply in_transform in Ib. destruct Ib as [w [Iw _]]. eauto.
    + exists a. split; [apply in_transform; eauto|].
      intros b z Ib. apply in_transform in Ib. destruct Ib as [w [Iw _]]. eauto.
Qed.
Lemma transform_ne f ps : ps <> [] -> transform f ps <> [].
Proof. destruct ps; simpl; congruence. Qed.

(** log_linear_scheme: linear interpolation of the logarithms, constant outside *)
Lemma log_scheme_pl (xs ys : list R) : length xs = length ys -> NoDup xs -> xs <> [] ->
  (forall y, In y ys -> 0 < y) ->
  exists f, fn_new log_linear_scheme xs ys = Ok f /\
    forall x, exists v, fn_call f x = Ok (Some v) /\ 0 < v /\
      piecewise_linear (transform (fun _ y => ln y) (combine xs ys)) x (ln v).
Proof.
  intros H ND NE PO.
  destruct (loglinear_correct xs ys H ND NE PO) as [fl [El Hl]].
  destruct (constant_some xs ys 0 H ND NE) as [fc [_ [Ec _]]].
  pose proof (scheme_new_ok Kconstant Kloglinear Kconstant xs ys _ _ _ H ND Ec El Ec) as ES.
  destruct (scheme_dispatch Kconstant Kloglinear Kconstant _ _ _ eq_refl eq_refl NE ES) as [il [im [ir [E1 [E2 [E3 DI]]]]]].
  rewrite Ec in E1, E3. inversion E1; inversion E3; subst il ir. rewrite El in E2. inversion E2; subst im.
  exists (FScheme (mkS fc fl fc)). split; [unfold fn_new, resolve, log_linear_scheme; rewrite ES; reflexivity|].
  intro x. destruct (DI x) as [D1 [D2 D3]]. simpl fn_call.
  pose proof (transform_ne (fun _ y => ln y) _ (combine_nonempty xs ys H NE)) as NT.
  destruct (constant_some xs ys x H ND NE) as [fc' [yc [Ec' [Cc Vc]]]].
  rewrite Ec in Ec'. inversion Ec'; subst fc'.
  destruct (left_value_transform (fun _ y => ln y) _ _ _ Vc) as [a0 [Ia0 LT]].
  destruct (dec_before (combine xs ys) x) as [B|Q].
  - exists yc. rewrite D1, Cc.
    + split; auto. split; [apply PO; eapply in_combine_r; eauto|].
      apply left_before_pl; auto. intros a z I. apply in_transform in I. destruct I as [w [I _]]. eauto.
    + intros a Ia. destruct (fst_in_pair xs ys a H Ia) as [w Iw]. eauto.
  - destruct (dec_after (combine xs ys) x) as [A|Q'].
    + exists yc. rewrite D2, Cc.
      * split; auto. split; [apply PO; eapply in_combine_r; eauto|].
        apply left_after_pl; auto. intros a z I. apply in_transform in I. destruct I as [w [I _]]. eauto.
      * intros a Ia. destruct (fst_in_pair xs ys a H Ia) as [w Iw]. eauto.
    + destruct Q as [a [z [Ia La]]]. destruct Q' as [b [w [Ib Lb]]].
      destruct (Hl x) as [l [LV C]]. exists (exp l). rewrite D3.
      * split; auto. split; [apply exp_pos|]. rewrite ln_exp. apply linear_inside_pl; auto.
        exists a, (ln z), b, (ln w). repeat split; auto; apply in_transform; eauto.
      * exists a, b. repeat split; auto; eapply in_combine_l; eauto.
Qed.

(** log_linear_rate_scheme: linear interpolation of -ln(y)/x, constant outside *)
Lemma rate_scheme_pl (xs ys : list R) : length xs = length ys -> NoDup xs ->
  (exists a, In a xs /\ a <> 0) -> (forall y, In y ys -> 0 < y) ->
  exists f, fn_new log_linear_rate_scheme xs ys = Ok f /\
    (forall x, x <> 0 -> exists r, fn_call f x = Ok (Some (exp (- r * x))) /\
      piecewise_linear (transform (fun a y => - ln y / a) (without_zero (combine xs ys))) x r) /\
    (forall y, In (0, y) (combine xs ys) -> fn_call f 0 = Ok (Some y)) /\
    (~ In 0 xs -> fn_call f 0 = Ok None).
Proof.
  intros H ND NZ PO.
  destruct (loglinearrate_correct xs ys 1 H ND PO R1_neq_R0 NZ) as [fm [_ [Em _]]].
  destruct (logconstantrate_correct xs ys 1 H ND PO R1_neq_R0 NZ) as [fc [_ [Ec _]]].
  pose proof (scheme_new_ok Klogconstantrate Kloglinearrate Klogconstantrate xs ys _ _ _ H ND Ec Em Ec) as ES.
  destruct (scheme_dispatch_rate Kloglinearrate _ _ _ NZ ES) as [il [im [E1 [E2 DI]]]].
  rewrite Ec in E1. inversion E1; subst il. rewrite Em in E2. inversion E2; subst im.
  exists (FScheme (mkS fc fm fc)). split; [unfold fn_new, resolve, log_linear_rate_scheme; rewrite ES; reflexivity|].
  set (g := fun a y => - ln y / a). set (qs := without_zero (combine xs ys)).
  assert (PQ : forall a, In a xs -> a <> 0 -> exists z, In (a, z) qs).
  { intros a Ia Na. destruct (fst_in_pair xs ys a H Ia) as [z Iz]. exists z. now apply in_without_zero. }
  assert (QP : forall a z, In (a, z) qs -> In a xs /\ a <> 0).
  { intros a z I. apply in_without_zero in I. destruct I as [I N]. split; auto. eapply in_combine_l; eauto. }
  assert (NQ : transform g qs <> []).
  { apply transform_ne. destruct NZ as [a [Ia Na]]. destruct (PQ a Ia Na) as [z Iz]. now apply (in_nonempty (a, z)). }
  split; [|].
  - intros x Nx. destruct (DI x) as [D1 [D2 D3]]. simpl fn_call.
    destruct (logconstantrate_correct xs ys x H ND PO Nx NZ) as [fc' [rc [Ec' [Vc Cc]]]].
    rewrite Ec in Ec'. inversion Ec'; subst fc'.
    destruct (loglinearrate_correct xs ys x H ND PO Nx NZ) as [fm' [rm [Em' [Vm Cm]]]].
    rewrite Em in Em'. inversion Em'; subst fm'.
    destruct (dec_before qs x) as [B|Q].
    + exists rc. rewrite D1, Cc.
      * split; auto. apply left_before_pl; auto. intros a z I. apply in_transform in I. destruct I as [w [I _]]. eauto.
      * intros a Ia Na. destruct (PQ a Ia Na). eauto.
    + destruct (dec_after qs x) as [A|Q'].
      * exists rc. rewrite D2, Cc.
        -- split; auto. apply left_after_pl; auto. intros a z I. apply in_transform in I. destruct I as [w [I _]]. eauto.
        -- intros a Ia Na. destruct (PQ a Ia Na). eauto.
      * destruct Q as [a [z [Ia La]]]. destruct Q' as [b [w [Ib Lb]]].
        exists rm. rewrite D3.
        -- split; auto. apply linear_inside_pl; auto. exists a, (g a z), b, (g b w).
           repeat split; auto; apply in_transform; eauto.
        -- destruct (QP _ _ Ia), (QP _ _ Ib). exists a, b. repeat split; auto.
  - assert (Z : forall k f, k = Kloglinearrate \/ k = Klogconstantrate -> interp_new k xs ys = Ok f ->
       (forall y, In (0, y) (combine xs ys) -> interp_call f 0 = Ok (Some y)) /\ (~ In 0 xs -> interp_call f 0 = Ok None)).
    { intros k f Hk Ef. destruct (rate_at_zero k xs ys) as [f' [Ef' [Z1 Z2]]]; auto; [destruct Hk; subst; reflexivity|].
      rewrite Ef in Ef'. inversion Ef'; subst f'. auto. }
    destruct (Z Kloglinearrate fm) as [Zm1 Zm2]; auto. destruct (Z Klogconstantrate fc) as [Zc1 Zc2]; auto.
    destruct (DI 0) as [D1 [D2 D3]]. simpl fn_call.
    assert (CASES : scheme_call (mkS fc fm fc) 0 = interp_call fc 0 \/ scheme_call (mkS fc fm fc) 0 = interp_call fm 0).
    { destruct (dec_before qs 0) as [B|Q].
      - left. apply D1. intros a Ia Na. destruct (PQ a Ia Na). eauto.
      - destruct (dec_after qs 0) as [A|Q'].
        + left. apply D2. intros a Ia Na. destruct (PQ a Ia Na). eauto.
        + right. apply D3. destruct Q as [a [z [Ia La]]]. destruct Q' as [b [w [Ib Lb]]].
          destruct (QP _ _ Ia), (QP _ _ Ib). exists a, b. repeat split; auto. }
    split.
    + intros y I. destruct CASES as [-> | ->]; auto.
    + intros N. destruct CASES as [-> | ->]; auto.
Qed.

Lemma pl_same ps qs x y : same_points ps qs -> piecewise_linear ps x y -> piecewise_linear qs x y.
Proof.
  intros S [[a [ya [b [yb [[Ia [Ib [Lab C]]] [Hx ->]]]]]]|[[a [Ia [F Hx]]]|[b [Ib [F Hx]]]]].
  - left. exists a, ya, b, yb. split; [|auto]. split; [now apply S|]. split; [now apply S|]. split; auto.
    intros c z I. apply (C c z). now apply S.
  - right; left. exists a. split; [now apply S|]. split; auto. intros c z I. apply (F c z). now apply S.
  - right; right. exists b. split; [now apply S|]. split; auto. intros c z I. apply (F c z). now apply S.
Qed.
