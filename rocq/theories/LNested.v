(** Lemmas about leg lists of leg lists. *)
From Coq Require Import Reals Lra List Bool FunctionalExtensionality.
From Verif Require Import Num Py Spec MDates MCurve MRateCurve MOption MCashflow MBracket MPricer MNested SNested SDates SCashflow LBase LDates LCast LCashflow.
Import ListNotations.
Open Scope R_scope.

Section Ind.
  Context {D : Type} (Q : tree D -> Prop).
  Hypothesis HL : forall i, Q (TList i).
  Hypothesis HT : forall ts dom o, Forall Q ts -> Q (TLegs ts dom o).
  Fixpoint tree_induction (t : tree D) : Q t :=
    match t with
    | TList i => HL i
    | TLegs ts dom o => HT ts dom o ((fix go ts : Forall Q ts :=
        match ts with [] => Forall_nil Q | t :: ts' => Forall_cons t (tree_induction t) (go ts') end) ts)
    end.
End Ind.
Section IndN.
  Context {T D P : Type} (Q : nested T D P -> Prop).
  Hypothesis HL : forall l, Q (NList l).
  Hypothesis HT : forall ls b, Forall Q ls -> Q (NLegs ls b).
  Fixpoint nested_induction (n : nested T D P) : Q n :=
    match n with
    | NList l => HL l
    | NLegs ls b => HT ls b ((fix go ls : Forall Q ls :=
        match ls with [] => Forall_nil Q | l :: ls' => Forall_cons l (nested_induction l) (go ls') end) ls)
    end.
End IndN.

Lemma Rsum_app2 (a b : list R) : Rsum (a ++ b) = Rsum a + Rsum b.
Proof. induction a as [|x a IH]; cbn; [lra|]. rewrite IH. lra. Qed.

Lemma mapS_app {S A B} (f : A -> st S B) a b s :
  mapS f (a ++ b) s = bindS (mapS f a) (fun x => bindS (mapS f b) (fun y => ret (x ++ y))) s.
Proof.
  revert s. induction a as [|x a IH]; intros s; cbn [mapS app].
  - unfold bindS, ret. destruct (mapS f b s) as [[y|e] s']; reflexivity.
  - unfold bindS, ret in *. destruct (f x s) as [[y|e] s1]; [|reflexivity]. rewrite IH.
    destruct (mapS f a s1) as [[ys|e] s2]; [|reflexivity].
    destruct (mapS f b s2) as [[zs|e] s3]; reflexivity.
Qed.

Lemma mapM_join {A B} (f : A -> res B) a b :
  mapM f (a ++ b) = (x <- mapM f a ;; y <- mapM f b ;; Ok (x ++ y)).
Proof.
  induction a as [|x a IH]; cbn [app mapM bind].
  - destruct (mapM f b); reflexivity.
  - destruct (f x) as [y|]; cbn [bind]; [|reflexivity]. rewrite IH.
    destruct (mapM f a); cbn [bind]; [|reflexivity]. destruct (mapM f b); reflexivity.
Qed.

Section Sum.
  Context {D P : Type}.
  Lemma sum_one (x : R) : nsum [x] = x.
  Proof. rewrite nsum_Rsum. cbn. lra. Qed.
  Lemma sum_app (a b : list R) : nsum (a ++ b) = nsum a + nsum b.
  Proof. rewrite !nsum_Rsum. apply Rsum_app2. Qed.
  Lemma sum_cons (x : R) (b : list R) : nsum (x :: b) = x + nsum b.
  Proof. rewrite !nsum_Rsum. reflexivity. Qed.

  (** a sum over a tree is the sum over its leaves, errors and state included *)
  Lemma tree_sum_flat (f : nat -> st (heap R D P) R) (t : tree D) : forall h,
    tree_sum f t h = bindS (mapS f (tree_leaves t)) (fun vs => ret (nsum vs)) h.
  Proof.
    induction t as [i|ts dom o IH] using tree_induction; intros h.
    - cbn [tree_sum tree_leaves mapS]. unfold bindS, ret. destruct (f i h) as [[x|e] h']; [|reflexivity].
      now rewrite sum_one.
    - cbn [tree_sum tree_leaves].
      set (go := fix go (ts0 : list (tree D)) : st (heap R D P) (list R) :=
                   match ts0 with [] => ret [] | t :: ts' => x <~ tree_sum f t ;; xs <~ go ts' ;; ret (x :: xs) end).
      revert h. induction IH as [|t ts Ht _ IH]; intros h; [reflexivity|].
      cbn [flat_map]. change (go (t :: ts)) with (x <~ tree_sum f t ;; xs <~ go ts ;; ret (x :: xs)).
      unfold bindS at 4. rewrite mapS_app. unfold bindS, ret in *. rewrite Ht.
      destruct (mapS f (tree_leaves t) h) as [[vs|e] h1]; [|reflexivity]. specialize (IH h1).
      destruct (go ts h1) as [[xs|e] h2]; destruct (mapS f (flat_map tree_leaves ts) h1) as [[ys|e'] h3];
        try discriminate; [|exact IH].
      injection IH as E ->. rewrite sum_cons, sum_app, E. reflexivity.
  Qed.
End Sum.

(** * Trees and their leaves *)
Section Flat.
  Context {D P : Type} (DS : DateSys R D P) (DC : DayCounts R D).
  Lemma flat_pv fuel flr disc v (t : tree D) :
    tree_pv_of fuel flr disc v t = pv_of fuel flr disc v (flattened t).
  Proof.
    apply functional_extensionality. intros h. unfold tree_pv_of. rewrite tree_sum_flat.
    destruct t as [i|ts dom o]; [|reflexivity]. cbn [flattened pv_of tree_leaves mapS]. unfold bindS, ret.
    destruct (pv_list _ _ _ _ i h) as [[x|e] h']; [|reflexivity]. now rewrite sum_one.
  Qed.
  Lemma flat_present fuel flr (t : tree D) disc v :
    tree_present_value fuel flr t disc v = get_present_value fuel flr (flattened t) disc v.
  Proof.
    unfold tree_present_value, get_present_value. f_equal. apply functional_extensionality. intros c. apply flat_pv.
  Qed.
  Lemma flat_ytm_err fuel flr (t : tree D) v target :
    tree_ytm_err fuel flr t v target = ytm_err fuel flr (flattened t) v target.
  Proof.
    apply functional_extensionality. intros x. unfold tree_ytm_err, ytm_err. f_equal.
    apply functional_extensionality. intros _. f_equal. apply functional_extensionality. intros s. now rewrite flat_pv.
  Qed.
  Lemma flat_origin (t : tree D) : tree_origin (T:=R) (P:=P) t = pr_origin (flattened t).
  Proof. destruct t; reflexivity. Qed.
  Lemma flat_domain (t : tree D) : tree_domain (T:=R) (P:=P) t = pr_domain (flattened t).
  Proof. destruct t; reflexivity. Qed.
  Definition flat1 (p : tree D * R) : product * R := (flattened (fst p), snd p).
  Lemma mapS_map {S A B C} (g : A -> B) (f : B -> st S C) l s : mapS f (map g l) s = mapS (fun x => f (g x)) l s.
  Proof.
    revert s. induction l as [|x l IH]; intros s; [reflexivity|]. cbn [mapS map]. unfold bindS.
    destruct (f (g x) s) as [[y|e] s']; [|reflexivity]. now rewrite IH.
  Qed.
  Lemma filter_flat (ps : list (tree D * R)) : forall bs,
    map snd (filter fst (combine bs (map flat1 ps))) = map flat1 (map snd (filter fst (combine bs ps))).
  Proof.
    induction ps as [|p ps IH]; intros [|b bs]; try reflexivity. cbn [map combine filter fst].
    destruct b; cbn [map snd fst]; now rewrite IH.
  Qed.
  Lemma flat_matured d ps h : matured (P:=P) d (map flat1 ps) h =
    bindS (tree_matured d ps) (fun l => ret (map flat1 l)) h.
  Proof.
    unfold matured, tree_matured. unfold bindS at 1. rewrite mapS_map.
    assert (E : mapS (fun x : tree D * R => dom <~ pr_domain (fst (flat1 x));; m <~ lift (d_max dom);; ret (d_leb m d)) ps h
              = mapS (fun p : tree D * R => dom <~ tree_domain (fst p);; m <~ lift (d_max dom);; ret (d_leb m d)) ps h).
    { f_equal. apply functional_extensionality. intros x. now rewrite flat_domain. }
    rewrite E. clear E. unfold bindS at 3. unfold bindS at 3.
    destruct (mapS _ ps h) as [[bs|e] h']; [|reflexivity]. unfold ret. now rewrite filter_flat.
  Qed.
  Lemma flat_fit_err fuel flr disc v fitting d ps :
    fit_err fuel flr disc v fitting d (map flat1 ps) = tree_fit_err fuel flr disc v fitting d ps.
  Proof.
    apply functional_extensionality. intros x. unfold fit_err, tree_fit_err. f_equal.
    apply functional_extensionality. intros _. f_equal. apply functional_extensionality. intros h. rewrite mapS_map.
    f_equal. apply functional_extensionality. intros p. now rewrite flat_present.
  Qed.
  Lemma combine_flat ps (ts : list R) : combine (map flattened ps) ts = map flat1 (combine ps ts).
  Proof. revert ts. induction ps as [|p ps IH]; intros [|t ts]; try reflexivity. cbn. now rewrite IH. Qed.
End Flat.

(** * Nested containers *)
Section Cont.
  Context {D P : Type} (DS : DateSys R D P) (DC : DayCounts R D) (tm : D -> R) (L : DateLaws DS tm).
  Implicit Types (n : nested R D P).

  Lemma n_new_inv legs n : n_new legs = Ok n ->
    exists o, min_origin (map n_origin legs) = Ok o /\
      let dom := date_set (concat (map n_domain legs)) in
      n = NLegs legs (mkCF dom (dict_of d_eqb (combine dom (repeat (FlNum 0) (length dom)))) o LNone false).
  Proof.
    intros H. unfold n_new in H. destruct (min_origin (map n_origin legs)) as [o|]; cbn [bind] in H; [|discriminate].
    rewrite cf_new_ok in H by (now rewrite repeat_length). cbn [bind] in H.
    injection H as <-. exists o. split; reflexivity.
  Qed.

  Lemma built_ind2 (Q : nested R D P -> Prop) :
    (forall l, Q (NList l)) ->
    (forall legs base, Forall built legs -> Forall Q legs -> n_new legs = Ok (NLegs legs base) -> Q (NLegs legs base)) ->
    forall n, built n -> Q n.
  Proof.
    intros H1 H2 n. induction n as [l|ls b IH] using nested_induction; intros B; [auto|].
    inversion B as [|? ? F N]; subst. apply H2; auto. clear -IH F. induction IH; inversion F; subst; constructor; auto.
  Qed.

  Lemma n_times n : built n -> forall x,
    In x (map tm (n_domain n)) <-> exists l, In l (leaves n) /\ In x (map tm (cf_domain l)).
  Proof.
    revert n. apply (built_ind2 (fun n => forall x,
      In x (map tm (n_domain n)) <-> exists l, In l (leaves n) /\ In x (map tm (cf_domain l))));
      [intros l|intros legs base _ IH N]; intros x.
    - cbn [leaves]. split; [intros I; exists l; split; [now left|exact I]|intros (l' & [<-|[]] & I); exact I].
    - destruct (n_new_inv _ _ N) as (o & _ & E). cbv zeta in E. injection E as E.
      unfold n_domain at 1. cbn [n_base]. rewrite E. cbn [cf_domain]. rewrite (date_set_times (L:=L)).
      cbn [leaves]. rewrite Forall_forall in IH. split.
      + intros I. apply in_map_iff in I. destruct I as (d & <- & I). apply in_concat in I. destruct I as (ds & I & J).
        apply in_map_iff in I. destruct I as (m & <- & I). apply (in_map tm) in J. apply (IH m I) in J.
        destruct J as (l & J1 & J2). exists l. split; auto. apply in_flat_map. eauto.
      + intros (l & I & J). apply in_flat_map in I. destruct I as (m & I1 & I2).
        assert (K : In x (map tm (n_domain m))) by (apply (IH m I1); eauto).
        apply in_map_iff in K. destruct K as (d & <- & K). apply in_map. apply in_concat. exists (n_domain m). split; auto.
        now apply in_map.
  Qed.

  Lemma n_get_flat fuel flr d n : built n -> mem d_eqb d (n_domain n) = true ->
    n_get fuel flr d n =
    (vs <- mapM (fun l => cf_get fuel flr l d) (filter (fun l => mem d_eqb d (cf_domain l)) (leaves n)) ;; Ok (nsum vs)).
  Proof.
    revert n. apply (built_ind2 (fun n => mem d_eqb d (n_domain n) = true -> n_get fuel flr d n =
      (vs <- mapM (fun l => cf_get fuel flr l d) (filter (fun l => mem d_eqb d (cf_domain l)) (leaves n)) ;; Ok (nsum vs))));
      [intros l|intros legs base B IH N]; intros M.
    - cbn [n_get leaves filter]. change (cf_domain l) with (n_domain (NList l)). rewrite M. cbn [mapM].
      destruct (cf_get fuel flr l d) as [x|e]; cbn [bind]; [|reflexivity]. now rewrite sum_one.
    - clear M N. cbn [n_get leaves].
      set (go := fix go (ls : list (nested R D P)) : res (list R) :=
                 match ls with
                 | [] => Ok []
                 | l :: ls' => if mem d_eqb d (n_domain l)
                               then x <- n_get fuel flr d l ;; xs <- go ls' ;; Ok (x :: xs)
                               else go ls'
                 end).
      induction IH as [|n legs Hn _ IH]; [reflexivity|]. inversion B as [|? ? B1 B2]; subst. specialize (IH B2).
      cbn [flat_map]. rewrite filter_app, mapM_join.
      change (go (n :: legs)) with (if mem d_eqb d (n_domain n) then x <- n_get fuel flr d n ;; xs <- go legs ;; Ok (x :: xs) else go legs).
      destruct (mem d_eqb d (n_domain n)) eqn:M.
      + rewrite (Hn eq_refl). destruct (mapM _ (filter _ (leaves n))) as [vs|e]; cbn [bind]; [|reflexivity].
        destruct (go legs) as [xs|e]; destruct (mapM _ (filter _ (flat_map leaves legs))) as [ys|e']; cbn [bind] in *;
          try discriminate; [|congruence].
        injection IH as E. rewrite sum_cons, sum_app, E. reflexivity.
      + assert (Z : filter (fun l => mem d_eqb d (cf_domain l)) (leaves n) = []).
        { assert (K : forall l, In l (leaves n) -> mem d_eqb d (cf_domain l) = false).
          { intros l I. destruct (mem d_eqb d (cf_domain l)) eqn:Q; auto. apply (mem_date (L:=L)) in Q.
            assert (X : In (tm d) (map tm (n_domain n))) by (apply (n_times n B1); eauto).
            apply (mem_date (L:=L)) in X. congruence. }
          revert K. clear. induction (leaves n) as [|l ls IH]; intros K; [reflexivity|]. cbn. rewrite K by (now left).
          apply IH. intros; apply K; now right. }
        rewrite Z. cbn [mapM bind]. rewrite IH.
        destruct (mapM _ (filter _ (flat_map leaves legs))); reflexivity.
  Qed.
  Lemma n_get_legs fuel flr d legs base : built (NLegs legs base) ->
    n_get fuel flr d (NLegs legs base) =
    (vs <- mapM (fun l => cf_get fuel flr l d) (filter (fun l => mem d_eqb d (cf_domain l)) (leaves (NLegs legs base))) ;; Ok (nsum vs)).
  Proof.
    intros B. destruct (mem d_eqb d (n_domain (NLegs legs base))) eqn:M; [now apply n_get_flat|].
    assert (K : forall n, In n legs -> mem d_eqb d (n_domain n) = false).
    { intros n I. destruct (mem d_eqb d (n_domain n)) eqn:Q; auto. apply (mem_date (L:=L)) in Q.
      inversion B as [|? ? F N]; subst. rewrite Forall_forall in F. apply (n_times _ (F n I)) in Q. destruct Q as (l & Q1 & Q2).
      assert (X : In (tm d) (map tm (n_domain (NLegs legs base)))).
      { apply (n_times _ B). exists l. split; auto. cbn [leaves]. apply in_flat_map. eauto. }
      apply (mem_date (L:=L)) in X. congruence. }
    assert (Z : filter (fun l => mem d_eqb d (cf_domain l)) (leaves (NLegs legs base)) = []).
    { destruct (filter _ _) as [|l ls] eqn:E; [reflexivity|exfalso].
      assert (I : In l (l :: ls)) by now left. rewrite <- E in I. apply filter_In in I. destruct I as [I1 I2].
      apply (mem_date (L:=L)) in I2.
      assert (X : In (tm d) (map tm (n_domain (NLegs legs base)))) by (apply (n_times _ B); eauto).
      apply (mem_date (L:=L)) in X. congruence. }
    rewrite Z. cbn [mapM bind n_get]. clear -K. induction legs as [|n legs IH]; [reflexivity|].
    rewrite (K n) by now left. apply IH. intros; apply K; now right.
  Qed.
End Cont.

Section Origins.
  Context {D P : Type} (DS : DateSys R D P) (tm : D -> R) (L : DateLaws DS tm).
  Lemma min_origin_first (os : list D) : os <> [] ->
    exists o, min_origin (map Some os) = Ok (Some o) /\ In o os /\ forall o', In o' os -> tm o <= tm o'.
  Proof.
    intros NO. destruct os as [|o [|o2 os]]; [congruence| |].
    - exists o. cbn. split; auto. split; auto. intros o' [<-|[]]. lra.
    - destruct (d_min_ok (L:=L) (o :: o2 :: os)) as (m & E & I & Q); [discriminate|].
      exists m. split; [|split; auto]. unfold min_origin. cbn [map].
      change (Some o :: Some o2 :: map Some os) with (map Some (o :: o2 :: os)).
      rewrite mapM_map. rewrite mapM_ok with (g := fun d => d) by auto. rewrite map_id. cbn [bind]. rewrite E. reflexivity.
  Qed.
  Lemma leaves_ne (n : nested R D P) : built n -> leaves n <> [].
  Proof.
    revert n. apply (built_ind2 DS (fun n => leaves n <> [])); [discriminate|].
    intros legs base _ IH N. destruct legs as [|a legs]; [discriminate|]. cbn [leaves flat_map].
    inversion IH; subst. intros E. apply app_eq_nil in E. tauto.
  Qed.
End Origins.
