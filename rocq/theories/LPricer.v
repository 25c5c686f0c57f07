(** Lemmas about the pricer. *)
From Coq Require Import Reals Lra Lia List Bool ZArith Permutation.
From Verif Require Import Num Py Spec MDates MCurve MRateCurve MOption MCashflow MBracket MPricer
  SDates SCurve SRateCurve SPricer LBase LSort LCurve LCurve2 LDates LDateCurve LRateCurve LRateCurve3.
Import ListNotations.
Open Scope R_scope.

Lemma set_nth_nth {A} (l : list A) : forall i (v : A), (i < length l)%nat ->
  nth_error (set_nth i v l) i = Some v.
Proof. induction l as [|x l IH]; intros [|i] v H; cbn in *; try lia; auto. apply IH. lia. Qed.

Lemma set_nth_other {A} (l : list A) : forall i j (v : A), i <> j ->
  nth_error (set_nth i v l) j = nth_error l j.
Proof. induction l as [|x l IH]; intros [|i] [|j] v H; cbn; auto; try congruence. Qed.

Lemma set_nth_twice {A} (l : list A) : forall i (v w : A), set_nth i v (set_nth i w l) = set_nth i v l.
Proof. induction l as [|x l IH]; intros [|i] v w; cbn; auto. now rewrite IH. Qed.

Lemma set_nth_same {A} (l : list A) : forall i (v : A), nth_error l i = Some v -> set_nth i v l = l.
Proof.
  induction l as [|x l IH]; intros [|i] v H; cbn in *; auto; try discriminate; [congruence|].
  f_equal. auto.
Qed.

Lemma nth_res_some {A} (l : list A) i x : nth_error l i = Some x -> nth_res l i = Ok x.
Proof. intros H. unfold nth_res. now rewrite H. Qed.

Lemma nth_res_get {A} (l : list A) i x : nth_res l i = Ok x -> nth_error l i = Some x.
Proof. unfold nth_res. destruct (nth_error l i); congruence. Qed.

Lemma mapM_forall2 {A B} (f : A -> res B) l r : mapM f l = Ok r <-> Forall2 (fun x y => f x = Ok y) l r.
Proof.
  split; [apply mapM_inv|]. intros F. induction F; cbn; auto. rewrite H. cbn [bind]. now rewrite IHF.
Qed.

Lemma mapS_inv {S A B} (f : A -> st S B) : forall l s r s',
  mapS f l s = (Ok r, s') -> match l with
    | [] => r = [] /\ s' = s
    | x :: l' => exists y ys s1, f x s = (Ok y, s1) /\ mapS f l' s1 = (Ok ys, s') /\ r = y :: ys
    end.
Proof.
  intros [|x l] s r s' H; cbn in H.
  - unfold ret in H. split; congruence.
  - unfold bindS in H. destruct (f x s) as [[y|e] s1] eqn:E; [|discriminate].
    destruct (mapS f l s1) as [[ys|e] s2] eqn:F; [|discriminate]. unfold ret in H.
    injection H as <- <-. eauto 6.
Qed.

Lemma mapS_still {S A B} (f : A -> st S B) (P : S -> Prop) : forall l s r s',
  (forall x s y s', In x l -> P s -> f x s = (Ok y, s') -> P s') -> P s ->
  mapS f l s = (Ok r, s') -> P s'.
Proof.
  induction l as [|x l IH]; intros s r s' H HP E; apply mapS_inv in E.
  - destruct E as [_ ->]. auto.
  - destruct E as (y & ys & s1 & E1 & E2 & ->). apply (IH s1 ys s'); auto.
    + intros. eapply H; eauto. now right.
    + eapply H; eauto. now left.
Qed.

(** a pure loop *)
Lemma mapS_pure {S A B} (f : A -> st S B) s : forall l r,
  Forall2 (fun x y => f x s = (Ok y, s)) l r -> mapS f l s = (Ok r, s).
Proof.
  intros l r F. induction F; cbn; auto. unfold bindS. now rewrite H, IHF.
Qed.

Lemma mapS_pure_inv {S A B} (f : A -> st S B) : (forall x s y s', f x s = (Ok y, s') -> s' = s) ->
  forall l s r s', mapS f l s = (Ok r, s') -> s' = s /\ Forall2 (fun x y => f x s = (Ok y, s)) l r.
Proof.
  intros PU. induction l as [|x l IH]; intros s r s' E; apply mapS_inv in E.
  - destruct E as [-> ->]. auto.
  - destruct E as (y & ys & s1 & E1 & E2 & ->). pose proof (PU _ _ _ _ E1) as ->.
    destruct (IH _ _ _ E2) as [-> F]. auto.
Qed.

Section Pricer.
  Context {D P : Type} {DS : DateSys R D P} {DC : DayCounts R D}.
  Implicit Types (h : heap R D P) (disc : rcurve R D P).

  Lemma heap_eta h : h = mkH (h_curves h) (h_models h) (h_lists h).
  Proof. now destruct h. Qed.

  Lemma filterM_future v : forall l, filterM (future (Some v)) l = Ok (filter (fun d => d_leb v d) l).
  Proof. induction l as [|x l IH]; cbn; auto. rewrite IH. cbn [bind]. now destruct (d_leb v x). Qed.

  (** the sum of line 114 *)
  Definition discount (fuel : nat) disc (v : D) (ds : list D) (xs : list R) : res R :=
    vs <- mapM (fun ta => df <- get_discount_factor fuel disc v (fst ta) ;; Ok (df * snd ta))
               (combine ds xs) ;; Ok (nsum vs).

  Lemma worth_iff fuel flr disc v c x : worth fuel flr disc v c x <->
    exists xs, cf_get_list fuel flr c (due v c) = Ok xs /\ discount fuel disc v (due v c) xs = Ok x.
  Proof.
    unfold worth, discount, cf_get_list. generalize (due v c) as ds. intros ds. split.
    - intros (xs & F & ->). revert F. intros F.
      assert (H : exists as_, mapM (cf_get fuel flr c) ds = Ok as_ /\
                mapM (fun ta => df <- get_discount_factor fuel disc v (fst ta) ;; Ok (df * snd ta)) (combine ds as_) = Ok xs).
      { induction F as [|d y ds ys (df & a & H1 & H2 & ->) F (as_ & I1 & I2)].
        - exists []. auto.
        - exists (a :: as_). cbn [mapM combine fst snd]. rewrite H2, H1. cbn [bind]. rewrite I1, I2. auto. }
      destruct H as (as_ & H1 & H2). exists as_. split; auto. rewrite H2. cbn [bind]. now rewrite nsum_Rsum.
    - intros (as_ & H1 & H2).
      destruct (mapM _ (combine ds as_)) as [vs|] eqn:E; [|discriminate]. cbn [bind] in H2.
      rewrite nsum_Rsum in H2. injection H2 as <-. exists vs. split; auto.
      apply mapM_forall2 in H1. revert vs E. induction H1 as [|d a ds as_ H1 F IH]; intros vs E.
      + cbn in E. injection E as <-. constructor.
      + cbn [combine mapM fst snd] in E. destruct (get_discount_factor fuel disc v d) as [df|] eqn:E1; [|discriminate].
        cbn [bind] in E. destruct (mapM _ (combine ds as_)) as [ws|] eqn:E2; [|discriminate].
        cbn [bind] in E. injection E as <-. constructor; [|now apply IH]. exists df, a. auto.
  Qed.

  (** the heap during the computation of the flows *)
  Definition valued h (v : D) (i : nat) : heap R D P :=
    match nth_error (h_lists h) i with
    | Some l => match hl_attr l with
                | HModel j => match nth_error (h_models h) j with
                              | Some m => mkH (h_curves h) (set_nth j (mkHM (Some v) (hm_model m)) (h_models h)) (h_lists h)
                              | None => h
                              end
                | _ => h
                end
    | None => h
    end.

  Lemma pv_list_run fuel flr disc v i h c : seen h v i c ->
    pv_list fuel flr disc (Some v) i h =
    match cf_get_list fuel flr c (due v c) with
    | Ok xs => (discount fuel disc v (due v c) xs, h)
    | Err e => (Err e, valued h v i)
    end.
  Proof.
    intros (l & a & Hl & -> & Ha). unfold pv_list, bindS, get_list, lift, valued.
    rewrite (nth_res_some _ _ _ Hl), Hl. unfold due. cbn [cf_domain].
    destruct (hl_attr l) as [|s|j|b] eqn:E; [| | |contradiction].
    - subst a. unfold ret. rewrite filterM_future. unfold view, list_view, attr_view. rewrite E. cbn [bind].
      destruct (cf_get_list _ _ _ _); reflexivity.
    - subst a. unfold ret. rewrite filterM_future. unfold view, list_view, attr_view. rewrite E. cbn [bind].
      destruct (cf_get_list _ _ _ _); reflexivity.
    - destruct Ha as (m & Hm & ->). unfold set_valuation, bindS, get_model, put_model, ret.
      rewrite (nth_res_some _ _ _ Hm), Hm. rewrite filterM_future. unfold view, list_view, attr_view.
      rewrite E. cbn [h_models bind].
      assert (LT : (j < length (h_models h))%nat) by (apply nth_error_Some; congruence).
      rewrite (nth_res_some _ _ (mkHM (Some v) (hm_model m))) by now apply set_nth_nth. cbn [bind].
      change (model_view (mkH (h_curves h) (set_nth j (mkHM (Some v) (hm_model m)) (h_models h)) (h_lists h))
                (mkHM (Some v) (hm_model m))) with (model_view h (mkHM (Some v) (hm_model m))).
      destruct (cf_get_list _ _ _ _) as [xs|]; [|reflexivity]. cbn [h_models h_curves h_lists hm_model].
      rewrite set_nth_twice. f_equal.
      rewrite set_nth_same; [symmetry; apply heap_eta|]. rewrite Hm. now destruct m.
  Qed.

  Lemma pv_list_ok fuel flr disc v i h c x : seen h v i c ->
    (worth fuel flr disc v c x <-> pv_list fuel flr disc (Some v) i h = (Ok x, h)).
  Proof.
    intros S. rewrite (pv_list_run _ _ _ _ _ _ _ S), worth_iff. split.
    - intros (xs & -> & ->). reflexivity.
    - destruct (cf_get_list _ _ _ _) as [xs|]; [|discriminate]. intros H. exists xs. split; auto. congruence.
  Qed.

  (** a list that can be valued is seen *)
  Lemma pv_list_seen fuel flr disc v i h x h' : pv_list fuel flr disc (Some v) i h = (Ok x, h') ->
    exists c, seen h v i c.
  Proof.
    unfold pv_list, bindS, get_list, get_model. intros H.
    destruct (nth_res (h_lists h) i) as [l|] eqn:Hl; [|discriminate]. apply nth_res_get in Hl.
    destruct (hl_attr l) as [|s|j|b] eqn:E; [| | |discriminate].
    - eexists. exists l. eexists. split; [eauto|]. split; [reflexivity|]. now rewrite E.
    - eexists. exists l. eexists. split; [eauto|]. split; [reflexivity|]. now rewrite E.
    - destruct (nth_res (h_models h) j) as [m|] eqn:Hm; [|discriminate]. apply nth_res_get in Hm.
      eexists. exists l. eexists. split; [eauto|]. split; [reflexivity|]. rewrite E. eauto.
  Qed.

  (** valuing leaves everything unchanged *)
  Lemma pv_list_still fuel flr disc v i h x h' : pv_list fuel flr disc v i h = (Ok x, h') -> h' = h.
  Proof.
    destruct v as [v|].
    - intros H. destruct (pv_list_seen _ _ _ _ _ _ _ _ H) as [c S].
      rewrite (pv_list_run _ _ _ _ _ _ _ S) in H. destruct (cf_get_list _ _ _ _); congruence.
    - unfold pv_list, bindS, get_list, get_model, lift. intros H.
      destruct (nth_res (h_lists h) i) as [l|] eqn:Hl; [|discriminate]. apply nth_res_get in Hl.
      assert (K : forall s : heap R D P, match filterM (future None) (cf_domain (hl_list l)) with
         | Ok a => a = [] | Err _ => True end) by (intros _; destruct (cf_domain (hl_list l)); cbn; auto).
      destruct (hl_attr l) as [|s|j|b] eqn:E; [| | |discriminate].
      + unfold ret in H. specialize (K h). destruct (filterM _ _) as [pd|]; [|discriminate]. subst pd.
        unfold view in H. destruct (list_view h l); [|discriminate]. cbn in H. congruence.
      + unfold ret in H. specialize (K h). destruct (filterM _ _) as [pd|]; [|discriminate]. subst pd.
        unfold view in H. destruct (list_view h l); [|discriminate]. cbn in H. congruence.
      + destruct (nth_res (h_models h) j) as [m|] eqn:Hm; [|discriminate]. pose proof Hm as Hr. apply nth_res_get in Hm.
        unfold set_valuation, bindS, get_model, put_model, ret in H. rewrite Hr in H.
        specialize (K h). destruct (filterM _ _) as [pd|]; [|discriminate]. subst pd.
        unfold view in H. destruct (list_view _ l); [|discriminate]. cbn in H.
        assert (LT : (j < length (h_models h))%nat) by (apply nth_error_Some; congruence).
        rewrite (nth_res_some _ _ (mkHM None (hm_model m))) in H by now apply set_nth_nth. cbn [hm_model] in H.
        rewrite set_nth_twice in H. injection H as _ <-.
        rewrite set_nth_same; [symmetry; apply heap_eta|]. rewrite Hm. now destruct m.
  Qed.

  Lemma pv_of_still fuel flr disc v p h x h' : pv_of fuel flr disc v p h = (Ok x, h') -> h' = h.
  Proof.
    destruct p as [i|legs dom o]; cbn.
    - apply pv_list_still.
    - unfold bindS, ret. intros H. destruct (mapS _ legs h) as [[vs|e] s] eqn:E; [|discriminate].
      apply mapS_pure_inv in E.
      + destruct E as [-> _]. congruence.
      + intros. eapply pv_list_still; eauto.
  Qed.

  Lemma pv_still fuel flr p k v h x h' : get_present_value fuel flr p k v h = (Ok x, h') -> h' = h.
  Proof.
    unfold get_present_value, bindS, get_curve. destruct (nth_res (h_curves h) k); [|discriminate].
    apply pv_of_still.
  Qed.
End Pricer.

(** * Sums over aggregated dates *)
Definition at_time {A} (t : R) (l : list (R * A)) : list (R * A) :=
  filter (fun p => if Req_EM_T (fst p) t then true else false) l.

Lemma bump (t y : R) (f g : R -> R) : forall U, NoDup U -> In t U ->
  (forall u, u <> t -> g u = f u) -> g t = y + f t ->
  Rsum (map g U) = y + Rsum (map f U).
Proof.
  induction U as [|u U IH]; intros ND I H1 H2; [contradiction|]. inversion ND; subst. cbn [map Rsum].
  destruct I as [->|I].
  - rewrite H2. rewrite (map_ext_in g f U); [lra|]. intros u Iu. apply H1. intros ->. contradiction.
  - rewrite IH by auto. rewrite (H1 u); [lra|]. intros ->. contradiction.
Qed.

Lemma Rsum_zero {A} (f : A -> R) l : (forall x, In x l -> f x = 0) -> Rsum (map f l) = 0.
Proof. induction l as [|x l IH]; intros H; cbn; auto. rewrite H, IH; [lra| |now left]. intros. apply H. now right. Qed.

Lemma Rsum_split (A : list (R * R)) : forall U, NoDup U -> (forall p, In p A -> In (fst p) U) ->
  Rsum (map snd A) = Rsum (map (fun t => Rsum (map snd (at_time t A))) U).
Proof.
  induction A as [|[t y] A IH]; intros U ND H.
  - cbn. symmetry. now apply Rsum_zero.
  - cbn [map Rsum snd]. rewrite (IH U ND) by (intros p I; apply H; now right). symmetry.
    apply (bump t); auto.
    + now apply (H (t, y)); left.
    + intros u Nu. unfold at_time. cbn [filter fst]. destruct (Req_EM_T t u); [congruence|reflexivity].
    + unfold at_time. cbn [filter fst]. destruct (Req_EM_T t t); [reflexivity|congruence].
Qed.

Lemma at_time_none {A} (l : list A) (f : A -> R) (g : A -> R) t : ~ In t (map f l) ->
  Rsum (map snd (at_time t (map (fun d => (f d, g d)) l))) = 0.
Proof.
  induction l as [|x l IH]; intros NI; cbn; auto. destruct (Req_EM_T (f x) t) as [E|E].
  - exfalso. apply NI. left. auto.
  - apply IH. intros I. apply NI. now right.
Qed.

Lemma at_time_one {A} (l : list A) (f : A -> R) (g : A -> R) d : NoDup (map f l) -> In d l ->
  Rsum (map snd (at_time (f d) (map (fun d => (f d, g d)) l))) = g d.
Proof.
  induction l as [|x l IH]; intros ND I; [contradiction|]. inversion ND; subst. cbn.
  destruct I as [->|I].
  - destruct (Req_EM_T (f d) (f d)); [|congruence]. cbn.
    change (Rsum (map snd (filter _ _))) with (Rsum (map snd (at_time (f d) (map (fun d => (f d, g d)) l)))).
    rewrite at_time_none; auto. lra.
  - destruct (Req_EM_T (f x) (f d)) as [E|E].
    + exfalso. apply H1. rewrite E. now apply in_map.
    + now apply IH.
Qed.

Lemma Rsum_concat l : Rsum (concat l) = Rsum (map Rsum l).
Proof. induction l; cbn; auto. now rewrite Rsum_app, IHl. Qed.

Lemma Rsum_scale k l : Rsum (map (fun x => k * x) l) = k * Rsum l.
Proof. induction l; cbn; [lra|]. rewrite IHl. lra. Qed.

Lemma at_time_app {A} t (a b : list (R * A)) : at_time t (a ++ b) = at_time t a ++ at_time t b.
Proof. apply filter_app. Qed.

Definition val {A} (z : A) (r : res A) : A := match r with Ok a => a | Err _ => z end.

Lemma Rsum_filter {A} (p : A -> bool) (g : A -> R) l :
  Rsum (map g (filter p l)) = Rsum (map (fun x => if p x then g x else 0) l).
Proof. induction l as [|x l IH]; cbn; auto. destruct (p x); cbn; rewrite IH; lra. Qed.

Lemma nodup_filter {A} (f : A -> R) p l : NoDup (map f l) -> NoDup (map f (filter p l)).
Proof.
  induction l as [|x l IH]; cbn; intros H; auto. inversion H; subst. destruct (p x); cbn; auto.
  constructor; auto. intros I. apply H2. apply in_map_iff in I. destruct I as (y & E & I).
  apply filter_In in I. rewrite <- E. apply in_map. tauto.
Qed.

(** a curve with a single zero rate *)
Section Flat.
  Context {D P : Type} {DS : DateSys R D P} {DC : DayCounts R D} {tm : D -> R} {L : DateLaws DS tm}.

  Lemma pl_single (a z x y : R) : piecewise_linear [(a, z)] x y -> y = z.
  Proof.
    intros [(b & yb & e & ye & C & _)|[(b & I & _)|(b & I & _)]].
    - destruct C as (I1 & I2 & LT & _). cbn in I1, I2. destruct I1 as [E1|[]], I2 as [E2|[]].
      injection E1 as -> ->. injection E2 as -> ->. lra.
    - cbn in I. destruct I as [E|[]]. congruence.
    - cbn in I. destruct I as [E|[]]. congruence.
  Qed.

  Lemma single_curve (count : dcspec R D) tau k (o : D) (r : R) (tenor : option P) orig o' :
    additive (dc_apply count) tau -> linear_cls k -> dom_origin orig [o] = Some o' ->
    exists c, rc_new k [o] [r] None orig count tenor = Ok c /\ built count tau k [o] orig o' tenor c /\
      forall d, rc_call c d = Ok r.
  Proof.
    intros A K HO.
    destruct (rc_new_linear (L:=L) count tau A k [o] [r] orig o' tenor) as (c & E & B & _ & V); auto.
    - repeat constructor. intros [].
    - discriminate.
    - exists c. split; auto. split; auto. intros d. destruct (V d) as (y & Hy & PL). rewrite Hy. f_equal.
      specialize (PL (tau o) (fun a b => tau_diff A o a b)). cbn in PL. now apply pl_single in PL.
  Qed.

  Lemma flat_zero (o : D) (r : R) (tenor : option P) : exists c,
    rc_new CZeroRate [o] [r] None None DcDefault tenor = Ok c /\ rc_origin c = Some o /\
    (forall d, rc_call c d = Ok r) /\
    forall n s t, get_discount_factor (S (S n)) c s t = Ok (exp (- (r * (tm t - tm s)))).
  Proof.
    destruct (single_curve DcDefault _ CZeroRate o r tenor None o (default_additive (L:=L)) eq_refl eq_refl)
      as (c & E & (B1 & B2 & B3 & B4 & B5 & B6 & B7 & B8 & B9 & B10) & V).
    exists c. split; auto. split; auto. split; auto. intros n s t.
    unfold get_discount_factor, interest_only. rewrite B1. cbn [is_interest].
    rewrite (flat_factor (L:=L) c o _ B3 B10 n s t r r); auto; [|left; auto|apply V|apply V].
    do 3 f_equal. lra.
  Qed.
End Flat.
