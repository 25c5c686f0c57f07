(** Lemmas about cash flow payoffs and lists. *)
From Coq Require Import Reals Lra Lia ZArith List Bool Permutation Sorting.
From Verif Require Import Num Py Spec MDates MCurve MRateCurve MOption MCashflow SDates SOption
  LBase LSort LDates LDateCurve2 LOption SCashflow.
Import ListNotations.
Open Scope R_scope.

Lemma nth_error_combine {A B} (l : list A) (m : list B) i a b :
  nth_error l i = Some a -> nth_error m i = Some b -> nth_error (combine l m) i = Some (a, b).
Proof.
  revert m i. induction l as [|x l IH]; intros [|y m] [|i] U V; try discriminate; cbn in *.
  - congruence.
  - auto.
Qed.

Lemma Rsum_perm l l' : Permutation l l' -> Rsum l = Rsum l'.
Proof. induction 1; simpl; lra. Qed.

(** consecutive periods *)
Fixpoint periods {A} (o : A) (ds : list A) : list (A * A) :=
  match ds with [] => [] | d :: ds' => (o, d) :: periods d ds' end.
Lemma combine_periods {A} (ds : list A) : forall o, combine (o :: removelast ds) ds = periods o ds.
Proof.
  induction ds as [|d ds IH]; intros o; [reflexivity|].
  destruct ds as [|d' ds]; [reflexivity|].
  change (removelast (d :: d' :: ds)) with (d :: removelast (d' :: ds)).
  change ((o, d) :: combine (d :: removelast (d' :: ds)) (d' :: ds) = periods o (d :: d' :: ds)).
  rewrite IH. reflexivity.
Qed.
Lemma periods_nth {A} (ds : list A) : forall o i s e,
  nth_error (o :: ds) i = Some s -> nth_error ds i = Some e -> nth_error (periods o ds) i = Some (s, e).
Proof.
  induction ds as [|d ds IH]; intros o [|i] s e U V; try discriminate; cbn in *.
  - congruence.
  - apply IH; auto.
Qed.
Lemma periods_snd {A} (ds : list A) : forall o, map snd (periods o ds) = ds.
Proof. induction ds; intros o; cbn; f_equal; auto. Qed.
Lemma periods_length {A} (ds : list A) o : length (periods o ds) = length ds.
Proof. rewrite <- (periods_snd ds o) at 2. now rewrite map_length. Qed.

Lemma mapM_nth {A B} (f : A -> res B) l r i x : mapM f l = Ok r -> nth_error l i = Some x ->
  exists y, f x = Ok y /\ nth_error r i = Some y.
Proof.
  intros H. apply mapM_inv in H. revert i. induction H; intros [|i] E; try discriminate; cbn in *.
  - injection E as <-. eauto.
  - auto.
Qed.
Lemma mapM_map {A B C} (f : B -> res C) (g : A -> B) l : mapM f (map g l) = mapM (fun x => f (g x)) l.
Proof. induction l; cbn; auto. now rewrite IHl. Qed.
Lemma mapM_ext_in {A B} (f g : A -> res B) l : (forall x, In x l -> f x = g x) -> mapM f l = mapM g l.
Proof.
  induction l; intros H; cbn; auto. rewrite H by (left; auto). rewrite IHl; auto.
  intros; apply H; right; auto.
Qed.
Lemma mapM_err_first {A B} (f : A -> res B) x l e : f x = Err e -> mapM f (x :: l) = Err e.
Proof. intros H. cbn. now rewrite H. Qed.

Section Dict.
  Context {D P V : Type} {DS : DateSys R D P} {tm : D -> R} {L : DateLaws DS tm}.

  Lemma assoc_congr (l : list (D * V)) x y : tm x = tm y -> assoc d_eqb x l = assoc d_eqb y l.
  Proof.
    intros E. induction l as [|[k v] l IH]; cbn; auto.
    destruct (d_eqb k x) eqn:U; destruct (d_eqb k y) eqn:W; auto.
    - apply (eqb_inv (tm:=tm)) in U. apply (eqb_finv (tm:=tm)) in W. congruence.
    - apply (eqb_finv (tm:=tm)) in U. apply (eqb_inv (tm:=tm)) in W. congruence.
  Qed.

  Lemma assoc_set_get (l : list (D * V)) k v x :
    assoc d_eqb x (assoc_set d_eqb k v l) = if d_eqb k x then Some v else assoc d_eqb x l.
  Proof.
    induction l as [|[k' v'] l IH]; cbn; auto.
    destruct (d_eqb k' k) eqn:U; cbn.
    - apply (eqb_inv (tm:=tm)) in U. destruct (d_eqb k' x) eqn:W; destruct (d_eqb k x) eqn:Z; auto.
      + apply (eqb_inv (tm:=tm)) in W. apply (eqb_finv (tm:=tm)) in Z. congruence.
      + apply (eqb_finv (tm:=tm)) in W. apply (eqb_inv (tm:=tm)) in Z. congruence.
    - rewrite IH. destruct (d_eqb k' x) eqn:W; destruct (d_eqb k x) eqn:Z; auto.
      apply (eqb_finv (tm:=tm)) in U. apply (eqb_inv (tm:=tm)) in W. apply (eqb_inv (tm:=tm)) in Z. congruence.
  Qed.

  Lemma dict_fold (l : list (D * V)) : forall acc x,
    assoc d_eqb x (fold_left (fun d kv => assoc_set d_eqb (fst kv) (snd kv) d) l acc) =
    match assoc d_eqb x (rev l) with Some v => Some v | None => assoc d_eqb x acc end.
  Proof.
    assert (APP : forall (a b : list (D * V)) x, assoc d_eqb x (a ++ b) =
              match assoc d_eqb x a with Some v => Some v | None => assoc d_eqb x b end).
    { induction a as [|[k v] a IH]; intros; cbn; auto. destruct (d_eqb k x); auto. }
    induction l as [|[k v] l IH]; intros acc x; cbn; auto.
    rewrite IH, APP, assoc_set_get. cbn.
    destruct (assoc d_eqb x (rev l)); auto. destruct (d_eqb k x); auto.
  Qed.
  Lemma dict_get (l : list (D * V)) x : assoc d_eqb x (dict_of d_eqb l) = assoc d_eqb x (rev l).
  Proof. unfold dict_of. rewrite dict_fold. destruct (assoc d_eqb x (rev l)); auto. Qed.

  Lemma assoc_none (l : list (D * V)) x : (forall k v, In (k, v) l -> d_eqb k x = false) ->
    assoc d_eqb x l = None.
  Proof.
    induction l as [|[k v] l IH]; intros H; cbn; auto.
    rewrite (H k v) by (left; auto). apply IH. intros; apply (H k0 v0); right; auto.
  Qed.

  Lemma dict_none (l : list (D * V)) x : (forall k v, In (k, v) l -> d_eqb k x = false) ->
    assoc d_eqb x (dict_of d_eqb l) = None.
  Proof. intros H. rewrite dict_get. apply assoc_none. intros k v I. apply (H k v). now apply in_rev. Qed.

  (** the last pair with the key decides *)
  Lemma dict_last (pre post : list (D * V)) k v x : d_eqb k x = true ->
    (forall k' v', In (k', v') post -> d_eqb k' x = false) ->
    assoc d_eqb x (dict_of d_eqb (pre ++ (k, v) :: post)) = Some v.
  Proof.
    intros E H. rewrite dict_get, rev_app_distr. cbn. rewrite <- app_assoc.
    assert (G : forall a b : list (D * V), (forall k' v', In (k', v') a -> d_eqb k' x = false) ->
              assoc d_eqb x (a ++ b) = assoc d_eqb x b).
    { induction a as [|[k' v'] a IH]; intros b HA; cbn; auto.
      rewrite (HA k' v') by (left; auto). apply IH. intros; apply (HA k'0 v'0); right; auto. }
    rewrite G by (intros k' v' I; apply (H k' v'); now apply in_rev). cbn. now rewrite E.
  Qed.

  Lemma dict_distinct (ds : list D) (vs : list V) i d v x :
    NoDup (map tm ds) -> nth_error ds i = Some d -> nth_error vs i = Some v -> d_eqb x d = true ->
    assoc d_eqb x (dict_of d_eqb (combine ds vs)) = Some v.
  Proof.
    intros ND A B E. apply (eqb_inv (tm:=tm)) in E.
    destruct (nth_error_split _ _ (nth_error_combine _ _ _ _ _ A B)) as (pre & post & S' & LP).
    rewrite S'. apply dict_last; [apply (eqb_t (tm:=tm)); auto|].
    intros k' v' I. apply (eqb_f (tm:=tm)). intros X.
    destruct (In_nth_error _ _ I) as [j J].
    assert (J' : nth_error (combine ds vs) (i + S j) = Some (k', v')).
    { rewrite S'. rewrite nth_error_app2 by lia. rewrite LP. replace (i + S j - i)%nat with (S j) by lia. exact J. }
    assert (K : nth_error ds (i + S j) = Some k').
    { clear -J'. revert ds vs J'. generalize (i + S j)%nat.
      induction n; intros [|a ds] [|b vs] H; try discriminate; cbn in *; [congruence|eauto]. }
    apply (map_nth_error tm) in K. apply (map_nth_error tm) in A.
    rewrite X, E in K. assert (i = i + S j)%nat; [|lia].
    apply (proj1 (NoDup_nth_error (map tm ds)) ND); [apply nth_error_Some; rewrite A; discriminate|].
    rewrite A, K. reflexivity.
  Qed.
End Dict.

Section Lists.
  Context {D P : Type} {DS : DateSys R D P} {DC : DayCounts R D} {tm : D -> R} {L : DateLaws DS tm}.
  Implicit Types (l : cflist R D P).

  Lemma cf_new_inv ds amounts o attr rated l : cf_new ds amounts o attr rated = Ok l ->
    let a := spread_arg amounts (length ds) in
    length a = length ds /\ l = mkCF ds (dict_of d_eqb (combine ds a)) o attr rated.
  Proof.
    unfold cf_new. destruct (length (spread_arg amounts (length ds)) =? length ds)%nat eqn:E; [|discriminate].
    apply Nat.eqb_eq in E. intros H. injection H as <-. auto.
  Qed.
  Lemma cf_new_ok ds a o attr rated : length a = length ds ->
    cf_new ds (Many a) o attr rated = Ok (mkCF ds (dict_of d_eqb (combine ds a)) o attr rated).
  Proof. intros H. unfold cf_new. cbn [spread_arg]. now rewrite H, Nat.eqb_refl. Qed.

  Lemma made_none l d : made l -> mem d_eqb d (cf_domain l) = false ->
    assoc d_eqb d (cf_flows l) = None.
  Proof.
    intros (ds & am & o & at_ & ra & H) M. destruct (cf_new_inv _ _ _ _ _ _ H) as [_ ->]. cbn in *.
    apply (dict_none (tm:=tm)). intros k v I. apply in_combine_l in I. unfold mem in M.
    destruct (d_eqb k d) eqn:E; auto. rewrite <- M. symmetry. apply existsb_exists. eauto.
  Qed.

  Lemma get_congr fuel flr l x y : tm x = tm y -> cf_get fuel flr l x = cf_get fuel flr l y.
  Proof. intros E. unfold cf_get, cf_flow. now rewrite (assoc_congr (tm:=tm) _ _ _ E). Qed.

  Lemma moved_offset d o d' : offset d o = Ok d' <-> moved_back d o d'.
  Proof.
    unfold offset, moved_back. destruct o as [p|]; [destruct (p_truthy p)|]; split; intros H; auto; congruence.
  Qed.
  Lemma offset_none d o : no_offset o -> offset d o = Ok d.
  Proof. unfold no_offset, offset. destruct o; auto. now intros ->. Qed.
End Lists.

Section Same.
  Context {D P : Type} {DS : DateSys R D P} {DC : DayCounts R D} {tm : D -> R} {L : DateLaws DS tm}.
  Implicit Types (l : cflist R D P).

  Lemma assoc_some_in {V} (l : list (D * V)) x v : assoc d_eqb x l = Some v ->
    exists k, In (k, v) l /\ d_eqb k x = true.
  Proof.
    induction l as [|[k w] l IH]; cbn; [discriminate|]. destruct (d_eqb k x) eqn:E; intros H.
    - injection H as ->. exists k. auto.
    - destruct (IH H) as (k' & I & F). exists k'. auto.
  Qed.
  Lemma assoc_in_some {V} (l : list (D * V)) x k v : In (k, v) l -> d_eqb k x = true ->
    exists w, assoc d_eqb x l = Some w.
  Proof.
    induction l as [|[k' w] l IH]; cbn; [easy|]. intros [E|I] H.
    - injection E as -> ->. rewrite H. eauto.
    - destruct (d_eqb k' x); eauto.
  Qed.

  Lemma same_flows fuel flr l vals (mk : R -> flow R D P) o attr rated :
    (forall v a, flow_value fuel flr (mk v) a = Ok v) -> made l ->
    mapM (cf_get fuel flr l) (cf_domain l) = Ok vals ->
    forall d, cf_get fuel flr (mkCF (cf_domain l) (dict_of d_eqb (combine (cf_domain l) (map mk vals))) o attr rated) d
              = cf_get fuel flr l d.
  Proof.
    intros HM M V d. pose proof (mapM_length _ _ _ V) as LV.
    destruct (mem d_eqb d (cf_domain l)) eqn:E.
    - unfold mem in E. apply existsb_exists in E. destruct E as (k & I & E).
      destruct (In_nth_error _ _ I) as [i Hi].
      destruct (mapM_nth _ _ _ _ _ V Hi) as (v & Ev & Hv).
      assert (IC : In (k, mk v) (rev (combine (cf_domain l) (map mk vals)))).
      { apply -> in_rev. apply (nth_error_In _ i). apply nth_error_combine; auto.
        now apply map_nth_error. }
      destruct (assoc_in_some _ d _ _ IC E) as [w W].
      unfold cf_get at 1. unfold cf_flow. cbn [cf_flows cf_attr].
      rewrite (dict_get (tm:=tm)), W.
      apply assoc_some_in in W. destruct W as (k' & I' & E'). apply in_rev in I'.
      destruct (In_nth_error _ _ I') as [j Hj].
      assert (G : exists v', nth_error (cf_domain l) j = Some k' /\ nth_error vals j = Some v' /\ w = mk v').
      { revert Hj. clear. revert vals j. induction (cf_domain l) as [|a ds IH]; intros [|b vs] [|j] H; try discriminate; cbn in *.
        - injection H as -> <-. eauto.
        - eauto. }
      destruct G as (v' & G1 & G2 & ->). rewrite HM.
      destruct (mapM_nth _ _ _ _ _ V G1) as (v'' & Ev' & Hv'). assert (v'' = v') by congruence. subst.
      rewrite <- Ev'. apply (get_congr (tm:=tm)). now apply eqb_inv.
    - unfold cf_get, cf_flow. cbn [cf_flows cf_attr]. rewrite (made_none (tm:=tm) l d M E).
      rewrite (dict_none (tm:=tm)); auto.
      intros k v I. apply in_combine_l in I. unfold mem in E.
      destruct (d_eqb k d) eqn:F; auto. rewrite <- E. symmetry. apply existsb_exists. eauto.
  Qed.

  Lemma made_new ds amounts o attr rated l : cf_new ds amounts o attr rated = Ok l -> made l.
  Proof. intros H. unfold made. eauto 10. Qed.
End Same.

Section Rates.
  Context {D P : Type} {DS : DateSys R D P} {DC : DayCounts R D} {tm : D -> R} {L : DateLaws DS tm}.

  Lemma last_default {A} (l : list A) : forall d o, last (d :: l) o = last l d.
  Proof.
    induction l as [|e l IH]; intros d o; [reflexivity|].
    change (last (d :: e :: l) o) with (last (e :: l) o). rewrite !IH. reflexivity.
  Qed.

  Lemma rate_payoffs_nth (o : D) dates (amounts : list R) count fixo pay c rs :
    rate_payoffs (o :: removelast dates) dates amounts count fixo pay c = Ok rs ->
    length rs = Nat.min (length dates) (length amounts) /\
    forall i s e a, nth_error (o :: dates) i = Some s -> nth_error dates i = Some e ->
      nth_error amounts i = Some a ->
      exists s' e', moved_back s pay s' /\ moved_back e pay e' /\
        nth_error rs i = Some (mkRP s' e' a count fixo (Some c)).
  Proof.
    unfold rate_payoffs. rewrite combine_periods. intros H. split.
    - apply mapM_length in H. rewrite H, combine_length, periods_length. reflexivity.
    - intros i s e a Hs He Ha. pose proof (periods_nth _ _ _ _ _ Hs He) as HP.
      pose proof (nth_error_combine _ _ _ _ _ HP Ha) as HC.
      destruct (mapM_nth _ _ _ _ _ H HC) as (r & E & N). cbv beta iota in E.
      destruct (offset e pay) as [e'|] eqn:E1; cbn [bind] in E; [|discriminate].
      destruct (offset s pay) as [s'|] eqn:E2; cbn [bind] in E; [|discriminate].
      injection E as <-. exists s', e'. rewrite <- !moved_offset. auto.
  Qed.

  Lemma rate_payoffs_plain starts dates (amounts : list R) count fixo pay c : no_offset pay ->
    rate_payoffs starts dates amounts count fixo pay c =
    Ok (map (fun x => let '(s, e, a) := x in mkRP s e a count fixo (Some c)) (combine (combine starts dates) amounts)).
  Proof.
    intros NO. unfold rate_payoffs. apply mapM_ok. intros [[s e] a] _. rewrite !offset_none by auto. reflexivity.
  Qed.

  (** a list of payoffs built by [f] from the rate payoffs *)
  Lemma rates_inv (f : ratep R D P -> flow R D P) (o : D) dates (amounts : list R) count fixo pay c orig attr l :
    (rs <- rate_payoffs (o :: removelast dates) dates amounts count fixo pay c ;;
     cf_new dates (Many (map f rs)) orig attr true) = Ok l -> NoDup (map tm dates) ->
    (length dates <= length amounts)%nat /\ cf_domain l = dates /\ cf_attr l = attr /\
    forall i s e a, nth_error (o :: dates) i = Some s -> nth_error dates i = Some e ->
      nth_error amounts i = Some a ->
      exists s' e', moved_back s pay s' /\ moved_back e pay e' /\
        forall e2, d_eqb e2 e = true ->
        assoc d_eqb e2 (cf_flows l) = Some (f (mkRP s' e' a count fixo (Some c))).
  Proof.
    destruct (rate_payoffs (o :: removelast dates) dates amounts count fixo pay c) as [rs|] eqn:E; cbn [bind]; [|discriminate].
    intros H ND. destruct (rate_payoffs_nth _ _ _ _ _ _ _ _ E) as [LEN NTH].
    destruct (cf_new_inv _ _ _ _ _ _ H) as [LEN2 ->]. cbn [spread_arg] in *. rewrite map_length in LEN2.
    split; [lia|]. split; [reflexivity|]. split; [reflexivity|].
    intros i s e a Hs He Ha. destruct (NTH i s e a Hs He Ha) as (s' & e' & M1 & M2 & N).
    exists s', e'. split; [auto|]. split; [auto|]. intros e2 Q. cbn [cf_flows].
    apply (dict_distinct (tm:=tm)) with i e; auto. now apply map_nth_error.
  Qed.

  Lemma forward_ok fuel (s : fsource R D P) d f : forward_at fuel s d f ->
    src_truthy s = true -> source_rate fuel s d = Ok f.
  Proof.
    unfold forward_at, source_rate. destruct s; cbn; try discriminate; intros H _; try congruence.
    destruct (is_interest (rc_cls c)); auto.
  Qed.
  Lemma forward_zero fuel (s : fsource R D P) d f : forward_at fuel s d f -> src_truthy s = false -> f = 0.
  Proof.
    unfold forward_at. destruct s; cbn; try discriminate; auto. intros -> H. now apply ntruthy_false.
  Qed.

  (** the value of a rate payoff *)
  Lemma rate_details_ok fuel (r : ratep R D P) s tau d f c :
    pay_count (rp_count r) (rp_start r) (rp_end r) = Ok tau -> moved_back (rp_start r) (rp_fixing r) d ->
    forward_at fuel s d f -> rp_rate r = Some c ->
    rate_details fuel r (PmSource s) = Ok (mkRD ((c + f) * tau * rp_amount r) tau (if src_truthy s then Some d else None)).
  Proof.
    intros T M F C. unfold rate_details. rewrite T. cbn [bind]. rewrite C. cbn [pm_truthy pm_source].
    destruct (src_truthy s) eqn:E.
    - apply moved_offset in M. rewrite M. cbn [bind]. rewrite (forward_ok _ _ _ _ F E). reflexivity.
    - cbn [bind]. rewrite (forward_zero _ _ _ _ F E). reflexivity.
  Qed.
End Rates.

Section Opt.
  Context {D P : Type} {DS : DateSys R D P} {DC : DayCounts R D}.

  Lemma market_strike fuel flr (m : omodel R D P) d s F K v t k :
    market fuel flr m d s F K v t -> market fuel flr m d (Some k) F k v t.
  Proof.
    intros (ov & E & V). exists ov. split; auto. unfold om_details in *.
    destruct (fw_value fuel (om_forward m) d) as [f|]; cbn [bind] in *; [|discriminate].
    destruct (vo_value fuel flr (om_vol m) d); cbn [bind] in *; [|discriminate].
    destruct (om_time m d); cbn [bind] in *; [|discriminate]. congruence.
  Qed.

  Lemma market_forward fuel flr (m : omodel R D P) d s F K v t :
    market fuel flr m d s F K v t ->
    src_truthy (om_forward m) = true /\ forward_at fuel (om_forward m) d F.
  Proof.
    intros (ov & E & V). unfold om_details in E.
    destruct (fw_value fuel (om_forward m) d) as [f|] eqn:W; cbn [bind] in *; [|discriminate].
    destruct (vo_value fuel flr (om_vol m) d); cbn [bind] in *; [|discriminate].
    destruct (om_time m d); cbn [bind] in *; [|discriminate]. injection E as -> _ _ _.
    destruct (om_forward m) as [|x|c|c|c|g]; cbn in *; try discriminate.
    - destruct (ntruthy x) eqn:N; [|discriminate]. split; congruence.
    - split; auto. destruct (fc_price c d); cbn in W; congruence.
    - split; auto. destruct (is_interest (rc_cls c)).
      + destruct (get_cash_rate fuel c d None None); cbn in W; congruence.
      + destruct (rc_call c d); cbn in W; congruence.
    - split; auto. destruct (dc_val c d); cbn in W; congruence.
    - split; auto. destruct (g d); cbn in W; congruence.
  Qed.

  Lemma mapM_app {A B} (f : A -> res B) l l' r r' : mapM f l = Ok r -> mapM f l' = Ok r' ->
    mapM f (l ++ l') = Ok (r ++ r').
  Proof.
    revert r. induction l as [|a l IH]; intros r H H'; cbn in *; [injection H as <-; auto|].
    destruct (f a) as [b|]; cbn [bind] in *; [|discriminate].
    destruct (mapM f l) as [bs|]; cbn [bind] in *; [|discriminate]. injection H as <-.
    now rewrite (IH bs).
  Qed.
  Lemma mapM_perm {A B} (f : A -> res B) l l' r : Permutation l l' -> mapM f l = Ok r ->
    exists r', mapM f l' = Ok r' /\ Permutation r r'.
  Proof.
    intros PM. revert r. induction PM; intros r H.
    - cbn in H. injection H as <-. exists []. auto.
    - cbn in *. destruct (f x) as [y|]; cbn [bind] in *; [|discriminate].
      destruct (mapM f l) as [ys|]; cbn [bind] in *; [|discriminate]. injection H as <-.
      destruct (IHPM ys eq_refl) as (r' & E & Q). rewrite E. cbn [bind]. eauto.
    - cbn in *. destruct (f x) as [a|], (f y) as [b|]; cbn [bind] in *; try discriminate.
      destruct (mapM f l) as [ys|]; cbn [bind] in *; [|discriminate]. injection H as <-.
      eexists. split; [reflexivity|]. apply perm_swap.
    - destruct (IHPM1 _ H) as (r1 & E1 & Q1). destruct (IHPM2 _ E1) as (r2 & E2 & Q2).
      exists r2. split; auto. now transitivity r1.
  Qed.
End Opt.
