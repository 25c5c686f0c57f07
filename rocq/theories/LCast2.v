(** Lemmas about casting rate curves: the stored values are the rates of the curve cast. *)
From Coq Require Import Reals Lra Lia List Bool ZArith Sorted Permutation.
From Verif Require Import Num Py Spec SInterpolation SCurve SDates SRateCurve SCast LBase LSort LCompounding MCompounding MInterpolation MDates
  MCurve MRateCurve LDates LFuel LCurve LCurve2 LDateCurve LRateCurve LRateCurve2 LRateCurve3 LRateCurve4 LCredit LCast.
Import ListNotations.
Open Scope R_scope.

Lemma adm_constant ps : distinct ps -> admissible (SBase Kconstant) ps.
Proof.
  intro D. split; [intros n; discriminate|]. split; auto. split; [|split].
  - simpl. unfold two_args. intuition congruence.
  - intros [k [Ik Lk]]. apply log_kind_b in Lk. simpl in Ik. exfalso. intuition; subst; discriminate.
  - intros k Ik. destruct Ik.
Qed.
Lemma adm_log_linear ps : distinct ps -> positive ps -> admissible log_linear_scheme ps.
Proof.
  intros D P. split; [intros n; discriminate|]. split; auto. split; [|split]; auto.
  - simpl. unfold two_args. intuition congruence.
  - intros k Ik Rk. simpl in Ik. exfalso. destruct Rk; intuition congruence.
Qed.

Lemma mapM_each {A B} (f : A -> res B) l r : mapM f l = Ok r -> forall x, In x l -> exists y, f x = Ok y.
Proof.
  intro H. apply mapM_inv in H. induction H as [|a y l r Ha _ IH]; intros x I; [destruct I|].
  destruct I as [<-|I]; eauto.
Qed.

Lemma short_rate_S {D P} {DS : DateSys R D P} {DC : DayCounts R D} n (c : rcurve R D P) start :
  short_rate (S n) c start =
        match rc_cls c with
        | CShortRate | CHazard => rc_call c start
        | _ =>
            lo <- d_min (rc_domain c) ;;
            if d_ltb start lo then short_rate n c lo
            else
              hi <- d_max (rc_domain c) ;;
              if d_leb hi start then
                match rc_cls c with
                | CMargSurvival | CMargDefault =>
                    hi' <- d_add hi (p_str Tday) ;; rate n c hi hi'
                | _ => hi' <- d_sub hi (p_str Tday) ;; short_rate n c hi'
                end
              else
                previous <- d_max (filter (fun d => d_leb d start) (rc_domain c)) ;;
                follow <- d_min (filter (fun d => d_ltb start d) (rc_domain c)) ;;
                if negb (d_leb previous start && d_leb start follow) then Err AssertionError
                else if negb (d_ltb previous follow) then Err AssertionError
                else rate n c previous follow
        end.
Proof. reflexivity. Qed.

Definition marginal_cls (k : cls) : Prop := k = CMargSurvival \/ k = CMargDefault.

Section Stored.
  Context {D P : Type} {DS : DateSys R D P} {tm : D -> R} {L : DateLaws DS tm} {DC : DayCounts R D}.
  Context (src : rcurve R D P) (o : D) (tau : D -> D -> R) (C : castable src o tau).

  Lemma stored_on k fuel flr ds orig o' tenor : ~ prob_cls k -> NoDup (map tm ds) -> ds <> [] ->
    dom_origin (origin_or orig (dc_origin0 (rc_dc src))) ds = Some o' ->
    (forall x, In x ds -> exists y, storage_value fuel flr k src x = Ok y /\ (marginal_cls k -> 0 < y)) ->
    exists c, rc_cast_on fuel flr k ds src None orig DcDefault tenor = Ok c /\
      built (dc_count (rc_dc src)) tau k ds (origin_or orig (dc_origin0 (rc_dc src))) o' tenor c /\
      (forall x, In x ds -> rc_call c x = storage_value fuel flr k src x).
  Proof.
    intros NP ND NE HO HS. set (g := fun x => value_of (storage_value fuel flr k src x)).
    assert (HG : forall x, In x ds -> storage_value fuel flr k src x = Ok (g x)).
    { intros x Ix. apply value_of_ok. destruct (HS x Ix) as [y [E _]]. eauto. }
    assert (A : additive (dc_apply (dc_count (rc_dc src))) tau) by exact (ca_time _ _ _ C).
    assert (DT : distinct (times tau o' ds (map g ds))) by (apply (times_distinct (L:=L) _ tau A); [now rewrite map_length|auto]).
    assert (AD : admissible (dc_spec (cls_interp k) None) (times tau o' ds (map g ds))).
    { change (dc_spec (cls_interp k) None) with (cls_interp k).
      destruct k; try (exfalso; apply NP; unfold prob_cls; tauto);
        try (apply adm_linear; exact DT); try (apply adm_constant; exact DT);
        (apply adm_log_linear; [exact DT|]; intros a y Iy; unfold times in Iy; apply in_combine_r in Iy;
         apply in_map_iff in Iy; destruct Iy as [x [<- Ix]]; destruct (HS x Ix) as [y [E Py]];
         unfold g; rewrite E; apply Py; unfold marginal_cls; auto). }
    destruct (dstate_exists (tm:=tm) (dc_count (rc_dc src)) tau (cls_interp k) None (origin_or orig (dc_origin0 (rc_dc src))) o' ds (map g ds))
      as [d S]; auto. { now rewrite map_length. }
    exists (mkR k d tenor None). split; [|split].
    - eapply cast_on_eq; eauto. { apply (ca_value _ _ _ C). }
      cbn [dc_or]. rewrite (kwarg_count src o tau C).
      apply (dstate_iff (L:=L) _ tau A _ _ _ _ _ o'); auto. now rewrite map_length.
    - eapply built_of; eauto.
    - intros x Ix. rewrite rc_call_plain, (HG x Ix). apply dc_val_some.
      eapply dstate_data; eauto. apply in_times. now apply in_combine_map.
  Qed.

  (** before its first date the curve is constant *)
  Lemma stored_before k fuel flr ds orig o' tenor c f d : linear_cls k -> NoDup (map tm ds) ->
    dom_origin (origin_or orig (dc_origin0 (rc_dc src))) ds = Some o' -> monotone tau ->
    rc_cast_on fuel flr k ds src None orig DcDefault tenor = Ok c ->
    In f ds -> (forall x, In x ds -> tm f <= tm x) -> tm d <= tm f -> rc_call c d = rc_call c f.
  Proof.
    intros K ND HO M H If Hf Hd. assert (A : additive (dc_apply (dc_count (rc_dc src))) tau) by exact (ca_time _ _ _ C).
    unfold rc_cast_on in H. destruct (mapM (storage_value fuel flr k src) ds) as [ys|] eqn:EM; [|discriminate]. cbn [bind] in H.
    destruct (mapM (rc_call src) (rc_domain src)) as [rv|]; [|discriminate]. cbn [bind] in H.
    destruct (dc_new _ _ _ _ _ _) as [dc|] eqn:EN; [|discriminate]. cbn [bind] in H. inversion H; subst c.
    cbn [dc_or] in EN. rewrite (kwarg_count src o tau C) in EN.
    assert (HL : length ds = length ys) by (symmetry; now apply mapM_length in EM).
    apply (dstate_iff (L:=L) _ tau A _ _ _ _ _ o') in EN; auto. rewrite K in EN.
    assert (LE : forall a b, tm a <= tm b -> tau o' a <= tau o' b).
    { intros u w Huw. pose proof (add_add _ _ A o' u w) as Q'. cut (0 <= tau u w); [lra|].
      destruct (Rle_lt_or_eq_dec _ _ Huw) as [Q|Q].
      - left. apply M. now apply ltb_t.
      - right. symmetry. apply (tau_eq A). now apply eqb_t. }
    assert (EX : exists y, In (tau o' f, y) (times tau o' ds ys)).
    { clear - If HL. unfold times. revert ys HL. induction ds as [|a l IH]; intros [|y ys] HL; try discriminate HL; [destruct If|].
      destruct If as [->|If]; [exists y; left; reflexivity|]. destruct (IH If ys) as [z Hz]; [now inversion HL|]. exists z. right. exact Hz. }
    destruct EX as [y Iy].
    assert (DT : distinct (times tau o' ds ys)) by (apply (times_distinct (L:=L) _ tau A); auto).
    assert (UQ : forall z, In (tau o' f, z) (times tau o' ds ys) -> z = y).
    { intros z Iz. apply (LInterpolation.pairs_get_in _ _ _ DT) in Iz. pose proof (LInterpolation.pairs_get_in _ _ _ DT Iy). congruence. }
    assert (FST : forall a z, In (a, z) (times tau o' ds ys) -> tau o' f <= a).
    { intros a z I. unfold times in I. apply in_combine_l in I. apply in_map_iff in I. destruct I as [x [<- Ix]]. now apply LE, Hf. }
    assert (G : forall x, tm x <= tm f -> dc_call dc x = Ok (Some y)).
    { intros x Hx. destruct (dstate_linear (tm:=tm) _ tau A (origin_or orig (dc_origin0 (rc_dc src))) o' ds ys dc x (tau o')) as [w [Ew PL]]; auto.
      { intros a b. apply (tau_diff A). } { intro E0. rewrite E0 in If. destruct If. }
      rewrite Ew. do 2 f_equal. specialize (LE _ _ Hx). fold (times tau o' ds ys) in PL.
      destruct PL as [(a & ya & b & yb & Q & Hab & ->)|[(a & I & Fa & Ha)|(b & I & Lb & Hb)]].
      - destruct Q as (I1 & I2 & LT & _). pose proof (FST _ _ I1) as F1. assert (a = tau o' f) as -> by lra.
        rewrite <- (UQ _ I1). unfold chord. replace (tau o' x - tau o' f) with 0 by lra. unfold Rdiv. ring.
      - pose proof (FST _ _ I). pose proof (Fa _ _ Iy). assert (a = tau o' f) as -> by lra. now apply UQ.
      - pose proof (FST _ _ I). assert (b = tau o' f) as -> by lra. now apply UQ. }
    rewrite !rc_call_plain. unfold dc_val. rewrite !G; auto.
  Qed.

  (** ... on a grid made of a list of dates *)
  Lemma stored_set k fuel flr l orig o' tenor : ~ prob_cls k -> l <> [] ->
    dom_origin (origin_or orig (dc_origin0 (rc_dc src))) (date_set l) = Some o' ->
    (forall x, In x l -> exists y, storage_value fuel flr k src x = Ok y /\ (marginal_cls k -> 0 < y)) ->
    (forall x y, In x l -> In y l -> d_eqb x y = true -> storage_value fuel flr k src x = storage_value fuel flr k src y) ->
    exists c, rc_cast_on fuel flr k (date_set l) src None orig DcDefault tenor = Ok c /\
      built (dc_count (rc_dc src)) tau k (date_set l) (origin_or orig (dc_origin0 (rc_dc src))) o' tenor c /\
      (forall x, In x l -> rc_call c x = storage_value fuel flr k src x).
  Proof.
    intros NP NE HO HS HE.
    destruct (stored_on k fuel flr (date_set l) orig o' tenor) as [c [E [B V]]]; auto.
    { apply (date_set_nodup (L:=L)). } { now apply (date_set_ne (L:=L)). }
    { intros x Ix. apply HS. now apply date_set_sub. }
    exists c. split; auto. split; auto. intros x Ix.
    destruct (date_set_in (L:=L) l x Ix) as [y [Iy Ey]].
    destruct B as [_ [_ [_ [_ [_ [_ [_ [_ [B9 _]]]]]]]]].
    rewrite (B9 _ _ Ey), (V y Iy). symmetry. apply HE; auto. now apply date_set_sub.
  Qed.

  (** [x] is a grid point of a cash rate curve made of [src]: a date of its domain or a
      number of tenors before one, after the origin *)
  Definition stepped (fuel : nat) (p : P) (x : D) : Prop :=
    In x (rc_domain src) \/ exists y l, In y (rc_domain src) /\ step_back fuel o y p = Ok l /\ In x l.

  Lemma cash_stored fuel flr tenor c : solid_origin src o ->
    by_date (fun x => get_cash_rate fuel src x None None) ->
    rc_cast fuel flr CCashRate src None None DcDefault tenor = Ok c ->
    let p := match tenor with Some p => p | None => rc_tenor src end in
    rc_cls c = CCashRate /\ same_time c src /\ rc_tenor c = p /\
    (forall x, stepped fuel p x -> exists r, get_cash_rate fuel src x None None = Ok r /\ rc_call c x = Ok r) /\
    (forall x, In x (rc_domain src) -> exists l, step_back fuel o x p = Ok l) /\
    additive (rc_yf c) tau /\
    (monotone tau -> forall f d, In f (rc_domain c) -> (forall x, In x (rc_domain c) -> d_leb f x = true) -> d_leb d f = true ->
       rc_call c d = rc_call c f) /\
    (forall x, In x (rc_domain c) -> stepped fuel p x) /\ date_values c /\
    (forall x, stepped fuel p x -> exists y, In y (rc_domain c) /\ d_eqb x y = true).
  Proof.
    intros SO BD H p. unfold rc_cast in H. cbv zeta in H. rewrite (ca_origin _ _ _ C) in H.
    change (match tenor with Some p => p | None => rc_tenor src end) with p in H.
    match type of H with bind ?m _ = _ => destruct m as [ls|] eqn:EL; cbn [bind] in H; [|discriminate H] end.
    set (l := rc_domain src ++ List.concat ls) in *.
    assert (HS : forall x, In x (date_set l) -> exists y, get_cash_rate fuel src x None None = Ok y).
    { unfold rc_cast_on in H. destruct (mapM (storage_value fuel flr CCashRate src) (date_set l)) as [ys|] eqn:EM; [|discriminate].
      exact (mapM_each _ _ _ EM). }
    assert (HL : forall x, In x l -> exists y, get_cash_rate fuel src x None None = Ok y).
    { intros x Ix. destruct (date_set_in (L:=L) l x Ix) as [y [Iy Ey]]. rewrite (BD x y Ey). auto. }
    assert (OO : origin_or (Some o) (dc_origin0 (rc_dc src)) = Some o).
    { cbn [origin_or]. destruct SO as [-> | ->]; auto. destruct (d_truthy o); auto. }
    destruct (stored_set CCashRate fuel flr l (Some o) o (Some p)) as [c' [E [B V]]]; auto.
    { unfold prob_cls. intuition discriminate. }
    { intro E'. apply app_eq_nil in E'. destruct E' as [E' _]. apply (ca_domain _ _ _ C E'). }
    { rewrite OO. reflexivity. }
    { intros x Ix. destruct (HL x Ix) as [y Ey]. exists y. split; auto. unfold marginal_cls. intuition discriminate. }
    { intros x y _ _ Exy. exact (BD x y Exy). }
    rewrite H in E. inversion E; subst c'.
    destruct B as [B1 [B2 [B3 [B4 [B5 [B6 [B7 [_ [B9 B10]]]]]]]]].
    assert (IL' : forall x, In x l -> stepped fuel p x).
    { intros x Ix. apply in_app_or in Ix. destruct Ix as [Ix|Ix]; [now left|right]. apply in_concat in Ix. destruct Ix as [l' [Il Ix]].
      apply mapM_inv in EL. clear - EL Il Ix. induction EL as [|a b dom ls Hab _ IH]; [destruct Il|].
      destruct Il as [->|Il]; [exists a, l'; simpl; auto|]. destruct (IH Il) as [y [l2 [H1 H2]]]. exists y, l2. simpl. auto. }
    assert (IL : forall x, stepped fuel p x -> In x l).
    { intros x [Ix|[y [l' [Iy [El Ix]]]]]; apply in_or_app; auto. right. apply in_concat. exists l'. split; auto.
      apply mapM_inv in EL. clear - EL Iy El. induction EL as [|a b dom ls Hab _ IH]; [destruct Iy|].
      destruct Iy as [->|Iy]; simpl; auto. left. congruence. }
    split; auto. split; [split; [now rewrite B3, (ca_origin _ _ _ C)|exact B4]|].
    split; [unfold rc_tenor at 1; now rewrite B7|]. split; [|split; [|split; [auto|split; [|split; [|split; [auto|]]]]]].
    - intros x Sx. destruct (HL x (IL x Sx)) as [r Er]. exists r. split; auto. rewrite (V x (IL x Sx)). exact Er.
    - exact (mapM_each _ _ _ EL).
    - intros M f d If Hf Hd. rewrite B2 in If, Hf.
      apply (stored_before CCashRate fuel flr (date_set l) (Some o) o (Some p)); auto.
      + reflexivity.
      + apply (date_set_nodup (L:=L)).
      + rewrite OO. reflexivity.
      + intros x Ix. apply leb_inv, Hf, Ix.
      + now apply leb_inv.
    - intros x Ix. rewrite B2 in Ix. apply IL'. now apply date_set_sub.
    - intros x Sx. rewrite B2. apply (date_set_in (L:=L)). auto.
  Qed.

  Lemma cash_exists fuel flr tenor : solid_origin src o ->
    by_date (fun x => get_cash_rate fuel src x None None) ->
    let p := match tenor with Some p => p | None => rc_tenor src end in
    (forall x, In x (rc_domain src) -> exists l, step_back fuel o x p = Ok l) ->
    (forall x, stepped fuel p x -> exists r, get_cash_rate fuel src x None None = Ok r) ->
    exists c, rc_cast fuel flr CCashRate src None None DcDefault tenor = Ok c.
  Proof.
    intros SO BD p HB HV. unfold rc_cast. cbv zeta. rewrite (ca_origin _ _ _ C). fold p.
    destruct (mapM_total (fun x => step_back fuel o x p) (rc_domain src) HB) as [ls EL]. rewrite EL. cbn [bind].
    assert (OO : origin_or (Some o) (dc_origin0 (rc_dc src)) = Some o).
    { cbn [origin_or]. destruct SO as [-> | ->]; auto. destruct (d_truthy o); auto. }
    destruct (stored_set CCashRate fuel flr (rc_domain src ++ List.concat ls) (Some o) o (Some p)) as [c [E _]]; eauto.
    { unfold prob_cls. intuition discriminate. }
    { intro E'. apply app_eq_nil in E'. destruct E' as [E' _]. apply (ca_domain _ _ _ C E'). }
    { rewrite OO. reflexivity. }
    { intros x Ix. destruct (HV x) as [y Ey].
      - apply in_app_or in Ix. destruct Ix as [Ix|Ix]; [now left|right]. apply in_concat in Ix. destruct Ix as [l [Il Ix]].
        apply mapM_inv in EL. clear - EL Il Ix. induction EL as [|a b dom ls Hab _ IH]; [destruct Il|].
        destruct Il as [->|Il]; [exists a, l; simpl; auto|]. destruct (IH Il) as [y [l' [H1 H2]]]. exists y, l'. simpl. auto.
      - exists y. split; auto. unfold marginal_cls. intuition discriminate. }
  Qed.

  Lemma step_back_ends (p : P) : forall fuel x, back_to p o x fuel -> exists l, step_back fuel o x p = Ok l.
  Proof.
    induction fuel as [|f IH]; intros x [e [N [HN [E0 [HS HE]]]]]; [lia|]. cbn [step_back].
    destruct (d_ltb o x) eqn:LT; [|eauto]. destruct N as [|N]; [congruence|].
    rewrite <- E0, (HS 0%nat) by lia. cbn [bind].
    destruct (IH (e 1%nat)) as [l El]; [|rewrite El; cbn [bind]; eauto].
    exists (fun i => e (S i)), N. split; [lia|]. split; auto. split; auto. intros i Hi. apply HS. lia.
  Qed.

  (** stepping back from the end of a schedule of tenors passes all its dates but the first *)
  Lemma step_back_schedule (p : P) (ds : nat -> D) n : (forall i, (i < n)%nat -> d_ltb (ds i) (ds (S i)) = true) ->
    (forall i, (i < n)%nat -> d_sub (ds (S i)) p = Ok (ds i)) ->
    forall j, (j <= n)%nat -> forall fuel l, step_back fuel (ds 0%nat) (ds j) p = Ok l ->
    forall i, (0 < i <= j)%nat -> In (ds i) l.
  Proof.
    intros LT SB. assert (G : forall j, (0 < j <= n)%nat -> tm (ds 0%nat) < tm (ds j)).
    { induction j; intro H; [lia|]. pose proof (LT j ltac:(lia)) as Q. apply ltb_inv in Q.
      destruct j; auto. specialize (IHj ltac:(lia)). lra. }
    induction j; intros Hj fuel l E i Hi; [lia|]. destruct fuel as [|f]; [discriminate|]. cbn [step_back] in E.
    rewrite (ltb_t (ds 0%nat) (ds (S j))) in E by (apply G; lia). rewrite (SB j) in E by lia. cbn [bind] in E.
    destruct (step_back f (ds 0%nat) (ds j) p) as [l'|] eqn:E'; [|discriminate]. cbn [bind] in E. inversion E; subst l.
    destruct (Nat.eq_dec i (S j)) as [->|Ne]; [now left|right]. apply (IHj ltac:(lia) f l' E'). lia.
  Qed.
End Stored.
