(** Lemmas about casting rate curves: the grid of dates and the new curve. *)
From Coq Require Import Reals Lra Lia List Bool ZArith Sorted Permutation.
From Verif Require Import Num Py Spec SInterpolation SCurve SDates SRateCurve SCast LBase LSort LCompounding MCompounding MInterpolation MDates
  MCurve MRateCurve LDates LFuel LCurve LDateCurve LRateCurve LRateCurve2 LRateCurve3 LRateCurve4 LCredit.
Import ListNotations.
Open Scope R_scope.

Section DateSet.
  Context {D P : Type} {DS : DateSys R D P} {tm : D -> R} {L : DateLaws DS tm}.

  Lemma mem_date x (l : list D) : mem d_eqb x l = true <-> In (tm x) (map tm l).
  Proof.
    unfold mem. rewrite existsb_exists, in_map_iff. split; intros [y [H1 H2]]; exists y.
    - apply eqb_inv in H2. auto.
    - split; auto. now apply eqb_t.
  Qed.
  Lemma dedup_sub (l : list D) x : In x (dedup d_eqb l) -> In x l.
  Proof.
    induction l as [|a l IH]; simpl; auto. destruct (mem d_eqb a l); simpl; intuition.
  Qed.
  Lemma dedup_times (l : list D) u : In u (map tm (dedup d_eqb l)) <-> In u (map tm l).
  Proof.
    induction l as [|a l IH]; simpl; [tauto|]. destruct (mem d_eqb a l) eqn:E; simpl; rewrite IH; [|tauto].
    apply mem_date in E. split; auto. intros [<-|H]; auto.
  Qed.
  Lemma dedup_nodup_times (l : list D) : NoDup (map tm (dedup d_eqb l)).
  Proof.
    induction l as [|a l IH]; simpl; [constructor|]. destruct (mem d_eqb a l) eqn:E; auto.
    simpl. constructor; auto. rewrite dedup_times. intro H. apply mem_date in H. congruence.
  Qed.

  Lemma date_set_sub (l : list D) x : In x (date_set l) -> In x l.
  Proof. unfold date_set, sorted_set. intro H. apply dedup_sub. eapply Permutation_in; [apply sort_perm|exact H]. Qed.
  Lemma date_set_times (l : list D) u : In u (map tm (date_set l)) <-> In u (map tm l).
  Proof.
    rewrite <- (dedup_times l). unfold date_set, sorted_set.
    split; apply Permutation_in, Permutation_map; [|symmetry]; apply sort_perm.
  Qed.
  Lemma date_set_in (l : list D) x : In x l -> exists y, In y (date_set l) /\ d_eqb x y = true.
  Proof.
    intro H. assert (In (tm x) (map tm (date_set l))) as I by (apply date_set_times; now apply in_map).
    apply in_map_iff in I. destruct I as [y [E I]]. exists y. split; auto. now apply eqb_t.
  Qed.
  Lemma date_set_nodup (l : list D) : NoDup (map tm (date_set l)).
  Proof.
    eapply Permutation_NoDup; [|apply dedup_nodup_times]. apply Permutation_map. symmetry. apply sort_perm.
  Qed.
  Lemma date_set_ne (l : list D) : l <> [] -> date_set l <> [].
  Proof.
    intros H E. destruct l as [|a l]; [congruence|]. destruct (date_set_in (a :: l) a) as [y [I _]]; [simpl; auto|].
    rewrite E in I. destruct I.
  Qed.
  Lemma date_set_sorted (l : list D) : StronglySorted (fun a b => tm a <= tm b) (date_set l).
  Proof.
    unfold date_set, sorted_set. eapply ss_impl; [|apply sort_sorted].
    - intros a b H. cbv beta in H. now apply ltb_finv.
    - intros a b H. apply ltb_inv in H. apply ltb_f. lra.
    - intros a b c H1 H2. apply ltb_finv in H1. apply ltb_finv in H2. apply ltb_f. lra.
  Qed.
  (** the first date of the set is the earliest one *)
  Lemma date_set_head (l : list D) o : In o l -> NoDup (map tm l) -> (forall x, In x l -> tm o <= tm x) ->
    hd_error (date_set l) = Some o.
  Proof.
    intros I ND H. destruct (date_set_in l o I) as [y [Iy Ey]]. apply eqb_inv in Ey.
    pose proof (date_set_sorted l) as S. pose proof (date_set_sub l) as Sub.
    destruct (date_set l) as [|h s]; [destruct Iy|]. simpl. f_equal. inversion S as [|? ? _ F]; subst.
    assert (In h l) as Ih by (apply Sub; simpl; auto).
    apply (unique_date (tm:=tm) l); auto.
    assert (tm h <= tm y) by (destruct Iy as [->|Iy]; [lra|]; rewrite Forall_forall in F; now apply F).
    pose proof (H h Ih). lra.
  Qed.
End DateSet.

(** a compounding factor or rate depends on the end date only, not on the object given *)
Section EndDate.
  Context {D P : Type} {DS : DateSys R D P} {tm : D -> R} {L : DateLaws DS tm} {DC : DayCounts R D}.
  Context (c : rcurve R D P) (tau : D -> D -> R) (A : additive (rc_yf c) tau) (V : date_values c).
  Context (a b : D) (E : d_eqb a b = true).

  Lemma eqb_end s : d_eqb s a = d_eqb s b.
  Proof. apply eqb_inv in E. destruct (d_eqb s a) eqn:E1, (d_eqb s b) eqn:E2; auto; dbool; congruence. Qed.
  Lemma ltb_end s : d_ltb s a = d_ltb s b.
  Proof. apply eqb_inv in E. destruct (d_ltb s a) eqn:E1, (d_ltb s b) eqn:E2; auto; dbool; lra. Qed.
  Lemma yf_end s : rc_yf c s a = rc_yf c s b.
  Proof.
    rewrite !(add_val _ _ A). pose proof (add_add _ _ A s a b) as H. rewrite (tau_eq A a b E) in H.
    f_equal. lra.
  Qed.
  Lemma integrate_loop_end p n : forall cur acc,
    integrate_loop n (rc_call c) (rc_yf c) p cur a acc = integrate_loop n (rc_call c) (rc_yf c) p cur b acc.
  Proof.
    induction n; intros cur acc; cbn [integrate_loop]; auto. destruct (d_add cur p); cbn [bind]; auto.
    rewrite ltb_end, yf_end. destruct (d_ltb a0 b); auto. destruct (rc_call c cur); cbn [bind]; auto.
    destruct (rc_yf c cur a0); cbn [bind]; auto.
  Qed.
  Lemma cash_loop_end n : forall cur acc, cash_loop n c cur a acc = cash_loop n c cur b acc.
  Proof.
    induction n; intros cur acc; cbn [cash_loop]; auto. destruct (d_add cur (rc_tenor c)); cbn [bind]; auto.
    rewrite ltb_end, yf_end. destruct (d_ltb a0 b); auto. destruct (rc_yf c cur a0); cbn [bind]; auto.
    destruct (rc_call c cur); cbn [bind]; auto. match goal with |- context [simple_compounding ?x ?y] => destruct (simple_compounding x y) end; cbn [bind]; auto.
  Qed.
  Lemma marginal_loop_end n : forall cur acc, marginal_loop n c cur a acc = marginal_loop n c cur b acc.
  Proof.
    induction n; intros cur acc; cbn [marginal_loop]; auto. destruct (d_add cur (rc_tenor c)); cbn [bind]; auto.
    rewrite ltb_end, yf_end. destruct (d_ltb a0 b); auto. destruct (rc_call c cur); cbn [bind]; auto.
  Qed.
  Lemma both_origin_end s : both_origin c s a = both_origin c s b.
  Proof.
    unfold both_origin. rewrite eqb_end. destruct (d_eqb s b) eqn:Es; auto. destruct (rc_origin c) as [o|]; auto.
    apply eqb_inv in E. destruct (d_eqb a o) eqn:E1, (d_eqb b o) eqn:E2; auto; dbool; congruence.
  Qed.
  Lemma rc_time_end : rc_time c a = rc_time c b.
  Proof. unfold rc_time, dc_time. destruct (dc_origin (rc_dc c)); auto. apply (yf_end d). Qed.
  Lemma factor_rate_end n : forall s, factor n c s a = factor n c s b /\ rate n c s a = rate n c s b.
  Proof.
    induction n as [|n IH]; intro s; [split; reflexivity|].
    destruct (IH s) as [IF IR]. unfold factor, rate. fold (@factor R D P _ _ _) (@rate R D P _ _ _). split.
    - rewrite eqb_end, yf_end, (V a b E), marginal_loop_end, IR. reflexivity.
    - unfold integrate. rewrite both_origin_end, eqb_end, yf_end, (V a b E), rc_time_end, cash_loop_end, integrate_loop_end, IF.
      reflexivity.
  Qed.
  Lemma factor_end n s : factor n c s a = factor n c s b. Proof. apply factor_rate_end. Qed.
  Lemma rate_end n s : rate n c s a = rate n c s b. Proof. apply factor_rate_end. Qed.
End EndDate.

Section Cast.
  Context {D P : Type} {DS : DateSys R D P} {tm : D -> R} {L : DateLaws DS tm} {DC : DayCounts R D}.
  Context (count : dcspec R D) (tau : D -> D -> R) (A : additive (dc_apply count) tau).

  (** the new curve, without the checks of data given as numbers *)
  Lemma dc_new_rate k ds ys orig o (tenor : option P) :
    prob_cls k -> length ds = length ys -> NoDup (map tm ds) ->
    (exists d, In d ds /\ tm d <> tm o) -> dom_origin orig ds = Some o -> (forall y, In y ys -> 0 < y) ->
    exists d, dc_new (cls_interp k) ds ys None orig count = Ok d /\
      let c := mkR k d tenor None in
      built count tau k ds orig o tenor c /\ (forall d y, In (d, y) (combine ds ys) -> rc_call c d = Ok y) /\
      (forall d, tm d <> tm o -> exists v, rc_call c d = Ok v /\ 0 < v).
  Proof.
    intros K HL ND NO HO PO.
    destruct (rc_new_rate (L:=L) count tau A CDiscountFactor ds ys ys orig o tenor) as [c [E [B [V [V' _]]]]]; auto.
    { unfold prob_cls. tauto. }
    assert (CI : cls_interp k = cls_interp CDiscountFactor) by (destruct K as [->|[-> | ->]]; reflexivity).
    unfold rc_new in E. cbn [prepare_data is_probability bind] in E. rewrite CI.
    destruct (dc_new (cls_interp CDiscountFactor) ds ys None orig count) as [d|] eqn:E'; [|discriminate].
    cbn [bind] in E. inversion E; subst c. exists d. split; auto. cbv zeta. split; [|split].
    - destruct B as [_ B]. split; [reflexivity|exact B].
    - exact V.
    - intros x Hx. destruct (V' x Hx) as [r [Er _]]. exists (exp (- r * tau o x)). split; [exact Er|apply exp_pos].
  Qed.

  Lemma dc_new_flat k ds ys orig o (tenor : option P) :
    flat_cls k -> length ds = length ys -> NoDup (map tm ds) -> ds <> [] -> dom_origin orig ds = Some o ->
    exists d, dc_new (cls_interp k) ds ys None orig count = Ok d /\
      let c := mkR k d tenor None in
      built count tau k ds orig o tenor c /\ (forall d y, In (d, y) (combine ds ys) -> rc_call c d = Ok y) /\
      (forall d, exists v, rc_call c d = Ok v).
  Proof.
    intros K HL ND NE HO.
    destruct (rc_new_linear (L:=L) count tau A k ds ys orig o tenor) as [c [E [B [V V']]]]; auto.
    { destruct K as [-> | ->]; reflexivity. }
    unfold rc_new in E. replace (prepare_data k ys) with (Ok ys) in E by (destruct K as [-> | ->]; reflexivity).
    cbn [bind] in E. destruct (dc_new (cls_interp k) ds ys None orig count) as [d|] eqn:E'; [|discriminate].
    cbn [bind] in E. inversion E; subst c. exists d. split; auto. cbv zeta. split; [auto|split; [auto|]].
    intro x. destruct (V' x) as [v [Ev _]]. eauto.
  Qed.

  (** [cls(domain, other)] *)
  Lemma cast_on_eq fuel flr k ds (other : rcurve R D P) orig cnt tenor g d :
    (forall x, In x ds -> storage_value fuel flr k other x = Ok (g x)) ->
    (forall x, In x (rc_domain other) -> exists v, rc_call other x = Ok v) ->
    dc_new (cls_interp k) ds (map g ds) None (origin_or orig (dc_origin0 (rc_dc other)))
           (dc_or cnt (dc_kwarg (dc_count (rc_dc other)))) = Ok d ->
    rc_cast_on fuel flr k ds other None orig cnt tenor = Ok (mkR k d tenor None).
  Proof.
    intros H1 H2 H3. unfold rc_cast_on. rewrite (mapM_ok _ g) by auto. cbn [bind].
    destruct (mapM_total (rc_call other) (rc_domain other) H2) as [r ->]. cbn [bind]. rewrite H3. reflexivity.
  Qed.

  Lemma in_combine_map {B C} (g : B -> C) ds x : In x ds -> In (x, g x) (combine ds (map g ds)).
  Proof. induction ds as [|a l IH]; simpl; [tauto|]. intros [->|H]; auto. Qed.

  (** ** Casting to a curve of discount factors or survival probabilities *)
  Context (src : rcurve R D P) (o : D) (Ho : rc_origin src = Some o).
  Context (Hc : dc_kwarg (dc_count (rc_dc src)) = count).
  Context (Hv : forall x, In x (rc_domain src) -> exists v, rc_call src x = Ok v).
  Context (Hd : rc_domain src <> []).

  Lemma extended_cast k t fuel flr o1 hi hi' (sv : D -> R) :
    prob_cls k -> t = (match k with CDiscountFactor => Tday | _ => Tyear end) ->
    d_truthy o = true \/ dc_origin0 (rc_dc src) = Some o ->
    d_add o (p_str Tday) = Ok o1 -> d_ltb o o1 = true -> d_max (rc_domain src) = Ok hi -> d_add hi (p_str t) = Ok hi' ->
    (forall x, In x (rc_domain src ++ [o1; hi']) -> storage_value fuel flr k src x = Ok (sv x) /\ 0 < sv x) ->
    exists c, rc_cast fuel flr k src None None DcDefault None = Ok c /\
      built count tau k (date_set (rc_domain src ++ [o1; hi'])) (Some o) o None c /\
      (forall x, In x (rc_domain src ++ [o1; hi']) -> exists y, In y (rc_domain c) /\ d_eqb x y = true /\ In y (rc_domain src ++ [o1; hi']) /\
          rc_call c x = Ok (sv y)) /\
      (forall x, tm x <> tm o -> exists v, rc_call c x = Ok v /\ 0 < v).
  Proof.
    intros K -> HT H1 LT HM H2 HS. set (t := match k with CDiscountFactor => Tday | _ => Tyear end) in *.
    set (l := rc_domain src ++ [o1; hi']) in *. set (ds := date_set l).
    assert (I1 : In o1 l) by (apply in_or_app; simpl; auto).
    destruct (dc_new_rate k ds (map sv ds) (Some o) o None) as [d [E [B [V V']]]]; auto.
    { now rewrite map_length. } { apply (date_set_nodup (L:=L)). }
    { destruct (date_set_in (L:=L) l o1 I1) as [y [Iy Ey]]. exists y. split; auto. dbool. lra. }
    { intros y Iy. apply in_map_iff in Iy. destruct Iy as [x [<- Ix]]. apply HS. now apply date_set_sub. }
    exists (mkR k d None None). split; [|split; [exact B|split; [|exact V']]].
    - transitivity (rc_cast_on fuel flr k ds src None (Some o) DcDefault None).
      + unfold rc_cast. rewrite Ho. destruct K as [->|[-> | ->]]; subst t; rewrite H1; cbn [bind]; rewrite HM; cbn [bind];
          rewrite H2; reflexivity.
      + eapply cast_on_eq; eauto.
        * intros x Ix. apply HS. now apply date_set_sub.
        * cbn [dc_or]. rewrite Hc. replace (origin_or (Some o) _) with (Some o); auto.
          cbn [origin_or]. destruct HT as [-> | ->]; auto. destruct (d_truthy o); auto.
    - intros x Ix. destruct (date_set_in (L:=L) l x Ix) as [y [Iy Ey]].
      destruct B as [_ [B2 [_ [_ [_ [_ [_ [_ [B9 _]]]]]]]]]. exists y. rewrite B2. split; [exact Iy|]. split; auto. split; [now apply date_set_sub|].
      rewrite (B9 _ _ Ey). apply V. now apply in_combine_map.
  Qed.

  (** ** Casting to a curve of zero rates or flat intensities on a grid *)
  Lemma flat_cast_on k fuel flr ds (sv : D -> R) :
    flat_cls k -> NoDup (map tm ds) -> ds <> [] -> dom_origin (dc_origin0 (rc_dc src)) ds = Some o ->
    (forall x, In x ds -> storage_value fuel flr k src x = Ok (sv x)) ->
    exists c, rc_cast_on fuel flr k ds src None None DcDefault None = Ok c /\
      built count tau k ds (dc_origin0 (rc_dc src)) o None c /\
      (forall x, In x ds -> rc_call c x = Ok (sv x)) /\ (forall x, exists v, rc_call c x = Ok v).
  Proof.
    intros K ND NE HO HS.
    destruct (dc_new_flat k ds (map sv ds) (dc_origin0 (rc_dc src)) o None) as [d [E [B [V V']]]]; auto.
    { now rewrite map_length. }
    exists (mkR k d None None). split; [|split; [exact B|split; [|exact V']]].
    - eapply cast_on_eq; eauto. cbn [dc_or origin_or]. now rewrite Hc.
    - intros x Ix. apply V. now apply in_combine_map.
  Qed.
End Cast.

Definition value_of (r : res R) : R := match r with Ok y => y | Err _ => 0 end.
Lemma value_of_ok r : (exists y, r = Ok y) -> r = Ok (value_of r).
Proof. intros [y ->]. reflexivity. Qed.

Section Origin.
  Context {D P : Type} {DS : DateSys R D P} {tm : D -> R} {L : DateLaws DS tm} {DC : DayCounts R D}.
  Context (c : rcurve R D P) (tau : D -> D -> R) (A : additive (rc_yf c) tau) (V : date_values c).
  Context (o : D) (Ho : rc_origin c = Some o).

  Lemma origin_factor n x : prob_cls (rc_cls c) -> factor (S n) c o x = rc_call c x.
  Proof.
    intro K. assert (E : at_origin c o = true) by (unfold at_origin; rewrite Ho; apply law_is_refl).
    cbn [factor]. destruct K as [K|[K|K]]; rewrite K, E; reflexivity.
  Qed.
  Lemma origin_rate n x : prob_cls (rc_cls c) -> (exists d, In d (rc_domain c) /\ tm o < tm d) ->
    (forall d, tm d <> tm o -> exists v, rc_call c d = Ok v /\ 0 < v) -> exists r, rate (S (S n)) c o x = Ok r.
  Proof.
    intros K [d [Id Hd]] HV.
    assert (B : forall t, d_eqb o t = false -> exists r, rate (S (S n)) c o t = Ok r).
    { intros t Ht. destruct (HV t) as [v [Ev Pv]]; [apply eqb_finv in Ht; auto|].
      exists (- ln v / tau o t). apply (base_rate c tau A); auto. rewrite origin_factor; auto. }
    destruct (d_eqb o x) eqn:E; [|now apply B].
    assert (BO : both_origin c o x = true).
    { unfold both_origin. rewrite E, Ho. apply eqb_inv in E. rewrite eqb_t; auto. }
    destruct (d_min_ok (L:=L) (filter (fun d => d_ltb o d) (rc_domain c))) as [m [Em [Im Hm]]].
    { intro E'. assert (In d []) as F by (rewrite <- E'; apply filter_In; split; auto; now apply ltb_t). destruct F. }
    apply filter_In in Im. destruct Im as [Im Lm].
    assert (NE : d_eqb o m = false) by (apply eqb_f; apply ltb_inv in Lm; lra).
    destruct (B m NE) as [r Er]. exists r. rewrite <- Er.
    assert (BM : both_origin c o m = false) by (unfold both_origin; rewrite NE; reflexivity).
    assert (FA : first_after_origin c = Ok m) by (unfold first_after_origin; rewrite Ho; exact Em).
    generalize (S n). intro k. cbn [rate]. cbv zeta. destruct K as [K|[K|K]]; rewrite K, BO, BM, FA; reflexivity.
  Qed.
End Origin.

Section Tools.
  Context {D P : Type} {DS : DateSys R D P} {tm : D -> R} {L : DateLaws DS tm} {DC : DayCounts R D}.
  Context (src : rcurve R D P) (o : D) (tau : D -> D -> R) (C : castable src o tau).

  Lemma kwarg_count : dc_kwarg (dc_count (rc_dc src)) = dc_count (rc_dc src).
  Proof. pose proof (ca_count _ _ _ C). destruct (dc_count (rc_dc src)); auto. exfalso. eapply H. reflexivity. Qed.
  Lemma count_additive : additive (dc_apply (dc_count (rc_dc src))) tau. Proof. exact (ca_time _ _ _ C). Qed.

  Lemma extended k t fuel flr : prob_cls k -> t = (match k with CDiscountFactor => Tday | _ => Tyear end) ->
    solid_origin src o -> steps (p_str (DateSys:=DS) Tday) -> steps (p_str (DateSys:=DS) t) ->
    (forall x, storage_value fuel flr k src x = factor fuel src o x) ->
    (forall x, looked_up src o (p_str t) x -> exists y, factor fuel src o x = Ok y /\ 0 < y) ->
    exists c, rc_cast fuel flr k src None None DcDefault None = Ok c /\ rc_cls c = k /\ same_time c src /\
      castable c o tau /\ dc_origin0 (rc_dc c) = Some o /\ NoDup (map tm (rc_domain c)) /\
      (exists d, In d (rc_domain c) /\ tm o < tm d) /\
      (forall x, In x (rc_domain src) -> exists y, In y (rc_domain c) /\ d_eqb x y = true) /\
      (forall x, tm x <> tm o -> exists v, rc_call c x = Ok v /\ 0 < v) /\
      (forall x n, In x (rc_domain src) -> factor (S n) c o x = factor fuel src o x).
  Proof.
    intros K Et SO S1 S2 HS HV.
    destruct (S1 o) as [o1 [H1 [LT _]]]. destruct (d_max_ok (L:=L) (rc_domain src) (ca_domain _ _ _ C)) as [hi [HM [Ih _]]].
    destruct (S2 hi) as [hi' [H2 _]].
    assert (W : forall x, In x (rc_domain src ++ [o1; hi']) -> storage_value fuel flr k src x = Ok (value_of (factor fuel src o x)) /\
              0 < value_of (factor fuel src o x)).
    { intros x I. rewrite HS. destruct (HV x) as [y [-> Py]]; auto. apply in_app_or in I. unfold looked_up.
      destruct I as [I|[<-|[<-|[]]]]; auto. right; right; eauto. }
    destruct (extended_cast (L:=L) _ tau count_additive src o (ca_origin _ _ _ C) kwarg_count (ca_value _ _ _ C)
                k t fuel flr o1 hi hi' (fun x => value_of (factor fuel src o x))) as [c [E [B [G Pv]]]]; auto.
    { destruct SO; auto. }
    destruct B as [B1 [B2 [B3 [B4 [B5 [B6 [B7 [B8 [B9 B10]]]]]]]]].
    exists c. split; auto. split; auto. split; [|split; [|split; [|split; [|split; [|split; [|split]]]]]]; auto.
    - split; [now rewrite B3, (ca_origin _ _ _ C)|exact B4].
    - constructor; auto.
      + rewrite B2. apply (date_set_ne (L:=L)). intro E'. apply app_eq_nil in E'. destruct E'; discriminate.
      + intros x I. rewrite B2 in I. apply date_set_sub in I. destruct (G x I) as [y [_ [_ [_ Ey]]]]. unfold has_value. eauto.
      + intros n f. rewrite B6. apply (ca_count _ _ _ C).
    - rewrite B2. apply (date_set_nodup (L:=L)).
    - destruct (G o1) as [y [Iy [Ey _]]]; [apply in_or_app; simpl; auto|]. exists y. split; auto. dbool. lra.
    - intros x I. destruct (G x) as [y [Iy [Ey _]]]; [apply in_or_app; auto|]. eauto.
    - intros x n I. rewrite (origin_factor (L:=L) c o B3 n x) by (rewrite B1; exact K).
      destruct (G x) as [y [_ [Ey [Iy Ev]]]]; [apply in_or_app; auto|]. rewrite Ev.
      rewrite (factor_end (L:=L) src tau (ca_time _ _ _ C) (ca_date _ _ _ C) x y Ey).
      destruct (W y Iy) as [W1 _]. rewrite HS in W1. now rewrite W1 at 2.
  Qed.

  Lemma flat_on k fuel flr ds : flat_cls k -> NoDup (map tm ds) -> ds <> [] -> dom_origin (dc_origin0 (rc_dc src)) ds = Some o ->
    (forall x, storage_value fuel flr k src x = rate fuel src o x) ->
    (forall x, In x ds -> exists r, rate fuel src o x = Ok r) ->
    exists c, rc_cast_on fuel flr k ds src None None DcDefault None = Ok c /\ rc_cls c = k /\ same_time c src /\
      castable c o tau /\ dc_origin0 (rc_dc c) = dc_origin0 (rc_dc src) /\ rc_domain c = ds /\
      (forall x, exists v, rc_call c x = Ok v) /\
      (forall x, In x ds -> rate fuel src o x = rc_call c x) /\
      (forall x n m, In x ds -> d_eqb o x = false -> (fuel < n)%nat -> (1 < m)%nat -> factor m c o x = factor n src o x).
  Proof.
    intros K ND NE HO HS HV.
    destruct (flat_cast_on (L:=L) _ tau count_additive src o kwarg_count (ca_value _ _ _ C) k fuel flr ds
                (fun x => value_of (rate fuel src o x))) as [c [E [B [V Pv]]]]; auto.
    { intros x I. rewrite HS. apply value_of_ok. auto. }
    destruct B as [B1 [B2 [B3 [B4 [B5 [B6 [B7 [B8 [B9 B10]]]]]]]]].
    assert (RV : forall x, In x ds -> rate fuel src o x = rc_call c x).
    { intros x I. rewrite (V x I). apply value_of_ok. auto. }
    exists c. split; auto. split; auto. split; [|split; [|split; [|split; [|split; [|split]]]]]; auto.
    - split; [now rewrite B3, (ca_origin _ _ _ C)|exact B4].
    - constructor; auto; try congruence.
      + intros x _. unfold has_value. auto.
      + intros n f. rewrite B6. apply (ca_count _ _ _ C).
    - intros x n m I NX F F'. destruct (HV x I) as [r Er].
      rewrite (factor_of_rate src tau (ca_time _ _ _ C) fuel n o x r NX Er F).
      apply (factor_of_rate c tau B10 1 m o x r NX); auto.
      rewrite (RV x I) in Er. assert (AO : at_origin c o = true) by (unfold at_origin; rewrite B3; apply law_is_refl).
      assert (BO : both_origin c o x = false) by (unfold both_origin; now rewrite NX).
      cbn [rate]. cbv zeta. destruct K as [K|K]; rewrite B1, K, BO, AO; exact Er.
  Qed.
End Tools.

Section Keep.
  Context {D P : Type} {DS : DateSys R D P} {DC : DayCounts R D}.
  Lemma dc_new_inv dflt ds ys i orig count (d : dcurve R D) : dc_new dflt ds ys i orig count = Ok d ->
    dc_origin0 d = orig /\ dc_count d = count /\ dc_domain d = ds /\ exists ts, mapM (dc_time d) ds = Ok ts.
  Proof.
    unfold dc_new. destruct (negb _); [discriminate|]. unfold dc_update.
    set (e := mkD dflt i no_fn ds orig count []). intro H.
    destruct (mapM (dc_time e) ds) as [ts|] eqn:E; [|discriminate]. cbn [bind] in H.
    destruct (update_fn _ _ _) as [p|]; [|discriminate]. cbn [bind] in H. inversion H; subst. cbn. repeat split; auto.
    exists ts. exact E.
  Qed.
  Lemma cast_on_inv fuel flr k ds (src : rcurve R D P) i orig count tenor c :
    rc_cast_on fuel flr k ds src i orig count tenor = Ok c ->
    dc_origin0 (rc_dc c) = origin_or orig (dc_origin0 (rc_dc src)) /\
    dc_count (rc_dc c) = dc_or count (dc_kwarg (dc_count (rc_dc src))) /\ rc_domain c = ds /\
    exists ts, mapM (dc_time (rc_dc c)) ds = Ok ts.
  Proof.
    unfold rc_cast_on. destruct (mapM (storage_value fuel flr k src) ds) as [ys|]; [|discriminate]. cbn [bind].
    destruct (mapM (rc_call src) (rc_domain src)); [|discriminate]. cbn [bind].
    destruct (dc_new _ _ _ _ _ _) as [d|] eqn:E; [|discriminate]. cbn [bind]. intro H. inversion H; subst. cbn.
    apply (dc_new_inv _ _ _ _ _ _ _ E).
  Qed.
  (** every cast is a cast on some grid with the origin given, or that of the curve, or none *)
  Lemma cast_inv fuel flr k (src : rcurve R D P) i orig count tenor c :
    rc_cast fuel flr k src i orig count tenor = Ok c -> exists ds orig' tenor',
    rc_cast_on fuel flr k ds src i orig' count tenor' = Ok c /\
    (rc_domain src <> [] -> (forall l : list D, l <> [] -> date_set l <> []) -> ds <> []) /\
    ((k = CZeroRate \/ k = CShortRate) /\ ds = rc_domain src /\ orig' = orig \/
     (k = CFlatIntensity \/ k = CHazard) /\ orig' = orig /\
       (exists hi hi', d_max (rc_domain src) = Ok hi /\ d_add hi (p_str Tyear) = Ok hi' /\ ds = date_set (rc_domain src ++ [hi'])) \/
     (k <> CZeroRate /\ k <> CShortRate /\ k <> CFlatIntensity /\ k <> CHazard) /\
       orig' = match orig with Some _ => orig | None => rc_origin src end).
  Proof.
    assert (NE : forall (l l' : list D), l <> [] -> (forall l : list D, l <> [] -> date_set l <> []) -> date_set (l ++ l') <> []).
    { intros l l' H1 H2. apply H2. intro E. apply app_eq_nil in E. tauto. }
    intro H. unfold rc_cast in H. destruct k; cbv zeta in H;
      try (exists (rc_domain src), orig, tenor; split; [exact H|split; [auto|left; auto]]; fail);
      repeat match type of H with
        | match match ?a with _ => _ end with _ => _ end = _ => destruct (match a with Some _ => orig | None => rc_origin src end) as [o|] eqn:Eo; [|discriminate H]
        | bind (d_max ?l) _ = _ => let E := fresh "EM" in destruct (d_max l) eqn:E; cbn [bind] in H; [|discriminate H]
        | bind (d_add ?a ?p) _ = _ => let E := fresh "EA" in destruct (d_add a p) eqn:E; cbn [bind] in H; [|discriminate H]
        | bind (mapM ?f ?l) _ = _ => let E := fresh "EL" in destruct (mapM f l) eqn:E; cbn [bind] in H; [|discriminate H]
      end.
    all: try (do 3 eexists; split; [exact H|]; split; [auto|right; right; split; [repeat split; discriminate|]; auto; try congruence]; fail).
    all: try (do 3 eexists; split; [exact H|]; split; [auto|right; left]; split; [auto|]; split; [auto|];
      do 2 eexists; split; [reflexivity|split; [eassumption|reflexivity]]).
    exists (date_set (List.concat a)), (Some o), tenor. split; [exact H|]. split; [|right; right; split; [repeat split; discriminate|reflexivity]]. intros HN H2. apply H2.
    destruct (rc_domain src) as [|x l]; [congruence|]. cbn [app mapM] in EL.
    destruct (d_sub x _); [|discriminate]. cbn [bind] in EL. destruct (d_add x _); [|discriminate]. cbn [bind] in EL.
    destruct (mapM _ (l ++ [o])); [|discriminate]. cbn [bind] in EL. inversion EL. discriminate.
  Qed.
End Keep.
