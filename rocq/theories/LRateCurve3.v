(** Rate curves built from lists: values, and that values depend on the date only. *)
From Coq Require Import Reals Lra Lia List Bool ZArith Sorted.
From Verif Require Import Num Py Spec SInterpolation SCurve SDates SRateCurve LBase LSort MCompounding MInterpolation
  LInterpolation LInterpolation2 MDates MCurve MRateCurve LDates LCurve LCurve2 LDateCurve LRateCurve.
Import ListNotations.
Open Scope R_scope.

Section New.
  Context {D P : Type} {DS : DateSys R D P} {tm : D -> R} {L : DateLaws DS tm} {DC : DayCounts R D}.

  Lemma rc_call_plain k (d : dcurve R D) (t : option P) x : rc_call (mkR k d t None) x = dc_val d x.
  Proof. cbn [rc_call bind]. destruct (dc_val d x); cbn [bind]; auto. rn. now rewrite Rplus_0_r. Qed.

  (** the value of a DateCurve depends on the date only *)
  Lemma assoc_date (l : list (D * R)) a b : tm a = tm b -> assoc d_eqb a l = assoc d_eqb b l.
  Proof.
    intro E. induction l as [|[k v] l IH]; simpl; auto. rewrite IH.
    destruct (d_eqb k a) eqn:E1, (d_eqb k b) eqn:E2; auto; dbool; congruence.
  Qed.
  Lemma dc_val_date (d : dcurve R D) tau a b : additive (dc_yf d) tau -> d_eqb a b = true -> dc_val d a = dc_val d b.
  Proof.
    intros A E. apply eqb_inv in E. unfold dc_val, dc_call. rewrite (assoc_date _ a b E).
    unfold dc_time. destruct (dc_origin d) as [o|]; auto. rewrite !(add_val _ _ A).
    assert (tau o a = tau o b) as ->; auto.
    pose proof (add_add _ _ A o a b). rewrite (tau_eq A a b) in H; [lra|]. now apply eqb_t.
  Qed.

  (** curves all of whose day counts (own and of spreads) are additive *)
  Fixpoint additive_counts (c : rcurve R D P) : Prop :=
    match c with
    | mkR _ d _ sp =>
        (exists tau, additive (dc_yf d) tau) /\
        match sp with
        | None => True
        | Some (inl e) => exists tau, additive (dc_yf e) tau
        | Some (inr r) => additive_counts r
        end
    end.
  Fixpoint rc_date (c : rcurve R D P) a b (E : d_eqb a b = true) : additive_counts c -> rc_call c a = rc_call c b.
  Proof.
    destruct c as [k d t [[e|r]|]]; cbn [rc_call additive_counts]; intros [[tau A] H].
    - destruct H as [tau' A']. rewrite (dc_val_date e tau' a b A' E), (dc_val_date d tau a b A E). reflexivity.
    - rewrite (rc_date r a b E H), (dc_val_date d tau a b A E). reflexivity.
    - rewrite (dc_val_date d tau a b A E). reflexivity.
  Qed.
  Lemma date_values_ok (c : rcurve R D P) : additive_counts c -> date_values c.
  Proof. intros H a b E. now apply rc_date. Qed.

  Context (count : dcspec R D) (tau : D -> D -> R) (A : additive (dc_apply count) tau).

  Lemma rc_new_state k ds ys ys' i orig o (tenor : option P) d :
    prepare_data k ys = Ok ys' -> length ds = length ys' -> NoDup (map tm ds) -> dom_origin orig ds = Some o ->
    dstate (tm:=tm) count tau (cls_interp k) i orig o ds ys' d ->
    rc_new k ds ys i orig count tenor = Ok (mkR k d tenor None).
  Proof.
    intros Hp HL ND HO S. unfold rc_new. rewrite Hp. cbn [bind].
    apply (dstate_iff (L:=L) count tau A _ _ _ _ _ o) in S; auto. rewrite S. reflexivity.
  Qed.

  (** what all curves built from lists have in common *)
  Definition built (k : cls) (ds : list D) (orig : option D) (o : D) (tenor : option P) (c : rcurve R D P) : Prop :=
    rc_cls c = k /\ rc_domain c = ds /\ rc_origin c = Some o /\ (forall a b, rc_yf c a b = dc_apply count a b) /\
    dc_origin0 (rc_dc c) = orig /\ dc_count (rc_dc c) = count /\
    rc_tenor0 c = tenor /\ rc_spread c = None /\ date_values c /\ additive (rc_yf c) tau.

  Lemma built_of k ds ys i orig o tenor d :
    dstate (tm:=tm) count tau (cls_interp k) i orig o ds ys d -> built k ds orig o tenor (mkR k d tenor None).
  Proof.
    intro S. destruct (dstate_origin _ _ _ _ _ _ _ _ _ S) as [H1 [H2 [H3 H4]]].
    assert (A' : additive (dc_yf d) tau).
    { unfold dc_yf. rewrite H2. exact A. }
    assert (O : dc_origin0 d = orig) by (destruct S as [_ [_ [_ [f [_ ->]]]]]; reflexivity).
    unfold built, rc_domain, rc_origin. cbn. repeat split; auto.
    - intros a b. unfold rc_yf, dc_yf. cbn. now rewrite H2.
    - apply date_values_ok. cbn. eauto.
    - apply (add_val _ _ A').
    - apply (add_add _ _ A').
    - apply (add_zero _ _ A').
    - apply (add_zero _ _ A').
  Qed.

  Lemma dc_val_some (d : dcurve R D) x y : dc_call d x = Ok (Some y) -> dc_val d x = Ok y.
  Proof. intro H. unfold dc_val. now rewrite H. Qed.

  Definition linear_cls (k : cls) : Prop := cls_interp k = linear_scheme.

  (** classes with linear interpolation *)
  Lemma rc_new_linear k ds ys orig o (tenor : option P) :
    linear_cls k -> length ds = length ys -> NoDup (map tm ds) -> ds <> [] -> dom_origin orig ds = Some o ->
    exists c, rc_new k ds ys None orig count tenor = Ok c /\ built k ds orig o tenor c /\
      (forall d y, In (d, y) (combine ds ys) -> rc_call c d = Ok y) /\
      (forall d, exists y, rc_call c d = Ok y /\
        forall h, (forall a b, tau a b = h b - h a) -> piecewise_linear (combine (map h ds) ys) (h d) y).
  Proof.
    intros K HL ND NE HO.
    assert (AD : admissible linear_scheme (times tau o ds ys)).
    { apply adm_linear. now apply (times_distinct (L:=L) count tau A). }
    destruct (dstate_exists (tm:=tm) count tau linear_scheme None orig o ds ys HL ND HO AD) as [d S].
    assert (S' : dstate (tm:=tm) count tau (cls_interp k) None orig o ds ys d) by (rewrite K; exact S).
    exists (mkR k d tenor None). split; [|split; [|split]].
    - apply (rc_new_state k ds ys ys None orig o); auto. unfold prepare_data.
      destruct k; try reflexivity; discriminate K.
    - eapply built_of; eauto.
    - intros x y I. rewrite rc_call_plain. apply dc_val_some.
      refine (dstate_data (tm:=tm) count tau A _ _ _ _ _ _ _ _ _ S AD _). now apply in_times.
    - intro x. destruct (dstate_linear (tm:=tm) count tau A orig o ds ys d x (tau o)) as [y [E _]]; auto.
      { intros a b. apply (tau_diff A). }
      exists y. split; [rewrite rc_call_plain; now apply dc_val_some|].
      intros h Hh. destruct (dstate_linear (tm:=tm) count tau A orig o ds ys d x h) as [y' [E' Q]]; auto.
      congruence.
  Qed.

  Lemma rate_adm o ds ys : length ds = length ys -> NoDup (map tm ds) -> (forall y, In y ys -> 0 < y) ->
    (exists d, In d ds /\ tm d <> tm o) -> admissible log_linear_rate_scheme (times tau o ds ys).
  Proof.
    intros HL ND PO [d [I N]]. split; [intros n; discriminate|]. split; [now apply (times_distinct (L:=L) count tau A)|].
    split; [|split].
    - simpl. unfold two_args. intuition congruence.
    - intros _. now apply times_positive.
    - intros _ _ _ _. assert (exists y, In (d, y) (combine ds ys)) as [y Iy].
      { clear -I HL. revert ys HL. induction ds; intros [|y ys] HL; simpl in *; try discriminate; [destruct I|].
        destruct I as [->|I]; eauto. destruct (IHds I ys) as [w Iw]; [lia|eauto]. }
      exists (tau o d), y. split; [now apply in_times|]. intro E. apply N.
      apply (tau_tm (L:=L) count tau A o). rewrite E. symmetry. apply (tau_self A).
  Qed.

  (** discount factors and survival probabilities *)
  Lemma rc_new_rate k ds ys ys' orig o (tenor : option P) :
    prob_cls k -> prepare_data k ys = Ok ys' -> length ds = length ys' -> NoDup (map tm ds) ->
    (exists d, In d ds /\ tm d <> tm o) -> dom_origin orig ds = Some o -> (forall y, In y ys' -> 0 < y) ->
    exists c, rc_new k ds ys None orig count tenor = Ok c /\ built k ds orig o tenor c /\
      (forall d y, In (d, y) (combine ds ys') -> rc_call c d = Ok y) /\
      (forall d, tm d <> tm o -> exists r, rc_call c d = Ok (exp (- r * tau o d)) /\
         piecewise_linear (transform (fun a y => - ln y / a) (without_zero (combine (map (tau o) ds) ys'))) (tau o d) r) /\
      (~ In (tm o) (map tm ds) -> forall d, tm d = tm o -> rc_call c d = Err TypeError).
  Proof.
    intros K Hp HL ND NO HO PO.
    assert (CI : cls_interp k = log_linear_rate_scheme) by (destruct K as [->|[-> | ->]]; reflexivity).
    pose proof (rate_adm o ds ys' HL ND PO NO) as AD.
    destruct (dstate_exists (tm:=tm) count tau log_linear_rate_scheme None orig o ds ys' HL ND HO AD) as [d S].
    assert (S' : dstate (tm:=tm) count tau (cls_interp k) None orig o ds ys' d) by (rewrite CI; exact S).
    assert (LT : length (map (tau o) ds) = length ys') by now rewrite map_length.
    assert (NT : NoDup (map (tau o) ds)) by now apply (times_nodup (L:=L) count tau A).
    assert (NZ : exists a, In a (map (tau o) ds) /\ a <> 0).
    { destruct NO as [e [I N]]. exists (tau o e). split; [now apply in_map|]. intro E. apply N.
      apply (tau_tm (L:=L) count tau A o). rewrite E. symmetry. apply (tau_self A). }
    destruct (rate_scheme_pl (map (tau o) ds) ys' LT NT NZ PO) as [f [Ef [F1 [F2 F3]]]].
    assert (CA : forall x, dc_call d x = fn_call f (tau o x)).
    { intro x. destruct (dstate_call (tm:=tm) count tau A _ _ _ _ _ _ _ x S) as [f' [Ef' ->]].
      change (dc_spec log_linear_rate_scheme None) with log_linear_rate_scheme in Ef'. congruence. }
    assert (TZ : forall x, tau o x = 0 <-> tm x = tm o).
    { intro x. rewrite <- (tau_tm (L:=L) count tau A o x o), (tau_self A). reflexivity. }
    exists (mkR k d tenor None). split; [|split; [|split; [|split]]].
    - apply (rc_new_state k ds ys ys' None orig o); auto.
    - eapply built_of; eauto.
    - intros x y I. rewrite rc_call_plain. apply dc_val_some.
      refine (dstate_data (tm:=tm) count tau A _ _ _ _ _ _ _ _ _ S AD _). now apply in_times.
    - intros x Nx. destruct (F1 (tau o x)) as [r [E Q]]; [rewrite TZ; auto|].
      exists r. split; auto. rewrite rc_call_plain. apply dc_val_some. now rewrite CA.
    - intros NI x Ex. rewrite rc_call_plain. unfold dc_val. rewrite CA, (proj2 (TZ x) Ex), F3; [reflexivity|].
      intro I. apply NI. apply in_map_iff in I. destruct I as [e [E I]]. apply TZ in E. rewrite <- E. now apply in_map.
  Qed.

  (** piecewise constant: short rates and hazard rates *)
  Lemma rc_new_const k ds ys orig o (tenor : option P) :
    k = CShortRate \/ k = CHazard -> length ds = length ys -> NoDup (map tm ds) -> ds <> [] -> dom_origin orig ds = Some o ->
    exists c, rc_new k ds ys None orig count tenor = Ok c /\ built k ds orig o tenor c /\
      (forall d y, In (d, y) (combine ds ys) -> rc_call c d = Ok y) /\
      (forall d, exists y, rc_call c d = Ok y /\ left_value (times tau o ds ys) (tau o d) y).
  Proof.
    intros K HL ND NE HO.
    assert (CI : cls_interp k = SBase Kconstant) by (destruct K as [-> | ->]; reflexivity).
    assert (AD : admissible (SBase Kconstant) (times tau o ds ys)).
    { split; [intros n; discriminate|]. split; [now apply (times_distinct (L:=L) count tau A)|]. split; [|split].
      - simpl. unfold two_args. intuition congruence.
      - intros [q [I Q]]. simpl in I. destruct I as [<-|[]]. exfalso. unfold log_kind in Q. intuition congruence.
      - simpl. tauto. }
    destruct (dstate_exists (tm:=tm) count tau (SBase Kconstant) None orig o ds ys HL ND HO AD) as [d S].
    assert (S' : dstate (tm:=tm) count tau (cls_interp k) None orig o ds ys d) by (rewrite CI; exact S).
    exists (mkR k d tenor None). split; [|split; [|split]].
    - apply (rc_new_state k ds ys ys None orig o); auto. unfold prepare_data.
      destruct K as [-> | ->]; reflexivity.
    - eapply built_of; eauto.
    - intros x y I. rewrite rc_call_plain. apply dc_val_some.
      refine (dstate_data (tm:=tm) count tau A _ _ _ _ _ _ _ _ _ S AD _). now apply in_times.
    - intro x.
      assert (LT : length (map (tau o) ds) = length ys) by now rewrite map_length.
      assert (NT : NoDup (map (tau o) ds)) by now apply (times_nodup (L:=L) count tau A).
      assert (NN : map (tau o) ds <> []) by (destruct ds; [congruence|discriminate]).
      destruct (constant_some (map (tau o) ds) ys (tau o x) LT NT NN) as [f [y [Ef [Ey Q]]]].
      exists y. rewrite rc_call_plain. split; auto. apply dc_val_some.
      destruct (dstate_call (tm:=tm) count tau A _ _ _ _ _ _ _ x S) as [f' [Ef' ->]].
      unfold dc_spec, fn_new, resolve in Ef'. rewrite Ef in Ef'. cbn [rmap] in Ef'.
      inversion Ef'; subst f'. exact Ey.
  Qed.

  (** marginal survival probabilities *)
  Lemma rc_new_log k ds ys ys' orig o (tenor : option P) :
    k = CMargSurvival \/ k = CMargDefault -> prepare_data k ys = Ok ys' -> length ds = length ys' ->
    NoDup (map tm ds) -> ds <> [] -> dom_origin orig ds = Some o -> (forall y, In y ys' -> 0 < y) ->
    exists c, rc_new k ds ys None orig count tenor = Ok c /\ built k ds orig o tenor c /\
      (forall d y, In (d, y) (combine ds ys') -> rc_call c d = Ok y) /\
      (forall d, exists v, rc_call c d = Ok v /\ 0 < v /\
        forall h, (forall a b, tau a b = h b - h a) ->
        piecewise_linear (combine (map h ds) (map ln ys')) (h d) (ln v)).
  Proof.
    intros K Hp HL ND NE HO PO.
    assert (CI : cls_interp k = log_linear_scheme) by (destruct K as [-> | ->]; reflexivity).
    assert (AD : admissible log_linear_scheme (times tau o ds ys')).
    { apply log_adm; [now apply (times_distinct (L:=L) count tau A)|now apply times_positive]. }
    destruct (dstate_exists (tm:=tm) count tau log_linear_scheme None orig o ds ys' HL ND HO AD) as [d S].
    assert (S' : dstate (tm:=tm) count tau (cls_interp k) None orig o ds ys' d) by (rewrite CI; exact S).
    exists (mkR k d tenor None). split; [|split; [|split]].
    - apply (rc_new_state k ds ys ys' None orig o); auto.
    - eapply built_of; eauto.
    - intros x y I. rewrite rc_call_plain. apply dc_val_some.
      refine (dstate_data (tm:=tm) count tau A _ _ _ _ _ _ _ _ _ S AD _). now apply in_times.
    - intro x. destruct (dstate_log (tm:=tm) count tau A None orig o ds ys' d x (tau o)) as [y [E [Hy _]]]; auto.
      { intros a b. apply (tau_diff A). }
      exists y. split; [rewrite rc_call_plain; now apply dc_val_some|]. split; auto.
      intros h Hh. destruct (dstate_log (tm:=tm) count tau A None orig o ds ys' d x h) as [y' [E' [_ Q]]]; auto.
      congruence.
  Qed.
End New.
