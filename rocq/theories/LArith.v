(** Lemmas about the arithmetic of zero rate curves. *)
From Coq Require Import Reals Lra Lia List Bool ZArith Sorted.
From Verif Require Import Num Py Spec SInterpolation SCurve SDates SRateCurve SCast LBase LSort MCompounding MInterpolation
  LInterpolation LInterpolation2 MDates MCurve MRateCurve LDates LCurve LCurve2 LDateCurve LDateCurve2 LRateCurve LRateCurve3 LCast.
Import ListNotations.
Open Scope R_scope.

Section Arith.
  Context {D P : Type} {DS : DateSys R D P} {tm : D -> R} {L : DateLaws DS tm} {DC : DayCounts R D}.

  Lemma map_values {A B} (f : A -> B) ds ys : length ds = length ys ->
    (forall d y, In (d, y) (combine ds ys) -> f d = y) -> map f ds = ys.
  Proof.
    revert ys. induction ds as [|d ds IH]; intros [|y ys] HL H; try discriminate; auto. cbn [map]. f_equal.
    - apply H. left; auto.
    - apply IH; [auto|]. intros. apply H. now right.
  Qed.

  Variables (count : dcspec R D) (tau : D -> D -> R).
  Hypothesis (A : additive (dc_apply count) tau) (K : count = DcDefault \/ exists name, count = DcName name).
  Variables (orig : option D) (ds : list D) (ys : list R) (d : dcurve R D).
  Hypothesis (NE : ds <> []) (HL : length ds = length ys) (ND : NoDup (map tm ds)).
  Hypothesis (E : dc_new linear_scheme ds ys None orig count = Ok d).

  Lemma lin_state : exists o, dom_origin orig ds = Some o /\ dc_origin d = Some o /\ dc_domain d = ds /\ dc_count d = count /\
    dc_dflt d = linear_scheme /\ dc_interp d = None /\ dc_origin0 d = orig /\
    (forall x, dc_call d x = Ok (Some (dfun d x))) /\ (forall x, dc_val d x = Ok (dfun d x)) /\ map (dfun d) ds = ys.
  Proof.
    assert (exists o, dom_origin orig ds = Some o) as [o HO].
    { unfold dom_origin. destruct orig; eauto. destruct ds; [congruence|]. simpl. eauto. }
    exists o. pose proof (proj1 (dstate_iff count tau A linear_scheme ds ys None orig o d HL ND HO) E) as S.
    destruct (dlin (L:=L) count tau A _ _ _ _ _ S NE) as [A1 [A2 [A3 _]]].
    destruct (dstate_origin _ _ _ _ _ _ _ _ _ S) as [B1 [B2 [B3 _]]].
    assert (FA : dc_dflt d = linear_scheme /\ dc_interp d = None /\ dc_origin0 d = orig) by (destruct S as [_ [_ [_ [f [_ ->]]]]]; auto).
    destruct FA as [F1 [F2 F3]].
    split; auto. split; auto. split; auto. split; auto. split; auto. split; auto. split; auto. split; auto. split; auto.
    apply map_values; auto.
  Qed.

  Lemma kwarg_same : dc_or DcDefault (dc_kwarg count) = count.
  Proof. destruct K as [->|[n ->]]; reflexivity. Qed.

  (** sampling a curve on its own dates rebuilds it *)
  Lemma resample : dc_sample d ds None None DcDefault = Ok d.
  Proof.
    destruct lin_state as [o [HO [H1 [H2 [H3 [H4 [H5 [H6 [H7 [H8 H9]]]]]]]]]].
    unfold dc_sample. rewrite H2. rewrite (mapM_ok (dc_call d) (fun x => Some (dfun d x))) by (intros; apply H7). cbn [bind].
    rewrite (mapM_ok (dc_val d) (dfun d)) by (intros; apply H8). cbn [bind].
    rewrite H3, H4, H5, H6, H9. cbn [interp_or origin_or]. now rewrite kwarg_same.
  Qed.

  (** the zero rates of a zero rate curve from its origin are its values *)
  Lemma zero_of n (t : option P) x : get_zero_rate1 (S n) (mkR CZeroRate d t None) x = Ok (dfun d x).
  Proof.
    destruct lin_state as [o [HO [H1 [H2 [H3 [H4 [H5 [H6 [H7 [H8 H9]]]]]]]]]].
    unfold get_zero_rate1, from_origin, rc_origin. cbn [rc_dc]. rewrite H1. unfold get_zero_rate, interest_only. cbn [rc_cls is_interest].
    cbn [rate]. cbv zeta. cbn [rc_cls]. unfold both_origin, at_origin, rc_origin. cbn [rc_dc]. rewrite H1.
    rewrite law_is_refl. rewrite !rc_call_plain, !H8.
    destruct (d_eqb o x) eqn:EQ; cbn [andb]; auto.
    destruct (d_eqb x o) eqn:EQ'; auto.
    assert (AY : additive (dc_yf d) tau) by (unfold dc_yf; rewrite H3; exact A).
    pose proof (dc_val_date (L:=L) d tau o x AY EQ) as Q. rewrite !H8 in Q. congruence.
  Qed.

  Lemma df_of n (t : option P) x : exists o, dc_origin d = Some o /\
    get_discount_factor1 (S (S n)) (mkR CZeroRate d t None) x = Ok (exp (- dfun d x * tau o x)).
  Proof.
    destruct lin_state as [o [HO [H1 [H2 [H3 [H4 [H5 [H6 [H7 [H8 H9]]]]]]]]]]. exists o. split; auto.
    assert (AY : additive (rc_yf (mkR CZeroRate d t None)) tau) by (unfold rc_yf, dc_yf; cbn [rc_dc]; rewrite H3; exact A).
    unfold get_discount_factor1, from_origin. replace (rc_origin (mkR CZeroRate d t None)) with (Some o) by (symmetry; exact H1).
    unfold get_discount_factor, interest_only. cbn [rc_cls is_interest].
    rewrite (flat_factor (mkR CZeroRate d t None) o tau H1 AY n o x (dfun d o) (dfun d x)).
    - f_equal. f_equal. rewrite (tau_self A). ring.
    - left. reflexivity.
    - apply date_values_ok. cbn [additive_counts]. split; auto. exists tau. exact AY.
    - unfold has_value. rewrite rc_call_plain. apply H8.
    - unfold has_value. rewrite rc_call_plain. apply H8.
  Qed.

  (** casting a zero rate curve to itself *)
  Lemma recast n flr (t t' : option P) :
    rc_cast_on (S n) flr CZeroRate ds (mkR CZeroRate d t None) None None DcDefault t' = Ok (mkR CZeroRate d t' None).
  Proof.
    destruct lin_state as [o [HO [H1 [H2 [H3 [H4 [H5 [H6 [H7 [H8 H9]]]]]]]]]].
    apply (cast_on_eq (S n) flr CZeroRate ds (mkR CZeroRate d t None) None DcDefault t' (dfun d) d).
    - intros x _. cbn [storage_value]. apply zero_of.
    - intros x _. rewrite rc_call_plain, H8. eauto.
    - cbn [rc_dc origin_or]. rewrite H3, H6, H9, kwarg_same. exact E.
  Qed.
End Arith.

Section Zip.
  Context {D P : Type} {DS : DateSys R D P} {tm : D -> R} {L : DateLaws DS tm} {DC : DayCounts R D}.
  Variables (ca cb : dcspec R D) (ta tb : D -> D -> R).
  Hypothesis (Aa : additive (dc_apply ca) ta) (Ab : additive (dc_apply cb) tb).
  Hypothesis (Kb : cb = DcDefault \/ exists name, cb = DcName name).
  Variables (oa ob : option D) (da db : list D) (ya yb : list R) (a b : dcurve R D).
  Hypothesis (NA : da <> []) (HLA : length da = length ya) (NDA : NoDup (map tm da)).
  Hypothesis (NB : db <> []) (HLB : length db = length yb) (NDB : NoDup (map tm db)).
  Hypothesis (Ea : dc_new linear_scheme da ya None oa ca = Ok a) (Eb : dc_new linear_scheme db yb None ob cb = Ok b).

  (** arithmetic of zero rate curves is that of the curves of the rates *)
  Lemma zip_zero o o' delta op (tn tn' : option P) n flr c :
    dc_origin a = Some o -> dc_origin b = Some o' -> d_diff o o' = Ok delta -> p_truthy delta = false ->
    dc_zip op a b = Ok c ->
    rc_zip (S n) flr op (mkR CZeroRate a tn None) (mkR CZeroRate b tn' None) = Ok (mkR CZeroRate c tn None) /\
    dc_domain c = sorted_set d_ltb d_eqb (da ++ db) /\ dc_origin0 c = None /\ dc_count c = DcDefault /\
    dc_new linear_scheme (dc_domain c) (map (fun x => op (dfun a x) (dfun b x)) (dc_domain c)) None None DcDefault = Ok c.
  Proof.
    intros Oa Ob Ed Pd Z.
    destruct (lin_state (L:=L) ca ta Aa oa da ya a NA HLA NDA Ea) as [p [_ [_ [A2 [A3 [A4 [A5 [A6 [A7 [A8 A9]]]]]]]]]].
    destruct (lin_state (L:=L) cb tb Ab ob db yb b NB HLB NDB Eb) as [q [_ [_ [B2 [B3 [B4 [B5 [B6 [B7 [B8 B9]]]]]]]]]].
    set (xs := sorted_set d_ltb d_eqb (da ++ db)). set (g := fun x => op (dfun a x) (dfun b x)).
    assert (NX : xs <> []) by (apply (dset_ne (L:=L)); destruct da; [congruence|discriminate]).
    assert (NDX : NoDup (map tm xs)) by apply (dset_nodup (L:=L)).
    unfold dc_zip in Z. rewrite Oa, Ob, Ed in Z. cbn [bind] in Z.
    unfold dc_shifted in Z. rewrite Pd in Z. cbn [bind] in Z. rewrite B2 in Z.
    rewrite (resample (L:=L) cb tb Ab Kb ob db yb b NB HLB NDB Eb) in Z. cbn [bind] in Z. rewrite A2, B2 in Z. cbv zeta in Z.
    fold xs in Z. rewrite (mapM_ok _ g) in Z by (intros x _; rewrite A8, B8; reflexivity). cbn [bind] in Z.
    rewrite A4, A5, A3 in Z.
    destruct (dc_new linear_scheme xs (map g xs) None None DcDefault) as [c'|] eqn:EN; [|discriminate]. cbn [bind] in Z.
    assert (HLX : length xs = length (map g xs)) by now rewrite map_length.
    destruct (lin_state (L:=L) DcDefault _ (default_additive (L:=L)) None xs (map g xs) c' NX HLX NDX EN) as [r [_ [C1 [C2 [C3 [C4 [C5 [C6 [C7 [C8 C9]]]]]]]]]].
    rewrite C2 in Z. rewrite (mapM_ok (dc_val c') (dfun c')) in Z by (intros; apply C8). cbn [bind] in Z. rewrite C9, C5 in Z.
    destruct (dc_new linear_scheme xs (map g xs) None (Some o) ca) as [c2|] eqn:E2; [|discriminate]. cbn [bind] in Z.
    inversion Z; subst c'. clear Z. rewrite C2.
    split; [|split; [|split; [|split]]]; auto.
    unfold rc_zip. cbn [rc_cls rc_dc rc_tenor0]. unfold rc_cast at 1. unfold rc_domain at 1. cbn [rc_dc]. rewrite B2.
    rewrite (recast (L:=L) cb tb Ab Kb ob db yb b NB HLB NDB Eb). cbn [bind].
    unfold rc_origin at 1 2. cbn [rc_dc]. rewrite Oa, Ob, Ed. cbn [bind]. rewrite Pd. cbn [bind].
    unfold rc_domain at 1. cbn [rc_dc]. rewrite B2.
    rewrite (recast (L:=L) cb tb Ab Kb ob db yb b NB HLB NDB Eb). cbn [bind]. cbv zeta.
    replace (date_set (rc_domain (mkR CZeroRate a tn None) ++ rc_domain (mkR CZeroRate b None None))) with xs
      by (unfold rc_domain, date_set; cbn [rc_dc]; now rewrite A2, B2).
    rewrite (mapM_ok _ g) by (intros x _; rewrite !rc_call_plain, A8, B8; reflexivity). cbn [bind].
    rewrite A5. unfold rc_new at 1. cbn [prepare_data is_probability bind cls_interp]. rewrite EN. cbn [bind].
    unfold rc_domain at 1. cbn [rc_dc]. rewrite C2.
    rewrite (mapM_ok _ (dfun c)) by (intros x _; rewrite rc_call_plain; apply C8). cbn [bind]. rewrite C9.
    unfold rc_domain at 1. cbn [rc_dc]. rewrite C2, C5, A3. unfold rc_new. cbn [prepare_data is_probability bind cls_interp]. rewrite E2. cbn [bind].
    unfold rc_cast. unfold rc_domain. cbn [rc_dc]. rewrite C2.
    apply (recast (L:=L) DcDefault _ (default_additive (L:=L)) (or_introl eq_refl) None xs (map g xs) c NX HLX NDX EN).
  Qed.
End Zip.
