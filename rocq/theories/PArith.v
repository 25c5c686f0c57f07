(** Properties C80, C81: arithmetic of cash flow lists (dcf/cashflows/cashflow.py:158-172,
    234-248) and of rate curves (dcf/curves/curve.py:754-768). *)
From Coq Require Import Reals Lra Lia List Bool ZArith Sorted.
From Verif Require Import Num Py Spec SInterpolation SCurve SDates SRateCurve SCast LBase LSort MCompounding MInterpolation
  LInterpolation LInterpolation2 MDates MCurve MRateCurve MOption MCashflow LDates LCurve LCurve2 LDateCurve LDateCurve2 PDateCurve2
  LRateCurve LRateCurve3 LCast LCashflow LArith.
Import ListNotations.
Open Scope R_scope.

(** * C80: adding a number to a cash flow list, or scaling it *)
Section Lists.
  Context {D P : Type}.
  Implicit Types (l : cflist R D P) (ll : leglist R D P).

  (** never gives a list, and never changes the list *)
  Theorem C80_scaling_refuted : forall o l x,
    (forall l', fst (cf_arith o l x) <> Ok (Some l')) /\ snd (cf_arith o l x) = l.
  Proof.
    intros o l x. split; [|reflexivity]. intros l' H. unfold cf_arith in H. cbn [fst] in H.
    destruct (mapM _ (cf_flows l)); discriminate.
  Qed.

  (** for a list of numbers the result is None; zero does not divide *)
  Theorem C80_numbers : forall o l x, (forall d f, In (d, f) (cf_flows l) -> exists y, f = FlNum y) ->
    (o <> ADiv \/ x <> 0 -> cf_arith o l x = (Ok None, l)) /\
    (o = ADiv -> x = 0 -> cf_flows l <> [] -> cf_arith o l x = (Err ZeroDivisionError, l)).
  Proof.
    intros o l x H. unfold cf_arith. split.
    - intro N. match goal with |- context [mapM ?f ?m] => destruct (mapM_total f m) as [r ->] end; [|reflexivity].
      intros [d f] I. destruct (H d f I) as [y ->]. cbn [snd]. unfold num_arith. destruct o; eauto.
      destruct N as [N|N]; [congruence|]. rn. rewrite Rdivp_ok by auto. eauto.
    - intros -> -> N. destruct (cf_flows l) as [|[d f] fl]; [congruence|].
      destruct (H d f (or_introl eq_refl)) as [y ->]. cbn [mapM snd num_arith]. rn. rewrite Rdivp_zero. reflexivity.
  Qed.

  (** a list whose first flow is a payoff object raises AttributeError: every bond, swap or
      option list *)
  Theorem C80_payoffs : forall o l x d p fl, cf_flows l = (d, FlPay p) :: fl ->
    cf_arith o l x = (Err AttributeError, l).
  Proof. intros o l x d p fl H. unfold cf_arith. rewrite H. reflexivity. Qed.

  (** leg lists: no result, legs unchanged *)
  Theorem C80_legs_refuted : forall o ll x,
    (forall ll', fst (ll_arith o ll x) <> Ok (Some ll')) /\ snd (ll_arith o ll x) = ll.
  Proof.
    intros o ll x. split.
    - intros ll' H. unfold ll_arith in H. cbn [fst] in H. destruct (mapM _ (ll_legs ll)); discriminate.
    - unfold ll_arith. cbn [snd]. destruct ll as [legs base]. cbn [ll_legs ll_base]. f_equal.
      rewrite <- (map_id legs) at 2. apply map_ext. reflexivity.
  Qed.
End Lists.
Print Assumptions C80_scaling_refuted.
Print Assumptions C80_numbers.
Print Assumptions C80_payoffs.
Print Assumptions C80_legs_refuted.

(** the flows -100, 100 times two *)
Example C80_instance : exists l : cflist R R (fperiod R),
  cf_new (DS:=FloatDates) [0; 1] (Many [FlNum (-100); FlNum 100]) None LNone false = Ok l /\
  cf_arith AMul l 2 = (Ok None, l) /\
  cf_get (DS:=FloatDates) (DC:=[]) 1 None (snd (cf_arith AMul l 2)) 1 = Ok 100.
Proof.
  unfold cf_new. cbn [spread_arg length Nat.eqb negb]. eexists. split; [reflexivity|].
  assert (X : dict_of (d_eqb (DateSys:=FloatDates)) (combine [0; 1] [FlNum (-100); FlNum 100]) =
              [(0, FlNum (-100)); (1, FlNum 100 : flow R R (fperiod R))]).
  { unfold dict_of. cbn [combine fold_left assoc_set fst snd d_eqb FloatDates]. rn. rewrite (proj2 (Reqb_false 0 1)) by lra. reflexivity. }
  rewrite X. split; [reflexivity|]. unfold cf_arith. cbn [snd]. unfold cf_get, cf_flow. cbn [cf_flows assoc d_eqb FloatDates]. rn.
  rewrite (proj2 (Reqb_false 0 1)) by lra. rewrite (proj2 (Reqb_true 1 1)) by reflexivity. reflexivity.
Qed.

(** * C81: arithmetic of zero rate curves *)
(** a zero rate curve from lists, with the default interpolation *)
Definition zero_curve {D P} {DS : DateSys R D P} {DC : DayCounts R D} (tm : D -> R) (ds : list D) (ys : list R) (orig : option D)
    (count : dcspec R D) (tenor : option P) (c : rcurve R D P) : Prop :=
  ds <> [] /\ length ds = length ys /\ NoDup (map tm ds) /\ rc_new CZeroRate ds ys None orig count tenor = Ok c.

Section Zero.
  Context {D P : Type} (DS : DateSys R D P) (tm : D -> R) (DC : DayCounts R D) (L : DateLaws DS tm).

  Lemma zero_curve_dc ds ys orig count tenor c : zero_curve (P:=P) tm ds ys orig count tenor c -> exists d,
    c = mkR CZeroRate d tenor None /\ ds <> [] /\ length ds = length ys /\ NoDup (map tm ds) /\
    dc_new linear_scheme ds ys None orig count = Ok d.
  Proof.
    intros [NE [HL [ND E]]]. unfold rc_new in E. cbn [prepare_data is_probability bind cls_interp] in E.
    destruct (dc_new linear_scheme ds ys None orig count) as [d|] eqn:Ed; [|discriminate]. cbn [bind] in E.
    inversion E; subst. eauto 8.
  Qed.

  (** a + b, a - b, a * b of zero rate curves with equal origins: a zero rate curve with the
      forward tenor of a, on the union of both grids, and the values are combined there; but
      its origin is its first date and its day count the default one *)
  Theorem C81_grid : forall (ca cb : dcspec R D) ta tb, additive (dc_apply ca) ta -> additive (dc_apply cb) tb ->
    (cb = DcDefault \/ exists name, cb = DcName name) ->
    forall oa ob da ya db yb na nb a b, zero_curve tm da ya oa ca na a -> zero_curve tm db yb ob cb nb b ->
    forall o o' delta, rc_origin a = Some o -> rc_origin b = Some o' -> d_diff o o' = Ok delta -> p_truthy delta = false ->
    forall op n flr, exists s, rc_zip (S n) flr op a b = Ok s /\ rc_cls s = CZeroRate /\ rc_tenor0 s = na /\
      (forall t, In t (map tm (rc_domain s)) <-> In t (map tm da) \/ In t (map tm db)) /\
      (forall x, In x (rc_domain s) -> exists u v, rc_call a x = Ok u /\ rc_call b x = Ok v /\ rc_call s x = Ok (op u v)) /\
      rc_origin s = hd_error (rc_domain s) /\ StronglySorted (fun x y => tm x <= tm y) (rc_domain s) /\ dc_count (rc_dc s) = DcDefault.
  Proof.
    intros ca cb ta tb Aa Ab Kb oa ob da ya db yb na nb a b Za Zb o o' delta HO HO' HD HP op n flr.
    destruct (zero_curve_dc _ _ _ _ _ _ Za) as [ad [-> [NA [HLA [NDA Ea]]]]].
    destruct (zero_curve_dc _ _ _ _ _ _ Zb) as [bd [-> [NB [HLB [NDB Eb]]]]].
    destruct (C67_union_grid DS tm DC L ca cb ta tb Aa Ab Kb oa ob da ya db yb ad bd NA NB HLA HLB NDA NDB Ea Eb o o' delta HO HO' HD HP op)
      as [c [Z [U V]]].
    destruct (zip_zero (L:=L) ca cb ta tb Aa Ab Kb oa ob da db ya yb ad bd NA HLA NDA NB HLB NDB Ea Eb o o' delta op na nb n flr c HO HO' HD HP Z)
      as [E [X1 [X2 [X3 _]]]].
    exists (mkR CZeroRate c na None). split; [exact E|]. split; [reflexivity|]. split; [reflexivity|].
    split; [exact U|]. split; [|split; [|split]].
    - intros x Ix. destruct (V x Ix) as [u [v [V1 [V2 V3]]]]. exists u, v. rewrite !rc_call_plain.
      split; [now apply dc_val_some|]. split; now apply dc_val_some.
    - unfold rc_origin, dc_origin, rc_domain. cbn [rc_dc]. rewrite X2. reflexivity.
    - unfold rc_domain. cbn [rc_dc]. rewrite X1. apply (date_set_sorted (L:=L)).
    - exact X3.
  Qed.

  (** the discount factors of a sum: both rates over the time since the earliest date m of
      both grids, whatever the origin and the day counts of the curves are *)
  Theorem C81_discount_factors : forall (ca cb : dcspec R D) ta tb, additive (dc_apply ca) ta -> additive (dc_apply cb) tb ->
    (cb = DcDefault \/ exists name, cb = DcName name) ->
    forall oa ob da ya db yb na nb a b, zero_curve tm da ya oa ca na a -> zero_curve tm db yb ob cb nb b ->
    forall o o' delta, rc_origin a = Some o -> rc_origin b = Some o' -> d_diff o o' = Ok delta -> p_truthy delta = false ->
    forall n flr, exists s m, rc_zip (S (S n)) flr Rplus a b = Ok s /\ rc_origin s = Some m /\
      In m (da ++ db) /\ (forall x, In x (da ++ db) -> tm m <= tm x) /\
      forall x, In x (rc_domain s) -> exists u v, get_zero_rate1 (S n) a x = Ok u /\ get_zero_rate1 (S n) b x = Ok v /\
        get_discount_factor1 (S (S n)) s x = Ok (exp (- (u + v) * (tm x - tm m))).
  Proof.
    intros ca cb ta tb Aa Ab Kb oa ob da ya db yb na nb a b Za Zb o o' delta HO HO' HD HP n flr.
    destruct (zero_curve_dc _ _ _ _ _ _ Za) as [ad [-> [NA [HLA [NDA Ea]]]]].
    destruct (zero_curve_dc _ _ _ _ _ _ Zb) as [bd [-> [NB [HLB [NDB Eb]]]]].
    destruct (C67_union_grid DS tm DC L ca cb ta tb Aa Ab Kb oa ob da ya db yb ad bd NA NB HLA HLB NDA NDB Ea Eb o o' delta HO HO' HD HP Rplus)
      as [c [Z [U V]]].
    destruct (zip_zero (L:=L) ca cb ta tb Aa Ab Kb oa ob da db ya yb ad bd NA HLA NDA NB HLB NDB Ea Eb o o' delta Rplus na nb (S n) flr c HO HO' HD HP Z)
      as [E [X1 [X2 [X3 X4]]]].
    assert (NX : dc_domain c <> []) by (rewrite X1; apply (dset_ne (L:=L)); destruct da; [congruence|discriminate]).
    assert (NDX : NoDup (map tm (dc_domain c))) by (rewrite X1; apply (dset_nodup (L:=L))).
    assert (HO2 : exists m, dc_origin c = Some m /\ hd_error (dc_domain c) = Some m).
    { unfold dc_origin. rewrite X2. cbn [dom_origin]. destruct (dc_domain c); [congruence|]. simpl. eauto. }
    destruct HO2 as [m [Om Hm]]. exists (mkR CZeroRate c na None), m. split; [exact E|]. split; [exact Om|].
    assert (Im : In m (dc_domain c)) by (destruct (dc_domain c); [congruence|]; inversion Hm; simpl; auto).
    split; [rewrite X1 in Im; now apply dset_sub in Im|]. split.
    - intros x Ix. assert (In (tm x) (map tm (dc_domain c))) as Q by (rewrite X1, (dset_times (L:=L)); now apply in_map).
      apply in_map_iff in Q. destruct Q as [y [<- Iy]].
      pose proof (date_set_sorted (L:=L) (da ++ db)) as S. unfold date_set in S. rewrite <- X1 in S.
      destruct (dc_domain c) as [|z zs]; [congruence|]. inversion Hm; subst z. inversion S as [|? ? _ F]; subst.
      rewrite Forall_forall in F. destruct Iy as [<-|Iy]; [lra|auto].
    - intros x Ix. exists (dfun ad x), (dfun bd x).
      split; [apply (zero_of (L:=L) ca ta Aa oa da ya ad NA HLA NDA Ea)|].
      split; [apply (zero_of (L:=L) cb tb Ab ob db yb bd NB HLB NDB Eb)|].
      assert (HLX : length (dc_domain c) = length (map (fun x => dfun ad x + dfun bd x) (dc_domain c))) by now rewrite map_length.
      destruct (df_of (L:=L) DcDefault _ (default_additive (L:=L)) None _ _ c NX HLX NDX X4 n na x) as [m' [Om' ->]].
      assert (m' = m) by congruence. subst m'. do 2 f_equal. f_equal. f_equal.
      destruct (V x Ix) as [u [v [V1 [V2 V3]]]]. unfold dfun. rewrite V1, V2, V3. reflexivity.
  Qed.

  (** so with default day counts and a common origin which is the earliest grid date of both,
      the discount factors are multiplied everywhere *)
  Theorem C81_product : forall oa ob da ya db yb na nb a b,
    zero_curve tm da ya oa DcDefault na a -> zero_curve tm db yb ob DcDefault nb b ->
    forall o o' delta, rc_origin a = Some o -> rc_origin b = Some o' -> d_diff o o' = Ok delta -> p_truthy delta = false ->
    tm o = tm o' -> In (tm o) (map tm (da ++ db)) -> (forall x, In x (da ++ db) -> tm o <= tm x) ->
    forall n flr, exists s, rc_zip (S (S n)) flr Rplus a b = Ok s /\
      forall x, exists u v, get_discount_factor1 (S (S n)) a x = Ok u /\ get_discount_factor1 (S (S n)) b x = Ok v /\
        get_discount_factor1 (S (S n)) s x = Ok (u * v).
  Proof.
    intros oa ob da ya db yb na nb a b Za Zb o o' delta HO HO' HD HP TO IO MO n flr.
    pose proof (default_additive (L:=L) (DC:=DC)) as A.
    destruct (C81_discount_factors DcDefault DcDefault _ _ A A (or_introl eq_refl) _ _ _ _ _ _ _ _ _ _ Za Zb o o' delta HO HO' HD HP n flr)
      as [s [m [Es [Om [Im [Mm _]]]]]].
    assert (TM : tm m = tm o).
    { pose proof (MO m Im). apply in_map_iff in IO. destruct IO as [z [Ez Iz]]. pose proof (Mm z Iz). lra. }
    destruct (zero_curve_dc _ _ _ _ _ _ Za) as [ad [-> [NA [HLA [NDA Ea]]]]].
    destruct (zero_curve_dc _ _ _ _ _ _ Zb) as [bd [-> [NB [HLB [NDB Eb]]]]].
    destruct (C67_everywhere DS tm DC L oa ob da ya db yb ad bd NA NB HLA HLB NDA NDB Ea Eb o o' delta HO HO' HD HP)
      as [c [c2 [Z [_ V]]]].
    destruct (zip_zero (L:=L) DcDefault DcDefault _ _ A A (or_introl eq_refl) oa ob da db ya yb ad bd NA HLA NDA NB HLB NDB Ea Eb o o' delta Rplus na nb (S n) flr c HO HO' HD HP Z)
      as [E [X1 [X2 [X3 X4]]]].
    rewrite Es in E. inversion E; subst s. exists (mkR CZeroRate c na None). split; auto. intro x.
    destruct (df_of (L:=L) DcDefault _ A oa da ya ad NA HLA NDA Ea n na x) as [pa [Pa Fa]].
    destruct (df_of (L:=L) DcDefault _ A ob db yb bd NB HLB NDB Eb n nb x) as [pb [Pb Fb]].
    assert (NX : dc_domain c <> []) by (rewrite X1; apply (dset_ne (L:=L)); destruct da; [congruence|discriminate]).
    assert (NDX : NoDup (map tm (dc_domain c))) by (rewrite X1; apply (dset_nodup (L:=L))).
    assert (HLX : length (dc_domain c) = length (map (fun x => dfun ad x + dfun bd x) (dc_domain c))) by now rewrite map_length.
    destruct (df_of (L:=L) DcDefault _ A None _ _ c NX HLX NDX X4 n na x) as [pc [Pc Fc]].
    rewrite Fa, Fb, Fc. do 2 eexists. split; [reflexivity|]. split; [reflexivity|]. f_equal. rewrite <- exp_plus. f_equal.
    unfold rc_origin in HO, HO', Om. cbn [rc_dc] in HO, HO', Om.
    assert (pa = o) by congruence. assert (pb = o') by congruence. assert (pc = m) by congruence. subst pa pb pc.
    destruct (V x) as [u [v [V1 [V2 [V3 _]]]]]. unfold dfun. rewrite V1, V2, V3, TM, <- TO. ring.
  Qed.

  (** but if the origin lies before all grid dates - the usual case of a curve with today as
      origin - discounting with the sum starts at the first grid date, and the discount factors
      are not multiplied wherever the sum of rates is not zero *)
  Theorem C81_product_refuted : forall oa ob da ya db yb na nb a b,
    zero_curve tm da ya oa DcDefault na a -> zero_curve tm db yb ob DcDefault nb b ->
    forall o o' delta, rc_origin a = Some o -> rc_origin b = Some o' -> d_diff o o' = Ok delta -> p_truthy delta = false ->
    tm o = tm o' -> (forall x, In x (da ++ db) -> tm o < tm x) ->
    forall n flr, exists s, rc_zip (S (S n)) flr Rplus a b = Ok s /\ rc_origin s <> Some o /\
      forall x, In x (rc_domain s) -> exists u v w r, get_discount_factor1 (S (S n)) a x = Ok u /\ get_discount_factor1 (S (S n)) b x = Ok v /\
        get_discount_factor1 (S (S n)) s x = Ok w /\ rc_call s x = Ok r /\ (r <> 0 -> w <> u * v).
  Proof.
    intros oa ob da ya db yb na nb a b Za Zb o o' delta HO HO' HD HP TO MO n flr.
    pose proof (default_additive (L:=L) (DC:=DC)) as A.
    destruct (C81_discount_factors DcDefault DcDefault _ _ A A (or_introl eq_refl) _ _ _ _ _ _ _ _ _ _ Za Zb o o' delta HO HO' HD HP n flr)
      as [s [m [Es [Om [Im [Mm F]]]]]].
    destruct (C81_grid DcDefault DcDefault _ _ A A (or_introl eq_refl) _ _ _ _ _ _ _ _ _ _ Za Zb o o' delta HO HO' HD HP Rplus (S n) flr)
      as [s' [Es' [_ [_ [_ [G _]]]]]].
    assert (s' = s) by congruence. subst s'.
    exists s. split; auto. split.
    { rewrite Om. intro Q. inversion Q; subst. pose proof (MO _ Im). lra. }
    intros x Ix. destruct (F x Ix) as [u [v [Fu [Fv Fw]]]]. destruct (G x Ix) as [u' [v' [Gu [Gv Gw]]]].
    destruct (zero_curve_dc _ _ _ _ _ _ Za) as [ad [-> [NA [HLA [NDA Ea]]]]].
    destruct (zero_curve_dc _ _ _ _ _ _ Zb) as [bd [-> [NB [HLB [NDB Eb]]]]].
    destruct (df_of (L:=L) DcDefault _ A oa da ya ad NA HLA NDA Ea n na x) as [pa [Pa Fa]].
    destruct (df_of (L:=L) DcDefault _ A ob db yb bd NB HLB NDB Eb n nb x) as [pb [Pb Fb]].
    rewrite (zero_of (L:=L) DcDefault _ A oa da ya ad NA HLA NDA Ea) in Fu. inversion Fu; subst u.
    rewrite (zero_of (L:=L) DcDefault _ A ob db yb bd NB HLB NDB Eb) in Fv. inversion Fv; subst v.
    destruct (lin_state (L:=L) DcDefault _ A oa da ya ad NA HLA NDA Ea) as [? [_ [_ [_ [_ [_ [_ [_ [_ [Va _]]]]]]]]]].
    destruct (lin_state (L:=L) DcDefault _ A ob db yb bd NB HLB NDB Eb) as [? [_ [_ [_ [_ [_ [_ [_ [_ [Vb _]]]]]]]]]].
    rewrite rc_call_plain, Va in Gu. rewrite rc_call_plain, Vb in Gv. inversion Gu; subst u'. inversion Gv; subst v'.
    unfold rc_origin in HO, HO'. cbn [rc_dc] in HO, HO'.
    assert (pa = o) by congruence. assert (pb = o') by congruence. subst pa pb.
    do 4 eexists. split; [exact Fa|]. split; [exact Fb|]. split; [exact Fw|]. split; [exact Gw|].
    intros NZ Q. rewrite <- exp_plus in Q. apply exp_inv in Q. rewrite <- TO in Q. pose proof (MO _ Im).
    assert ((dfun ad x + dfun bd x) * (tm m - tm o) = 0) as Q2 by lra.
    apply Rmult_integral in Q2. destruct Q2; [auto|lra].
  Qed.
End Zero.
Print Assumptions C81_grid.
Print Assumptions C81_discount_factors.
Print Assumptions C81_product.
Print Assumptions C81_product_refuted.

(** dividing rate curves always fails *)
Theorem C81_div_refuted : forall {D P} (DS : DateSys R D P) (DC : DayCounts R D) fuel flr (a b c : rcurve R D P),
  rc_div fuel flr a b <> Ok c.
Proof.
  intros D P DS DC fuel flr a b c H. unfold rc_div in H.
  destruct (rc_cast _ _ _ b _ _ _ _) as [b1|]; [|discriminate]. cbn [bind] in H.
  destruct (rc_origin a), (rc_origin b1); try discriminate.
  destruct (d_diff d d0); [|discriminate]. cbn [bind] in H.
  destruct (if p_truthy a0 then _ else _) in H; [|discriminate]. cbn [bind] in H.
  destruct (rc_cast_on _ _ _ _ _ _ _ _ _) as [b2|]; [|discriminate]. cbn [bind] in H. cbv zeta in H.
  destruct (mapM _ _) in H; [|discriminate]. cbn [bind] in H. destruct (existsb _ _); [discriminate|].
  destruct (mapM _ _) in H; [|discriminate]. cbn [bind] in H. destruct (rc_new _ _ _ _ _ _ _); discriminate.
Qed.
Print Assumptions C81_div_refuted.

(** two curves with origin 0: the first grid contains it *)
Example C81_instance : exists a b : rcurve R R (fperiod R),
  zero_curve (DS:=FloatDates) (DC:=[]) (fun d => d) [0; 1] [1/100; 2/100] None DcDefault None a /\
  zero_curve (DS:=FloatDates) (DC:=[]) (fun d => d) [1; 3] [1/100; 3/100] (Some 0) DcDefault None b /\
  rc_origin a = Some 0 /\ rc_origin b = Some 0 /\
  d_diff (DateSys:=FloatDates) 0 0 = Ok (FP (0 - 0)) /\ p_truthy (DateSys:=FloatDates) (FP (0 - 0)) = false /\
  In 0 ([0; 1] ++ [1; 3]) /\ (forall x, In x ([0; 1] ++ [1; 3]) -> 0 <= x).
Proof.
  assert (N1 : NoDup (map (fun d : R => d) [0; 1])) by (simpl; repeat constructor; simpl; intuition lra).
  assert (N2 : NoDup (map (fun d : R => d) [1; 3])) by (simpl; repeat constructor; simpl; intuition lra).
  destruct (rc_new_linear (L:=float_laws) (P:=fperiod R) (DC:=[]) DcDefault _ float_additive CZeroRate [0; 1] [1/100; 2/100] None 0 None)
    as [a [Ea [Ba _]]]; auto; try reflexivity; try discriminate.
  destruct (rc_new_linear (L:=float_laws) (P:=fperiod R) (DC:=[]) DcDefault _ float_additive CZeroRate [1; 3] [1/100; 3/100] (Some 0) 0 None)
    as [b [Eb [Bb _]]]; auto; try reflexivity; try discriminate.
  exists a, b. split; [repeat split; auto; discriminate|]. split; [repeat split; auto; discriminate|].
  split; [apply Ba|]. split; [apply Bb|]. split; [reflexivity|]. split; [|split].
  - cbn. unfold ntruthy. rn. replace (0 - 0) with 0 by lra. now rewrite Reqb_refl.
  - simpl; auto.
  - simpl. intuition lra.
Qed.
