(** Property C88: a cash rate curve made of another interest rate curve discounts like that
    curve on the dates a number of tenors after the origin (interestratecurve.py:384-430). *)
From Coq Require Import Reals Lra Lia List Bool ZArith.
From Verif Require Import Num Py Spec SInterpolation SCurve SDates SRateCurve SCast LBase LCompounding MCompounding MInterpolation MDates
  MCurve MRateCurve LDates LFuel LCurve LDateCurve LRateCurve LRateCurve2 LRateCurve3 LRateCurve4 LCredit LCivil LCast LCast2 LPricer
  PRateCurve2 PCast2.
Import ListNotations.
Open Scope R_scope.

#[local] Instance no_registry3 {D} : DayCounts R D := [].

(** any curve whose discount factors multiply: origin and end in the grid of src *)
Theorem C88_cash_rate_cast : forall {D P} (DS : DateSys R D P) (tm : D -> R) (DC : DayCounts R D),
  DateLaws DS tm -> forall (src : rcurve R D P) o tau fuel flr c, castable src o tau -> solid_origin src o ->
  is_interest (rc_cls src) = true -> rc_cls src <> CCashRate ->
  by_date (fun x => get_cash_rate (S fuel) src x None None) ->
  rc_cast (S fuel) flr CCashRate src None None DcDefault None = Ok c ->
  forall (ds : nat -> D) n, ds 0%nat = o -> schedule (rc_tenor src) ds n ->
  (forall i, (i < n)%nat -> d_sub (ds (S i)) (rc_tenor src) = Ok (ds i)) ->
  In o (rc_domain src) -> In (ds n) (rc_domain src) ->
  get_discount_factor1 fuel src o = Ok 1 ->
  (forall i, (i < n)%nat -> exists a q, get_discount_factor1 fuel src (ds i) = Ok a /\
     get_discount_factor fuel src (ds i) (ds (S i)) = Ok q /\ 0 < q /\ get_discount_factor1 fuel src (ds (S i)) = Ok (a * q)) ->
  forall k m, (k <= n)%nat -> (n + 3 <= m)%nat ->
    get_discount_factor1 m c (ds k) = get_discount_factor1 fuel src (ds k).
Proof.
  intros D P DS tm DC L src o tau fuel flr c C SO I NC BD H ds n D0 Sc SB Io In_ DO HQ k m Hk Hm.
  destruct (cash_stored (L:=L) src o tau C (S fuel) flr None c SO BD H) as [B1 [[T1 T2] [RT [V [SBK [A _]]]]]].
  cbv zeta beta iota in RT, V, SBK.
  assert (ST : forall i, (i <= n)%nat -> stepped src o (S fuel) (rc_tenor src) (ds i)).
  { intros i Hi. destruct i as [|i]; [left; now rewrite D0|]. right.
    destruct (SBK _ In_) as [l El]. exists (ds n), l. split; auto. split; auto.
    rewrite <- D0 in El. apply (step_back_schedule (L:=L) (rc_tenor src) ds n) with (j := n) (fuel := S fuel); auto; try lia.
    intros j Hj. now apply Sc. }
  assert (HQ' : forall i, (i < n)%nat -> exists q, get_discount_factor fuel src (ds i) (ds (S i)) = Ok q /\ 0 < q /\
             has_value c (ds i) ((1 / q - 1) / tau (ds i) (ds (S i)))).
  { intros i Hi. destruct (HQ i Hi) as [a [q [_ [Eq [Pq _]]]]]. exists q. split; auto. split; auto.
    destruct (Sc i Hi) as [S1 S2]. destruct (V (ds i) (ST i ltac:(lia))) as [r [Er Vr]].
    assert (NE : d_eqb (ds i) (ds (S i)) = false) by (apply eqb_f; apply ltb_inv in S2; lra).
    destruct (C24_cash_rate DS tm DC L src tau (ca_time _ _ _ C) NC fuel (ds i) (ds (S i)) q NE Eq ltac:(lra)) as [_ [_ G]].
    rewrite (G S1) in Er. inversion Er; subst r. exact Vr. }
  set (q := fun i => value_of (get_discount_factor fuel src (ds i) (ds (S i)))).
  assert (TN : forall i, (i < n)%nat -> tau (ds i) (ds (S i)) <> 0).
  { intros i Hi. destruct (Sc i Hi) as [_ S2]. apply (tau_ne c tau A), eqb_f. apply ltb_inv in S2. lra. }
  assert (QV : forall i, (i < n)%nat -> 0 < q i /\ has_value c (ds i) ((1 / q i - 1) / tau (ds i) (ds (S i))) /\
             1 + (1 / q i - 1) / tau (ds i) (ds (S i)) * tau (ds i) (ds (S i)) = / q i).
  { intros i Hi. destruct (HQ' i Hi) as [x [Ex [Px Vx]]]. unfold q. rewrite Ex. cbn [value_of]. split; auto. split; auto.
    specialize (TN i Hi). field. split; lra. }
  assert (SRC : forall i, (i <= n)%nat -> get_discount_factor1 fuel src (ds i) = Ok (prod_n q i)).
  { induction i; intro Hi; [rewrite D0; exact DO|]. destruct (HQ i ltac:(lia)) as [a [y [Ea [Ey [_ Es]]]]].
    rewrite IHi in Ea by lia. inversion Ea; subst a. rewrite Es, prod_n_last. unfold q at 3. rewrite Ey. reflexivity. }
  rewrite (SRC k Hk). unfold get_discount_factor1, from_origin. rewrite T1, (ca_origin _ _ _ C), <- D0.
  destruct (C25_cash_rate_curve DS tm DC L c tau A B1 ds n (fun i => (1 / q i - 1) / tau (ds i) (ds (S i)))) with
    (i := 0%nat) (j := k) (k := n) (fuel := m) as [x [y [Ex [_ [_ [Px _]]]]]]; auto; try lia.
  - now rewrite RT.
  - intros i Hi. now apply QV.
  - intros i Hi. destruct (QV i Hi) as [Q1 [_ ->]]. now apply Rinv_0_lt_compat.
  - rewrite Ex, Px. f_equal. rewrite Nat.sub_0_r. apply prod_n_ext. intros i Hi. cbn [Nat.add].
    destruct (QV i ltac:(lia)) as [Q1 [_ ->]]. rewrite Rinv_inv. reflexivity.
Qed.
Print Assumptions C88_cash_rate_cast.

(** for zero rate curves the cast succeeds too: all discount factors up to the end of the
    grid which are a number of tenors after the origin are kept *)
Theorem C88_zero_rate_curve : forall {D P} (DS : DateSys R D P) (tm : D -> R) (DC : DayCounts R D),
  DateLaws DS tm -> forall (src : rcurve R D P) o tau fuel flr, castable src o tau -> solid_origin src o ->
  rc_cls src = CZeroRate -> (forall x, exists v, has_value src x v) -> steps (rc_tenor src) -> (2 < fuel)%nat ->
  (forall x, In x (rc_domain src) -> back_to (rc_tenor src) o x fuel) ->
  exists c, rc_cast fuel flr CCashRate src None None DcDefault None = Ok c /\
  forall (ds : nat -> D) n, ds 0%nat = o -> schedule (rc_tenor src) ds n ->
  (forall i, (i < n)%nat -> d_sub (ds (S i)) (rc_tenor src) = Ok (ds i)) ->
  In o (rc_domain src) -> In (ds n) (rc_domain src) ->
  forall k m m', (k <= n)%nat -> (n + 3 <= m)%nat -> (1 < m')%nat -> exists x,
    get_discount_factor1 m c (ds k) = Ok x /\ get_discount_factor1 m' src (ds k) = Ok x.
Proof.
  intros D P DS tm DC L src o tau fuel flr C SO K V St F HB.
  assert (exists v, forall d, rc_call src d = Ok (v d)) as [v Hv].
  { exists (fun d => value_of (rc_call src d)). intro d. apply value_of_ok. destruct (V d) as [y E]. exists y. exact E. }
  assert (FK : flat_cls (rc_cls src)) by (rewrite K; now left).
  assert (DF : forall n s t, get_discount_factor (S (S n)) src s t = Ok (exp (- (v t * tau o t - v s * tau o s)))).
  { intros n s t. unfold get_discount_factor, interest_only. rewrite K. cbn [is_interest].
    apply (flat_factor src o tau (ca_origin _ _ _ C) (ca_time _ _ _ C)); auto; try apply Hv. apply (ca_date _ _ _ C). }
  assert (T0 : tau o o = 0) by (apply (tau_eq (ca_time _ _ _ C)), eqb_refl).
  assert (D1 : forall n t, get_discount_factor1 (S (S n)) src t = Ok (exp (- (v t * tau o t)))).
  { intros n t. unfold get_discount_factor1, from_origin. rewrite (ca_origin _ _ _ C), DF, T0. do 3 f_equal. lra. }
  assert (CR : forall f x e, d_add x (rc_tenor src) = Ok e -> d_ltb x e = true ->
     get_cash_rate (S (S (S f))) src x None None = Ok ((1 / exp (- (v e * tau o e - v x * tau o x)) - 1) / tau x e)).
  { intros f x e E LT. apply ltb_inv in LT.
    apply (C24_cash_rate DS tm DC L src tau (ca_time _ _ _ C) ltac:(rewrite K; discriminate) (S (S f)) x e); auto.
    - apply eqb_f; lra.
    - pose proof (exp_pos (- (v e * tau o e - v x * tau o x))). lra. }
  destruct fuel as [|[|[|f]]]; try lia.
  assert (BD : by_date (fun x => get_cash_rate (S (S (S f))) src x None None)).
  { intros a b E. destruct (St a) as [a' [Ea [La Q]]]. destruct (Q b E) as [b' [Eb E']].
    assert (Lb : d_ltb b b' = true) by (dbool; apply ltb_t; lra).
    rewrite (CR f a a' Ea La), (CR f b b' Eb Lb).
    assert (VE : forall x y, d_eqb x y = true -> v x = v y /\ forall s, tau s x = tau s y).
    { intros x y Exy. split.
      - pose proof (ca_date _ _ _ C x y Exy) as W. rewrite !Hv in W. now inversion W.
      - intro s. pose proof (add_add _ _ (ca_time _ _ _ C) s x y) as W. rewrite (tau_eq (ca_time _ _ _ C) x y Exy) in W. lra. }
    destruct (VE a b E) as [-> W1], (VE a' b' E') as [-> W2]. rewrite W1, !W2.
    replace (tau a b') with (tau b b'); auto.
    pose proof (add_add _ _ (ca_time _ _ _ C) a b b') as W. rewrite (tau_eq (ca_time _ _ _ C) a b E) in W. lra. }
  destruct (cash_exists (L:=L) src o tau C (S (S (S f))) flr None SO BD) as [c E]; auto.
  { intros x Ix. apply (step_back_ends o), HB, Ix. }
  { intros x _. destruct (St x) as [e [Ee [Le _]]]. rewrite (CR f x e Ee Le). eauto. }
  exists c. split; auto. intros ds n D0 Sc SB Io In_ k m m' Hk Hm Hm'.
  exists (exp (- (v (ds k) * tau o (ds k)))).
  destruct m' as [|[|m']]; try lia. rewrite D1. split; auto. rewrite <- (D1 f (ds k)).
  apply (C88_cash_rate_cast DS tm DC L src o tau (S (S f)) flr c C SO ltac:(now rewrite K) ltac:(rewrite K; discriminate) BD E ds n); auto.
  - rewrite D1, T0, Rmult_0_r, Ropp_0, exp_0. reflexivity.
  - intros i Hi. do 2 eexists. split; [apply D1|]. split; [apply DF|]. split; [apply exp_pos|].
    rewrite D1. f_equal. rewrite <- exp_plus. f_equal. lra.
Qed.
Print Assumptions C88_zero_rate_curve.

(** REFUTED if the origin is not a grid date: before its first grid date the new curve is
    constant, so the first period is discounted with the rate of the second one *)
Theorem C88_origin_refuted : forall {D P} (DS : DateSys R D P) (tm : D -> R) (DC : DayCounts R D),
  DateLaws DS tm -> forall (src : rcurve R D P) o tau fuel flr c, castable src o tau -> solid_origin src o -> monotone tau ->
  is_interest (rc_cls src) = true -> by_date (fun x => get_cash_rate fuel src x None None) ->
  rc_cast fuel flr CCashRate src None None DcDefault None = Ok c ->
  forall d r, d_add o (rc_tenor src) = Ok d -> d_ltb o d = true -> In d (rc_domain src) ->
  (forall x, In x (rc_domain c) -> d_leb d x = true) ->
  get_cash_rate fuel src d None None = Ok r -> 0 < 1 + r * tau o d ->
  forall m, (4 <= m)%nat -> get_discount_factor1 m c d = Ok (/ (1 + r * tau o d)).
Proof.
  intros D P DS tm DC L src o tau fuel flr c C SO M I BD H d r Ad Ld Id Hd Er Pr m Hm.
  destruct (cash_stored (L:=L) src o tau C fuel flr None c SO BD H) as [B1 [[T1 T2] [RT [V [_ [A [BF [_ [DV SG]]]]]]]]].
  cbv zeta beta iota in RT, V.
  assert (Vd : rc_call c d = Ok r).
  { destruct (V d) as [r' [E1 E2]]; [now left|]. congruence. }
  assert (Vo : rc_call c o = Ok r).
  { destruct (SG d (or_introl Id)) as [d' [Id' Ed]]. pose proof (DV _ _ Ed) as Q. apply eqb_inv in Ed. rewrite (BF M d' o Id'), <- Q; auto.
    - intros x Ix. specialize (Hd x Ix). apply leb_inv in Hd. apply leb_t. lra.
    - apply leb_t. apply ltb_inv in Ld. lra. }
  unfold get_discount_factor1, from_origin. rewrite T1, (ca_origin _ _ _ C).
  destruct (C25_cash_rate_curve DS tm DC L c tau A B1 (fun i => match i with O => o | _ => d end) 1 (fun _ => r)) with
    (i := 0%nat) (j := 1%nat) (k := 1%nat) (fuel := m) as [x [y [Ex [_ [_ [Px _]]]]]]; auto; try lia.
  - intros i Hi. replace i with 0%nat by lia. now rewrite RT.
  - intros i Hi. replace i with 0%nat by lia. exact Vo.
  - intros i Hi. replace i with 0%nat by lia. exact Pr.
  - rewrite Ex, Px. f_equal. unfold prod_n. cbn. ring.
Qed.
Print Assumptions C88_origin_refuted.

(** the zero rates 10% and 20% for one and two years with yearly tenor: with a rate at the
    origin the cash rate curve has the same discount factors, without one it has others *)
Section Instance.
  Notation tauR := (fun a b : R => b - a).
  Lemma back_float o x N fuel : (N < fuel)%nat -> x <= o + INR N -> back_to (DS:=FloatDates) (FP 1) o x fuel.
  Proof.
    intros H1 H2. exists (fun i => x - INR i), N. split; auto. split; [cbn; lra|]. split.
    - intros i Hi. change (Ok (x - INR i - 1) = Ok (x - INR (S i)) :> res R). f_equal. rewrite S_INR. lra.
    - change (Rltb o (x - INR N) = false). apply Rltb_false. lra.
  Qed.
  Lemma zero_float (ds ys : list R) (o : R) : length ds = length ys -> NoDup ds -> ds <> [] ->
    exists z, rc_new (DS:=FloatDates) CZeroRate ds ys None (Some o) DcDefault (Some (FP 1)) = Ok z /\ rc_domain z = ds /\
      castable (DS:=FloatDates) z o tauR /\ solid_origin (DS:=FloatDates) z o /\ rc_cls z = CZeroRate /\
      (forall x, exists v, has_value (DS:=FloatDates) z x v) /\ rc_tenor (DS:=FloatDates) z = FP 1 /\
      forall d y, In (d, y) (combine ds ys) -> rc_call (DS:=FloatDates) z d = Ok y.
  Proof.
    intros HL ND NE. pose proof (float_additive (DC:=no_registry3)) as A.
    destruct (rc_new_linear (L:=float_laws) DcDefault _ A CZeroRate ds ys (Some o) o (Some (FP 1))) as [z [E [B [V V']]]]; auto.
    { reflexivity. } { now rewrite map_id. }
    destruct B as [B1 [B2 [B3 [B4 [B5 [B6 [B7 [B8 [B9 B10]]]]]]]]].
    assert (VA : forall x, exists v, has_value (DS:=FloatDates) z x v).
    { intro x. destruct (V' x) as [v [Ev _]]. exists v. exact Ev. }
    exists z. split; auto. split; auto. split; [constructor; auto|].
    { rewrite B2. auto. } { intros n f. rewrite B6. discriminate. }
    split; [left; auto|]. split; auto. split; auto. split; [|exact V]. unfold rc_tenor. now rewrite B7.
  Qed.
  Lemma float_steps1 : steps (DS:=FloatDates) (FP 1).
  Proof.
    intro a. exists (a + 1). split; [reflexivity|]. split; [change (Rltb a (a + 1) = true); apply Rltb_true; lra|].
    intros b E. exists (b + 1). split; [reflexivity|]. change (Reqb a b = true) in E. change (Reqb (a + 1) (b + 1) = true).
    apply Reqb_true in E. apply Reqb_true. lra.
  Qed.

  Example C88_instance : exists z c : rcurve R R (fperiod R),
    rc_new (DS:=FloatDates) CZeroRate [0; 1; 2] [1 / 20; 1 / 10; 2 / 10] None (Some 0) DcDefault (Some (FP 1)) = Ok z /\
    rc_cast (DS:=FloatDates) 4 None CCashRate z None None DcDefault None = Ok c /\
    forall k, (k <= 2)%nat -> exists x, get_discount_factor1 (DS:=FloatDates) 5 c (INR k) = Ok x /\
                                       get_discount_factor1 (DS:=FloatDates) 5 z (INR k) = Ok x.
  Proof.
    destruct (zero_float [0; 1; 2] [1 / 20; 1 / 10; 2 / 10] 0) as [z [E [B2 [C [SO [K [VA [RT V]]]]]]]]; auto.
    { repeat constructor; simpl; intuition lra. } { discriminate. }
    destruct (C88_zero_rate_curve FloatDates (fun x => x) no_registry3 float_laws z 0 tauR 4 None C SO K VA) as [c [Ec Hc]]; auto.
    { rewrite RT. exact float_steps1. }
    { intros x Ix. rewrite RT. rewrite B2 in Ix. apply back_float with (N := 2%nat); [lia|]. destruct Ix as [<-|[<-|[<-|[]]]]; cbn; lra. }
    exists z, c. split; auto. split; auto. intros k Hk. apply (Hc INR 2%nat); auto; try lia.
    - intros i Hi. rewrite RT. split; [change (Ok (INR i + 1) = Ok (INR (S i)) :> res R); now rewrite S_INR|].
      change (Rltb (INR i) (INR (S i)) = true). apply Rltb_true. rewrite S_INR. lra.
    - intros i Hi. rewrite RT. change (Ok (INR (S i) - 1) = Ok (INR i) :> res R). f_equal. rewrite S_INR. lra.
    - rewrite B2. simpl. auto.
    - rewrite B2. simpl. auto.
  Qed.

  Example C88_refuted_instance : exists z c : rcurve R R (fperiod R),
    rc_new (DS:=FloatDates) CZeroRate [1; 2] [1 / 10; 2 / 10] None (Some 0) DcDefault (Some (FP 1)) = Ok z /\
    rc_cast (DS:=FloatDates) 4 None CCashRate z None None DcDefault None = Ok c /\
    get_discount_factor1 (DS:=FloatDates) 5 c 1 = Ok (exp (- (3 / 10))) /\
    get_discount_factor1 (DS:=FloatDates) 5 z 1 = Ok (exp (- (1 / 10))) /\
    exp (- (3 / 10)) <> exp (- (1 / 10)).
  Proof.
    destruct (zero_float [1; 2] [1 / 10; 2 / 10] 0) as [z [E [B2 [C [SO [K [VA [RT V]]]]]]]]; auto.
    { repeat constructor; simpl; intuition lra. } { discriminate. }
    destruct (C88_zero_rate_curve FloatDates (fun x => x) no_registry3 float_laws z 0 tauR 4 None C SO K VA) as [c [Ec _]]; auto.
    { rewrite RT. exact float_steps1. }
    { intros x Ix. rewrite RT. rewrite B2 in Ix. apply back_float with (N := 2%nat); [lia|]. destruct Ix as [<-|[<-|[]]]; cbn; lra. }
    assert (BD : by_date (DS:=FloatDates) (fun x => get_cash_rate (DS:=FloatDates) 4 z x None None)).
    { intros a b Q. change (Reqb a b = true) in Q. apply Reqb_true in Q. now subst. }
    assert (DF : forall n s t vs vt, rc_call (DS:=FloatDates) z s = Ok vs -> rc_call (DS:=FloatDates) z t = Ok vt ->
       get_discount_factor (DS:=FloatDates) (S (S n)) z s t = Ok (exp (- (vt * (t - 0) - vs * (s - 0))))).
    { intros n s t vs vt H1 H2. unfold get_discount_factor, interest_only. rewrite K. cbn [is_interest].
      apply (flat_factor (L:=float_laws) z 0 tauR (ca_origin _ _ _ C) (ca_time _ _ _ C)); auto; [rewrite K; now left|]. apply (ca_date _ _ _ C). }
    destruct (VA 0) as [v0 V0]. destruct (VA 3) as [v3 V3].
    assert (V1 : rc_call (DS:=FloatDates) z 1 = Ok (1 / 10)) by (apply V; simpl; auto).
    assert (V2 : rc_call (DS:=FloatDates) z 2 = Ok (2 / 10)) by (apply V; simpl; auto).
    exists z, c. split; auto. split; auto. split; [|split].
    - assert (CR : get_cash_rate (DS:=FloatDates) 4 z 1 None None = Ok (1 / exp (- (3 / 10)) - 1)).
      { destruct (C24_cash_rate FloatDates (fun x => x) no_registry3 float_laws z tauR (ca_time _ _ _ C) ltac:(rewrite K; discriminate) 3 1 2
                   (exp (- (3 / 10)))) as [_ [_ G]].
        - change (Reqb 1 2 = false). apply Reqb_false. lra.
        - rewrite (DF 1%nat 1 2 _ _ V1 V2). do 2 f_equal. lra.
        - pose proof (exp_pos (- (3 / 10))). lra.
        - rewrite G; [f_equal; field; pose proof (exp_pos (- (3 / 10))); lra|]. rewrite RT. change (Ok (1 + 1) = Ok 2 :> res R). f_equal. }
      assert (PE := exp_pos (- (3 / 10))).
      rewrite (C88_origin_refuted FloatDates (fun x => x) no_registry3 float_laws z 0 tauR 4 None c C SO) with (r := 1 / exp (- (3 / 10)) - 1); auto; try lia.
      + f_equal. replace (1 + (1 / exp (- (3 / 10)) - 1) * (1 - 0)) with (/ exp (- (3 / 10))) by (field; lra). now rewrite Rinv_inv.
      + intros a b. change (0 < b - a <-> Rltb a b = true). rewrite Rltb_true. lra.
      + now rewrite K.
      + rewrite RT. change (Ok (0 + 1) = Ok 1 :> res R). f_equal. lra.
      + change (Rltb 0 1 = true). apply Rltb_true. lra.
      + rewrite B2. simpl. auto.
      + destruct (cash_stored (L:=float_laws) z 0 tauR C 4 None None c SO BD Ec) as [_ [_ [_ [_ [_ [_ [_ [SG _]]]]]]]].
        intros x Ix. change (Rleb 1 x = true). apply Rleb_true. destruct (SG x Ix) as [Jx|[y [l [Iy [El Jx]]]]].
        * rewrite B2 in Jx. destruct Jx as [<-|[<-|[]]]; lra.
        * rewrite RT, B2 in *.
          assert (G : forall n y l, y = IZR (Z.of_nat n) -> forall f, step_back (DS:=FloatDates) f 0 y (FP 1) = Ok l -> forall x, In x l -> 1 <= x).
          { induction n; intros y0 l0 Ey f Ef w Iw; (destruct f; [discriminate|]); cbn [step_back] in Ef;
              change (d_ltb (DateSys:=FloatDates) 0 y0) with (Rltb 0 y0) in Ef.
            - replace (Rltb 0 y0) with false in Ef by (symmetry; apply Rltb_false; rewrite Ey; simpl; lra). inversion Ef; subst l0. destruct Iw.
            - assert (Ey' : y0 - 1 = IZR (Z.of_nat n)) by (rewrite Ey, Nat2Z.inj_succ, succ_IZR; lra).
              assert (0 <= IZR (Z.of_nat n)) by (apply IZR_le; lia).
              replace (Rltb 0 y0) with true in Ef by (symmetry; apply Rltb_true; lra).
              change (d_sub (DateSys:=FloatDates) y0 (FP 1)) with (Ok (y0 - 1) : res R) in Ef. cbn [bind] in Ef.
              destruct (step_back (DS:=FloatDates) f 0 (y0 - 1) (FP 1)) as [l1|] eqn:E1; [|discriminate]. cbn [bind] in Ef. inversion Ef; subst l0.
              destruct Iw as [<-|Iw]; [lra|]. exact (IHn _ _ Ey' _ E1 _ Iw). }
          destruct Iy as [<-|[<-|[]]]; [apply (G 1%nat 1 l eq_refl 4%nat El x Jx)|apply (G 2%nat 2 l eq_refl 4%nat El x Jx)].
      + replace (1 + (1 / exp (- (3 / 10)) - 1) * (1 - 0)) with (/ exp (- (3 / 10))) by (field; lra). now apply Rinv_0_lt_compat.
    - unfold get_discount_factor1, from_origin. rewrite (ca_origin _ _ _ C), (DF 3%nat 0 1 _ _ V0 V1). do 2 f_equal. lra.
    - intro Q. apply exp_inv in Q. lra.
  Qed.
End Instance.
