(** Properties C90 and C91: grid values, grids and tenors in double precision. *)
From Coq Require Import ZArith Lia List Bool Permutation Floats.SpecFloat.
From Verif Require Import Num Py MDates MInterpolation MCurve MRateCurve MPlot MFloat LSort.
Import ListNotations.

#[local] Instance no_registry64 {T D} : DayCounts T D := [].

(** * C90: a curve gives its own values *)
(** the classes which look a date up *)
Definition looks_up (k : ikind) : Prop :=
  k = Kno \/ k = Kdefault \/ k = Kzero \/ k = Kleft \/ k = Kconstant \/ k = Kright \/ k = Knearest.

Lemma index_unique {A} (eqb : A -> A -> bool) x (l : list A) j : nth_error l j = Some x -> eqb x x = true ->
  (forall i y, nth_error l i = Some y -> i <> j -> eqb y x = false) -> index_of eqb x l = Some j.
Proof.
  revert j. induction l as [|y l IH]; intros j E RF U; [destruct j; discriminate|]. cbn [index_of].
  destruct j as [|j].
  - injection E as ->. now rewrite RF.
  - rewrite (U 0%nat y eq_refl ltac:(discriminate)). rewrite (IH j); auto.
    intros i z Ez Ne. apply (U (S i) z Ez). congruence.
Qed.
Lemma nth_map {A B} (f : A -> B) l j x : nth_error l j = Some x -> nth_error (map f l) j = Some (f x).
Proof. intro H. apply map_nth_error, H. Qed.

(** dates which are different numbers: no date repeated, and the comparison of floats tells
    them apart (so no nan, not both 0.0 and -0.0) *)
Definition apart {T} {N : Num T} (xs : list T) : Prop :=
  NoDup xs /\ forall x y, In x xs -> In y xs -> (neqb x y = true <-> x = y).

Section LookUp.
  Context {T : Type} {N : Num T}.
  Lemma look_up_sorted (ps : list (T * T)) x y : apart (map fst ps) -> In (x, y) ps ->
    exists j, index_of neqb x (map fst ps) = Some j /\ nth_res (map snd ps) j = Ok y.
  Proof.
    intros [ND E] I. apply In_nth_error in I. destruct I as [j Hj]. exists j.
    assert (Ix : In x (map fst ps)) by (apply nth_error_In in Hj; apply (in_map fst) in Hj; exact Hj).
    split.
    - apply index_unique.
      + exact (nth_map fst _ _ _ Hj).
      + now apply E.
      + intros i z Hz Ne. destruct (neqb z x) eqn:Q; auto. exfalso. apply Ne.
        apply E in Q; [|eapply nth_error_In; eauto|exact Ix]. subst z.
        rewrite NoDup_nth_error in ND. apply ND; [apply nth_error_Some; congruence|].
        rewrite Hz. symmetry. exact (nth_map fst _ _ _ Hj).
    - unfold nth_res. rewrite (nth_map snd _ _ _ Hj). reflexivity.
  Qed.
  Lemma apart_perm (xs ys : list T) : Permutation xs ys -> apart xs -> apart ys.
  Proof.
    intros Q [ND E]. split; [exact (Permutation_NoDup Q ND)|]. intros x y Ix Iy.
    apply Permutation_sym in Q. exact (E x y (Permutation_in _ Q Ix) (Permutation_in _ Q Iy)).
  Qed.
  Lemma split_fst {A B} (l : list (A * B)) : fst (split l) = map fst l /\ snd (split l) = map snd l.
  Proof. induction l as [|[a b] l [I1 I2]]; [auto|]. cbn [split]. destruct (split l). cbn in *. subst. auto. Qed.
  (** _update with new data on an empty interpolation sorts the data *)
  Lemma base_sorts k (ps : list (T * T)) z d : ps <> [] -> exists qs, Permutation qs ps /\
    base_new k (map fst ps) (map snd ps) z d = mkI k (map fst qs) (map snd qs) z d.
  Proof.
    intro NE. exists (sort pair_ltb ps). split; [apply sort_perm|]. unfold base_new, update_lists.
    destruct (map snd ps) eqn:E; [destruct ps; [congruence|discriminate]|]. rewrite <- E. unfold update_add. cbn [combine filter app].
    assert (combine (map fst ps) (map snd ps) = ps) as ->.
    { clear. induction ps as [|[a b] ps IH]; auto. cbn. now rewrite IH. }
    destruct (split_fst (sort pair_ltb ps)) as [<- <-]. destruct (split _). reflexivity.
  Qed.
End LookUp.

(** in every number structure, so in double precision, the stepwise interpolations return
    exactly the given values at the given dates *)
Theorem C90_stepwise : forall {T} (N : Num T) k (xs ys : list T) c, looks_up k -> length xs = length ys -> apart xs ->
  curve_new (Some (SBase k)) xs ys = Ok c ->
  forall j x y, nth_error xs j = Some x -> nth_error ys j = Some y -> curve_call c x = Ok (Some y).
Proof.
  intros T N k xs ys c LK HL AP E j x y Hx Hy. unfold curve_new in E. rewrite HL, Nat.eqb_refl in E. cbn [negb] in E.
  assert (Ip : In (x, y) (combine xs ys)).
  { clear -Hx Hy. revert ys j Hx Hy. induction xs as [|a xs IH]; intros [|b ys] [|j]; try discriminate.
    - intros [= ->] [= ->]. now left.
    - intros H1 H2. right. exact (IH ys j H1 H2). }
  unfold update_fn in E. destruct (split_fst (sort pair_ltb (combine xs ys))) as [S1 S2].
  destruct (split (sort pair_ltb (combine xs ys))) as [us vs]. cbn [fst snd] in S1, S2. subst us vs.
  set (ps := sort pair_ltb (combine xs ys)) in *.
  assert (Pp : Permutation ps (combine xs ys)) by apply sort_perm.
  assert (Ip' : In (x, y) ps) by (eapply Permutation_in; [apply Permutation_sym; exact Pp|exact Ip]).
  assert (NE : ps <> []) by (intro Q; rewrite Q in Ip'; exact Ip').
  assert (M : map fst (combine xs ys) = xs).
  { clear -HL. revert ys HL. induction xs as [|a xs IH]; intros [|b ys]; cbn; try discriminate; auto. intros [= H]. now rewrite IH. }
  assert (exists z d, interp_new k (map fst ps) (map snd ps) = Ok (base_new k (map fst ps) (map snd ps) z d)) as (z & d & I).
  { destruct LK as [->|[->|[->|[->|[->|[->| ->]]]]]]; do 2 eexists; reflexivity. }
  unfold curve_spec, fn_new in E. cbn [resolve] in E. rewrite I in E. cbn [rmap bind fst snd] in E. injection E as <-.
  cbn [curve_call c_fn fn_call].
  destruct (base_sorts k ps z d NE) as (qs & Pq & ->).
  assert (Iq : In (x, y) qs) by (eapply Permutation_in; [apply Permutation_sym; exact Pq|exact Ip']).
  destruct (look_up_sorted qs x y) as (i & Fi & Gi); auto.
  { apply (apart_perm xs); auto. rewrite <- M. apply Permutation_map. apply Permutation_sym. now rewrite Pq. }
  assert (NQ : map snd qs <> []) by (destruct qs; [contradiction|discriminate]).
  unfold curve_call, fn_call, interp_call. cbn [c_fn i_kind i_xs i_ys i_default].
  destruct LK as [->|[->|[->|[->|[->|[->| ->]]]]]]; rewrite ?Fi; rewrite ?Gi; try reflexivity.
  - unfold call_left. destruct (map snd qs); [congruence|]. now rewrite Fi, Gi.
  - unfold call_left. destruct (map snd qs); [congruence|]. now rewrite Fi, Gi.
  - unfold call_right. destruct (map snd qs); [congruence|]. now rewrite Fi, Gi.
  - unfold call_nearest. destruct (map snd qs) as [|w [|w' ws]] eqn:Q; [congruence| |now rewrite Fi, Gi].
    destruct qs as [|[a b] [|]]; try discriminate. destruct Iq as [[= -> ->]|[]]. cbn in Q. injection Q as ->. reflexivity.
Qed.
Print Assumptions C90_stepwise.
Lemma run {A B} (m : res A) (k : A -> res B) b : bind m k = Ok b -> exists a, m = Ok a /\ k a = Ok b.
Proof. destruct m as [a|e]; [|discriminate]. eauto. Qed.
(** three float dates are apart *)
Example C90_stepwise_instance : forall lib, let N := f64 lib in exists c,
  apart [f64_ofZ 0; f64_ratio 1 2; f64_ofZ 1] /\
  curve_new (Some (SBase Kconstant)) [f64_ofZ 0; f64_ratio 1 2; f64_ofZ 1] [f64_ratio 1 1000; f64_ratio 1 100; f64_ratio 1 10] = Ok c /\
  curve_call c (f64_ratio 1 2) = Ok (Some (f64_ratio 1 100)).
Proof.
  intros lib N. edestruct (run (curve_new (Some (SBase Kconstant)) [f64_ofZ 0; f64_ratio 1 2; f64_ofZ 1] [f64_ratio 1 1000; f64_ratio 1 100; f64_ratio 1 10])
    (fun c => curve_call c (f64_ratio 1 2)) (Some (f64_ratio 1 100))) as (c & E1 & E2); [vm_compute; reflexivity|].
  exists c. split; [|auto]. split.
  - repeat constructor; cbn [In]; intro F; repeat (destruct F as [F|F]; [vm_compute in F; discriminate F|]); exact F.
  - intros x y Hx Hy. cbn [In] in Hx, Hy.
    repeat match goal with H : _ \/ _ |- _ => destruct H | H : False |- _ => destruct H end; subst; vm_compute; split; congruence.
Qed.

(** REFUTED for the default interpolation: Curve([0, 1], [0.001, 0.01]) does not give 0.01 at 1 *)
Theorem C90_linear_refuted : forall lib, let N := f64 lib in
  exists c v, curve_new None [f64_ofZ 0; f64_ofZ 1] [f64_ratio 1 1000; f64_ratio 1 100] = Ok c /\
    curve_call c (f64_ofZ 1) = Ok (Some v) /\ SFltb (f64_ratio 1 100) v = true.
Proof.
  intros lib N. edestruct (run (curve_new None [f64_ofZ 0; f64_ofZ 1] [f64_ratio 1 1000; f64_ratio 1 100])
    (fun c => curve_call c (f64_ofZ 1)) (Some (S754_finite false 5764607523034236 (-59)))) as (c & E1 & E2); [vm_compute; reflexivity|].
  exists c. eexists. split; [exact E1|]. split; [exact E2|]. vm_compute. reflexivity.
Qed.
Print Assumptions C90_linear_refuted.
(** and an item assigned to a curve is not the item read back *)
Theorem C90_item_refuted : forall lib, let N := f64 lib in
  exists c c' v, curve_new None [f64_ofZ 0] [f64_ratio 1 1000] = Ok c /\
    curve_setitem c (f64_ofZ 1) (f64_ratio 1 100) = Ok c' /\
    curve_getitem c' (f64_ofZ 1) = Ok (Some v) /\ SFltb (f64_ratio 1 100) v = true.
Proof.
  intros lib N. edestruct (run (curve_new None [f64_ofZ 0] [f64_ratio 1 1000])
    (fun c => c' <- curve_setitem c (f64_ofZ 1) (f64_ratio 1 100) ;; curve_getitem c' (f64_ofZ 1))
    (Some (S754_finite false 5764607523034236 (-59)))) as (c & E1 & E2); [vm_compute; reflexivity|].
  apply run in E2. destruct E2 as (c' & E2 & E3). exists c, c'. eexists. repeat (split; [eassumption|]). vm_compute. reflexivity.
Qed.
Print Assumptions C90_item_refuted.

(** * C91: grids and tenors *)
(** REFUTED that the grid of a plot stays within the curve: the ten parts of the default grid
    for the dates 0 and 1 add up to a date after 1 *)
Theorem C91_grid_refuted : forall lib, let N := f64 lib in
  exists g x, (forall fuel, (12 <= fuel)%nat -> make_grid fuel [f64_ofZ 0; f64_ofZ 1] None (f64_ofZ 10) = Ok g) /\
    In x g /\ SFltb (f64_ofZ 1) x = true /\ length g = 13%nat.
Proof.
  intros lib N.
  let r := eval vm_compute in (make_grid 12 [f64_ofZ 0; f64_ofZ 1] None (f64_ofZ 10)) in match r with Ok ?g => exists g end.
  eexists. split; [|split; [|split]].
  - intros fuel H. do 12 (destruct fuel as [|fuel]; [lia|]). vm_compute. reflexivity.
  - do 11 right. left. reflexivity.
  - vm_compute. reflexivity.
  - reflexivity.
Qed.
Print Assumptions C91_grid_refuted.

(** REFUTED that a cash rate curve quotes its rate over one of its tenors: with monthly tenor
    1/12, whatever its rates, get_cash_rate(4/12, 5/12) never returns, since the floats
    4/12 + 1/12 and 5/12 differ *)
Theorem C91_cash_rate_refuted : forall lib, let N := f64 lib in
  forall (c : rcurve float64 float64 (fperiod float64)) fuel,
  rc_cls c = CCashRate -> rc_tenor0 c = Some (FP (f64_ratio 1 12)) ->
  get_cash_rate (DS := FloatDates) fuel c (f64_ratio 4 12) (Some (f64_ratio 5 12)) None = Err OutOfFuel.
Proof.
  intros lib N c fuel K TE. unfold get_cash_rate, interest_only. rewrite K. cbn [is_interest].
  induction fuel as [|n IH]; [reflexivity|]. cbn [cash_rate bind]. rewrite K. unfold rc_tenor. rewrite TE.
  change (d_add (f64_ratio 4 12) (FP (f64_ratio 1 12))) with (Ok (SFadd 53%Z 1024%Z (f64_ratio 4 12) (f64_ratio 1 12))). cbn [bind].
  replace (d_eqb (f64_ratio 5 12) (SFadd 53%Z 1024%Z (f64_ratio 4 12) (f64_ratio 1 12))) with false by (vm_compute; reflexivity).
  exact IH.
Qed.
Print Assumptions C91_cash_rate_refuted.
Example C91_cash_rate_instance : forall lib, let N := f64 lib in exists c : rcurve float64 float64 (fperiod float64),
  rc_new (DS := FloatDates) CCashRate [f64_ofZ 0] [f64_ratio 1 100] None None DcDefault (Some (FP (f64_ratio 1 12))) = Ok c /\
  rc_cls c = CCashRate /\ rc_tenor0 c = Some (FP (f64_ratio 1 12)) /\
  get_cash_rate (DS := FloatDates) 1 c (f64_ratio 3 12) (Some (f64_ratio 4 12)) None = Ok (f64_ratio 1 100).
Proof.
  intros lib N. edestruct (run (rc_new (DS := FloatDates) CCashRate [f64_ofZ 0] [f64_ratio 1 100] None None DcDefault (Some (FP (f64_ratio 1 12))))
    (fun c => r <- get_cash_rate (DS := FloatDates) 1 c (f64_ratio 3 12) (Some (f64_ratio 4 12)) None ;; Ok (rc_cls c, rc_tenor0 c, r))
    (CCashRate, Some (FP (f64_ratio 1 12)), f64_ratio 1 100)) as (c & E1 & E2); [vm_compute; reflexivity|].
  apply run in E2. destruct E2 as (r & E2 & E3). exists c.
  pose proof (f_equal (fun m => match m with Ok (k, t, r) => (k, t, r) | Err _ => (CCashRate, None, f64_zero) end) E3) as E4.
  cbv beta iota in E4. split; [exact E1|]. split; [exact (f_equal (fun p => fst (fst p)) E4)|].
  split; [exact (f_equal (fun p => snd (fst p)) E4)|]. rewrite E2. exact (f_equal (fun p => Ok (snd p)) E4).
Qed.

(** REFUTED that a cash rate curve made of a curve on multiples of the tenor has no other
    dates: with tenor 0.1 stepping back from 0.4 to 0 ends at a tiny date after 0 *)
Theorem C91_cast_refuted : forall lib, let N := f64 lib in
  exists z : rcurve float64 float64 (fperiod float64),
  rc_new (DS := FloatDates) CZeroRate [f64_ofZ 0; f64_ratio 4 10] [f64_zero; f64_zero] None None DcDefault (Some (FP (f64_ratio 1 10))) = Ok z /\
  forall fuel, (8 <= fuel)%nat -> exists c x,
    rc_cast (DS := FloatDates) fuel None CCashRate z None None DcDefault None = Ok c /\
    length (rc_domain c) = 6%nat /\
    In x (rc_domain c) /\ SFltb f64_zero x = true /\ SFltb x (f64_ratio 1 1000000) = true.
Proof.
  intros lib N.
  assert (G : forall fuel, (8 <= fuel)%nat ->
    bind (rc_new (DS := FloatDates) CZeroRate [f64_ofZ 0; f64_ratio 4 10] [f64_zero; f64_zero] None None DcDefault (Some (FP (f64_ratio 1 10))))
    (fun z => rmap rc_domain (rc_cast (DS := FloatDates) fuel None CCashRate z None None DcDefault None)) =
    Ok [f64_zero; S754_finite false 4503599627370496 (-107); S754_finite false 7205759403792796 (-56);
        S754_finite false 7205759403792795 (-55); S754_finite false 5404319552844596 (-54); S754_finite false 7205759403792794 (-54)]).
  { intros fuel H. do 8 (destruct fuel as [|fuel]; [lia|]). vm_compute. reflexivity. }
  destruct (run _ _ _ (G 8%nat (le_n 8))) as (z & E1 & E2). exists z. split; [exact E1|]. intros fuel H.
  pose proof (G fuel H) as E3.
  rewrite E1 in E3. cbn [bind] in E3. destruct (rc_cast fuel None CCashRate z None None DcDefault None) as [c|e]; [|discriminate].
  cbn [rmap bind] in E3. injection E3 as E3. exists c. eexists. split; [reflexivity|]. rewrite E3.
  split; [reflexivity|]. split; [right; left; reflexivity|]. split; vm_compute; reflexivity.
Qed.
Print Assumptions C91_cast_refuted.
