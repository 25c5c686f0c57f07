(** Properties C17 - C19 and C34: DateCurve and ForwardCurve
    (dcf/curves/curve.py:356-648).

    Dates are any type satisfying [DateLaws] (SDates.v), day counts any additive
    function; [tm] is the time of a date, [tau] the year fraction. *)
From Coq Require Import Reals Lra Lia List Bool Sorted Permutation.
From Verif Require Import Num Py Spec SInterpolation SCurve SDates LBase LSort MInterpolation
  LInterpolation LInterpolation2 MDates MCurve LDates LCurve LCurve2 LDateCurve.
Import ListNotations.
Open Scope R_scope.

(** * C17 *)
(** values: the given data at the domain dates, elsewhere the interpolation of the
    data at the year fraction from origin *)
Theorem C17_values : forall {D P} (DS : DateSys R D P) (tm : D -> R) (DC : DayCounts R D),
  DateLaws DS tm ->
  forall (count : dcspec R D) tau, additive (dc_apply count) tau ->
  forall dflt i orig ds ys o,
  length ds = length ys -> NoDup (map tm ds) ->
  (orig = Some o \/ orig = None /\ hd_error ds = Some o) ->
  admissible (dc_spec dflt i) (combine (map (tau o) ds) ys) ->
  exists c f, dc_new dflt ds ys i orig count = Ok c /\ dc_origin c = Some o /\
    fn_new (dc_spec dflt i) (map (tau o) ds) ys = Ok f /\
    (forall d, dc_call c d = fn_call f (tau o d)) /\
    (forall d y, In (d, y) (combine ds ys) -> dc_call c d = Ok (Some y)).
Proof.
  intros D P DS tm DC L count tau A dflt i orig ds ys o HL ND HO AD.
  assert (HO' : dom_origin orig ds = Some o) by (destruct HO as [->|[-> HO]]; auto).
  destruct (dstate_exists count tau dflt i orig o ds ys HL ND HO' AD) as [c S].
  pose proof S as [_ [_ [_ [f [E _]]]]]. exists c, f.
  split; [now apply (dstate_iff count tau A dflt ds ys i orig o)|].
  split; [eapply dstate_origin; exact S|]. split; auto. split.
  - intro d. destruct (dstate_call count tau A _ _ _ _ _ _ _ d S) as [f' [E' ->]]. congruence.
  - intros d y I. eapply (dstate_data count tau A); eauto. now apply in_times.
Qed.
Print Assumptions C17_values.

(** with the default interpolation the value at every date is the piecewise linear
    interpolation on the time axis, whatever date is the origin *)
Theorem C17_linear : forall {D P} (DS : DateSys R D P) (tm : D -> R) (DC : DayCounts R D),
  DateLaws DS tm ->
  forall orig ds ys, length ds = length ys -> NoDup (map tm ds) -> ds <> [] ->
  exists c, dc_new linear_scheme ds ys None orig DcDefault = Ok c /\
    forall d, exists y, dc_call c d = Ok (Some y) /\
                        piecewise_linear (combine (map tm ds) ys) (tm d) y.
Proof.
  intros D P DS tm DC L orig ds ys HL ND NE.
  assert (exists o, dom_origin orig ds = Some o) as [o HO].
  { destruct orig; simpl; eauto. destruct ds; simpl; [congruence|eauto]. }
  pose proof (default_additive (L:=L)) as A.
  destruct (dstate_exists (tm:=tm) DcDefault (fun a b => tm b - tm a) linear_scheme None orig o ds ys HL ND HO) as [c S].
  { apply adm_linear. now apply (times_distinct (L:=L) DcDefault _ A). }
  exists c. split; [now apply (dstate_iff DcDefault _ A linear_scheme ds ys None orig o)|].
  intro d. now apply (dstate_linear (L:=L) DcDefault _ A orig o).
Qed.
Print Assumptions C17_linear.

Theorem C17_origin_independent : forall {D P} (DS : DateSys R D P) (tm : D -> R) (DC : DayCounts R D),
  DateLaws DS tm ->
  forall (count : dcspec R D) tau, additive (dc_apply count) tau ->
  forall o1 o2 ds ys c1 c2, length ds = length ys -> NoDup (map tm ds) -> ds <> [] ->
  dc_new linear_scheme ds ys None (Some o1) count = Ok c1 ->
  dc_new linear_scheme ds ys None o2 count = Ok c2 ->
  forall d, dc_call c1 d = dc_call c2 d.
Proof.
  intros D P DS tm DC L count tau A o1 o2 ds ys c1 c2 HL ND NE E1 E2 d.
  assert (exists o, dom_origin o2 ds = Some o) as [o HO].
  { destruct o2; simpl; eauto. destruct ds; simpl; [congruence|eauto]. }
  apply (dstate_iff count tau A _ _ _ _ _ o1) in E1; auto.
  apply (dstate_iff count tau A _ _ _ _ _ o) in E2; auto.
  pose proof (fun a b => tau_diff A o a b) as H.
  destruct (dstate_linear count tau A (Some o1) o1 ds ys c1 d (tau o) H NE E1) as [y [-> P1]].
  destruct (dstate_linear count tau A o2 o ds ys c2 d (tau o) H NE E2) as [y' [-> P2]].
  do 2 f_equal. apply (pl_fun (combine (map (tau o) ds) ys) (tau o d)); auto.
  apply (times_distinct count tau A); auto.
Qed.
Print Assumptions C17_origin_independent.

(** fixings take precedence; the last one set for a date counts; all other dates are
    unaffected *)
Theorem C17_fixings : forall {D P} (DS : DateSys R D P) (tm : D -> R) (DC : DayCounts R D),
  DateLaws DS tm ->
  forall dflt ds ys i orig count c (fx : list (D * R)) d,
  dc_new dflt ds ys i orig count = Ok c ->
  dc_call (fold_left (fun c dv => dc_set_fixing c (fst dv) (snd dv)) fx c) d =
  match fold_left assign (map (fun dv => (tm (fst dv), snd dv)) fx) (fun _ => None) (tm d) with
  | Some v => Ok (Some v)
  | None => dc_call c d
  end.
Proof.
  intros D P DS tm DC L dflt ds ys i orig count c fx d E. apply fixings_call.
  unfold dc_new, dc_update in E. destruct (negb _); [discriminate|].
  destruct (mapM _ ds); [|discriminate]. cbn [bind] in E.
  destruct (update_fn _ _ _); [|discriminate]. inversion E. reflexivity.
Qed.
Print Assumptions C17_fixings.

(** item assignment, for every history *)
Theorem C17_setitem : forall {D P} (DS : DateSys R D P) (tm : D -> R) (DC : DayCounts R D),
  DateLaws DS tm ->
  forall (count : dcspec R D) tau, additive (dc_apply count) tau ->
  forall dflt i orig ds ys o (hist : list (D * R)),
  length ds = length ys -> NoDup (map tm ds) ->
  (orig = Some o \/ orig = None /\ hd_error ds = Some o) -> known (dc_spec dflt i) ->
  (forall k, In k (spec_kinds (dc_spec dflt i)) -> two_args k) ->
  ((exists k, In k (spec_kinds (dc_spec dflt i)) /\ log_kind k) ->
     (forall y, In y ys -> 0 < y) /\ forall k v, In (k, v) hist -> 0 < v) ->
  ((exists a, In a ds /\ tm a <> tm o) \/ forall k, In k (scheme_ends (dc_spec dflt i)) -> ~ rate_kind k) ->
  exists c c', dc_new dflt ds ys i orig count = Ok c /\
    run (fun c kv => dc_setitem c (fst kv) (snd kv)) c hist = Ok c' /\
    dc_origin c' = Some o /\
    let final := fold_left assign (map (fun kv => (tm (fst kv), snd kv)) hist)
                           (pairs_get (combine (map tm ds) ys)) in
    forall d, dc_getitem c' d = match final (tm d) with
                                | Some y => Ok (Some y)
                                | None => Err KeyError
                                end.
Proof.
  intros D P DS tm DC L count tau A dflt i orig ds ys o hist HL ND HO KN K PO Z.
  assert (HO' : dom_origin orig ds = Some o) by (destruct HO as [->|[-> HO]]; auto).
  assert (AD : adm (dc_spec dflt i) (times tau o ds ys)).
  { split; auto. split; [now apply (times_distinct count tau A)|]. split; auto. split.
    - intro LK. apply times_positive; auto. apply PO, LK.
    - destruct Z as [[a [Ia Na]]|Z]; auto. left.
      assert (exists y, In (a, y) (combine ds ys)) as [y Iy].
      { clear -Ia HL. revert ys HL. induction ds; intros [|y ys] HL; simpl in *; try discriminate; [destruct Ia|].
        destruct Ia as [->|Ia]; eauto. destruct (IHds Ia ys) as [w Iw]; [lia|eauto]. }
      exists (tau o a), y. split; [now apply in_times|]. intro E. apply Na. symmetry.
      rewrite <- (tau_self A o) in E. symmetry. now apply (tau_tm (L:=L) count tau A o). }
  destruct (dstate_exists (tm:=tm) count tau dflt i orig o ds ys) as [c S]; auto using adm_admissible.
  destruct (dc_history (L:=L) count tau A dflt i orig o hist ds ys c S AD) as [c' [ds' [ys' [E [S' [A' G]]]]]].
  { intro LK. apply PO, LK. }
  exists c, c'. split; [now apply (dstate_iff count tau A dflt ds ys i orig o)|]. split; auto.
  split; [eapply dstate_origin; exact S'|]. cbv zeta.
  intro d. rewrite (dstate_getitem (L:=L) count tau A _ _ _ _ _ _ _ d S') by auto using adm_admissible.
  rewrite G. reflexivity.
Qed.
Print Assumptions C17_setitem.

#[local] Instance no_registry {D} : DayCounts R D := [].

(** a curve over day based dates with a later origin, a fixing and an assignment *)
Example C17_example : exists c c',
  dc_new (DS:=DayDates) linear_scheme [BD 10 1; BD 20 2] [5; 6] None None DcDefault = Ok c /\
  dc_call (DS:=DayDates) c (BD 20 7) = Ok (Some 6) /\
  dc_call (DS:=DayDates) (dc_set_fixing (DS:=DayDates) c (BD 20 8) 9) (BD 20 7) = Ok (Some 9) /\
  dc_setitem (DS:=DayDates) c (BD 15 3) 7 = Ok c' /\
  dc_getitem (DS:=DayDates) c' (BD 15 0) = Ok (Some 7) /\
  dc_getitem (DS:=DayDates) c' (BD 10 0) = Ok (Some 5) /\
  dc_getitem (DS:=DayDates) c' (BD 16 0) = Err KeyError.
Proof.
  set (tm := fun d => IZR (bd_day d) / (1461 / 4)).
  assert (T : forall a b, tm a = tm b <-> bd_day a = bd_day b).
  { intros a b. unfold tm. split; intro H.
    - apply eq_IZR. apply (Rmult_eq_reg_r (/ (1461 / 4))); [exact H|]. apply Rinv_neq_0_compat. lra.
    - now rewrite H. }
  assert (ND : NoDup (map tm [BD 10 1; BD 20 2])).
  { repeat constructor; simpl; try tauto. intros [H|[]]. apply T in H. discriminate. }
  pose proof (default_additive (L:=day_laws) (DC:=no_registry)) as A.
  destruct (C17_setitem DayDates tm no_registry day_laws DcDefault (fun a b => tm b - tm a) A
              linear_scheme None None [BD 10 1; BD 20 2] [5; 6] (BD 10 1) [(BD 15 3, 7)])
    as [c [c' [E [R [_ G]]]]]; auto.
  - intros n. discriminate.
  - simpl. unfold two_args. intuition congruence.
  - intros [k [I K]]. exfalso. unfold log_kind in K. simpl in I. intuition congruence.
  - right. intros k I K. unfold rate_kind in K. simpl in I. intuition congruence.
  - destruct (C17_values DayDates tm no_registry day_laws DcDefault (fun a b => tm b - tm a) A
              linear_scheme None None [BD 10 1; BD 20 2] [5; 6] (BD 10 1)) as [c1 [f [E1 [_ [_ [V1 V2]]]]]]; auto.
    { apply adm_linear. apply (times_distinct (L:=day_laws) DcDefault _ A); auto. }
    rewrite E in E1. inversion E1; subst c1.
    exists c, c'. split; auto. split.
    { replace (dc_call (DS:=DayDates) c (BD 20 7)) with (dc_call (DS:=DayDates) c (BD 20 2)).
      - apply V2. simpl; auto.
      - rewrite !V1. reflexivity. }
    split.
    { pose proof (C17_fixings DayDates tm no_registry day_laws _ _ _ _ _ _ c [(BD 20 8, 9)] (BD 20 7) E) as F.
      cbn [fold_left map fst snd] in F. rewrite F. unfold assign. cbn [fst snd].
      destruct (Req_EM_T (tm (BD 20 8)) (tm (BD 20 7))) as [_|N]; auto. exfalso. apply N. now apply T. }
    split.
    { cbn [run fst snd] in R. destruct (dc_setitem c (BD 15 3) 7); cbn in R; congruence. }
    repeat split; rewrite G; cbn [fold_left map fst snd combine pairs_get]; unfold assign; cbn [fst snd];
      repeat match goal with |- context [Req_EM_T (tm ?a) (tm ?b)] =>
        let Q := fresh in destruct (Req_EM_T (tm a) (tm b)) as [Q|Q];
        [try (apply T in Q; discriminate Q)|try (exfalso; apply Q; now apply T)] end; reflexivity.
Qed.

(** * C18: copying changes the values when the origin is not 0 *)
Theorem C18_copy_refuted : exists (c c' : dcurve R R),
  dc_new (DS:=FloatDates) linear_scheme [1; 2] [10; 20] None None DcDefault = Ok c /\
  dc_copy (DS:=FloatDates) (fun x => Ok x) c None None DcDefault = Ok c' /\
  dc_call (DS:=FloatDates) c 1 = Ok (Some 10) /\ dc_call (DS:=FloatDates) c' 1 = Ok (Some 20).
Proof.
  pose proof (float_additive (DC:=no_registry)) as A.
  assert (ND : NoDup (map (fun d : R => d) [1; 2])) by (repeat constructor; simpl; intuition lra).
  destruct (C17_values FloatDates (fun d => d) no_registry float_laws DcDefault _ A
              linear_scheme None None [1; 2] [10; 20] 1) as [c [f [E [_ [_ [_ V]]]]]]; auto.
  { apply adm_linear. now apply (times_distinct (L:=float_laws) DcDefault _ A). }
  pose proof E as S.
  apply (dstate_iff (L:=float_laws) DcDefault _ A linear_scheme [1; 2] [10; 20] None None 1) in S; auto.
  destruct (copy_form None 1 [1; 2] [10; 20] c S) as [g [Eg Hg]]; [discriminate|].
  eexists c, _. split; [exact E|]. split; [exact Eg|]. split; [apply V; simpl; auto|].
  rewrite copy_call by discriminate. cbn [map hd] in *.
  destruct (scheme_pl [1 - 1 - 1; 2 - 1 - 1] [10; 20]) as [g' [Eg' H]]; auto.
  { repeat constructor; simpl; intuition lra. } { discriminate. }
  rewrite Hg in Eg'. inversion Eg'; subst g'. destruct (H (1 - (1 - 1))) as [y [-> PL]]. do 2 f_equal.
  eapply pl_fun; [|exact PL|].
  - unfold distinct. simpl. repeat constructor; simpl; intuition lra.
  - right; right. exists (2 - 1 - 1). split; [simpl; auto|]. split; [|lra].
    intros a z [I|[I|[]]]; inversion I; lra.
Qed.
Print Assumptions C18_copy_refuted.

(** with dates that are no numbers every copy raises *)
Theorem C18_copy_dates_refuted : forall {D P} (DS : DateSys R D P) (tm : D -> R) (DC : DayCounts R D),
  DateLaws DS tm ->
  forall orig ds ys c, length ds = length ys -> NoDup (map tm ds) -> ds <> [] ->
  dc_new linear_scheme ds ys None orig DcDefault = Ok c ->
  dc_copy (fun _ => Err TypeError) c None None DcDefault = Err TypeError.
Proof.
  intros D P DS tm DC L orig ds ys c HL ND NE E.
  destruct (C17_linear DS tm DC L orig ds ys HL ND NE) as [c' [E' H]].
  assert (c' = c) by congruence. subst c'.
  assert (H0 : forall d, exists y, dc_call c d = Ok (Some y)).
  { intro d. destruct (H d) as [y [Hy _]]. eauto. }
  assert (exists o, dom_origin orig ds = Some o) as [o HO].
  { destruct orig; simpl; eauto. destruct ds; simpl; [congruence|eauto]. }
  pose proof (default_additive (L:=L)) as A.
  apply (dstate_iff (L:=L) DcDefault _ A linear_scheme ds ys None orig o) in E; auto.
  destruct (dstate_origin (tm:=tm) _ _ _ _ _ _ _ _ _ E) as [O1 [O2 [O3 _]]].
  unfold dc_copy. rewrite O3.
  assert (M : exists l, mapM (dc_call c) ds = Ok l).
  { apply mapM_total. intros d _. destruct (H0 d) as [y ->]. eauto. }
  destruct M as [l ->]. cbn [bind].
  assert (M : exists l, mapM (dc_val c) ds = Ok l).
  { apply mapM_total. intros d _. unfold dc_val. destruct (H0 d) as [y ->]. simpl. eauto. }
  destruct M as [l' ->]. cbn [bind].
  rewrite (mapM_ok (dc_time c) (fun d => tm d - tm o)).
  2:{ intros d _. now apply (dc_time_ok DcDefault _ A). }
  cbn [bind]. destruct ds; [congruence|]. reflexivity.
Qed.
Print Assumptions C18_copy_dates_refuted.

(** float dates: the copy quotes what the curve quotes later by twice its origin, ... *)
Theorem C18_copy_moves : forall (DC : DayCounts R R) orig (ds ys : list R) o c,
  length ds = length ys -> NoDup ds -> ds <> [] ->
  dc_new (DS:=FloatDates) linear_scheme ds ys None orig DcDefault = Ok c ->
  dc_origin c = Some o ->
  exists c', dc_copy (DS:=FloatDates) (fun x => Ok x) c None None DcDefault = Ok c' /\
    forall d : R, dc_call (DS:=FloatDates) c' d = dc_call (DS:=FloatDates) c (d + 2 * o).
Proof. intro DC. exact copy_moves. Qed.
Print Assumptions C18_copy_moves.

(** ... so with origin 0 it has the same values everywhere *)
Theorem C18_copy_partial : forall (DC : DayCounts R R) orig (ds ys : list R) c,
  length ds = length ys -> NoDup ds -> ds <> [] ->
  dc_new (DS:=FloatDates) linear_scheme ds ys None orig DcDefault = Ok c ->
  dc_origin c = Some 0 ->
  exists c', dc_copy (DS:=FloatDates) (fun x => Ok x) c None None DcDefault = Ok c' /\
    forall d : R, dc_call (DS:=FloatDates) c' d = dc_call (DS:=FloatDates) c d.
Proof.
  intros DC orig ds ys c HL ND NE E O. destruct (C18_copy_moves DC orig ds ys 0 c HL ND NE E O) as (c' & E' & H).
  exists c'. split; auto. intro d. rewrite H. f_equal. lra.
Qed.
Print Assumptions C18_copy_partial.

(** * C19 *)
(** the origin and the last date of a curve depend on the order of the points *)
Theorem C19_order_refuted :
  (exists c1 c2 : dcurve R R,
     dc_new (DS:=FloatDates) linear_scheme [1; 2] [10; 20] None None DcDefault = Ok c1 /\
     dc_new (DS:=FloatDates) linear_scheme [2; 1] [20; 10] None None DcDefault = Ok c2 /\
     dc_origin c1 = Some 1 /\ dc_origin c2 = Some 2) /\
  (exists f1 f2 : fcurve R R,
     fc_new (DS:=FloatDates) [1; 2] [10; 20] None (Some 0) DcDefault YNone = Ok f1 /\
     fc_new (DS:=FloatDates) [2; 1] [20; 10] None (Some 0) DcDefault YNone = Ok f2 /\
     fc_price (DS:=FloatDates) f1 2 = Ok 20 /\ fc_price (DS:=FloatDates) f2 2 = Ok 10).
Proof.
  pose proof (float_additive (DC:=no_registry)) as A.
  assert (N12 : NoDup (map (fun d : R => d) [1; 2])) by (repeat constructor; simpl; intuition lra).
  assert (N21 : NoDup (map (fun d : R => d) [2; 1])) by (repeat constructor; simpl; intuition lra).
  split.
  - destruct (C17_values FloatDates (fun d => d) no_registry float_laws DcDefault _ A
              linear_scheme None None [1; 2] [10; 20] 1) as [c1 [f1 [E1 [O1 _]]]]; auto.
    { apply adm_linear. now apply (times_distinct (L:=float_laws) DcDefault _ A). }
    destruct (C17_values FloatDates (fun d => d) no_registry float_laws DcDefault _ A
              linear_scheme None None [2; 1] [20; 10] 2) as [c2 [f2 [E2 [O2 _]]]]; auto.
    { apply adm_linear. now apply (times_distinct (L:=float_laws) DcDefault _ A). }
    exists c1, c2. auto.
  - destruct (forward_ok (L:=float_laws) DcDefault _ A [1] 2 [10] 20 (Some 0) 0 YNone) as [c1 [E1 [S1 [B1 _]]]]; auto.
    { simpl. intros y H. intuition lra. }
    destruct (forward_ok (L:=float_laws) DcDefault _ A [2] 1 [20] 10 (Some 0) 0 YNone) as [c2 [E2 [_ [_ B2]]]]; auto.
    { simpl. intros y H. intuition lra. }
    exists (mkF c1 YNone), (mkF c2 YNone). split; [exact E1|]. split; [exact E2|]. split.
    + apply B1; [lra|].
      destruct (C17_values FloatDates (fun d => d) no_registry float_laws DcDefault _ A
              log_linear_scheme None (Some 0) [1; 2] [10; 20] 0) as [c [f [E [_ [_ [_ V]]]]]]; auto.
      { apply log_adm; [now apply (times_distinct (L:=float_laws) DcDefault _ A)|].
        intros x y I. apply in_combine_r in I. simpl in I. intuition lra. }
      apply (dstate_iff (L:=float_laws) DcDefault _ A log_linear_scheme [1; 2] [10; 20] None (Some 0) 0) in S1; auto.
      assert (c = c1) by (simpl in S1; congruence). subst. apply V. simpl; auto.
    + rewrite B2 by lra. cbn [bind]. rn. rewrite Rdivp_ok by lra. f_equal. lra.
Qed.
Print Assumptions C19_order_refuted.

(** with an explicit origin all values agree, for every interpolation *)
Theorem C19_order_explicit_origin : forall {D P} (DS : DateSys R D P) (tm : D -> R) (DC : DayCounts R D),
  DateLaws DS tm ->
  forall (count : dcspec R D) tau, additive (dc_apply count) tau ->
  forall dflt i o ds ys ds' ys', length ds = length ys -> length ds' = length ys' ->
  NoDup (map tm ds) -> Permutation (combine ds ys) (combine ds' ys') ->
  match dc_new dflt ds ys i (Some o) count, dc_new dflt ds' ys' i (Some o) count with
  | Ok c, Ok c' => dc_origin c = dc_origin c' /\ forall d, dc_call c d = dc_call c' d
  | Err e, Err e' => e = e'
  | _, _ => False
  end.
Proof.
  intros D P DS tm DC L count tau A dflt i o ds ys ds' ys' HL HL' ND PM.
  assert (PD : Permutation ds ds').
  { apply (Permutation_map fst) in PM. now rewrite !map_fst_combine in PM by auto. }
  assert (ND' : NoDup (map tm ds')) by (eapply Permutation_NoDup; [apply Permutation_map|]; eauto).
  rewrite (dc_new_form count tau A dflt ds ys i (Some o) o), (dc_new_form count tau A dflt ds' ys' i (Some o) o) by auto.
  rewrite (fn_perm _ (map (tau o) ds) ys (map (tau o) ds') ys').
  - destruct (fn_new _ _ _); cbn [bind]; auto.
  - now rewrite map_length.
  - now rewrite map_length.
  - now apply (times_nodup count tau A).
  - rewrite !combine_map_l. now apply Permutation_map.
Qed.
Print Assumptions C19_order_explicit_origin.

(** without explicit origin the values of the default interpolation agree *)
Theorem C19_order_linear_values : forall {D P} (DS : DateSys R D P) (tm : D -> R) (DC : DayCounts R D),
  DateLaws DS tm ->
  forall ds ys ds' ys' c c', length ds = length ys -> length ds' = length ys' -> ds <> [] ->
  NoDup (map tm ds) -> Permutation (combine ds ys) (combine ds' ys') ->
  dc_new linear_scheme ds ys None None DcDefault = Ok c ->
  dc_new linear_scheme ds' ys' None None DcDefault = Ok c' ->
  forall d, dc_call c d = dc_call c' d.
Proof.
  intros D P DS tm DC L ds ys ds' ys' c c' HL HL' NE ND PM E E' d.
  assert (PD : Permutation ds ds').
  { apply (Permutation_map fst) in PM. now rewrite !map_fst_combine in PM by auto. }
  assert (ND' : NoDup (map tm ds')) by (eapply Permutation_NoDup; [apply Permutation_map|]; eauto).
  assert (NE' : ds' <> []). { intro; subst. symmetry in PD. apply Permutation_nil in PD. auto. }
  destruct (C17_linear DS tm DC L None ds ys HL ND NE) as [c1 [E1 H1]].
  destruct (C17_linear DS tm DC L None ds' ys' HL' ND' NE') as [c2 [E2 H2]].
  assert (c1 = c) by congruence. assert (c2 = c') by congruence. subst.
  destruct (H1 d) as [y [-> P1]], (H2 d) as [y' [-> P2]]. do 2 f_equal.
  assert (PT : Permutation (combine (map tm ds) ys) (combine (map tm ds') ys')).
  { rewrite !combine_map_l. now apply Permutation_map. }
  apply (pl_fun (combine (map tm ds') ys') (tm d)); auto.
  - apply distinct_combine; auto. now rewrite map_length.
  - apply (pl_same _ _ _ _ (perm_same _ _ PT) P1).
Qed.
Print Assumptions C19_order_linear_values.

(** * C34: forward curves *)
(** up to the last date log-linear interpolation of positive prices, after it growth
    along the yield curve; [l] is the last date and [p] its price *)
Theorem C34_forward : forall {D P} (DS : DateSys R D P) (tm : D -> R) (DC : DayCounts R D),
  DateLaws DS tm ->
  forall (count : dcspec R D) tau, additive (dc_apply count) tau ->
  forall ds0 l ys0 p orig (yc : yieldc R D),
  length ds0 = length ys0 -> increasing (map tm (ds0 ++ [l])) ->
  (forall y, In y (ys0 ++ [p]) -> 0 < y) ->
  exists f, fc_new (ds0 ++ [l]) (ys0 ++ [p]) None orig count yc = Ok f /\
    (* prices at the given dates *)
    (forall d y, In (d, y) (combine (ds0 ++ [l]) (ys0 ++ [p])) -> fc_price f d = Ok y) /\
    (* between: positive, and linear in the logarithm *)
    (forall d, tm d <= tm l -> exists v, fc_price f d = Ok v /\ 0 < v /\
       forall h, (forall a b, tau a b = h b - h a) ->
       piecewise_linear (combine (map h (ds0 ++ [l])) (map ln (ys0 ++ [p]))) (h d) (ln v)) /\
    (* after the last date *)
    (forall d, tm l < tm d ->
       (yc = YNone -> fc_price f d = Ok p) /\
       (forall y, yc = YFloat y -> fc_price f d = Ok (p * exp (y * tau l d))) /\
       (forall df q, yc = YCurve df -> df l d = Ok q -> q <> 0 -> fc_price f d = Ok (p / q)) /\
       (forall g a b, yc = YFun g -> g d = Ok a -> g l = Ok b -> a <> 0 -> b <> 0 ->
          fc_price f d = Ok (p / (a / b)))).
Proof.
  intros D P DS tm DC L count tau A ds0 l ys0 p orig yc HL INC PO.
  set (ds := ds0 ++ [l]). set (ys := ys0 ++ [p]).
  assert (ND : NoDup (map tm ds)) by now apply incr_nodup.
  assert (NE : ds <> []) by (unfold ds; destruct ds0; discriminate).
  assert (HL' : length ds = length ys) by (unfold ds, ys; rewrite !app_length; simpl; lia).
  assert (exists o, dom_origin orig ds = Some o) as [o HO].
  { destruct orig; simpl; eauto. destruct ds; simpl; [congruence|eauto]. }
  destruct (forward_ok count tau A ds0 l ys0 p orig o yc HL ND HO PO) as [c [E [S [B1 B2]]]].
  exists (mkF c yc). split; auto.
  assert (AD : admissible (dc_spec log_linear_scheme None) (times tau o ds ys)).
  { apply log_adm; [now apply (times_distinct count tau A)|]. now apply times_positive. }
  split; [|split].
  - intros d y I. apply B1.
    + apply in_combine_l in I. unfold ds in I. apply in_app_iff in I.
      destruct I as [I|[<-|[]]]; [|lra]. rewrite map_app in INC. apply ss_app_inv in INC.
      destruct INC as [_ [_ INC]]. left. apply INC; [now apply in_map|simpl; auto].
    + eapply (dstate_data count tau A); eauto. now apply in_times.
  - intros d Hd.
    destruct (dstate_log count tau A None orig o ds ys c d (tau o)) as [v [Hv [Pv _]]]; auto.
    { intros a b. apply (tau_diff A). }
    exists v. split; auto. split; auto. intros h Hh.
    destruct (dstate_log count tau A None orig o ds ys c d h) as [v' [Hv' [_ PL]]]; auto.
    assert (v' = v) by congruence. now subst.
  - intros d Hd. rewrite (B2 d Hd). split; [|split; [|split]].
    + intros ->. cbn [bind]. rn. rewrite Rdivp_ok by lra. f_equal. lra.
    + intros y ->. cbn [bind]. rn. rewrite Rdivp_ok.
      * f_equal. unfold Rdiv. rewrite <- exp_Ropp. do 2 f_equal. lra.
      * pose proof (exp_pos (- y * tau l d)). lra.
    + intros df q -> Hq Nq. rewrite Hq. cbn [bind]. rn. now rewrite Rdivp_ok.
    + intros g a b -> Ha Hb Na Nb. rewrite Ha, Hb. cbn [bind]. rn. rewrite Rdivp_ok by auto. cbn [bind].
      rewrite Rdivp_ok; auto. unfold Rdiv. apply Rmult_integral_contrapositive_currified; auto.
      now apply Rinv_neq_0_compat.
Qed.
Print Assumptions C34_forward.

(** the extrapolation with a numeric yield meets the last price at the last date and
    grows with a positive yield *)
Example C34_example : exists f, fc_new (DS:=FloatDates) [1; 2] [100; 110] None (Some 0) DcDefault (YFloat (1 / 20)) = Ok f /\
  fc_price (DS:=FloatDates) f 2 = Ok 110 /\
  fc_price (DS:=FloatDates) f 4 = Ok (110 * exp (1 / 20 * (4 - 2))).
Proof.
  pose proof (float_additive (DC:=no_registry)) as A.
  destruct (C34_forward FloatDates (fun d => d) no_registry float_laws DcDefault _ A
      [1] 2 [100] 110 (Some 0) (YFloat (1 / 20))) as [f [E [V1 [V2 V3]]]]; auto.
  - simpl. repeat constructor; lra.
  - simpl. intros y H. intuition lra.
  - exists f. split; auto. split.
    + apply V1. simpl; auto.
    + destruct (V3 4) as [_ [H _]]; [lra|]. now apply H.
Qed.

(** C34 refuted for dates which are not given in increasing order: the "last date" is the one
    listed last, so that a price given for a later date [d] listed before [l] is never used;
    the curve extrapolates from [l] instead *)
Theorem C34_unordered_refuted : forall {D P} (DS : DateSys R D P) (tm : D -> R) (DC : DayCounts R D),
  DateLaws DS tm ->
  forall (count : dcspec R D) tau, additive (dc_apply count) tau ->
  forall ds0 l ys0 p orig (yc : yieldc R D) d y,
  length ds0 = length ys0 -> NoDup (map tm (ds0 ++ [l])) ->
  (forall y, In y (ys0 ++ [p]) -> 0 < y) ->
  In (d, y) (combine ds0 ys0) -> tm l < tm d ->
  exists f, fc_new (ds0 ++ [l]) (ys0 ++ [p]) None orig count yc = Ok f /\
    (yc = YNone -> fc_price f d = Ok p) /\
    (forall r, yc = YFloat r -> fc_price f d = Ok (p * exp (r * tau l d))).
Proof.
  intros D P DS tm DC L count tau A ds0 l ys0 p orig yc d y HL ND PO _ Hd.
  assert (exists o, dom_origin orig (ds0 ++ [l]) = Some o) as [o HO].
  { destruct orig; simpl; eauto. destruct ds0; simpl; eauto. }
  destruct (forward_ok count tau A ds0 l ys0 p orig o yc HL ND HO PO) as [c [E [S [B1 B2]]]].
  exists (mkF c yc). split; auto. rewrite (B2 d Hd). split.
  - intros ->. cbn [bind]. rn. rewrite Rdivp_ok by lra. f_equal. lra.
  - intros r ->. cbn [bind]. rn. rewrite Rdivp_ok.
    + f_equal. unfold Rdiv. rewrite <- exp_Ropp. do 2 f_equal. lra.
    + pose proof (exp_pos (- r * tau l d)). lra.
Qed.
Print Assumptions C34_unordered_refuted.

Example C34_unordered_example : exists f,
  fc_new (DS:=FloatDates) [2; 1] [110; 100] None (Some 0) DcDefault YNone = Ok f /\
  fc_price (DS:=FloatDates) f 2 = Ok 100.
Proof.
  pose proof (float_additive (DC:=no_registry)) as A.
  destruct (C34_unordered_refuted FloatDates (fun d => d) no_registry float_laws DcDefault _ A
      [2] 1 [110] 100 (Some 0) YNone 2 110) as [f [E [V _]]]; simpl; auto; try lra.
  - repeat constructor; simpl; intuition lra.
  - intros y H. intuition lra.
  - exists f. auto.
Qed.
