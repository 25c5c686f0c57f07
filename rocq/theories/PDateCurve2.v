(** Properties C65 - C68: sampling, shifting, arithmetic, integration and
    differentiation of DateCurves (dcf/curves/curve.py:341-353, 366-436, 464-489,
    517-578).  Dates are any type satisfying [DateLaws] (SDates.v). *)
From Coq Require Import Reals Lra Lia List Bool Sorted Permutation.
From Coq Require String.
From Verif Require Import Num Py Spec SInterpolation SCurve SDates LBase LSort MInterpolation
  LInterpolation LInterpolation2 MDates MCurve LDates LCurve LCurve2 LDateCurve LDateCurve2
  SRateCurve LRateCurve LRateCurve2 LRateCurve4 LCivil.
Import ListNotations.
Open Scope R_scope.

(** * C65: [DateCurve(xs, c)] *)
(** the given dates, the values of c there; origin and day count of c unless given *)
Theorem C65_sample : forall {D P} (DS : DateSys R D P) (tm : D -> R) (DC : DayCounts R D),
  DateLaws DS tm ->
  forall (count : dcspec R D) tau, additive (dc_apply count) tau ->
  forall orig ds ys c, ds <> [] -> length ds = length ys -> NoDup (map tm ds) ->
  dc_new linear_scheme ds ys None orig count = Ok c ->
  (count = DcDefault \/ exists name, count = DcName name) ->
  forall xs orig', xs <> [] -> NoDup (map tm xs) ->
  exists c', dc_sample c xs None orig' DcDefault = Ok c' /\ dc_domain c' = xs /\
    (forall x, In x xs -> dc_call c' x = dc_call c x) /\
    (forall a b, dc_yf c' a b = dc_yf c a b) /\
    dc_origin c' =
      match orig' with
      | Some o => if d_truthy o then Some o else match orig with Some o => Some o | None => hd_error xs end
      | None => match orig with Some o => Some o | None => hd_error xs end
      end.
Proof.
  intros D P DS tm DC L count tau A orig ds ys c NE HL ND E HC xs orig' NX NDX.
  assert (exists o, dom_origin orig ds = Some o) as [o HO].
  { unfold dom_origin. destruct orig; eauto. destruct ds; [congruence|]. simpl. eauto. }
  apply (dstate_iff count tau A linear_scheme ds ys None orig o c HL ND HO) in E.
  destruct (dlin count tau A _ _ _ _ _ E NE) as [H1 [H2 _]].
  destruct (dstate_origin _ _ _ _ _ _ _ _ _ E) as [_ [EC [ED _]]].
  assert (EO : dc_origin0 c = orig) by (destruct E as [_ [_ [_ [f [_ ->]]]]]; reflexivity).
  assert (EI : dc_interp c = None) by (destruct E as [_ [_ [_ [f [_ ->]]]]]; reflexivity).
  assert (EF : dc_dflt c = linear_scheme) by (destruct E as [_ [_ [_ [f [_ ->]]]]]; reflexivity).
  destruct (dnew_on (L:=L) count tau A (dfun c) xs (origin_or orig' orig)) as [c' [o' [N1 [N2 [N3 [N4 N5]]]]]]; auto.
  assert (EK : dc_or DcDefault (dc_kwarg count) = count) by (destruct HC as [->|[n ->]]; reflexivity).
  exists c'. split; [|split; [|split; [|split]]].
  - unfold dc_sample. rewrite ED.
    rewrite (mapM_ok (dc_call c) (fun d => Some (dfun c d))) by (intros; apply H1). cbn [bind].
    rewrite (mapM_ok (dc_val c) (dfun c)) by (intros; apply H2). cbn [bind].
    rewrite EO, EI, EF, EC, EK. cbn [interp_or]. exact N1.
  - destruct (dstate_origin _ _ _ _ _ _ _ _ _ N2) as [_ [_ [X _]]]. exact X.
  - intros x Ix. now rewrite N5, H1.
  - intros a b. unfold dc_yf. now rewrite N4, EC.
  - destruct (dstate_origin _ _ _ _ _ _ _ _ _ N2) as [-> _]. rewrite <- N3. unfold dom_origin, origin_or.
    destruct orig' as [d|]; auto. destruct (d_truthy d); auto.
Qed.
Print Assumptions C65_sample.

(** a day count given explicitly replaces the one of the curve *)
Theorem C65_sample_day_count : forall {D P} (DS : DateSys R D P) (tm : D -> R) (DC : DayCounts R D),
  DateLaws DS tm ->
  forall (count : dcspec R D) tau, additive (dc_apply count) tau ->
  forall orig ds ys c, ds <> [] -> length ds = length ys -> NoDup (map tm ds) ->
  dc_new linear_scheme ds ys None orig count = Ok c ->
  forall name f tau', additive f tau' ->
  forall xs, xs <> [] -> NoDup (map tm xs) ->
  exists c', dc_sample c xs None None (DcFun name f) = Ok c' /\ dc_domain c' = xs /\
    (forall x, In x xs -> dc_call c' x = dc_call c x) /\ forall a b, dc_yf c' a b = f a b.
Proof.
  intros D P DS tm DC L count tau A orig ds ys c NE HL ND E name f tau' A' xs NX NDX.
  assert (exists o, dom_origin orig ds = Some o) as [o HO].
  { unfold dom_origin. destruct orig; eauto. destruct ds; [congruence|]. simpl. eauto. }
  apply (dstate_iff count tau A linear_scheme ds ys None orig o c HL ND HO) in E.
  destruct (dlin count tau A _ _ _ _ _ E NE) as [H1 [H2 _]].
  destruct (dstate_origin _ _ _ _ _ _ _ _ _ E) as [_ [EC [ED _]]].
  assert (EO : dc_origin0 c = orig) by (destruct E as [_ [_ [_ [g [_ ->]]]]]; reflexivity).
  assert (EI : dc_interp c = None) by (destruct E as [_ [_ [_ [g [_ ->]]]]]; reflexivity).
  assert (EF : dc_dflt c = linear_scheme) by (destruct E as [_ [_ [_ [g [_ ->]]]]]; reflexivity).
  destruct (dnew_on (L:=L) (DcFun name f) tau' A' (dfun c) xs orig) as [c' [o' [N1 [N2 [N3 [N4 N5]]]]]]; auto.
  exists c'. split; [|split; [|split]].
  - unfold dc_sample. rewrite ED.
    rewrite (mapM_ok (dc_call c) (fun d => Some (dfun c d))) by (intros; apply H1). cbn [bind].
    rewrite (mapM_ok (dc_val c) (dfun c)) by (intros; apply H2). cbn [bind].
    rewrite EO, EI, EF. exact N1.
  - destruct (dstate_origin _ _ _ _ _ _ _ _ _ N2) as [_ [_ [X _]]]. exact X.
  - intros x Ix. now rewrite N5, H1.
  - intros a b. unfold dc_yf. now rewrite N4.
Qed.
Print Assumptions C65_sample_day_count.

(** a day count function of the curve is not taken over: its name is looked up in the
    class dictionary instead, so that sampling raises TypeError *)
Theorem C65_function_day_count_refuted : forall {D P} (DS : DateSys R D P) (tm : D -> R),
  DateLaws DS tm -> let DC : DayCounts R D := [] in
  forall name f tau, additive f tau ->
  forall orig ds ys c, ds <> [] -> length ds = length ys -> NoDup (map tm ds) ->
  dc_new (DC:=DC) linear_scheme ds ys None orig (DcFun name f) = Ok c ->
  forall xs, xs <> [] -> dc_sample (DC:=DC) c xs None None DcDefault = Err TypeError.
Proof.
  intros D P DS tm L DC name f tau A orig ds ys c NE HL ND E xs NX.
  assert (exists o, dom_origin orig ds = Some o) as [o HO].
  { unfold dom_origin. destruct orig; eauto. destruct ds; [congruence|]. simpl. eauto. }
  apply (dstate_iff (DC:=DC) (DcFun name f) tau A linear_scheme ds ys None orig o c HL ND HO) in E.
  destruct (dlin (DC:=DC) (DcFun name f) tau A _ _ _ _ _ E NE) as [H1 [H2 _]].
  destruct (dstate_origin _ _ _ _ _ _ _ _ _ E) as [_ [EC [ED _]]].
  unfold dc_sample. rewrite ED.
  rewrite (mapM_ok (dc_call c) (fun d => Some (dfun c d))) by (intros; apply H1). cbn [bind].
  rewrite (mapM_ok (dc_val c) (dfun c)) by (intros; apply H2). cbn [bind].
  rewrite EC. cbn [dc_kwarg dc_or]. unfold dc_new. rewrite map_length, Nat.eqb_refl. cbn [negb].
  unfold dc_update. destruct xs as [|x xs]; [congruence|]. cbn [mapM]. unfold dc_time, dc_origin. cbn [dc_origin0 dc_domain].
  destruct (dom_origin _ (x :: xs)) as [d|] eqn:Ed.
  - reflexivity.
  - reflexivity.
Qed.
Print Assumptions C65_function_day_count_refuted.

Example C65_example : exists c c', dc_new (DS:=FloatDates) (DC:=[]) linear_scheme [1; 3] [10; 30] None (Some 0) DcDefault = Ok c /\
  dc_sample (DS:=FloatDates) (DC:=[]) c [1; 2] None None DcDefault = Ok c' /\
  dc_origin c' = Some 0 /\ dc_call (DS:=FloatDates) (DC:=[]) c' 2 = dc_call (DS:=FloatDates) (DC:=[]) c 2.
Proof.
  assert (N : NoDup [1; 3]) by (repeat constructor; simpl; intuition lra).
  assert (N' : NoDup [1; 2]) by (repeat constructor; simpl; intuition lra).
  destruct (dnew_on (L:=float_laws) (DC:=[]) DcDefault _ float_additive (fun x => 10 * x) [1; 3] (Some 0))
    as [c [o [S _]]]; [discriminate | now rewrite map_id |].
  replace (map (fun x => 10 * x) [1; 3]) with [10; 30] in S by (simpl; repeat f_equal; lra).
  destruct (C65_sample FloatDates (fun d => d) [] float_laws DcDefault _ float_additive (Some 0) [1; 3] [10; 30] c) with (xs := [1; 2]) (orig' := @None R)
    as [c' [E1 [_ [E2 [_ E3]]]]]; auto; try discriminate; try (now rewrite map_id).
  exists c, c'. split; auto. split; auto. split; [exact E3|]. apply E2. simpl. auto.
Qed.

(** * C66: [c.shifted(delta)] *)
(** the domain is moved, but the values are those of the curve at the new dates *)
Theorem C66_shifted_resamples : forall {D P} (DS : DateSys R D P) (tm : D -> R) (DC : DayCounts R D),
  DateLaws DS tm ->
  forall (count : dcspec R D) tau, additive (dc_apply count) tau ->
  forall orig ds ys c, ds <> [] -> length ds = length ys -> NoDup (map tm ds) ->
  dc_new linear_scheme ds ys None orig count = Ok c ->
  (count = DcDefault \/ exists name, count = DcName name) ->
  forall (delta : P) (add : D -> D), (forall d, In d ds -> d_add d delta = Ok (add d)) ->
  NoDup (map tm (map add ds)) ->
  let xs := if p_truthy delta then map add ds else ds in
  exists c', dc_shifted c delta = Ok c' /\ dc_domain c' = xs /\
    (forall x, In x xs -> dc_call c' x = dc_call c x) /\
    dc_origin c' = match orig with Some o => Some o | None => hd_error xs end.
Proof.
  intros D P DS tm DC L count tau A orig ds ys c NE HL ND E HC delta add HA NA xs.
  assert (NX : xs <> []) by (unfold xs; destruct (p_truthy delta); auto; destruct ds; [congruence|discriminate]).
  assert (NDX : NoDup (map tm xs)) by (unfold xs; destruct (p_truthy delta); auto).
  destruct (C65_sample DS tm DC L count tau A orig ds ys c NE HL ND E HC xs None NX NDX) as [c' [H1 [H2 [H3 [_ H4]]]]].
  exists c'. split; auto. unfold dc_shifted.
  assert (ED : dc_domain c = ds).
  { unfold dc_new in E. destruct (negb _); [discriminate|]. unfold dc_update in E.
    destruct (mapM _ ds); [|discriminate]. cbn [bind] in E. destruct (update_fn _ _ _); [|discriminate]. cbn [bind] in E.
    now inversion E. }
  rewrite ED. replace (if p_truthy delta then mapM (fun x => d_add x delta) ds else Ok ds) with (Ok (A:=list D) xs).
  - cbn [bind]. exact H1.
  - unfold xs. destruct (p_truthy delta); auto. symmetry. now apply mapM_ok.
Qed.
Print Assumptions C66_shifted_resamples.

(** so that the curve is not moved: the value at t + delta is not the one at t *)
Theorem C66_shifted_refuted : exists (c c' : dcurve R R) delta,
  dc_new (DS:=FloatDates) (DC:=[]) linear_scheme [0; 1; 2] [0; 10; 30] None None DcDefault = Ok c /\
  dc_shifted (DS:=FloatDates) (DC:=[]) c delta = Ok c' /\ exists d v w, In d (dc_domain c) /\
    dc_call (DS:=FloatDates) (DC:=[]) c d = Ok (Some v) /\
    dc_call (DS:=FloatDates) (DC:=[]) c' (d + 1) = Ok (Some w) /\ v <> w /\ delta = FP 1.
Proof.
  assert (N : NoDup (map (fun d : R => d) [0; 1; 2])) by (simpl; repeat constructor; simpl; intuition lra).
  destruct (dnew_on (L:=float_laws) (DC:=[]) DcDefault _ float_additive (fun x => if Req_EM_T x 0 then 0 else if Req_EM_T x 1 then 10 else 30) [0; 1; 2] None)
    as [c [o [E [S [_ [_ V]]]]]]; auto; [discriminate|].
  replace (map (fun x => if Req_EM_T x 0 then 0 else if Req_EM_T x 1 then 10 else 30) [0; 1; 2]) with [0; 10; 30] in E, S.
  2:{ cbn [map]. destruct (Req_EM_T 0 0), (Req_EM_T 1 0), (Req_EM_T 1 1), (Req_EM_T 2 0), (Req_EM_T 2 1); try lra; reflexivity. }
  destruct (C66_shifted_resamples FloatDates (fun d => d) [] float_laws DcDefault _ float_additive None [0; 1; 2] [0; 10; 30] c)
    with (delta := FP (T:=R) 1) (add := fun d : R => d + 1) as [c' [E1 [E2 [E3 E4]]]]; auto; try discriminate.
  { simpl. repeat constructor; simpl; intuition lra. }
  exists c, c', (FP 1). split; auto. split; auto. exists 0, 0, 10.
  replace (p_truthy (FP (T:=R) 1)) with true in *.
  2:{ symmetry. cbn. unfold ntruthy. rn. apply negb_true_iff. apply Reqb_false. lra. }
  split; [destruct (dstate_origin _ _ _ _ _ _ _ _ _ S) as [_ [_ [-> _]]]; simpl; auto|].
  split; [rewrite V by (simpl; auto); destruct (Req_EM_T 0 0); auto; lra|].
  split; [|split; [lra|auto]]. rewrite E3 by (simpl; auto). replace (0 + 1) with 1 by lra.
  rewrite V by (simpl; auto). do 2 f_equal. destruct (Req_EM_T 1 0); [lra|]. destruct (Req_EM_T 1 1); [auto|lra].
Qed.
Print Assumptions C66_shifted_refuted.

(** * C67: [a + b], [a - b], [a * b] for date curves with equal origins *)
Section Arithmetic.
  Context {D P : Type} {DS : DateSys R D P} {tm : D -> R} {L : DateLaws DS tm} {DC : DayCounts R D}.
  Variables (ca cb : dcspec R D) (ta tb : D -> D -> R).
  Hypothesis (Aa : additive (dc_apply ca) ta) (Ab : additive (dc_apply cb) tb).
  Hypothesis (Kb : cb = DcDefault \/ exists name, cb = DcName name).

  Lemma zip_ok op oa ob o oo da ya db yb a b delta :
    dstate (tm:=tm) ca ta linear_scheme None oa o da ya a -> da <> [] ->
    dstate (tm:=tm) cb tb linear_scheme None ob oo db yb b -> db <> [] ->
    d_diff o oo = Ok delta -> p_truthy delta = false ->
    let xs := sorted_set d_ltb d_eqb (da ++ db) in
    exists b' c, dc_zip op a b = Ok c /\ dc_domain c = xs /\ dc_origin0 c = None /\ dc_count c = DcDefault /\
      dstate (tm:=tm) DcDefault (fun x y => tm y - tm x) linear_scheme None None (hd o xs) xs (map (fun x => op (dfun a x) (dfun b' x)) xs) c /\
      (forall x, In x xs -> dc_call c x = Ok (Some (op (dfun a x) (dfun b' x)))) /\
      dstate (tm:=tm) cb tb linear_scheme None ob (match ob with Some d => d | None => hd oo db end) db (map (dfun b) db) b' /\
      dc_shifted b delta = Ok b'.
  Proof.
    intros Sa NA Sb NB ED PD xs.
    destruct (dlin ca ta Aa _ _ _ _ _ Sa NA) as [A1 [A2 [A3 A4]]].
    destruct (dlin cb tb Ab _ _ _ _ _ Sb NB) as [B1 [B2 [B3 B4]]].
    pose proof (dstate_origin _ _ _ _ _ _ _ _ _ Sa) as [AO [AC [AD _]]].
    pose proof (dstate_origin _ _ _ _ _ _ _ _ _ Sb) as [BO [BC [BD _]]].
    assert (FA : dc_dflt a = linear_scheme /\ dc_interp a = None /\ dc_origin0 a = oa) by (destruct Sa as [_ [_ [_ [f [_ ->]]]]]; auto).
    assert (FB : dc_dflt b = linear_scheme /\ dc_interp b = None /\ dc_origin0 b = ob) by (destruct Sb as [_ [_ [_ [f [_ ->]]]]]; auto).
    destruct FA as [FA1 [FA2 FA3]]. destruct FB as [FB1 [FB2 FB3]].
    assert (NDB : NoDup (map tm db)) by apply Sb.
    destruct (dnew_on (L:=L) cb tb Ab (dfun b) db ob) as [b' [ob' [N1 [N2 [N3 [N4 N5]]]]]]; auto.
    assert (SH : dc_shifted b delta = Ok b').
    { unfold dc_shifted. rewrite PD. cbn [bind]. unfold dc_sample. rewrite BD.
      rewrite (mapM_ok (dc_call b) (fun d => Some (dfun b d))) by (intros; apply B1). cbn [bind].
      rewrite (mapM_ok (dc_val b) (dfun b)) by (intros; apply B2). cbn [bind].
      rewrite FB1, FB2, FB3, BC. cbn [interp_or origin_or].
      replace (dc_or DcDefault (dc_kwarg cb)) with cb by (destruct Kb as [->|[n ->]]; reflexivity). exact N1. }
    destruct (dlin cb tb Ab _ _ _ _ _ N2 NB) as [C1 [C2 [C3 C4]]].
    pose proof (dstate_origin _ _ _ _ _ _ _ _ _ N2) as [_ [_ [CD _]]].
    assert (NX : xs <> []) by (apply (dset_ne (L:=L)); destruct da; [congruence|discriminate]).
    assert (NDX : NoDup (map tm xs)) by apply (dset_nodup (L:=L)).
    set (g := fun x => op (dfun a x) (dfun b' x)).
    destruct (dnew_on (L:=L) DcDefault _ (default_additive (L:=L)) g xs None) as [c [oc [M1 [M2 [M3 [M4 M5]]]]]]; auto.
    pose proof (dstate_origin _ _ _ _ _ _ _ _ _ M2) as [_ [_ [MD _]]].
    destruct (dlin DcDefault _ (default_additive (L:=L)) _ _ _ _ _ M2 NX) as [E1 [E2 [E3 E4]]].
    assert (EG : map (dfun c) xs = map g xs).
    { apply map_ext_in. intros x Ix. apply E3. now apply in_combine_map. }
    destruct (dnew_on (L:=L) ca ta Aa (dfun c) xs (Some o)) as [c2 [oc2 [P1 _]]]; auto.
    assert (oc = hd o xs).
    { unfold dom_origin in M3. destruct xs; [congruence|]. simpl in M3 |- *. congruence. }
    subst oc.
    assert (ob' = match ob with Some d => d | None => hd oo db end).
    { unfold dom_origin in N3. destruct ob; [congruence|]. destruct db; [congruence|]. simpl in N3 |- *. congruence. }
    subst ob'.
    assert (CI : dc_interp c = None /\ dc_origin0 c = None) by (destruct M2 as [_ [_ [_ [f [_ ->]]]]]; auto).
    exists b', c. split; [|split; [|split; [|split; [|split; [|split; [|split]]]]]]; auto; try apply CI.
    unfold dc_zip. rewrite AO, BO, ED. cbn [bind]. rewrite SH. cbn [bind]. rewrite AD, CD. cbv zeta. fold xs.
    rewrite (mapM_ok _ g); [|intros x _; rewrite A2, C2; reflexivity]. cbn [bind].
    rewrite FA1, FA2, M1. cbn [bind]. rewrite MD, (mapM_ok (dc_val c) (dfun c)) by (intros; apply E2). cbn [bind].
    destruct CI as [-> _]. rewrite AC, P1. reflexivity.
  Qed.
End Arithmetic.

(** on the union of both domains the results are exact *)
Theorem C67_union_grid : forall {D P} (DS : DateSys R D P) (tm : D -> R) (DC : DayCounts R D),
  DateLaws DS tm ->
  forall (ca cb : dcspec R D) ta tb, additive (dc_apply ca) ta -> additive (dc_apply cb) tb ->
  (cb = DcDefault \/ exists name, cb = DcName name) ->
  forall oa ob da ya db yb a b, da <> [] -> db <> [] -> length da = length ya -> length db = length yb ->
  NoDup (map tm da) -> NoDup (map tm db) ->
  dc_new linear_scheme da ya None oa ca = Ok a -> dc_new linear_scheme db yb None ob cb = Ok b ->
  forall o o' delta, dc_origin a = Some o -> dc_origin b = Some o' -> d_diff o o' = Ok delta -> p_truthy delta = false ->
  forall op, exists c, dc_zip op a b = Ok c /\
    (forall t, In t (map tm (dc_domain c)) <-> In t (map tm da) \/ In t (map tm db)) /\
    forall x, In x (dc_domain c) -> exists u v, dc_call a x = Ok (Some u) /\ dc_call b x = Ok (Some v) /\
      dc_call c x = Ok (Some (op u v)).
Proof.
  intros D P DS tm DC L ca cb ta tb Aa Ab Kb oa ob da ya db yb a b NA NB LA LB NDA NDB Ea Eb o o' delta HO HO' HD HP op.
  assert (Da : dc_domain a = da /\ dc_origin0 a = oa).
  { unfold dc_new in Ea. destruct (negb _); [discriminate|]. unfold dc_update in Ea.
    destruct (mapM _ da); [|discriminate]. cbn [bind] in Ea. destruct (update_fn _ _ _); [|discriminate]. cbn [bind] in Ea.
    now inversion Ea. }
  assert (Db : dc_domain b = db /\ dc_origin0 b = ob).
  { unfold dc_new in Eb. destruct (negb _); [discriminate|]. unfold dc_update in Eb.
    destruct (mapM _ db); [|discriminate]. cbn [bind] in Eb. destruct (update_fn _ _ _); [|discriminate]. cbn [bind] in Eb.
    now inversion Eb. }
  destruct Da as [Da1 Da2]. destruct Db as [Db1 Db2].
  unfold dc_origin in HO, HO'. rewrite Da1, Da2 in HO. rewrite Db1, Db2 in HO'.
  apply (dstate_iff ca ta Aa linear_scheme da ya None oa o a LA NDA HO) in Ea.
  apply (dstate_iff cb tb Ab linear_scheme db yb None ob o' b LB NDB HO') in Eb.
  destruct (zip_ok (L:=L) ca cb ta tb Aa Ab Kb op oa ob o o' da ya db yb a b delta Ea NA Eb NB HD HP)
    as [b' [c [Z1 [Z2 [Z3 [Z4 [Z5 [Z6 [Z7 Z8]]]]]]]]].
  exists c. split; auto. rewrite Z2. split.
  - intro t. rewrite (dset_times (L:=L)), map_app, in_app_iff. reflexivity.
  - intros x Ix. destruct (dlin ca ta Aa _ _ _ _ _ Ea NA) as [A1 _].
    destruct (dlin cb tb Ab _ _ _ _ _ Eb NB) as [B1 [_ [B3 B4]]].
    exists (dfun a x), (dfun b x). split; auto. split; auto. rewrite Z6 by auto. do 3 f_equal.
    (* the sampled b' and b agree everywhere *)
    assert (EO : match ob with Some d => d | None => hd o' db end = o').
    { unfold dom_origin in HO'. destruct ob; [congruence|]. destruct db; [congruence|]. simpl in *. congruence. }
    rewrite EO in Z7. destruct (dlin cb tb Ab _ _ _ _ _ Z7 NB) as [_ [_ [_ C4]]].
    assert (EY : map (dfun b) db = yb).
    { clear -B3 LB. revert yb B3 LB. induction db as [|d db IH]; intros [|y yb] B3 LB; try discriminate; auto.
      simpl. f_equal; [apply B3; simpl; auto|]. apply IH; [|simpl in LB; lia]. intros d' y' I. apply B3. simpl. auto. }
    rewrite EY in C4. eapply (pl_fun (combine (map (tb o') db) yb)); [|apply C4|apply B4].
    apply (times_distinct (L:=L) cb tb Ab); auto.
Qed.
Print Assumptions C67_union_grid.

(** ... and with default day counts sums and differences are exact everywhere *)
Theorem C67_everywhere : forall {D P} (DS : DateSys R D P) (tm : D -> R) (DC : DayCounts R D),
  DateLaws DS tm ->
  forall oa ob da ya db yb a b, da <> [] -> db <> [] -> length da = length ya -> length db = length yb ->
  NoDup (map tm da) -> NoDup (map tm db) ->
  dc_new linear_scheme da ya None oa DcDefault = Ok a -> dc_new linear_scheme db yb None ob DcDefault = Ok b ->
  forall o o' delta, dc_origin a = Some o -> dc_origin b = Some o' -> d_diff o o' = Ok delta -> p_truthy delta = false ->
  exists s d, dc_zip Rplus a b = Ok s /\ dc_zip Rminus a b = Ok d /\
    forall x, exists u v, dc_call a x = Ok (Some u) /\ dc_call b x = Ok (Some v) /\
      dc_call s x = Ok (Some (u + v)) /\ dc_call d x = Ok (Some (u - v)).
Proof.
  intros D P DS tm DC L oa ob da ya db yb a b NA NB LA LB NDA NDB Ea Eb o o' delta HO HO' HD HP.
  set (A := default_additive (L:=L) (DC:=DC)).
  assert (Da : dc_domain a = da /\ dc_origin0 a = oa).
  { unfold dc_new in Ea. destruct (negb _); [discriminate|]. unfold dc_update in Ea.
    destruct (mapM _ da); [|discriminate]. cbn [bind] in Ea. destruct (update_fn _ _ _); [|discriminate]. cbn [bind] in Ea.
    now inversion Ea. }
  assert (Db : dc_domain b = db /\ dc_origin0 b = ob).
  { unfold dc_new in Eb. destruct (negb _); [discriminate|]. unfold dc_update in Eb.
    destruct (mapM _ db); [|discriminate]. cbn [bind] in Eb. destruct (update_fn _ _ _); [|discriminate]. cbn [bind] in Eb.
    now inversion Eb. }
  destruct Da as [Da1 Da2]. destruct Db as [Db1 Db2].
  pose proof Ea as Ea0. pose proof Eb as Eb0. pose proof HO as HO0. pose proof HO' as HO0'.
  unfold dc_origin in HO, HO'. rewrite Da1, Da2 in HO. rewrite Db1, Db2 in HO'.
  apply (dstate_iff DcDefault _ A linear_scheme da ya None oa o a LA NDA HO) in Ea.
  apply (dstate_iff DcDefault _ A linear_scheme db yb None ob o' b LB NDB HO') in Eb.
  (* values as functions of the time *)
  assert (F : forall oc dc yc c oo, dstate (tm:=tm) DcDefault (fun a b => tm b - tm a) linear_scheme None oc oo dc yc c -> dc <> [] ->
              exists f, (forall t, piecewise_linear (combine (map tm dc) yc) t (f t)) /\ forall x, dc_call c x = Ok (Some (f (tm x)))).
  { intros oc dc yc c oo S NE. destruct (pl_function (map tm dc) yc) as [f Hf].
    - rewrite map_length. apply S.
    - apply S.
    - destruct dc; [congruence|discriminate].
    - exists f. split; auto. intro x.
      destruct (dstate_linear (L:=L) DcDefault _ A oc oo dc yc c x tm) as [y [-> PL]]; auto.
      do 2 f_equal. eapply pl_fun; [|exact PL|apply Hf]. unfold distinct. rewrite map_fst_combine; [apply S|].
      rewrite map_length. apply S. }
  destruct (F _ _ _ _ _ Ea NA) as [f [Hf Vf]]. destruct (F _ _ _ _ _ Eb NB) as [g [Hg Vg]].
  assert (R : forall op k, (forall u v, op u v = u + k * v) -> exists c, dc_zip op a b = Ok c /\
                forall x, dc_call c x = Ok (Some (f (tm x) + k * g (tm x)))).
  { intros op k Hop.
    destruct (C67_union_grid DS tm DC L DcDefault DcDefault _ _ A A (or_introl eq_refl) oa ob da ya db yb a b
                NA NB LA LB NDA NDB Ea0 Eb0 o o' delta HO0 HO0' HD HP op) as [c [E [HDm HV]]].
    exists c. split; auto.
    destruct (zip_ok (L:=L) DcDefault DcDefault _ _ A A (or_introl eq_refl) op oa ob o o' da ya db yb a b delta Ea NA Eb NB HD HP)
      as [b' [c' [Z1 [Z2 [_ [_ [Z5 _]]]]]]]. rewrite E in Z1. inversion Z1; subst c'. clear Z1.
    destruct (F _ _ _ _ _ Z5) as [h [Hh Vh]].
    { apply (dset_ne (L:=L)). destruct da; [congruence|discriminate]. }
    intro x. rewrite Vh. do 2 f_equal.
    set (xs := sorted_set d_ltb d_eqb (da ++ db)) in *.
    set (zs := map (fun x => op (dfun a x) (dfun b' x)) xs) in *.
    assert (LZ : length (map tm xs) = length zs) by (unfold zs; now rewrite !map_length).
    apply (pl_sum (combine (map tm da) ya) (combine (map tm db) yb) (combine (map tm xs) zs) f g h); auto.
    - destruct da, ya; try discriminate; congruence.
    - destruct db, yb; try discriminate; congruence.
    - unfold distinct. rewrite map_fst_combine; auto. now rewrite map_length.
    - unfold distinct. rewrite map_fst_combine; auto. now rewrite map_length.
    - intro t. rewrite !map_fst_combine; auto; try (now rewrite map_length). rewrite <- Z2. apply HDm.
    - intros t z I. rewrite combine_map_l in I. apply in_map_iff in I. destruct I as [[y z'] [Ey Iy]]. inversion Ey; subst. cbn [fst snd].
      assert (Ix : In y (dc_domain c)) by (rewrite Z2; eapply in_combine_l; eauto).
      destruct (HV y Ix) as [u [v [U1 [U2 U3]]]]. rewrite Vf in U1. rewrite Vg in U2. inversion U1. inversion U2. subst u v.
      rewrite <- Hop. rewrite Vh in U3. inversion U3 as [U4].
      symmetry. eapply pl_node; [|  |apply Hh].
      + unfold distinct. rewrite map_fst_combine by auto. apply (dset_nodup (L:=L)).
      + rewrite combine_map_l. apply in_map_iff. exists (y, z). auto. }
  destruct (R Rplus 1) as [s [Es Vs]]; [intros; lra|]. destruct (R Rminus (-1)) as [d [Ed Vd]]; [intros; lra|].
  exists s, d. split; auto. split; auto. intro x. exists (f (tm x)), (g (tm x)). split; auto. split; auto.
  rewrite Vs, Vd. split; do 2 f_equal; lra.
Qed.
Print Assumptions C67_everywhere.

(** the result keeps neither the origin nor the day count of the first curve, so that it
    differs between grid dates *)
Theorem C67_origin_refuted : forall {D P} (DS : DateSys R D P) (tm : D -> R) (DC : DayCounts R D),
  DateLaws DS tm ->
  forall (ca cb : dcspec R D) ta tb, additive (dc_apply ca) ta -> additive (dc_apply cb) tb ->
  (cb = DcDefault \/ exists name, cb = DcName name) ->
  forall oa ob da ya db yb a b, da <> [] -> db <> [] -> length da = length ya -> length db = length yb ->
  NoDup (map tm da) -> NoDup (map tm db) ->
  dc_new linear_scheme da ya None oa ca = Ok a -> dc_new linear_scheme db yb None ob cb = Ok b ->
  forall o o' delta, dc_origin a = Some o -> dc_origin b = Some o' -> d_diff o o' = Ok delta -> p_truthy delta = false ->
  forall op, exists c, dc_zip op a b = Ok c /\ dc_count c = DcDefault /\ dc_origin c = hd_error (dc_domain c).
Proof.
  intros D P DS tm DC L ca cb ta tb Aa Ab Kb oa ob da ya db yb a b NA NB LA LB NDA NDB Ea Eb o o' delta HO HO' HD HP op.
  assert (Da : dc_domain a = da /\ dc_origin0 a = oa).
  { unfold dc_new in Ea. destruct (negb _); [discriminate|]. unfold dc_update in Ea.
    destruct (mapM _ da); [|discriminate]. cbn [bind] in Ea. destruct (update_fn _ _ _); [|discriminate]. cbn [bind] in Ea.
    now inversion Ea. }
  assert (Db : dc_domain b = db /\ dc_origin0 b = ob).
  { unfold dc_new in Eb. destruct (negb _); [discriminate|]. unfold dc_update in Eb.
    destruct (mapM _ db); [|discriminate]. cbn [bind] in Eb. destruct (update_fn _ _ _); [|discriminate]. cbn [bind] in Eb.
    now inversion Eb. }
  destruct Da as [Da1 Da2]. destruct Db as [Db1 Db2].
  unfold dc_origin in HO, HO'. rewrite Da1, Da2 in HO. rewrite Db1, Db2 in HO'.
  apply (dstate_iff ca ta Aa linear_scheme da ya None oa o a LA NDA HO) in Ea.
  apply (dstate_iff cb tb Ab linear_scheme db yb None ob o' b LB NDB HO') in Eb.
  destruct (zip_ok (L:=L) ca cb ta tb Aa Ab Kb op oa ob o o' da ya db yb a b delta Ea NA Eb NB HD HP)
    as [b' [c [Z1 [_ [Z3 [Z4 _]]]]]].
  exists c. split; auto. split; auto. unfold dc_origin, dom_origin. now rewrite Z3.
Qed.
Print Assumptions C67_origin_refuted.

(** a curve without dates and origin can be built, but not combined with any other *)
Theorem C67_no_dates : forall {D P} (DS : DateSys R D P) (DC : DayCounts R D) (count : dcspec R D),
  exists e, dc_new linear_scheme [] [] None None count = Ok e /\
  forall (op : R -> R -> R) (a : dcurve R D),
    dc_zip op e a = Err TypeError /\ dc_zip op a e = Err TypeError /\ dc_div e a = Err TypeError /\ dc_div a e = Err TypeError.
Proof.
  intros D P DS DC count. eexists. split; [reflexivity|]. intros op a. unfold dc_zip, dc_div. cbn [dc_origin dom_origin dc_origin0 dc_domain hd_error].
  destruct (dc_origin a); auto.
Qed.
Print Assumptions C67_no_dates.

(** [a / b] never returns *)
Theorem C67_div_refuted : forall {T D P} (N : Num T) (DS : DateSys T D P) (DC : DayCounts T D) (a b : dcurve T D) c,
  dc_div a b <> Ok c.
Proof.
  intros T D P N DS DC a b c H. unfold dc_div in H.
  destruct (dc_origin a), (dc_origin b); try discriminate.
  destruct (d_diff d d0); [|discriminate]. cbn [bind] in H. destruct (dc_shifted b a0); [|discriminate]. cbn [bind] in H.
  cbv zeta in H. destruct (mapM _ _) in H; [|discriminate]. cbn [bind] in H. destruct (existsb _ _); [discriminate|].
  destruct (mapM _ _) in H; [|discriminate]. cbn [bind] in H. destruct (dc_new _ _ _ _ _ _); discriminate.
Qed.
Print Assumptions C67_div_refuted.

(** ... but raises: [ZeroDivisionError] if the second curve vanishes on a date of either
    curve, and [AttributeError] (on setting the origin) otherwise *)
Theorem C67_div_error : forall {D P} (DS : DateSys R D P) (tm : D -> R) (DC : DayCounts R D),
  DateLaws DS tm ->
  forall oa ob da ya db yb a b, da <> [] -> db <> [] -> length da = length ya -> length db = length yb ->
  NoDup (map tm da) -> NoDup (map tm db) ->
  dc_new linear_scheme da ya None oa DcDefault = Ok a -> dc_new linear_scheme db yb None ob DcDefault = Ok b ->
  forall o o' delta, dc_origin a = Some o -> dc_origin b = Some o' -> d_diff o o' = Ok delta -> p_truthy delta = false ->
  ((exists x, In x (da ++ db) /\ dc_call b x = Ok (Some 0)) -> dc_div a b = Err ZeroDivisionError) /\
  (~ (exists x, In x (da ++ db) /\ dc_call b x = Ok (Some 0)) -> dc_div a b = Err AttributeError).
Proof.
  intros D P DS tm DC L oa ob da ya db yb a b NA NB LA LB NDA NDB Ea Eb o o' delta HO HO' HD HP.
  set (A := default_additive (L:=L) (DC:=DC)).
  destruct (C67_union_grid DS tm DC L DcDefault DcDefault _ _ A A (or_introl eq_refl) oa ob da ya db yb a b
              NA NB LA LB NDA NDB Ea Eb o o' delta HO HO' HD HP (fun _ v => v)) as [c [E [HDm HV]]].
  assert (Da : dc_domain a = da /\ dc_origin0 a = oa).
  { unfold dc_new in Ea. destruct (negb _); [discriminate|]. unfold dc_update in Ea.
    destruct (mapM _ da); [|discriminate]. cbn [bind] in Ea. destruct (update_fn _ _ _); [|discriminate]. cbn [bind] in Ea.
    now inversion Ea. }
  assert (Db : dc_domain b = db /\ dc_origin0 b = ob).
  { unfold dc_new in Eb. destruct (negb _); [discriminate|]. unfold dc_update in Eb.
    destruct (mapM _ db); [|discriminate]. cbn [bind] in Eb. destruct (update_fn _ _ _); [|discriminate]. cbn [bind] in Eb.
    now inversion Eb. }
  destruct Da as [Da1 Da2]. destruct Db as [Db1 Db2].
  pose proof HO as HO0. pose proof HO' as HO0'.
  unfold dc_origin in HO, HO'. rewrite Da1, Da2 in HO. rewrite Db1, Db2 in HO'.
  apply (dstate_iff DcDefault _ A linear_scheme da ya None oa o a LA NDA HO) in Ea.
  apply (dstate_iff DcDefault _ A linear_scheme db yb None ob o' b LB NDB HO') in Eb.
  destruct (zip_ok (L:=L) DcDefault DcDefault _ _ A A (or_introl eq_refl) (fun _ v => v) oa ob o o' da ya db yb a b delta Ea NA Eb NB HD HP)
    as [b' [c' [Z1 [Z2 [_ [_ [_ [Z6 [Z7 Z8]]]]]]]]]. rewrite E in Z1. inversion Z1; subst c'. clear Z1.
  set (xs := sorted_set d_ltb d_eqb (da ++ db)) in *.
  destruct (dlin DcDefault _ A _ _ _ _ _ Ea NA) as [A1 [A2 _]].
  destruct (dlin DcDefault _ A _ _ _ _ _ Z7 NB) as [B1 [B2 _]].
  pose proof (dstate_origin _ _ _ _ _ _ _ _ _ Z7) as [_ [_ [BD _]]].
  assert (FA : dc_dflt a = linear_scheme /\ dc_interp a = None) by (destruct Ea as [_ [_ [_ [f [_ ->]]]]]; auto).
  destruct FA as [FA1 FA2].
  assert (V : forall x, In x xs -> dc_call b x = Ok (Some (dfun b' x))).
  { intros x Ix. destruct (HV x) as [u [v [_ [U2 U3]]]]; [now rewrite Z2|].
    rewrite Z6 in U3 by auto. inversion U3; subst. exact U2. }
  assert (S : (exists x, In x (da ++ db) /\ dc_call b x = Ok (Some 0)) <-> exists x, In x xs /\ dfun b' x = 0).
  { destruct (pl_function (map tm db) yb) as [f Hf]; [now rewrite map_length|auto|destruct db; [congruence|discriminate]|].
    assert (Vf : forall x, dc_call b x = Ok (Some (f (tm x)))).
    { intro x. destruct (dstate_linear (L:=L) DcDefault _ A ob o' db yb b x tm) as [y [-> PL]]; auto.
      do 2 f_equal. eapply pl_fun; [|exact PL|apply Hf]. unfold distinct. rewrite map_fst_combine; [auto|]. now rewrite map_length. }
    split.
    - intros [x [Ix Ex]]. assert (I : In (tm x) (map tm xs)) by (apply (dset_times (L:=L)); now apply in_map).
      apply in_map_iff in I. destruct I as [y [Ey Iy]]. exists y. split; auto.
      pose proof (V y Iy) as Vy. rewrite Vf in Vy, Ex. rewrite Ey in Vy. congruence.
    - intros [x [Ix Ex]]. exists x. split; [now apply (dset_sub)|]. now rewrite (V x Ix), Ex. }
  assert (M : dc_div a b = if existsb (fun z => z) (map (fun x => negb (ntruthy (dfun b' x))) xs) then Err ZeroDivisionError
                else ys <- mapM (fun x => u <- dc_val a x ;; v <- dc_val b' x ;; ndiv u v) xs ;;
                     _ <- dc_new (dc_dflt a) xs ys (dc_interp a) None DcDefault ;; Err AttributeError).
  { unfold dc_div. rewrite HO0, HO0', HD. cbn [bind]. rewrite Z8. cbn [bind]. cbv zeta. rewrite Da1, BD. fold xs.
    rewrite (mapM_ok _ (fun x => negb (ntruthy (dfun b' x)))) by (intros x Ix; rewrite B1; reflexivity). reflexivity. }
  assert (TZ : forall y : R, ntruthy y = false <-> y = 0).
  { intro y. unfold ntruthy. rn. rewrite negb_false_iff. apply Reqb_true. }
  rewrite M. clear M. split; intro H.
  - apply S in H. destruct H as [x [Ix Ex]].
    replace (existsb _ _) with true; auto. symmetry. apply existsb_exists. exists true. split; auto.
    apply in_map_iff. exists x. split; auto. apply TZ in Ex. now rewrite Ex.
  - assert (NZ : forall x, In x xs -> dfun b' x <> 0) by (intros x Ix Ex; apply H, S; eauto).
    replace (existsb _ _) with false.
    + rewrite (mapM_ok _ (fun x => dfun a x / dfun b' x)).
      * cbn [bind]. rewrite FA1, FA2.
        destruct (dnew_on (L:=L) DcDefault _ A (fun x => dfun a x / dfun b' x) xs None) as [q [oq [Q _]]].
        -- apply (dset_ne (L:=L)). destruct da; [congruence|discriminate].
        -- apply (dset_nodup (L:=L)).
        -- rewrite Q. reflexivity.
      * intros x Ix. rewrite A2, B2. cbn [bind]. rn. apply Rdivp_ok. auto.
    + symmetry. destruct (existsb _ _) eqn:X; auto. apply existsb_exists in X. destruct X as [z [Iz ->]].
      apply in_map_iff in Iz. destruct Iz as [x [Ex Ix]]. apply negb_true_iff, TZ in Ex. elim (NZ x Ix Ex).
Qed.
Print Assumptions C67_div_error.

(** two curves with origin 0 *)
Example C67_example : exists a b s d, dc_new (DS:=FloatDates) (DC:=[]) linear_scheme [1; 3] [10; 30] None (Some 0) DcDefault = Ok a /\
  dc_new (DS:=FloatDates) (DC:=[]) linear_scheme [0; 2] [0; 20] None (Some 0) DcDefault = Ok b /\
  dc_zip (DS:=FloatDates) (DC:=[]) Rplus a b = Ok s /\ dc_zip (DS:=FloatDates) (DC:=[]) Rminus a b = Ok d.
Proof.
  assert (N : NoDup [1; 3]) by (repeat constructor; simpl; intuition lra).
  assert (N' : NoDup [0; 2]) by (repeat constructor; simpl; intuition lra).
  destruct (dnew_on (L:=float_laws) (DC:=[]) DcDefault _ float_additive (fun x => 10 * x) [1; 3] (Some 0))
    as [a [oa [Ea [Sa _]]]]; [discriminate | now rewrite map_id |].
  destruct (dnew_on (L:=float_laws) (DC:=[]) DcDefault _ float_additive (fun x => 10 * x) [0; 2] (Some 0))
    as [b [ob [Eb [Sb _]]]]; [discriminate | now rewrite map_id |].
  replace (map (fun x => 10 * x) [1; 3]) with [10; 30] in Ea by (simpl; repeat f_equal; lra).
  replace (map (fun x => 10 * x) [0; 2]) with [0; 20] in Eb by (simpl; repeat f_equal; lra).
  assert (oa = 0) by (destruct Sa as [_ [_ [X _]]]; cbn in X; congruence).
  assert (ob = 0) by (destruct Sb as [_ [_ [X _]]]; cbn in X; congruence). subst.
  destruct (C67_everywhere FloatDates (fun d => d) [] float_laws (Some 0) (Some 0) [1; 3] [10; 30] [0; 2] [0; 20] a b)
    with (o := 0) (o' := 0) (delta := FP (T:=R) (0 - 0)) as [s [d [H1 [H2 _]]]]; auto; try discriminate; try (now rewrite map_id).
  - eapply dstate_origin; exact Sa.
  - eapply dstate_origin; exact Sb.
  - cbn. unfold ntruthy. rn. apply negb_false_iff, Reqb_true. lra.
  - exists a, b, s, d. auto.
Qed.

(** * C68: [integrate] and [derivative] without scipy *)
(** the average of the values at the days from start on, weighted with the year
    fractions of the day steps, the last step ending at stop *)
Theorem C68_integrate : forall {D P} (DS : DateSys R D P) (tm : D -> R), DateLaws DS tm ->
  forall yf tau, additive yf tau -> steps (p_str Tday) -> unbounded (p_str Tday) ->
  forall (val : D -> res R) (v : D -> R), (forall d, val d = Ok (v d)) ->
  forall start stop, d_ltb start stop = true ->
  exists n ds, ds 0%nat = start /\ schedule (p_str Tday) ds (S n) /\ tm (ds n) < tm stop <= tm (ds (S n)) /\
    forall fuel, (n < fuel)%nat -> integrate fuel val yf (p_str Tday) start stop =
      Ok ((sum_n (fun i => v (ds i) * tau (ds i) (ds (S i))) n + v (ds n) * tau (ds n) stop) / tau start stop).
Proof.
  intros D P DS tm L yf tau A St U val v HV start stop LT.
  destruct (reach_any (L:=L) (p_str Tday) start stop St U LT) as [n [ds [D0 [Sc En]]]].
  exists n, ds. split; auto. split; auto. split; auto. intros fuel HF. subst start. unfold integrate.
  rewrite (integrate_loop_ok (L:=L) yf tau (p_str Tday) v val A n) by auto. cbn [bind].
  rewrite (add_val _ _ A). cbn [bind]. rn. rewrite Rdivp_ok; [f_equal; f_equal; lra|].
  intro Z. apply (add_zero _ _ A) in Z. apply law_eqb in Z. apply law_ltb in LT. lra.
Qed.
Print Assumptions C68_integrate.

(** hence a mean value of the curve: between any bounds of the values in [start, stop) *)
Theorem C68_mean_value : forall {D P} (DS : DateSys R D P) (tm : D -> R), DateLaws DS tm ->
  forall yf tau, additive yf tau -> monotone tau -> steps (p_str Tday) -> unbounded (p_str Tday) ->
  forall (val : D -> res R) (v : D -> R), (forall d, val d = Ok (v d)) ->
  forall start stop lo hi, d_ltb start stop = true ->
  (forall d, tm start <= tm d < tm stop -> lo <= v d <= hi) ->
  exists n x, lo <= x <= hi /\ forall fuel, (n < fuel)%nat -> integrate fuel val yf (p_str Tday) start stop = Ok x.
Proof.
  intros D P DS tm L yf tau A M St U val v HV start stop lo hi LT B.
  destruct (C68_integrate DS tm L yf tau A St U val v HV start stop LT) as [n [ds [D0 [Sc [En H]]]]].
  eexists n, _. split; [|exact H].
  assert (TP : 0 < tau start stop) by now apply M.
  assert (X : forall k, (k <= n)%nat ->
    lo * tau start (ds k) <= sum_n (fun i => v (ds i) * tau (ds i) (ds (S i))) k <= hi * tau start (ds k)).
  { induction k; intro Hk.
    - unfold sum_n. simpl. rewrite D0. replace (tau start start) with 0; [lra|].
      symmetry. apply (add_zero _ _ A). now apply law_eqb.
    - rewrite sum_n_last. specialize (IHk ltac:(lia)). rewrite <- (add_add _ _ A start (ds k) (ds (S k))).
      assert (Bk : lo <= v (ds k) <= hi).
      { apply B. rewrite <- D0. destruct En as [En _].
        assert (tm (ds 0%nat) <= tm (ds k)).
        { destruct k; [lra|]. left. apply (schedule_tm (L:=L) _ _ _ Sc). lia. }
        assert (tm (ds k) <= tm (ds n)).
        { left. apply (schedule_tm (L:=L) _ _ _ Sc). lia. }
        lra. }
      assert (0 < tau (ds k) (ds (S k))) by (apply M; apply Sc; lia). nra. }
  specialize (X n (le_n _)). rewrite <- (add_add _ _ A start (ds n) stop) in *.
  assert (Bn : lo <= v (ds n) <= hi).
  { apply B. rewrite <- D0. split; [|tauto]. destruct n; [lra|]. left. apply (schedule_tm (L:=L) _ _ _ Sc). lia. }
  assert (0 < tau (ds n) stop) by (apply M, law_ltb; tauto).
  set (s := sum_n _ n) in *. split.
  - apply (Rmult_le_reg_r (tau start (ds n) + tau (ds n) stop)); auto. unfold Rdiv. rewrite Rmult_assoc, Rinv_l by lra. nra.
  - apply (Rmult_le_reg_r (tau start (ds n) + tau (ds n) stop)); auto. unfold Rdiv. rewrite Rmult_assoc, Rinv_l by lra. nra.
Qed.
Print Assumptions C68_mean_value.

(** the difference quotient over one day; for linearly interpolated data the slope *)
Theorem C68_derivative : forall {D P} (DS : DateSys R D P) (tm : D -> R) (DC : DayCounts R D), DateLaws DS tm ->
  forall (count : dcspec R D) tau, additive (dc_apply count) tau -> monotone tau ->
  forall orig ds ys c, ds <> [] -> length ds = length ys -> NoDup (map tm ds) ->
  dc_new linear_scheme ds ys None orig count = Ok c ->
  forall d d' a ya b yb, d_add d (p_str Tday) = Ok d' -> tm d < tm d' ->
  In (a, ya) (combine ds ys) -> In (b, yb) (combine ds ys) -> (forall x, In x ds -> tm x <= tm a \/ tm b <= tm x) ->
  tm a <= tm d -> tm d' <= tm b ->
  derivative (dc_val c) (dc_yf c) (p_str Tday) d = Ok ((yb - ya) / tau a b).
Proof.
  intros D P DS tm DC L count tau A M orig ds ys c NE HL ND E d d' a ya b yb Ed Hd Ia Ib HC Ha Hb.
  assert (exists o, dom_origin orig ds = Some o) as [o HO].
  { unfold dom_origin. destruct orig; eauto. destruct ds; [congruence|]. simpl. eauto. }
  apply (dstate_iff count tau A linear_scheme ds ys None orig o c HL ND HO) in E.
  destruct (dlin count tau A _ _ _ _ _ E NE) as [_ [H2 [_ H4]]].
  pose proof (dstate_origin _ _ _ _ _ _ _ _ _ E) as [_ [EC _]].
  assert (MT : forall x y, tm x < tm y <-> tau o x < tau o y).
  { intros x y. rewrite <- (add_add _ _ A o x y). rewrite <- law_ltb, <- (M x y). split; lra. }
  assert (MT' : forall x y, tm x <= tm y <-> tau o x <= tau o y).
  { intros x y. split; intro Hx; destruct (Rle_lt_dec (tau o x) (tau o y)) as [K|K]; auto.
    - apply MT in K. lra.
    - destruct (Rle_lt_dec (tm x) (tm y)) as [K'|K']; auto. apply MT in K'. lra.
    - lra. }
  assert (DI : distinct (times tau o ds ys)) by (apply (times_distinct (L:=L) count tau A); auto).
  assert (CS : consecutive (times tau o ds ys) (tau o a) ya (tau o b) yb).
  { split; [now apply in_times|]. split; [now apply in_times|]. split; [apply MT; lra|].
    intros x z Ix. unfold times in Ix. rewrite combine_map_l in Ix. apply in_map_iff in Ix. destruct Ix as [[e w] [Ee Ie]].
    inversion Ee; subst. cbn [fst snd]. destruct (HC e) as [Q|Q]; [eapply in_combine_l; eauto| |]; [left|right]; now apply MT'. }
  assert (VAL : forall x, tm a <= tm x <= tm b -> dfun c x = chord (tau o a) ya (tau o b) yb (tau o x)).
  { intros x [X1 X2]. eapply (pl_fun (times tau o ds ys)); [exact DI|apply H4|].
    left. exists (tau o a), ya, (tau o b), yb. split; auto. split; auto. split; now apply MT'. }
  unfold derivative. rewrite Ed. cbn [bind]. rewrite !H2. cbn [bind]. unfold dc_yf. rewrite EC, (add_val _ _ A). cbn [bind]. rn.
  assert (T1 : tau d d' = tau o d' - tau o d) by (rewrite <- (add_add _ _ A o d d'); lra).
  assert (T2 : tau a b = tau o b - tau o a) by (rewrite <- (add_add _ _ A o a b); lra).
  assert (T3 : tau o d < tau o d') by (apply MT; lra). assert (T4 : tau o a < tau o b) by (apply MT; lra).
  rewrite Rdivp_ok by (rewrite T1; lra). f_equal. rewrite !VAL by lra. rewrite T1, T2. unfold chord. field. lra.
Qed.
Print Assumptions C68_derivative.

(** business dates; float dates cannot be stepped by a day *)
Example C68_example : forall (v : bdate -> R) s t, (bd_day s < bd_day t)%Z ->
  let day_tm d := IZR (bd_day d) / (1461 / 4) in
  exists n ds, ds 0%nat = s /\ forall fuel, (n < fuel)%nat ->
    integrate (DS:=DayDates) fuel (fun d => Ok (v d)) d_yf (p_str Tday) s t =
    Ok ((sum_n (fun i => v (ds i) * (day_tm (ds (S i)) - day_tm (ds i))) n + v (ds n) * (day_tm t - day_tm (ds n))) / (day_tm t - day_tm s)).
Proof.
  intros v s t H day_tm.
  destruct (C68_integrate DayDates day_tm day_laws d_yf _ (yf_additive (L:=day_laws)) day_steps day_unbounded (fun d => Ok (v d)) v
    (fun d => eq_refl) s t) as [n [ds [E [_ [_ V]]]]]; [cbn; now apply Z.ltb_lt|]. exists n, ds. auto.
Qed.
Theorem C68_float_refuted : forall (v : R -> R) s t fuel,
  integrate (DS:=FloatDates) (S fuel) (fun d => Ok (v d)) d_yf (p_str Tday) s t = Err TypeError /\
  derivative (DS:=FloatDates) (fun d => Ok (v d)) d_yf (p_str Tday) s = Err TypeError.
Proof. intros. split; reflexivity. Qed.
Print Assumptions C68_float_refuted.
