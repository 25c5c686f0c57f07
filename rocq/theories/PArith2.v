(** Property C67: arithmetic of date curves with different origins (dcf/curves/curve.py:464-483). *)
From Coq Require Import Reals Lra Lia List Bool Sorted Permutation.
From Coq Require String.
From Verif Require Import Num Py Spec SInterpolation SCurve SDates LBase LSort MInterpolation
  LInterpolation LInterpolation2 MDates MCurve LDates LCurve LCurve2 LDateCurve LDateCurve2
  SRateCurve LRateCurve LRateCurve2 LRateCurve4 LCivil PDateCurve2.
Import ListNotations.
Open Scope R_scope.

(** the dates of the second curve are moved by the difference of the origins: the result
    is exact at the moved dates, and at the dates of the first curve it combines the first
    curve with the second one sampled at the moved dates *)
Theorem C67_moved : forall {D P} (DS : DateSys R D P) (tm : D -> R) (DC : DayCounts R D),
  DateLaws DS tm ->
  forall (ca cb : dcspec R D) ta tb, additive (dc_apply ca) ta -> additive (dc_apply cb) tb ->
  (cb = DcDefault \/ exists name, cb = DcName name) ->
  forall oa ob da ya db yb a b, da <> [] -> db <> [] -> length da = length ya -> length db = length yb ->
  NoDup (map tm da) -> NoDup (map tm db) ->
  dc_new linear_scheme da ya None oa ca = Ok a -> dc_new linear_scheme db yb None ob cb = Ok b ->
  forall o o' (delta : P) (add : D -> D), dc_origin a = Some o -> dc_origin b = Some o' -> d_diff o o' = Ok delta -> p_truthy delta = true ->
  (forall d, In d db -> d_add d delta = Ok (add d)) -> NoDup (map tm (map add db)) ->
  forall op, exists c b' vs, dc_zip op a b = Ok c /\
    mapM (dc_call b) (map add db) = Ok (map Some vs) /\ dc_new linear_scheme (map add db) vs None ob cb = Ok b' /\
    (forall t, In t (map tm (dc_domain c)) <-> In t (map tm da) \/ In t (map tm (map add db))) /\
    (forall x, In x (dc_domain c) -> exists u v, dc_call a x = Ok (Some u) /\ dc_call b' x = Ok (Some v) /\ dc_call c x = Ok (Some (op u v))) /\
    (forall x, In x (dc_domain c) -> In x (map add db) -> exists u v, dc_call a x = Ok (Some u) /\ dc_call b x = Ok (Some v) /\ dc_call c x = Ok (Some (op u v))).
Proof.
  intros D P DS tm DC L ca cb ta tb Aa Ab Kb oa ob da ya db yb a b NA NB LA LB NDA NDB Ea Eb o o' delta add HO HO' ED PD HA NDM op.
  destruct (C66_shifted_resamples DS tm DC L cb tb Ab ob db yb b NB LB NDB Eb Kb delta add HA NDM) as [b0 [SH [CD [CV _]]]].
  rewrite PD in CD, CV.
  assert (Da : dc_domain a = da /\ dc_origin0 a = oa).
  { unfold dc_new in Ea. destruct (negb _); [discriminate|]. unfold dc_update in Ea.
    destruct (mapM _ da); [|discriminate]. cbn [bind] in Ea. destruct (update_fn _ _ _); [|discriminate]. cbn [bind] in Ea.
    now inversion Ea. }
  assert (Db : dc_domain b = db /\ dc_origin0 b = ob).
  { unfold dc_new in Eb. destruct (negb _); [discriminate|]. unfold dc_update in Eb.
    destruct (mapM _ db); [|discriminate]. cbn [bind] in Eb. destruct (update_fn _ _ _); [|discriminate]. cbn [bind] in Eb.
    now inversion Eb. }
  destruct Da as [Da1 Da2]. destruct Db as [Db1 Db2]. pose proof HO as HO0. pose proof HO' as HO0'.
  unfold dc_origin in HO, HO'. rewrite Da1, Da2 in HO. rewrite Db1, Db2 in HO'.
  apply (dstate_iff ca ta Aa linear_scheme da ya None oa o a LA NDA HO) in Ea.
  apply (dstate_iff cb tb Ab linear_scheme db yb None ob o' b LB NDB HO') in Eb.
  destruct (dlin ca ta Aa _ _ _ _ _ Ea NA) as [A1 [A2 [A3 A4]]].
  destruct (dlin cb tb Ab _ _ _ _ _ Eb NB) as [B1 [B2 [B3 B4]]].
  assert (FA : dc_dflt a = linear_scheme /\ dc_interp a = None /\ dc_count a = ca) by (destruct Ea as [_ [_ [_ [f [_ ->]]]]]; auto).
  destruct FA as [FA1 [FA2 FA3]].
  assert (FB : dc_dflt b = linear_scheme /\ dc_interp b = None /\ dc_count b = cb) by (destruct Eb as [_ [_ [_ [f [_ ->]]]]]; auto).
  destruct FB as [FB1 [FB2 FB3]].
  set (md := map add db) in *. assert (NM : md <> []) by (unfold md; destruct db; [congruence|discriminate]).
  destruct (dnew_on (L:=L) cb tb Ab (dfun b) md ob) as [b' [ob' [N1 [N2 [N3 [N4 N5]]]]]]; auto.
  assert (EB : b0 = b').
  { assert (S2 : dc_shifted b delta = Ok b').
    { unfold dc_shifted. rewrite PD, Db1. rewrite (mapM_ok _ add) by auto. cbn [bind]. fold md. unfold dc_sample.
      rewrite (mapM_ok (dc_call b) (fun d => Some (dfun b d))) by (intros; apply B1). cbn [bind].
      rewrite (mapM_ok (dc_val b) (dfun b)) by (intros; apply B2). cbn [bind].
      rewrite FB1, FB2, FB3, Db2. cbn [interp_or origin_or].
      replace (dc_or DcDefault (dc_kwarg cb)) with cb by (destruct Kb as [->|[n ->]]; reflexivity). exact N1. }
    congruence. }
  subst b0. destruct (dlin cb tb Ab _ _ _ _ _ N2 NM) as [C1 [C2 [C3 C4]]].
  set (xs := sorted_set d_ltb d_eqb (da ++ md)).
  assert (NX : xs <> []) by (apply (dset_ne (L:=L)); destruct da; [congruence|discriminate]).
  assert (NDX : NoDup (map tm xs)) by apply (dset_nodup (L:=L)).
  set (g := fun x => op (dfun a x) (dfun b' x)).
  destruct (dnew_on (L:=L) DcDefault _ (default_additive (L:=L)) g xs None) as [c [oc [M1 [M2 [M3 [M4 M5]]]]]]; auto.
  pose proof (dstate_origin _ _ _ _ _ _ _ _ _ M2) as [_ [_ [MD _]]].
  destruct (dlin DcDefault _ (default_additive (L:=L)) _ _ _ _ _ M2 NX) as [E1 [E2 [E3 E4]]].
  destruct (dnew_on (L:=L) ca ta Aa (dfun c) xs (Some o)) as [c2 [oc2 [P1 _]]]; auto.
  assert (CI : dc_interp c = None) by (destruct M2 as [_ [_ [_ [f [_ ->]]]]]; auto).
  exists c, b', (map (dfun b) md). split; [|split; [rewrite map_map; apply mapM_ok; intros; apply B1|split; [exact N1|split; [|split]]]].
  - unfold dc_zip. rewrite HO0, HO0', ED. cbn [bind]. rewrite SH. cbn [bind]. rewrite Da1, CD. cbv zeta. fold xs.
    rewrite (mapM_ok _ g); [|intros x _; rewrite A2, C2; reflexivity]. cbn [bind].
    rewrite FA1, FA2, M1. cbn [bind]. rewrite MD, (mapM_ok (dc_val c) (dfun c)) by (intros; apply E2). cbn [bind].
    rewrite CI, FA3, P1. reflexivity.
  - intros t. rewrite MD. unfold xs. rewrite (dset_times (L:=L)), map_app, in_app_iff. reflexivity.
  - intros x. rewrite MD. intros Ix. exists (dfun a x), (dfun b' x). rewrite A1, C1, M5 by auto. auto.
  - intros x. rewrite MD. intros Ix Im. exists (dfun a x), (dfun b x). rewrite A1, B1, M5 by auto. unfold g.
    replace (dfun b' x) with (dfun b x); auto. unfold dfun at 2. rewrite CV by auto. now rewrite B1.
Qed.
Print Assumptions C67_moved.

(** so that the sum of curves with different origins is not the sum of their values, not
    even at a date given for both curves *)
Theorem C67_origins_refuted : exists (a b c : dcurve R R),
  dc_new (DS:=FloatDates) (DC:=[]) linear_scheme [0; 3] [0; 0] None None DcDefault = Ok a /\
  dc_new (DS:=FloatDates) (DC:=[]) linear_scheme [1; 2; 3] [0; 10; 0] None None DcDefault = Ok b /\
  dc_zip (DS:=FloatDates) (DC:=[]) Rplus a b = Ok c /\
  dc_call (DS:=FloatDates) (DC:=[]) a 3 = Ok (Some 0) /\ dc_call (DS:=FloatDates) (DC:=[]) b 3 = Ok (Some 0) /\
  dc_call (DS:=FloatDates) (DC:=[]) c 3 = Ok (Some 10).
Proof.
  assert (N : NoDup (map (fun d : R => d) [0; 3])) by (simpl; repeat constructor; simpl; intuition lra).
  assert (N' : NoDup (map (fun d : R => d) [1; 2; 3])) by (simpl; repeat constructor; simpl; intuition lra).
  assert (NM : NoDup (map (fun d : R => d) (map (fun d : R => d + (0 - 1)) [1; 2; 3]))) by (simpl; repeat constructor; simpl; intuition lra).
  destruct (dnew_on (L:=float_laws) (DC:=[]) DcDefault _ float_additive (fun x => 0) [0; 3] None)
    as [a [oa [Ea [Sa [_ [_ Va]]]]]]; auto; [discriminate|].
  destruct (dnew_on (L:=float_laws) (DC:=[]) DcDefault _ float_additive (fun x => if Req_EM_T x 2 then 10 else 0) [1; 2; 3] None)
    as [b [ob [Eb [Sb [_ [_ Vb]]]]]]; auto; [discriminate|].
  replace (map (fun x => if Req_EM_T x 2 then 10 else 0) [1; 2; 3]) with [0; 10; 0] in Eb, Sb.
  2:{ cbn [map]. destruct (Req_EM_T 1 2), (Req_EM_T 2 2), (Req_EM_T 3 2); try lra; reflexivity. }
  cbn [map] in Ea, Sa.
  assert (oa = 0) by (destruct Sa as [_ [_ [X _]]]; cbn in X; congruence).
  assert (ob = 1) by (destruct Sb as [_ [_ [X _]]]; cbn in X; congruence). subst oa ob.
  destruct (C67_moved FloatDates (fun d => d) [] float_laws DcDefault DcDefault _ _ float_additive float_additive (or_introl eq_refl)
              None None [0; 3] [0; 0] [1; 2; 3] [0; 10; 0] a b)
    with (o := 0) (o' := 1) (delta := FP (T:=R) (0 - 1)) (add := fun d : R => d + (0 - 1)) (op := Rplus)
    as [c [b' [vs [H1 [H2 [H3 [H4 [H5 H6]]]]]]]]; auto; try discriminate.
  - eapply dstate_origin; exact Sa.
  - eapply dstate_origin; exact Sb.
  - cbn. unfold ntruthy. rn. apply negb_true_iff, Reqb_false. lra.
  - assert (B3 : dc_call (DS:=FloatDates) (DC:=[]) b 3 = Ok (Some 0)).
    { rewrite Vb by (simpl; auto). destruct (Req_EM_T 3 2); [lra|reflexivity]. }
    assert (A3 : dc_call (DS:=FloatDates) (DC:=[]) a 3 = Ok (Some 0)) by (rewrite Va by (simpl; auto); reflexivity).
    exists a, b, c. repeat (split; auto).
    destruct (H5 3) as [u [v [X1 [X2 ->]]]].
    { assert (In 3 (map (fun d : R => d) (dc_domain c))) as I3 by (apply H4; left; simpl; auto). now rewrite map_id in I3. }
    rewrite A3 in X1. inversion X1; subst u. do 2 f_equal.
    cbn [map] in H2, H3, NM. replace (1 + (0 - 1)) with 0 in * by lra. replace (2 + (0 - 1)) with 1 in * by lra. replace (3 + (0 - 1)) with 2 in * by lra.
    destruct (dlin (L:=float_laws) (DC:=[]) DcDefault _ float_additive _ _ _ _ _ Sb) as [B1 _]; [discriminate|].
    rewrite (mapM_ok _ (fun d => Some (dfun (DS:=FloatDates) (DC:=[]) b d))) in H2 by (intros; apply B1).
    assert (EV : vs = map (dfun (DS:=FloatDates) (DC:=[]) b) [0; 1; 2]).
    { inversion H2 as [X]. clear -X. destruct vs as [|v0 [|v1 [|v2 [|? ?]]]]; try discriminate X. cbn in X. inversion X; subst. reflexivity. }
    assert (D2 : dfun (DS:=FloatDates) (DC:=[]) b 2 = 10).
    { unfold dfun. rewrite Vb by (simpl; auto). destruct (Req_EM_T 2 2); [reflexivity|lra]. }
    apply (dstate_iff (L:=float_laws) (DC:=[]) DcDefault _ float_additive linear_scheme _ _ None None 0 b') in H3; [|subst vs; reflexivity|exact NM|reflexivity].
    destruct (dlin (L:=float_laws) (DC:=[]) DcDefault _ float_additive _ _ _ _ _ H3) as [C1 [_ [_ C4]]]; [discriminate|].
    rewrite C1 in X2. inversion X2; subst v. clear X2. specialize (C4 3).
    rewrite Rplus_0_l. rewrite EV in C4.
    cbn [combine map] in C4. rewrite D2 in C4. eapply pl_fun; [|exact C4|].
    + unfold distinct. cbn [map fst]. repeat constructor; simpl; intuition lra.
    + right; right. exists (2 - 0). split; [simpl; auto|]. split; [|lra].
      intros x z. simpl. intuition; match goal with H : (_, _) = _ |- _ => inversion H; lra end.
Qed.
Print Assumptions C67_origins_refuted.
