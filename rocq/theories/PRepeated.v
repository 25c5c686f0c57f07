(** Property C126: interpolations of points with repeated x. *)
From Coq Require Import Reals Lra Lia List Bool Arith Sorted Permutation.
From Verif Require Import Num Py Spec SInterpolation LBase LSort MInterpolation LInterpolation LRepeated.
Import ListNotations.
Open Scope R_scope.

(** * C126 *)
(** the smallest (largest) value given for x *)
Definition smallest (ps : points) (x y : R) : Prop := In (x, y) ps /\ forall y', In (x, y') ps -> y <= y'.
Definition largest (ps : points) (x y : R) : Prop := In (x, y) ps /\ forall y', In (x, y') ps -> y' <= y.

(** the given order of the points does not matter *)
Theorem C126_order : forall k (xs ys xs' ys' : list R),
  k <> Kloglinearrate -> k <> Klogconstantrate ->
  length xs = length ys -> length xs' = length ys' ->
  Permutation (combine xs ys) (combine xs' ys') ->
  interp_new k xs ys = interp_new k xs' ys'.
Proof.
  intros k xs ys xs' ys' K1 K2 HL HL' P.
  assert (Py : Permutation ys ys').
  { apply (Permutation_map snd) in P. now rewrite !map_snd_combine in P by auto. }
  assert (B : forall z d, base_new k xs ys z d = base_new k xs' ys' z d).
  { intros z d. rewrite !base_lists by auto. now rewrite (canon_unique _ _ P). }
  destruct k; cbn [interp_new]; try congruence; try (now rewrite B).
  assert (AP : all_positive ys = all_positive ys').
  { destruct (all_positive ys) eqn:E, (all_positive ys') eqn:E'; auto.
    - apply all_positive_false in E'. destruct E' as (y & I & W). apply (Permutation_in _ (Permutation_sym Py)) in I.
      pose proof (proj1 (all_positive_true ys) E y I). lra.
    - apply all_positive_false in E. destruct E as (y & I & W). apply (Permutation_in _ Py) in I.
      pose proof (proj1 (all_positive_true ys') E' y I). lra. }
  rewrite <- AP. destruct (all_positive ys) eqn:E; [|reflexivity].
  assert (HP := proj1 (all_positive_true ys) E). assert (HP' := proj1 (all_positive_true ys') (eq_sym AP)).
  rewrite !mapM_ok with (g := ln) by (intros y I; rn; apply Rlogp_ok; auto). rn.
  rewrite !base_lists by (now rewrite map_length).
  assert (Q : Permutation (combine xs (map ln ys)) (combine xs' (map ln ys'))).
  { assert (M : forall us vs : list R, combine us (map ln vs) = map (fun p => (fst p, ln (snd p))) (combine us vs)).
    { intros us. induction us as [|u us IH]; intros [|w vs]; cbn; auto. now rewrite IH. }
    rewrite !M. now apply Permutation_map. }
  now rewrite (canon_unique _ _ Q).
Qed.

(** at a given x the step interpolations return the smallest of its values ... *)
Theorem C126_smallest : forall k (xs ys : list R) x y,
  In k [Kdefault; Kno; Kzero; Kleft; Kconstant; Kright; Knearest] ->
  length xs = length ys -> smallest (combine xs ys) x y ->
  exists f, interp_new k xs ys = Ok f /\ interp_call f x = Ok (Some y).
Proof.
  intros k xs ys x y K HL [I M].
  assert (I' : In (x, y) (canon (combine xs ys))) by (eapply Permutation_in; [symmetry; apply canon_perm|exact I]).
  destruct (first_smallest _ _ _ (canon_lex (combine xs ys)) I') as (i & y0 & E1 & E2 & E3 & E4).
  assert (Y : y0 = y).
  { apply Rle_antisym; [auto|]. apply M. eapply Permutation_in; [apply canon_perm|exact E3]. }
  subst y0. exists (mkI k (map fst (canon (combine xs ys))) (map snd (canon (combine xs ys))) None
               (match k with Kzero => Some 0 | _ => None end)).
  assert (NE : map snd (canon (combine xs ys)) <> []) by (intros Q; rewrite Q in E2; destruct i; discriminate).
  split.
  - destruct K as [<-|[<-|[<-|[<-|[<-|[<-|[<-|[]]]]]]]]; cbn [interp_new]; now rewrite base_lists by auto.
  - assert (N : nth_res (map snd (canon (combine xs ys))) i = Ok y) by (unfold nth_res; now rewrite E2).
    assert (L : call_left (map fst (canon (combine xs ys))) (map snd (canon (combine xs ys))) x = Ok y).
    { unfold call_left. rn. rewrite E1. destruct (map snd _); [congruence|exact N]. }
    assert (R1 : call_right (map fst (canon (combine xs ys))) (map snd (canon (combine xs ys))) x = Ok y).
    { unfold call_right. rn. rewrite E1. destruct (map snd _); [congruence|exact N]. }
    assert (R2 : call_nearest (map fst (canon (combine xs ys))) (map snd (canon (combine xs ys))) x = Ok y).
    { unfold call_nearest. rn. rewrite E1. destruct (map snd _) as [|y1 [|y2 zs]]; [congruence| |exact N].
      destruct i as [|[|i]]; cbn in E2; congruence. }
    destruct K as [<-|[<-|[<-|[<-|[<-|[<-|[<-|[]]]]]]]]; cbn [interp_call i_kind i_xs i_ys];
      try (rn; rewrite E1, N; reflexivity); try (rewrite L; reflexivity); [rewrite R1|rewrite R2]; reflexivity.
Qed.
Theorem C126_smallest_default : forall (xs ys : list R) d x y,
  length xs = length ys -> smallest (combine xs ys) x y ->
  interp_call (default_new xs ys d) x = Ok (Some y).
Proof.
  intros xs ys d x y HL [I M].
  assert (I' : In (x, y) (canon (combine xs ys))) by (eapply Permutation_in; [symmetry; apply canon_perm|exact I]).
  destruct (first_smallest _ _ _ (canon_lex (combine xs ys)) I') as (i & y0 & E1 & E2 & E3 & E4).
  assert (Y : y0 = y).
  { apply Rle_antisym; [auto|]. apply M. eapply Permutation_in; [apply canon_perm|exact E3]. }
  subst y0. unfold default_new. rewrite base_lists by auto. cbn [interp_call i_kind i_xs i_ys]. rn. rewrite E1.
  unfold nth_res. rewrite E2. reflexivity.
Qed.

(** REFUTED: ... and not the one with the first matching index *)
Theorem C126_first_refuted : exists f,
  interp_new Kno [1; 1; 2] [4; 3; 5] = Ok f /\ interp_call f 1 = Ok (Some 3) /\
  index_of Reqb 1 [1; 1; 2] = Some 0%nat.
Proof.
  destruct (C126_smallest Kno [1; 1; 2] [4; 3; 5] 1 3) as (f & E & C).
  - cbn; tauto.
  - reflexivity.
  - split; [cbn; auto|]. cbn. intros y' [Q|[Q|[Q|[]]]]; injection Q; intros; lra.
  - exists f. split; auto. split; auto. cbn. unfold Reqb. destruct (Req_EM_T 1 1); congruence.
Qed.

(** linear interpolation: between neighbouring x the line from the largest value of the
    left one to the smallest value of the right one *)
Theorem C126_linear : forall (xs ys : list R) a ya b yb x,
  length xs = length ys -> largest (combine xs ys) a ya -> smallest (combine xs ys) b yb ->
  (forall c, In c xs -> c <= a \/ b <= c) -> a < x <= b ->
  exists f, interp_new Klinear xs ys = Ok f /\
            interp_call f x = Ok (Some (ya + (yb - ya) * ((x - a) / (b - a)))).
Proof.
  intros xs ys a ya b yb x HL [IA MA] [IB MB] GAP [X1 X2]. cbn [interp_new]. rewrite base_lists by auto. eexists. split; [reflexivity|].
  cbn [interp_call i_kind i_xs i_ys]. set (c := canon (combine xs ys)).
  assert (PC : forall p, In p c <-> In p (combine xs ys)).
  { intros p. split; apply Permutation_in; [|symmetry]; apply canon_perm. }
  pose proof (canon_lex (combine xs ys)) as S. fold c in S.
  destruct (sorted_cut c x S) as (c1 & c2 & E & F1 & F2). rewrite Forall_forall in F1, F2.
  assert (J1 : In (a, ya) c1).
  { assert (J : In (a, ya) c) by now apply PC. rewrite E in J. apply in_app_or in J. destruct J as [J|J]; auto.
    apply F2 in J. cbn in J. lra. }
  assert (J2 : In (b, yb) c2).
  { assert (J : In (b, yb) c) by now apply PC. rewrite E in J. apply in_app_or in J. destruct J as [J|J]; auto.
    apply F1 in J. cbn in J. lra. }
  destruct (@exists_last _ c1) as (c1' & [pa py] & Q1); [intros ->; destruct J1|].
  destruct c2 as [|[qb qy] c2]; [destruct J2|].
  rewrite E in S. destruct (sorted_app _ _ _ S) as (S1 & S2 & _). rewrite Q1 in S1. destruct (sorted_app _ _ _ S1) as (_ & _ & S1').
  assert (PA : pa = a /\ py = ya).
  { assert (IP : In (pa, py) (combine xs ys)) by (apply PC; rewrite E, Q1; apply in_or_app; left; apply in_or_app; right; now left).
    assert (LT : pa < x) by (apply (F1 (pa, py)); rewrite Q1; apply in_or_app; right; now left).
    assert (LE : pa <= a) by (destruct (GAP pa (in_combine_l _ _ _ _ IP)); lra).
    rewrite Q1 in J1. apply in_app_or in J1. destruct J1 as [J1|[J1|[]]]; [|injection J1 as <- <-; auto].
    destruct (S1' _ _ J1 (or_introl eq_refl)) as [W|[W1 W2]]; cbn in *; [lra|]. assert (pa = a) by lra. subst pa. split; auto.
    apply Rle_antisym; auto. }
  destruct PA as [-> ->].
  assert (PB : qb = b /\ qy = yb).
  { assert (IP : In (qb, qy) (combine xs ys)) by (apply PC; rewrite E; apply in_or_app; right; now left).
    assert (GT : x <= qb) by (apply (F2 (qb, qy)); now left).
    assert (GE : b <= qb) by (destruct (GAP qb (in_combine_l _ _ _ _ IP)); lra).
    destruct J2 as [J2|J2]; [injection J2 as <- <-; auto|]. inversion S2 as [|? ? _ F]; subst. rewrite Forall_forall in F.
    destruct (F _ J2) as [W|[W1 W2]]; cbn in *; [lra|]. assert (qb = b) by lra. subst qb. split; auto. apply Rle_antisym; auto. }
  destruct PB as [-> ->].
  assert (E' : c = c1' ++ (a, ya) :: (b, yb) :: c2) by (rewrite E, Q1, <- app_assoc; reflexivity).
  assert (LEN : length c = (length c1' + 2 + length c2)%nat) by (rewrite E', app_length; cbn; lia).
  assert (N1 : nth_error c (length c1') = Some (a, ya)) by (rewrite E', nth_error_app2, Nat.sub_diag by lia; reflexivity).
  assert (N2 : nth_error c (Datatypes.S (length c1')) = Some (b, yb)).
  { rewrite E', nth_error_app2 by lia. replace (Datatypes.S (length c1') - length c1')%nat with 1%nat by lia. reflexivity. }
  assert (NX : forall j d, nth_error c j = Some d -> nth j (map fst c) 0 = fst d).
  { intros j d Hj. apply nth_error_nth. rewrite nth_error_map, Hj. reflexivity. }
  assert (SC : StronglySorted lex c) by apply canon_lex.
  destruct (bisect_sorted c x SC) as (B1 & B2 & B3); [lia|].
  assert (BI : bisect_left (map fst c) x 1 (length (map fst c) - 1) = Datatypes.S (length c1')).
  { set (i := bisect_left _ _ _ _) in *. destruct (Nat.lt_trichotomy i (Datatypes.S (length c1'))) as [W|[W|W]]; auto; exfalso.
    - assert (BOUND : (i <= length c1')%nat) by lia. 
      destruct (nth_error c i) as [d|] eqn:D; [|apply nth_error_None in D; lia].
      specialize (B3 i ltac:(lia)). rewrite (NX _ _ D) in B3.
      assert (I1 : In d c1).
      { rewrite E in D. rewrite nth_error_app1 in D by (rewrite Q1, app_length; cbn; lia). eapply nth_error_In; eauto. }
      apply F1 in I1. lra.
    - specialize (B2 (Datatypes.S (length c1')) ltac:(lia)). rewrite (NX _ _ N2) in B2. cbn in B2. lra. }
  rewrite (call_linear_at c x _ _ _ _ _ ltac:(lia) BI N1 N2). rn. rewrite Rdivp_ok by lra. rn. do 3 f_equal. field. lra.
Qed.

(** REFUTED: when the first x is given twice there is no value up to it, and when the last
    one is given twice there is none beyond it: the call raises *)
Theorem C126_linear_start_refuted : forall (xs ys : list R) a x,
  length xs = length ys -> (1 < count_occ Req_EM_T xs a)%nat -> (forall c, In c xs -> a <= c) -> x <= a ->
  exists f, interp_new Klinear xs ys = Ok f /\ interp_call f x = Err ZeroDivisionError.
Proof.
  intros xs ys a x HL CO MIN X. cbn [interp_new]. rewrite base_lists by auto. eexists. split; [reflexivity|].
  cbn [interp_call i_kind i_xs i_ys]. set (c := canon (combine xs ys)).
  assert (PX : Permutation (map fst c) xs).
  { eapply perm_trans; [apply Permutation_map, canon_perm|]. rewrite map_fst_combine by auto. reflexivity. }
  rewrite <- (proj1 (Permutation_count_occ Req_EM_T _ _) PX) in CO.
  assert (MIN' : forall p, In p c -> a <= fst p).
  { intros p I. apply MIN. eapply Permutation_in; [exact PX|]. now apply in_map. }
  pose proof (canon_lex (combine xs ys)) as S. fold c in S. clearbody c. clear PX MIN HL xs ys.
  assert (H : exists y1 y2 l, c = (a, y1) :: (a, y2) :: l).
  { inversion S as [|[p1 y1] c1 S1 F1]; subst; [cbn in CO; lia|]. rewrite Forall_forall in F1.
    assert (C1 : (0 < count_occ Req_EM_T (map fst c1) a)%nat).
    { cbn [map fst count_occ] in CO. destruct (Req_EM_T p1 a); lia. }
    assert (I1 : In a (map fst c1)) by (apply (count_occ_In Req_EM_T); lia).
    assert (P1 : p1 = a).
    { apply in_map_iff in I1. destruct I1 as ([u w] & U & I1). cbn in U. subst u.
      specialize (MIN' _ (or_introl eq_refl)). destruct (F1 _ I1) as [W|[W _]]; cbn in *; lra. }
    subst p1. inversion S1 as [|[p2 y2] c2 S2 F2]; subst; [destruct I1|]. rewrite Forall_forall in F2.
    exists y1, y2, c2. do 2 f_equal. f_equal.
    destruct I1 as [I1|I1]; [exact I1|]. apply in_map_iff in I1. destruct I1 as ([u w] & U & I1). cbn in U. subst u.
    specialize (MIN' (p2, y2) (or_intror (or_introl eq_refl))). destruct (F2 _ I1) as [W|[W _]]; cbn in *; lra. }
  destruct H as (y1 & y2 & l & ->).
  destruct (bisect_sorted _ x S) as (B1 & B2 & _); [cbn; lia|].
  set (i := bisect_left _ _ _ _) in *.
  assert (BI : i = 1%nat).
  { destruct (Nat.eq_dec i 1) as [|NE]; auto. specialize (B2 1%nat ltac:(lia)). cbn in B2. lra. }
  rewrite (call_linear_at _ x 0 a a y1 y2); [|cbn; lia|exact BI|reflexivity|reflexivity].
  rn. replace (a - a) with 0 by lra. rewrite Rdivp_zero. reflexivity.
Qed.
Theorem C126_linear_end_refuted : forall (xs ys : list R) a x,
  length xs = length ys -> (1 < count_occ Req_EM_T xs a)%nat -> (forall c, In c xs -> c <= a) -> a < x ->
  exists f, interp_new Klinear xs ys = Ok f /\ interp_call f x = Err ZeroDivisionError.
Proof.
  intros xs ys a x HL CO MAX X. cbn [interp_new]. rewrite base_lists by auto. eexists. split; [reflexivity|].
  cbn [interp_call i_kind i_xs i_ys]. set (c := canon (combine xs ys)).
  assert (PX : Permutation (map fst c) xs).
  { eapply perm_trans; [apply Permutation_map, canon_perm|]. rewrite map_fst_combine by auto. reflexivity. }
  rewrite <- (proj1 (Permutation_count_occ Req_EM_T _ _) PX) in CO.
  assert (MAX' : forall p, In p c -> fst p <= a).
  { intros p I. apply MAX. eapply Permutation_in; [exact PX|]. now apply in_map. }
  pose proof (canon_lex (combine xs ys)) as S. fold c in S. clearbody c. clear PX MAX HL xs ys.
  assert (H : exists y1 y2 l, c = l ++ [(a, y1); (a, y2)]).
  { destruct (@exists_last _ c) as (c1 & [p2 y2] & ->); [intros ->; cbn in CO; lia|].
    destruct (sorted_app _ _ _ S) as (S1 & _ & F1). rewrite map_app, count_occ_app in CO. cbn [map fst count_occ] in CO.
    assert (I1 : In a (map fst c1)).
    { apply (count_occ_In Req_EM_T). destruct (Req_EM_T p2 a); lia. }
    assert (P2 : p2 = a).
    { apply in_map_iff in I1. destruct I1 as ([u w] & U & I1). cbn in U. subst u.
      specialize (MAX' (p2, y2) ltac:(apply in_or_app; right; now left)).
      destruct (F1 _ _ I1 (or_introl eq_refl)) as [W|[W _]]; cbn in *; lra. }
    subst p2. destruct (@exists_last _ c1) as (c0 & [p1 y1] & ->); [intros ->; destruct I1|].
    exists y1, y2, c0. rewrite <- app_assoc. cbn [app]. do 2 f_equal. f_equal.
    destruct (sorted_app _ _ _ S1) as (_ & _ & F0). rewrite map_app in I1. apply in_app_or in I1.
    destruct I1 as [I1|[I1|[]]]; [|exact I1]. apply in_map_iff in I1. destruct I1 as ([u w] & U & I1). cbn in U. subst u.
    specialize (MAX' (p1, y1) ltac:(apply in_or_app; left; apply in_or_app; right; now left)).
    destruct (F0 _ _ I1 (or_introl eq_refl)) as [W|[W _]]; cbn in *; lra. }
  destruct H as (y1 & y2 & l & ->).
  assert (LEN : length (l ++ [(a, y1); (a, y2)]) = (length l + 2)%nat) by (rewrite app_length; reflexivity).
  destruct (bisect_sorted _ x S) as (B1 & _ & B3); [lia|].
  set (i := bisect_left _ _ _ _) in *.
  assert (BI : i = Datatypes.S (length l)).
  { destruct (Nat.eq_dec i (Datatypes.S (length l))) as [|NE]; auto. specialize (B3 i ltac:(lia)).
    assert (IN : In (nth i (map fst (l ++ [(a, y1); (a, y2)])) 0) (map fst (l ++ [(a, y1); (a, y2)]))) by (apply nth_In; rewrite map_length; lia).
    apply in_map_iff in IN. destruct IN as (p & U & I). apply MAX' in I. lra. }
  rewrite (call_linear_at _ x (length l) a a y1 y2); [|lia|exact BI| |].
  - rn. replace (a - a) with 0 by lra. rewrite Rdivp_zero. reflexivity.
  - rewrite nth_error_app2, Nat.sub_diag by lia. reflexivity.
  - rewrite nth_error_app2 by lia. replace (Datatypes.S (length l) - length l)%nat with 1%nat by lia. reflexivity.
Qed.

(** REFUTED: for the rate interpolations the order of points at 0 matters *)
Theorem C126_rate_order_refuted : forall k, k = Kloglinearrate \/ k = Klogconstantrate ->
  Permutation (combine [0; 0; 1] [2; 3; 4]) (combine [0; 0; 1] [3; 2; 4]) /\
  exists f g, interp_new k [0; 0; 1] [2; 3; 4] = Ok f /\ interp_new k [0; 0; 1] [3; 2; 4] = Ok g /\
    interp_call f 0 = Ok (Some 2) /\ interp_call g 0 = Ok (Some 3).
Proof.
  intros k K. split; [cbn; apply perm_swap|].
  assert (Z : forall y1 y2 y3, 0 < y1 -> 0 < y2 -> 0 < y3 -> exists f, interp_new k [0; 0; 1] [y1; y2; y3] = Ok f /\ interp_call f 0 = Ok (Some y1)).
  { intros y1 y2 y3 H1 H2 H3.
    assert (T : ntruthy 0 = false) by (destruct (ntruthy 0) eqn:T; auto; apply ntruthy_true in T; lra).
    assert (T1 : ntruthy 1 = true) by (apply ntruthy_true; lra).
    assert (Q0 : Reqb 0 0 = true) by (apply Reqb_true; reflexivity).
    assert (AP : all_positive [y1; y2; y3] = true).
    { apply all_positive_true. intros y [<-|[<-|[<-|[]]]]; auto. }
    assert (YZ : y_at_zero [0; 0; 1] [y1; y2; y3] = Ok (Some y1)).
    { unfold y_at_zero. cbn [filter neqb n0 Rnum]. rewrite Q0. cbn [index_of neqb Rnum]. rewrite Q0. reflexivity. }
    destruct K as [->| ->]; cbn [interp_new]; rewrite AP, YZ; cbn [bind combine filter fst snd]; rewrite T, T1;
      cbn [mapM bind fst snd]; rn; rewrite Rlogp_ok by auto; rn; rewrite Rdivp_ok by lra; rn;
      (eexists; split; [reflexivity|]; rewrite base_lists by reflexivity; cbn [interp_call i_kind i_zero]; now rewrite T). }
  destruct (Z 2 3 4) as (f & F1 & F2); try lra. destruct (Z 3 2 4) as (g & G1 & G2); try lra. exists f, g. auto.
Qed.
Print Assumptions C126_order.
Print Assumptions C126_smallest.
Print Assumptions C126_smallest_default.
Print Assumptions C126_first_refuted.
Print Assumptions C126_linear.
Print Assumptions C126_linear_start_refuted.
Print Assumptions C126_linear_end_refuted.
Print Assumptions C126_rate_order_refuted.

(** instance: 1 is given twice, 2 three times *)
Example C126_instance : exists f g,
  interp_new Kleft [2; 1; 2; 1; 3; 2] [7; 4; 9; 3; 5; 8] = Ok f /\ interp_call f 2 = Ok (Some 7) /\
  interp_new Klinear [2; 1; 2; 1; 3; 2] [7; 4; 9; 3; 5; 8] = Ok g /\ interp_call g (3/2) = Ok (Some (11/2)) /\
  interp_call g 1 = Err ZeroDivisionError.
Proof.
  assert (S7 : smallest (combine [2; 1; 2; 1; 3; 2] [7; 4; 9; 3; 5; 8]) 2 7).
  { split; [cbn; tauto|]. cbn. intros y' H. repeat (destruct H as [Q|H]; [injection Q; intros; subst; lra|]). destruct H. }
  assert (L4 : largest (combine [2; 1; 2; 1; 3; 2] [7; 4; 9; 3; 5; 8]) 1 4).
  { split; [cbn; tauto|]. cbn. intros y' H. repeat (destruct H as [Q|H]; [injection Q; intros; subst; lra|]). destruct H. }
  destruct (C126_smallest Kleft [2; 1; 2; 1; 3; 2] [7; 4; 9; 3; 5; 8] 2 7 ltac:(cbn; tauto) eq_refl S7) as (f & F1 & F2).
  destruct (C126_linear [2; 1; 2; 1; 3; 2] [7; 4; 9; 3; 5; 8] 1 4 2 7 (3/2) eq_refl L4 S7) as (g & G1 & G2).
  { intros c H. repeat (destruct H as [<-|H]; [lra|]). destruct H. } { lra. }
  destruct (C126_linear_start_refuted [2; 1; 2; 1; 3; 2] [7; 4; 9; 3; 5; 8] 1 1 eq_refl) as (g' & H1 & H2).
  { cbn [count_occ]. repeat (destruct (Req_EM_T _ _); try lra); lia. }
  { intros c H. repeat (destruct H as [<-|H]; [lra|]). destruct H. } { lra. }
  rewrite G1 in H1. injection H1 as <-. exists f, g. split; auto. split; auto. split; auto. split; auto.
  rewrite G2. do 2 f_equal. field.
Qed.
