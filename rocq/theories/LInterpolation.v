(** Proofs about the interpolation model. *)
From Coq Require Import Reals Lra Lia List Bool Arith Sorted Permutation.
From Verif Require Import Num Py Spec SInterpolation LBase LSort MInterpolation.
Import ListNotations.
Open Scope R_scope.

(** ** the specification relations are functional and depend on the set only *)
Lemma left_value_fun ps x y y' : distinct ps ->
  left_value ps x y -> left_value ps x y' -> y = y'.
Proof.
  intros D [[a [I [L M]]]|[B [a [I M]]]] [[a' [I' [L' M']]]|[B' [a' [I' M']]]].
  - assert (a = a') by (apply Rle_antisym; eauto). subst. eapply nodup_fst_fun; eauto.
  - apply B' in I. lra.
  - apply B in I'. lra.
  - assert (a = a') by (apply Rle_antisym; eauto). subst. eapply nodup_fst_fun; eauto.
Qed.
Lemma right_value_fun ps x y y' : distinct ps ->
  right_value ps x y -> right_value ps x y' -> y = y'.
Proof.
  intros D [[a [I [L M]]]|[B [a [I M]]]] [[a' [I' [L' M']]]|[B' [a' [I' M']]]].
  - assert (a = a') by (apply Rle_antisym; eauto). subst. eapply nodup_fst_fun; eauto.
  - apply B' in I. lra.
  - apply B in I'. lra.
  - assert (a = a') by (apply Rle_antisym; eauto). subst. eapply nodup_fst_fun; eauto.
Qed.
Lemma nearest_value_fun ps x y y' : distinct ps ->
  nearest_value ps x y -> nearest_value ps x y' -> y = y'.
Proof.
  intros D [a [I [L M]]] [a' [I' [L' M']]].
  assert (E : Rabs (a - x) = Rabs (a' - x)) by (apply Rle_antisym; eauto).
  assert (a = a') by (apply Rle_antisym; eauto). subst. eapply nodup_fst_fun; eauto.
Qed.

Lemma chord_left a ya b yb : a < b -> chord a ya b yb a = ya.
Proof. intro H; unfold chord. replace (a - a) with 0 by ring. unfold Rdiv. ring. Qed.
Lemma chord_right a ya b yb : a < b -> chord a ya b yb b = yb.
Proof. intro H; unfold chord. unfold Rdiv. rewrite Rinv_r; lra. Qed.

Lemma linear_value_fun ps x y y' : distinct ps ->
  linear_value ps x y -> linear_value ps x y' -> y = y'.
Proof.
  intros D. 
  assert (SM : forall y y' a, In (a, y) ps -> (forall b z, In (b, z) ps -> b = a) ->
    linear_value ps x y' -> y = y').
  { intros z z' a I U [[b [J V]]|[b [yb [c [yc [[J1 [J2 [J3 _]]] _]]]]]].
    - assert (b = a) by eauto. subst. eapply nodup_fst_fun; eauto.
    - apply U in J1. apply U in J2. lra. }
  intros H H'. pose proof H as H0.
  destruct H as [[a [I U]]|[a [ya [b [yb [[A1 [A2 [A3 A4]]] [A5 [A6 A7]]]]]]]]; [eapply SM; eauto|].
  destruct H' as [[c [I U]]|[c [yc [d [yd [[B1 [B2 [B3 B4]]] [B5 [B6 B7]]]]]]]];
    [symmetry; eapply SM; [exact I|exact U|exact H0]|].
  destruct (Rtotal_order a c) as [L|[E|L]].
  - destruct (B4 _ _ A2); destruct (A4 _ _ B1); try lra.
    assert (b <= x).
    { destruct B5 as [B5|B5]; [lra|]. specialize (B5 _ _ A1). lra. }
    assert (x <= b).
    { destruct A6 as [A6|A6]; [lra|]. specialize (A6 _ _ B2). lra. }
    assert (b = x) by lra. subst x.
    assert (c = b).
    { destruct B5 as [B5|B5]; [lra|]. specialize (B5 _ _ A1). lra. }
    subst c. rewrite chord_right in A7 by auto. rewrite chord_left in B7 by auto. subst.
    eapply nodup_fst_fun; eauto.
  - subst c. assert (ya = yc) by (eapply nodup_fst_fun; eauto). subst yc.
    assert (b = d) by (destruct (A4 _ _ B2); destruct (B4 _ _ A2); lra). subst d.
    assert (yb = yd) by (eapply nodup_fst_fun; eauto). subst yd. congruence.
  - destruct (A4 _ _ B2); destruct (B4 _ _ A1); try lra.
    assert (d <= x).
    { destruct A5 as [A5|A5]; [lra|]. specialize (A5 _ _ B1). lra. }
    assert (x <= d).
    { destruct B6 as [B6|B6]; [lra|]. specialize (B6 _ _ A2). lra. }
    assert (d = x) by lra. subst x.
    assert (a = d).
    { destruct A5 as [A5|A5]; [lra|]. specialize (A5 _ _ B1). lra. }
    subst a. rewrite chord_left in A7 by auto. rewrite chord_right in B7 by auto. subst.
    eapply nodup_fst_fun; eauto.
Qed.

Lemma linear_value_node ps x y z : distinct ps ->
  In (x, z) ps -> linear_value ps x y -> y = z.
Proof.
  intros D I [[a [J U]]|[a [ya [b [yb [[A1 [A2 [A3 A4]]] [A5 [A6 A7]]]]]]]].
  - assert (x = a) by eauto. subst. eapply nodup_fst_fun; eauto.
  - assert (a <= x) by (destruct A5 as [A5|A5]; [auto|eapply A5; eauto]).
    assert (x <= b) by (destruct A6 as [A6|A6]; [auto|eapply A6; eauto]).
    destruct (A4 _ _ I).
    + assert (x = a) by lra. subst. rewrite chord_left by auto. eapply nodup_fst_fun; eauto.
    + assert (x = b) by lra. subst. rewrite chord_right by auto. eapply nodup_fst_fun; eauto.
Qed.

Definition same_points (ps qs : points) : Prop := forall p, In p ps <-> In p qs.
Lemma left_value_same ps qs x y : same_points ps qs -> left_value ps x y -> left_value qs x y.
Proof.
  intros S [[a [I [L M]]]|[B [a [I M]]]]; [left|right].
  - exists a. split; [now apply S|]. split; auto. intros. apply M with z; auto. now apply S.
  - split; [intros b z J; apply (B b z); now apply S|].
    exists a. split; [now apply S|]. intros b z J. apply (M b z). now apply S.
Qed.
Lemma right_value_same ps qs x y : same_points ps qs -> right_value ps x y -> right_value qs x y.
Proof.
  intros S [[a [I [L M]]]|[B [a [I M]]]]; [left|right].
  - exists a. split; [now apply S|]. split; auto. intros. apply M with z; auto. now apply S.
  - split; [intros b z J; apply (B b z); now apply S|].
    exists a. split; [now apply S|]. intros b z J. apply (M b z). now apply S.
Qed.
Lemma nearest_value_same ps qs x y : same_points ps qs -> nearest_value ps x y -> nearest_value qs x y.
Proof.
  intros S [a [I [L M]]]. exists a. split; [now apply S|].
  split; intros b z J; [apply (L b z) | apply (M b z)]; now apply S.
Qed.
Lemma linear_value_same ps qs x y : same_points ps qs -> linear_value ps x y -> linear_value qs x y.
Proof.
  intros S [[a [I U]]|[a [ya [b [yb [[A1 [A2 [A3 A4]]] [A5 [A6 A7]]]]]]]]; [left|right].
  - exists a. split; [now apply S|]. intros b z J. apply (U b z). now apply S.
  - exists a, ya, b, yb. split; [|split; [|split; [|auto]]].
    + repeat split; try (now apply S); auto. intros c z J. apply (A4 c z). now apply S.
    + destruct A5 as [|A5]; [left; auto|right]. intros c z J. apply (A5 c z). now apply S.
    + destruct A6 as [|A6]; [left; auto|right]. intros c z J. apply (A6 c z). now apply S.
Qed.

Lemma perm_same ps qs : Permutation ps qs -> same_points ps qs.
Proof. intros P p. split; apply Permutation_in; [|symmetry]; auto. Qed.

(** ** evaluation on sorted lists *)
Section Sorted.
  Variables (xs ys : list R) (x : R).
  Hypothesis Hs : increasing xs.
  Hypothesis HL : length xs = length ys.

  Lemma pts_in i : (i < length xs)%nat -> In (nth i xs 0, nth i ys 0) (combine xs ys).
  Proof. intro H. apply (in_combine_nth xs ys _ _ 0 0 HL). eauto. Qed.
  Lemma in_pts a y : In (a, y) (combine xs ys) ->
    exists i, (i < length xs)%nat /\ a = nth i xs 0 /\ y = nth i ys 0.
  Proof.
    intro H. apply (in_combine_nth xs ys _ _ 0 0 HL) in H. destruct H as [i [? [? ?]]].
    exists i; auto.
  Qed.
  Lemma pts_distinct : distinct (combine xs ys).
  Proof. unfold distinct. rewrite map_fst_combine by auto. now apply incr_nodup. Qed.

  Lemma call_left_ok : xs <> [] ->
    exists y, call_left xs ys x = Ok y /\ left_value (combine xs ys) x y.
  Proof.
    intro NE. assert (0 < length xs)%nat as HP by (destruct xs; simpl; [congruence|lia]).
    unfold call_left. destruct ys as [|y0 ys'] eqn:EY; [simpl in HL; lia|]. rewrite <- EY in *.
    clear EY y0 ys'. destruct (index_of neqb x xs) as [i|] eqn:E.
    - apply index_of_some in E. destruct E as [H1 [H2 _]].
      exists (nth i ys 0). split; [apply nth_res_ok; lia|].
      left. exists (nth i xs 0). split; [now apply pts_in|]. split; [lra|].
      intros b z I L. lra.
    - apply index_of_none in E.
      destruct (bisect_left_spec xs x 1 (length xs) Hs) as [A [B C]]; try lia.
      set (i := bisect_left xs x 1 (length xs)) in *.
      exists (nth (i - 1) ys 0). split; [apply nth_res_ok; lia|].
      destruct (Rle_lt_dec (nth 0 xs 0) x) as [L|L].
      + left. exists (nth (i - 1) xs 0). split; [apply pts_in; lia|].
        assert (nth (i - 1) xs 0 <= x).
        { destruct (Nat.eq_dec i 1) as [->|]; [exact L|]. left. apply B; lia. }
        split; auto. intros b z I Lb. apply in_pts in I. destruct I as [j [J1 [J2 J3]]].
        subst b. apply incr_nth_le; auto; try lia.
        destruct (Nat.le_gt_cases j (i - 1)) as [?|G]; auto.
        assert (x <= nth j xs 0) by (apply C; lia).
        exfalso. apply E. replace x with (nth j xs 0) by lra. apply nth_In; lia.
      + assert (F : i = 1%nat).
        { destruct (Nat.eq_dec i 1); auto. assert (nth 1 xs 0 < x) by (apply B; lia).
          assert (nth 0 xs 0 <= nth 1 xs 0) by (apply incr_nth_le; auto; lia). lra. }
        rewrite F. simpl (1 - 1)%nat. right. split.
        * intros b z I. apply in_pts in I. destruct I as [j [J1 [J2 J3]]]. subst b.
          apply Rlt_le_trans with (nth 0 xs 0); auto. apply incr_nth_le; auto; lia.
        * exists (nth 0 xs 0). split; [apply pts_in; lia|].
          intros b z I. apply in_pts in I. destruct I as [j [J1 [J2 J3]]]. subst b.
          apply incr_nth_le; auto; lia.
  Qed.

  Lemma call_right_ok : xs <> [] ->
    exists y, call_right xs ys x = Ok y /\ right_value (combine xs ys) x y.
  Proof.
    intro NE. assert (0 < length xs)%nat as HP by (destruct xs; simpl; [congruence|lia]).
    unfold call_right. destruct ys as [|y0 ys'] eqn:EY; [simpl in HL; lia|]. rewrite <- EY in *.
    clear EY y0 ys'. destruct (index_of neqb x xs) as [i|] eqn:E.
    - apply index_of_some in E. destruct E as [H1 [H2 _]].
      exists (nth i ys 0). split; [apply nth_res_ok; lia|].
      left. exists (nth i xs 0). split; [now apply pts_in|]. split; [lra|].
      intros b z I L. lra.
    - apply index_of_none in E.
      destruct (bisect_right_spec xs x 0 (length xs - 1) Hs) as [A [B C]]; try lia.
      set (i := bisect_right xs x 0 (length xs - 1)) in *.
      exists (nth i ys 0). split; [apply nth_res_ok; lia|].
      destruct (Rle_lt_dec x (nth (length xs - 1) xs 0)) as [L|L].
      + left. exists (nth i xs 0). split; [apply pts_in; lia|].
        assert (x <= nth i xs 0).
        { destruct (Nat.eq_dec i (length xs - 1)) as [->|]; [exact L|]. left. apply C; lia. }
        split; auto. intros b z I Lb. apply in_pts in I. destruct I as [j [J1 [J2 J3]]].
        subst b. apply incr_nth_le; auto; try lia.
        destruct (Nat.le_gt_cases i j) as [?|G]; auto.
        assert (nth j xs 0 <= x) by (apply B; lia).
        exfalso. apply E. replace x with (nth j xs 0) by lra. apply nth_In; lia.
      + assert (F : i = (length xs - 1)%nat).
        { destruct (Nat.eq_dec i (length xs - 1)); auto.
          assert (x < nth i xs 0) by (apply C; lia).
          assert (nth i xs 0 <= nth (length xs - 1) xs 0) by (apply incr_nth_le; auto; lia). lra. }
        rewrite F. right. split.
        * intros b z I. apply in_pts in I. destruct I as [j [J1 [J2 J3]]]. subst b.
          apply Rle_lt_trans with (nth (length xs - 1) xs 0); auto. apply incr_nth_le; auto; lia.
        * exists (nth (length xs - 1) xs 0). split; [apply pts_in; lia|].
          intros b z I. apply in_pts in I. destruct I as [j [J1 [J2 J3]]]. subst b.
          apply incr_nth_le; auto; lia.
  Qed.

  (** the index used by linear and nearest *)
  Lemma mid_index : (2 <= length xs)%nat ->
    let i := bisect_left xs x 1 (length xs - 1) in
    (1 <= i <= length xs - 1)%nat /\ nth (i - 1) xs 0 < nth i xs 0 /\
    (nth (i - 1) xs 0 <= x \/ i = 1%nat) /\ (x <= nth i xs 0 \/ i = (length xs - 1)%nat).
  Proof.
    intros H i. destruct (bisect_left_spec xs x 1 (length xs - 1) Hs) as [A [B C]]; try lia.
    fold i in A, B, C. split; auto. split; [apply incr_nth; auto; lia|].
    split.
    - destruct (Nat.eq_dec i 1); auto. left. left. apply B; lia.
    - destruct (Nat.eq_dec i (length xs - 1)); auto. left. apply C; lia.
  Qed.

  Lemma call_single k : ys = [k] -> call_linear xs ys x = Ok k /\ call_nearest xs ys x = Ok k.
  Proof. intro E; rewrite E; auto. Qed.

  Lemma call_linear_ok : xs <> [] ->
    exists y, call_linear xs ys x = Ok y /\ linear_value (combine xs ys) x y.
  Proof.
    intro NE. destruct ys as [|y0 [|y1 ys']] eqn:EY.
    - destruct xs; simpl in HL; [congruence|lia].
    - exists y0. split; [reflexivity|]. left.
      destruct xs as [|a [|]]; simpl in HL; try lia. exists a. simpl. split; auto.
      intros b z [I|[]]. now inversion I.
    - assert (2 <= length xs)%nat as H2 by (rewrite HL; simpl; lia).
      unfold call_linear. rewrite <- EY in *. clear EY y0 y1 ys'.
      destruct (mid_index H2) as [A [B [C D]]].
      set (i := bisect_left xs x 1 (length xs - 1)) in *.
      rewrite !(nth_res_ok ys _ 0) by lia. rewrite !(nth_res_ok xs _ 0) by lia. rn.
      rewrite Rdivp_ok by lra. rn.
      eexists. split; [reflexivity|]. right.
      exists (nth (i - 1) xs 0), (nth (i - 1) ys 0), (nth i xs 0), (nth i ys 0).
      split; [split; [|split; [|split]]|split; [|split]].
      + apply pts_in; lia.
      + apply pts_in; lia.
      + auto.
      + intros c z I. apply in_pts in I. destruct I as [j [J1 [J2 J3]]]. subst c.
        destruct (Nat.le_gt_cases j (i - 1)); [left|right]; apply incr_nth_le; auto; lia.
      + destruct C as [C|C]; auto. right. intros c z I. apply in_pts in I.
        destruct I as [j [J1 [J2 J3]]]. subst c. apply incr_nth_le; auto; lia.
      + destruct D as [D|D]; auto. right. intros c z I. apply in_pts in I.
        destruct I as [j [J1 [J2 J3]]]. subst c. apply incr_nth_le; auto; lia.
      + unfold chord. f_equal. field. lra.
  Qed.

  Lemma call_nearest_ok : xs <> [] ->
    exists y, call_nearest xs ys x = Ok y /\ nearest_value (combine xs ys) x y.
  Proof.
    intro NE. destruct ys as [|y0 [|y1 ys']] eqn:EY.
    - destruct xs; simpl in HL; [congruence|lia].
    - exists y0. split; [reflexivity|].
      destruct xs as [|a [|]]; simpl in HL; try lia. exists a. simpl. split; auto.
      split; intros b z [I|[]]; inversion I; subst; intros; lra.
    - assert (2 <= length xs)%nat as H2 by (rewrite HL; simpl; lia).
      unfold call_nearest. rewrite <- EY in *. clear EY y0 y1 ys'.
      destruct (index_of neqb x xs) as [k|] eqn:E.
      + apply index_of_some in E. destruct E as [H1 [H3 _]].
        exists (nth k ys 0). split; [apply nth_res_ok; lia|].
        exists (nth k xs 0). split; [now apply pts_in|]. rewrite H3.
        replace (x - x) with 0 by ring. rewrite Rabs_R0. split; intros b z I.
        * apply Rabs_pos.
        * intro Hz. destruct (Req_dec b x); [lra|]. apply Rabs_no_R0 in Hz; [tauto|lra].
      + destruct (mid_index H2) as [A [B [C D]]].
        set (i := bisect_left xs x 1 (length xs - 1)) in *.
        rewrite !(nth_res_ok xs _ 0) by lia. rn. rewrite Rdivp_ok by lra. rn.
        set (a := nth (i - 1) xs 0) in *. set (b := nth i xs 0) in *.
        assert (FA : forall j, (j < length xs)%nat -> nth j xs 0 <= a \/ b <= nth j xs 0).
        { intros j Hj. destruct (Nat.le_gt_cases j (i - 1)); [left|right];
            unfold a, b; apply incr_nth_le; auto; lia. }
        assert (FL : a <= x \/ forall j, (j < length xs)%nat -> a <= nth j xs 0).
        { destruct C as [C|C]; auto. right. intros j Hj. unfold a. apply incr_nth_le; auto; lia. }
        assert (FR : x <= b \/ forall j, (j < length xs)%nat -> nth j xs 0 <= b).
        { destruct D as [D|D]; auto. right. intros j Hj. unfold b. apply incr_nth_le; auto; lia. }
        assert (Q : forall t, (a - x) / (a - b) <= t <-> x - a <= t * (b - a)).
        { intro t. replace ((a - x) / (a - b)) with ((x - a) / (b - a)) by (field; lra).
          split; intro HQ.
          - apply (Rmult_le_compat_r (b - a)) in HQ; [|lra]. unfold Rdiv in HQ.
            rewrite Rmult_assoc, Rinv_l in HQ by lra. lra.
          - apply (Rmult_le_reg_r (b - a)); [lra|]. unfold Rdiv.
            rewrite Rmult_assoc, Rinv_l by lra. lra. }
        destruct (Rleb ((a - x) / (a - b)) (1 / 2)) eqn:Er; rbool.
        * apply Q in Er. exists (nth (i - 1) ys 0). split; [apply nth_res_ok; lia|].
          exists a. split; [apply pts_in; lia|].
          split; intros c z I; apply in_pts in I; destruct I as [j [J1 [J2 J3]]]; subst c;
            specialize (FA j J1).
          -- unfold Rabs; destruct (Rcase_abs (a - x)), (Rcase_abs (nth j xs 0 - x)); 
               destruct FA; destruct FL as [FL|FL]; destruct FR as [FR|FR];
               try specialize (FL j J1); try specialize (FR j J1); lra.
          -- unfold Rabs; destruct (Rcase_abs (a - x)), (Rcase_abs (nth j xs 0 - x)); 
               destruct FA; destruct FL as [FL|FL]; destruct FR as [FR|FR];
               try specialize (FL j J1); try specialize (FR j J1); lra.
        * assert (Er' : ~ x - a <= 1 / 2 * (b - a)) by (rewrite <- Q; lra).
          exists (nth i ys 0). split; [apply nth_res_ok; lia|].
          exists b. split; [apply pts_in; lia|].
          split; intros c z I; apply in_pts in I; destruct I as [j [J1 [J2 J3]]]; subst c;
            specialize (FA j J1).
          -- unfold Rabs; destruct (Rcase_abs (b - x)), (Rcase_abs (nth j xs 0 - x)); 
               destruct FA; destruct FL as [FL|FL]; destruct FR as [FR|FR];
               try specialize (FL j J1); try specialize (FR j J1); lra.
          -- unfold Rabs; destruct (Rcase_abs (b - x)), (Rcase_abs (nth j xs 0 - x)); 
               destruct FA; destruct FL as [FL|FL]; destruct FR as [FR|FR];
               try specialize (FL j J1); try specialize (FR j J1); lra.
  Qed.
End Sorted.

(** ** the constructor sorts the data *)
Lemma pair_asym (a b : R * R) : pair_ltb a b = true -> pair_ltb b a = false.
Proof.
  destruct a as [a1 a2], b as [b1 b2]; unfold pair_ltb; simpl; rn.
  destruct (Reqb a1 b1) eqn:E1, (Reqb b1 a1) eqn:E2; rbool; subst; try congruence;
    intro H; rbool; apply Rltb_false; lra.
Qed.
Lemma pair_trans (a b c : R * R) :
  pair_ltb b a = false -> pair_ltb c b = false -> pair_ltb c a = false.
Proof.
  destruct a as [a1 a2], b as [b1 b2], c as [c1 c2]; unfold pair_ltb; simpl; rn.
  destruct (Reqb b1 a1) eqn:E1, (Reqb c1 b1) eqn:E2, (Reqb c1 a1) eqn:E3; rbool; subst; try congruence;
    intros H1 H2; rbool; apply Rltb_false; try lra.
Qed.
Lemma pair_anti (a b : R * R) : pair_ltb b a = false -> pair_ltb a b = false -> a = b.
Proof.
  destruct a as [a1 a2], b as [b1 b2]; unfold pair_ltb; simpl; rn.
  destruct (Reqb a1 b1) eqn:E1, (Reqb b1 a1) eqn:E2; rbool; subst; try congruence;
    intros H1 H2; rbool; solve [f_equal; lra | exfalso; apply E1; lra].
Qed.

Definition canon (ps : points) : points := sort pair_ltb ps.

Lemma canon_perm ps : Permutation (canon ps) ps.
Proof. apply sort_perm. Qed.
Lemma canon_unique ps qs : Permutation ps qs -> canon ps = canon qs.
Proof.
  intro P. apply sorted_perm_unique with (le := fun a b => pair_ltb b a = false).
  - intros; now apply pair_anti.
  - apply sort_sorted; auto using pair_asym. intros; eapply pair_trans; eauto.
  - apply sort_sorted; auto using pair_asym. intros; eapply pair_trans; eauto.
  - unfold canon. rewrite !sort_perm. exact P.
Qed.
Lemma canon_incr ps : distinct ps -> increasing (map fst (canon ps)).
Proof.
  intro D. apply ssle_nodup_incr.
  - assert (S : StronglySorted (fun a b => pair_ltb b a = false) (canon ps)).
    { apply sort_sorted; auto using pair_asym. intros; eapply pair_trans; eauto. }
    induction S as [|p l Hs IH Hf]; simpl; constructor; auto.
    + rewrite Forall_forall in *. intros y Hy. apply in_map_iff in Hy.
      destruct Hy as [q [E I]]. subst y. specialize (Hf q I). unfold pair_ltb in Hf.
      destruct p as [a b], q as [c d]; simpl in *; rn.
      destruct (Reqb c a) eqn:E; rbool; subst; lra.
  - eapply Permutation_NoDup; [|exact D]. apply Permutation_map. symmetry. apply canon_perm.
Qed.

Lemma update_add_nil (xs ys : list R) : update_add [] [] xs ys = split (canon (combine xs ys)).
Proof. reflexivity. Qed.
Lemma base_lists k (xs ys : list R) z d : length xs = length ys ->
  base_new k xs ys z d =
  mkI k (map fst (canon (combine xs ys))) (map snd (canon (combine xs ys))) z d.
Proof.
  intro H. unfold base_new, update_lists. destruct ys as [|y ys].
  - destruct xs; [reflexivity|discriminate].
  - rewrite update_add_nil. set (l := canon _).
    rewrite <- fst_split, <- snd_split. destruct (split l); reflexivity.
Qed.

(** a stored interpolation: sorted arrays representing ps *)
Definition stores (it : interp R) (ps : points) : Prop :=
  increasing (i_xs it) /\ length (i_xs it) = length (i_ys it) /\
  Permutation (combine (i_xs it) (i_ys it)) ps.

Lemma base_stores k (xs ys : list R) z d : length xs = length ys -> NoDup xs ->
  stores (base_new k xs ys z d) (combine xs ys).
Proof.
  intros H1 H2. rewrite base_lists by auto. unfold stores; simpl.
  split; [|split].
  - apply canon_incr. unfold distinct. now rewrite map_fst_combine.
  - now rewrite !map_length.
  - rewrite combine_map_fst_snd. apply canon_perm.
Qed.

Lemma stores_distinct it ps : stores it ps -> distinct ps.
Proof.
  intros [H1 [H2 H3]]. unfold distinct. eapply Permutation_NoDup.
  - apply Permutation_map. exact H3.
  - rewrite map_fst_combine by auto. now apply incr_nodup.
Qed.
Lemma stores_nonempty it ps : stores it ps -> ps <> [] -> i_xs it <> [].
Proof.
  intros [H1 [H2 H3]] NE E. rewrite E in H3. simpl in H3.
  apply Permutation_nil in H3. contradiction.
Qed.
Lemma stores_empty it : stores it [] -> i_xs it = [] /\ i_ys it = [].
Proof.
  intros [H1 [H2 H3]]. apply Permutation_sym, Permutation_nil in H3.
  destruct (i_xs it); destruct (i_ys it); simpl in *; try discriminate; auto.
Qed.

(** evaluation of stored data *)
Lemma stores_left it ps x : stores it ps -> ps <> [] ->
  exists y, call_left (i_xs it) (i_ys it) x = Ok y /\ left_value ps x y.
Proof.
  intros S NE. pose proof (stores_nonempty _ _ S NE). destruct S as [H1 [H2 H3]].
  destruct (call_left_ok (i_xs it) (i_ys it) x H1 H2) as [y [E V]]; auto.
  exists y. split; auto. eapply left_value_same; [apply perm_same; eauto|auto].
Qed.
Lemma stores_right it ps x : stores it ps -> ps <> [] ->
  exists y, call_right (i_xs it) (i_ys it) x = Ok y /\ right_value ps x y.
Proof.
  intros S NE. pose proof (stores_nonempty _ _ S NE). destruct S as [H1 [H2 H3]].
  destruct (call_right_ok (i_xs it) (i_ys it) x H1 H2) as [y [E V]]; auto.
  exists y. split; auto. eapply right_value_same; [apply perm_same; eauto|auto].
Qed.
Lemma stores_nearest it ps x : stores it ps -> ps <> [] ->
  exists y, call_nearest (i_xs it) (i_ys it) x = Ok y /\ nearest_value ps x y.
Proof.
  intros S NE. pose proof (stores_nonempty _ _ S NE). destruct S as [H1 [H2 H3]].
  destruct (call_nearest_ok (i_xs it) (i_ys it) x H1 H2) as [y [E V]]; auto.
  exists y. split; auto. eapply nearest_value_same; [apply perm_same; eauto|auto].
Qed.
Lemma stores_linear it ps x : stores it ps -> ps <> [] ->
  exists y, call_linear (i_xs it) (i_ys it) x = Ok y /\ linear_value ps x y.
Proof.
  intros S NE. pose proof (stores_nonempty _ _ S NE). destruct S as [H1 [H2 H3]].
  destruct (call_linear_ok (i_xs it) (i_ys it) x H1 H2) as [y [E V]]; auto.
  exists y. split; auto. eapply linear_value_same; [apply perm_same; eauto|auto].
Qed.

(** exact match lookups *)
Lemma stores_index it ps x : stores it ps ->
  match index_of Reqb x (i_xs it) with
  | Some i => exists y, nth_res (i_ys it) i = Ok y /\ In (x, y) ps
  | None => forall y, ~ In (x, y) ps
  end.
Proof.
  intros [H1 [H2 H3]]. destruct (index_of Reqb x (i_xs it)) as [i|] eqn:E.
  - apply index_of_some in E. destruct E as [L [N _]].
    exists (nth i (i_ys it) 0). split; [apply nth_res_ok; lia|].
    eapply Permutation_in; [exact H3|]. apply in_combine_nth with (da := 0) (db := 0); auto.
    exists i; auto.
  - intros y I. apply index_of_none in E. apply E.
    apply Permutation_in with (l' := combine (i_xs it) (i_ys it)) in I; [|symmetry; auto].
    eapply in_combine_l; eauto.
Qed.

(** ** construction *)
Lemma plain_new k (xs ys : list R) :
  In k [Kdefault; Kno; Kzero; Kleft; Kconstant; Kright; Knearest; Klinear] ->
  interp_new k xs ys = Ok (base_new k xs ys None (match k with Kzero => Some 0 | _ => None end)).
Proof. simpl; intros H. repeat destruct H as [<-|H]; try reflexivity. contradiction. Qed.

Lemma all_positive_true (ys : list R) : all_positive ys = true <-> forall y, In y ys -> 0 < y.
Proof.
  unfold all_positive. rewrite forallb_forall. split; intros H y I.
  - specialize (H y I). rn. now rbool.
  - rn. apply Rltb_true; auto.
Qed.
Lemma all_positive_false (ys : list R) : all_positive ys = false <-> exists y, In y ys /\ y <= 0.
Proof.
  split.
  - intro H. unfold all_positive in H. induction ys as [|y ys IH]; simpl in H; [discriminate|].
    apply andb_false_iff in H. destruct H as [H|H].
    + rn. rbool. exists y; split; [left; auto|auto].
    + destruct (IH H) as [z [I L]]. exists z; split; [right; auto|auto].
  - intros [y [I L]]. destruct (all_positive ys) eqn:E; auto.
    rewrite all_positive_true in E. specialize (E y I). lra.
Qed.

Lemma positive_combine (xs ys : list R) : length xs = length ys ->
  (positive (combine xs ys) <-> forall y, In y ys -> 0 < y).
Proof.
  intro HL. split; intro H.
  - intros y I. apply In_nth with (d := 0) in I. destruct I as [i [L E]].
    apply (H (nth i xs 0) y). apply in_combine_nth with (da := 0) (db := 0); auto.
    exists i; repeat split; auto; lia.
  - intros x y I. apply H. eapply in_combine_r; eauto.
Qed.

Lemma transform_combine f (xs ys : list R) : length xs = length ys ->
  transform f (combine xs ys) = combine xs (map (fun p => f (fst p) (snd p)) (combine xs ys)).
Proof.
  revert ys; induction xs as [|x xs IH]; destruct ys as [|y ys]; simpl; intro H; try discriminate; auto.
  f_equal. apply IH. lia.
Qed.

Lemma map_snd_combine_f {B} (g : R -> B) (xs ys : list R) : length xs = length ys ->
  map (fun p => g (snd p)) (combine xs ys) = map g ys.
Proof.
  revert ys; induction xs as [|x xs IH]; destruct ys as [|y ys]; simpl; intro H; try discriminate; auto.
  f_equal. apply IH. lia.
Qed.

Lemma loglinear_new (xs ys : list R) : length xs = length ys -> NoDup xs ->
  (forall y, In y ys -> 0 < y) ->
  exists it, interp_new Kloglinear xs ys = Ok it /\ i_kind it = Kloglinear /\
             stores it (transform (fun _ y => ln y) (combine xs ys)).
Proof.
  intros HL ND HP. unfold interp_new. rewrite (proj2 (all_positive_true ys) HP).
  rewrite mapM_ok with (g := ln) by (intros y I; rn; apply Rlogp_ok; auto). rn.
  eexists. split; [reflexivity|]. split; [unfold base_new; destruct (update_lists _ _ _ _); reflexivity|].
  rewrite transform_combine by auto. rewrite map_snd_combine_f by auto.
  apply base_stores; auto. now rewrite map_length.
Qed.

Lemma filter_nz (xs : list R) : filter ntruthy xs = filter (fun x => if Req_EM_T x 0 then false else true) xs.
Proof.
  apply filter_ext. intro x. destruct (Req_EM_T x 0) as [E|E].
  - now apply ntruthy_false.
  - now apply ntruthy_true.
Qed.

Lemma filter_combine_fst (xs ys : list R) : length xs = length ys ->
  map fst (filter (fun p => ntruthy (fst p)) (combine xs ys)) = filter ntruthy xs.
Proof.
  revert ys; induction xs as [|x xs IH]; destruct ys as [|y ys]; simpl; intro H; try discriminate; auto.
  destruct (ntruthy x) eqn:E; simpl; [f_equal|]; apply IH; lia.
Qed.

Lemma without_zero_filter ps : without_zero ps = filter (fun p => ntruthy (fst p)) ps.
Proof.
  apply filter_ext. intros [x y]; simpl. destruct (Req_EM_T x 0) as [E|E]; symmetry.
  - now apply ntruthy_false.
  - now apply ntruthy_true.
Qed.

Lemma combine_fst_map (f : R -> R -> R) (ps : points) :
  combine (map fst ps) (map (fun p => f (fst p) (snd p)) ps) = transform f ps.
Proof. induction ps as [|[a b] ps IH]; simpl; [reflexivity|]. now rewrite IH. Qed.

Lemma NoDup_filter_fst (ps : points) g : distinct ps -> NoDup (map fst (filter g ps)).
Proof.
  unfold distinct. induction ps as [|p ps IH]; simpl; intro H; [constructor|].
  inversion H; subst. destruct (g p); simpl; auto. constructor; auto.
  intro I. apply H2. apply in_map_iff in I. destruct I as [q [E I]].
  rewrite <- E. apply in_map. apply filter_In in I. tauto.
Qed.

Lemma y_at_zero_ok (xs ys : list R) : length xs = length ys -> NoDup xs ->
  exists z, y_at_zero xs ys = Ok z /\
    (forall y, z = Some y <-> In (0, y) (combine xs ys)).
Proof.
  intros HL ND. unfold y_at_zero.
  destruct (filter (fun x => neqb x n0) xs) as [|z l] eqn:E.
  - exists None. split; auto. intro y. split; [discriminate|]. intro I.
    apply in_combine_l in I. assert (J : In 0 (filter (fun x => neqb x n0) xs)).
    { apply filter_In. split; auto. rn. apply Reqb_refl. }
    rewrite E in J. contradiction.
  - assert (J : In z (filter (fun x => neqb x n0) xs)) by (rewrite E; left; auto).
    apply filter_In in J. destruct J as [J1 J2]. rn. rbool. subst z.
    destruct (index_of_in 0 xs J1) as [i Hi]. rewrite Hi.
    apply index_of_some in Hi. destruct Hi as [H1 [H2 _]].
    rewrite (nth_res_ok ys i 0) by lia. rn. eexists. split; [reflexivity|].
    assert (I0 : In (0, nth i ys 0) (combine xs ys)).
    { apply in_combine_nth with (da := 0) (db := 0); auto. exists i; auto. }
    intro y. split; intro H.
    + inversion H; subst. auto.
    + f_equal. eapply nodup_fst_fun; eauto. now rewrite map_fst_combine.
Qed.

(** loglinearrate and logconstantrate *)
Lemma rate_new k (xs ys : list R) :
  (k = Kloglinearrate \/ k = Klogconstantrate) ->
  length xs = length ys -> NoDup xs -> (forall y, In y ys -> 0 < y) ->
  exists it, interp_new k xs ys = Ok it /\ i_kind it = k /\
    (forall y, i_zero it = Some y <-> In (0, y) (combine xs ys)) /\
    stores it (transform (fun x y => (if (match k with Kloglinearrate => true | _ => false end)
                                      then ln y else - ln y) / x)
                         (without_zero (combine xs ys))).
Proof.
  intros HK HL ND HP.
  destruct (y_at_zero_ok xs ys HL ND) as [z [Ez Hz]].
  set (g := fun x y => (if (match k with Kloglinearrate => true | _ => false end)
                                      then ln y else - ln y) / x).
  set (qs := filter (fun p => ntruthy (fst p)) (combine xs ys)).
  assert (EM : forall f, (forall p, In p qs -> f p = Ok (g (fst p) (snd p))) ->
             mapM f qs = Ok (map (fun p => g (fst p) (snd p)) qs)).
  { intros f Hf. now apply mapM_ok. }
  assert (Q : forall p, In p qs -> fst p <> 0 /\ 0 < snd p).
  { intros p I. apply filter_In in I. destruct I as [I T]. apply ntruthy_true in T.
    split; auto. apply HP. destruct p. eapply in_combine_r; eauto. }
  assert (S : forall z d, stores (base_new k (filter ntruthy xs)
                (map (fun p => g (fst p) (snd p)) qs) z d)
             (transform g (without_zero (combine xs ys)))).
  { intros z' d'. rewrite <- (filter_combine_fst xs ys HL). fold qs.
    rewrite without_zero_filter. fold qs. rewrite <- combine_fst_map.
    apply base_stores; [now rewrite !map_length|].
    apply NoDup_filter_fst. unfold distinct. now rewrite map_fst_combine. }
  assert (B : forall z d l m, i_kind (base_new k l m z d) = k /\ i_zero (base_new k l m z d) = z).
  { intros. unfold base_new. destruct (update_lists _ _ _ _). auto. }
  destruct HK as [-> | ->]; unfold interp_new; rewrite (proj2 (all_positive_true ys) HP), Ez;
    cbn [bind]; fold qs; rewrite EM.
  - cbn [bind]. eexists. split; [reflexivity|]. split; [apply B|]. split; [|apply S].
    intro y. rewrite (proj2 (B z None (filter ntruthy xs) (map (fun p => g (fst p) (snd p)) qs))). auto.
  - intros [a b] I. apply Q in I. simpl in *. rn. rewrite Rlogp_ok by tauto. rn.
    rewrite Rdivp_ok by tauto. reflexivity.
  - cbn [bind]. eexists. split; [reflexivity|]. split; [apply B|]. split; [|apply S].
    intro y. rewrite (proj2 (B z None (filter ntruthy xs) (map (fun p => g (fst p) (snd p)) qs))). auto.
  - intros [a b] I. apply Q in I. simpl in *. rn. rewrite Rlogp_ok by tauto. rn.
    rewrite Rdivp_ok by tauto. reflexivity.
Qed.

Lemma log_nonpositive k (xs ys : list R) :
  (k = Kloglinear \/ k = Kloglinearrate \/ k = Klogconstantrate) ->
  (exists y, In y ys /\ y <= 0) -> interp_new k xs ys = Err ValueError.
Proof.
  intros HK HE. apply all_positive_false in HE.
  destruct HK as [->|[->| ->]]; unfold interp_new; now rewrite HE.
Qed.

(** ** explicit form of the stored object and permutation invariance *)
Definition is_rate (k : ikind) : bool :=
  match k with Kloglinearrate | Klogconstantrate => true | _ => false end.
Definition is_log (k : ikind) : bool :=
  match k with Kloglinear | Kloglinearrate | Klogconstantrate => true | _ => false end.

(** the values kept by the object for a data point *)
Definition stored_y (k : ikind) (x y : R) : R :=
  match k with
  | Kloglinear => ln y
  | Kloglinearrate => ln y / x
  | Klogconstantrate => - ln y / x
  | _ => y
  end.
Definition stored (k : ikind) (ps : points) : points :=
  transform (stored_y k) (if is_rate k then without_zero ps else ps).

Lemma transform_id ps : transform (fun _ y => y) ps = ps.
Proof. induction ps as [|[a b] ps IH]; simpl; [reflexivity|]. now rewrite IH. Qed.

Lemma new_form k (xs ys : list R) : k <> Kflat ->
  length xs = length ys -> NoDup xs -> (is_log k = true -> forall y, In y ys -> 0 < y) ->
  exists z d, interp_new k xs ys =
    Ok (mkI k (map fst (canon (stored k (combine xs ys))))
              (map snd (canon (stored k (combine xs ys)))) z d) /\
    d = match k with Kzero => Some 0 | _ => None end /\
    (if is_rate k then forall y, z = Some y <-> In (0, y) (combine xs ys) else z = None).
Proof.
  intros HK HL ND HP.
  destruct (y_at_zero_ok xs ys HL ND) as [z0 [Ez Hz]].
  destruct k; try congruence;
    try (exists None; eexists; cbn [interp_new is_rate stored]; rewrite base_lists by auto;
         unfold stored, stored_y; cbn [is_rate]; rewrite transform_id; split; [reflexivity|auto]).
  - specialize (HP eq_refl). exists None, None. split; [|split; reflexivity].
    cbn [interp_new]. rewrite (proj2 (all_positive_true ys) HP).
    rewrite mapM_ok with (g := ln) by (intros y I; rn; apply Rlogp_ok; auto). rn.
    rewrite base_lists by (now rewrite map_length).
    unfold stored, stored_y; cbn [is_rate]. rewrite transform_combine by auto.
    rewrite map_snd_combine_f by auto. reflexivity.
  - specialize (HP eq_refl). exists z0, None. split; [|split; [reflexivity|exact Hz]].
    cbn [interp_new]. rewrite (proj2 (all_positive_true ys) HP), Ez; cbn [bind].
    rewrite mapM_ok with (g := fun p => ln (snd p) / fst p).
    + cbn [bind]. rewrite <- (filter_combine_fst xs ys HL).
      rewrite base_lists by (now rewrite !map_length).
      unfold stored, stored_y; cbn [is_rate]. rewrite without_zero_filter, <- combine_fst_map.
      reflexivity.
    + intros [a b] I. apply filter_In in I. destruct I as [I T]. apply ntruthy_true in T.
      apply in_combine_r in I. simpl in *. rn. rewrite Rlogp_ok by auto. rn. now apply Rdivp_ok.
  - specialize (HP eq_refl). exists z0, None. split; [|split; [reflexivity|exact Hz]].
    cbn [interp_new]. rewrite (proj2 (all_positive_true ys) HP), Ez; cbn [bind].
    rewrite mapM_ok with (g := fun p => - ln (snd p) / fst p).
    + cbn [bind]. rewrite <- (filter_combine_fst xs ys HL).
      rewrite base_lists by (now rewrite !map_length).
      unfold stored, stored_y; cbn [is_rate]. rewrite without_zero_filter, <- combine_fst_map.
      reflexivity.
    + intros [a b] I. apply filter_In in I. destruct I as [I T]. apply ntruthy_true in T.
      apply in_combine_r in I. simpl in *. rn. rewrite Rlogp_ok by auto. rn. now apply Rdivp_ok.
Qed.

Lemma stored_perm k ps qs : Permutation ps qs -> Permutation (stored k ps) (stored k qs).
Proof.
  intro P. unfold stored, transform. apply Permutation_map. destruct (is_rate k); auto.
  unfold without_zero. clear -P. induction P; simpl; auto.
  - destruct (Req_EM_T (fst x) 0); auto.
  - destruct (Req_EM_T (fst y) 0), (Req_EM_T (fst x) 0); auto. constructor.
  - etransitivity; eauto.
Qed.

Lemma fst_transform f ps : map fst (transform f ps) = map fst ps.
Proof. unfold transform. rewrite map_map. reflexivity. Qed.

Lemma stored_distinct k ps : distinct ps -> distinct (stored k ps).
Proof.
  intro D. unfold distinct, stored. rewrite fst_transform.
  destruct (is_rate k); auto. apply NoDup_filter_fst. auto.
Qed.

Lemma opt_iff_eq (z z' : option R) (P Q : R -> Prop) :
  (forall y, z = Some y <-> P y) -> (forall y, z' = Some y <-> Q y) ->
  (forall y, P y <-> Q y) -> z = z'.
Proof.
  intros H1 H2 H3. destruct z as [y|].
  - symmetry. apply H2, H3, H1. reflexivity.
  - destruct z' as [y'|]; auto. apply H1, H3, H2. reflexivity.
Qed.

Lemma new_perm k (xs ys xs' ys' : list R) :
  length xs = length ys -> length xs' = length ys' -> NoDup xs ->
  Permutation (combine xs ys) (combine xs' ys') ->
  interp_new k xs ys = interp_new k xs' ys'.
Proof.
  intros HL HL' ND P.
  assert (Px : Permutation xs xs').
  { apply (Permutation_map fst) in P. now rewrite !map_fst_combine in P by auto. }
  assert (Py : Permutation ys ys').
  { apply (Permutation_map snd) in P. now rewrite !map_snd_combine in P by auto. }
  assert (ND' : NoDup xs') by (eapply Permutation_NoDup; eauto).
  destruct (if is_log k then all_positive ys else true) eqn:EP.
  - assert (HP : is_log k = true -> forall y, In y ys -> 0 < y).
    { intro E; rewrite E in EP. now apply all_positive_true. }
    assert (HP' : is_log k = true -> forall y, In y ys' -> 0 < y).
    { intros E y I. apply HP; auto. eapply Permutation_in; [symmetry|]; eauto. }
    destruct k; try reflexivity;
    match goal with |- interp_new ?k _ _ = _ =>
      destruct (new_form k xs ys ltac:(discriminate) HL ND HP) as [z [d [E [Hd Hz]]]];
      destruct (new_form k xs' ys' ltac:(discriminate) HL' ND' HP') as [z' [d' [E' [Hd' Hz']]]];
      rewrite E, E'; rewrite (canon_unique _ _ (stored_perm k _ _ P));
      subst d d';
      assert (z = z'); [|subst z'; reflexivity] end; cbn [is_rate] in Hz, Hz'; try congruence.
    + eapply (opt_iff_eq _ _ _ _ Hz Hz'). intro y. now apply perm_same.
    + eapply (opt_iff_eq _ _ _ _ Hz Hz'). intro y. now apply perm_same.
  - destruct (is_log k) eqn:EL; [|discriminate].
    assert (K : k = Kloglinear \/ k = Kloglinearrate \/ k = Klogconstantrate).
    { destruct k; try discriminate; auto. }
    apply all_positive_false in EP. destruct EP as [y [I L]].
    rewrite !log_nonpositive; auto; exists y; split; auto.
    eapply Permutation_in; eauto.
Qed.

(** ** evaluation of a freshly built object *)
Lemma new_stores k (xs ys : list R) : k <> Kflat ->
  length xs = length ys -> NoDup xs -> (is_log k = true -> forall y, In y ys -> 0 < y) ->
  exists it, interp_new k xs ys = Ok it /\ i_kind it = k /\
    stores it (stored k (combine xs ys)) /\
    i_default it = match k with Kzero => Some 0 | _ => None end /\
    (if is_rate k then forall y, i_zero it = Some y <-> In (0, y) (combine xs ys)
     else i_zero it = None).
Proof.
  intros HK HL ND HP. destruct (new_form k xs ys HK HL ND HP) as [z [d [E [Hd Hz]]]].
  eexists. split; [exact E|]. simpl. split; auto. split; auto.
  assert (D : distinct (stored k (combine xs ys))).
  { apply stored_distinct. unfold distinct. now rewrite map_fst_combine. }
  split; [|split]; simpl.
  - now apply canon_incr.
  - now rewrite !map_length.
  - rewrite combine_map_fst_snd. apply canon_perm.
Qed.

Lemma stored_plain k ps : is_log k = false -> stored k ps = ps.
Proof. destruct k; intro H; try discriminate; unfold stored, stored_y; simpl; apply transform_id. Qed.

Lemma in_transform f ps x y : In (x, y) (transform f ps) <-> exists z, In (x, z) ps /\ y = f x z.
Proof.
  unfold transform. rewrite in_map_iff. split.
  - intros [[a b] [E I]]. simpl in E. inversion E; subst. eauto.
  - intros [z [I ->]]. exists (x, z); auto.
Qed.
Lemma in_without_zero ps x y : In (x, y) (without_zero ps) <-> In (x, y) ps /\ x <> 0.
Proof.
  unfold without_zero. rewrite filter_In. simpl. destruct (Req_EM_T x 0); intuition; discriminate.
Qed.

Lemma combine_nonempty {A B} (xs : list A) (ys : list B) : length xs = length ys -> xs <> [] -> combine xs ys <> [].
Proof. destruct xs, ys; simpl; intros; try discriminate; congruence. Qed.

Lemma linear_value_map (f : R -> R) ps x y u v :
  (forall z, f z = u * z + v) -> linear_value ps x y ->
  linear_value (transform (fun _ => f) ps) x (f y).
Proof.
  intros Hf [[a [I U]]|[a [ya [b [yb [[A1 [A2 [A3 A4]]] [A5 [A6 A7]]]]]]]].
  - left. exists a. split; [apply in_transform; eauto|].
    intros b z J. apply in_transform in J. destruct J as [w [J _]]. eauto.
  - right. exists a, (f ya), b, (f yb). split; [|split; [|split]].
    + split; [apply in_transform; eauto|]. split; [apply in_transform; eauto|]. split; auto.
      intros c z J. apply in_transform in J. destruct J as [w [J _]]. eauto.
    + destruct A5 as [|A5]; [auto|right]. intros c z J. apply in_transform in J.
      destruct J as [w [J _]]. eauto.
    + destruct A6 as [|A6]; [auto|right]. intros c z J. apply in_transform in J.
      destruct J as [w [J _]]. eauto.
    + subst y. rewrite !Hf. unfold chord. field. lra.
Qed.

(** affine data *)
Lemma linear_value_affine ps x y u v :
  (exists a b ya yb, In (a, ya) ps /\ In (b, yb) ps /\ a <> b) ->
  (forall a z, In (a, z) ps -> z = u * a + v) -> linear_value ps x y -> y = u * x + v.
Proof.
  intros [p [q [yp [yq [Ip [Iq NE]]]]]] H
    [[a [I U]]|[a [ya [b [yb [[A1 [A2 [A3 A4]]] [A5 [A6 A7]]]]]]]].
  - apply U in Ip. apply U in Iq. congruence.
  - apply H in A1. apply H in A2. subst. unfold chord. field. lra.
Qed.
Lemma linear_value_const ps x y v :
  (forall a z, In (a, z) ps -> z = v) -> linear_value ps x y -> y = v.
Proof.
  intros H [[a [I U]]|[a [ya [b [yb [[A1 [A2 [A3 A4]]] [A5 [A6 A7]]]]]]]].
  - eauto.
  - apply H in A1. apply H in A2. subst. unfold chord. unfold Rdiv. ring.
Qed.

Lemma chord_between a ya b yb x : a < b -> a <= x <= b ->
  Rmin ya yb <= chord a ya b yb x <= Rmax ya yb.
Proof.
  intros L [H1 H2]. unfold chord.
  assert (0 <= (x - a) / (b - a) <= 1).
  { split.
    - apply Rmult_le_pos; [lra|left; apply Rinv_0_lt_compat; lra].
    - apply (Rmult_le_reg_r (b - a)); [lra|]. unfold Rdiv.
      rewrite Rmult_assoc, Rinv_l by lra. lra. }
  set (w := (x - a) / (b - a)) in *.
  unfold Rmin, Rmax; destruct (Rle_dec ya yb); split; nra.
Qed.

Lemma linear_value_consecutive ps x y a ya b yb : distinct ps ->
  consecutive ps a ya b yb -> a <= x <= b -> linear_value ps x y -> y = chord a ya b yb x.
Proof.
  intros D C Hx H. eapply linear_value_fun; eauto. right.
  exists a, ya, b, yb. repeat split; try apply C; tauto.
Qed.

Lemma linear_value_left ps x y a ya b yb : distinct ps ->
  consecutive ps a ya b yb -> is_first ps a -> x <= a -> linear_value ps x y -> y = chord a ya b yb x.
Proof.
  intros D C F Hx H. eapply linear_value_fun; eauto. right.
  exists a, ya, b, yb. split; auto. split; auto. split; auto. left.
  destruct C as [_ [_ [L _]]]. lra.
Qed.
Lemma linear_value_right ps x y a ya b yb : distinct ps ->
  consecutive ps a ya b yb -> is_last ps b -> b <= x -> linear_value ps x y -> y = chord a ya b yb x.
Proof.
  intros D C F Hx H. eapply linear_value_fun; eauto. right.
  exists a, ya, b, yb. split; auto. split; auto. left.
  destruct C as [_ [_ [L _]]]. lra.
Qed.

(** bounds inside the data range *)
Lemma linear_value_inside ps x y lo hi :
  (exists c z, In (c, z) ps /\ c <= x) -> (exists c z, In (c, z) ps /\ x <= c) ->
  (forall a z, In (a, z) ps -> lo <= z <= hi) -> linear_value ps x y -> lo <= y <= hi.
Proof.
  intros [c1 [z1 [I1 L1]]] [c2 [z2 [I2 L2]]] B
    [[a [I U]]|[a [ya [b [yb [[A1 [A2 [A3 A4]]] [A5 [A6 A7]]]]]]]].
  - eauto.
  - assert (a <= x) by (destruct A5 as [A5|A5]; [auto|specialize (A5 _ _ I1); lra]).
    assert (x <= b) by (destruct A6 as [A6|A6]; [auto|specialize (A6 _ _ I2); lra]).
    apply B in A1. apply B in A2.
    pose proof (chord_between a ya b yb x A3 ltac:(lra)) as Q. subst y.
    pose proof (Rmin_glb ya yb lo). pose proof (Rmax_lub ya yb hi). lra.
Qed.

(** ** updates *)
Definition represents (xs ys : list R) (m : dict) : Prop :=
  increasing xs /\ length xs = length ys /\
  forall x y, In (x, y) (combine xs ys) <-> m x = Some y.

Lemma pairs_get_some ps x y : pairs_get ps x = Some y -> In (x, y) ps.
Proof.
  induction ps as [|[a b] ps IH]; simpl; [discriminate|].
  destruct (Req_EM_T a x); intro H; [inversion H; subst; auto|auto].
Qed.
Lemma pairs_get_in ps x y : distinct ps -> In (x, y) ps -> pairs_get ps x = Some y.
Proof.
  unfold distinct. induction ps as [|[a b] ps IH]; simpl; intros D H; [tauto|].
  inversion D; subst. destruct H as [H|H].
  - inversion H; subst. destruct (Req_EM_T x x); congruence.
  - destruct (Req_EM_T a x) as [E|E]; auto. subst. exfalso. apply H2.
    apply in_map with (f := fst) in H. auto.
Qed.
Lemma pairs_get_none ps x : pairs_get ps x = None <-> ~ In x (map fst ps).
Proof.
  induction ps as [|[a b] ps IH]; simpl; [intuition|].
  destruct (Req_EM_T a x) as [E|E]; [split; [discriminate|intuition]|]. rewrite IH. intuition.
Qed.

Lemma in_remove_nth_combine : forall i (xs ys : list R) x y, length xs = length ys -> NoDup xs ->
  (i < length xs)%nat ->
  (In (x, y) (combine (remove_nth i xs) (remove_nth i ys)) <->
   In (x, y) (combine xs ys) /\ x <> nth i xs 0).
Proof.
  induction i as [|i IH]; intros [|a xs] [|b ys] x y HL ND Hi; simpl in *; try lia.
  - inversion ND; subst. split.
    + intro I. split; auto. intro E; subst. apply in_combine_l in I. contradiction.
    + intros [[E|I] NE]; auto. inversion E; congruence.
  - inversion ND; subst. rewrite (IH xs ys x y) by (auto; lia). split.
    + intros [E|[I NE]]; [|auto]. inversion E; subst. split; auto.
      intro F. apply H1. rewrite F. apply nth_In; lia.
    + intros [[E|I] NE]; auto.
Qed.
Lemma remove_nth_length {A} i (l : list A) : (i < length l)%nat -> length (remove_nth i l) = (length l - 1)%nat.
Proof. revert i; induction l; destruct i; simpl; intro H; try lia. rewrite IHl; lia. Qed.
Lemma remove_nth_incl {A} i (l : list A) x : In x (remove_nth i l) -> In x l.
Proof. revert i; induction l; destruct i; simpl; intuition eauto. Qed.
Lemma remove_nth_incr i l : increasing l -> increasing (remove_nth i l).
Proof.
  unfold increasing. intro H. revert i; induction H as [|x l Hs IH Hf]; intros [|i]; simpl; try constructor; auto.
  rewrite Forall_forall in *. intros y I. apply Hf. eapply remove_nth_incl; eauto.
Qed.

Lemma update_del_ok rm : forall xs ys m, represents xs ys m ->
  let (xs', ys') := update_del xs ys rm in
  represents xs' ys' (fun x => if in_dec Req_EM_T x rm then None else m x).
Proof.
  induction rm as [|r rm IH]; intros xs ys m Hr; simpl.
  - destruct Hr as [H1 [H2 H3]]. repeat split; auto; apply H3.
  - destruct Hr as [H1 [H2 H3]]. rn.
    destruct (index_of Reqb r xs) as [i|] eqn:E.
    + apply index_of_some in E. destruct E as [L [Nr _]].
      assert (Hr' : represents (remove_nth i xs) (remove_nth i ys) (fun x => if Req_EM_T r x then None else m x)).
      { split; [now apply remove_nth_incr|]. split; [rewrite !remove_nth_length; lia|].
        intros x y. rewrite in_remove_nth_combine by (auto using incr_nodup).
        rewrite Nr. destruct (Req_EM_T r x) as [Ex|Ex].
        - split; [intros [_ ?]; congruence|discriminate].
        - rewrite H3. split; [tauto|]. intro; split; auto. }
      specialize (IH _ _ _ Hr'). destruct (update_del (remove_nth i xs) (remove_nth i ys) rm) as [xs' ys'].
      destruct IH as [J1 [J2 J3]]. split; auto. split; auto. intros x y. rewrite J3.
      destruct (Req_EM_T r x), (in_dec Req_EM_T x rm); tauto.
    + apply index_of_none in E.
      specialize (IH xs ys m). destruct (update_del xs ys rm) as [xs' ys'].
      destruct IH as [J1 [J2 J3]]; [repeat split; auto; apply H3|]. split; auto. split; auto.
      intros x y. rewrite J3. destruct (Req_EM_T r x) as [Ex|Ex].
      * subst r. destruct (in_dec Req_EM_T x rm); [tauto|].
        rewrite <- H3. split; [|discriminate]. intro I. apply in_combine_l in I. contradiction.
      * destruct (in_dec Req_EM_T x rm); tauto.
Qed.

Lemma update_add_ok xs ys nx ny m : represents xs ys m ->
  length nx = length ny -> NoDup nx ->
  let (xs', ys') := update_add xs ys nx ny in
  represents xs' ys' (fun x => match pairs_get (combine nx ny) x with Some y => Some y | None => m x end).
Proof.
  intros [H1 [H2 H3]] HL ND. unfold update_add.
  set (data := filter (fun p => negb (mem neqb (fst p) nx)) (combine xs ys) ++ combine nx ny).
  assert (HIN : forall x y, In (x, y) data <->
     (In (x, y) (combine xs ys) /\ ~ In x nx) \/ In (x, y) (combine nx ny)).
  { intros x y. unfold data. rewrite in_app_iff, filter_In. simpl. rn.
    rewrite negb_true_iff, mem_false. tauto. }
  assert (DN : distinct (combine nx ny)) by (unfold distinct; now rewrite map_fst_combine).
  assert (D : distinct data).
  { unfold distinct, data. rewrite map_app.
    assert (ND1 : NoDup (map fst (filter (fun p => negb (mem neqb (fst p) nx)) (combine xs ys)))).
    { apply NoDup_filter_fst. unfold distinct. rewrite map_fst_combine by auto. now apply incr_nodup. }
    rewrite map_fst_combine by auto.
    assert (forall a, In a (map fst (filter (fun p => negb (mem neqb (fst p) nx)) (combine xs ys))) -> ~ In a nx).
    { intros a I. apply in_map_iff in I. destruct I as [[u v] [E I]]. simpl in E; subst.
      apply filter_In in I. destruct I as [_ I]. simpl in I. rn. rbool. now apply mem_false. }
    revert ND1 H. generalize (map fst (filter (fun p => negb (mem neqb (fst p) nx)) (combine xs ys))).
    intros l NDl F. induction l as [|a l IH]; simpl; auto. inversion NDl; subst. constructor.
    - rewrite in_app_iff. intros [?|?]; [contradiction|]. apply (F a); [left; auto|auto].
    - apply IH; auto. intros; apply F; right; auto. }
  fold (canon data).
  assert (S : split (canon data) = (map fst (canon data), map snd (canon data))).
  { rewrite <- fst_split, <- snd_split. destruct (split (canon data)); reflexivity. }
  rewrite S. split; [now apply canon_incr|]. split; [now rewrite !map_length|].
  intros x y. rewrite combine_map_fst_snd.
  assert (P : In (x, y) (canon data) <-> In (x, y) data).
  { split; apply Permutation_in; [|symmetry]; apply canon_perm. }
  rewrite P, HIN. destruct (pairs_get (combine nx ny) x) as [v|] eqn:E.
  - apply pairs_get_some in E. split.
    + intros [[_ N]|I].
      * exfalso. apply N. eapply in_combine_l; eauto.
      * f_equal. exact (nodup_fst_fun _ _ _ _ DN E I).
    + intro F; inversion F; subst; auto.
  - rewrite pairs_get_none, map_fst_combine in E by auto. rewrite <- H3. split.
    + intros [[I _]|I]; auto. exfalso. apply E. eapply in_combine_l; eauto.
    + intro I. left. auto.
Qed.

Lemma update_lists_ok xs ys nx ny m : represents xs ys m ->
  (ny = [] \/ (length nx = length ny /\ NoDup nx)) ->
  let (xs', ys') := update_lists xs ys nx ny in
  represents xs' ys' (dict_update m (nx, ny)).
Proof.
  intros Hr Hc. unfold update_lists, dict_update. simpl. destruct ny as [|y ny].
  - apply update_del_ok; auto.
  - destruct Hc as [Hc|[HL ND]]; [discriminate|]. apply update_add_ok; auto.
Qed.

(** ** sorting a dictionary *)
Lemma from_dict_sorted_perm (ps : points) :
  Permutation (sort (fun p q => nltb (fst p) (fst q)) ps) ps.
Proof. apply sort_perm. Qed.
