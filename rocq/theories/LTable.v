(** Lemmas about rate tables and rating classes. *)
From Coq Require Import Reals Lra Lia List Arith Bool ZArith Sorted Permutation.
From Verif Require Import Num Py Spec LBase LSort MDates MTable STable.
Import ListNotations.
Open Scope R_scope.

Lemma INR_above x : exists n, x < INR n.
Proof.
  exists (Z.to_nat (up x)). destruct (archimed x) as [H _].
  destruct (Z_le_gt_dec 0 (up x)) as [P|P].
  - rewrite INR_IZR_INZ, Z2Nat.id by auto. lra.
  - pose proof (pos_INR (Z.to_nat (up x))). apply Z.gt_lt in P. apply IZR_lt in P. lra.
Qed.

(** * the default horizontal axis *)
Lemma line_ok step span : 0 < step -> forall fuel last, span <= last + INR fuel * step -> (0 < fuel)%nat ->
  exists l, rt_line fuel step span last = Ok l /\
    forall y, In y l <-> exists j : nat, y = last + INR j * step /\ (j = 0%nat \/ y < span).
Proof.
  intro SP. induction fuel as [|n IH]; intros last HF H0; [lia|].
  cbn [rt_line]. rn. destruct (Rltb (last + step) span) eqn:E.
  - apply Rltb_true in E. destruct n as [|n].
    { exfalso. simpl in HF. lra. }
    destruct (IH (last + step)) as [l [-> HI]].
    { rewrite S_INR in HF. lra. } { lia. }
    cbn [bind]. exists (last :: l). split; auto. intro y. simpl. rewrite HI. split.
    + intros [->|[j [-> H]]].
      * exists 0%nat. split; auto. simpl. lra.
      * exists (S j). split; [rewrite S_INR; lra|]. right.
        destruct H as [->|H]; auto. simpl. lra.
    + intros [[|j] [-> H]].
      * left. simpl. lra.
      * right. exists j. split; [rewrite S_INR; lra|]. destruct H as [H|H]; [discriminate|auto].
  - apply Rltb_false in E. exists [last]. split; auto. intro y. simpl. split.
    + intros [<-|[]]. exists 0%nat. split; auto. simpl. lra.
    + intros [[|j] [-> H]].
      * left. simpl. lra.
      * exfalso. destruct H as [H|H]; [discriminate|]. rewrite S_INR in H.
        pose proof (pos_INR j). nra.
Qed.

Lemma line_loops step span last : step <= 0 -> last + step < span -> forall fuel, rt_line fuel step span last = Err OutOfFuel.
Proof.
  intros HS H fuel. revert last H. induction fuel as [|n IH]; intros last H; cbn [rt_line]; auto. rn.
  replace (Rltb (last + step) span) with true by (symmetry; now apply Rltb_true).
  rewrite IH by lra. reflexivity.
Qed.

(** the pairs (step, span) of the loop 84-88 *)
Fixpoint step_spans (step : R) (diff : list R) : list (R * R) :=
  match diff with [] => [] | span :: diff' => (step, span) :: step_spans span diff' end.

Lemma step_spans_nth diff : forall step i d, (i < length diff)%nat ->
  nth i (step_spans step diff) d = (match i with O => step | S k => nth k diff 0 end, nth i diff 0).
Proof.
  induction diff as [|s diff IH]; intros step i d Hi; simpl in *; [lia|].
  destruct i; auto. rewrite IH by lia. destruct i; auto.
Qed.
Lemma step_spans_length diff : forall step, length (step_spans step diff) = length diff.
Proof. induction diff; intro; simpl; auto. Qed.

Lemma lines_ok diff : forall step, 0 < step -> (forall s, In s diff -> 0 < s) ->
  exists k, forall fuel, (k <= fuel)%nat -> exists l, rt_lines fuel step diff = Ok l /\
    forall y, In y l <-> exists s e (j : nat), In (s, e) (step_spans step diff) /\ (1 <= j)%nat /\ y = INR j * s /\ (j = 1%nat \/ y < e).
Proof.
  induction diff as [|span diff IH]; intros step SP HP.
  - exists 0%nat. intros fuel _. exists []. split; auto. simpl. split; [tauto|]. intros [s [e [j [[] _]]]].
  - destruct (IH span) as [k Hk]; [apply HP; simpl; auto | intros; apply HP; simpl; auto |].
    destruct (INR_above (Rabs span / step)) as [m Hm].
    exists (S (k + m))%nat. intros fuel HF. cbn [rt_lines].
    destruct (line_ok step span SP fuel step) as [l1 [-> H1]].
    { assert (INR m <= INR fuel) by (apply le_INR; lia). pose proof (Rle_abs span).
      assert (Rabs span < INR m * step).
      { apply (Rmult_lt_compat_r step) in Hm; auto. unfold Rdiv in Hm.
        rewrite Rmult_assoc, Rinv_l, Rmult_1_r in Hm by lra. lra. }
      nra. }
    { lia. }
    cbn [bind]. destruct (Hk fuel) as [l2 [-> H2]]; [lia|]. cbn [bind].
    exists (l1 ++ l2). split; auto. intro y. rewrite in_app_iff, H1, H2. simpl. split.
    + intros [[j [-> H]]|[s [e [j [I H]]]]].
      * exists step, span, (S j). split; auto. split; [lia|]. rewrite S_INR. split; [lra|].
        destruct H as [->|H]; auto; right; lra.
      * exists s, e, j. tauto.
    + intros [s [e [j [[I|I] [J [-> H]]]]]].
      * inversion I; subst. left. destruct j as [|j]; [lia|]. exists j. rewrite S_INR. split; [lra|].
        destruct H as [H|H]; [left; lia|]. right. rewrite S_INR in H. lra.
      * right. exists s, e, j. tauto.
Qed.

Lemma diffs_length (xs : list R) : length (rt_diffs xs) = (length xs - 1)%nat.
Proof.
  unfold rt_diffs. rewrite map_length, combine_length. destruct xs as [|x xs]; auto.
  rewrite removelast_firstn_len, firstn_length. simpl. lia.
Qed.
Lemma diffs_cons (x y : R) xs : rt_diffs (x :: y :: xs) = (y - x) :: rt_diffs (y :: xs).
Proof. unfold rt_diffs. destruct xs; reflexivity. Qed.
Lemma diffs_nth (xs : list R) : forall i, (S i < length xs)%nat -> nth i (rt_diffs xs) 0 = nth (S i) xs 0 - nth i xs 0.
Proof.
  induction xs as [|x xs IH]; intros i Hi; simpl in Hi; [lia|].
  destruct xs as [|y xs]; simpl in Hi; [lia|]. rewrite diffs_cons. destruct i; auto.
  simpl nth at 1. rewrite IH by (simpl; lia). reflexivity.
Qed.
Lemma diffs_pos (xs : list R) : increasing xs -> forall s, In s (rt_diffs xs) -> 0 < s.
Proof.
  intros H s Hs. apply (In_nth _ _ 0) in Hs. destruct Hs as [i [Hi <-]]. rewrite diffs_length in Hi.
  rewrite diffs_nth by lia. pose proof (incr_nth xs i (S i) H). assert (i < S i < length xs)%nat as X by lia. specialize (H0 X). lra.
Qed.

(** * rounding *)
Lemma int_part_bounds x : IZR (Int_part x) <= x < IZR (Int_part x) + 1.
Proof. destruct (base_Int_part x). lra. Qed.
Lemma int_part_unique x z : IZR z <= x < IZR z + 1 -> Int_part x = z.
Proof.
  intro H. pose proof (int_part_bounds x) as B.
  assert (IZR (Int_part x) < IZR (z + 1)) by (rewrite plus_IZR; lra).
  assert (IZR z < IZR (Int_part x + 1)) by (rewrite plus_IZR; lra).
  apply lt_IZR in H0, H1. lia.
Qed.

Lemma rhe_bounds x : IZR (Rround_half_even x) - 1 / 2 <= x <= IZR (Rround_half_even x) + 1 / 2.
Proof.
  unfold Rround_half_even. pose proof (int_part_bounds x). cbv zeta.
  destruct (Rlt_dec _ _); [lra|]. destruct (Rlt_dec _ _); [rewrite plus_IZR; lra|].
  destruct (Z.even _); [lra | rewrite plus_IZR; lra].
Qed.
Lemma rhe_int z : Rround_half_even (IZR z) = z.
Proof.
  unfold Rround_half_even. rewrite (int_part_unique (IZR z) z) by lra. cbv zeta.
  destruct (Rlt_dec _ _); auto. exfalso. lra.
Qed.
Lemma rhe_mono x y : x <= y -> (Rround_half_even x <= Rround_half_even y)%Z.
Proof.
  intro H. pose proof (rhe_bounds x). pose proof (rhe_bounds y).
  destruct (Z_le_gt_dec (Rround_half_even x) (Rround_half_even y)) as [|G]; auto. exfalso.
  assert (G1 : (Rround_half_even y + 1 <= Rround_half_even x)%Z) by lia.
  apply IZR_le in G1. rewrite plus_IZR in G1. assert (x = y) by lra. subst. lia.
Qed.
Lemma rhe_reflect x n : Z.even n = true -> (Rround_half_even x + Rround_half_even (IZR n - x) = n)%Z.
Proof.
  intro EV. pose proof (int_part_bounds x) as B. set (f := Int_part x) in *.
  destruct (Req_EM_T x (IZR f)) as [E|NE].
  - rewrite E. replace (IZR n - IZR f) with (IZR (n - f)) by (rewrite minus_IZR; lra). rewrite !rhe_int. lia.
  - assert (F : Int_part (IZR n - x) = (n - f - 1)%Z).
    { apply int_part_unique. rewrite !minus_IZR. lra. }
    unfold Rround_half_even. rewrite F. fold f. cbv zeta. rewrite !minus_IZR.
    destruct (Rlt_dec (x - IZR f) (1 / 2)).
    + destruct (Rlt_dec (IZR n - x - (IZR n - IZR f - 1)) (1 / 2)); [exfalso; lra|].
      destruct (Rlt_dec (1 / 2) _); [lia | exfalso; lra].
    + destruct (Rlt_dec (1 / 2) (x - IZR f)).
      * destruct (Rlt_dec (IZR n - x - (IZR n - IZR f - 1)) (1 / 2)); [lia | exfalso; lra].
      * destruct (Rlt_dec (IZR n - x - (IZR n - IZR f - 1)) (1 / 2)); [exfalso; lra|].
        destruct (Rlt_dec (1 / 2) _); [exfalso; lra|].
        replace (n - f - 1)%Z with (n - (f + 1))%Z by lia. rewrite Z.even_sub, EV, Z.even_add. simpl.
        destruct (Z.even f); simpl; lia.
Qed.

Definition ten7 : R := IZR 10000000.
Lemma ten7_pos : 0 < ten7. Proof. unfold ten7. lra. Qed.
Lemma round7_err x : Rabs (Rround7 x - x) <= / 2 / ten7.
Proof.
  unfold Rround7. fold ten7. pose proof (rhe_bounds (x * ten7)) as B. set (r := IZR _) in *.
  pose proof ten7_pos. apply Rabs_le.
  assert (E : r / ten7 - x = (r - x * ten7) / ten7) by (field; lra). rewrite E.
  replace (- (/ 2 / ten7)) with (- (1/2) / ten7) by (field; lra). replace (/ 2 / ten7) with ((1/2) / ten7) by (field; lra).
  unfold Rdiv at 1 3 5. split; (apply Rmult_le_compat_r; [left; now apply Rinv_0_lt_compat | lra]).
Qed.
Lemma round7_mono x y : x <= y -> Rround7 x <= Rround7 y.
Proof.
  intro H. unfold Rround7. pose proof ten7_pos. fold ten7. unfold Rdiv.
  apply Rmult_le_compat_r; [left; now apply Rinv_0_lt_compat|]. apply IZR_le, rhe_mono.
  apply Rmult_le_compat_r; lra.
Qed.
Lemma round7_0 : Rround7 0 = 0.
Proof. unfold Rround7. rewrite Rmult_0_l, rhe_int. unfold Rdiv. lra. Qed.
Lemma round7_1 : Rround7 1 = 1.
Proof. unfold Rround7. rewrite Rmult_1_l, rhe_int. field. Qed.
Lemma round7_reflect x : Rround7 x + Rround7 (1 - x) = 1.
Proof.
  unfold Rround7. replace ((1 - x) * IZR 10000000) with (IZR 10000000 - x * IZR 10000000) by lra.
  pose proof (rhe_reflect (x * IZR 10000000) 10000000 eq_refl) as H.
  apply (f_equal IZR) in H. rewrite plus_IZR in H. lra.
Qed.
Lemma round7_unit x : 0 <= x <= 1 -> 0 <= Rround7 x <= 1.
Proof. intros [H1 H2]. apply round7_mono in H1, H2. rewrite round7_0 in H1. rewrite round7_1 in H2. lra. Qed.
Lemma unit_clip_ok x : 0 <= x <= 1 -> unit_clip x = Rround7 x.
Proof.
  intro H. apply round7_unit in H. unfold unit_clip. rewrite nmax_Rmax, nmin_Rmin. rn.
  rewrite Rmin_left by lra. apply Rmax_right. lra.
Qed.

(** * the vector *)
Lemma fold_min_sorted l : forall x : R, StronglySorted Rle (x :: l) -> fold_left nmin l x = x.
Proof.
  induction l as [|y l IH]; intros x H; auto. simpl. inversion H as [|a b H1 H2]; subst. inversion H2; subst.
  rewrite nmin_Rmin, Rmin_left by auto. apply IH. inversion H1; subst. constructor; auto; inversion H2; auto.
Qed.
Lemma fold_max_sorted l : forall x : R, StronglySorted Rle (x :: l) -> fold_left nmax l x = last (x :: l) 0.
Proof.
  induction l as [|y l IH]; intros x H; auto. inversion H as [|a b H1 H2]; subst. inversion H2; subst.
  cbn [fold_left]. rewrite nmax_Rmax, Rmax_right by auto. rewrite IH; auto.
Qed.
Lemma fnb_ok v l : (exists x, In x l /\ v <= x) -> exists i, first_not_below v l = Ok i /\ (i < length l)%nat /\
  v <= nth i l 0 /\ forall j, (j < i)%nat -> nth j l 0 < v.
Proof.
  induction l as [|x l IH]; intros [z [Hz Hv]]; [destruct Hz|]. cbn [first_not_below]. rn.
  destruct (Rltb x v) eqn:E.
  - apply Rltb_true in E. destruct IH as [i [-> [H1 [H2 H3]]]].
    { exists z. split; auto. destruct Hz; auto. subst. lra. }
    exists (S i). cbn. split; auto. split; [lia|]. split; auto. intros [|j] Hj; auto. apply H3. lia.
  - apply Rltb_false in E. exists 0%nat. simpl. split; auto. split; [lia|]. split; auto. intros; lia.
Qed.

Lemma sum_unit (w : R) n : forall a i, (a <= i < a + n)%nat -> Rsum (map (fun k => if Nat.eqb k i then w else 0) (seq a n)) = w.
Proof.
  induction n as [|n IH]; intros a i H; [lia|]. simpl. destruct (Nat.eqb a i) eqn:E.
  - apply Nat.eqb_eq in E. subst. replace (Rsum _) with 0; [lra|].
    clear -i. assert (X : forall n a, (i < a)%nat -> Rsum (map (fun k => if Nat.eqb k i then w else 0) (seq a n)) = 0).
    { clear n. induction n as [|n IH]; intros a H; simpl; auto. rewrite IH by lia.
      replace (Nat.eqb a i) with false by (symmetry; apply Nat.eqb_neq; lia). lra. }
    symmetry. apply X. lia.
  - apply Nat.eqb_neq in E. rewrite IH by lia. lra.
Qed.
Lemma Rsum_ext {A} (f g : A -> R) l : (forall x, In x l -> f x = g x) -> Rsum (map f l) = Rsum (map g l).
Proof. induction l; simpl; intro H; auto. rewrite H, IHl; auto. Qed.
Lemma Rsum_plus {A} (f g : A -> R) l : Rsum (map (fun x => f x + g x) l) = Rsum (map f l) + Rsum (map g l).
Proof. induction l; simpl; [lra|]. rewrite IHl. lra. Qed.

Section Vector.
  Context {K : Type} (keqb : K -> K -> bool).

  Lemma items_sorted (m : @mscale R K) : StronglySorted (fun a b => snd a <= snd b) (ms_items m).
  Proof.
    unfold ms_items. eapply ss_impl; [|apply (sort_sorted (fun a b : K * R => Rltb (snd a) (snd b)))].
    - intros a b H. now apply Rltb_false in H.
    - intros a b H. apply Rltb_true in H. apply Rltb_false. lra.
    - intros a b c H1 H2. apply Rltb_false in H1, H2. apply Rltb_false. lra.
  Qed.
  Lemma levels_ok (m : @mscale R K) L : levels m L -> map n_round7 (ms_sorted m) = L.
  Proof.
    intros [S PM]. apply (sorted_perm_unique Rle); auto.
    - intros. lra.
    - unfold ms_sorted. rewrite map_map. pose proof (items_sorted m) as H. induction H as [|a l H1 IH H2]; simpl; constructor; auto.
      rewrite Forall_forall in *. intros y Hy. apply in_map_iff in Hy. destruct Hy as [z [<- Z]]. apply round7_mono. auto.
    - unfold ms_sorted. rewrite map_map. etransitivity; [|symmetry; exact PM].
      apply Permutation_map. unfold ms_items. apply sort_perm.
  Qed.
  Lemma levels_exist (m : @mscale R K) : exists L, levels m L.
  Proof.
    exists (map n_round7 (ms_sorted m)). split.
    - unfold ms_sorted. rewrite map_map. pose proof (items_sorted m) as H. induction H as [|a l H1 IH H2]; simpl; constructor; auto.
      rewrite Forall_forall in *. intros y Hy. apply in_map_iff in Hy. destruct Hy as [z [<- Z]]. apply round7_mono. auto.
    - unfold ms_sorted. rewrite map_map. apply Permutation_map. unfold ms_items. apply sort_perm.
  Qed.

  Lemma sorted_last_max (L : list R) x : StronglySorted Rle L -> In x L -> x <= last L 0.
  Proof.
    intros H. revert x. induction H as [|a l H1 IH H2]; intros x I; [destruct I|].
    destruct l as [|b l]; [destruct I as [<-|[]]; simpl; lra|].
    change (last (a :: b :: l) 0) with (last (b :: l) 0). destruct I as [<-|I]; auto.
    rewrite Forall_forall in H2. assert (a <= b) by (apply H2; simpl; auto). assert (b <= last (b :: l) 0) by (apply IH; simpl; auto). lra.
  Qed.

  Lemma vector_form sloppy (m : @mscale R K) L x : levels m L -> m <> [] ->
    rating_vector sloppy m x =
    let v := Rround7 x in
    if negb (Rleb (hd 0 L) v && Rleb v (last L 0)) && negb sloppy then Err ValueError
    else if Rltb v (hd 0 L) then
        mapM (fun iv => if Nat.eqb (fst iv) 0 then q <- Rdivp v (snd iv) ;; Ok (Rround7 q) else Ok 0)
             (combine (seq 0 (length L)) L)
      else if Rltb (last L 0) v then
        mapM (fun iv => if Nat.eqb (fst iv) (length L - 1) then q <- Rdivp v (snd iv) ;; Ok (Rround7 q) else Ok 0)
             (combine (seq 0 (length L)) L)
      else
        ci <- first_not_below v L ;;
        cap <- nth_res L ci ;;
        floor <- match ci with O => last_res L | S j => nth_res L j end ;;
        alpha <- Rdivp (v - cap) (floor - cap) ;;
        Ok (map (fun i => if match ci with O => false | S j => Nat.eqb i j end then unit_clip alpha
                          else if Nat.eqb i ci then unit_clip (1 - alpha)
                          else 0)
                (seq 0 (length L))).
  Proof.
    intros HL NE. unfold rating_vector. destruct m as [|kv m]; [congruence|].
    rewrite (levels_ok _ _ HL). destruct HL as [S PM].
    destruct L as [|l0 L]; [apply Permutation_length in PM; discriminate|].
    unfold n_min, n_max. rewrite (fold_min_sorted L l0 S), (fold_max_sorted L l0 S).
    cbn [bind]. rn. cbv zeta. reflexivity.
  Qed.
End Vector.

Lemma mapM_const_first (f : R -> res R) L : forall a,
  mapM (fun iv : nat * R => if Nat.eqb (fst iv) 0 then f (snd iv) else Ok 0) (combine (seq (S a) (length L)) L) = Ok (map (fun _ => 0) L).
Proof. induction L as [|x L IH]; intro a; simpl; auto. rewrite IH. reflexivity. Qed.

(** dicts with distinct keys *)
Section Dict.
  Context {K V : Type} (keqb : K -> K -> bool) (KE : forall a b, keqb a b = true <-> a = b).
  Lemma assoc_set_new k (v : V) l : ~ In k (map fst l) -> assoc_set keqb k v l = l ++ [(k, v)].
  Proof.
    induction l as [|[k' v'] l IH]; simpl; intro H; auto.
    destruct (keqb k' k) eqn:E; [apply KE in E; subst; tauto|]. now rewrite IH by tauto.
  Qed.
  Lemma dict_of_nodup (l : list (K * V)) : NoDup (map fst l) -> dict_of keqb l = l.
  Proof.
    unfold dict_of. assert (X : forall d, NoDup (map fst (d ++ l)) -> fold_left (fun d kv => assoc_set keqb (fst kv) (snd kv) d) l d = d ++ l).
    { induction l as [|[k v] l IH]; intros d ND; simpl; [now rewrite app_nil_r|].
      rewrite assoc_set_new.
      - rewrite IH by now rewrite <- app_assoc. now rewrite <- app_assoc.
      - rewrite map_app in ND. simpl in ND. apply NoDup_remove_2 in ND. intro H. apply ND. apply in_or_app; auto. }
    intro ND. apply (X []). exact ND.
  Qed.
End Dict.
