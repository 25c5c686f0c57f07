(** Sorting, permutations, sortedness, binary search: proofs about Py.v. *)
From Coq Require Import Reals Lra Lia List Bool Arith Sorted Permutation.
From Verif Require Import Num Py Spec LBase.
Import ListNotations.

Section Generic.
  Context {A : Type} (ltb : A -> A -> bool).

  Lemma insert_perm x l : Permutation (insert ltb x l) (x :: l).
  Proof.
    induction l as [|y l IH]; simpl; [reflexivity|].
    destruct (ltb y x); [|reflexivity].
    rewrite IH. apply perm_swap.
  Qed.

  Lemma sort_perm l : Permutation (sort ltb l) l.
  Proof.
    induction l as [|x l IH]; simpl; [reflexivity|].
    rewrite insert_perm. now constructor.
  Qed.

  Hypothesis ltb_asym : forall a b, ltb a b = true -> ltb b a = false.
  Hypothesis nlt_trans : forall a b c, ltb b a = false -> ltb c b = false -> ltb c a = false.

  Let le a b := ltb b a = false.

  Lemma insert_sorted x l : StronglySorted le l -> StronglySorted le (insert ltb x l).
  Proof.
    induction l as [|y l IH]; simpl; intro H.
    - constructor; [constructor|constructor].
    - inversion H as [|? ? Hs Hf]; subst. destruct (ltb y x) eqn:E.
      + constructor; [apply IH; auto|].
        eapply Permutation_Forall; [symmetry; apply insert_perm|].
        constructor; [now apply ltb_asym|auto].
      + constructor; auto. constructor; [exact E|].
        eapply Forall_impl; [|exact Hf]. intros z Hz. unfold le in *.
        eapply nlt_trans; [exact E | exact Hz].
  Qed.

  Lemma sort_sorted l : StronglySorted le (sort ltb l).
  Proof. induction l; simpl; [constructor|]. now apply insert_sorted. Qed.

  Lemma insert_sorted_id x l :
    Forall (le x) l -> insert ltb x l = x :: l.
  Proof. destruct l as [|y l]; simpl; [reflexivity|]. intro H. inversion H; subst. now rewrite H2. Qed.

  Lemma sort_sorted_id l : StronglySorted le l -> sort ltb l = l.
  Proof.
    induction 1 as [|x l Hs IH Hf]; simpl; [reflexivity|].
    rewrite IH. now apply insert_sorted_id.
  Qed.
End Generic.

Lemma sorted_perm_unique {A} (le : A -> A -> Prop) l1 l2 :
  (forall a b, le a b -> le b a -> a = b) ->
  StronglySorted le l1 -> StronglySorted le l2 -> Permutation l1 l2 -> l1 = l2.
Proof.
  intros anti H. revert l2. induction H as [|x l1 Hs IH Hf]; intros l2 H2 P.
  - apply Permutation_nil in P. now subst.
  - destruct H2 as [|y l2 Hs2 Hf2].
    + apply Permutation_sym, Permutation_nil in P. discriminate.
    + assert (x = y).
      { assert (In x (y :: l2)) as I1 by (eapply Permutation_in; [exact P|left; auto]).
        assert (In y (x :: l1)) as I2
          by (eapply Permutation_in; [apply Permutation_sym; exact P|left; auto]).
        destruct I1 as [->|I1]; auto. destruct I2 as [->|I2]; auto.
        rewrite Forall_forall in Hf, Hf2. apply anti; auto. }
      subst y. f_equal. apply IH; auto. eapply Permutation_cons_inv; eauto.
Qed.

(** strictly sorted lists *)
Lemma ss_app_inv {A} (R : A -> A -> Prop) l1 l2 :
  StronglySorted R (l1 ++ l2) ->
  StronglySorted R l1 /\ StronglySorted R l2 /\
  (forall a b, In a l1 -> In b l2 -> R a b).
Proof.
  induction l1 as [|x l1 IH]; simpl; intro H.
  - repeat split; auto. constructor. tauto.
  - inversion H as [|? ? Hs Hf]; subst. destruct (IH Hs) as [H1 [H2 H3]].
    rewrite Forall_forall in Hf. repeat split; auto.
    + constructor; auto. apply Forall_forall. intros; apply Hf, in_or_app; auto.
    + intros a b [->|Ha] Hb; auto. apply Hf, in_or_app; auto.
Qed.

Lemma ss_app {A} (R : A -> A -> Prop) l1 l2 :
  StronglySorted R l1 -> StronglySorted R l2 ->
  (forall a b, In a l1 -> In b l2 -> R a b) -> StronglySorted R (l1 ++ l2).
Proof.
  induction 1 as [|x l1 Hs IH Hf]; simpl; intros H2 H3; auto.
  constructor.
  - apply IH; auto.
  - rewrite Forall_forall in *. intros y Hy. apply in_app_or in Hy. destruct Hy; auto.
Qed.

Lemma ss_nth {A} (R : A -> A -> Prop) l d i j :
  StronglySorted R l -> (i < j < length l)%nat -> R (nth i l d) (nth j l d).
Proof.
  intro H. revert i j. induction H as [|x l Hs IH Hf]; intros i j Hij; simpl in Hij; [lia|].
  destruct j; [lia|]. destruct i; simpl.
  - rewrite Forall_forall in Hf. apply Hf, nth_In. lia.
  - apply IH. lia.
Qed.

Lemma ss_impl {A} (R S : A -> A -> Prop) l :
  (forall a b, R a b -> S a b) -> StronglySorted R l -> StronglySorted S l.
Proof.
  intros HI H. induction H; constructor; auto. eapply Forall_impl; [|eauto]. auto.
Qed.

Open Scope R_scope.

Lemma incr_nodup l : increasing l -> NoDup l.
Proof.
  unfold increasing. induction 1 as [|x l Hs IH Hf]; constructor; auto.
  intro Hi. rewrite Forall_forall in Hf. apply Hf in Hi. lra.
Qed.

Lemma incr_nth l i j : increasing l -> (i < j < length l)%nat -> nth i l 0 < nth j l 0.
Proof. apply ss_nth. Qed.

Lemma incr_nth_le l i j : increasing l -> (i <= j)%nat -> (j < length l)%nat ->
  nth i l 0 <= nth j l 0.
Proof.
  intros H Hij Hj. destruct (Nat.eq_dec i j); [subst; lra|].
  left. apply incr_nth; auto; lia.
Qed.

Lemma incr_unique l1 l2 : increasing l1 -> increasing l2 -> Permutation l1 l2 -> l1 = l2.
Proof.
  intros H1 H2. apply sorted_perm_unique with (le := Rle).
  - intros; lra.
  - eapply ss_impl; [|exact H1]. intros; lra.
  - eapply ss_impl; [|exact H2]. intros; lra.
Qed.

(** ordered pairs *)
Lemma nth_res_ok {A} (l : list A) i d : (i < length l)%nat -> nth_res l i = Ok (nth i l d).
Proof. intro H. unfold nth_res. now rewrite (nth_error_nth' l d H). Qed.

Lemma nth_res_inv {A} (l : list A) i y : nth_res l i = Ok y -> (i < length l)%nat /\ nth_error l i = Some y.
Proof.
  unfold nth_res. destruct (nth_error l i) eqn:E; intro H; inversion H; subst.
  split; auto. apply nth_error_Some. congruence.
Qed.

Lemma last_res_ok {A} (l : list A) d : l <> [] -> last_res l = Ok (last l d).
Proof.
  induction l as [|x l IH]; intro H; [congruence|].
  destruct l as [|y l]; [reflexivity|].
  change (last_res (x :: y :: l)) with (last_res (y :: l)).
  change (last (x :: y :: l) d) with (last (y :: l) d). apply IH. discriminate.
Qed.

Lemma last_nth {A} (l : list A) d : last l d = nth (length l - 1) l d.
Proof.
  induction l as [|x l IH]; [reflexivity|]. destruct l as [|y l]; [reflexivity|].
  change (last (x :: y :: l) d) with (last (y :: l) d). rewrite IH.
  simpl length. replace (S (S (length l)) - 1)%nat with (S (S (length l) - 1))%nat by lia.
  reflexivity.
Qed.

(** index_of on reals *)
Lemma index_of_some x l i :
  index_of Reqb x l = Some i -> (i < length l)%nat /\ nth i l 0 = x /\
  (forall j, (j < i)%nat -> nth j l 0 <> x).
Proof.
  revert i; induction l as [|y l IH]; simpl; intros i H; [discriminate|].
  destruct (Reqb y x) eqn:E; rbool.
  - inversion H; subst. repeat split; [lia|]. intros j Hj; lia.
  - destruct (index_of Reqb x l) as [k|] eqn:E2; simpl in H; [|discriminate].
    inversion H; subst. destruct (IH k eq_refl) as [H1 [H2 H3]].
    repeat split; [lia|auto|]. intros [|j] Hj; auto. apply H3; lia.
Qed.

Lemma index_of_none x l : index_of Reqb x l = None <-> ~ In x l.
Proof.
  induction l as [|y l IH]; simpl; [intuition|].
  destruct (Reqb y x) eqn:E; rbool.
  - split; intro H; [discriminate|]. exfalso; auto.
  - destruct (index_of Reqb x l) as [k|]; simpl; split; intro H; try discriminate.
    + exfalso. destruct IH as [_ IH]. assert (~ In x l) as Hn by tauto.
      specialize (IH Hn). discriminate.
    + destruct IH as [IH _]. specialize (IH eq_refl). tauto.
    + reflexivity.
Qed.

Lemma index_of_in x l : In x l -> exists i, index_of Reqb x l = Some i.
Proof.
  intro H. destruct (index_of Reqb x l) eqn:E; eauto. apply index_of_none in E. contradiction.
Qed.

Lemma index_of_nth l i : NoDup l -> (i < length l)%nat -> index_of Reqb (nth i l 0) l = Some i.
Proof.
  intros H Hi. destruct (index_of_in (nth i l 0) l) as [j Hj]; [now apply nth_In|].
  rewrite Hj. apply index_of_some in Hj. destruct Hj as [H1 [H2 _]].
  f_equal. eapply NoDup_nth with (d := 0); eauto.
Qed.

Lemma mem_true x l : mem Reqb x l = true <-> In x l.
Proof.
  unfold mem. rewrite existsb_exists. split.
  - intros [y [H1 H2]]; rbool; subst; auto.
  - intro H. exists x. split; auto. apply Reqb_refl.
Qed.
Lemma mem_false x l : mem Reqb x l = false <-> ~ In x l.
Proof. rewrite <- mem_true. destruct (mem Reqb x l); intuition discriminate. Qed.

Lemma dedup_in x l : In x (dedup Reqb l) <-> In x l.
Proof.
  induction l as [|y l IH]; simpl; [tauto|].
  destruct (mem Reqb y l) eqn:E.
  - apply mem_true in E. rewrite IH. split; auto. intros [->|]; auto.
  - simpl. rewrite IH. tauto.
Qed.
Lemma dedup_nodup l : NoDup (dedup Reqb l).
Proof.
  induction l as [|y l IH]; simpl; [constructor|].
  destruct (mem Reqb y l) eqn:E; auto. constructor; auto.
  rewrite dedup_in. now apply mem_false.
Qed.
Lemma dedup_length_le l : (length (dedup Reqb l) <= length l)%nat.
Proof. induction l; simpl; [lia|]. destruct (mem Reqb a l); simpl; lia. Qed.
Lemma dedup_length_nodup l : length (dedup Reqb l) = length l <-> NoDup l.
Proof.
  induction l as [|y l IH]; simpl; [split; auto; constructor|].
  destruct (mem Reqb y l) eqn:E.
  - apply mem_true in E. pose proof (dedup_length_le l). split; intro H0; [lia|].
    inversion H0; contradiction.
  - apply mem_false in E. simpl. split; intro H.
    + constructor; auto. apply IH; lia.
    + inversion H; subst. f_equal. now apply IH.
Qed.
Lemma dedup_nodup_id l : NoDup l -> dedup Reqb l = l.
Proof.
  induction 1 as [|x l Hi Hn IH]; simpl; auto.
  destruct (mem Reqb x l) eqn:E; [apply mem_true in E; contradiction|]. now f_equal.
Qed.

(** sorting reals *)
Lemma Rsort_sorted l : StronglySorted Rle (sort Rltb l).
Proof.
  eapply ss_impl; [|apply sort_sorted].
  - simpl. intros a b H. rbool. exact H.
  - intros a b H. rbool. apply Rltb_false; lra.
  - intros a b c H1 H2. rbool. apply Rltb_false; lra.
Qed.

Lemma ssle_nodup_incr l : StronglySorted Rle l -> NoDup l -> increasing l.
Proof.
  unfold increasing. induction 1 as [|x l Hs IH Hf]; intro Hn; constructor; inversion Hn; subst; auto.
  rewrite Forall_forall in *. intros y Hy. destruct (Hf y Hy); auto. subst; contradiction.
Qed.

Lemma sorted_set_incr l : increasing (sorted_set Rltb Reqb l).
Proof.
  unfold sorted_set. apply ssle_nodup_incr; [apply Rsort_sorted|].
  eapply Permutation_NoDup; [symmetry; apply sort_perm|apply dedup_nodup].
Qed.
Lemma sorted_set_in x l : In x (sorted_set Rltb Reqb l) <-> In x l.
Proof.
  unfold sorted_set. rewrite <- (dedup_in x l). split; apply Permutation_in;
    [|symmetry]; apply sort_perm.
Qed.
Lemma incr_ext l1 l2 : increasing l1 -> increasing l2 ->
  (forall x, In x l1 <-> In x l2) -> l1 = l2.
Proof.
  intros H1 H2 H. apply incr_unique; auto.
  apply NoDup_Permutation; auto using incr_nodup.
Qed.
Lemma sorted_set_id l : increasing l -> sorted_set Rltb Reqb l = l.
Proof. intro H. apply incr_ext; auto using sorted_set_incr, sorted_set_in. Qed.

(** binary search *)
Lemma bisect_loop_spec {A} (go : A -> bool) d l fuel : forall lo hi,
  (lo <= hi)%nat -> (hi - lo <= fuel)%nat ->
  (forall j k, (lo <= j)%nat -> (j <= k)%nat -> (k < hi)%nat ->
     go (nth k l d) = true -> go (nth j l d) = true) ->
  let i := bisect_loop fuel go d l lo hi in
  (lo <= i <= hi)%nat /\
  (forall j, (lo <= j < i)%nat -> go (nth j l d) = true) /\
  (forall j, (i <= j < hi)%nat -> go (nth j l d) = false).
Proof.
  induction fuel as [|f IH]; intros lo hi Hle Hf Hmono; cbn [bisect_loop]; cbv zeta.
  - assert (lo = hi) by lia. repeat split; try lia; intros; lia.
  - destruct (lo <? hi)%nat eqn:E.
    + apply Nat.ltb_lt in E.
      assert (HM : ((lo + hi) / 2 < hi /\ lo <= (lo + hi) / 2)%nat).
      { split; [apply Nat.div_lt_upper_bound; lia | apply Nat.div_le_lower_bound; lia]. }
      set (mid := ((lo + hi) / 2)%nat) in *.
      destruct (go (nth mid l d)) eqn:G.
      * specialize (IH (mid + 1)%nat hi). destruct IH as [H1 [H2 H3]]; try lia.
        { intros j k ? ? ? ?. apply (Hmono j k); auto; lia. }
        split; [lia|]. split; auto.
        intros j Hj. destruct (Nat.le_gt_cases j mid).
        -- apply (Hmono j mid); auto; lia.
        -- apply H2; lia.
      * specialize (IH lo mid). destruct IH as [H1 [H2 H3]]; try lia.
        { intros j k ? ? ? ?. apply (Hmono j k); auto; lia. }
        split; [lia|]. split; auto.
        intros j Hj. destruct (Nat.lt_ge_cases j mid).
        -- apply H3; lia.
        -- destruct (go (nth j l d)) eqn:G2; auto.
           assert (go (nth mid l d) = true) by (apply (Hmono mid j); auto; lia). congruence.
    + apply Nat.ltb_ge in E. assert (lo = hi) by lia. repeat split; try lia; intros; lia.
Qed.

Lemma bisect_left_spec l (x : R) lo hi :
  increasing l -> (lo <= hi)%nat -> (hi <= length l)%nat ->
  let i := bisect_left l x lo hi in
  (lo <= i <= hi)%nat /\
  (forall j, (lo <= j < i)%nat -> nth j l 0 < x) /\
  (forall j, (i <= j < hi)%nat -> x <= nth j l 0).
Proof.
  intros Hs H1 H2 i. unfold i, bisect_left.
  destruct (bisect_loop_spec (fun a => Rltb a x) 0 l hi lo hi) as [A [B C]]; try lia.
  - intros j k Hj Hk Hh E. rbool. apply Rltb_true.
    apply Rle_lt_trans with (nth k l 0); auto. apply incr_nth_le; auto; lia.
  - rn. split; [exact A|]. split; intros j Hj.
    + specialize (B j Hj). now rbool.
    + specialize (C j Hj). now rbool.
Qed.

Lemma bisect_right_spec l (x : R) lo hi :
  increasing l -> (lo <= hi)%nat -> (hi <= length l)%nat ->
  let i := bisect_right l x lo hi in
  (lo <= i <= hi)%nat /\
  (forall j, (lo <= j < i)%nat -> nth j l 0 <= x) /\
  (forall j, (i <= j < hi)%nat -> x < nth j l 0).
Proof.
  intros Hs H1 H2 i. unfold i, bisect_right.
  destruct (bisect_loop_spec (fun a => negb (Rltb x a)) 0 l hi lo hi) as [A [B C]]; try lia.
  - intros j k Hj Hk Hh E. rbool. apply negb_true_iff, Rltb_false.
    apply Rle_trans with (nth k l 0); auto. apply incr_nth_le; auto; lia.
  - rn. split; [exact A|]. split; intros j Hj.
    + specialize (B j Hj). now rbool.
    + specialize (C j Hj). now rbool.
Qed.

(** lists of pairs *)
Lemma split_combine_eq {A B} (l : list (A * B)) : combine (fst (split l)) (snd (split l)) = l.
Proof. pose proof (split_combine l). destruct (split l); auto. Qed.
Lemma fst_split {A B} (l : list (A * B)) : fst (split l) = map fst l.
Proof. induction l as [|[a b] l IH]; simpl; [reflexivity|]. destruct (split l); simpl in *; congruence. Qed.
Lemma snd_split {A B} (l : list (A * B)) : snd (split l) = map snd l.
Proof. induction l as [|[a b] l IH]; simpl; [reflexivity|]. destruct (split l); simpl in *; congruence. Qed.
Lemma combine_map_fst_snd {A B} (l : list (A * B)) : combine (map fst l) (map snd l) = l.
Proof. induction l as [|[a b] l IH]; simpl; congruence. Qed.
Lemma map_fst_combine {A B} (l : list A) (m : list B) : length l = length m -> map fst (combine l m) = l.
Proof. revert m; induction l; destruct m; simpl; intro H; try discriminate; auto. f_equal; auto. Qed.
Lemma map_snd_combine {A B} (l : list A) (m : list B) : length l = length m -> map snd (combine l m) = m.
Proof. revert m; induction l; destruct m; simpl; intro H; try discriminate; auto. f_equal; auto. Qed.

Lemma in_combine_nth {A B} (l : list A) (m : list B) a b da db :
  length l = length m ->
  (In (a, b) (combine l m) <-> exists i, (i < length l)%nat /\ nth i l da = a /\ nth i m db = b).
Proof.
  intro HL. split.
  - intro H. apply In_nth with (d := (da, db)) in H. destruct H as [i [H1 H2]].
    rewrite combine_length, <- HL, Nat.min_id in H1. exists i. split; auto.
    rewrite combine_nth in H2 by auto. inversion H2; auto.
  - intros [i [H1 [H2 H3]]]. subst. rewrite <- combine_nth by auto. apply nth_In.
    rewrite combine_length, <- HL, Nat.min_id. auto.
Qed.

Lemma nodup_fst_fun {A B} (l : list (A * B)) a b b' :
  NoDup (map fst l) -> In (a, b) l -> In (a, b') l -> b = b'.
Proof.
  induction l as [|[x y] l IH]; simpl; intros Hn H1 H2; [tauto|].
  inversion Hn; subst. destruct H1 as [H1|H1]; destruct H2 as [H2|H2].
  - congruence.
  - inversion H1; subst. exfalso. apply H3. apply in_map with (f := fst) in H2. auto.
  - inversion H2; subst. exfalso. apply H3. apply in_map with (f := fst) in H1. auto.
  - auto.
Qed.
