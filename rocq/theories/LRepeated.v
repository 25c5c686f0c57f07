(** Lemmas about interpolations of points with repeated x. *)
From Coq Require Import Reals Lra Lia List Bool Arith Sorted Permutation.
From Verif Require Import Num Py Spec SInterpolation LBase LSort MInterpolation LInterpolation.
Import ListNotations.
Open Scope R_scope.

Definition lex (p q : R * R) : Prop := fst p < fst q \/ (fst p = fst q /\ snd p <= snd q).
Lemma lex_ltb p q : pair_ltb q p = false -> lex p q.
Proof.
  destruct p as [a b], q as [c d]. unfold pair_ltb, lex. simpl. rn. destruct (Reqb c a) eqn:E; intros H; rbool; subst.
  - right. split; [reflexivity|lra].
  - left. lra.
Qed.
Lemma canon_lex ps : StronglySorted lex (canon ps).
Proof.
  assert (S : StronglySorted (fun a b => pair_ltb b a = false) (canon ps)).
  { apply sort_sorted; auto using pair_asym. intros; eapply pair_trans; eauto. }
  induction S as [|p l Hs IH Hf]; constructor; auto. rewrite Forall_forall in *. intros q I. apply lex_ltb. auto.
Qed.
Lemma sorted_app {A} (le : A -> A -> Prop) l1 l2 : StronglySorted le (l1 ++ l2) ->
  StronglySorted le l1 /\ StronglySorted le l2 /\ forall a b, In a l1 -> In b l2 -> le a b.
Proof.
  induction l1 as [|x l1 IH]; cbn [app]; intros H.
  - split; [constructor|]. split; [exact H|]. intros a b [].
  - inversion H as [|? ? H1 H2]; subst. destruct (IH H1) as (A1 & A2 & A3). rewrite Forall_app in H2. destruct H2 as [F1 F2].
    split; [constructor; auto|]. split; auto. intros a b [<-|I] J; [|auto]. rewrite Forall_forall in F2. auto.
Qed.
Lemma sorted_cut l (x : R) : StronglySorted lex l ->
  exists l1 l2, l = l1 ++ l2 /\ Forall (fun p => fst p < x) l1 /\ Forall (fun p => x <= fst p) l2.
Proof.
  induction 1 as [|p l S IH F]; [exists [], []; auto|].
  destruct IH as (l1 & l2 & -> & A & B). destruct (Rlt_dec (fst p) x) as [L|L].
  - exists (p :: l1), l2. split; [reflexivity|]. auto.
  - exists [], (p :: l1 ++ l2). split; [reflexivity|]. split; auto. constructor; [lra|].
    eapply Forall_impl; [|exact F]. intros q [Q|[Q _]]; lra.
Qed.

(** the first entry with a given x has the smallest y *)
Lemma first_smallest l x y : StronglySorted lex l -> In (x, y) l ->
  exists i y0, index_of Reqb x (map fst l) = Some i /\ nth_error (map snd l) i = Some y0 /\
    In (x, y0) l /\ forall y', In (x, y') l -> y0 <= y'.
Proof.
  induction 1 as [|[a b] l S IH F]; intros I; [destruct I|]. cbn [map index_of fst snd].
  destruct (Reqb a x) eqn:E; rbool.
  - subst a. exists 0%nat, b. split; auto. split; auto. split; [now left|].
    intros y' [Q|Q]; [injection Q as ->; lra|]. rewrite Forall_forall in F. destruct (F _ Q) as [W|[_ W]]; cbn in W; lra.
  - destruct I as [Q|I]; [congruence|]. destruct (IH I) as (i & y0 & E1 & E2 & E3 & E4).
    exists (Datatypes.S i), y0. rewrite E1. split; auto. split; auto. split; [now right|].
    intros y' [Q|Q]; [congruence|auto].
Qed.

(** the search of [linear] in a sorted list *)
Lemma bisect_sorted l (x : R) : StronglySorted lex l -> (2 <= length l)%nat ->
  let xs := map fst l in
  let i := bisect_left xs x 1 (length xs - 1) in
  (1 <= i <= length l - 1)%nat /\
  (forall j, (1 <= j < i)%nat -> nth j xs 0 < x) /\
  (forall j, (i <= j < length l - 1)%nat -> x <= nth j xs 0).
Proof.
  intros S LEN xs i. unfold i, bisect_left.
  assert (LX : length xs = length l) by apply map_length.
  destruct (bisect_loop_spec (fun a => Rltb a x) 0 xs (length xs - 1) 1 (length xs - 1)) as [A [B C]]; try lia.
  - intros j k Hj Hk Hh E. rbool. apply Rltb_true.
    apply Rle_lt_trans with (nth k xs 0); auto. clear -S Hk Hh LX. unfold xs in *.
    assert (K : (k < length l)%nat) by lia. clear Hh LX. revert j k Hk K.
    induction S as [|p l S IH F]; intros j k Hk K; [cbn in K; lia|].
    destruct j as [|j], k as [|k]; cbn [map nth]; try lra; try lia.
    + rewrite Forall_forall in F. assert (K' : (k < length l)%nat) by (cbn in K; lia).
      change 0 with (fst (0, 0)). rewrite map_nth. destruct (F (nth k l (0,0))) as [W|[W _]]; [now apply nth_In| |]; cbn in *; lra.
    + apply IH; cbn in K; lia.
  - rn. rewrite LX in *. split; [exact A|]. split; intros j Hj.
    + specialize (B j Hj). now rbool.
    + specialize (C j Hj). now rbool.
Qed.

Lemma call_linear_at l (x : R) i a b ya yb : (2 <= length l)%nat ->
  bisect_left (map fst l) x 1 (length (map fst l) - 1) = S i ->
  nth_error l i = Some (a, ya) -> nth_error l (S i) = Some (b, yb) ->
  call_linear (map fst l) (map snd l) x =
  (q <- ndiv ((yb - ya) * (a - x)) (a - b) ;; Ok (ya + q)).
Proof.
  intros LEN E A B. unfold call_linear. rewrite E. cbn [Nat.sub]. rewrite Nat.sub_0_r. unfold nth_res.
  rewrite !nth_error_map, A, B. cbn [option_map fst snd bind].
  destruct l as [|p [|q l]]; cbn in LEN; try lia. reflexivity.
Qed.
