(** Lemmas about sampling, shifting and adding date curves, and about [integrate] and
    [derivative]. *)
From Coq Require Import Reals Lra Lia List Bool Sorted Permutation.
From Verif Require Import Num Py Spec SInterpolation SCurve SDates LBase LSort MInterpolation
  LInterpolation LInterpolation2 MDates MCurve LDates LCurve LCurve2 LDateCurve.
Import ListNotations.
Open Scope R_scope.

Section Dates.
  Context {D P : Type} {DS : DateSys R D P} {tm : D -> R} {L : DateLaws DS tm} {DC : DayCounts R D}.

  (** the union of two lists of dates *)
  Lemma dset_sub l x : In x (sorted_set d_ltb d_eqb l) -> In x l.
  Proof.
    unfold sorted_set. intro H. apply (Permutation_in _ (sort_perm _ _)) in H.
    induction l as [|a l IH]; [destruct H|]. simpl in H. destruct (mem d_eqb a l); [right; auto|].
    destruct H; [left|right]; auto.
  Qed.
  Lemma dset_times l t : In t (map tm (sorted_set d_ltb d_eqb l)) <-> In t (map tm l).
  Proof.
    assert (X : forall l : list D, In t (map tm (dedup d_eqb l)) <-> In t (map tm l)).
    { clear l. induction l as [|a l IH]; [reflexivity|]. cbn [dedup map]. destruct (mem d_eqb a l) eqn:M.
      - rewrite IH. simpl. split; [auto|]. intros [<-|]; auto.
        unfold mem in M. apply existsb_exists in M. destruct M as [b [Ib Eb]]. apply law_eqb in Eb.
        apply in_map_iff. exists b. auto.
      - simpl. rewrite IH. reflexivity. }
    transitivity (In t (map tm (dedup d_eqb l))); [|apply X]. unfold sorted_set. split; apply Permutation_in; [|symmetry]; apply Permutation_map, sort_perm.
  Qed.
  Lemma dset_nodup l : NoDup (map tm (sorted_set d_ltb d_eqb l)).
  Proof.
    unfold sorted_set. eapply Permutation_NoDup; [symmetry; apply Permutation_map, sort_perm|].
    induction l as [|a l IH]; simpl; [constructor|]. destruct (mem d_eqb a l) eqn:M; auto.
    simpl. constructor; auto. intro I.
    assert (In (tm a) (map tm l)).
    { apply in_map_iff in I. destruct I as [b [Eb Ib]]. apply in_map_iff. exists b. split; auto.
      clear -Ib. induction l as [|c l IH]; [destruct Ib|]. simpl in Ib. destruct (mem d_eqb c l); [right; auto|].
      destruct Ib; [left|right]; auto. }
    apply in_map_iff in H. destruct H as [b [Eb Ib]].
    assert (mem d_eqb a l = true) by (unfold mem; apply existsb_exists; exists b; split; auto; now apply law_eqb).
    congruence.
  Qed.
  Lemma dset_ne l : l <> [] -> sorted_set d_ltb d_eqb l <> [].
  Proof.
    intros H E. destruct l as [|a l]; [congruence|].
    assert (I : In (tm a) (map tm (sorted_set d_ltb d_eqb (a :: l)))) by (rewrite dset_times; simpl; auto).
    rewrite E in I. destruct I.
  Qed.

  Variables (count : dcspec R D) (tau : D -> D -> R).
  Hypothesis (A : additive (dc_apply count) tau).

  Definition dfun (c : dcurve R D) (d : D) : R :=
    match dc_call c d with Ok (Some y) => y | _ => 0 end.

  (** curves with the default interpolation *)
  Lemma dlin orig o ds ys c : dstate (tm:=tm) count tau linear_scheme None orig o ds ys c -> ds <> [] ->
    (forall d, dc_call c d = Ok (Some (dfun c d))) /\
    (forall d, dc_val c d = Ok (dfun c d)) /\
    (forall d y, In (d, y) (combine ds ys) -> dfun c d = y) /\
    (forall d, piecewise_linear (combine (map (tau o) ds) ys) (tau o d) (dfun c d)).
  Proof.
    intros S NE.
    assert (H : forall d, dc_call c d = Ok (Some (dfun c d)) /\
                          piecewise_linear (combine (map (tau o) ds) ys) (tau o d) (dfun c d)).
    { intro d. destruct (dstate_linear (L:=L) count tau A orig o ds ys c d (tau o)) as [y [E PL]]; auto.
      - intros a b. rewrite <- (add_add _ _ A o a b). lra.
      - unfold dfun. rewrite E. auto. }
    split; [intro d; apply H|]. split; [|split; [|intro d; apply H]].
    - intro d. unfold dc_val. destruct (H d) as [-> _]. reflexivity.
    - intros d y I. destruct (H d) as [_ PL]. apply (pl_node (combine (map (tau o) ds) ys) (tau o d)); auto.
      + apply (times_distinct (L:=L) count tau A); apply S.
      + now apply in_times.
  Qed.

  (** data sampled from a function *)
  Lemma combine_map_r {B} (g : D -> B) xs x y : In (x, y) (combine xs (map g xs)) -> y = g x.
  Proof. induction xs as [|a xs IH]; simpl; [tauto|]. intros [E|I]; [now inversion E|auto]. Qed.
  Lemma in_combine_map {B} (g : D -> B) xs x : In x xs -> In (x, g x) (combine xs (map g xs)).
  Proof. induction xs as [|a xs IH]; simpl; [tauto|]. intros [<-|I]; auto. Qed.

  Lemma dnew_on (g : D -> R) xs orig : xs <> [] -> NoDup (map tm xs) ->
    exists c o, dc_new linear_scheme xs (map g xs) None orig count = Ok c /\
      dstate (tm:=tm) count tau linear_scheme None orig o xs (map g xs) c /\
      dom_origin orig xs = Some o /\ dc_count c = count /\
      forall x, In x xs -> dc_call c x = Ok (Some (g x)).
  Proof.
    intros NE ND. assert (HL : length xs = length (map g xs)) by now rewrite map_length.
    assert (exists o, dom_origin orig xs = Some o) as [o HO].
    { unfold dom_origin. destruct orig; eauto. destruct xs; [congruence|]. simpl. eauto. }
    destruct (dstate_exists (tm:=tm) count tau linear_scheme None orig o xs (map g xs)) as [c S]; auto.
    - apply adm_admissible. split; [intros n; discriminate|]. split; [apply (times_distinct (L:=L) count tau A); auto|]. split; [|split].
      + simpl. unfold two_args. intuition congruence.
      + intros [k [Ik Lk]]. exfalso. apply log_kind_b in Lk. simpl in Ik. intuition; subst; discriminate.
      + right. intros k Ik Rk. apply rate_kind_b in Rk. simpl in Ik. intuition; subst; discriminate.
    - exists c, o. split; [now apply (dstate_iff count tau A linear_scheme xs _ None orig o)|].
      split; auto. split; auto. destruct (dstate_origin _ _ _ _ _ _ _ _ _ S) as [_ [HC _]]. split; auto.
      intros x Ix. destruct (dlin _ _ _ _ _ S NE) as [H1 [_ [H2 _]]]. rewrite H1. do 2 f_equal.
      apply H2. now apply in_combine_map.
  Qed.
End Dates.

(** sums of two piecewise linear curves over a common refinement *)
Lemma pl_sum (ps qs rs : points) (f g h : R -> R) : ps <> [] -> qs <> [] -> distinct ps -> distinct qs ->
  (forall x, piecewise_linear ps x (f x)) -> (forall x, piecewise_linear qs x (g x)) ->
  (forall x, piecewise_linear rs x (h x)) ->
  (forall a, In a (map fst rs) <-> In a (map fst ps) \/ In a (map fst qs)) ->
  forall k, (forall a z, In (a, z) rs -> z = f a + k * g a) ->
  forall x, h x = f x + k * g x.
Proof.
  intros N1 N2 D1 D2 H1 H2 H3 HD k HV x.
  apply (pl_on_recover rs (fun x => f x + k * g x) x (h x)); auto.
  apply pl_on_plus; [|apply pl_on_scale].
  - apply (pl_on_weaken (fun a => In a (map fst ps))); [|now apply pl_is_pl_on]. intros c Hc. apply HD. auto.
  - apply (pl_on_weaken (fun a => In a (map fst qs))); [|now apply pl_is_pl_on]. intros c Hc. apply HD. auto.
Qed.

(** the piecewise linear function through given points *)
Lemma pl_function (xs ys : list R) : length xs = length ys -> NoDup xs -> xs <> [] ->
  exists f : R -> R, forall x, piecewise_linear (combine xs ys) x (f x).
Proof.
  intros H ND NE. destruct (scheme_pl xs ys H ND NE) as [f [_ Hf]].
  exists (fun x => match fn_call f x with Ok (Some y) => y | _ => 0 end).
  intro x. destruct (Hf x) as [y [-> PL]]. exact PL.
Qed.
