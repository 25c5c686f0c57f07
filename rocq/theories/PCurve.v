(** Properties C14 - C16: Curve (dcf/curves/curve.py:145-353). *)
From Coq Require Import Reals Lra Lia List Bool Sorted Permutation.
From Verif Require Import Num Py Spec SInterpolation SCurve LBase LSort MInterpolation
  LInterpolation2 MDates MCurve LCurve LCurve2.
Import ListNotations.
Open Scope R_scope.

(** * C14: for every interpolation and every history of assignments *)
Theorem C14_setitem_map : forall (i : option ispec) (xs ys : list R) (hist : list (R * R)),
  length xs = length ys -> NoDup xs -> known (curve_spec i) ->
  (forall k, In k (spec_kinds (curve_spec i)) -> two_args k) ->
  ((exists k, In k (spec_kinds (curve_spec i)) /\ log_kind k) ->
     (forall y, In y ys -> 0 < y) /\ forall k v, In (k, v) hist -> 0 < v) ->
  ((exists a, In a xs /\ a <> 0) \/ forall k, In k (scheme_ends (curve_spec i)) -> ~ rate_kind k) ->
  exists c c', curve_new i xs ys = Ok c /\
    run (fun c kv => curve_setitem c (fst kv) (snd kv)) c hist = Ok c' /\
    let final := fold_left assign hist (pairs_get (combine xs ys)) in
    (forall x, curve_getitem c' x = match final x with
                                    | Some y => Ok (Some y)
                                    | None => Err KeyError
                                    end) /\
    increasing (c_domain c') /\
    (forall x, In x (c_domain c') <-> final x <> None).
Proof. exact setitem_history. Qed.
Print Assumptions C14_setitem_map.

(** with the default interpolation there is no restriction on the data *)
Theorem C14_setitem_map_default : forall (xs ys : list R) (hist : list (R * R)),
  length xs = length ys -> NoDup xs ->
  exists c c', curve_new None xs ys = Ok c /\
    run (fun c kv => curve_setitem c (fst kv) (snd kv)) c hist = Ok c' /\
    let final := fold_left assign hist (pairs_get (combine xs ys)) in
    (forall x, curve_getitem c' x = match final x with
                                    | Some y => Ok (Some y)
                                    | None => Err KeyError
                                    end) /\
    increasing (c_domain c') /\
    (forall x, In x (c_domain c') <-> final x <> None).
Proof.
  intros xs ys hist L ND. apply (C14_setitem_map None xs ys hist L ND).
  - intros n. discriminate.
  - simpl. unfold two_args. intuition congruence.
  - intros [k [I K]]. exfalso. unfold log_kind in K. simpl in I. intuition congruence.
  - right. intros k I K. unfold rate_kind in K. simpl in I. intuition congruence.
Qed.
Print Assumptions C14_setitem_map_default.

Example C14_example : exists c c', curve_new None [3; 1] [5; 6] = Ok c /\
  run (fun c kv => curve_setitem c (fst kv) (snd kv)) c [(2, 7); (1, 8)] = Ok c' /\
  curve_getitem c' 1 = Ok (Some 8) /\ curve_getitem c' 4 = Err KeyError.
Proof.
  destruct (C14_setitem_map_default [3; 1] [5; 6] [(2, 7); (1, 8)]) as [c [c' [E [R [G _]]]]].
  - reflexivity.
  - repeat constructor; simpl; intuition lra.
  - exists c, c'. split; auto. split; auto. split; rewrite G; simpl; unfold assign; simpl;
    repeat (destruct (Req_EM_T _ _); try lra); reflexivity.
Qed.

(** * C15 *)
Theorem C15_add : forall a b, reachable a -> reachable b ->
  exists c, curve_add a b = Ok c /\ forall x, exists u v,
    curve_call a x = Ok (Some u) /\ curve_call b x = Ok (Some v) /\ curve_call c x = Ok (Some (u + v)).
Proof. exact add_everywhere. Qed.
Print Assumptions C15_add.

Theorem C15_sub : forall a b, reachable a -> reachable b ->
  exists c, curve_sub a b = Ok c /\ forall x, exists u v,
    curve_call a x = Ok (Some u) /\ curve_call b x = Ok (Some v) /\ curve_call c x = Ok (Some (u - v)).
Proof. exact sub_everywhere. Qed.
Print Assumptions C15_sub.

(** multiplication is exact on the union of both domains, which is the new domain *)
Theorem C15_mul : forall a b, reachable a -> reachable b ->
  exists c, curve_mul a b = Ok c /\ increasing (c_domain c) /\
    (forall x, In x (c_domain c) <-> In x (c_domain a) \/ In x (c_domain b)) /\
    forall x, In x (c_domain c) -> exists u v,
    curve_call a x = Ok (Some u) /\ curve_call b x = Ok (Some v) /\ curve_call c x = Ok (Some (u * v)).
Proof. exact (zip_grid Rmult). Qed.
Print Assumptions C15_mul.

Theorem C15_domain : forall op a b, reachable a -> reachable b ->
  exists c, curve_zip op a b = Ok c /\ increasing (c_domain c) /\
    (forall x, In x (c_domain c) <-> In x (c_domain a) \/ In x (c_domain b)) /\
    forall x, In x (c_domain c) -> exists u v,
    curve_call a x = Ok (Some u) /\ curve_call b x = Ok (Some v) /\ curve_call c x = Ok (Some (op u v)).
Proof. exact zip_grid. Qed.
Print Assumptions C15_domain.

Theorem C15_div : forall a b, reachable a -> reachable b ->
  (forall x, In x (c_domain a) \/ In x (c_domain b) -> curve_call b x <> Ok (Some 0)) ->
  exists c, curve_div a b = Ok c /\ increasing (c_domain c) /\
    (forall x, In x (c_domain c) <-> In x (c_domain a) \/ In x (c_domain b)) /\
    forall x, In x (c_domain c) -> exists u v,
    curve_call a x = Ok (Some u) /\ curve_call b x = Ok (Some v) /\ curve_call c x = Ok (Some (u / v)).
Proof. exact div_grid. Qed.
Print Assumptions C15_div.

Theorem C15_div_zero : forall a b, reachable a -> reachable b ->
  (exists x, (In x (c_domain a) \/ In x (c_domain b)) /\ curve_call b x = Ok (Some 0)) ->
  curve_div a b = Err ZeroDivisionError.
Proof. exact div_zero. Qed.
Print Assumptions C15_div_zero.

(** the curves of the statements: any non-empty data set *)
Lemma reachable_any (xs ys : list R) : length xs = length ys -> NoDup xs -> xs <> [] ->
  exists c, curve_new None xs ys = Ok c /\ reachable c /\
    forall x y, In (x, y) (combine xs ys) -> curve_call c x = Ok (Some y).
Proof.
  intros L ND NE. destruct (of_points_exists None (combine xs ys)) as [c [O R]].
  { apply adm_linear. now apply distinct_combine. }
  apply of_points_new in O; auto. exists c. split; auto. split; auto. now apply (r_new xs ys).
Qed.

(** three points and two points, evaluated between grid points *)
Example C15_example : exists a b c,
  curve_new None [1; 2; 4] [10; 20; 0] = Ok a /\ curve_new None [2; 3] [1; 3] = Ok b /\
  curve_add a b = Ok c /\ curve_call c 2 = Ok (Some 21).
Proof.
  destruct (reachable_any [1; 2; 4] [10; 20; 0]) as [a [Ea [Ra Va]]]; try (reflexivity || discriminate).
  { repeat constructor; simpl; intuition lra. }
  destruct (reachable_any [2; 3] [1; 3]) as [b [Eb [Rb Vb]]]; try (reflexivity || discriminate).
  { repeat constructor; simpl; intuition lra. }
  destruct (C15_add a b Ra Rb) as [c [E V]]. exists a, b, c. repeat split; auto.
  destruct (V 2) as [u [v [U [W ->]]]].
  rewrite (Va 2 20) in U by (simpl; auto). rewrite (Vb 2 1) in W by (simpl; auto).
  inversion U; inversion W; subst. do 2 f_equal. lra.
Qed.

(** * C16: [shifted] resamples the curve at shifted points, it does not move it *)
Theorem C16_shifted_refuted : exists c delta x c',
  reachable c /\ In x (c_domain c) /\ curve_shifted c delta = Ok c' /\
  curve_call c x = Ok (Some 10) /\ curve_call c' (x + delta) = Ok (Some 20).
Proof.
  destruct (reachable_any [1; 2] [10; 20]) as [c [E [R V]]]; try (reflexivity || discriminate).
  { repeat constructor; simpl; intuition lra. }
  destruct (shifted_actual c 1 R) as [c' [E' [_ H]]].
  exists c, 1, 1, c'. split; auto.
  assert (I : In 1 (c_domain c)).
  { apply of_points_new in E; [|reflexivity|repeat constructor; simpl; intuition lra].
    apply (good_domain (combine [1; 2] [10; 20])); [split; [discriminate|auto]|simpl; auto]. }
  repeat split; auto.
  - apply V. simpl; auto.
  - rewrite (H 1 I). apply V. simpl. right; left. f_equal; lra.
Qed.
Print Assumptions C16_shifted_refuted.

(** what it does, for every curve and shift *)
Theorem C16_shifted_resamples : forall c delta, reachable c ->
  exists c', curve_shifted c delta = Ok c' /\
    c_domain c' = map (fun x => x + delta) (c_domain c) /\
    forall x, In x (c_domain c) -> curve_call c' (x + delta) = curve_call c (x + delta).
Proof. exact shifted_actual. Qed.
Print Assumptions C16_shifted_resamples.
