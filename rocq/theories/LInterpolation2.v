(** Proofs of the interpolation properties. *)
From Coq Require Import Reals Lra Lia List Bool Arith Sorted Permutation.
From Verif Require Import Num Py Spec SInterpolation LBase LSort MInterpolation LInterpolation.
Import ListNotations.
Open Scope R_scope.

Ltac dfun := match goal with
  | D : distinct ?ps, H1 : In (?x, ?a) ?ps, H2 : In (?x, ?b) ?ps |- ?a = ?b =>
      exact (nodup_fst_fun ps x a b D H1 H2) end.

Lemma rmap_some (r : res R) y : rmap Some r = Ok (Some y) <-> r = Ok y.
Proof. destruct r; simpl; split; intro H; inversion H; auto. Qed.

(** plain kinds: the object and its data *)
Lemma new_plain k (xs ys : list R) : k <> Kflat -> is_log k = false ->
  length xs = length ys -> NoDup xs ->
  exists it, interp_new k xs ys = Ok it /\ i_kind it = k /\ stores it (combine xs ys) /\
    i_default it = match k with Kzero => Some 0 | _ => None end.
Proof.
  intros HK HLg HL ND.
  destruct (new_stores k xs ys HK HL ND) as [it [E [K [S [D _]]]]]; [congruence|].
  rewrite stored_plain in S by auto. exists it; auto.
Qed.

Lemma combine_distinct (xs ys : list R) : length xs = length ys -> NoDup xs -> distinct (combine xs ys).
Proof. intros. unfold distinct. now rewrite map_fst_combine. Qed.

Lemma left_correct (k : ikind) (xs ys : list R) :
  k = Kleft \/ k = Kconstant -> length xs = length ys -> NoDup xs -> xs <> [] ->
  exists f, interp_new k xs ys = Ok f /\
    forall x y, interp_call f x = Ok (Some y) <-> left_value (combine xs ys) x y.
Proof.
  intros HK HL ND NE.
  destruct (new_plain k xs ys) as [it [E [K [S D]]]]; auto;
    try (destruct HK; subst; discriminate); try (destruct HK; subst; reflexivity).
  exists it. split; auto. intros x y.
  destruct (stores_left it _ x S (combine_nonempty _ _ HL NE)) as [v [C V]].
  assert (EQ : interp_call it x = Ok (Some v)).
  { unfold interp_call. rewrite K. destruct HK; subst; now rewrite C. }
  rewrite EQ. split; intro H.
  - inversion H; subst; auto.
  - do 2 f_equal. eapply left_value_fun; eauto using combine_distinct.
Qed.

Lemma right_correct (xs ys : list R) :
  length xs = length ys -> NoDup xs -> xs <> [] ->
  exists f, interp_new Kright xs ys = Ok f /\
    forall x y, interp_call f x = Ok (Some y) <-> right_value (combine xs ys) x y.
Proof.
  intros HL ND NE.
  destruct (new_plain Kright xs ys) as [it [E [K [S D]]]]; auto; try discriminate.
  exists it. split; auto. intros x y.
  destruct (stores_right it _ x S (combine_nonempty _ _ HL NE)) as [v [C V]].
  assert (EQ : interp_call it x = Ok (Some v)).
  { unfold interp_call. rewrite K. now rewrite C. }
  rewrite EQ. split; intro H.
  - inversion H; subst; auto.
  - do 2 f_equal. eapply right_value_fun; eauto using combine_distinct.
Qed.

Lemma nearest_correct (xs ys : list R) :
  length xs = length ys -> NoDup xs -> xs <> [] ->
  exists f, interp_new Knearest xs ys = Ok f /\
    forall x y, interp_call f x = Ok (Some y) <-> nearest_value (combine xs ys) x y.
Proof.
  intros HL ND NE.
  destruct (new_plain Knearest xs ys) as [it [E [K [S D]]]]; auto; try discriminate.
  exists it. split; auto. intros x y.
  destruct (stores_nearest it _ x S (combine_nonempty _ _ HL NE)) as [v [C V]].
  assert (EQ : interp_call it x = Ok (Some v)).
  { unfold interp_call. rewrite K. now rewrite C. }
  rewrite EQ. split; intro H.
  - inversion H; subst; auto.
  - do 2 f_equal. eapply nearest_value_fun; eauto using combine_distinct.
Qed.

Lemma linear_correct (xs ys : list R) :
  length xs = length ys -> NoDup xs -> xs <> [] ->
  exists f, interp_new Klinear xs ys = Ok f /\
    forall x y, interp_call f x = Ok (Some y) <-> linear_value (combine xs ys) x y.
Proof.
  intros HL ND NE.
  destruct (new_plain Klinear xs ys) as [it [E [K [S D]]]]; auto; try discriminate.
  exists it. split; auto. intros x y.
  destruct (stores_linear it _ x S (combine_nonempty _ _ HL NE)) as [v [C V]].
  assert (EQ : interp_call it x = Ok (Some v)).
  { unfold interp_call. rewrite K. now rewrite C. }
  rewrite EQ. split; intro H.
  - inversion H; subst; auto.
  - do 2 f_equal. eapply linear_value_fun; eauto using combine_distinct.
Qed.

Lemma total_calls (k : ikind) (xs ys : list R) :
  In k [Kleft; Kconstant; Kright; Knearest; Klinear] ->
  length xs = length ys -> NoDup xs -> xs <> [] ->
  exists f, interp_new k xs ys = Ok f /\ forall x, exists y, interp_call f x = Ok (Some y).
Proof.
  intros HK HL ND NE.
  destruct (new_plain k xs ys) as [it [E [K [S D]]]]; auto;
    try (simpl in HK; repeat destruct HK as [HK|HK]; subst; (discriminate || reflexivity || contradiction)).
  exists it. split; auto. intro x.
  pose proof (combine_nonempty _ _ HL NE) as NC.
  unfold interp_call. rewrite K.
  simpl in HK; repeat destruct HK as [HK|HK]; subst; try contradiction.
  - destruct (stores_left it _ x S NC) as [v [C V]]. exists v. rewrite C; reflexivity.
  - destruct (stores_left it _ x S NC) as [v [C V]]. exists v. rewrite C; reflexivity.
  - destruct (stores_right it _ x S NC) as [v [C V]]. exists v. rewrite C; reflexivity.
  - destruct (stores_nearest it _ x S NC) as [v [C V]]. exists v. rewrite C; reflexivity.
  - destruct (stores_linear it _ x S NC) as [v [C V]]. exists v. rewrite C; reflexivity.
Qed.

Lemma zero_no_correct (xs ys : list R) :
  length xs = length ys -> NoDup xs ->
  exists fz fn, interp_new Kzero xs ys = Ok fz /\ interp_new Kno xs ys = Ok fn /\
    (forall x, ~ In x xs -> interp_call fz x = Ok (Some 0) /\ interp_call fn x = Ok None) /\
    (forall x y, In (x, y) (combine xs ys) ->
        interp_call fz x = Ok (Some y) /\ interp_call fn x = Ok (Some y)).
Proof.
  intros HL ND.
  destruct (new_plain Kzero xs ys) as [fz [Ez [Kz [Sz Dz]]]]; auto; try discriminate.
  destruct (new_plain Kno xs ys) as [fn [En [Kn [Sn Dn]]]]; auto; try discriminate.
  exists fz, fn. split; auto. split; auto. split.
  - intros x Hx. pose proof (stores_index fz _ x Sz) as Iz. pose proof (stores_index fn _ x Sn) as In'.
    unfold interp_call. rewrite Kz, Kn, Dz, Dn. rn.
    destruct (index_of Reqb x (i_xs fz)).
    + destruct Iz as [y [_ I]]. apply in_combine_l in I. contradiction.
    + destruct (index_of Reqb x (i_xs fn)); auto.
      destruct In' as [y [_ I]]. apply in_combine_l in I. contradiction.
  - intros x y Hx. pose proof (stores_index fz _ x Sz) as Iz. pose proof (stores_index fn _ x Sn) as In'.
    pose proof (combine_distinct _ _ HL ND) as DD.
    unfold interp_call. rewrite Kz, Kn, Dz, Dn. rn.
    destruct (index_of Reqb x (i_xs fz)).
    + destruct Iz as [u [E I]]. rewrite E. assert (u = y) by (dfun). subst.
      split; auto. destruct (index_of Reqb x (i_xs fn)).
      * destruct In' as [u [E' I']]. rewrite E'. assert (u = y) by (dfun). now subst.
      * exfalso. eapply In'; eauto.
    + exfalso. eapply Iz; eauto.
Qed.

Lemma empty_calls (k : ikind) (x : R) :
  In k [Kleft; Kconstant; Kright; Knearest; Klinear; Kloglinear] ->
  exists f, interp_new k [] [] = Ok f /\ interp_call f x = Err OverflowError.
Proof.
  simpl; intros HK; repeat destruct HK as [HK|HK]; subst; try contradiction;
    eexists; split; reflexivity.
Qed.

(** node values for every class *)
Lemma reproduces_points (k : ikind) (xs ys : list R) :
  In k [Kdefault; Kno; Kzero; Kleft; Kconstant; Kright; Knearest; Klinear;
        Kloglinear; Kloglinearrate; Klogconstantrate] ->
  length xs = length ys -> NoDup xs ->
  (is_log k = true -> forall y, In y ys -> 0 < y) ->
  exists f, interp_new k xs ys = Ok f /\
    forall x y, In (x, y) (combine xs ys) -> interp_call f x = Ok (Some y).
Proof.
  intros HK HL ND HP.
  assert (NF : k <> Kflat) by (intro; subst; simpl in HK; intuition discriminate).
  destruct (new_stores k xs ys NF HL ND HP) as [it [E [K [S [D Z]]]]].
  exists it. split; auto. intros x y I.
  pose proof (combine_distinct _ _ HL ND) as DD.
  assert (NC : combine xs ys <> []) by (intro F; rewrite F in I; contradiction).
  assert (SD : distinct (stored k (combine xs ys))) by (now apply stored_distinct).
  assert (LOG : is_log k = true -> 0 < y).
  { intro L. apply HP; auto. eapply in_combine_r; eauto. }
  unfold interp_call. rewrite K.
  assert (IDX : is_log k = false -> 
          (match index_of neqb x (i_xs it) with
           | None => Ok (i_default it) | Some i => rmap Some (nth_res (i_ys it) i) end) = Ok (Some y)).
  { intro L. rewrite stored_plain in S by auto. pose proof (stores_index it _ x S) as Ix. rn.
    destruct (index_of Reqb x (i_xs it)).
    - destruct Ix as [u [Eu Iu]]. rewrite Eu. assert (u = y) by (dfun). now subst.
    - exfalso. eapply Ix; eauto. }
  assert (LV : forall ps u v, distinct ps -> In (x, u) ps -> left_value ps x v -> v = u).
  { intros ps u v Hd Hi [[a [I1 [I2 I3]]]|[B _]].
    - assert (x <= a) by (eapply I3; eauto; lra). assert (a = x) by lra. subst.
      dfun.
    - specialize (B _ _ Hi). lra. }
  destruct k; try congruence; try (apply IDX; reflexivity).
  - rewrite stored_plain in S by reflexivity. destruct (stores_left it _ x S NC) as [v [C V]].
    rewrite C. simpl. do 2 f_equal. exact (LV _ _ _ DD I V).
  - rewrite stored_plain in S by reflexivity. destruct (stores_left it _ x S NC) as [v [C V]].
    rewrite C. simpl. do 2 f_equal. exact (LV _ _ _ DD I V).
  - rewrite stored_plain in S by reflexivity. destruct (stores_right it _ x S NC) as [v [C V]].
    rewrite C. simpl. do 2 f_equal. destruct V as [[a [I1 [I2 I3]]]|[B _]].
    + assert (a <= x) by (eapply I3; eauto; lra). assert (a = x) by lra. subst.
      dfun.
    + specialize (B _ _ I). lra.
  - rewrite stored_plain in S by reflexivity. destruct (stores_nearest it _ x S NC) as [v [C V]].
    rewrite C. simpl. do 2 f_equal. destruct V as [a [I1 [I2 I3]]].
    specialize (I2 _ _ I). replace (x - x) with 0 in I2 by ring. rewrite Rabs_R0 in I2.
    assert (a = x).
    { destruct (Req_dec (a - x) 0) as [Q|Q]; [lra|]. apply Rabs_pos_lt in Q. lra. }
    subst. dfun.
  - rewrite stored_plain in S by reflexivity. destruct (stores_linear it _ x S NC) as [v [C V]].
    rewrite C. simpl. do 2 f_equal. exact (linear_value_node _ _ _ _ DD I V).
  - assert (I' : In (x, ln y) (stored Kloglinear (combine xs ys))).
    { unfold stored; simpl. apply in_transform. exists y; auto. }
    destruct (stores_linear it _ x S) as [v [C V]]; [intro F; rewrite F in I'; contradiction|].
    rewrite C. rn. assert (v = ln y) by (exact (linear_value_node _ _ _ _ SD I' V)). subst v.
    rewrite exp_ln by auto. reflexivity.
  - destruct (ntruthy x) eqn:T.
    + apply ntruthy_true in T.
      assert (I' : In (x, ln y / x) (stored Kloglinearrate (combine xs ys))).
      { unfold stored; simpl. apply in_transform. exists y; split; auto. now apply in_without_zero. }
      destruct (stores_linear it _ x S) as [v [C V]]; [intro F; rewrite F in I'; contradiction|].
      rewrite C. rn. assert (v = ln y / x) by (exact (linear_value_node _ _ _ _ SD I' V)). subst v.
      replace (ln y / x * x) with (ln y) by (field; auto). rewrite exp_ln by auto. reflexivity.
    + apply ntruthy_false in T. subst x. apply Z in I. now rewrite I.
  - destruct (ntruthy x) eqn:T.
    + apply ntruthy_true in T.
      assert (I' : In (x, - ln y / x) (stored Klogconstantrate (combine xs ys))).
      { unfold stored; simpl. apply in_transform. exists y; split; auto. now apply in_without_zero. }
      destruct (stores_left it _ x S) as [v [C V]]; [intro F; rewrite F in I'; contradiction|].
      rewrite C. rn. assert (v = - ln y / x) by (exact (LV _ _ _ SD I' V)). subst v.
      replace (- (- ln y / x) * x) with (ln y) by (field; auto). rewrite exp_ln by auto. reflexivity.
    + apply ntruthy_false in T. subst x. apply Z in I. now rewrite I.
Qed.

(** C09 *)
Lemma consecutive_nonempty ps a ya b yb : consecutive ps a ya b yb -> ps <> [].
Proof. intros [I _] E. rewrite E in I. contradiction. Qed.
Lemma ne_of_combine (xs ys : list R) : combine xs ys <> [] -> xs <> [].
Proof. intros H E; subst; apply H; reflexivity. Qed.

Lemma linear_some (xs ys : list R) x : length xs = length ys -> NoDup xs -> xs <> [] ->
  exists f y, interp_new Klinear xs ys = Ok f /\ interp_call f x = Ok (Some y) /\
              linear_value (combine xs ys) x y.
Proof.
  intros HL ND NE. destruct (linear_correct xs ys HL ND NE) as [f [E H]].
  destruct (new_plain Klinear xs ys) as [it [E' [K [S D]]]]; auto; try discriminate.
  rewrite E in E'. inversion E'; subst it.
  destruct (stores_linear f _ x S (combine_nonempty _ _ HL NE)) as [v [C V]].
  exists f, v. split; auto. split; auto. now apply H.
Qed.

Lemma linear_between (xs ys : list R) a ya b yb x :
  length xs = length ys -> NoDup xs ->
  consecutive (combine xs ys) a ya b yb -> a <= x <= b ->
  exists f y, interp_new Klinear xs ys = Ok f /\ interp_call f x = Ok (Some y) /\
    y = ya + (yb - ya) * ((x - a) / (b - a)) /\ Rmin ya yb <= y <= Rmax ya yb.
Proof.
  intros HL ND C Hx.
  destruct (linear_some xs ys x HL ND) as [f [y [E [Ec V]]]].
  { apply ne_of_combine with ys. eapply consecutive_nonempty; eauto. }
  exists f, y. split; auto. split; auto.
  pose proof (linear_value_consecutive _ _ _ _ _ _ _ (combine_distinct _ _ HL ND) C Hx V) as Q.
  split; [exact Q|]. rewrite Q. apply chord_between; auto. apply C.
Qed.

Lemma linear_outside (xs ys : list R) a ya b yb x :
  length xs = length ys -> NoDup xs ->
  consecutive (combine xs ys) a ya b yb ->
  (is_first (combine xs ys) a /\ x <= a) \/ (is_last (combine xs ys) b /\ b <= x) ->
  exists f y, interp_new Klinear xs ys = Ok f /\ interp_call f x = Ok (Some y) /\
    y = ya + (yb - ya) * ((x - a) / (b - a)).
Proof.
  intros HL ND C Hx.
  destruct (linear_some xs ys x HL ND) as [f [y [E [Ec V]]]].
  { apply ne_of_combine with ys. eapply consecutive_nonempty; eauto. }
  exists f, y. split; auto. split; auto.
  destruct Hx as [[F L]|[F L]].
  - eapply linear_value_left; eauto using combine_distinct.
  - eapply linear_value_right; eauto using combine_distinct.
Qed.

Lemma two_points (xs ys : list R) : length xs = length ys -> NoDup xs -> (2 <= length xs)%nat ->
  exists a b ya yb, In (a, ya) (combine xs ys) /\ In (b, yb) (combine xs ys) /\ a <> b.
Proof.
  intros HL ND H. destruct xs as [|a [|b xs]], ys as [|u [|v ys]]; simpl in *; try lia.
  exists a, b, u, v. inversion ND; subst. simpl in *. intuition.
Qed.

Lemma linear_affine (xs ys : list R) u v x :
  length xs = length ys -> NoDup xs -> (2 <= length xs)%nat ->
  (forall a z, In (a, z) (combine xs ys) -> z = u * a + v) ->
  exists f, interp_new Klinear xs ys = Ok f /\ interp_call f x = Ok (Some (u * x + v)).
Proof.
  intros HL ND H2 H.
  destruct (linear_some xs ys x HL ND) as [f [y [E [Ec V]]]].
  { intro F; subst; simpl in H2; lia. }
  exists f. split; auto. rewrite Ec. do 2 f_equal.
  eapply linear_value_affine; eauto using two_points.
Qed.

(** C10 *)
Lemma if_ok {B} (b : bool) (e : exn) (m : res B) (x : B) : (if b then m else Err e) = Ok x -> b = true /\ m = Ok x.
Proof. destruct b; intro H; [auto|discriminate]. Qed.

Lemma log_positive (k : ikind) (xs ys : list R) f x y :
  is_log k = true -> interp_new k xs ys = Ok f -> interp_call f x = Ok (Some y) -> 0 < y.
Proof.
  intros L E C.
  assert (HK : k = Kloglinear \/ is_rate k = true) by (destruct k; try discriminate; auto).
  destruct HK as [->|HK].
  - cbn [interp_new] in E. apply if_ok in E. destruct E as [P E].
    destruct (mapM nlog ys) as [ll|]; cbn [bind] in E; [|discriminate]. inversion E; subst f; clear E.
    unfold interp_call in C.
    assert (K : i_kind (base_new Kloglinear xs ll None None) = Kloglinear)
      by (unfold base_new; destruct (update_lists _ _ _ _); reflexivity).
    rewrite K in C. destruct (call_linear _ _ _); rn; inversion C. apply exp_pos.
  - assert (Z : exists z ls, y_at_zero xs ys = Ok z /\ f = base_new k (filter ntruthy xs) ls z None /\
       all_positive ys = true).
    { destruct k; try discriminate; cbn [interp_new] in E; apply if_ok in E; destruct E as [P E];
      destruct (y_at_zero xs ys) as [z|]; cbn [bind] in E; try discriminate;
      match type of E with bind ?m _ = _ => destruct m eqn:EM end; cbn [bind] in E; try discriminate;
      inversion E; subst; eauto. }
    destruct Z as [z [ls [Ez [Ef P]]]].
    assert (K : i_kind f = k /\ i_zero f = z)
      by (subst f; unfold base_new; destruct (update_lists _ _ _ _); auto).
    destruct K as [K1 K2].
    assert (ZP : z = Some y -> 0 < y).
    { intro HZ; rewrite HZ in Ez. unfold y_at_zero in Ez. destruct (filter _ xs) as [|z0 l0]; [discriminate|].
      destruct (index_of neqb z0 xs) as [i0|]; [|discriminate].
      destruct (nth_res ys i0) eqn:EN; cbn [bind] in Ez; inversion Ez; subst.
      apply nth_res_inv in EN. destruct EN as [_ EN]. apply nth_error_In in EN.
      rewrite all_positive_true in P. auto. }
    unfold interp_call in C. rewrite K1, K2 in C.
    destruct k; try discriminate; destruct (ntruthy x).
    + destruct (call_linear _ _ _); rn; inversion C. apply exp_pos.
    + inversion C; auto.
    + destruct (call_left _ _ _); rn; inversion C. apply exp_pos.
    + inversion C; auto.
Qed.

Lemma log_nonpositive' (k : ikind) (xs ys : list R) :
  is_log k = true -> (exists y, In y ys /\ y <= 0) -> interp_new k xs ys = Err ValueError.
Proof. intro L. apply log_nonpositive. destruct k; try discriminate; auto. Qed.

Lemma loglinear_correct (xs ys : list R) :
  length xs = length ys -> NoDup xs -> xs <> [] -> (forall y, In y ys -> 0 < y) ->
  exists f, interp_new Kloglinear xs ys = Ok f /\
    forall x, exists l, linear_value (transform (fun _ y => ln y) (combine xs ys)) x l /\
                        interp_call f x = Ok (Some (exp l)).
Proof.
  intros HL ND NE HP.
  destruct (new_stores Kloglinear xs ys) as [it [E [K [S _]]]]; auto; try discriminate.
  exists it. split; auto. intro x.
  destruct (stores_linear it _ x S) as [l [C V]].
  { unfold stored; simpl. unfold transform. intro F. apply map_eq_nil in F.
    revert F. now apply combine_nonempty. }
  exists l. split; auto. unfold interp_call. rewrite K, C. reflexivity.
Qed.

Lemma transform_consecutive f ps a ya b yb : consecutive ps a ya b yb ->
  consecutive (transform f ps) a (f a ya) b (f b yb).
Proof.
  intros [A1 [A2 [A3 A4]]]. split; [apply in_transform; eauto|].
  split; [apply in_transform; eauto|]. split; auto.
  intros c z I. apply in_transform in I. destruct I as [w [I _]]. eauto.
Qed.
Lemma transform_distinct f ps : distinct ps -> distinct (transform f ps).
Proof. unfold distinct. now rewrite fst_transform. Qed.

Lemma loglinear_between (xs ys : list R) a ya b yb x :
  length xs = length ys -> NoDup xs -> (forall y, In y ys -> 0 < y) ->
  consecutive (combine xs ys) a ya b yb -> a <= x <= b ->
  exists f, interp_new Kloglinear xs ys = Ok f /\
    interp_call f x =
    Ok (Some (Rpower ya (1 - (x - a) / (b - a)) * Rpower yb ((x - a) / (b - a)))).
Proof.
  intros HL ND HP C Hx.
  destruct (loglinear_correct xs ys HL ND) as [f [E H]]; auto.
  { apply ne_of_combine with ys. eapply consecutive_nonempty; eauto. }
  exists f. split; auto. destruct (H x) as [l [V Ec]]. rewrite Ec. do 2 f_equal.
  pose proof (transform_consecutive (fun _ y => ln y) _ _ _ _ _ C) as C'. cbv beta in C'.
  assert (Q : l = chord a (ln ya) b (ln yb) x).
  { eapply linear_value_consecutive; eauto. apply transform_distinct, combine_distinct; auto. }
  rewrite Q. unfold Rpower, chord. rewrite <- exp_plus. f_equal. field.
  destruct C as [_ [_ [L _]]]. lra.
Qed.

Lemma nonzero_exists (xs ys : list R) (f : R -> R -> R) : length xs = length ys ->
  (exists a, In a xs /\ a <> 0) -> transform f (without_zero (combine xs ys)) <> [].
Proof.
  intros HL [a [I NZ]] F. apply In_nth with (d := 0) in I. destruct I as [i [Hi E]].
  assert (J : In (a, nth i ys 0) (combine xs ys)).
  { apply in_combine_nth with (da := 0) (db := 0); eauto. }
  assert (J2 : In (a, f a (nth i ys 0)) (transform f (without_zero (combine xs ys)))).
  { apply in_transform. eexists; split; eauto. now apply in_without_zero. }
  rewrite F in J2. contradiction.
Qed.

Lemma neg_transform ps : transform (fun _ z => - z) (transform (fun a y => ln y / a) ps)
  = transform (fun a y => - ln y / a) ps.
Proof.
  unfold transform. rewrite map_map. apply map_ext. intros [a y]; simpl. f_equal. unfold Rdiv. ring.
Qed.

Lemma loglinearrate_correct (xs ys : list R) x :
  length xs = length ys -> NoDup xs -> (forall y, In y ys -> 0 < y) ->
  x <> 0 -> (exists a, In a xs /\ a <> 0) ->
  exists f r, interp_new Kloglinearrate xs ys = Ok f /\
    linear_value (transform (fun a y => - ln y / a) (without_zero (combine xs ys))) x r /\
    interp_call f x = Ok (Some (exp (- r * x))).
Proof.
  intros HL ND HP HX NZ.
  destruct (new_stores Kloglinearrate xs ys) as [it [E [K [S _]]]]; auto; try discriminate.
  destruct (stores_linear it _ x S) as [l [C V]].
  { unfold stored; simpl. now apply nonzero_exists. }
  exists it, (- l). split; auto. split.
  - rewrite <- neg_transform. apply linear_value_map with (u := -1) (v := 0); [intros; ring|exact V].
  - unfold interp_call. rewrite K. rewrite (proj2 (ntruthy_true x) HX), C. rn. do 3 f_equal. ring.
Qed.

Lemma logconstantrate_correct (xs ys : list R) x :
  length xs = length ys -> NoDup xs -> (forall y, In y ys -> 0 < y) ->
  x <> 0 -> (exists a, In a xs /\ a <> 0) ->
  exists f r, interp_new Klogconstantrate xs ys = Ok f /\
    left_value (transform (fun a y => - ln y / a) (without_zero (combine xs ys))) x r /\
    interp_call f x = Ok (Some (exp (- r * x))).
Proof.
  intros HL ND HP HX NZ.
  destruct (new_stores Klogconstantrate xs ys) as [it [E [K [S _]]]]; auto; try discriminate.
  destruct (stores_left it _ x S) as [l [C V]].
  { unfold stored; simpl. now apply nonzero_exists. }
  exists it, l. split; auto. split; auto.
  unfold interp_call. rewrite K. rewrite (proj2 (ntruthy_true x) HX), C. rn. reflexivity.
Qed.

Lemma combine_map_r {A B} (g : A -> B) xs : combine xs (map g xs) = map (fun x => (x, g x)) xs.
Proof. induction xs; simpl; congruence. Qed.

Lemma log_exponential (k : ikind) (xs : list R) r x :
  k = Kloglinearrate \/ k = Klogconstantrate \/ (k = Kloglinear /\ (2 <= length xs)%nat) ->
  NoDup xs -> x <> 0 -> (exists a, In a xs /\ a <> 0) ->
  exists f, interp_new k xs (map (fun a => exp (- r * a)) xs) = Ok f /\
            interp_call f x = Ok (Some (exp (- r * x))).
Proof.
  intros HK ND HX NZ.
  assert (HL : length xs = length (map (fun a => exp (- r * a)) xs)) by (now rewrite map_length).
  assert (HP : forall y, In y (map (fun a => exp (- r * a)) xs) -> 0 < y).
  { intros y I. apply in_map_iff in I. destruct I as [a [<- _]]. apply exp_pos. }
  assert (RT : forall a z, In (a, z) (transform (fun a y => - ln y / a)
      (without_zero (combine xs (map (fun a => exp (- r * a)) xs)))) -> z = r).
  { intros a z I. apply in_transform in I. destruct I as [y [I ->]].
    apply in_without_zero in I. destruct I as [I N0]. rewrite combine_map_r in I.
    apply in_map_iff in I. destruct I as [a' [Q _]]. inversion Q; subst. rewrite ln_exp. field. auto. }
  destruct HK as [->|[->|[-> H2]]].
  - destruct (loglinearrate_correct xs _ x HL ND HP HX NZ) as [f [q [E [V C]]]].
    exists f. split; auto. rewrite C. assert (q = r) by (eapply linear_value_const; eauto). now subst.
  - destruct (logconstantrate_correct xs _ x HL ND HP HX NZ) as [f [q [E [V C]]]].
    exists f. split; auto. rewrite C.
    assert (q = r) by (destruct V as [[a [I _]]|[_ [a [I _]]]]; eauto). now subst.
  - destruct (loglinear_correct xs _ HL ND) as [f [E H]]; auto.
    { destruct NZ as [a [I _]]. intro F; subst; contradiction. }
    exists f. split; auto. destruct (H x) as [l [V C]]. rewrite C. do 3 f_equal.
    replace (- r * x) with (- r * x + 0) by ring.
    eapply linear_value_affine; eauto.
    + destruct (two_points xs _ HL ND H2) as [a [b [ya [yb [I1 [I2 N]]]]]].
      exists a, b, (ln ya), (ln yb). repeat split; auto; apply in_transform; eauto.
    + intros a z I. apply in_transform in I. destruct I as [y [I ->]]. rewrite combine_map_r in I.
      apply in_map_iff in I. destruct I as [a' [Q _]]. inversion Q; subst. rewrite ln_exp. ring.
Qed.

Lemma rate_at_zero (k : ikind) (xs ys : list R) :
  is_rate k = true -> length xs = length ys -> NoDup xs -> (forall y, In y ys -> 0 < y) ->
  exists f, interp_new k xs ys = Ok f /\
    (forall y, In (0, y) (combine xs ys) -> interp_call f 0 = Ok (Some y)) /\
    (~ In 0 xs -> interp_call f 0 = Ok None).
Proof.
  intros HR HL ND HP.
  destruct (new_stores k xs ys) as [it [E [K [S [_ Z]]]]]; auto; try (intro; subst; discriminate).
  exists it. split; auto. rewrite HR in Z.
  assert (C : interp_call it 0 = Ok (i_zero it)).
  { unfold interp_call. rewrite K. destruct k; try discriminate;
      rewrite (proj2 (ntruthy_false 0) eq_refl); reflexivity. }
  rewrite C. split.
  - intros y I. apply Z in I. now rewrite I.
  - intro N. destruct (i_zero it) as [y|] eqn:F; auto. exfalso. apply N.
    eapply in_combine_l. apply Z. reflexivity.
Qed.

(** C11 *)
Lemma interp_update_lists (it : interp R) nx ny :
  let (xs, ys) := update_lists (i_xs it) (i_ys it) nx ny in
  i_kind (interp_update it nx ny) = i_kind it /\
  i_xs (interp_update it nx ny) = xs /\ i_ys (interp_update it nx ny) = ys.
Proof. unfold interp_update. destruct (update_lists _ _ _ _); auto. Qed.

Lemma update_history_gen us : forall (it : interp R) m,
  Forall (fun u : list R * list R => snd u = [] \/ (length (fst u) = length (snd u) /\ NoDup (fst u))) us ->
  represents (i_xs it) (i_ys it) m ->
  let it' := fold_left (fun it u => interp_update it (fst u) (snd u)) us it in
  i_kind it' = i_kind it /\
  represents (i_xs it') (i_ys it') (fold_left dict_update us m).
Proof.
  induction us as [|u us IH]; intros it m HF HR; simpl; [auto|].
  inversion HF; subst.
  pose proof (update_lists_ok (i_xs it) (i_ys it) (fst u) (snd u) m HR H1) as U.
  pose proof (interp_update_lists it (fst u) (snd u)) as L.
  destruct (update_lists (i_xs it) (i_ys it) (fst u) (snd u)) as [xs ys].
  destruct L as [L1 [L2 L3]]. specialize (IH (interp_update it (fst u) (snd u)) (dict_update m u)).
  rewrite L1, L2, L3 in IH. destruct u; apply IH; [assumption|exact U].
Qed.

Lemma update_history (k : ikind) (us : list (list R * list R)) z d :
  Forall (fun u => snd u = [] \/ (length (fst u) = length (snd u) /\ NoDup (fst u))) us ->
  let it := fold_left (fun it u => interp_update it (fst u) (snd u)) us (mkI k [] [] z d) in
  let m := fold_left dict_update us dict_empty in
  i_kind it = k /\ increasing (i_xs it) /\ length (i_xs it) = length (i_ys it) /\
  forall x y, In (x, y) (combine (i_xs it) (i_ys it)) <-> m x = Some y.
Proof.
  intros HF. destruct (update_history_gen us (mkI k [] [] z d) dict_empty HF) as [K H].
  - split; [constructor|]. split; auto. intros x y; simpl; split; [tauto|discriminate].
  - split; auto.
Qed.

Lemma update_duplicates : exists (xs ys : list R),
  length xs = length ys /\ ~ NoDup (fst (update_lists [] [] xs ys)).
Proof.
  exists [1; 1], [2; 3]. split; auto. intro H.
  assert (E : fst (update_lists [] [] [1; 1] [2; 3]) = [1; 1]).
  { unfold update_lists. rewrite update_add_nil, fst_split.
    assert (P : Permutation (map fst (canon (combine [1; 1] [2; 3]))) [1; 1]).
    { apply (Permutation_map fst (canon_perm (combine [1; 1] [2; 3]))). }
    apply Permutation_sym, Permutation_length_2_inv in P. destruct P; auto. }
  rewrite E in H. inversion H as [|u v HN]; subst. apply HN. left. reflexivity.
Qed.

(** C12 *)
Lemma scheme_guards (l m r : ikind) (xs ys : list R) :
  (length xs <> length ys \/ ~ NoDup xs) -> scheme_new l m r xs ys = Err AssertionError.
Proof.
  intros H. unfold scheme_new. destruct (Nat.eqb (length xs) (length ys)) eqn:E; [|reflexivity].
  apply Nat.eqb_eq in E. destruct H as [H|H]; [congruence|]. cbn [negb].
  destruct (Nat.eqb (length xs) (length (dedup neqb xs))) eqn:E2; [|reflexivity].
  apply Nat.eqb_eq in E2. exfalso. apply H. apply dedup_length_nodup. symmetry. exact E2.
Qed.

Lemma scheme_new_inv (l m r : ikind) (xs ys : list R) s : scheme_new l m r xs ys = Ok s ->
  length xs = length ys /\ NoDup xs /\ interp_new l xs ys = Ok (s_left s) /\
  interp_new m xs ys = Ok (s_mid s) /\ interp_new r xs ys = Ok (s_right s).
Proof.
  unfold scheme_new. intro H.
  destruct (Nat.eqb (length xs) (length ys)) eqn:E; cbn [negb bind] in H; [|discriminate H].
  destruct (Nat.eqb (length xs) (length (dedup neqb xs))) eqn:E2; cbn [negb bind] in H; [|discriminate H].
  apply Nat.eqb_eq in E. apply Nat.eqb_eq in E2. symmetry in E2. apply dedup_length_nodup in E2.
  destruct (interp_new m xs ys) as [im|]; cbn [negb bind] in H; [|discriminate H].
  destruct (interp_new r xs ys) as [ir|]; cbn [negb bind] in H; [|discriminate H].
  destruct (interp_new l xs ys) as [il|]; cbn [negb bind] in H; [|discriminate H].
  inversion H; subst; simpl. auto.
Qed.

Lemma scheme_new_ok (l m r : ikind) (xs ys : list R) il im ir :
  length xs = length ys -> NoDup xs -> interp_new l xs ys = Ok il ->
  interp_new m xs ys = Ok im -> interp_new r xs ys = Ok ir ->
  scheme_new l m r xs ys = Ok (mkS il im ir).
Proof.
  intros HL ND E1 E2 E3. unfold scheme_new. rewrite HL, Nat.eqb_refl. simpl.
  rewrite <- HL. rn. rewrite dedup_nodup_id by auto. rewrite Nat.eqb_refl. simpl.
  rewrite E1, E2, E3. reflexivity.
Qed.

(** stored x values *)
Lemma new_log_pos k (xs ys : list R) it : interp_new k xs ys = Ok it ->
  is_log k = true -> forall y, In y ys -> 0 < y.
Proof.
  intros E L. destruct (all_positive ys) eqn:P.
  - now apply all_positive_true.
  - apply all_positive_false in P. rewrite log_nonpositive' in E by auto. discriminate.
Qed.

Lemma new_xs k (xs ys : list R) it : interp_new k xs ys = Ok it ->
  length xs = length ys -> NoDup xs ->
  i_kind it = k /\ increasing (i_xs it) /\
  (forall a, In a (i_xs it) <-> In a xs /\ (is_rate k = true -> a <> 0)).
Proof.
  intros E HL ND.
  assert (NF : k <> Kflat) by (intro; subst; discriminate).
  destruct (new_stores k xs ys NF HL ND (new_log_pos k xs ys it E)) as [it' [E' [K [S _]]]].
  rewrite E in E'. inversion E'; subst it'. split; auto.
  destruct S as [S1 [S2 S3]]. split; auto. intro a.
  assert (P : Permutation (i_xs it) (map fst (stored k (combine xs ys)))).
  { rewrite <- (map_fst_combine (i_xs it) (i_ys it)) by auto. now apply Permutation_map. }
  assert (Q : In a (map fst (stored k (combine xs ys))) <-> In a xs /\ (is_rate k = true -> a <> 0)).
  { unfold stored. rewrite fst_transform. destruct (is_rate k).
    - split.
      + intro I. apply in_map_iff in I. destruct I as [[u v] [Eq I]]. simpl in Eq; subst.
        apply in_without_zero in I. destruct I as [I N]. apply in_combine_l in I. auto.
      + intros [I N]. specialize (N eq_refl).
        apply In_nth with (d := 0) in I. destruct I as [i [Hi Ei]].
        apply in_map_iff. exists (a, nth i ys 0). split; auto. apply in_without_zero. split; auto.
        apply in_combine_nth with (da := 0) (db := 0); eauto.
    - rewrite map_fst_combine by auto. intuition discriminate. }
  rewrite <- Q. split; apply Permutation_in; [|symmetry]; auto.
Qed.

Lemma incr_first_le l a : increasing l -> In a l -> nth 0 l 0 <= a.
Proof.
  intros H I. apply In_nth with (d := 0) in I. destruct I as [i [Hi <-]].
  apply incr_nth_le; auto; lia.
Qed.
Lemma incr_last_ge l a : increasing l -> In a l -> a <= last l 0.
Proof.
  intros H I. rewrite last_nth. apply In_nth with (d := 0) in I. destruct I as [i [Hi <-]].
  apply incr_nth_le; auto; lia.
Qed.

Lemma scheme_call_cases (s : scheme R) x :
  increasing (i_xs (s_left s)) -> increasing (i_xs (s_right s)) ->
  i_xs (s_left s) <> [] -> i_xs (s_right s) <> [] ->
  ((forall a, In a (i_xs (s_left s)) -> x < a) -> scheme_call s x = interp_call (s_left s) x) /\
  ((exists a, In a (i_xs (s_left s)) /\ a <= x) ->
   (forall a, In a (i_xs (s_right s)) -> a < x) -> scheme_call s x = interp_call (s_right s) x) /\
  ((exists a, In a (i_xs (s_left s)) /\ a <= x) ->
   (exists b, In b (i_xs (s_right s)) /\ x <= b) -> scheme_call s x = interp_call (s_mid s) x).
Proof.
  intros HL HR NL NR. unfold scheme_call.
  assert (PL : (0 < length (i_xs (s_left s)))%nat) by (destruct (i_xs (s_left s)); simpl; [congruence|lia]).
  assert (PR : (0 < length (i_xs (s_right s)))%nat) by (destruct (i_xs (s_right s)); simpl; [congruence|lia]).
  rewrite (nth_res_ok _ 0 0) by auto. cbn [bind]. rewrite (last_res_ok _ 0) by auto. cbn [bind]. rn.
  split; [|split].
  - intro H. rewrite (proj2 (Rltb_true _ _)); auto. apply H. apply nth_In; auto.
  - intros [a [I L]] H. rewrite (proj2 (Rltb_false _ _)).
    + rewrite (proj2 (Rltb_true _ _)); auto. apply H. rewrite last_nth. apply nth_In; lia.
    + apply Rle_trans with a; auto. now apply incr_first_le.
  - intros [a [I L]] [b [J M]]. rewrite (proj2 (Rltb_false _ _)).
    + rewrite (proj2 (Rltb_false _ _)); auto. apply Rle_trans with b; auto. now apply incr_last_ge.
    + apply Rle_trans with a; auto. now apply incr_first_le.
Qed.

Lemma in_nonempty {A} (a : A) l : In a l -> l <> [].
Proof. intros I E; subst; contradiction. Qed.

Lemma list_exists_elem (xs : list R) : xs <> [] -> exists a, In a xs.
Proof. destruct xs; [congruence|]. intros _. eexists; left; reflexivity. Qed.

Lemma scheme_dispatch (l m r : ikind) (xs ys : list R) s :
  is_rate l = false -> is_rate r = false -> xs <> [] ->
  scheme_new l m r xs ys = Ok s ->
  exists il im ir, interp_new l xs ys = Ok il /\ interp_new m xs ys = Ok im /\
    interp_new r xs ys = Ok ir /\
    forall x,
      ((forall a, In a xs -> x < a) -> scheme_call s x = interp_call il x) /\
      ((forall a, In a xs -> a < x) -> scheme_call s x = interp_call ir x) /\
      ((exists a b, In a xs /\ In b xs /\ a <= x <= b) -> scheme_call s x = interp_call im x).
Proof.
  intros RL RR NE H. apply scheme_new_inv in H. destruct H as [HL [ND [El [Em Er]]]].
  exists (s_left s), (s_mid s), (s_right s). repeat (split; [assumption|]).
  destruct (new_xs _ _ _ _ El HL ND) as [_ [SL IL]]. destruct (new_xs _ _ _ _ Er HL ND) as [_ [SR IR]].
  rewrite RL in IL. rewrite RR in IR.
  assert (IL' : forall a, In a (i_xs (s_left s)) <-> In a xs) by (intro a; rewrite IL; intuition discriminate).
  assert (IR' : forall a, In a (i_xs (s_right s)) <-> In a xs) by (intro a; rewrite IR; intuition discriminate).
  destruct (list_exists_elem xs NE) as [e Ie].
  intro x. destruct (scheme_call_cases s x) as [C1 [C2 C3]]; auto.
  { eapply in_nonempty. apply IL'. eauto. }
  { eapply in_nonempty. apply IR'. eauto. }
  split; [|split].
  - intro Q. apply C1. intros a I. apply Q, IL', I.
  - intro Q. apply C2.
    + exists e. split; [now apply IL'|]. left. auto.
    + intros a I. apply Q, IR', I.
  - intros [a [b [Ia [Ib Hx]]]]. apply C3.
    + exists a. split; [now apply IL'|tauto].
    + exists b. split; [now apply IR'|tauto].
Qed.

Lemma scheme_dispatch_rate (m : ikind) (xs ys : list R) s :
  (exists a, In a xs /\ a <> 0) ->
  scheme_new Klogconstantrate m Klogconstantrate xs ys = Ok s ->
  exists il im, interp_new Klogconstantrate xs ys = Ok il /\ interp_new m xs ys = Ok im /\
    forall x,
      ((forall a, In a xs -> a <> 0 -> x < a) -> scheme_call s x = interp_call il x) /\
      ((forall a, In a xs -> a <> 0 -> a < x) -> scheme_call s x = interp_call il x) /\
      ((exists a b, In a xs /\ In b xs /\ a <> 0 /\ b <> 0 /\ a <= x <= b) ->
         scheme_call s x = interp_call im x).
Proof.
  intros [e [Ie Ne]] H. apply scheme_new_inv in H. destruct H as [HL [ND [El [Em Er]]]].
  assert (EQ : s_right s = s_left s) by congruence.
  exists (s_left s), (s_mid s). repeat (split; [assumption|]).
  destruct (new_xs _ _ _ _ El HL ND) as [_ [SL IL]]. cbn [is_rate] in IL.
  assert (IL' : forall a, In a (i_xs (s_left s)) <-> In a xs /\ a <> 0) by (intro a; rewrite IL; intuition).
  intro x. destruct (scheme_call_cases s x) as [C1 [C2 C3]]; try rewrite EQ; auto.
  { eapply in_nonempty. apply IL'. eauto. }
  { eapply in_nonempty. apply IL'. eauto. }
  rewrite EQ in C2, C3.
  split; [|split].
  - intro Q. apply C1. intros a I. apply IL' in I. apply Q; tauto.
  - intro Q. apply C2.
    + exists e. split; [now apply IL'|]. left. auto.
    + intros a I. apply IL' in I. apply Q; tauto.
  - intros [a [b [Ia [Ib [Na [Nb Hx]]]]]]. apply C3.
    + exists a. split; [now apply IL'|tauto].
    + exists b. split; [now apply IL'|tauto].
Qed.

Lemma fst_in_pair (xs ys : list R) a : length xs = length ys -> In a xs ->
  exists y, In (a, y) (combine xs ys).
Proof.
  intros HL I. apply In_nth with (d := 0) in I. destruct I as [i [Hi E]].
  exists (nth i ys 0). apply in_combine_nth with (da := 0) (db := 0); eauto.
Qed.

Lemma constant_some (xs ys : list R) x : length xs = length ys -> NoDup xs -> xs <> [] ->
  exists f y, interp_new Kconstant xs ys = Ok f /\ interp_call f x = Ok (Some y) /\
              left_value (combine xs ys) x y.
Proof.
  intros HL ND NE. 
  destruct (total_calls Kconstant xs ys) as [f [E T]]; auto; [simpl; auto|].
  destruct (left_correct Kconstant xs ys) as [f' [E' H]]; auto.
  rewrite E in E'; inversion E'; subst f'.
  destruct (T x) as [y Hy]. exists f, y. split; auto. split; auto. now apply H.
Qed.

Lemma left_value_in ps x y : left_value ps x y -> exists a, In (a, y) ps.
Proof. intros [[a [I _]]|[_ [a [I _]]]]; eauto. Qed.

Lemma linear_scheme_correct (xs ys : list R) x :
  length xs = length ys -> NoDup xs -> xs <> [] ->
  exists s y, fn_new linear_scheme xs ys = Ok s /\ fn_call s x = Ok (Some y) /\
    ((forall a, In a xs -> x <= a) -> forall a, In a xs -> (forall b, In b xs -> a <= b) ->
        In (a, y) (combine xs ys)) /\
    ((forall a, In a xs -> a <= x) -> forall a, In a xs -> (forall b, In b xs -> b <= a) ->
        In (a, y) (combine xs ys)) /\
    ((exists a b, In a xs /\ In b xs /\ a <= x <= b) -> linear_value (combine xs ys) x y) /\
    (forall lo hi, (forall z, In z ys -> lo <= z <= hi) -> lo <= y <= hi).
Proof.
  intros HL ND NE.
  destruct (constant_some xs ys x HL ND NE) as [fc [yc [Ec [Cc Vc]]]].
  destruct (linear_some xs ys x HL ND NE) as [fl [yl [El [Cl Vl]]]].
  pose proof (scheme_new_ok Kconstant Klinear Kconstant xs ys _ _ _ HL ND Ec El Ec) as ES.
  destruct (scheme_dispatch Kconstant Klinear Kconstant _ _ _ eq_refl eq_refl NE ES) as [il [im [ir [E1 [E2 [E3 DI]]]]]].
  rewrite Ec in E1, E3. inversion E1; inversion E3; subst il ir. rewrite El in E2. inversion E2; subst im.
  destruct (DI x) as [D1 [D2 D3]].
  pose proof (combine_distinct _ _ HL ND) as DD.
  assert (EX : exists y, fn_call (FScheme (mkS fc fl fc)) x = Ok (Some y) /\
     ((y = yc /\ ((forall a, In a xs -> x < a) \/ (forall a, In a xs -> a < x))) \/
      (y = yl /\ exists a b, In a xs /\ In b xs /\ a <= x <= b))).
  { simpl fn_call. destruct (Forall_Exists_dec (fun a => x < a) (fun a => Rlt_dec x a) xs) as [F|F].
    - rewrite Forall_forall in F. exists yc. rewrite D1 by auto. auto.
    - rewrite Exists_exists in F. destruct F as [a [Ia La]].
      destruct (Forall_Exists_dec (fun a => a < x) (fun a => Rlt_dec a x) xs) as [G|G].
      + rewrite Forall_forall in G. exists yc. rewrite D2 by auto. auto.
      + rewrite Exists_exists in G. destruct G as [b [Ib Lb]].
        assert (Q : exists a b, In a xs /\ In b xs /\ a <= x <= b).
        { exists a, b. repeat split; auto; lra. }
        exists yl. rewrite D3 by auto. auto. }
  destruct EX as [y [Cy Hy]]. exists (FScheme (mkS fc fl fc)), y.
  split; [unfold fn_new, resolve, linear_scheme; rewrite ES; reflexivity|]. split; auto.
  split; [|split; [|split]].
  - intros Hx a Ia Ma. destruct Hy as [[-> [L|L]]|[-> [p [q [Ip [Iq Hpq]]]]]].
    + destruct Vc as [[c [I1 [I2 I3]]]|[B [c [I1 I2]]]].
      * specialize (L c (in_combine_l _ _ _ _ I1)). lra.
      * destruct (fst_in_pair xs ys a HL Ia) as [ya Iya].
        assert (c = a).
        { apply Rle_antisym; [eapply I2; eauto|]. apply Ma. eapply in_combine_l; eauto. }
        now subst.
    + specialize (L a Ia). specialize (Hx a Ia). lra.
    + assert (a = x) by (specialize (Ma p Ip); specialize (Hx a Ia); lra).
      subst a. destruct (fst_in_pair xs ys x HL Ia) as [ya Iya].
      rewrite (linear_value_node _ _ _ _ DD Iya Vl). auto.
  - intros Hx a Ia Ma. destruct Hy as [[-> [L|L]]|[-> [p [q [Ip [Iq Hpq]]]]]].
    + specialize (L a Ia). specialize (Hx a Ia). lra.
    + destruct Vc as [[c [I1 [I2 I3]]]|[B [c [I1 I2]]]].
      * destruct (fst_in_pair xs ys a HL Ia) as [ya Iya].
        assert (c = a).
        { apply Rle_antisym; [apply Ma; eapply in_combine_l; eauto|].
          eapply I3; eauto. }
        now subst.
      * destruct (fst_in_pair xs ys a HL Ia) as [ya Iya]. specialize (B a ya Iya).
        specialize (L a Ia). lra.
    + assert (a = x).
      { specialize (Ma q Iq). specialize (Hx a Ia). lra. }
      subst a. destruct (fst_in_pair xs ys x HL Ia) as [ya Iya].
      rewrite (linear_value_node _ _ _ _ DD Iya Vl). auto.
  - intros [p [q [Ip [Iq Hpq]]]]. destruct Hy as [[-> [L|L]]|[-> _]]; auto.
    + specialize (L p Ip). lra.
    + specialize (L q Iq). lra.
  - intros lo hi B. destruct Hy as [[-> _]|[-> [p [q [Ip [Iq Hpq]]]]]].
    + destruct (left_value_in _ _ _ Vc) as [a I]. apply B. eapply in_combine_r; eauto.
    + destruct (fst_in_pair xs ys p HL Ip) as [yp Iyp]. destruct (fst_in_pair xs ys q HL Iq) as [yq Iyq].
      eapply linear_value_inside; [| | |exact Vl].
      * exists p, yp. split; auto; lra.
      * exists q, yq. split; auto; lra.
      * intros a z I. apply B. eapply in_combine_r; eauto.
Qed.

Lemma zero_linear_scheme_correct (xs ys : list R) x :
  length xs = length ys -> NoDup xs -> xs <> [] -> (forall a, In a xs -> x < a) ->
  exists s, fn_new zero_linear_scheme xs ys = Ok s /\ fn_call s x = Ok (Some 0).
Proof.
  intros HL ND NE Hx.
  destruct (zero_no_correct xs ys HL ND) as [fz [fn [Ez [_ [Z _]]]]].
  destruct (constant_some xs ys x HL ND NE) as [fc [yc [Ec _]]].
  destruct (linear_some xs ys x HL ND NE) as [fl [yl [El _]]].
  pose proof (scheme_new_ok Kzero Klinear Kconstant xs ys _ _ _ HL ND Ez El Ec) as ES.
  destruct (scheme_dispatch Kzero Klinear Kconstant _ _ _ eq_refl eq_refl NE ES) as [il [im [ir [E1 [E2 [E3 DI]]]]]].
  rewrite Ez in E1. inversion E1; subst il.
  exists (FScheme (mkS fz fl fc)). split; [unfold fn_new, resolve, zero_linear_scheme; rewrite ES; reflexivity|].
  simpl fn_call. destruct (DI x) as [D1 _]. rewrite D1 by auto. apply Z.
  intro I. specialize (Hx x I). lra.
Qed.

(** C13 *)
Lemma from_dict_correct (k : ikind) (ps : list (R * R)) :
  is_log k = false -> NoDup (map fst ps) ->
  from_dict k ps = interp_new k (map fst ps) (map snd ps).
Proof.
  intros L ND. unfold from_dict.
  set (s := sort (fun p q : R * R => nltb (fst p) (fst q)) ps).
  assert (P : Permutation s ps) by apply sort_perm.
  assert (Q : interp_new k (map fst s) (map snd s) = interp_new k (map fst ps) (map snd ps)).
  { apply new_perm; try (now rewrite !map_length).
    - eapply Permutation_NoDup; [|exact ND]. apply Permutation_map. now symmetry.
    - now rewrite !combine_map_fst_snd. }
  destruct k; try discriminate; auto.
Qed.

Lemma update_lists_no_y (xs : list R) : update_lists [] [] xs [] = ([], []).
Proof. unfold update_lists. induction xs; simpl; auto. Qed.

Lemma from_dict_log_broken (k : ikind) (ps : list (R * R)) x :
  is_log k = true -> ps <> [] -> NoDup (map fst ps) -> ~ In 0 (map fst ps) ->
  (forall y, In y (map snd ps) -> 0 < y) -> x <> 0 ->
  exists f g y, interp_new k (map fst ps) (map snd ps) = Ok g /\ interp_call g x = Ok (Some y) /\
    from_dict k ps = Ok f /\ interp_call f x = Err OverflowError.
Proof.
  intros L NE ND NZ HP HX.
  set (xs := map fst ps) in *. set (ys := map snd ps) in *.
  assert (HL : length xs = length ys) by (unfold xs, ys; now rewrite !map_length).
  assert (NX : xs <> []) by (unfold xs; destruct ps; simpl; [congruence|discriminate]).
  assert (G : exists g y, interp_new k xs ys = Ok g /\ interp_call g x = Ok (Some y)).
  { assert (EZ : exists a, In a xs /\ a <> 0).
    { destruct (list_exists_elem xs NX) as [a I]. exists a. split; auto. intro; subst; contradiction. }
    destruct k; try discriminate.
    - destruct (loglinear_correct xs ys HL ND NX HP) as [g [E H]].
      destruct (H x) as [l [_ C]]. eauto.
    - destruct (loglinearrate_correct xs ys x HL ND HP HX EZ) as [g [r [E [_ C]]]]. eauto.
    - destruct (logconstantrate_correct xs ys x HL ND HP HX EZ) as [g [r [E [_ C]]]]. eauto. }
  destruct G as [g [y [Eg Cg]]].
  set (s := sort (fun p q : R * R => nltb (fst p) (fst q)) ps).
  assert (P : Permutation s ps) by apply sort_perm.
  assert (PY : all_positive (map snd s) = true).
  { apply all_positive_true. intros v I. apply HP.
    eapply Permutation_in; [|exact I]. now apply Permutation_map. }
  assert (FZ : filter (fun x => neqb x n0) (map fst s) = []).
  { destruct (filter _ (map fst s)) as [|a l] eqn:E; auto. exfalso.
    assert (I : In a (filter (fun x => neqb x n0) (map fst s))) by (rewrite E; left; auto).
    apply filter_In in I. destruct I as [I Q]. rn. rbool. subst a. apply NZ.
    eapply Permutation_in; [|exact I]. now apply Permutation_map. }
  assert (F : exists f, from_dict k ps = Ok f /\ interp_call f x = Err OverflowError).
  { unfold from_dict. fold s. rewrite PY, FZ. unfold base_new. rewrite update_lists_no_y.
    destruct k; try discriminate; rewrite ?update_lists_no_y; eexists; (split; [reflexivity|]);
      unfold interp_call; simpl i_kind; cbv iota.
    - reflexivity.
    - rewrite (proj2 (ntruthy_true x) HX). reflexivity.
    - rewrite (proj2 (ntruthy_true x) HX). reflexivity. }
  destruct F as [f [Ef Cf]]. exists f, g, y. auto.
Qed.
