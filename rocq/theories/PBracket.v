(** Properties C43 and C44: the root search of the pricers. *)
From Coq Require Import Reals Lra Lia List Bool.
From Verif Require Import Num Py MBracket SBracket LBase LBracket.
Open Scope R_scope.

Section Search.
  Context {St : Type} (Inv : St -> Prop) (at_ : R -> St -> Prop).
  Implicit Types (f : R -> st St R) (F : R -> R) (a b p : R).

  (** * C43: the result of the search *)
  Theorem C43_bracket : forall fuel f F a b p s a' m b' s',
    evaluates Inv at_ a b f F -> Inv s ->
    bracketing fuel f a b p s = (Ok (a', m, b'), s') ->
    Rabs (b' - a') < p /\ Rabs (F b' - F a') < p /\ sign_change F a' b' /\ m = (a' + b') / 2 /\
    inside a b a' /\ inside a b b' /\ Inv s' /\ at_ b' s'.
  Proof.
    intros fuel f F a b p s a' m b' s' E J H.
    assert (SC : sign_change F a b).
    { destruct (classic_sign F a b) as [C|C]; auto. destruct fuel as [|fuel]; [discriminate|].
      destruct (no_sign_change Inv at_ p fuel f F a b s E J C) as (s2 & X & _). rewrite X in H. discriminate. }
    destruct (search Inv at_ p fuel f F a b s E J SC) as [Q|Q].
    - destruct Q as (a2 & b2 & k & s2 & Q1 & Q2 & Q3 & _ & _ & Q6 & Q7 & [Q8 Q9] & Q10).
      rewrite Q1 in H. injection H as <- <- <- <-.
      do 3 (split; [assumption|]). split; [lra|]. auto.
    - destruct Q as (s2 & Q1 & _). rewrite Q1 in H. discriminate.
  Qed.

  (** both end values are smaller than the precision, so is the value at the midpoint of a
      monotone function *)
  Theorem C43_values : forall fuel f F a b p s a' m b' s',
    evaluates Inv at_ a b f F -> Inv s ->
    bracketing fuel f a b p s = (Ok (a', m, b'), s') ->
    Rabs (F a') < p /\ Rabs (F b') < p /\
    ((forall x y, inside a b x -> inside a b y -> x <= y -> F x <= F y) \/
     (forall x y, inside a b x -> inside a b y -> x <= y -> F y <= F x) -> Rabs (F m) < p).
  Proof.
    intros fuel f F a b p s a' m b' s' E J H.
    destruct (C43_bracket _ _ _ _ _ _ _ _ _ _ _ E J H) as (D1 & D2 & SC & M & Ia & Ib & _).
    assert (A : Rabs (F a') < p) by (unfold Rabs, sign_change in *; repeat destruct (Rcase_abs _); lra).
    assert (B : Rabs (F b') < p) by (unfold Rabs, sign_change in *; repeat destruct (Rcase_abs _); lra).
    split; auto. split; auto. intros MO.
    assert (Im : inside a b m).
    { apply (inside_sub a b a' b'); auto. rewrite M. unfold inside, Rmin, Rmax. destruct (Rle_dec a' b'); lra. }
    assert (BT : F a' <= F m <= F b' \/ F b' <= F m <= F a').
    { destruct (Rle_dec a' b'); destruct MO as [MO|MO].
      - left. split; apply MO; auto; lra.
      - right. split; apply MO; auto; lra.
      - right. split; apply MO; auto; lra.
      - left. split; apply MO; auto; lra. }
    clear - A B BT. unfold Rabs in *. repeat destruct (Rcase_abs _); lra.
  Qed.

  (** a continuous function has a root nearer than half the precision to the midpoint *)
  Theorem C43_root : forall fuel f F a b p s a' m b' s',
    evaluates Inv at_ a b f F -> Inv s -> (forall x, inside a b x -> continuity_pt F x) ->
    bracketing fuel f a b p s = (Ok (a', m, b'), s') ->
    exists x, F x = 0 /\ inside a' b' x /\ Rabs (x - m) < p / 2.
  Proof.
    intros fuel f F a b p s a' m b' s' E J C H.
    destruct (C43_bracket _ _ _ _ _ _ _ _ _ _ _ E J H) as (D1 & D2 & SC & M & Ia & Ib & _).
    assert (R : exists x, F x = 0 /\ inside a' b' x).
    { assert (C' : forall x, inside a' b' x -> continuity_pt F x) by (intros x I; apply C; exact (inside_sub _ _ _ _ _ Ia Ib I)).
      clear - SC C'. apply root_between; auto. }
    destruct R as (x & Z & I). exists x. split; auto. split; auto.
    rewrite M. clear - I D1. unfold inside, Rmin, Rmax, Rabs in *. repeat destruct (Rle_dec _ _); repeat destruct (Rcase_abs _); lra.
  Qed.

  (** the search fails with AssertionError exactly if zero is not between the end values *)
  Theorem C43_assertion : forall fuel f F a b p s,
    evaluates Inv at_ a b f F -> Inv s ->
    (~ sign_change F a b <-> exists s', bracketing (S fuel) f a b p s = (Err AssertionError, s')).
  Proof.
    intros fuel f F a b p s E J. split.
    - intros C. destruct (no_sign_change Inv at_ p fuel f F a b s E J C) as (s2 & X & _). eauto.
    - intros (s' & X) C. destruct (search Inv at_ p (S fuel) f F a b s E J C) as [Q|Q].
      + destruct Q as (a2 & b2 & k & s2 & Q1 & _). congruence.
      + destruct Q as (s2 & Q1 & _). congruence.
  Qed.

  (** * C44: termination *)
  (** with n such that the n-th bisection is below the precision, for arguments and for
      values of a Lipschitz function, n + 1 calls suffice *)
  Theorem C44_lipschitz : forall f F a b p s n K,
    evaluates Inv at_ a b f F -> Inv s -> sign_change F a b ->
    (forall x y, inside a b x -> inside a b y -> Rabs (F x - F y) <= K * Rabs (x - y)) ->
    Rabs (b - a) / 2 ^ n < p -> K * (Rabs (b - a) / 2 ^ n) < p ->
    exists r s', bracketing (S n) f a b p s = (Ok r, s').
  Proof.
    intros f F a b p s n K E J C LI P1 P2.
    destruct (search Inv at_ p (S n) f F a b s E J C) as [Q|Q].
    - destruct Q as (a2 & b2 & k & s2 & Q1 & _). eauto.
    - destruct Q as (s2 & Q1 & _ & Q3). destruct (Q3 n ltac:(lia)) as (a' & b' & R1 & R2 & R3 & R4).
      destruct R4. pose proof (pow_lt 2 n ltac:(lra)) as PW.
      assert (A : Rabs (b' - a') = Rabs (b - a) / 2 ^ n).
      { rewrite R1. unfold Rdiv. rewrite Rabs_mult, (Rabs_right (/ 2 ^ n)); auto.
        left. now apply Rinv_0_lt_compat. }
      split; [lra|]. specialize (LI b' a' R3 R2). rewrite A in LI. lra.
  Qed.

  (** the search terminates for every continuous function and every precision *)
  Theorem C44_continuous : forall f F a b p s,
    evaluates Inv at_ a b f F -> Inv s -> sign_change F a b -> 0 < p ->
    (forall x, inside a b x -> continuity_pt F x) ->
    exists fuel r s', bracketing fuel f a b p s = (Ok r, s').
  Proof.
    intros f F a b p s E J C HP CO.
    destruct (@Heine_cor2 F (Rmin a b) (Rmax a b) CO (mkposreal p HP)) as (delta & HD). cbn in HD.
    destruct delta as [delta Hd]. cbn in HD.
    destruct (halving (Rabs (b - a)) (Rmin delta p)) as (n & HN).
    { apply Rmin_glb_lt; auto. }
    pose proof (Rmin_l delta p). pose proof (Rmin_r delta p).
    destruct (search Inv at_ p (S n) f F a b s E J C) as [Q|Q].
    - destruct Q as (a2 & b2 & k & s2 & Q1 & _). eauto.
    - destruct Q as (s2 & Q1 & _ & Q3). destruct (Q3 n ltac:(lia)) as (a' & b' & R1 & R2 & R3 & R4).
      destruct R4. pose proof (pow_lt 2 n ltac:(lra)) as PW.
      assert (A : Rabs (b' - a') = Rabs (b - a) / 2 ^ n).
      { rewrite R1. unfold Rdiv. rewrite Rabs_mult, (Rabs_right (/ 2 ^ n)); auto.
        left. now apply Rinv_0_lt_compat. }
      split; [lra|]. apply HD; auto. rewrite A. lra.
  Qed.
End Search.

(** REFUTED for functions which jump over zero by the precision or more: the search never ends *)
Theorem C44_jump_refuted : forall p, p <= 2 -> forall fuel,
  bracketing fuel (plain (fun x => if Rle_dec 0 x then 1 else -1)) (-1) 1 p tt = (Err OutOfFuel, tt).
Proof.
  intros p HP fuel. set (F := fun x => if Rle_dec 0 x then 1 else -1).
  assert (E : evaluates (fun _ : unit => True) (fun _ _ => True) (-1) 1 (plain F) F).
  { intros x s _ _. exists s. unfold plain, ret. auto. }
  assert (C : sign_change F (-1) 1).
  { left. unfold F. destruct (Rle_dec 0 (-1)), (Rle_dec 0 1); lra. }
  destruct (search _ _ p fuel _ F (-1) 1 tt E I C) as [Q|Q].
  - destruct Q as (a2 & b2 & k & s2 & _ & _ & _ & _ & _ & _ & _ & [_ Q8] & Q9). exfalso.
    unfold sign_change, F in *. destruct (Rle_dec 0 a2), (Rle_dec 0 b2); unfold Rabs in Q8; destruct (Rcase_abs _); lra.
  - destruct Q as (s2 & Q1 & _). rewrite Q1. now destruct s2.
Qed.
Print Assumptions C43_bracket.
Print Assumptions C43_values.
Print Assumptions C43_root.
Print Assumptions C43_assertion.
Print Assumptions C44_lipschitz.
Print Assumptions C44_continuous.
Print Assumptions C44_jump_refuted.

(** instance: the root of x^2 - 2 between 0 and 2 to one thousandth; 14 calls suffice *)
Example bracket_instance : exists a m b,
  bracketing 14 (plain (fun x => x * x - 2)) 0 2 (1/1000) tt = (Ok (a, m, b), tt) /\
  exists x, x * x = 2 /\ Rabs (x - m) < 1/2000.
Proof.
  set (F := fun x => x * x - 2).
  assert (E : evaluates (fun _ : unit => True) (fun _ _ => True) 0 2 (plain F) F).
  { intros x s _ _. exists s. unfold plain, ret. auto. }
  assert (C : sign_change F 0 2) by (left; unfold F; lra).
  destruct (C44_lipschitz _ _ (plain F) F 0 2 (1/1000) tt 13 4 E I C) as ([[a m] b] & [] & H).
  - intros x y. unfold inside. rewrite Rmin_left, Rmax_right by lra. intros X Y. unfold F.
    replace (x * x - 2 - (y * y - 2)) with ((x + y) * (x - y)) by ring. rewrite Rabs_mult.
    apply Rmult_le_compat_r; [apply Rabs_pos|]. rewrite Rabs_right; lra.
  - rewrite Rabs_right by lra. cbn. lra.
  - rewrite Rabs_right by lra. cbn. lra.
  - exists a, m, b. split; [exact H|].
    assert (CO : forall x, inside 0 2 x -> continuity_pt F x).
    { intros x _. apply derivable_continuous_pt. unfold F. reg. }
    destruct (C43_root _ _ _ _ _ _ _ _ _ _ _ _ _ E I CO H) as (x & Z & _ & D).
    exists x. unfold F in Z. split; lra.
Qed.
