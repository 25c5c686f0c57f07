From Coq Require Import Reals Ranalysis5 Lra Lia List Bool.
From Verif Require Import Num Py MBracket SBracket LBase.
Open Scope R_scope.

Lemma inside_l a b : inside a b a.
Proof. unfold inside, Rmin, Rmax. destruct (Rle_dec a b); lra. Qed.
Lemma inside_r a b : inside a b b.
Proof. unfold inside, Rmin, Rmax. destruct (Rle_dec a b); lra. Qed.
Lemma inside_mid a b : inside a b (a + (b - a) * (1/2)).
Proof. unfold inside, Rmin, Rmax. destruct (Rle_dec a b); lra. Qed.
Lemma inside_sub a b c d x : inside a b c -> inside a b d -> inside c d x -> inside a b x.
Proof. unfold inside, Rmin, Rmax. repeat destruct (Rle_dec _ _); lra. Qed.
Lemma inside_dist a b x y : inside a b x -> inside a b y -> Rabs (x - y) <= Rabs (b - a).
Proof. unfold inside, Rmin, Rmax, Rabs. repeat destruct (Rle_dec _ _); repeat destruct (Rcase_abs _); lra. Qed.

Lemma nabs_R x : nabs (T := R) x = Rabs x.
Proof. unfold nabs. rn. unfold Rltb, Rabs. destruct (Rlt_dec x 0), (Rcase_abs x); rn; lra. Qed.

Lemma classic_sign F a b : sign_change F a b \/ ~ sign_change F a b.
Proof.
  unfold sign_change. destruct (Rle_dec (F a) 0), (Rle_dec 0 (F b)), (Rle_dec (F b) 0), (Rle_dec 0 (F a)); lra.
Qed.

Lemma root_between F a b : sign_change F a b -> (forall x, inside a b x -> continuity_pt F x) ->
  exists x, F x = 0 /\ inside a b x.
Proof.
  intros SC C. unfold sign_change in SC.
  destruct (Req_dec (F a) 0) as [Z|NA]; [exists a; split; auto; apply inside_l|].
  destruct (Req_dec (F b) 0) as [Z|NB]; [exists b; split; auto; apply inside_r|].
  assert (NE : a <> b) by (intros ->; lra).
  assert (K : forall G x y, x < y -> (forall z, x <= z <= y -> continuity_pt G z) -> G x < 0 -> 0 < G y -> exists z, x <= z <= y /\ G z = 0).
  { intros G x y L CG X Y. destruct (IVT_interv G x y CG L X Y) as (z & I & Z). eauto. }
  unfold inside in *. destruct (Rlt_dec a b) as [L|L].
  - rewrite Rmin_left, Rmax_right in * by lra. destruct SC as [SC|SC].
    + destruct (K F a b) as (z & I & Z); auto; try lra. exists z. split; auto.
    + destruct (K (fun x => - F x) a b) as (z & I & Z); auto; try lra.
      { intros z I. apply continuity_pt_opp. auto. }
      exists z. split; auto. lra.
  - rewrite Rmin_right, Rmax_left in * by lra. destruct SC as [SC|SC].
    + destruct (K (fun x => - F x) b a) as (z & I & Z); auto; try lra.
      { intros z I. apply continuity_pt_opp. auto. }
      exists z. split; auto. lra.
    + destruct (K F b a) as (z & I & Z); auto; try lra. exists z. split; auto.
Qed.

Lemma halving x d : 0 < d -> exists n, x / 2 ^ n < d.
Proof.
  intros H. destruct (Pow_x_infinity 2 ltac:(rewrite Rabs_right; lra) (Rabs x / d + 1)) as (n & HN).
  exists n. specialize (HN n (Nat.le_refl n)). pose proof (pow_lt 2 n ltac:(lra)) as PW.
  rewrite Rabs_right in HN by lra.
  apply (Rmult_lt_reg_r (2 ^ n)); auto. unfold Rdiv. rewrite Rmult_assoc, Rinv_l, Rmult_1_r by lra.
  assert (Q : Rabs x < d * 2 ^ n).
  { apply (Rmult_lt_reg_r (/ d)); [now apply Rinv_0_lt_compat|].
    replace (d * 2 ^ n * / d) with (2 ^ n) by (field; lra). unfold Rdiv in HN. lra. }
  pose proof (Rle_abs x). lra.
Qed.

Section Loop.
  Context {St : Type} (Inv : St -> Prop) (at_ : R -> St -> Prop) (p : R).

  Lemma evaluates_sub a b c d f F : evaluates Inv at_ a b f F -> inside a b c -> inside a b d ->
    evaluates Inv at_ c d f F.
  Proof. intros E C D x s I J. exact (E x s (inside_sub _ _ _ _ _ C D I) J). Qed.

  Lemma evaluates_neg a b f F : evaluates Inv at_ a b f F ->
    evaluates Inv at_ a b (negated f) (fun x => - F x).
  Proof.
    intros E x s I J. destruct (E x s I J) as (s' & Q & I' & A). exists s'. unfold negated, bindS. rewrite Q. auto.
  Qed.

  Definition stopped (G : R -> R) a b : Prop := Rabs (b - a) < p /\ Rabs (G b - G a) < p.

  Lemma loop : forall fuel f G a b s, evaluates Inv at_ a b f G -> Inv s -> G a <= 0 <= G b ->
    (exists a' b' k s', bracketing fuel f a b p s = (Ok (a', a' + (b' - a') * (1/2), b'), s') /\
       Inv s' /\ at_ b' s' /\ (k < fuel)%nat /\ b' - a' = (b - a) / 2 ^ k /\
       inside a b a' /\ inside a b b' /\ stopped G a' b' /\ G a' <= 0 <= G b') \/
    (exists s', bracketing fuel f a b p s = (Err OutOfFuel, s') /\ Inv s' /\
       forall k, (k < fuel)%nat -> exists a' b', b' - a' = (b - a) / 2 ^ k /\
         inside a b a' /\ inside a b b' /\ ~ stopped G a' b').
  Proof.
    induction fuel as [|fuel IH]; intros f G a b s E J H.
    - right. exists s. split; [reflexivity|]. split; [auto|]. intros; lia.
    - cbn [bracketing]. unfold bindS.
      destruct (E a s (inside_l a b) J) as (s1 & Ea & J1 & _). rewrite Ea.
      destruct (E b s1 (inside_r a b) J1) as (s2 & Eb & J2 & A2). rewrite Eb.
      rn. assert (N : Rltb (G b) (G a) = false) by (apply Rltb_false; lra). rewrite N.
      assert (L1 : Rleb (G a) 0 = true) by (apply Rleb_true; lra).
      assert (L2 : Rleb 0 (G b) = true) by (apply Rleb_true; lra).
      rewrite L1, L2. cbn [negb andb]. rewrite !nabs_R. change (n_ratio 1 2 : R) with (1/2).
      destruct (Rltb (Rabs (b - a)) p && Rltb (Rabs (G b - G a)) p) eqn:B.
      + apply andb_true_iff in B. destruct B as [B1 B2]. apply Rltb_true in B1, B2.
        left. exists a, b, 0%nat, s2. split; [reflexivity|]. split; [auto|]. split; [auto|]. split; [lia|].
        split; [cbn; lra|]. split; [apply inside_l|]. split; [apply inside_r|]. split; [split; auto|auto].
      + assert (NS : ~ stopped G a b).
        { intros [X Y]. apply Rltb_true in X, Y. rewrite X, Y in B. discriminate. }
        set (m := a + (b - a) * (1/2)). pose proof (inside_mid a b) as IM. fold m in IM.
        destruct (E m s2 IM J2) as (s3 & Em & J3 & _). rewrite Em.
        assert (STEP : forall c d, inside a b c -> inside a b d -> d - c = (b - a) / 2 -> G c <= 0 <= G d ->
          (exists a' b' k s', bracketing fuel f c d p s3 = (Ok (a', a' + (b' - a') * (1/2), b'), s') /\
             Inv s' /\ at_ b' s' /\ (k < S fuel)%nat /\ b' - a' = (b - a) / 2 ^ k /\
             inside a b a' /\ inside a b b' /\ stopped G a' b' /\ G a' <= 0 <= G b') \/
          (exists s', bracketing fuel f c d p s3 = (Err OutOfFuel, s') /\ Inv s' /\
             forall k, (k < S fuel)%nat -> exists a' b', b' - a' = (b - a) / 2 ^ k /\
               inside a b a' /\ inside a b b' /\ ~ stopped G a' b')).
        { intros c d IC ID DC HG. destruct (IH f G c d s3 (evaluates_sub _ _ _ _ _ _ E IC ID) J3 HG) as [Q|Q].
          - destruct Q as (a' & b' & k & s' & Q1 & Q2 & Q3 & Q4 & Q5 & Q6 & Q7 & Q8 & Q9). left.
            exists a', b', (S k), s'. split; [auto|]. split; [auto|]. split; [auto|]. split; [lia|].
            split. { rewrite Q5, DC. cbn. pose proof (pow_lt 2 k ltac:(lra)). field. lra. }
            split; [exact (inside_sub _ _ _ _ _ IC ID Q6)|]. split; [exact (inside_sub _ _ _ _ _ IC ID Q7)|]. auto.
          - destruct Q as (s' & Q1 & Q2 & Q3). right. exists s'. split; [auto|]. split; [auto|].
            intros [|k] LT.
            + exists a, b. split; [cbn; lra|]. split; [apply inside_l|]. split; [apply inside_r|]. auto.
            + destruct (Q3 k ltac:(lia)) as (a' & b' & R1 & R2 & R3 & R4). exists a', b'.
              split. { rewrite R1, DC. cbn. pose proof (pow_lt 2 k ltac:(lra)). field. lra. }
              split; [exact (inside_sub _ _ _ _ _ IC ID R2)|]. split; [exact (inside_sub _ _ _ _ _ IC ID R3)|]. auto. }
        destruct (Rltb (G m) 0) eqn:BM.
        * apply Rltb_true in BM. apply STEP; auto; [apply inside_r|unfold m; lra|lra].
        * apply Rltb_false in BM. apply STEP; auto; [apply inside_l|unfold m; lra|lra].
  Qed.

  (** the first call turns a decreasing pair around *)
  Lemma first : forall fuel f F a b s, evaluates Inv at_ a b f F -> Inv s -> sign_change F a b ->
    exists g G, evaluates Inv at_ a b g G /\ ((forall x, G x = F x) \/ (forall x, G x = - F x)) /\
      (forall x y, Rabs (G x - G y) = Rabs (F x - F y)) /\ G a <= 0 <= G b /\
      (forall x, G x <= 0 <-> (F x <= 0 /\ F a <= F b \/ 0 <= F x /\ F b < F a)) /\
      bracketing fuel f a b p s = bracketing fuel g a b p s.
  Proof.
    intros fuel f F a b s E J H. destruct (Rlt_dec (F b) (F a)) as [L|L].
    - exists (negated f), (fun x => - F x). split; [now apply evaluates_neg|]. split; [auto|].
      split. { intros x y. rewrite <- (Rabs_Ropp (F x - F y)). f_equal. lra. }
      split; [unfold sign_change in H; lra|]. split; [intros; lra|].
      destruct fuel as [|fuel]; [reflexivity|]. cbn [bracketing]. unfold bindS.
      pose proof (evaluates_neg _ _ _ _ E) as En.
      destruct (E a s (inside_l a b) J) as (s1 & Ea & J1 & _). rewrite Ea.
      destruct (E b s1 (inside_r a b) J1) as (s2 & Eb & J2 & _). rewrite Eb.
      assert (Na : negated f a s = (Ok (- F a), s1)) by (unfold negated, bindS; now rewrite Ea).
      assert (Nb : negated f b s1 = (Ok (- F b), s2)) by (unfold negated, bindS; now rewrite Eb).
      rewrite Na, Nb. rn. rewrite !nabs_R.
      assert (B1 : Rltb (F b) (F a) = true) by (now apply Rltb_true).
      assert (B2 : Rltb (- F b) (- F a) = false) by (apply Rltb_false; lra).
      assert (B3 : Rleb (F b) 0 = Rleb 0 (- F b)) by (unfold Rleb; destruct (Rle_dec _ _), (Rle_dec _ _); auto; lra).
      assert (B4 : Rleb 0 (F a) = Rleb (- F a) 0) by (unfold Rleb; destruct (Rle_dec _ _), (Rle_dec _ _); auto; lra).
      rewrite B1, B2, B3, B4. rewrite (andb_comm (Rleb (- F a) 0)).
      replace (- F b - - F a) with (F a - F b) by lra. reflexivity.
    - exists f, F. split; [auto|]. split; [auto|]. split; [auto|]. split; [unfold sign_change in H; lra|].
      split; [intros; lra|]. reflexivity.
  Qed.

  Lemma no_sign_change : forall fuel f F a b s, evaluates Inv at_ a b f F -> Inv s -> ~ sign_change F a b ->
    exists s', bracketing (S fuel) f a b p s = (Err AssertionError, s') /\ Inv s'.
  Proof.
    intros fuel f F a b s E J H. cbn [bracketing]. unfold bindS.
    destruct (E a s (inside_l a b) J) as (s1 & Ea & J1 & _). rewrite Ea.
    destruct (E b s1 (inside_r a b) J1) as (s2 & Eb & J2 & _). rewrite Eb. rn.
    exists s2. split; [|auto]. unfold sign_change in H.
    destruct (Rltb (F b) (F a)) eqn:B.
    - apply Rltb_true in B. destruct (Rleb (F b) 0) eqn:B1; auto. destruct (Rleb 0 (F a)) eqn:B2; auto.
      apply Rleb_true in B1, B2. lra.
    - apply Rltb_false in B. destruct (Rleb (F a) 0) eqn:B1; auto. destruct (Rleb 0 (F b)) eqn:B2; auto.
      apply Rleb_true in B1, B2. lra.
  Qed.

  (** the outcome of a search with sign change *)
  Lemma search : forall fuel f F a b s, evaluates Inv at_ a b f F -> Inv s -> sign_change F a b ->
    (exists a' b' k s', bracketing fuel f a b p s = (Ok (a', a' + (b' - a') * (1/2), b'), s') /\
       Inv s' /\ at_ b' s' /\ (k < fuel)%nat /\ b' - a' = (b - a) / 2 ^ k /\
       inside a b a' /\ inside a b b' /\ stopped F a' b' /\ sign_change F a' b') \/
    (exists s', bracketing fuel f a b p s = (Err OutOfFuel, s') /\ Inv s' /\
       forall k, (k < fuel)%nat -> exists a' b', b' - a' = (b - a) / 2 ^ k /\
         inside a b a' /\ inside a b b' /\ ~ stopped F a' b').
  Proof.
    intros fuel f F a b s E J H.
    destruct (first fuel f F a b s E J H) as (g & G & EG & V & DI & SG & _ & ->).
    assert (ST : forall x y, stopped G x y <-> stopped F x y) by (intros; unfold stopped; now rewrite DI).
    destruct (loop fuel g G a b s EG J SG) as [Q|Q].
    - destruct Q as (a' & b' & k & s' & Q1 & Q2 & Q3 & Q4 & Q5 & Q6 & Q7 & Q8 & Q9). left.
      exists a', b', k, s'. do 7 (split; [assumption|]). split; [now apply ST|].
      unfold sign_change. destruct V as [V|V]; rewrite !V in Q9; lra.
    - destruct Q as (s' & Q1 & Q2 & Q3). right. exists s'. split; [auto|]. split; [auto|].
      intros k K. destruct (Q3 k K) as (a' & b' & R1 & R2 & R3 & R4). exists a', b'. rewrite <- ST. auto.
  Qed.
End Loop.
