(** Lemmas about binary64 arithmetic and the root search over any numbers. *)
From Coq Require Import ZArith Lia List Bool Floats.SpecFloat.
From Verif Require Import Num Py MBracket MFloat SFloat.
Import ListNotations.

Lemma SFopp_opp x : SFopp (SFopp x) = x.
Proof. destruct x; cbn; rewrite ?negb_involutive; reflexivity. Qed.
Lemma SFcompare_opp x y : SFcompare (SFopp x) (SFopp y) = SFcompare y x.
Proof.
  destruct x as [[]|[]| |[] m e], y as [[]|[]| |[] m' e']; cbn; try reflexivity;
    rewrite (Z.compare_antisym e e'); destruct (Z.compare e e'); cbn; try reflexivity;
    change (Pos.compare_cont Eq) with Pos.compare; rewrite (Pos.compare_antisym m m'), ?CompOpp_involutive; reflexivity.
Qed.
Lemma SFltb_opp x y : SFltb (SFopp x) (SFopp y) = SFltb y x.
Proof. unfold SFltb. now rewrite SFcompare_opp. Qed.
Lemma SFleb_opp x y : SFleb (SFopp x) (SFopp y) = SFleb y x.
Proof. unfold SFleb. now rewrite SFcompare_opp. Qed.
Lemma SFsub_opp x y : SFsub 53%Z 1024%Z (SFopp x) (SFopp y) = SFsub 53%Z 1024%Z y x.
Proof.
  destruct x as [[]|[]| |sx m e], y as [[]|[]| |sy m' e']; try reflexivity;
    try (cbn; rewrite ?negb_involutive; reflexivity).
  cbn -[binary_normalize shl_align Z.min]. rewrite (Z.min_comm e' e).
  f_equal. unfold cond_Zopp. destruct sx, sy; cbn [negb]; lia.
Qed.
Lemma SFcompare_zero x : SFcompare (SFopp x) f64_zero = SFcompare f64_zero x.
Proof. destruct x as [[]|[]| |[] m e]; reflexivity. Qed.
Lemma SFleb_zero_l x : SFleb (SFopp x) f64_zero = SFleb f64_zero x.
Proof. unfold SFleb. now rewrite SFcompare_zero. Qed.
Lemma SFleb_zero_r x : SFleb f64_zero (SFopp x) = SFleb x f64_zero.
Proof. rewrite <- SFleb_zero_l. now rewrite SFopp_opp. Qed.

(** * The search over any numbers *)
Section Search.
  Context {T St : Type} {N : Num T} (Inv : St -> Prop).
  Open Scope num_scope.

  Lemma computes_neg (f : T -> st St T) F : computes Inv f F -> computes Inv (negated f) (fun x => nopp (F x)).
  Proof.
    intros C x s J. destruct (C x s J) as (s' & E & J'). exists s'. split; auto. unfold negated, bindS. now rewrite E.
  Qed.
  (** one step *)
  Lemma bracket_step n (f : T -> st St T) F a b p s : computes Inv f F -> Inv s ->
    exists s', Inv s' /\
    let sw := F b <? F a in
    let G := if sw then negated f else f in
    let lo := if sw then F b else F a in
    let hi := if sw then F a else F b in
    let m := a + (b - a) * n_ratio 1 2 in
    bracketing (S n) f a b p s =
      if negb ((lo <=? n0) && (n0 <=? hi)) then (Err AssertionError, s')
      else if (nabs (b - a) <? p) && (nabs (hi - lo) <? p) then (Ok (a, m, b), s')
      else if (if sw then nopp (F m) else F m) <? n0 then bracketing n G m b p s'
      else bracketing n G a m p s'.
  Proof.
    intros C J. destruct (C a s J) as (s1 & E1 & J1). destruct (C b s1 J1) as (s2 & E2 & J2).
    set (m := a + (b - a) * n_ratio 1 2). destruct (C m s2 J2) as (s3 & E3 & J3).
    set (sw := F b <? F a). set (lo := if sw then F b else F a). set (hi := if sw then F a else F b).
    exists (if negb ((lo <=? n0) && (n0 <=? hi)) then s2 else
            if (nabs (b - a) <? p) && (nabs (hi - lo) <? p) then s2 else s3).
    split; [destruct (negb _); auto; destruct (_ && _); auto|].
    cbn [bracketing]. unfold bindS at 1. rewrite E1. unfold bindS at 1. rewrite E2. cbv zeta.
    fold sw. fold lo. fold hi. fold m.
    destruct (negb ((lo <=? n0) && (n0 <=? hi))); [reflexivity|].
    destruct ((nabs (b - a) <? p) && (nabs (hi - lo) <? p)); [reflexivity|].
    unfold bindS at 1. destruct sw.
    - unfold negated at 1, bindS at 1. rewrite E3. cbn [ret]. destruct (nopp (F m) <? n0); reflexivity.
    - rewrite E3. destruct (F m <? n0); reflexivity.
  Qed.

  (** the bisection of an increasing function, without the tests for the end *)
  Definition next (F : T -> T) (p : T) (ab : T * T) : option (T * T) :=
    let (a, b) := ab in
    let m := a + (b - a) * n_ratio 1 2 in
    if negb (F b <? F a) && (F a <=? n0) && (n0 <=? F b) &&
       negb ((nabs (b - a) <? p) && (nabs (F b - F a) <? p))
    then Some (if F m <? n0 then (m, b) else (a, m)) else None.
  Fixpoint nexts (k : nat) (F : T -> T) (p : T) (ab : T * T) : option (T * T) :=
    match k with
    | O => Some ab
    | S k => match next F p ab with Some ab' => nexts k F p ab' | None => None end
    end.
  Lemma next_step (f : T -> st St T) F p a b a' b' n s : computes Inv f F -> Inv s ->
    next F p (a, b) = Some (a', b') ->
    exists s', Inv s' /\ bracketing (S n) f a b p s = bracketing n f a' b' p s'.
  Proof.
    intros C J H. destruct (bracket_step n f F a b p s C J) as (s' & J' & E). exists s'. split; auto.
    cbv zeta in E. unfold next in H.
    destruct (F b <? F a); [discriminate|]. cbn [negb andb] in H.
    destruct ((F a <=? n0) && (n0 <=? F b)) eqn:Q; [|discriminate]. cbn [negb andb] in H, E.
    destruct ((nabs (b - a) <? p) && (nabs (F b - F a) <? p)); [discriminate|]. cbn [negb] in H.
    rewrite E. destruct (F _ <? n0); injection H as <- <-; reflexivity.
  Qed.
  Lemma next_forever (f : T -> st St T) F p k : forall a b a' b', computes Inv f F ->
    nexts k F p (a, b) = Some (a', b') -> next F p (a', b') = Some (a', b') ->
    forall fuel s, Inv s -> exists s', bracketing fuel f a b p s = (Err OutOfFuel, s').
  Proof.
    induction k as [|k IH]; intros a b a' b' C H X fuel.
    - cbn [nexts] in H. injection H as -> ->. induction fuel as [|n IHn]; intros s J; [eexists; reflexivity|].
      destruct (next_step f F p a' b' a' b' n s C J X) as (s' & J' & E). rewrite E. apply IHn, J'.
    - cbn [nexts] in H. destruct (next F p (a, b)) as [[a1 b1]|] eqn:Q; [|discriminate].
      intros s J. destruct fuel as [|n]; [eexists; reflexivity|].
      destruct (next_step f F p a b a1 b1 n s C J Q) as (s' & J' & E). rewrite E. exact (IH a1 b1 a' b' C H X n s' J').
  Qed.
End Search.
