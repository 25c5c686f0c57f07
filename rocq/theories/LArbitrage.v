(** Lemmas for C107. *)
From Coq Require Import Reals Lra Lia List Bool.
From Verif Require Import Num Spec SInterpolation SCurve SArbitrage LBase LCurve.
Import ListNotations.
Open Scope R_scope.

Lemma chord_forward a ya b yb x y : a < b ->
  chord a ya b yb y * y - chord a ya b yb x * x = (ya + slope a ya b yb * (x + y - a)) * (y - x).
Proof. intro H. unfold chord, slope. field. lra. Qed.

Lemma segment_rising a ya b yb x y : a < b -> 0 <= ya + a * slope a ya b yb -> 0 <= yb + b * slope a ya b yb ->
  a <= x -> x <= y -> y <= b -> 0 <= ya + slope a ya b yb * (x + y - a).
Proof.
  intros H A B Hx Hxy Hy. set (m := slope a ya b yb) in *.
  assert (E : yb = ya + m * (b - a)) by (unfold m, slope; field; lra).
  destruct (Rle_lt_dec 0 m) as [M|M].
  - assert (m * (2 * a) <= m * (x + y)) by (apply Rmult_le_compat_l; lra). lra.
  - assert (m * (2 * b) <= m * (x + y)) by (apply Rmult_le_compat_neg_l; lra). lra.
Qed.

Lemma dec_inside (ps : points) x y :
  (exists a z, In (a, z) ps /\ x < a < y) \/ (forall a z, In (a, z) ps -> a <= x \/ y <= a).
Proof.
  induction ps as [|[a z] ps [(b & w & I & H)|IH]].
  - right. intros a z [].
  - left. exists b, w. split; [now right|auto].
  - destruct (Rle_lt_dec a x); [|destruct (Rle_lt_dec y a)].
    + right. intros b w [E|I]; [injection E as <- <-; auto|eauto].
    + right. intros b w [E|I]; [injection E as <- <-; auto|eauto].
    + left. exists a, z. split; [now left|lra].
Qed.

(** no knot between x and y: both are on one chord or outside on one side *)
Lemma same_piece ps x y u v : ps <> [] -> distinct ps -> x < y ->
  (forall a z, In (a, z) ps -> a <= x \/ y <= a) -> piecewise_linear ps x u -> piecewise_linear ps y v ->
  (exists a ya b yb, consecutive ps a ya b yb /\ a <= x /\ y <= b /\ u = chord a ya b yb x /\ v = chord a ya b yb y) \/
  (exists a z, In (a, z) ps /\ (is_first ps a /\ y <= a \/ is_last ps a /\ a <= x) /\ u = z /\ v = z).
Proof.
  intros NE DD L G U V. destruct (dec_before ps x) as [B|Q].
  - right. destruct (least_above ps y) as [a [z [Ia [La Ma]]]].
    { destruct ps as [|[a z] ps']; [congruence|]. exists a, z. split; [simpl; auto|].
      destruct (G a z (or_introl eq_refl)); auto. specialize (B a z (or_introl eq_refl)). lra. }
    assert (F : is_first ps a).
    { intros c w Ic. destruct (G c w Ic) as [H|H]; [specialize (B c w Ic); lra|eauto]. }
    exists a, z. split; auto. split; [left; auto|]. split.
    + apply (pl_fun ps x); auto. right; left. exists a. repeat split; auto. lra.
    + apply (pl_fun ps y); auto. right; left. exists a. repeat split; auto.
  - destruct (dec_after ps y) as [A|Q'].
    + right. destruct (greatest_below ps x Q) as [a [z [Ia [La Ma]]]].
      assert (F : is_last ps a).
      { intros c w Ic. destruct (G c w Ic) as [H|H]; [eauto|specialize (A c w Ic); lra]. }
      exists a, z. split; auto. split; [right; auto|]. split.
      * apply (pl_fun ps x); auto. right; right. exists a. repeat split; auto.
      * apply (pl_fun ps y); auto. right; right. exists a. repeat split; auto. lra.
    + left. destruct (greatest_below ps x Q) as [a [z [Ia [La Ma]]]].
      destruct (least_above ps y Q') as [b [w [Ib [Lb Mb]]]].
      assert (C : consecutive ps a z b w).
      { split; auto. split; auto. split; [lra|]. intros c t Ic. destruct (G c t Ic); eauto. }
      exists a, z, b, w. split; auto. split; auto. split; auto. split.
      * apply (pl_fun ps x); auto. left. exists a, z, b, w. split; auto. split; [lra|auto].
      * apply (pl_fun ps y); auto. left. exists a, z, b, w. split; auto. split; [lra|auto].
Qed.

Definition inside_b (x y : R) (p : R * R) : bool := Rltb x (fst p) && Rltb (fst p) y.

Lemma filter_shrinks {A} (f g : A -> bool) l : (forall a, f a = true -> g a = true) ->
  (exists a, In a l /\ g a = true /\ f a = false) -> (length (filter f l) < length (filter g l))%nat.
Proof.
  intros H [a [I [Ga Fa]]]. assert (LE : forall l, (length (filter f l) <= length (filter g l))%nat).
  { clear -H. induction l as [|b l IH]; auto. simpl. specialize (H b). destruct (f b), (g b); simpl; try lia; now discriminate H. }
  induction l as [|b l IH]; [destruct I|]. simpl. destruct I as [->|I].
  - rewrite Fa, Ga. simpl. specialize (LE l). lia.
  - specialize (IH I). specialize (H b). destruct (f b), (g b); simpl; try lia; now discriminate H.
Qed.

(** then rate times time never falls *)
Lemma rising ps : ps <> [] -> distinct ps -> forwards_nonneg ps ->
  forall x y u v, x <= y -> piecewise_linear ps x u -> piecewise_linear ps y v -> u * x <= v * y.
Proof.
  intros NE DD [F1 F2].
  assert (X : forall n x y u v, (length (filter (inside_b x y) ps) < n)%nat -> x < y ->
    piecewise_linear ps x u -> piecewise_linear ps y v -> u * x <= v * y).
  { induction n as [|n IH]; intros x y u v Hn L U V; [lia|].
    destruct (dec_inside ps x y) as [(a & z & I & H)|G].
    - destruct (pl_total ps a NE) as [w W].
      apply Rle_trans with (w * a).
      + apply IH; auto; [|lra].
        eapply Nat.lt_le_trans; [apply (filter_shrinks _ (inside_b x y))|lia].
        * intros [b t]. unfold inside_b. cbn [fst]. rewrite !andb_true_iff, !Rltb_true. lra.
        * exists (a, z). split; auto. unfold inside_b. cbn [fst]. rewrite !andb_true_iff, !andb_false_iff, !Rltb_true, !Rltb_false. lra.
      + apply IH; auto; [|lra].
        eapply Nat.lt_le_trans; [apply (filter_shrinks _ (inside_b x y))|lia].
        * intros [b t]. unfold inside_b. cbn [fst]. rewrite !andb_true_iff, !Rltb_true. lra.
        * exists (a, z). split; auto. unfold inside_b. cbn [fst]. rewrite !andb_true_iff, !andb_false_iff, !Rltb_true, !Rltb_false. lra.
    - destruct (same_piece ps x y u v NE DD L G U V) as [(a & ya & b & yb & C & Ha & Hb & -> & ->)|(a & z & I & E & -> & ->)].
      + destruct (F2 a ya b yb C) as [P1 P2]. destruct C as (_ & _ & Lab & _).
        pose proof (chord_forward a ya b yb x y Lab) as Q.
        assert (0 <= (ya + slope a ya b yb * (x + y - a)) * (y - x)).
        { apply Rmult_le_pos; [|lra]. apply segment_rising; auto; lra. }
        lra.
      + apply Rmult_le_compat_l; [|lra]. apply (F1 a z I). tauto. }
  intros x y u v L U V. destruct (Req_dec x y) as [->|N].
  - rewrite (pl_fun ps y u v DD U V). lra.
  - apply (X _ x y u v (Nat.lt_succ_diag_r _)); auto. lra.
Qed.

(** and conversely, for all times *)
Lemma rising_inv ps : ps <> [] -> distinct ps ->
  (forall x y u v, x <= y -> piecewise_linear ps x u -> piecewise_linear ps y v -> u * x <= v * y) -> forwards_nonneg ps.
Proof.
  intros NE DD H. split.
  - intros a z I [F|F].
    + assert (P1 : piecewise_linear ps (a - 1) z) by (right; left; exists a; repeat split; auto; lra).
      assert (P2 : piecewise_linear ps a z) by (right; left; exists a; repeat split; auto; lra).
      specialize (H (a - 1) a z z ltac:(lra) P1 P2). lra.
    + assert (P1 : piecewise_linear ps (a + 1) z) by (right; right; exists a; repeat split; auto; lra).
      assert (P2 : piecewise_linear ps a z) by (right; right; exists a; repeat split; auto; lra).
      specialize (H a (a + 1) z z ltac:(lra) P2 P1). lra.
  - intros a ya b yb C. pose proof C as (_ & _ & L & _).
    assert (G : forall x y, a <= x -> x < y -> y <= b -> 0 <= ya + slope a ya b yb * (x + y - a)).
    { intros x y Hx Hxy Hy. assert (P1 : piecewise_linear ps x (chord a ya b yb x)).
      { left. exists a, ya, b, yb. split; auto. split; [lra|auto]. }
      assert (P2 : piecewise_linear ps y (chord a ya b yb y)).
      { left. exists a, ya, b, yb. split; auto. split; [lra|auto]. }
      specialize (H x y _ _ ltac:(lra) P1 P2). pose proof (chord_forward a ya b yb x y L) as Q.
      apply Rmult_le_reg_r with (y - x); lra. }
    set (m := slope a ya b yb) in *. assert (E : yb = ya + m * (b - a)) by (unfold m, slope; field; lra).
    split.
    + destruct (Rle_lt_dec 0 (ya + a * m)) as [|N]; auto. exfalso.
      destruct (Rle_lt_dec m 0) as [M|M].
      * specialize (G a b ltac:(lra) L ltac:(lra)). assert (m * (a + b - a) <= m * a + m * 0); [|lra].
        assert (m * (b - a) <= m * 0) by (apply Rmult_le_compat_neg_l; lra). lra.
      * set (d := Rmin (b - a) (- (ya + a * m) / (2 * m))).
        assert (D1 : 0 < d).
        { apply Rmin_glb_lt; [lra|]. apply Rdiv_lt_0_compat; lra. }
        assert (D2 : d <= b - a) by apply Rmin_l.
        assert (D3 : m * d <= - (ya + a * m) / 2).
        { apply Rle_trans with (m * (- (ya + a * m) / (2 * m))); [apply Rmult_le_compat_l; [lra|apply Rmin_r]|].
          right. field. lra. }
        specialize (G a (a + d) ltac:(lra) ltac:(lra) ltac:(lra)). lra.
    + destruct (Rle_lt_dec 0 (yb + b * m)) as [|N]; auto. exfalso.
      destruct (Rle_lt_dec 0 m) as [M|M].
      * specialize (G a b ltac:(lra) L ltac:(lra)).
        assert (m * 0 <= m * (b - a)) by (apply Rmult_le_compat_l; lra). lra.
      * set (d := Rmin (b - a) ((yb + b * m) / (2 * m))).
        assert (D1 : 0 < d).
        { apply Rmin_glb_lt; [lra|]. replace ((yb + b * m) / (2 * m)) with (- (yb + b * m) / (- (2 * m))) by (field; lra).
          apply Rdiv_lt_0_compat; lra. }
        assert (D2 : d <= b - a) by apply Rmin_l.
        assert (D3 : - m * d <= - (yb + b * m) / 2).
        { apply Rle_trans with (- m * ((yb + b * m) / (2 * m))); [apply Rmult_le_compat_l; [lra|apply Rmin_r]|].
          right. field. lra. }
        specialize (G (b - d) b ltac:(lra) ltac:(lra) ltac:(lra)). lra.
Qed.

(** falling data: the chords fall *)
Definition falling (ps : points) : Prop := forall a y b z, In (a, y) ps -> In (b, z) ps -> a <= b -> z <= y.

Lemma chord_falling a ya b yb x y : a < b -> yb <= ya -> x <= y -> chord a ya b yb y <= chord a ya b yb x.
Proof.
  intros L H Hxy. unfold chord. apply Rplus_le_compat_l. apply Rmult_le_compat_neg_l; [lra|].
  apply Rmult_le_compat_r; [left; apply Rinv_0_lt_compat; lra|lra].
Qed.
Lemma chord_at_a a ya b yb : a < b -> chord a ya b yb a = ya.
Proof. intro. unfold chord. field. lra. Qed.
Lemma chord_at_b a ya b yb : a < b -> chord a ya b yb b = yb.
Proof. intro. unfold chord. field. lra. Qed.

Lemma linear_falling ps : distinct ps -> falling ps ->
  forall x y u v, x <= y -> linear_value ps x u -> linear_value ps y v -> v <= u.
Proof.
  intros DD F x y u v Hxy [(a & Ia & Ha)|(a & ya & b & yb & C & H1 & H2 & ->)] [(a' & Ia' & Ha')|(a' & ya' & b' & yb' & C' & H1' & H2' & ->)].
  - rewrite (Ha _ _ Ia') in Ia'. eapply F; [exact Ia|exact Ia'|lra].
  - destruct C' as (I1 & I2 & Lab & _). pose proof (Ha _ _ I1). pose proof (Ha _ _ I2). lra.
  - destruct C as (I1 & I2 & Lab & _). pose proof (Ha' _ _ I1). pose proof (Ha' _ _ I2). lra.
  - destruct C as (I1 & I2 & Lab & G). destruct C' as (I1' & I2' & Lab' & G').
    assert (S : yb <= ya) by (eapply F; [exact I1|exact I2|lra]).
    assert (S' : yb' <= ya') by (eapply F; [exact I1'|exact I2'|lra]).
    destruct (Rtotal_order a a') as [Q|[Q|Q]].
    + destruct (G _ _ I1') as [?|Q2]; [lra|].
      assert (x <= b) by (destruct H2 as [|H2]; auto; specialize (H2 _ _ I2'); lra).
      assert (a' <= y) by (destruct H1' as [|H1']; auto; specialize (H1' _ _ I1); lra).
      apply Rle_trans with ya'.
      { rewrite <- (chord_at_a a' ya' b' yb' Lab') at 2. now apply chord_falling. }
      apply Rle_trans with yb; [eapply F; eauto|].
      rewrite <- (chord_at_b a ya b yb Lab) at 1. now apply chord_falling.
    + subst a'. assert (b = b').
      { destruct (G _ _ I2') as [?|?]; [lra|]. destruct (G' _ _ I2) as [?|?]; lra. }
      subst b'. assert (ya = ya') by (apply Rle_antisym; eapply F; eauto; lra).
      assert (yb = yb') by (apply Rle_antisym; eapply F; eauto; lra). subst. now apply chord_falling.
    + destruct (G' _ _ I1) as [?|Q2]; [lra|].
      assert (a <= x) by (destruct H1 as [|H1]; auto; specialize (H1 _ _ I1'); lra).
      assert (y <= b') by (destruct H2' as [|H2']; auto; specialize (H2' _ _ I2); lra).
      assert (x = y /\ x = a /\ b' = a) as (-> & -> & ->) by lra.
      rewrite (chord_at_a a ya b yb Lab), (chord_at_b a' ya' a yb' Lab'). eapply F; [exact I1|exact I2'|lra].
Qed.
