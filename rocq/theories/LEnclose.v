(** Enclosures of real numbers by pairs of integers, in units of 2^-72.  Used for C109. *)
From Coq Require Import Reals Lra Lia List Bool ZArith.
Import ListNotations.
Open Scope R_scope.

Definition unit_z : Z := (2 ^ 72)%Z.
Definition unit_r : R := IZR unit_z.
Lemma unit_pos : 0 < unit_r. Proof. apply (IZR_lt 0). reflexivity. Qed.
Lemma unit_zpos : (0 < unit_z)%Z. Proof. reflexivity. Qed.

Record itv := In_ { lo : Z; hi : Z }.
Definition enc (i : itv) (x : R) : Prop := IZR (lo i) <= x * unit_r <= IZR (hi i).

(** floor and ceiling of quotients *)
Definition cdiv (a b : Z) : Z := (- (- a / b))%Z.
Lemma div_le a b : (0 < b)%Z -> IZR (a / b) <= IZR a / IZR b.
Proof.
  intros H. assert (0 < IZR b) by now apply (IZR_lt 0). apply (Rmult_le_reg_r (IZR b)); [auto|].
  unfold Rdiv. rewrite Rmult_assoc, Rinv_l, Rmult_1_r by lra. rewrite <- mult_IZR. apply IZR_le.
  pose proof (Z.mul_div_le a b H). lia.
Qed.
Lemma cdiv_ge a b : (0 < b)%Z -> IZR a / IZR b <= IZR (cdiv a b).
Proof.
  intros H. unfold cdiv. pose proof (div_le (- a) b H) as Q. rewrite opp_IZR in *. unfold Rdiv in *. lra.
Qed.

Definition i_ratio (p q : Z) : itv := In_ (p * unit_z / q) (cdiv (p * unit_z) q).
Definition i_add (a b : itv) : itv := In_ (lo a + lo b) (hi a + hi b).
Definition i_opp (a : itv) : itv := In_ (- hi a) (- lo a).
Definition i_sub (a b : itv) : itv := i_add a (i_opp b).
Definition i_mul (a b : itv) : itv :=
  let p := (lo a * lo b)%Z in let q := (lo a * hi b)%Z in let r := (hi a * lo b)%Z in let s := (hi a * hi b)%Z in
  In_ (Z.shiftr (Z.min (Z.min p q) (Z.min r s)) 72) (- Z.shiftr (- Z.max (Z.max p q) (Z.max r s)) 72).
Definition i_divz (a : itv) (n : Z) : itv := In_ (lo a / n) (cdiv (hi a) n).
Definition i_hull (a b : itv) : itv := In_ (Z.min (lo a) (lo b)) (Z.max (hi a) (hi b)).
Definition i_mag (a : itv) : Z := Z.max (Z.abs (lo a)) (Z.abs (hi a)).

Lemma ratio_ok p q : (0 < q)%Z -> enc (i_ratio p q) (IZR p / IZR q).
Proof.
  intros H. assert (0 < IZR q) by now apply (IZR_lt 0). pose proof (div_le (p * unit_z) q H) as A. pose proof (cdiv_ge (p * unit_z) q H) as B.
  rewrite mult_IZR in A, B. fold unit_r in A, B. unfold enc, i_ratio. cbn [lo hi].
  replace (IZR p / IZR q * unit_r) with (IZR p * unit_r / IZR q) by (field; lra). auto.
Qed.
Lemma add_ok a b x y : enc a x -> enc b y -> enc (i_add a b) (x + y).
Proof. unfold enc, i_add. cbn [lo hi]. rewrite !plus_IZR. lra. Qed.
Lemma opp_ok a x : enc a x -> enc (i_opp a) (- x).
Proof. unfold enc, i_opp. cbn [lo hi]. rewrite !opp_IZR. lra. Qed.
Lemma sub_ok a b x y : enc a x -> enc b y -> enc (i_sub a b) (x - y).
Proof. intros. apply add_ok; [auto|now apply opp_ok]. Qed.
Lemma IZR_min a b : IZR (Z.min a b) = Rmin (IZR a) (IZR b).
Proof. unfold Rmin. destruct (Rle_dec (IZR a) (IZR b)) as [H|H]; f_equal; [apply le_IZR in H; lia|]. apply Rnot_le_lt, lt_IZR in H. lia. Qed.
Lemma IZR_max a b : IZR (Z.max a b) = Rmax (IZR a) (IZR b).
Proof. unfold Rmax. destruct (Rle_dec (IZR a) (IZR b)) as [H|H]; f_equal; [apply le_IZR in H; lia|]. apply Rnot_le_lt, lt_IZR in H. lia. Qed.
Lemma between_mul a b x y : a <= x <= b -> Rmin (a * y) (b * y) <= x * y <= Rmax (a * y) (b * y).
Proof.
  intros H. destruct (Rle_dec 0 y) as [Y|Y].
  - rewrite Rmin_left, Rmax_right by (apply Rmult_le_compat_r; lra). split; apply Rmult_le_compat_r; lra.
  - assert (G : forall u w, u <= w -> w * y <= u * y) by (intros; apply Rmult_le_compat_neg_l with (r := y) in H0; lra).
    rewrite Rmin_right, Rmax_left by (apply G; lra). split; apply G; lra.
Qed.
Lemma product_bounds a b c d x y : a <= x <= b -> c <= y <= d ->
  Rmin (Rmin (a * c) (a * d)) (Rmin (b * c) (b * d)) <= x * y <= Rmax (Rmax (a * c) (a * d)) (Rmax (b * c) (b * d)).
Proof.
  intros Hx Hy. pose proof (between_mul a b x y Hx) as H1. pose proof (between_mul c d y a Hy) as H2. pose proof (between_mul c d y b Hy) as H3.
  rewrite ?(Rmult_comm c), ?(Rmult_comm d), ?(Rmult_comm y) in H2, H3.
  unfold Rmin, Rmax in *. repeat destruct (Rle_dec _ _); lra.
Qed.
Lemma mul_ok a b x y : enc a x -> enc b y -> enc (i_mul a b) (x * y).
Proof.
  unfold enc. intros Hx Hy. pose proof (product_bounds _ _ _ _ _ _ Hx Hy) as H. pose proof unit_pos as U.
  unfold i_mul. cbn [lo hi]. rewrite !Z.shiftr_div_pow2 by lia. change (2 ^ 72)%Z with unit_z.
  match goal with |- _ <= _ <= IZR (- (- ?n / unit_z)) => change (- (- n / unit_z))%Z with (cdiv n unit_z) end.
  match goal with |- IZR (?m / _) <= _ <= IZR (cdiv ?n _) => pose proof (div_le m unit_z unit_zpos) as A; pose proof (cdiv_ge n unit_z unit_zpos) as B end.
  fold unit_r in A, B. rewrite !IZR_min, !mult_IZR in A. rewrite !IZR_max, !mult_IZR in B.
  replace (x * y * unit_r) with (x * unit_r * (y * unit_r) / unit_r) by (field; lra).
  assert (I : 0 < / unit_r) by now apply Rinv_0_lt_compat. unfold Rdiv in *. split; (eapply Rle_trans; [eassumption || (apply Rmult_le_compat_r; [lra|apply H])|]);
    (apply Rmult_le_compat_r; [lra|apply H]) || exact B.
Qed.
Lemma divz_ok a n x : (0 < n)%Z -> enc a x -> enc (i_divz a n) (x / IZR n).
Proof.
  intros Hn H. assert (0 < IZR n) by now apply (IZR_lt 0). unfold enc in *. unfold i_divz. cbn [lo hi].
  pose proof (div_le (lo a) n Hn) as A. pose proof (cdiv_ge (hi a) n Hn) as B. assert (I : 0 < / IZR n) by now apply Rinv_0_lt_compat.
  replace (x / IZR n * unit_r) with (x * unit_r * / IZR n) by (field; lra). unfold Rdiv in *.
  split; [eapply Rle_trans; [exact A|]|eapply Rle_trans; [|exact B]]; apply Rmult_le_compat_r; lra.
Qed.
Lemma hull_ok a b x y z : enc a x -> enc b z -> x <= y <= z -> enc (i_hull a b) y.
Proof.
  unfold enc, i_hull. cbn [lo hi]. intros Ha Hb H. rewrite IZR_min, IZR_max. pose proof unit_pos.
  pose proof (Rmin_l (IZR (lo a)) (IZR (lo b))). pose proof (Rmax_r (IZR (hi a)) (IZR (hi b))). nra.
Qed.
Lemma mag_ok a x : enc a x -> Rabs x * unit_r <= IZR (i_mag a).
Proof.
  unfold enc, i_mag. intros H. rewrite IZR_max, !abs_IZR. pose proof unit_pos as U.
  replace (Rabs x * unit_r) with (Rabs (x * unit_r)) by (rewrite Rabs_mult, (Rabs_right unit_r) by lra; reflexivity).
  set (y := x * unit_r) in *. unfold Rmax. repeat destruct (Rle_dec _ _); unfold Rabs in *; repeat destruct (Rcase_abs _); lra.
Qed.
Lemma enc_sym n x : Rabs x * unit_r <= IZR n -> enc (In_ (- n) n) x.
Proof.
  intros H. pose proof unit_pos as U. unfold enc. cbn [lo hi]. rewrite opp_IZR. unfold Rabs in H. destruct (Rcase_abs x); nra.
Qed.

(** polynomials, lowest coefficient first *)
Fixpoint eval (a : list R) (t : R) : R := match a with [] => 0 | c :: a' => c + t * eval a' t end.
Fixpoint i_eval (a : list itv) (t : itv) : itv := match a with [] => In_ 0 0 | c :: a' => i_add c (i_mul t (i_eval a' t)) end.
Lemma enc_zero : enc (In_ 0 0) 0. Proof. unfold enc. cbn. lra. Qed.
Lemma eval_ok a b t s : Forall2 enc a b -> enc t s -> enc (i_eval a t) (eval b s).
Proof. intros F H. induction F; cbn [eval i_eval]; [apply enc_zero|]. apply add_ok; [auto|]. now apply mul_ok. Qed.

(** the same polynomial around another point *)
Fixpoint plus_l (a b : list R) : list R :=
  match a, b with [], _ => b | _, [] => a | x :: a', y :: b' => (x + y) :: plus_l a' b' end.
Fixpoint shift (a : list R) (t : R) : list R :=
  match a with [] => [] | c :: a' => let b := shift a' t in plus_l (c :: b) (map (Rmult t) b) end.
Fixpoint i_plus_l (a b : list itv) : list itv :=
  match a, b with [], _ => b | _, [] => a | x :: a', y :: b' => i_add x y :: i_plus_l a' b' end.
Fixpoint i_shift (a : list itv) (t : itv) : list itv :=
  match a with [] => [] | c :: a' => let b := i_shift a' t in i_plus_l (c :: b) (map (i_mul t) b) end.
Lemma eval_plus a : forall b t, eval (plus_l a b) t = eval a t + eval b t.
Proof. induction a as [|x a IH]; intros [|y b] t; cbn [plus_l eval]; try lra. rewrite IH. ring. Qed.
Lemma eval_scale c a t : eval (map (Rmult c) a) t = c * eval a t.
Proof. induction a as [|x a IH]; cbn [map eval]; [ring|]. rewrite IH. ring. Qed.
Lemma eval_shift a t s : eval (shift a t) s = eval a (t + s).
Proof. induction a as [|c a IH]; [reflexivity|]. cbn [shift]. rewrite eval_plus, eval_scale. cbn [eval]. rewrite IH. ring. Qed.
Lemma plus_ok a a' b b' : Forall2 enc a a' -> Forall2 enc b b' -> Forall2 enc (i_plus_l a b) (plus_l a' b').
Proof.
  intros F. revert b b'. induction F as [|x y a a' E F IH]; intros b b' G; [exact G|]. destruct G as [|z w b b' E' G]; cbn [i_plus_l plus_l].
  - now constructor.
  - constructor; [now apply add_ok|now apply IH].
Qed.
Lemma shift_ok a a' t t' : Forall2 enc a a' -> enc t t' -> Forall2 enc (i_shift a t) (shift a' t').
Proof.
  intros F H. induction F as [|x y a a' E F IH]; [constructor|]. cbn [i_shift shift]. apply plus_ok; [now constructor|].
  clear -IH H. induction IH; cbn [map]; constructor; auto. now apply mul_ok.
Qed.
