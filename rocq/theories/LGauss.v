(** The integral of the density of the normal distribution.  Used for C109. *)
From Coq Require Import Reals Lra Lia Psatz Machin.
From Coquelicot Require Import Coquelicot.
From Verif Require Import SNormal LSeries.
Open Scope R_scope.

Lemma exp_sq_cont x : continuous (fun x => exp (- half_sq x)) x.
Proof. apply (ex_derive_continuous (V:=R_NormedModule)). unfold half_sq. auto_derive. exact I. Qed.

(** an antiderivative *)
Definition H0 (x : R) : R := RInt (fun t => exp (- half_sq t)) 0 x.
Lemma H0_0 : H0 0 = 0.
Proof. unfold H0. rewrite RInt_point. reflexivity. Qed.
Lemma H0_deriv x : derivable_pt_lim H0 x (exp (- half_sq x)).
Proof.
  apply is_derive_Reals. apply (is_derive_RInt (V:=R_NormedModule) (fun t => exp (- half_sq t)) H0 0).
  - exists (mkposreal 1 Rlt_0_1). intros y _. apply (RInt_correct (V:=R_CompleteNormedModule)). apply (ex_RInt_continuous (V:=R_CompleteNormedModule)).
    intros z _. apply exp_sq_cont.
  - apply exp_sq_cont.
Qed.

Section Gauss.
  Variable H : R -> R.
  Hypothesis Hz : H 0 = 0.
  Hypothesis Hd : forall x, derivable_pt_lim H x (exp (- half_sq x)).

  Definition kern (x t : R) : R := exp (- half_sq x * (1 + t * t)) / (1 + t * t).
  Definition kern' (x t : R) : R := - x * exp (- half_sq x) * exp (- half_sq (x * t)).
  Definition G (x : R) : R := RInt (kern x) 0 1.
  Lemma den_pos t : 0 < 1 + t * t. Proof. nra. Qed.
  Lemma kern_deriv x t : is_derive (fun u => kern u t) x (kern' x t).
  Proof.
    unfold kern, kern', half_sq. pose proof (den_pos t). auto_derive; [lra|].
    replace (- x * exp (- (x * x / 2)) * exp (- (x * t * (x * t) / 2))) with (- x * (exp (- (x * x / 2)) * exp (- (x * t * (x * t) / 2)))) by ring.
    rewrite <- exp_plus. replace (- (x * x / 2) + - (x * t * (x * t) / 2)) with (- (x * x / 2) * (1 + t * t)) by field.
    replace (- (x * x * / 2) * (1 + t * t)) with (- (x * x / 2) * (1 + t * t)) by field. field. lra.
  Qed.
  Lemma kern_cont x t : continuous (kern x) t.
  Proof. apply (ex_derive_continuous (V:=R_NormedModule)). unfold kern. pose proof (den_pos t). auto_derive. lra. Qed.
  Lemma kern_int x : ex_RInt (kern x) 0 1.
  Proof. apply (ex_RInt_continuous (V:=R_CompleteNormedModule)). intros. apply kern_cont. Qed.
  Lemma H_is_derive x : is_derive H x (exp (- half_sq x)).
  Proof. apply is_derive_Reals, Hd. Qed.
  Lemma kern'_int x : RInt (fun t => Derive (fun u => kern u t) x) 0 1 = - exp (- half_sq x) * H x.
  Proof.
    rewrite (RInt_ext _ (kern' x)) by (intros t _; apply is_derive_unique, kern_deriv).
    apply (is_RInt_unique (V:=R_CompleteNormedModule)).
    replace (- exp (- half_sq x) * H x) with (minus (- exp (- half_sq x) * H (x * 1)) (- exp (- half_sq x) * H (x * 0))).
    2:{ rewrite Rmult_1_r, Rmult_0_r, Hz. unfold minus, plus, opp. cbn. ring. }
    apply (is_RInt_derive (V:=R_CompleteNormedModule) (fun t => - exp (- half_sq x) * H (x * t)) (kern' x)).
    - intros t _. unfold kern'. replace (- x * exp (- half_sq x) * exp (- half_sq (x * t))) with (- exp (- half_sq x) * (x * exp (- half_sq (x * t)))) by ring.
      apply (is_derive_scal (fun t => H (x * t))).
      apply (is_derive_comp H (fun t => x * t) t (exp (- half_sq (x * t))) x); [apply H_is_derive|]. auto_derive; [exact I|ring].
    - intros t _. apply (ex_derive_continuous (V:=R_NormedModule)). unfold kern', half_sq. auto_derive. exact I.
  Qed.
  Lemma c2_sq_half : forall x t, continuity_2d_pt (fun u _ => - half_sq u) x t.
  Proof.
    intros. apply continuity_2d_pt_opp. unfold half_sq. apply continuity_2d_pt_mult; [|apply continuity_2d_pt_const].
    apply continuity_2d_pt_mult; apply continuity_2d_pt_id1.
  Qed.
  Lemma kern'_cont x t : continuity_2d_pt kern' x t.
  Proof.
    assert (E : forall y, continuity_pt exp y) by (intros; apply derivable_continuous_pt, derivable_pt_exp).
    unfold kern'. apply continuity_2d_pt_mult; [apply continuity_2d_pt_mult|].
    - apply continuity_2d_pt_opp, continuity_2d_pt_id1.
    - apply (continuity_1d_2d_pt_comp exp (fun u _ => - half_sq u)); [apply E|apply c2_sq_half].
    - apply (continuity_1d_2d_pt_comp exp (fun u v => - half_sq (u * v))); [apply E|].
      apply continuity_2d_pt_opp. unfold half_sq. apply continuity_2d_pt_mult; [|apply continuity_2d_pt_const].
      apply continuity_2d_pt_mult; apply continuity_2d_pt_mult; (apply continuity_2d_pt_id1 || apply continuity_2d_pt_id2).
  Qed.
  Lemma G_deriv x : is_derive G x (- exp (- half_sq x) * H x).
  Proof.
    rewrite <- kern'_int. apply (is_derive_RInt_param kern 0 1 x).
    - exists (mkposreal 1 Rlt_0_1). intros y _ t _. eexists. apply kern_deriv.
    - intros t _. apply (continuity_2d_pt_ext kern'); [intros u v; symmetry; apply is_derive_unique, kern_deriv|apply kern'_cont].
    - exists (mkposreal 1 Rlt_0_1). intros y _. apply kern_int.
  Qed.
  Lemma G_0 : G 0 = PI / 4.
  Proof.
    unfold G. rewrite (RInt_ext _ (fun t => / (1 + t ^ 2))).
    2:{ intros t _. unfold kern, half_sq. replace (- (0 * 0 / 2) * (1 + t * t)) with 0 by field. rewrite exp_0. cbn [pow]. rewrite Rmult_1_r. apply Rmult_1_l. }
    apply (is_RInt_unique (V:=R_CompleteNormedModule)).
    replace (PI / 4) with (minus (atan 1) (atan 0)) by (rewrite atan_1, atan_0; unfold minus, plus, opp; cbn; ring).
    apply (is_RInt_derive (V:=R_CompleteNormedModule) atan).
    - intros t _. apply is_derive_Reals. apply derivable_pt_lim_atan.
    - intros t _. apply (ex_derive_continuous (V:=R_NormedModule)). auto_derive. cbn. nra.
  Qed.
  Lemma squares x : H x * H x + 2 * G x = PI / 2.
  Proof.
    assert (D : forall y, is_derive (fun x => H x * H x + 2 * G x) y 0).
    { intros y. replace 0 with (exp (- half_sq y) * H y + H y * exp (- half_sq y) + 2 * (- exp (- half_sq y) * H y)) by ring.
      apply (is_derive_plus (fun x => H x * H x) (fun x => 2 * G x)).
      - apply (is_derive_mult H H); [apply H_is_derive|apply H_is_derive|intros; apply Rmult_comm].
      - apply (is_derive_scal G). apply G_deriv. }
    assert (Z : H 0 * H 0 + 2 * G 0 = PI / 2) by (rewrite Hz, G_0; field). rewrite <- Z.
    destruct (Rtotal_order x 0) as [L|[->|L]]; [|reflexivity|].
    - apply (eq_is_derive (fun x => H x * H x + 2 * G x) x 0); auto.
    - symmetry. apply (eq_is_derive (fun x => H x * H x + 2 * G x) 0 x); auto.
  Qed.
  Lemma G_range x : 0 <= G x <= exp (- half_sq x).
  Proof.
    assert (E0 : RInt (fun _ => 0) 0 1 = 0) by (rewrite RInt_const; unfold scal; cbn; unfold mult; cbn; ring).
    assert (E1 : RInt (fun _ => exp (- half_sq x)) 0 1 = exp (- half_sq x)) by (rewrite RInt_const; unfold scal; cbn; unfold mult; cbn; ring).
    assert (K : forall t, 0 <= kern x t <= exp (- half_sq x)).
    { intros t. unfold kern. pose proof (den_pos t) as P. pose proof (exp_pos (- half_sq x * (1 + t * t))) as P2. assert (P3 : 0 < / (1 + t * t)) by now apply Rinv_0_lt_compat.
      assert (/ (1 + t * t) <= 1) by (rewrite <- Rinv_1; apply Rinv_le_contravar; nra).
      assert (exp (- half_sq x * (1 + t * t)) <= exp (- half_sq x)).
      { assert (A : - half_sq x * (1 + t * t) <= - half_sq x).
        { assert (0 <= half_sq x * (t * t)); [|lra]. apply Rmult_le_pos; [unfold half_sq; nra|nra]. }
        destruct A as [A|A]; [left; now apply exp_increasing|right; now rewrite A]. }
      unfold Rdiv. split; [apply Rmult_le_pos; lra|]. nra. }
    unfold G. split.
    - apply (Rle_trans _ (RInt (fun _ => 0) 0 1)); [right; symmetry; exact E0|]. apply RInt_le; [lra|apply ex_RInt_const|apply kern_int|intros t _; apply K].
    - apply (Rle_trans _ (RInt (fun _ => exp (- half_sq x)) 0 1)); [|right; exact E1]. apply RInt_le; [lra|apply kern_int|apply ex_RInt_const|intros t _; apply K].
  Qed.
  Lemma H_odd x : H (- x) = - H x.
  Proof.
    assert (D : forall y, is_derive (fun x => H (- x) + H x) y 0).
    { intros y. replace 0 with (-1 * exp (- half_sq (- y)) + exp (- half_sq y)) by (replace (half_sq (- y)) with (half_sq y) by (unfold half_sq; field); ring).
      apply (is_derive_plus (fun x => H (- x)) H); [|apply H_is_derive].
      apply (is_derive_comp H Ropp y (exp (- half_sq (- y))) (-1)); [apply H_is_derive|]. auto_derive; [exact I|ring]. }
    assert (Z : H (- 0) + H 0 = 0) by (rewrite Ropp_0, Hz; ring).
    destruct (Rtotal_order x 0) as [L|[->|L]]; [|rewrite Ropp_0, Hz; ring|].
    - pose proof (eq_is_derive (fun x => H (- x) + H x) x 0 (fun t _ => D t) L) as E. cbn in E. rewrite Z in E. lra.
    - pose proof (eq_is_derive (fun x => H (- x) + H x) 0 x (fun t _ => D t) L) as E. cbn in E. rewrite Z in E. lra.
  Qed.
  Lemma H_sign x : 0 <= x -> 0 <= H x.
  Proof. intros X. apply (rising_from_zero H (fun x => exp (- half_sq x))); auto. intros y _. left. apply exp_pos. Qed.
  (** the limit at infinity *)
  Lemma H_limit eps : 0 < eps -> exists b, 0 < b /\ forall x, b < x -> sqrt (PI / 2) - eps < H x <= sqrt (PI / 2).
  Proof.
    intros He. set (s := sqrt (PI / 2)).
    assert (P : 0 < PI / 2) by (pose proof PI_RGT_0; lra). assert (S : 0 < s) by now apply sqrt_lt_R0.
    assert (SS : s * s = PI / 2) by (apply sqrt_sqrt; lra).
    set (b := 1 + 2 / (eps * s)). assert (ES : 0 < eps * s) by (apply Rmult_lt_0_compat; auto).
    assert (B1 : 1 < b). { unfold b. assert (0 < 2 / (eps * s)); [|lra]. apply Rmult_lt_0_compat; [lra|]. now apply Rinv_0_lt_compat. }
    exists b. split; [lra|]. intros x Hx. pose proof (squares x) as Q. pose proof (G_range x) as [G1 G2]. pose proof (H_sign x ltac:(lra)) as HS.
    assert (U : H x <= s). { destruct (Rle_dec (H x) s) as [L|L]; auto. exfalso. nra. }
    split; auto.
    (* s - H <= 2 G / s < eps *)
    assert (E : exp (- half_sq x) < eps * s / 2).
    { assert (X2 : x <= 1 + half_sq x) by (unfold half_sq; nra).
      assert (exp (- half_sq x) * (1 + half_sq x) <= 1).
      { pose proof (exp_ineq1_le (half_sq x)). pose proof (exp_pos (- half_sq x)).
        assert (exp (- half_sq x) * exp (half_sq x) = 1) by (rewrite <- exp_plus; replace (- half_sq x + half_sq x) with 0 by ring; apply exp_0). nra. }
      pose proof (exp_pos (- half_sq x)).
      assert (exp (- half_sq x) * x <= 1) by nra.
      assert (XB : 2 / (eps * s) < x) by (unfold b in Hx; lra).
      assert (2 < x * (eps * s)). { apply (Rmult_lt_compat_r (eps * s)) in XB; auto. unfold Rdiv in XB. rewrite Rmult_assoc, Rinv_l, Rmult_1_r in XB by lra. exact XB. }
      nra. }
    nra.
  Qed.
End Gauss.

Lemma PI_bounds : 31415926535897932 / 10000000000000000 < PI < 31415926535897933 / 10000000000000000.
Proof.
  pose proof (PI_2_3_7_ineq 9) as [A B]. cbn [Nat.mul Nat.add] in A, B.
  cbn [sum_f_R0] in A, B. unfold tg_alt, PI_2_3_7_tg, Ratan_seq in A, B. cbn [Nat.mul Nat.add pow INR] in A, B. lra.
Qed.

(** the constant of the density *)
Definition kap : R := / sqrt (2 * PI).
Lemma sqrt_2pi_pos : 0 < sqrt (2 * PI).
Proof. apply sqrt_lt_R0. pose proof PI_RGT_0. lra. Qed.
Lemma kap_pos : 0 < kap.
Proof. apply Rinv_0_lt_compat, sqrt_2pi_pos. Qed.
Lemma kap_sq : kap * kap * (2 * PI) = 1.
Proof.
  unfold kap. pose proof sqrt_2pi_pos. rewrite <- (sqrt_sqrt (2 * PI)) at 3 by (pose proof PI_RGT_0; lra). field. lra.
Qed.
Lemma kap_bounds : 39894228040143267 / 100000000000000000 < kap < 3989422804014327 / 10000000000000000.
Proof.
  pose proof kap_pos as P. pose proof kap_sq as Q. pose proof PI_bounds as [A B]. split.
  - destruct (Rlt_dec (39894228040143267 / 100000000000000000) kap) as [L|L]; auto. exfalso. nra.
  - destruct (Rlt_dec kap (3989422804014327 / 10000000000000000)) as [L|L]; auto. exfalso. nra.
Qed.
Lemma kap_half : kap * sqrt (PI / 2) = 1 / 2.
Proof.
  replace (PI / 2) with (2 * PI / (2 * 2)) by field. pose proof PI_RGT_0. rewrite sqrt_div by lra. rewrite sqrt_square by lra.
  unfold kap. pose proof sqrt_2pi_pos. field. lra.
Qed.
Lemma density_kap x : density x = kap * exp (- half_sq x).
Proof. unfold density, kap, half_sq. replace (- (x * x / 2)) with (- (x * x) / 2) by field. unfold Rdiv at 1. ring. Qed.

(** a distribution function is one half plus a multiple of the integral from zero *)
Lemma distribution_form N : normal_distribution N ->
  exists H, H 0 = 0 /\ (forall x, derivable_pt_lim H x (exp (- half_sq x))) /\ forall x, N x = 1/2 + kap * H x.
Proof.
  intros [D L]. pose proof kap_pos as P. set (H := fun x => / kap * (N x - N 0)).
  assert (Z : H 0 = 0) by (unfold H; ring).
  assert (HD : forall x, derivable_pt_lim H x (exp (- half_sq x))).
  { intros x. unfold H. replace (exp (- half_sq x)) with (/ kap * (density x - 0)) by (rewrite density_kap; field; lra).
    apply (derivable_pt_lim_scal (fun x => N x - N 0)). apply (derivable_pt_lim_minus N (fun _ => N 0)); [apply D|apply derivable_pt_lim_const]. }
  exists H. split; [exact Z|]. split; [exact HD|]. intros x.
  cut (N 0 = 1/2); [intros <-; unfold H; field; lra|].
  apply cond_eq. intros eps He. destruct (L (eps / 2) ltac:(lra)) as [b Hb].
  destruct (H_limit H Z HD (eps / 2 / kap)) as [c [C Hc]]. { apply Rmult_lt_0_compat; [lra|]. now apply Rinv_0_lt_compat. }
  set (x0 := Rmax c (- b) + 1). assert (X1 : c < x0) by (pose proof (Rmax_l c (- b)); unfold x0; lra).
  assert (X2 : - x0 < b) by (pose proof (Rmax_r c (- b)); unfold x0; lra).
  specialize (Hb _ X2). specialize (Hc _ X1).
  assert (E : N (- x0) = N 0 - kap * H x0).
  { rewrite <- (Ropp_involutive (kap * H x0)). replace (- (kap * H x0)) with (kap * H (- x0)) by (rewrite (H_odd H Z HD); ring). unfold H. field. lra. }
  rewrite E in Hb. pose proof kap_half as KH.
  assert (1/2 - eps / 2 < kap * H x0 <= 1/2).
  { rewrite <- KH. split; [|nra]. replace (kap * sqrt (PI / 2) - eps / 2) with (kap * (sqrt (PI / 2) - eps / 2 / kap)) by (field; lra). apply Rmult_lt_compat_l; lra. }
  apply Rabs_def2 in Hb. apply Rabs_def1; lra.
Qed.
Lemma form_distribution H : H 0 = 0 -> (forall x, derivable_pt_lim H x (exp (- half_sq x))) ->
  normal_distribution (fun x => 1/2 + kap * H x).
Proof.
  intros Z D. pose proof kap_pos as P. split.
  - intros x. rewrite density_kap. replace (kap * exp (- half_sq x)) with (0 + kap * exp (- half_sq x)) by ring.
    apply (derivable_pt_lim_plus (fun _ => 1/2) (fun x => kap * H x)); [apply derivable_pt_lim_const|]. now apply (derivable_pt_lim_scal H).
  - intros eps He. destruct (H_limit H Z D (eps / kap)) as [c [C Hc]]. { apply Rmult_lt_0_compat; [lra|]. now apply Rinv_0_lt_compat. }
    exists (- c). intros x Hx. specialize (Hc (- x) ltac:(lra)). rewrite (H_odd H Z D) in Hc. pose proof kap_half as KH.
    assert (kap * sqrt (PI / 2) - eps < kap * - H x <= kap * sqrt (PI / 2)).
    { split; [|nra]. replace (kap * sqrt (PI / 2) - eps) with (kap * (sqrt (PI / 2) - eps / kap)) by (field; lra). apply Rmult_lt_compat_l; lra. }
    rewrite KH in *. apply Rabs_def1; lra.
Qed.
Lemma antiderivative_unique H H' : H 0 = 0 -> H' 0 = 0 -> (forall x, derivable_pt_lim H x (exp (- half_sq x))) ->
  (forall x, derivable_pt_lim H' x (exp (- half_sq x))) -> forall x, H x = H' x.
Proof.
  intros Z Z' D D' x.
  assert (E : forall y, is_derive (fun x => H x - H' x) y 0).
  { intros y. replace 0 with (exp (- half_sq y) - exp (- half_sq y)) by ring. apply is_derive_Reals. apply (derivable_pt_lim_minus H H'); auto. }
  cut (H x - H' x = 0); [lra|]. replace 0 with (H 0 - H' 0) by (rewrite Z, Z'; ring).
  destruct (Rtotal_order x 0) as [L|[->|L]]; [|reflexivity|].
  - apply (eq_is_derive (fun x => H x - H' x) x 0); auto.
  - symmetry. apply (eq_is_derive (fun x => H x - H' x) 0 x); auto.
Qed.
Lemma half_bound H : H 0 = 0 -> (forall x, derivable_pt_lim H x (exp (- half_sq x))) -> forall x, - (1/2) < kap * H x < 1/2.
Proof.
  intros Z D x. pose proof kap_pos as P. pose proof kap_half as KH.
  assert (U : forall y, kap * H y < 1/2).
  { intros y. destruct (H_limit H Z D 1 Rlt_0_1) as [b [B Hb]]. set (z := Rmax b y + 1).
    assert (b < z) by (pose proof (Rmax_l b y); unfold z; lra). assert (L : y < z) by (pose proof (Rmax_r b y); unfold z; lra).
    specialize (Hb z ltac:(lra)).
    destruct (MVT_cor2 H (fun x => exp (- half_sq x)) y z L (fun c _ => D c)) as [c [E _]]. pose proof (exp_pos (- half_sq c)). rewrite <- KH. apply Rmult_lt_compat_l; [lra|]. nra. }
  split; [|apply U]. specialize (U (- x)). rewrite (H_odd H Z D) in U. lra.
Qed.
