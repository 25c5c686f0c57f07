(** Lemmas about the normal distribution approximation and the option formulas. *)
From Coq Require Import Reals ZArith List Bool Lra Lia Psatz.
From Verif Require Import Num Py MDates MCurve MRateCurve MOption SOption LBase.
Import ListNotations.
Open Scope R_scope.

(** * The polynomial *)
Definition Q (t : R) : R :=
  31938153 / 100000000 + t * (- 356563782 / 1000000000 + t * (1781477937 / 1000000000
   + t * (- 1821255978 / 1000000000 + t * (1330274429 / 1000000000)))).
Definition Pl (t : R) : R := t * Q t.
Definition asp : R := 2316419 / 10000000.
Definition cpi : R := 398942280401433 / 1000000000000000.

Lemma Q_pos t : 0 < Q t.
Proof.
  unfold Q.
  pose proof (Rle_0_sqr (t - 89/100)). pose proof (Rle_0_sqr (t * (t - 68/100))). unfold Rsqr in *.
  nra.
Qed.

Lemma mvt f f' a b : a < b -> (forall c, a <= c <= b -> derivable_pt_lim f c (f' c)) ->
  exists c, f b - f a = f' c * (b - a) /\ a < c < b.
Proof. intros. apply MVT_cor2; auto. Qed.

Definition Pl' (t : R) : R :=
  31938153 / 100000000 + 2 * (- 356563782 / 1000000000) * t + 3 * (1781477937 / 1000000000) * t^2
   + 4 * (- 1821255978 / 1000000000) * t^3 + 5 * (1330274429 / 1000000000) * t^4.

Lemma Pl_deriv t : derivable_pt_lim Pl t (Pl' t).
Proof.
  pose (p := fun x : R => 31938153 / 100000000 * x + (- 356563782 / 1000000000 * x^2
    + (1781477937 / 1000000000 * x^3 + (- 1821255978 / 1000000000 * x^4 + 1330274429 / 1000000000 * x^5)))).
  assert (E : derivable_pt_lim p t (31938153 / 100000000 * 1 + (- 356563782 / 1000000000 * (INR 2 * t^1)
    + (1781477937 / 1000000000 * (INR 3 * t^2) + (- 1821255978 / 1000000000 * (INR 4 * t^3)
    + 1330274429 / 1000000000 * (INR 5 * t^4)))))).
  { unfold p.
    repeat (apply (derivable_pt_lim_plus (fun x => _ * _))).
    - apply (derivable_pt_lim_scal (fun x => x)). apply derivable_pt_lim_id.
    - apply (derivable_pt_lim_scal (fun x => x^2)). apply (derivable_pt_lim_pow t 2).
    - apply (derivable_pt_lim_scal (fun x => x^3)). apply (derivable_pt_lim_pow t 3).
    - apply (derivable_pt_lim_scal (fun x => x^4)). apply (derivable_pt_lim_pow t 4).
    - apply (derivable_pt_lim_scal (fun x => x^5)). apply (derivable_pt_lim_pow t 5). }
  replace (Pl' t) with (31938153 / 100000000 * 1 + (- 356563782 / 1000000000 * (INR 2 * t^1)
    + (1781477937 / 1000000000 * (INR 3 * t^2) + (- 1821255978 / 1000000000 * (INR 4 * t^3)
    + 1330274429 / 1000000000 * (INR 5 * t^4))))) by (unfold Pl'; simpl INR; ring).
  intros eps He. destruct (E eps He) as [dl Hd]. exists dl. intros h Hh Hl.
  replace (Pl (t + h)) with (p (t + h)) by (unfold p, Pl, Q; ring).
  replace (Pl t) with (p t) by (unfold p, Pl, Q; ring). auto.
Qed.

Lemma Pl'_pos t : 0 < Pl' t.
Proof.
  unfold Pl'.
  pose proof (Rle_0_sqr (t - 36/100)). pose proof (Rle_0_sqr (t * (t - 55/100))). unfold Rsqr in *.
  nra.
Qed.

Lemma Pl_incr a b : a < b -> Pl a < Pl b.
Proof.
  intros H. destruct (mvt Pl Pl' a b H) as (c & E & _). { intros; apply Pl_deriv. }
  pose proof (Pl'_pos c). nra.
Qed.
Lemma Pl_pos t : 0 < t -> 0 < Pl t.
Proof. intros. unfold Pl. pose proof (Q_pos t). nra. Qed.

(** * Density and distribution function *)
Lemma phi_pos x : 0 < phi x.
Proof. unfold phi. apply Rmult_lt_0_compat; [lra|apply exp_pos]. Qed.
Lemma phi_even x : phi (- x) = phi x.
Proof. unfold phi. do 2 f_equal. field. Qed.
Lemma phi_decr x y : 0 <= x -> x < y -> phi y < phi x.
Proof.
  intros. unfold phi. apply Rmult_lt_compat_l; [lra|]. apply exp_increasing. nra.
Qed.
Lemma phi_zero : phi 0 = cpi.
Proof. unfold phi, cpi. replace (- (0 * 0) / 2) with 0 by field. rewrite exp_0. ring. Qed.
Lemma phi_max x : phi x <= cpi.
Proof.
  rewrite <- phi_zero. destruct (Req_dec x 0) as [-> | N]; [lra|].
  destruct (Rlt_dec 0 x).
  - left. apply phi_decr; lra.
  - left. rewrite <- (phi_even x). apply phi_decr; lra.
Qed.

Definition tt_ (x : R) : R := 1 / (1 + asp * x).
Lemma tt_pos x : 0 <= x -> 0 < tt_ x.
Proof. intros. unfold tt_, asp. apply Rdiv_lt_0_compat; lra. Qed.
Lemma tt_le x : 0 <= x -> tt_ x <= 1.
Proof.
  intros. unfold tt_, asp. apply (Rmult_le_reg_r (1 + 2316419 / 10000000 * x)); [lra|].
  unfold Rdiv at 1. rewrite Rmult_assoc, Rinv_l; lra.
Qed.
Lemma tt_decr x y : 0 <= x -> x < y -> tt_ y < tt_ x.
Proof.
  intros. unfold tt_, asp, Rdiv. rewrite !Rmult_1_l. apply Rinv_lt_contravar; [|lra].
  apply Rmult_lt_0_compat; lra.
Qed.
Lemma tt_zero : tt_ 0 = 1.
Proof. unfold tt_. field. Qed.

Lemma as_tail_eq x : as_tail x = phi x * Pl (tt_ x).
Proof. unfold as_tail, Pl, Q, tt_, asp. cbv zeta. f_equal. set (t := 1 / _). field. Qed.

(** the polynomial at 1 *)
Lemma cpi_Pl_one : 1/2 - 6 / 10000000000 < cpi * Pl 1 < 1/2 - 4 / 10000000000.
Proof. unfold cpi, Pl, Q. split; lra. Qed.

Lemma as_tail_pos x : 0 <= x -> 0 < as_tail x.
Proof.
  intros. rewrite as_tail_eq. apply Rmult_lt_0_compat; [apply phi_pos|]. apply Pl_pos, tt_pos; auto.
Qed.
Lemma as_tail_decr x y : 0 <= x -> x < y -> as_tail y < as_tail x.
Proof.
  intros. rewrite !as_tail_eq.
  pose proof (phi_decr _ _ H H0). pose proof (phi_pos y).
  pose proof (Pl_incr _ _ (tt_decr _ _ H H0)).
  assert (0 < Pl (tt_ y)) by (apply Pl_pos, tt_pos; lra). nra.
Qed.
Lemma as_tail_zero : as_tail 0 = cpi * Pl 1.
Proof. rewrite as_tail_eq, phi_zero, tt_zero. reflexivity. Qed.
Lemma as_tail_half x : 0 <= x -> as_tail x < 1/2 - 4 / 10000000000.
Proof.
  intros [H | <-].
  - pose proof (as_tail_decr 0 x (Rle_refl _) H). rewrite as_tail_zero in H0.
    pose proof cpi_Pl_one. lra.
  - rewrite as_tail_zero. apply cpi_Pl_one.
Qed.

Lemma Phi_nonneg x : 0 <= x -> Phi x = 1 - as_tail x.
Proof. intros. unfold Phi. destruct (Rle_dec 0 x); [auto|lra]. Qed.
Lemma Phi_neg x : x < 0 -> Phi x = as_tail (- x).
Proof. intros. unfold Phi. destruct (Rle_dec 0 x); [lra|auto]. Qed.
Lemma Phi_range x : 0 < Phi x < 1.
Proof.
  destruct (Rle_dec 0 x).
  - rewrite Phi_nonneg by auto. pose proof (as_tail_pos x r). pose proof (as_tail_half x r). lra.
  - assert (0 <= - x) by lra. rewrite Phi_neg by lra.
    pose proof (as_tail_pos (- x) H). pose proof (as_tail_half (- x) H). lra.
Qed.
Lemma Phi_incr x y : x < y -> Phi x < Phi y.
Proof.
  intros H. destruct (Rle_dec 0 x); [|destruct (Rle_dec 0 y)].
  - rewrite !Phi_nonneg by lra. pose proof (as_tail_decr x y r H). lra.
  - rewrite Phi_neg, Phi_nonneg by lra.
    pose proof (as_tail_half y r). assert (0 <= - x) by lra. pose proof (as_tail_half (- x) H1). lra.
  - rewrite !Phi_neg by lra. apply as_tail_decr; lra.
Qed.
Lemma Phi_sym x : x <> 0 -> Phi x + Phi (- x) = 1.
Proof.
  intros N. destruct (Rle_dec 0 x).
  - rewrite Phi_nonneg, Phi_neg by lra. rewrite Ropp_involutive. ring.
  - rewrite Phi_neg, (Phi_nonneg (- x)) by lra. ring.
Qed.

Lemma pdf_ok x : normal_pdf x = Ok (phi x).
Proof.
  unfold normal_pdf, half, one_over_sqrt_2pi. rn. cbn [bind]. unfold phi. do 3 f_equal. field.
Qed.
Lemma cdf_ok x : normal_cdf x = Ok (Phi x).
Proof.
  unfold normal_cdf, half, one_over_sqrt_2pi, as_poly, as_p, as_b1, as_b2, as_b3, as_b4, as_b5. rn.
  unfold Phi, Rleb. destruct (Rle_dec 0 x).
  - rewrite Rdivp_ok by lra. cbn [bind]. unfold as_tail, phi. cbv zeta. f_equal.
    replace (- (1 / 2) * x * x) with (- (x * x) / 2) by field.
    set (t := 1 / _). field.
  - replace (1 - 2316419 / 10000000 * x) with (1 + 2316419 / 10000000 * - x) by ring.
    rewrite Rdivp_ok by lra. cbn [bind]. unfold as_tail, phi. cbv zeta. f_equal.
    replace (- (1 / 2) * x * x) with (- (- x * - x) / 2) by field.
    set (t := 1 / _). field.
Qed.

(** * Bachelier *)
(** x P(t(x)) = (1 - t) Q(t) / p *)
Definition hh (t : R) : R := (1 - t) * Q t.
Lemma x_tail x : 0 <= x -> x * Pl (tt_ x) = hh (tt_ x) / asp.
Proof.
  intros. unfold Pl, hh. assert (E : x = (1 - tt_ x) / (asp * tt_ x)).
  { unfold tt_, asp. field. lra. }
  pose proof (tt_pos x H). rewrite E at 1. unfold asp. field. lra.
Qed.
Definition hh' (t : R) : R :=
  (- 356563782 / 1000000000 - 31938153 / 100000000)
  + 2 * (1781477937 / 1000000000 + 356563782 / 1000000000) * t
  + 3 * (- 1821255978 / 1000000000 - 1781477937 / 1000000000) * t^2
  + 4 * (1330274429 / 1000000000 + 1821255978 / 1000000000) * t^3
  - 5 * (1330274429 / 1000000000) * t^4.
Lemma hh_deriv t : derivable_pt_lim hh t (hh' t).
Proof.
  pose (p := fun x : R => 31938153 / 100000000 + ((- 356563782 / 1000000000 - 31938153 / 100000000) * x
    + ((1781477937 / 1000000000 + 356563782 / 1000000000) * x^2
    + ((- 1821255978 / 1000000000 - 1781477937 / 1000000000) * x^3
    + ((1330274429 / 1000000000 + 1821255978 / 1000000000) * x^4 + (- 1330274429 / 1000000000) * x^5))))).
  assert (E : derivable_pt_lim p t (0 + ((- 356563782 / 1000000000 - 31938153 / 100000000) * 1
    + ((1781477937 / 1000000000 + 356563782 / 1000000000) * (INR 2 * t^1)
    + ((- 1821255978 / 1000000000 - 1781477937 / 1000000000) * (INR 3 * t^2)
    + ((1330274429 / 1000000000 + 1821255978 / 1000000000) * (INR 4 * t^3)
      + (- 1330274429 / 1000000000) * (INR 5 * t^4))))))).
  { unfold p. apply (derivable_pt_lim_plus (fun x => 31938153 / 100000000)).
    { apply derivable_pt_lim_const. }
    repeat (apply (derivable_pt_lim_plus (fun x => _ * _))).
    - apply (derivable_pt_lim_scal (fun x => x)). apply derivable_pt_lim_id.
    - apply (derivable_pt_lim_scal (fun x => x^2)). apply (derivable_pt_lim_pow t 2).
    - apply (derivable_pt_lim_scal (fun x => x^3)). apply (derivable_pt_lim_pow t 3).
    - apply (derivable_pt_lim_scal (fun x => x^4)). apply (derivable_pt_lim_pow t 4).
    - apply (derivable_pt_lim_scal (fun x => x^5)). apply (derivable_pt_lim_pow t 5). }
  match type of E with derivable_pt_lim _ _ ?l =>
    replace (hh' t) with l by (unfold hh'; simpl INR; field) end.
  intros eps He. destruct (E eps He) as [dl Hd]. exists dl. intros h Hh Hl.
  replace (hh (t + h)) with (p (t + h)) by (unfold p, hh, Q; field).
  replace (hh t) with (p t) by (unfold p, hh, Q; field). auto.
Qed.
Lemma hh'_neg t : hh' t < 0.
Proof.
  unfold hh'.
  pose proof (Rle_0_sqr (2579/1000 * (t * t) - 2444/1000 * t + 78/100)).
  pose proof (Rle_0_sqr (t - 286/1000)). unfold Rsqr in *.
  nra.
Qed.
Lemma hh_decr a b : a < b -> hh b < hh a.
Proof.
  intros H. destruct (mvt hh hh' a b H) as (c & E & _). { intros; apply hh_deriv. }
  pose proof (hh'_neg c). nra.
Qed.
Lemma tail_small x : 0 <= x <= 86/10 -> x * Pl (tt_ x) < 1.
Proof.
  intros H. rewrite x_tail by lra.
  assert (B : hh (tt_ (86/10)) < asp).
  { unfold hh, Q, tt_, asp. lra. }
  assert (C : hh (tt_ x) <= hh (tt_ (86/10))).
  { destruct (proj2 H) as [L | ->]; [|lra]. left. apply hh_decr, tt_decr; lra. }
  apply (Rmult_lt_reg_r asp); [unfold asp; lra|]. unfold Rdiv. rewrite Rmult_assoc, Rinv_l; unfold asp in *; lra.
Qed.
Lemma tail_large x : 87/10 <= x -> 1 < x * Pl (tt_ x).
Proof.
  intros H. rewrite x_tail by lra.
  assert (B : asp < hh (tt_ (87/10))).
  { unfold hh, Q, tt_, asp. lra. }
  assert (C : hh (tt_ (87/10)) <= hh (tt_ x)).
  { destruct H as [L | <-]; [|lra]. left. apply hh_decr, tt_decr; lra. }
  apply (Rmult_lt_reg_r asp); [unfold asp; lra|]. unfold Rdiv. rewrite Rmult_assoc, Rinv_l; unfold asp in *; lra.
Qed.

Lemma sqrt_pos_lt t : 0 < t -> 0 < sqrt t.
Proof. apply sqrt_lt_R0. Qed.
Lemma vol_pos t v : 0 < t -> 0 < v -> 0 < v * sqrt t.
Proof. intros. apply Rmult_lt_0_compat; auto using sqrt_pos_lt. Qed.
Lemma vol_ne t v : 0 < t -> v <> 0 -> v * sqrt t <> 0.
Proof.
  intros H N E. apply Rmult_integral in E. pose proof (sqrt_pos_lt t H). destruct E; lra.
Qed.
Lemma sqrtp_ok t : 0 <= t -> Rsqrtp t = Ok (sqrt t).
Proof. intros. unfold Rsqrtp. destruct (Rle_dec 0 t); [auto|lra]. Qed.
Lemma sqrtp_err t : t < 0 -> Rsqrtp t = Err ValueError.
Proof. intros. unfold Rsqrtp. destruct (Rle_dec 0 t); [lra|auto]. Qed.

Lemma bachelier_d_ok t K F v : 0 < t -> v <> 0 ->
  bachelier_d (Ok t) K F v = Ok (v * sqrt t, d_bachelier t K F v).
Proof.
  intros H N. unfold bachelier_d. rn. rewrite sqrtp_ok by lra. cbn [bind].
  rewrite Rdivp_ok by (apply vol_ne; auto). reflexivity.
Qed.
Lemma black_d_ok t K F v : 0 < t -> v <> 0 -> K <> 0 -> 0 < F / K ->
  black_d (Ok t) K F v = Ok (v * sqrt t, d_black t K F v).
Proof.
  intros H N NK P. unfold black_d. rn. rewrite sqrtp_ok by lra. cbn [bind].
  rewrite Rdivp_ok by auto. cbn [bind]. rewrite Rlogp_ok by auto. cbn [bind].
  rewrite Rdivp_ok by lra. cbn [bind].
  rewrite Rdivp_ok by (apply vol_ne; auto). cbn [bind]. do 2 f_equal.
  unfold d_black. f_equal. f_equal. cbn [npow]. rn.
  rewrite <- (sqrt_sqrt t) at 3 by lra. field.
Qed.

Lemma normal_price_ok t K F v : 0 < t -> v <> 0 ->
  normal_price (Ok t) K F v = Ok (bachelier_call t K F v).
Proof.
  intros. unfold normal_price. rewrite bachelier_d_ok by auto. cbn [bind].
  rewrite cdf_ok. cbn [bind]. rewrite pdf_ok. reflexivity.
Qed.
Lemma normal_delta_ok t K F v : 0 < t -> v <> 0 ->
  normal_delta (Ok t) K F v = Ok (Phi (d_bachelier t K F v)).
Proof. intros. unfold normal_delta. rewrite bachelier_d_ok by auto. apply cdf_ok. Qed.
Lemma normal_gamma_ok t K F v : 0 < t -> v <> 0 ->
  normal_gamma (Ok t) K F v = Ok (phi (d_bachelier t K F v) / (v * sqrt t)).
Proof.
  intros. unfold normal_gamma. rewrite bachelier_d_ok by auto. cbn [bind fst snd].
  rewrite pdf_ok. cbn [bind]. apply Rdivp_ok, vol_ne; auto.
Qed.
Lemma normal_vega_ok t K F v : 0 < t -> v <> 0 ->
  normal_vega (Ok t) K F v = Ok (sqrt t * phi (d_bachelier t K F v)).
Proof.
  intros. unfold normal_vega. rewrite bachelier_d_ok by auto. cbn [bind fst snd]. rn.
  rewrite sqrtp_ok by lra. cbn [bind]. rewrite pdf_ok. reflexivity.
Qed.
Lemma bin_normal_gamma_ok t K F v : 0 < t -> v <> 0 ->
  bin_normal_gamma (Ok t) K F v
  = Ok (d_bachelier t K F v * phi (d_bachelier t K F v) / (v ^ 2 * t * t)).
Proof.
  intros H N. unfold bin_normal_gamma. rewrite bachelier_d_ok by auto. cbn [bind]. rn.
  rewrite pdf_ok. cbn [bind].
  assert (E : v * sqrt t * (v * sqrt t) * t = v ^ 2 * t * t).
  { transitivity (v ^ 2 * (sqrt t * sqrt t) * t); [ring|]. rewrite sqrt_sqrt by lra. ring. }
  rewrite E. apply Rdivp_ok. rewrite <- E. intros Z.
  apply Rmult_integral in Z as [Z | Z]; [|lra].
  apply Rmult_integral in Z as [Z | Z]; apply (vol_ne t v H N); auto.
Qed.

Section Black.
  Variables t K F v : R.
  Hypotheses (Ht : 0 < t) (Hv : v <> 0) (HK : K <> 0) (HF : 0 < F / K).
  Let d := d_black t K F v.
  Lemma black_price_ok : black_price (Ok t) K F v = Ok (black_call t K F v).
  Proof.
    unfold black_price. rewrite black_d_ok by auto. cbn [bind].
    rewrite !cdf_ok. cbn [bind]. reflexivity.
  Qed.
  Lemma black_delta_ok : black_delta (Ok t) K F v = Ok (Phi d).
  Proof. unfold black_delta. rewrite black_d_ok by auto. apply cdf_ok. Qed.
  Lemma black_vega_ok : black_vega (Ok t) K F v = Ok (F * sqrt t * phi (d - v * sqrt t)).
  Proof.
    unfold black_vega. rewrite black_d_ok by auto. cbn [bind]. rn.
    rewrite sqrtp_ok by lra. cbn [bind]. rewrite pdf_ok. reflexivity.
  Qed.
  Lemma bin_black_price_ok : bin_black_price (Ok t) K F v = Ok (Phi d).
  Proof. unfold bin_black_price. rewrite black_d_ok by auto. apply cdf_ok. Qed.
  Lemma bin_black_delta_ok : F <> 0 ->
    bin_black_delta (Ok t) K F v = Ok (phi (d - v * sqrt t) / (v * sqrt t * F)).
  Proof.
    intros NF. unfold bin_black_delta. rewrite black_d_ok by auto. cbn [bind].
    rewrite pdf_ok. cbn [bind]. apply Rdivp_ok. intros Z. apply Rmult_integral in Z as [Z | Z]; [|auto].
    apply (vol_ne t v Ht Hv); auto.
  Qed.
  Lemma bin_black_vega_ok :
    bin_black_vega (Ok t) K F v = Ok ((d - v * sqrt t) * phi d / v).
  Proof.
    unfold bin_black_vega. rewrite black_d_ok by auto. cbn [bind].
    rewrite pdf_ok. cbn [bind]. apply Rdivp_ok; auto.
  Qed.
End Black.

(** ** Bounds *)
Lemma Phi_phi_neg d : d < 0 -> Phi d = phi d * Pl (tt_ (- d)).
Proof. intros. rewrite Phi_neg, as_tail_eq, phi_even by auto. reflexivity. Qed.
Lemma Phi_phi_nonneg d : 0 <= d -> Phi d = 1 - phi d * Pl (tt_ d).
Proof. intros. rewrite Phi_nonneg, as_tail_eq by auto. reflexivity. Qed.

Lemma bach_std t K F v : 0 < t -> 0 < v -> F - K = d_bachelier t K F v * (v * sqrt t).
Proof. intros. unfold d_bachelier. pose proof (vol_pos t v H H0). field. split; [apply Rgt_not_eq, sqrt_pos_lt; auto|lra]. Qed.

(** value of a Bachelier call out of and in the money *)
Lemma bach_otm t K F v : 0 < t -> 0 < v -> d_bachelier t K F v < 0 ->
  let d := d_bachelier t K F v in
  bachelier_call t K F v = v * sqrt t * phi d * (1 - (- d) * Pl (tt_ (- d))).
Proof.
  intros Ht Hv N d. unfold bachelier_call. cbv zeta. fold d. rewrite (bach_std t K F v Ht Hv). fold d.
  rewrite Phi_phi_neg by auto. ring.
Qed.
Lemma bach_itm t K F v : 0 < t -> 0 < v -> 0 <= d_bachelier t K F v ->
  let d := d_bachelier t K F v in
  bachelier_call t K F v = (F - K) + v * sqrt t * phi d * (1 - d * Pl (tt_ d)).
Proof.
  intros Ht Hv N d. unfold bachelier_call. cbv zeta. fold d. rewrite (bach_std t K F v Ht Hv). fold d.
  rewrite Phi_phi_nonneg by auto. ring.
Qed.

Lemma bach_lower t K F v : 0 < t -> 0 < v -> Rabs (F - K) <= 86/10 * (v * sqrt t) ->
  Rmax (F - K) 0 < bachelier_call t K F v.
Proof.
  intros Ht Hv A. pose proof (vol_pos t v Ht Hv) as V. pose proof (bach_std t K F v Ht Hv) as S.
  assert (B : - (86/10) <= d_bachelier t K F v <= 86/10).
  { set (d := d_bachelier t K F v) in *. set (w := v * sqrt t) in *.
    apply Rabs_le_inv in A || (unfold Rabs in A; destruct (Rcase_abs (F - K)));
    split; apply (Rmult_le_reg_r w); nra. }
  destruct (Rlt_dec (d_bachelier t K F v) 0) as [N | N].
  - rewrite (bach_otm t K F v Ht Hv N). rewrite Rmax_right by nra.
    pose proof (phi_pos (d_bachelier t K F v)).
    pose proof (tail_small (- d_bachelier t K F v)).
    apply Rmult_lt_0_compat; [apply Rmult_lt_0_compat; lra|]. lra.
  - rewrite (bach_itm t K F v Ht Hv) by lra. rewrite Rmax_left by nra.
    pose proof (phi_pos (d_bachelier t K F v)).
    pose proof (tail_small (d_bachelier t K F v)).
    assert (0 < v * sqrt t * phi (d_bachelier t K F v) * (1 - d_bachelier t K F v * Pl (tt_ (d_bachelier t K F v)))).
    { apply Rmult_lt_0_compat; [apply Rmult_lt_0_compat; lra|]. lra. }
    lra.
Qed.
Lemma bach_far_otm t K F v : 0 < t -> 0 < v -> F - K <= - (87/10 * (v * sqrt t)) ->
  bachelier_call t K F v < 0.
Proof.
  intros Ht Hv A. pose proof (vol_pos t v Ht Hv) as V. pose proof (bach_std t K F v Ht Hv) as S.
  assert (B : d_bachelier t K F v <= - (87/10)).
  { apply (Rmult_le_reg_r (v * sqrt t)); nra. }
  rewrite (bach_otm t K F v Ht Hv) by lra. cbv zeta.
  pose proof (phi_pos (d_bachelier t K F v)).
  pose proof (tail_large (- d_bachelier t K F v)).
  assert (0 < v * sqrt t * phi (d_bachelier t K F v)) by (apply Rmult_lt_0_compat; lra).
  nra.
Qed.
Lemma bach_far_itm t K F v : 0 < t -> 0 < v -> 87/10 * (v * sqrt t) <= F - K ->
  bachelier_call t K F v < F - K.
Proof.
  intros Ht Hv A. pose proof (vol_pos t v Ht Hv) as V. pose proof (bach_std t K F v Ht Hv) as S.
  assert (B : 87/10 <= d_bachelier t K F v).
  { apply (Rmult_le_reg_r (v * sqrt t)); nra. }
  rewrite (bach_itm t K F v Ht Hv) by lra. cbv zeta.
  pose proof (phi_pos (d_bachelier t K F v)).
  pose proof (tail_large (d_bachelier t K F v)).
  assert (0 < v * sqrt t * phi (d_bachelier t K F v)) by (apply Rmult_lt_0_compat; lra).
  nra.
Qed.

Lemma ln_div a b : 0 < a -> 0 < b -> ln (a / b) = ln a - ln b.
Proof. intros. unfold Rdiv. rewrite ln_mult, ln_Rinv; auto using Rinv_0_lt_compat. Qed.

Lemma black_parity t K F v : 0 < t -> v <> 0 -> 0 < K -> 0 < F ->
  F * phi (d_black t K F v) = K * phi (d_black t K F v - v * sqrt t).
Proof.
  intros Ht Nv HK HF. unfold phi. set (d := d_black t K F v). set (w := v * sqrt t).
  assert (E : d * w = ln F - ln K + w * w / 2).
  { unfold d, d_black, w. rewrite ln_div by auto.
    transitivity (ln F - ln K + v ^ 2 * t / 2).
    - field. split; [apply Rgt_not_eq, sqrt_pos_lt; auto|auto].
    - f_equal. rewrite <- (sqrt_sqrt t) at 1 by lra. field. }
  transitivity (398942280401433 / 1000000000000000 * (F * exp (- (d * d) / 2))); [ring|].
  transitivity (398942280401433 / 1000000000000000 * (K * exp (- ((d - w) * (d - w)) / 2))); [|ring].
  f_equal. rewrite <- (exp_ln F) at 1 by auto. rewrite <- (exp_ln K) at 1 by auto.
  rewrite <- !exp_plus. f_equal. nra.
Qed.

Lemma black_lower t K F v : 0 < t -> 0 < v -> 0 < K -> 0 < F ->
  Rmax (F - K) 0 < black_call t K F v < F.
Proof.
  intros Ht Hv HK HF. assert (Nv : v <> 0) by lra.
  pose proof (black_parity t K F v Ht Nv HK HF) as E.
  pose proof (vol_pos t v Ht Hv) as V.
  unfold black_call. cbv zeta. set (d := d_black t K F v) in *. set (w := v * sqrt t) in *.
  assert (L : d * w = ln (F / K) + w * w / 2).
  { unfold d, d_black, w.
    transitivity (ln (F / K) + v ^ 2 * t / 2).
    - field. split; [apply Rgt_not_eq, sqrt_pos_lt; auto|auto].
    - f_equal. rewrite <- (sqrt_sqrt t) at 1 by lra. field. }
  pose proof (phi_pos d) as Pd. pose proof (phi_pos (d - w)) as Pw.
  split.
  2:{ pose proof (Phi_range d). pose proof (Phi_range (d - w)). nra. }
  destruct (Rlt_dec d 0) as [N | N]; [|destruct (Rlt_dec (d - w) 0) as [M | M]].
  - (* both negative *)
    rewrite (Phi_phi_neg d), (Phi_phi_neg (d - w)) by lra.
    assert (I : Pl (tt_ (- (d - w))) < Pl (tt_ (- d))) by (apply Pl_incr, tt_decr; lra).
    assert (FK : F < K).
    { assert (ln (F / K) < 0) by nra. rewrite ln_div in H by auto. apply ln_lt_inv; lra. }
    rewrite Rmax_right by lra.
    replace (F * (phi d * Pl (tt_ (- d))) - K * (phi (d - w) * Pl (tt_ (- (d - w)))))
      with ((F * phi d) * Pl (tt_ (- d)) - (K * phi (d - w)) * Pl (tt_ (- (d - w)))) by ring.
    rewrite <- E. assert (0 < F * phi d) by nra. nra.
  - (* d >= 0 > d - w *)
    rewrite (Phi_phi_nonneg d), (Phi_phi_neg (d - w)) by lra.
    assert (P1 : Pl (tt_ d) <= Pl 1).
    { destruct (Req_dec d 0) as [-> | Nd]; [rewrite tt_zero; lra|]. left. apply Pl_incr.
      rewrite <- tt_zero. apply tt_decr; lra. }
    assert (P2 : Pl (tt_ (- (d - w))) <= Pl 1).
    { left. apply Pl_incr. rewrite <- tt_zero. apply tt_decr; lra. }
    assert (Q1 : 0 < Pl (tt_ d)) by (apply Pl_pos, tt_pos; lra).
    assert (Q2 : 0 < Pl (tt_ (- (d - w)))) by (apply Pl_pos, tt_pos; lra).
    pose proof (phi_max d) as M1. pose proof (phi_max (d - w)) as M2.
    pose proof cpi_Pl_one as C. assert (0 < Pl 1) by (apply Pl_pos; lra).
    set (S := Pl (tt_ d) + Pl (tt_ (- (d - w)))) in *.
    assert (S1 : phi d * S < 1) by (unfold S in *; nra).
    assert (S2 : phi (d - w) * S < 1) by (unfold S in *; nra).
    apply Rmax_lub_lt.
    + replace (F * (1 - phi d * Pl (tt_ d)) - K * (phi (d - w) * Pl (tt_ (- (d - w)))))
        with (F - (F * phi d) * Pl (tt_ d) - (K * phi (d - w)) * Pl (tt_ (- (d - w)))) by ring.
      rewrite E. assert (K * (phi (d - w) * S) < K) by nra. unfold S in *. nra.
    + replace (F * (1 - phi d * Pl (tt_ d)) - K * (phi (d - w) * Pl (tt_ (- (d - w)))))
        with (F - (F * phi d) * Pl (tt_ d) - (K * phi (d - w)) * Pl (tt_ (- (d - w)))) by ring.
      rewrite <- E. assert (F * (phi d * S) < F) by nra. unfold S in *. nra.
  - (* both nonnegative *)
    rewrite (Phi_phi_nonneg d), (Phi_phi_nonneg (d - w)) by lra.
    assert (I : Pl (tt_ d) < Pl (tt_ (d - w))) by (apply Pl_incr, tt_decr; lra).
    assert (FK : K < F).
    { assert (0 < ln (F / K)) by nra. rewrite ln_div in H by auto. apply ln_lt_inv; lra. }
    rewrite Rmax_left by lra.
    replace (F * (1 - phi d * Pl (tt_ d)) - K * (1 - phi (d - w) * Pl (tt_ (d - w))))
      with (F - K + ((K * phi (d - w)) * Pl (tt_ (d - w)) - (F * phi d) * Pl (tt_ d))) by ring.
    rewrite <- E. assert (0 < F * phi d) by nra. nra.
Qed.

(** * From the market to the values *)
Section Values.
  Context {D P : Type} {DS : DateSys R D P} {DC : DayCounts R D} {DN : DateNum R D}.
  Variables (fuel : nat) (flr : option R) (m : omodel R D P) (d : D) (strike : option R).
  Variables F K v t : R.
  Hypothesis M : market fuel flr m d strike F K v t.

  Lemma truthy_ne x : x <> 0 -> ntruthy (T := R) x = true.
  Proof. intros. unfold ntruthy. rn. apply negb_true_iff, Reqb_false; auto. Qed.
  Lemma truthy_0 : ntruthy (T := R) 0 = false.
  Proof. unfold ntruthy. rn. apply negb_false_iff, Reqb_true; auto. Qed.

  Lemma market_degenerate : no_time_value v t ->
    exists ov, om_details fuel flr m d strike = Ok (mkOD (Some F) K ov t) /\
               degenerate (mkOD (Some F) K ov t) = true.
  Proof.
    destruct M as (ov & E & V). intros Z. exists ov. split; auto. unfold degenerate. cbn [od_vol od_time].
    destruct V as [-> | [-> _]]; [|reflexivity].
    destruct Z as [-> | ->]; rewrite truthy_0; auto with bool.
  Qed.
  Lemma market_live : v <> 0 -> t <> 0 ->
    om_details fuel flr m d strike = Ok (mkOD (Some F) K (Some v) t) /\
    degenerate (mkOD (Some F) K (Some v) t) = false.
  Proof.
    intros Nv Nt. destruct M as (ov & E & V). destruct V as [-> | [_ Z]]; [|contradiction].
    split; auto. unfold degenerate. cbn [od_vol od_time]. rewrite !truthy_ne by auto. reflexivity.
  Qed.

  Lemma nmax_R a b : nmax (T := R) a b = Rmax a b.
  Proof.
    unfold nmax. rn. destruct (Rltb a b) eqn:E; rbool.
    - rewrite Rmax_right; lra.
    - rewrite Rmax_left; lra.
  Qed.

  Lemma value_dead : no_time_value v t ->
    get_call_value fuel flr m d strike = Ok (Rmax (F - K) 0) /\
    get_put_value fuel flr m d strike = Ok (Rmax (K - F) 0).
  Proof.
    intros Z. destruct (market_degenerate Z) as (ov & E & G).
    unfold get_call_value, get_put_value. rewrite E. cbn [bind od_forward number od_strike].
    rewrite G. rewrite !nmax_R. rn. auto.
  Qed.
  Lemma value_live : v <> 0 -> t <> 0 ->
    get_call_value fuel flr m d strike = call_price (om_formula m) t K F v /\
    get_put_value fuel flr m d strike
    = (c <- call_price (om_formula m) t K F v ;; Ok (K - F + c)).
  Proof.
    intros Nv Nt. destruct (market_live Nv Nt) as (E & G).
    unfold get_call_value, get_put_value. rewrite E.
    cbn [bind od_forward number od_strike od_vol od_time].
    rewrite G. auto.
  Qed.
End Values.
