(** Difference quotients of expected payoffs.  Used for C115. *)
From Coq Require Import Reals ZArith List Bool Lra Lia Psatz.
From Coquelicot Require Import Coquelicot.
From Verif Require Import Num Py MDates MCurve MRateCurve MOption SDates SOption SNormal
  LBase LDates LOption LSeries LNormal LGauss LExpect LGreeks POption PNormal PExpect PGreeks PStrikes.
Import ListNotations.
Open Scope R_scope.

(** the closed form of the expected payoff in terms of the standard deviation *)
Definition closed (N : R -> R) (fm : formula R) (K F s : R) : R :=
  match fm with
  | FNormal => bach N K F s
  | FDisplaced a => blk N (K + a) (F + a) s
  | _ => blk N K F s
  end.
Definition closed_d (N : R -> R) (fm : formula R) (K F s : R) : R :=
  match fm with
  | FNormal => N ((F - K) / s)
  | FDisplaced a => N ((ln ((F + a) / (K + a)) + s * s / 2) / s)
  | _ => N ((ln (F / K) + s * s / 2) / s)
  end.
Definition closed_g (fm : formula R) (K F s : R) : R :=
  match fm with
  | FNormal => density ((F - K) / s) / s
  | FDisplaced a => density ((ln ((F + a) / (K + a)) + s * s / 2) / s) / ((F + a) * s)
  | _ => density ((ln (F / K) + s * s / 2) / s) / (F * s)
  end.
Definition closed_v (fm : formula R) (K F s : R) : R :=
  match fm with
  | FNormal => density ((F - K) / s)
  | FDisplaced a => (F + a) * density ((ln ((F + a) / (K + a)) + s * s / 2) / s)
  | _ => F * density ((ln (F / K) + s * s / 2) / s)
  end.
(** the forwards and strikes the models can price *)
Definition fits (fm : formula R) (F K : R) : Prop :=
  match fm with
  | FNormal => True
  | FLogNormal => 0 < F /\ 0 < K
  | FDisplaced a => 0 < F + a /\ 0 < K + a
  | _ => False
  end.

Lemma blk_gamma N K F s : normal_distribution N -> 0 < F -> 0 < K -> 0 < s ->
  is_derive (fun F => N ((ln (F / K) + s * s / 2) / s)) F (density ((ln (F / K) + s * s / 2) / s) / (F * s)).
Proof.
  intros HN HF HK S. auto_derive.
  - assert (0 < F * / K) by (apply Rdiv_lt_0_compat; auto). repeat split; auto using ex_N.
  - rewrite (D_N N HN). unfold Rdiv, Rminus. field. lra.
Qed.
Lemma shifted (f : R -> R) (a x l : R) : is_derive f (x + a) l -> is_derive (fun y => f (y + a)) x l.
Proof.
  intros H. replace l with (scal 1 l) by (unfold scal; cbn; unfold mult; cbn; ring).
  apply (is_derive_comp f (fun y => y + a)); [exact H|]. auto_derive; [exact I|ring].
Qed.

Section Closed.
  Variable N : R -> R.
  Hypothesis HN : normal_distribution N.
  Lemma closed_delta fm K F s : fits fm F K -> 0 < s -> is_derive (fun F => closed N fm K F s) F (closed_d N fm K F s).
  Proof.
    intros G S. destruct fm; try contradiction; cbn [closed closed_d fits] in *.
    - now apply bach_delta.
    - destruct G. now apply blk_delta.
    - destruct G. apply (shifted (fun F => blk N (K + displacement) F s)). now apply blk_delta.
  Qed.
  Lemma closed_gamma fm K F s : fits fm F K -> 0 < s -> is_derive (fun F => closed_d N fm K F s) F (closed_g fm K F s).
  Proof.
    intros G S. destruct fm; try contradiction; cbn [closed_g closed_d fits] in *.
    - now apply bach_gamma.
    - destruct G. now apply blk_gamma.
    - destruct G. apply (shifted (fun F => N ((ln (F / (K + displacement)) + s * s / 2) / s))). now apply blk_gamma.
  Qed.
  Lemma closed_vega fm K F s : fits fm F K -> 0 < s -> is_derive (fun s => closed N fm K F s) s (closed_v fm K F s).
  Proof.
    intros G S. destruct fm; try contradiction; cbn [closed closed_v fits] in *.
    - now apply bach_vega_s.
    - destruct G. now apply blk_vega_s.
    - destruct G. now apply blk_vega_s.
  Qed.
  Lemma closed_worth fm F K v t : priced fm F K v t ->
    expectation (fun z => call_payoff K (forward_at fm F v t z)) (closed N fm K F (v * sqrt t)).
  Proof.
    intros (Hv & Ht & G). pose proof (vol_pos t v Ht Hv) as S. destruct fm; try contradiction; cbn [closed].
    - unfold bach. apply (expectation_ext (fun z => Rmax ((F - K) + v * sqrt t * z) 0)); [|now apply bach_call].
      intros z. unfold call_payoff. cbn [forward_at]. unfold normal_forward. f_equal. ring.
    - destruct G. unfold blk. apply (expectation_ext (fun z => Rmax (F * exp (v * sqrt t * z - v * sqrt t * (v * sqrt t) / 2) - K) 0)); [|now apply black_call_exp].
      intros z. unfold call_payoff. cbn [forward_at]. unfold lognormal_forward. now rewrite sd_sq.
    - destruct G. unfold blk. apply (expectation_ext (fun z => Rmax ((F + displacement) * exp (v * sqrt t * z - v * sqrt t * (v * sqrt t) / 2) - (K + displacement)) 0)); [|now apply black_call_exp].
      intros z. unfold call_payoff. cbn [forward_at]. unfold displaced_forward, lognormal_forward. rewrite sd_sq by auto. f_equal. ring.
  Qed.
  Lemma closed_price fm F K v t : priced fm F K v t -> exists p, call_price fm t K F v = Ok p /\
    Rabs (p - closed N fm K F (v * sqrt t)) <= tolerance fm F K v t.
  Proof.
    intros (Hv & Ht & G). pose proof (vol_pos t v Ht Hv) as S. pose proof (sd_sq v t Ht) as SQ. destruct fm; try contradiction; cbn [closed call_price].
    - rewrite normal_price_ok by lra. eexists. split; [reflexivity|]. unfold bach. apply bach_diff; auto.
    - destruct G as [HF HK]. rewrite black_price_ok; auto; try lra; [|now apply Rdiv_lt_0_compat]. eexists. split; [reflexivity|].
      unfold blk, black_call, d_black. rewrite <- SQ. unfold tolerance. left. eapply Rlt_le_trans; [now apply black_diff|]. lra.
    - destruct G as [HF HK]. rn. rewrite black_price_ok; auto; try lra; [|now apply Rdiv_lt_0_compat]. eexists. split; [reflexivity|].
      unfold blk, black_call, d_black. rewrite <- SQ. unfold tolerance. left. eapply Rlt_le_trans; [now apply black_diff|]. lra.
  Qed.
End Closed.

(** mean values of first and second differences *)
Lemma first_difference (f f' : R -> R) a h : 0 < h -> (forall x, a <= x <= a + h -> is_derive f x (f' x)) ->
  exists y, a < y < a + h /\ f (a + h) - f a = h * f' y.
Proof.
  intros H D. destruct (MVT_cor2 f f' a (a + h)) as [y [E Y]]; [lra|intros x X; now apply is_derive_Reals, D|].
  exists y. split; [exact Y|]. rewrite E. ring.
Qed.
Lemma second_difference (f f' f'' : R -> R) a h : 0 < h ->
  (forall x, a - h <= x <= a + h -> is_derive f x (f' x)) -> (forall x, a - h <= x <= a + h -> is_derive f' x (f'' x)) ->
  exists y, a - h < y < a + h /\ f (a + h) - 2 * f a + f (a - h) = h ^ 2 * f'' y.
Proof.
  intros H D1 D2.
  destruct (first_difference (fun x => f (x + h) - f x) (fun x => f' (x + h) - f' x) (a - h) h H) as [y [Y E]].
  { intros x X. apply (is_derive_minus (V:=R_NormedModule) (fun x => f (x + h)) f); [|apply D1; lra]. apply shifted. apply D1. lra. }
  destruct (first_difference f' f'' y h H) as [z [Z E2]]; [intros x X; apply D2; lra|].
  exists z. split; [lra|]. replace (a - h + h) with a in E by ring. rewrite E2 in E. cbn in E |- *. lra.
Qed.

(** one-sided Lipschitz bounds of the approximate distribution function *)
Lemma as_tail_deriv x : 0 <= x -> derivable_pt_lim as_tail x (- (phi x * (x * Pl (tt_ x) + asp * (tt_ x * tt_ x) * Pl' (tt_ x)))).
Proof.
  intros X. apply (derive_ext (fun x => phi x * Pl (tt_ x))); [intros; symmetry; apply as_tail_eq|].
  replace (- (phi x * (x * Pl (tt_ x) + asp * (tt_ x * tt_ x) * Pl' (tt_ x))))
    with (cpi * (- x * exp (- half_sq x)) * Pl (tt_ x) + phi x * (Pl' (tt_ x) * (- asp * (tt_ x * tt_ x)))) by (rewrite (phi_exp x); ring).
  apply (derivable_pt_lim_mult phi (fun x => Pl (tt_ x))).
  - apply (derive_ext (fun x => cpi * exp (- half_sq x))); [intros; symmetry; apply phi_exp|].
    apply (derivable_pt_lim_scal (fun x => exp (- half_sq x))). apply exp_sq_deriv.
  - apply (derivable_pt_lim_comp tt_ Pl); [now apply tt_deriv|apply Pl_deriv].
Qed.
Lemma slope_bound x : 0 <= x -> 0 <= phi x * (x * Pl (tt_ x) + asp * (tt_ x * tt_ x) * Pl' (tt_ x)) <= 2.
Proof.
  intros X. pose proof (tt_pos x X) as T0. pose proof (tt_le x X) as T1. pose proof (phi_pos x) as P0. pose proof (phi_max x) as P1.
  pose proof (Pl'_pos (tt_ x)) as L0. pose proof asp_pos as A0. pose proof (Pl_pos _ T0) as L1.
  assert (B1 : x * Pl (tt_ x) <= 14/10).
  { rewrite x_tail by auto. assert (H : hh (tt_ x) <= hh 0) by (left; now apply hh_decr). unfold hh at 2, Q in H. unfold asp.
    apply (Rmult_le_reg_r (2316419 / 10000000)); [lra|]. unfold Rdiv at 1. rewrite Rmult_assoc, Rinv_l by lra. lra. }
  assert (B2 : Pl' (tt_ x) <= 124/10).
  { unfold Pl'. set (y := tt_ x) in *. assert (0 <= y ^ 2 <= 1) by nra. assert (0 <= y ^ 3) by (cbn; assert (0 <= y * y) by nra; nra). assert (0 <= y ^ 4 <= 1) by (replace (y ^ 4) with (y ^ 2 * y ^ 2) by ring; nra). lra. }
  assert (B3 : 0 <= tt_ x * tt_ x <= 1) by nra.
  assert (B4 : 0 <= (tt_ x * tt_ x) * Pl' (tt_ x) <= 124/10) by nra.
  assert (B5 : 0 <= asp * (tt_ x * tt_ x) * Pl' (tt_ x) <= 29/10) by (unfold asp in *; lra).
  assert (0 <= x * Pl (tt_ x)) by nra. unfold cpi in P1. split; [apply Rmult_le_pos; lra|].
  apply Rle_trans with (4/10 * (43/10)); [apply Rmult_le_compat; lra|lra].
Qed.
Lemma as_tail_lip x y : 0 <= x < y -> as_tail x - as_tail y <= 2 * (y - x).
Proof.
  intros XY. destruct (mvt as_tail (fun x => - (phi x * (x * Pl (tt_ x) + asp * (tt_ x * tt_ x) * Pl' (tt_ x)))) x y) as (c & E & Cc); [lra|intros; apply as_tail_deriv; lra|].
  pose proof (slope_bound c ltac:(lra)). nra.
Qed.
