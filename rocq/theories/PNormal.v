(** Property C109: the normal distribution function of the option formulas is close to the
    true one. *)
From Coq Require Import Reals Lra Lia ZArith.
From Verif Require Import Num Py MOption SNormal SOption LOption LEnclose LSeries LNormal LGauss.
Open Scope R_scope.

(** there is exactly one normal distribution function; it rises from 0 to 1, is one half
    at zero and symmetric *)
Theorem C109_distribution : exists N, normal_distribution N /\
  (forall N', normal_distribution N' -> forall x, N' x = N x) /\
  N 0 = 1/2 /\ (forall x, N (- x) = 1 - N x) /\ (forall x, 0 < N x < 1) /\ (forall x y, x < y -> N x < N y) /\
  (forall eps, 0 < eps -> exists b, forall x, b < x -> 1 - eps < N x).
Proof.
  pose proof H0_0 as Z. pose proof H0_deriv as D. pose proof kap_pos as K. pose proof (form_distribution H0 Z D) as DN.
  exists (fun x => 1/2 + kap * H0 x). split; [exact DN|]. split; [|split; [|split; [|split; [|split]]]].
  - intros N' HN x. destruct (distribution_form N' HN) as [H' [Z' [D' E]]]. rewrite E. now rewrite (antiderivative_unique H' H0).
  - rewrite Z. lra.
  - intros x. rewrite (H_odd H0 Z D). lra.
  - intros x. pose proof (half_bound H0 Z D x). lra.
  - intros x y L. destruct (mvt H0 (fun x => exp (- half_sq x)) x y L (fun c _ => D c)) as [c [E _]]. pose proof (exp_pos (- half_sq c)).
    assert (0 < exp (- half_sq c) * (y - x)) by (apply Rmult_lt_0_compat; lra). nra.
  - intros eps He. destruct DN as [_ LM]. destruct (LM eps He) as [b Hb]. exists (- b). intros x Hx. specialize (Hb (- x) ltac:(lra)).
    rewrite (H_odd H0 Z D) in Hb. apply Rabs_def2 in Hb. lra.
Qed.
Print Assumptions C109_distribution.

Lemma kap_enc : enc kappa_i kap.
Proof.
  pose proof kap_bounds as B. pose proof unit_pos as U. unfold enc, kappa_i. cbn [lo hi]. split.
  - eapply Rle_trans; [apply div_le; reflexivity|]. rewrite mult_IZR. fold unit_r.
    assert (39894228040143 / 100000000000000 * unit_r <= kap * unit_r) by (apply Rmult_le_compat_r; lra). lra.
  - eapply Rle_trans; [|apply cdiv_ge; reflexivity]. rewrite mult_IZR. fold unit_r.
    assert (kap * unit_r <= 39894228040144 / 100000000000000 * unit_r) by (apply Rmult_le_compat_r; lra). lra.
Qed.
Lemma error_nonneg H : H 0 = 0 -> (forall x, derivable_pt_lim H x (exp (- half_sq x))) ->
  forall x, 0 <= x -> Rabs (Phi x - (1/2 + kap * H x)) < 75 / 10 ^ 9.
Proof.
  intros Z D x X. rewrite (Phi_nonneg x X). replace (1 - as_tail x - (1/2 + kap * H x)) with (gap H kap x) by (unfold gap; field).
  apply gap_bound; auto; [apply kap_enc|]. intros y. left. apply (half_bound H Z D).
Qed.

(** the code's function differs from it by less than 7.5e-8, everywhere *)
Theorem C109_error : forall N, normal_distribution N ->
  forall x, exists y, normal_cdf x = Ok y /\ Rabs (y - N x) < 75 / 10 ^ 9.
Proof.
  intros N HN x. destruct (distribution_form N HN) as [H [Z [D E]]]. exists (Phi x). split; [apply cdf_ok|]. rewrite E.
  destruct (Rle_dec 0 x) as [X|X]; [now apply error_nonneg|].
  pose proof (error_nonneg H Z D (- x) ltac:(lra)) as B. rewrite (Phi_nonneg (- x)) in B by lra. rewrite (Phi_neg x) by lra.
  rewrite (H_odd H Z D) in B. rewrite <- Rabs_Ropp.
  replace (- (as_tail (- x) - (1/2 + kap * H x))) with (1 - as_tail (- x) - (1/2 + kap * - H x)) by field. exact B.
Qed.
Print Assumptions C109_error.

(** and by almost that much at some arguments, in both directions *)
Theorem C109_sharp : forall N, normal_distribution N ->
  (exists x y, normal_cdf x = Ok y /\ 745 / 10 ^ 10 < y - N x) /\
  (exists x y, normal_cdf x = Ok y /\ y - N x < - (692 / 10 ^ 10)).
Proof.
  intros N HN. destruct (distribution_form N HN) as [H [Z [D E]]]. split.
  - exists (717/1000), (Phi (717/1000)). split; [apply cdf_ok|]. rewrite E, Phi_nonneg by lra.
    pose proof (gap_sharp_1 H kap Z D kap_enc) as G. unfold gap in G. lra.
  - exists (3013/1000), (Phi (3013/1000)). split; [apply cdf_ok|]. rewrite E, Phi_nonneg by lra.
    pose proof (gap_sharp_2 H kap Z D kap_enc) as G. unfold gap in G. lra.
Qed.
Print Assumptions C109_sharp.

(** the code's density is the true one up to a relative error of 1e-15 *)
Theorem C109_density : forall x, exists y, normal_pdf x = Ok y /\ Rabs (y - density x) <= density x / 10 ^ 15.
Proof.
  intros x. exists (phi x). split; [apply pdf_ok|]. rewrite phi_exp, density_kap. pose proof kap_bounds as B. pose proof (exp_pos (- half_sq x)) as P.
  unfold cpi. replace (398942280401433 / 1000000000000000 * exp (- half_sq x) - kap * exp (- half_sq x)) with
    ((398942280401433 / 1000000000000000 - kap) * exp (- half_sq x)) by ring.
  rewrite Rabs_mult, (Rabs_right (exp _)) by lra.
  replace (kap * exp (- half_sq x) / 10 ^ 15) with (kap / 10 ^ 15 * exp (- half_sq x)) by (field).
  apply Rmult_le_compat_r; [lra|]. apply Rabs_le. lra.
Qed.
Print Assumptions C109_density.

(** the hypotheses are met: by the integral of the density *)
Example C109_instance : exists N, normal_distribution N /\ N 0 = 1/2 /\
  exists y, normal_cdf (T:=R) 1 = Ok y /\ Rabs (y - N 1) < 75 / 10 ^ 9.
Proof.
  destruct C109_distribution as [N [HN [_ [E _]]]]. exists N. split; [exact HN|]. split; [exact E|]. now apply C109_error.
Qed.
