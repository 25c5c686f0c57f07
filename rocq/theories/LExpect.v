(** Expectations under the normal distribution.  Used for C110, C111. *)
From Coq Require Import Reals Lra Lia Psatz.
From Coquelicot Require Import Coquelicot.
From Verif Require Import SNormal SOption LSeries LOption LGauss.
Open Scope R_scope.

Lemma is_RInt_zero a b : is_RInt (V:=R_NormedModule) (fun _ => 0) a b 0.
Proof.
  pose proof (is_RInt_const (V:=R_NormedModule) a b 0) as H. 
  change (is_RInt (V:=R_NormedModule) (fun _ => 0) a b (Rmult (b - a) 0)) in H. rewrite Rmult_0_r in H. exact H.
Qed.
Lemma expectation_ext g h e : (forall z, g z = h z) -> expectation g e -> expectation h e.
Proof.
  intros E H eps He. destruct (H eps He) as [r Hr]. exists r. intros a b A B. destruct (Hr a b A B) as [i [I J]]. exists i. split; auto.
  apply (is_RInt_ext (fun z => g z * density z)); [|exact I]. intros x _. now rewrite E.
Qed.
Lemma expectation_unique g e e' : expectation g e -> expectation g e' -> e = e'.
Proof.
  intros H H'. apply cond_eq. intros eps He. destruct (H (eps / 2) ltac:(lra)) as [r Hr]. destruct (H' (eps / 2) ltac:(lra)) as [r' Hr'].
  set (q := Rmax r r' + 1). assert (r < q) by (pose proof (Rmax_l r r'); unfold q; lra). assert (r' < q) by (pose proof (Rmax_r r r'); unfold q; lra).
  destruct (Hr (- q) q ltac:(lra) ltac:(lra)) as [i [I J]]. destruct (Hr' (- q) q ltac:(lra) ltac:(lra)) as [i' [I' J']].
  assert (i = i') by (rewrite <- (is_RInt_unique _ _ _ _ I); apply (is_RInt_unique _ _ _ _ I')). subst i'.
  replace (e - e') with ((i - e') - (i - e)) by ring. eapply Rle_lt_trans; [apply Rabs_triang|]. rewrite Rabs_Ropp. lra.
Qed.

Section Expect.
  Variable N : R -> R.
  Hypothesis HN : normal_distribution N.

  Lemma N_deriv x : is_derive N x (density x).
  Proof. apply is_derive_Reals, HN. Qed.
  Lemma density_pos x : 0 < density x.
  Proof. rewrite density_kap. apply Rmult_lt_0_compat; [apply kap_pos|apply exp_pos]. Qed.
  Lemma density_even x : density (- x) = density x.
  Proof. unfold density. replace (- x * - x) with (x * x) by ring. reflexivity. Qed.
  Lemma density_deriv x : is_derive density x (- x * density x).
  Proof.
    apply is_derive_Reals. apply (derive_ext (fun x => kap * exp (- half_sq x))); [intros; symmetry; apply density_kap|].
    rewrite density_kap. replace (- x * (kap * exp (- half_sq x))) with (kap * (- exp (- half_sq x) * x)) by ring.
    apply (derivable_pt_lim_scal (fun x => exp (- half_sq x))).
    apply (derivable_pt_lim_comp half_sq (fun u => exp (- u))); [apply half_sq_deriv|apply exp_neg_deriv].
  Qed.
  Lemma density_cont x : continuous density x.
  Proof. apply (ex_derive_continuous (V:=R_NormedModule)). eexists. apply density_deriv. Qed.
  Lemma N_sym x : N (- x) = 1 - N x.
  Proof. destruct (distribution_form N HN) as [H [Z [D E]]]. rewrite !E, (H_odd H Z D). lra. Qed.
  Lemma N_range x : 0 < N x < 1.
  Proof. destruct (distribution_form N HN) as [H [Z [D E]]]. rewrite E. pose proof (half_bound H Z D x). lra. Qed.
  Lemma N_low eps : 0 < eps -> exists r, forall x, x < - r -> Rabs (N x) < eps.
  Proof. intros He. destruct HN as [_ L]. destruct (L eps He) as [b Hb]. exists (- b). intros x Hx. apply Hb. lra. Qed.
  Lemma N_high eps : 0 < eps -> exists r, forall x, r < x -> Rabs (N x - 1) < eps.
  Proof.
    intros He. destruct (N_low eps He) as [r Hr]. exists r. intros x Hx. specialize (Hr (- x) ltac:(lra)). rewrite N_sym in Hr.
    rewrite <- Rabs_Ropp. now replace (- (N x - 1)) with (1 - N x) by ring.
  Qed.
  Lemma density_high eps : 0 < eps -> exists r, forall x, r < x -> Rabs (density x) < eps.
  Proof.
    intros He. exists (Rmax 1 (1 / eps)). intros x Hx. pose proof (Rmax_l 1 (1 / eps)) as L1. pose proof (Rmax_r 1 (1 / eps)) as L2.
    rewrite Rabs_right by (left; apply density_pos). rewrite density_kap. pose proof kap_bounds as KB.
    assert (X2 : x <= 1 + half_sq x) by (unfold half_sq; nra).
    assert (exp (- half_sq x) * (1 + half_sq x) <= 1).
    { pose proof (exp_ineq1_le (half_sq x)). pose proof (exp_pos (- half_sq x)).
      assert (exp (- half_sq x) * exp (half_sq x) = 1) by (rewrite <- exp_plus; replace (- half_sq x + half_sq x) with 0 by ring; apply exp_0). nra. }
    pose proof (exp_pos (- half_sq x)) as EP. assert (exp (- half_sq x) * x <= 1) by nra.
    assert (1 < eps * x). { assert (XE : 1 / eps < x) by lra. apply (Rmult_lt_compat_l eps) in XE; auto. unfold Rdiv in XE. rewrite Rmult_1_l, Rinv_r in XE by lra. exact XE. }
    assert (exp (- half_sq x) < eps) by nra. nra.
  Qed.
  Lemma density_low eps : 0 < eps -> exists r, forall x, x < - r -> Rabs (density x) < eps.
  Proof. intros He. destruct (density_high eps He) as [r Hr]. exists r. intros x Hx. rewrite <- density_even. apply Hr. lra. Qed.

  (** integrals by antiderivatives: the derivative beyond (up to) a point, zero otherwise *)
  Lemma beyond (g A A' : R -> R) z0 top : (forall x, is_derive A x (A' x)) -> (forall x, continuous A' x) ->
    (forall z, z < z0 -> g z = 0) -> (forall z, z0 < z -> g z * density z = A' z) ->
    (forall eps, 0 < eps -> exists r, forall x, r < x -> Rabs (A x - top) < eps) -> expectation g (top - A z0).
  Proof.
    intros HD HC G0 G1 HT eps He. destruct (HT eps He) as [r Hr]. exists (Rmax r (Rabs z0)). intros a b Ha Hb.
    pose proof (Rmax_l r (Rabs z0)) as M1. pose proof (Rmax_r r (Rabs z0)) as M2. pose proof (Rle_abs z0) as M3. pose proof (Rle_abs (- z0)) as M4. rewrite Rabs_Ropp in M4.
    exists (0 + (A b - A z0)). split.
    - refine (is_RInt_Chasles (V:=R_NormedModule) _ a z0 b 0 (A b - A z0) _ _).
      + apply (is_RInt_ext (fun _ => 0)).
        * intros x [_ Hx]. rewrite Rmax_right in Hx by lra. rewrite G0 by lra. change (0 = 0 * density x). ring.
        * apply is_RInt_zero.
      + apply (is_RInt_ext A').
        * intros x [Hx _]. rewrite Rmin_left in Hx by lra. symmetry. apply G1. lra.
        * apply (is_RInt_derive (V:=R_CompleteNormedModule)); auto.
    - replace (0 + (A b - A z0) - (top - A z0)) with (A b - top) by ring. apply Hr. lra.
  Qed.
  Lemma upto (g A A' : R -> R) z0 bot : (forall x, is_derive A x (A' x)) -> (forall x, continuous A' x) ->
    (forall z, z0 < z -> g z = 0) -> (forall z, z < z0 -> g z * density z = A' z) ->
    (forall eps, 0 < eps -> exists r, forall x, x < - r -> Rabs (A x - bot) < eps) -> expectation g (A z0 - bot).
  Proof.
    intros HD HC G0 G1 HT eps He. destruct (HT eps He) as [r Hr]. exists (Rmax r (Rabs z0)). intros a b Ha Hb.
    pose proof (Rmax_l r (Rabs z0)) as M1. pose proof (Rmax_r r (Rabs z0)) as M2. pose proof (Rle_abs z0) as M3. pose proof (Rle_abs (- z0)) as M4. rewrite Rabs_Ropp in M4.
    exists ((A z0 - A a) + 0). split.
    - refine (is_RInt_Chasles (V:=R_NormedModule) _ a z0 b (A z0 - A a) 0 _ _).
      + apply (is_RInt_ext A').
        * intros x [_ Hx]. rewrite Rmax_right in Hx by lra. symmetry. apply G1. lra.
        * apply (is_RInt_derive (V:=R_CompleteNormedModule)); auto.
      + apply (is_RInt_ext (fun _ => 0)).
        * intros x [Hx _]. rewrite Rmin_left in Hx by lra. rewrite G0 by lra. change (0 = 0 * density x). ring.
        * apply is_RInt_zero.
    - replace (A z0 - A a + 0 - (A z0 - bot)) with (- (A a - bot)) by ring. rewrite Rabs_Ropp. apply Hr. lra.
  Qed.

  (** ** Bachelier *)
  Definition bach_A (c s x : R) : R := c * N x - s * density x.
  Lemma bach_A_deriv c s x : is_derive (bach_A c s) x ((c + s * x) * density x).
  Proof.
    replace ((c + s * x) * density x) with (c * density x - s * (- x * density x)) by ring.
    apply (is_derive_minus (fun x => c * N x) (fun x => s * density x)).
    - apply (is_derive_scal N). apply N_deriv.
    - apply (is_derive_scal density). apply density_deriv.
  Qed.
  Lemma bach_A_cont c s x : continuous (fun x => (c + s * x) * density x) x.
  Proof.
    apply (ex_derive_continuous (V:=R_NormedModule)). eexists. apply (is_derive_mult (fun x => c + s * x) density x s); [|apply density_deriv|intros; apply Rmult_comm].
    auto_derive; [exact I|ring].
  Qed.
  Lemma small2 (f g : R -> R) (P : R -> R -> Prop) lf lg c s : (forall r r' x, P (Rmax r r') x -> P r x /\ P r' x) ->
    (forall eps, 0 < eps -> exists r, forall x, P r x -> Rabs (f x - lf) < eps) ->
    (forall eps, 0 < eps -> exists r, forall x, P r x -> Rabs (g x - lg) < eps) ->
    forall eps, 0 < eps -> exists r, forall x, P r x -> Rabs ((c * f x - s * g x) - (c * lf - s * lg)) < eps.
  Proof.
    intros HP Hf Hg eps He. pose proof (Rabs_pos c). pose proof (Rabs_pos s).
    destruct (Hf (eps / 2 / (Rabs c + 1))) as [r Hr]; [apply Rdiv_lt_0_compat; lra|].
    destruct (Hg (eps / 2 / (Rabs s + 1))) as [r' Hr']; [apply Rdiv_lt_0_compat; lra|].
    exists (Rmax r r'). intros x Hx. destruct (HP _ _ _ Hx) as [P1 P2]. specialize (Hr x P1). specialize (Hr' x P2).
    replace (c * f x - s * g x - (c * lf - s * lg)) with (c * (f x - lf) + - (s * (g x - lg))) by ring.
    eapply Rle_lt_trans; [apply Rabs_triang|]. rewrite Rabs_Ropp, !Rabs_mult.
    assert (Rabs c * Rabs (f x - lf) <= Rabs c * (eps / 2 / (Rabs c + 1))) by (apply Rmult_le_compat_l; lra).
    assert (Rabs s * Rabs (g x - lg) <= Rabs s * (eps / 2 / (Rabs s + 1))) by (apply Rmult_le_compat_l; lra).
    assert (Q : forall a, 0 <= a -> a * (eps / 2 / (a + 1)) < eps / 2).
    { intros a Ha. assert (0 < / (a + 1)) by (apply Rinv_0_lt_compat; lra). assert (a * / (a + 1) < 1) by (apply (Rmult_lt_reg_r (a + 1)); [lra|]; rewrite Rmult_assoc, Rinv_l by lra; lra).
      replace (a * (eps / 2 / (a + 1))) with (eps / 2 * (a * / (a + 1))) by (unfold Rdiv; ring). nra. }
    pose proof (Q (Rabs c) ltac:(lra)). pose proof (Q (Rabs s) ltac:(lra)). lra.
  Qed.
  Lemma up_dir r r' x : Rmax r r' < x -> r < x /\ r' < x.
  Proof. pose proof (Rmax_l r r'). pose proof (Rmax_r r r'). lra. Qed.
  Lemma dn_dir r r' x : x < - Rmax r r' -> x < - r /\ x < - r'.
  Proof. pose proof (Rmax_l r r'). pose proof (Rmax_r r r'). lra. Qed.
  Lemma density_high0 eps : 0 < eps -> exists r, forall x, r < x -> Rabs (density x - 0) < eps.
  Proof. intros He. destruct (density_high eps He) as [r Hr]. exists r. intros. rewrite Rminus_0_r. auto. Qed.
  Lemma density_low0 eps : 0 < eps -> exists r, forall x, x < - r -> Rabs (density x - 0) < eps.
  Proof. intros He. destruct (density_low eps He) as [r Hr]. exists r. intros. rewrite Rminus_0_r. auto. Qed.
  Lemma N_low0 eps : 0 < eps -> exists r, forall x, x < - r -> Rabs (N x - 0) < eps.
  Proof. intros He. destruct (N_low eps He) as [r Hr]. exists r. intros. rewrite Rminus_0_r. auto. Qed.
  Lemma bach_top c s : forall eps, 0 < eps -> exists r, forall x, r < x -> Rabs (bach_A c s x - c) < eps.
  Proof.
    intros eps He. destruct (small2 N density (fun r x => r < x) 1 0 c s up_dir N_high density_high0 eps He) as [r Hr].
    exists r. intros x Hx. specialize (Hr x Hx). replace (c * 1 - s * 0) with c in Hr by ring. exact Hr.
  Qed.
  Lemma bach_bot c s : forall eps, 0 < eps -> exists r, forall x, x < - r -> Rabs (bach_A c s x - 0) < eps.
  Proof.
    intros eps He. destruct (small2 N density (fun r x => x < - r) 0 0 c s dn_dir N_low0 density_low0 eps He) as [r Hr].
    exists r. intros x Hx. specialize (Hr x Hx). replace (c * 0 - s * 0) with 0 in Hr by ring. exact Hr.
  Qed.
  Lemma bach_call c s : 0 < s -> expectation (fun z => Rmax (c + s * z) 0) (c * N (c / s) + s * density (c / s)).
  Proof.
    intros HS. replace (c * N (c / s) + s * density (c / s)) with (c - bach_A c s (- (c / s))).
    2:{ unfold bach_A. rewrite N_sym, density_even. ring. }
    assert (Q : forall z, c + s * z = s * (z - - (c / s))) by (intros; field; lra).
    apply (beyond _ (bach_A c s) (fun x => (c + s * x) * density x)).
    - apply bach_A_deriv.
    - apply bach_A_cont.
    - intros z Hz. apply Rmax_right. rewrite Q. nra.
    - intros z Hz. rewrite Rmax_left; [reflexivity|]. rewrite Q. nra.
    - apply bach_top.
  Qed.
  Lemma bach_put c s : 0 < s -> expectation (fun z => Rmax (- (c + s * z)) 0) (- c * (1 - N (c / s)) + s * density (c / s)).
  Proof.
    intros HS. replace (- c * (1 - N (c / s)) + s * density (c / s)) with (bach_A (- c) (- s) (- (c / s)) - 0).
    2:{ unfold bach_A. rewrite N_sym, density_even. ring. }
    assert (Q : forall z, c + s * z = s * (z - - (c / s))) by (intros; field; lra).
    apply (upto _ (bach_A (- c) (- s)) (fun x => (- c + - s * x) * density x)).
    - apply bach_A_deriv.
    - apply bach_A_cont.
    - intros z Hz. apply Rmax_right. rewrite Q. nra.
    - intros z Hz. rewrite Rmax_left; [f_equal; ring|]. rewrite Q. nra.
    - apply bach_bot.
  Qed.

  (** ** Black *)
  Lemma tilt s z : exp (s * z - s * s / 2) * density z = density (z - s).
  Proof.
    rewrite !density_kap. replace (exp (s * z - s * s / 2) * (kap * exp (- half_sq z))) with (kap * (exp (s * z - s * s / 2) * exp (- half_sq z))) by ring.
    rewrite <- exp_plus. f_equal. f_equal. unfold half_sq. field.
  Qed.
  Definition black_A (F K s x : R) : R := F * N (x - s) - K * N x.
  Lemma N_shift_deriv s x : is_derive (fun x => N (x - s)) x (density (x - s)).
  Proof.
    replace (density (x - s)) with (1 * density (x - s)) by ring.
    apply (is_derive_comp N (fun x => x - s) x (density (x - s)) 1); [apply N_deriv|]. auto_derive; [exact I|ring].
  Qed.
  Lemma black_A_deriv F K s x : is_derive (black_A F K s) x ((F * exp (s * x - s * s / 2) - K) * density x).
  Proof.
    replace ((F * exp (s * x - s * s / 2) - K) * density x) with (F * (exp (s * x - s * s / 2) * density x) - K * density x) by ring. rewrite tilt.
    apply (is_derive_minus (fun x => F * N (x - s)) (fun x => K * N x)).
    - apply (is_derive_scal (fun x => N (x - s))). apply N_shift_deriv.
    - apply (is_derive_scal N). apply N_deriv.
  Qed.
  Lemma black_A_cont F K s x : continuous (fun x => (F * exp (s * x - s * s / 2) - K) * density x) x.
  Proof.
    apply (ex_derive_continuous (V:=R_NormedModule)). eexists. eapply (is_derive_mult (fun x => F * exp (s * x - s * s / 2) - K) density x); [|apply density_deriv|intros; apply Rmult_comm].
    auto_derive; [exact I|reflexivity].
  Qed.
  Lemma N_high_shift s eps : 0 < eps -> exists r, forall x, r < x -> Rabs (N (x - s) - 1) < eps.
  Proof. intros He. destruct (N_high eps He) as [r Hr]. exists (r + s). intros x Hx. apply Hr. lra. Qed.
  Lemma N_low_shift s eps : 0 < eps -> exists r, forall x, x < - r -> Rabs (N (x - s) - 0) < eps.
  Proof. intros He. destruct (N_low0 eps He) as [r Hr]. exists (r - s). intros x Hx. apply Hr. lra. Qed.
  Lemma black_top F K s : forall eps, 0 < eps -> exists r, forall x, r < x -> Rabs (black_A F K s x - (F - K)) < eps.
  Proof.
    intros eps He. destruct (small2 (fun x => N (x - s)) N (fun r x => r < x) 1 1 F K up_dir (N_high_shift s) N_high eps He) as [r Hr].
    exists r. intros x Hx. specialize (Hr x Hx). replace (F * 1 - K * 1) with (F - K) in Hr by ring. exact Hr.
  Qed.
  Lemma black_bot F K s : forall eps, 0 < eps -> exists r, forall x, x < - r -> Rabs (black_A F K s x - 0) < eps.
  Proof.
    intros eps He. destruct (small2 (fun x => N (x - s)) N (fun r x => x < - r) 0 0 F K dn_dir (N_low_shift s) N_low0 eps He) as [r Hr].
    exists r. intros x Hx. specialize (Hr x Hx). replace (F * 0 - K * 0) with 0 in Hr by ring. exact Hr.
  Qed.
  (** the forward at expiry is above the strike exactly beyond this point *)
  Lemma black_point F K s z : 0 < F -> 0 < K -> 0 < s ->
    (- ((ln (F / K) + s * s / 2) / s - s) < z -> K < F * exp (s * z - s * s / 2)) /\
    (z < - ((ln (F / K) + s * s / 2) / s - s) -> F * exp (s * z - s * s / 2) < K).
  Proof.
    intros HF HK HS. set (z0 := - ((ln (F / K) + s * s / 2) / s - s)).
    assert (E : K = F * exp (s * z0 - s * s / 2)).
    { replace (s * z0 - s * s / 2) with (- ln (F / K)) by (unfold z0; field; lra). rewrite exp_Ropp, exp_ln by (apply Rdiv_lt_0_compat; auto). field. lra. }
    split; intros H; rewrite E; (apply Rmult_lt_compat_l; [auto|]; apply exp_increasing; nra).
  Qed.
  Lemma black_call_exp F K s : 0 < F -> 0 < K -> 0 < s -> let d := (ln (F / K) + s * s / 2) / s in
    expectation (fun z => Rmax (F * exp (s * z - s * s / 2) - K) 0) (F * N d - K * N (d - s)).
  Proof.
    intros HF HK HS d. replace (F * N d - K * N (d - s)) with ((F - K) - black_A F K s (- (d - s))).
    2:{ unfold black_A. replace (- (d - s) - s) with (- d) by ring. rewrite !N_sym. ring. }
    apply (beyond _ (black_A F K s) (fun x => (F * exp (s * x - s * s / 2) - K) * density x)).
    - apply black_A_deriv.
    - apply black_A_cont.
    - intros z Hz. destruct (black_point F K s z HF HK HS) as [_ B]. specialize (B Hz). apply Rmax_right. lra.
    - intros z Hz. destruct (black_point F K s z HF HK HS) as [B _]. specialize (B Hz). rewrite Rmax_left by lra. reflexivity.
    - apply black_top.
  Qed.
  Lemma black_put_exp F K s : 0 < F -> 0 < K -> 0 < s -> let d := (ln (F / K) + s * s / 2) / s in
    expectation (fun z => Rmax (K - F * exp (s * z - s * s / 2)) 0) (K * (1 - N (d - s)) - F * (1 - N d)).
  Proof.
    intros HF HK HS d. replace (K * (1 - N (d - s)) - F * (1 - N d)) with (black_A (- F) (- K) s (- (d - s)) - 0).
    2:{ unfold black_A. replace (- (d - s) - s) with (- d) by ring. rewrite !N_sym. ring. }
    apply (upto _ (black_A (- F) (- K) s) (fun x => (- F * exp (s * x - s * s / 2) - - K) * density x)).
    - apply black_A_deriv.
    - apply black_A_cont.
    - intros z Hz. destruct (black_point F K s z HF HK HS) as [B _]. specialize (B Hz). apply Rmax_right. lra.
    - intros z Hz. destruct (black_point F K s z HF HK HS) as [_ B]. specialize (B Hz). rewrite Rmax_left by lra. f_equal. ring.
    - apply black_bot.
  Qed.
  Lemma digital_beyond (g : R -> R) z0 : (forall z, z < z0 -> g z = 0) -> (forall z, z0 < z -> g z = 1) -> expectation g (1 - N z0).
  Proof.
    intros G0 G1. apply (beyond g N density); auto.
    - apply N_deriv.
    - apply density_cont.
    - intros z Hz. rewrite G1 by auto. ring.
    - apply N_high.
  Qed.
  Lemma digital_upto (g : R -> R) z0 : (forall z, z0 < z -> g z = 0) -> (forall z, z < z0 -> g z = 1) -> expectation g (N z0 - 0).
  Proof.
    intros G0 G1. apply (upto g N density); auto.
    - apply N_deriv.
    - apply density_cont.
    - intros z Hz. rewrite G1 by auto. ring.
    - apply N_low0.
  Qed.
  (** the whole line *)
  Lemma whole (g A A' : R -> R) top bot : (forall x, is_derive A x (A' x)) -> (forall x, continuous A' x) -> (forall z, g z * density z = A' z) ->
    (forall eps, 0 < eps -> exists r, forall x, r < x -> Rabs (A x - top) < eps) ->
    (forall eps, 0 < eps -> exists r, forall x, x < - r -> Rabs (A x - bot) < eps) -> expectation g (top - bot).
  Proof.
    intros HD HC G HT HB eps He. destruct (HT (eps / 2) ltac:(lra)) as [r Hr]. destruct (HB (eps / 2) ltac:(lra)) as [r' Hr']. exists (Rmax r r'). intros a b Ha Hb.
    pose proof (Rmax_l r r'). pose proof (Rmax_r r r'). specialize (Hr b ltac:(lra)). specialize (Hr' a ltac:(lra)).
    exists (A b - A a). split.
    - apply (is_RInt_ext A'); [intros; symmetry; apply G|]. apply (is_RInt_derive (V:=R_CompleteNormedModule)); auto.
    - replace (A b - A a - (top - bot)) with ((A b - top) + - (A a - bot)) by ring.
      eapply Rle_lt_trans; [apply Rabs_triang|]. rewrite Rabs_Ropp. lra.
  Qed.
  Lemma normal_mean c s : expectation (fun z => c + s * z) c.
  Proof.
    cut (expectation (fun z => c + s * z) (c - 0)); [now rewrite Rminus_0_r|]. apply (whole _ (bach_A c s) (fun x => (c + s * x) * density x)).
    - apply bach_A_deriv.
    - apply bach_A_cont.
    - reflexivity.
    - apply bach_top.
    - apply bach_bot.
  Qed.
  Lemma lognormal_mean F s : expectation (fun z => F * exp (s * z - s * s / 2)) F.
  Proof.
    cut (expectation (fun z => F * exp (s * z - s * s / 2)) ((F - 0) - 0)); [now rewrite !Rminus_0_r|]. apply (whole _ (black_A F 0 s) (fun x => (F * exp (s * x - s * s / 2) - 0) * density x)).
    - apply black_A_deriv.
    - apply black_A_cont.
    - intros. f_equal. ring.
    - apply black_top.
    - apply black_bot.
  Qed.
End Expect.
