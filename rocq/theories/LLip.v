(** Lipschitz continuity of the documented option prices in the volatility. *)
From Coq Require Import Reals Lra Lia Psatz.
From Verif Require Import SOption LOption.
Open Scope R_scope.

Definition lip (f : R -> R) (lo hi : R) : Prop :=
  exists K, 0 <= K /\ forall x y, lo <= x <= hi -> lo <= y <= hi -> Rabs (f x - f y) <= K * Rabs (x - y).

Section Lip.
  Variables lo hi : R.
  Hypothesis LE : lo <= hi.
  Notation lip f := (lip f lo hi).

  Lemma lip_ext f g : (forall x, lo <= x <= hi -> f x = g x) -> lip f -> lip g.
  Proof. intros E (K & P & H). exists K. split; auto. intros x y X Y. rewrite <- !E by auto. auto. Qed.
  Lemma lip_const a : lip (fun _ => a).
  Proof. exists 0. split; [lra|]. intros. replace (a - a) with 0 by ring. rewrite Rabs_R0. lra. Qed.
  Lemma lip_id : lip (fun x => x).
  Proof. exists 1. split; [lra|]. intros. lra. Qed.
  Lemma lip_bound f : lip f -> exists M, 0 <= M /\ forall x, lo <= x <= hi -> Rabs (f x) <= M.
  Proof.
    intros (K & P & H). exists (Rabs (f lo) + K * (hi - lo)). pose proof (Rabs_pos (f lo)). split; [nra|]. intros x X.
    specialize (H x lo X ltac:(lra)). replace (f x) with (f lo + (f x - f lo)) by ring. eapply Rle_trans; [apply Rabs_triang|].
    rewrite (Rabs_right (x - lo)) in H by lra. assert (K * (x - lo) <= K * (hi - lo)) by (apply Rmult_le_compat_l; lra). lra.
  Qed.
  Lemma lip_plus f g : lip f -> lip g -> lip (fun x => f x + g x).
  Proof.
    intros (K & P & H) (K' & P' & H'). exists (K + K'). split; [lra|]. intros x y X Y. specialize (H x y X Y). specialize (H' x y X Y).
    replace (f x + g x - (f y + g y)) with ((f x - f y) + (g x - g y)) by ring. eapply Rle_trans; [apply Rabs_triang|]. lra.
  Qed.
  Lemma lip_mult f g : lip f -> lip g -> lip (fun x => f x * g x).
  Proof.
    intros F G. destruct (lip_bound f F) as (M & PM & HM). destruct (lip_bound g G) as (N & PN & HN).
    destruct F as (K & P & H), G as (K' & P' & H'). exists (K * N + M * K'). split; [nra|]. intros x y X Y. specialize (H x y X Y). specialize (H' x y X Y).
    replace (f x * g x - f y * g y) with ((f x - f y) * g x + f y * (g x - g y)) by ring. eapply Rle_trans; [apply Rabs_triang|]. rewrite !Rabs_mult.
    pose proof (Rabs_pos (x - y)). specialize (HM y Y). specialize (HN x X).
    assert (Rabs (f x - f y) * Rabs (g x) <= K * Rabs (x - y) * N) by (apply Rmult_le_compat; auto using Rabs_pos).
    assert (Rabs (f y) * Rabs (g x - g y) <= M * (K' * Rabs (x - y))) by (apply Rmult_le_compat; auto using Rabs_pos). lra.
  Qed.
  Lemma lip_inv f m : 0 < m -> (forall x, lo <= x <= hi -> m <= f x) -> lip f -> lip (fun x => / f x).
  Proof.
    intros Hm B (K & P & H). pose proof (Rinv_0_lt_compat m Hm) as IM. exists (K * (/ m * / m)). split; [apply Rmult_le_pos; nra|]. intros x y X Y. specialize (H x y X Y).
    pose proof (B x X) as BX. pose proof (B y Y) as BY.
    replace (/ f x - / f y) with ((f y - f x) * (/ f x * / f y)) by (field; lra). rewrite Rabs_mult, (Rabs_minus_sym (f y)).
    assert (/ f x <= / m) by (apply Rinv_le_contravar; lra). assert (/ f y <= / m) by (apply Rinv_le_contravar; lra).
    assert (0 < / f x) by (apply Rinv_0_lt_compat; lra). assert (0 < / f y) by (apply Rinv_0_lt_compat; lra).
    rewrite (Rabs_right (/ f x * / f y)) by nra.
    replace (K * (/ m * / m) * Rabs (x - y)) with (K * Rabs (x - y) * (/ m * / m)) by ring.
    apply Rmult_le_compat; auto using Rabs_pos; [nra|]. apply Rmult_le_compat; lra.
  Qed.
  Lemma exp_lip M a b : a <= M -> b <= M -> Rabs (exp a - exp b) <= exp M * Rabs (a - b).
  Proof.
    assert (G : forall a b, a <= b -> b <= M -> exp b - exp a <= exp M * (b - a)).
    { intros u w U W. assert (exp w <= exp M) by (destruct W as [W| ->]; [left; now apply exp_increasing|lra]).
      assert (E : exp u = exp w * exp (u - w)) by (rewrite <- exp_plus; f_equal; ring).
      assert (1 + (u - w) <= exp (u - w)) by (destruct (Req_dec (u - w) 0) as [->|N]; [rewrite exp_0; lra|left; now apply exp_ineq1]).
      pose proof (exp_pos w). rewrite E. nra. }
    intros A B. destruct (Rle_dec a b).
    - rewrite (Rabs_minus_sym (exp a)), (Rabs_minus_sym a). assert (exp a <= exp b) by (destruct r as [r| ->]; [left; now apply exp_increasing|lra]).
      rewrite !Rabs_right by lra. auto.
    - assert (exp b <= exp a) by (left; apply exp_increasing; lra). rewrite !Rabs_right by lra. apply G; lra.
  Qed.
  Lemma lip_exp f : lip f -> lip (fun x => exp (f x)).
  Proof.
    intros F. destruct (lip_bound f F) as (M & PM & HM). destruct F as (K & P & H). exists (exp M * K). pose proof (exp_pos M). split; [nra|].
    intros x y X Y. pose proof (Rle_abs (f x)). pose proof (Rle_abs (f y)). pose proof (HM x X). pose proof (HM y Y).
    eapply Rle_trans; [apply (exp_lip M); lra|]. rewrite Rmult_assoc. apply Rmult_le_compat_l; [lra|]. auto.
  Qed.
  Lemma lip_opp f : lip f -> lip (fun x => - f x).
  Proof. intros F. apply (lip_ext (fun x => (-1) * f x)); [intros; ring|]. apply lip_mult; auto using lip_const. Qed.
  Lemma lip_minus f g : lip f -> lip g -> lip (fun x => f x - g x).
  Proof. intros F G. apply (lip_ext (fun x => f x + - g x)); [intros; ring|]. apply lip_plus; auto using lip_opp. Qed.
  Lemma lip_scal a f : lip f -> lip (fun x => a * f x).
  Proof. intros. apply lip_mult; auto using lip_const. Qed.

  Lemma lip_phi f : lip f -> lip (fun x => phi (f x)).
  Proof.
    intros F. unfold phi. apply lip_scal. apply lip_exp.
    apply (lip_ext (fun x => (- / 2) * (f x * f x))); [intros; field|]. apply lip_scal. now apply lip_mult.
  Qed.
  Lemma lip_tail f : (forall x, lo <= x <= hi -> 0 <= f x) -> lip f -> lip (fun x => as_tail (f x)).
  Proof.
    intros B F. unfold as_tail. cbn zeta.
    assert (T : lip (fun x => 1 / (1 + 2316419 / 10000000 * f x))).
    { apply (lip_ext (fun x => / (1 + 2316419 / 10000000 * f x))); [intros x X; specialize (B x X); field; lra|].
      apply (lip_inv _ 1); [lra| |apply lip_plus; [apply lip_const|now apply lip_scal]]. intros x X. specialize (B x X). lra. }
    apply lip_mult; [now apply lip_phi|].
    assert (Q : forall n, lip (fun x => (1 / (1 + 2316419 / 10000000 * f x)) ^ n)) by (induction n; cbn; [apply lip_const|now apply lip_mult]).
    apply lip_plus; [apply lip_minus; [apply lip_plus; [apply lip_minus|]|]|]; apply lip_scal; auto.
  Qed.
  (** where the argument keeps its sign *)
  Lemma lip_Phi f : (forall x, lo <= x <= hi -> 0 <= f x) \/ (forall x, lo <= x <= hi -> f x < 0) -> lip f -> lip (fun x => Phi (f x)).
  Proof.
    intros [B|B] F.
    - apply (lip_ext (fun x => 1 - as_tail (f x))).
      + intros x X. unfold Phi. specialize (B x X). destruct (Rle_dec 0 (f x)); [reflexivity|lra].
      + apply lip_minus; [apply lip_const|now apply lip_tail].
    - apply (lip_ext (fun x => as_tail (- f x))).
      + intros x X. unfold Phi. specialize (B x X). destruct (Rle_dec 0 (f x)); [lra|reflexivity].
      + apply lip_tail; [intros x X; specialize (B x X); lra|now apply lip_opp].
  Qed.

  Hypothesis POS : 0 < lo.
  Lemma lip_div a t : 0 < t -> lip (fun v => a / (v * sqrt t)).
  Proof.
    intros Ht. pose proof (sqrt_lt_R0 t Ht). unfold Rdiv. apply lip_scal. apply (lip_inv _ (lo * sqrt t)); [nra| |].
    - intros x X. apply Rmult_le_compat_r; lra.
    - apply lip_mult; auto using lip_id, lip_const.
  Qed.
  Lemma bachelier_lip t K F : 0 < t -> lip (bachelier_call t K F).
  Proof.
    intros Ht. pose proof (sqrt_lt_R0 t Ht) as S. unfold bachelier_call, d_bachelier. cbn zeta.
    assert (D : lip (fun v => (F - K) / (v * sqrt t))) by now apply lip_div.
    apply lip_plus; [apply lip_scal|apply lip_mult; [apply lip_mult; auto using lip_id, lip_const|now apply lip_phi]].
    apply lip_Phi; auto. destruct (Rle_dec K F) as [L|L].
    - left. intros x X. unfold Rdiv. apply Rmult_le_pos; [lra|]. left. apply Rinv_0_lt_compat. nra.
    - right. intros x X. unfold Rdiv. assert (0 < / (x * sqrt t)) by (apply Rinv_0_lt_compat; nra). nra.
  Qed.
  (** the volatilities where neither argument of the distribution function is zero *)
  Lemma black_lip t K F : 0 < t -> (forall v, lo <= v <= hi -> v ^ 2 * t <> 2 * Rabs (ln (F / K))) -> lip (black_call t K F).
  Proof.
    intros Ht NZ. pose proof (sqrt_lt_R0 t Ht) as S. pose proof (sqrt_sqrt t ltac:(lra)) as SS. unfold black_call, d_black. cbn zeta. set (l := ln (F / K)) in *.
    assert (SG : forall m, (forall v, lo <= v <= hi -> v ^ 2 * t <> 2 * m) -> (forall v, lo <= v <= hi -> 2 * m < v ^ 2 * t) \/ (forall v, lo <= v <= hi -> v ^ 2 * t < 2 * m)).
    { intros m N. destruct (Rlt_dec (2 * m) (lo ^ 2 * t)) as [Q|Q].
      - left. intros v V. assert (lo ^ 2 <= v ^ 2) by nra. nra.
      - right. intros v V. destruct (Rlt_dec (v ^ 2 * t) (2 * m)) as [|Q2]; auto. exfalso.
        assert (M0 : 0 < m) by (assert (lo ^ 2 * t <> 2 * m) by (apply N; lra); assert (0 < lo ^ 2 * t) by (apply Rmult_lt_0_compat; nra); lra).
        set (r := sqrt (2 * m / t)). assert (R2 : r * r = 2 * m / t) by (apply sqrt_sqrt; apply Rmult_le_pos; [lra|left; now apply Rinv_0_lt_compat]).
        assert (R3 : r ^ 2 * t = 2 * m) by (replace (r ^ 2 * t) with (r * r * t) by ring; rewrite R2; field; lra).
        assert (R0 : 0 <= r) by apply sqrt_pos. apply (N r); [|exact R3].
        assert (CMP : forall u w, 0 <= u -> 0 <= w -> u ^ 2 * t <= w ^ 2 * t -> u <= w).
        { intros u w U W X. apply Rmult_le_reg_r in X; [|lra]. destruct (Rle_dec u w); auto. nra. }
        split; [apply CMP; lra|]. apply Rle_trans with v; [apply CMP; lra|lra]. }
    assert (D1 : lip (fun v => (l + v ^ 2 * t / 2) / (v * sqrt t))).
    { apply (lip_ext (fun v => l / (v * sqrt t) + v * (t / (2 * sqrt t)))).
      - intros v V. field. split; lra.
      - apply lip_plus; [now apply lip_div|apply lip_mult; auto using lip_id, lip_const]. }
    assert (D2 : lip (fun v => (l + v ^ 2 * t / 2) / (v * sqrt t) - v * sqrt t)) by (apply lip_minus; auto; apply lip_mult; auto using lip_id, lip_const).
    assert (E2 : forall v, lo <= v <= hi -> (l + v ^ 2 * t / 2) / (v * sqrt t) - v * sqrt t = (l - v ^ 2 * t / 2) / (v * sqrt t)).
    { intros v V. replace (v * sqrt t) with ((v ^ 2 * t) / (v * sqrt t)) at 2; [field; split; lra|].
      replace (v ^ 2 * t) with (v ^ 2 * (sqrt t * sqrt t)) by (rewrite SS; ring). field. split; lra. }
    assert (IP : forall v, lo <= v <= hi -> 0 < / (v * sqrt t)) by (intros v V; apply Rinv_0_lt_compat; nra).
    apply lip_minus; apply lip_scal; apply lip_Phi; auto.
    - destruct (SG (- l)) as [Q|Q].
      { intros v V E. apply (NZ v V). rewrite E. assert (0 < v ^ 2 * t) by (apply Rmult_lt_0_compat; nra). rewrite Rabs_left by lra. reflexivity. }
      + left. intros v V. specialize (Q v V). specialize (IP v V). unfold Rdiv at 1. apply Rmult_le_pos; lra.
      + right. intros v V. specialize (Q v V). specialize (IP v V). unfold Rdiv at 1. nra.
    - destruct (SG l) as [Q|Q].
      { intros v V E. apply (NZ v V). rewrite E. assert (0 < v ^ 2 * t) by (apply Rmult_lt_0_compat; nra). rewrite Rabs_right by lra. reflexivity. }
      + right. intros v V. rewrite (E2 v V). specialize (Q v V). specialize (IP v V). unfold Rdiv at 1. nra.
      + left. intros v V. rewrite (E2 v V). specialize (Q v V). specialize (IP v V). unfold Rdiv at 1. apply Rmult_le_pos; lra.
  Qed.
End Lip.
