(** Derivatives of the expected payoffs.  Used for C111. *)
From Coq Require Import Reals Lra Lia Psatz.
From Coquelicot Require Import Coquelicot.
From Verif Require Import SNormal SOption LSeries LOption LGauss LExpect.
Open Scope R_scope.

Section Greeks.
  Variable N : R -> R.
  Hypothesis HN : normal_distribution N.

  Definition bach (K F s : R) : R := (F - K) * N ((F - K) / s) + s * density ((F - K) / s).
  Definition blk (K F s : R) : R := F * N ((ln (F / K) + s * s / 2) / s) - K * N ((ln (F / K) + s * s / 2) / s - s).

  Lemma ex_N x : ex_derive N x. Proof. eexists. now apply N_deriv. Qed.
  Lemma ex_density x : ex_derive density x. Proof. eexists. apply density_deriv. Qed.
  Lemma D_N x : Derive (fun y => N y) x = density x. Proof. apply is_derive_unique. now apply N_deriv. Qed.
  Lemma D_density x : Derive (fun y => density y) x = - x * density x. Proof. apply is_derive_unique, density_deriv. Qed.

  Lemma bach_delta (K F s : R) : 0 < s -> is_derive (fun F : R => bach K F s) F (N ((F - K) / s)).
  Proof.
    intros S. unfold bach. auto_derive.
    - repeat split; auto using ex_N, ex_density.
    - rewrite !D_N, !D_density. unfold Rdiv, Rminus. field. lra.
  Qed.
  Lemma bach_gamma (K F s : R) : 0 < s -> is_derive (fun F => N ((F - K) / s)) F (density ((F - K) / s) / s).
  Proof.
    intros S. auto_derive.
    - repeat split; auto using ex_N.
    - rewrite !D_N. unfold Rdiv, Rminus. field. lra.
  Qed.
  Lemma bach_vega_s (K F s : R) : 0 < s -> is_derive (bach K F) s (density ((F - K) / s)).
  Proof.
    intros S. unfold bach. auto_derive.
    - repeat split; auto using ex_N, ex_density; lra.
    - rewrite !D_N, !D_density. unfold Rdiv, Rminus. field. lra.
  Qed.
  Lemma tilted F K s : 0 < F -> 0 < K -> 0 < s -> K * density ((ln (F / K) + s * s / 2) / s - s) = F * density ((ln (F / K) + s * s / 2) / s).
  Proof.
    intros HF HK S. rewrite <- tilt. replace (s * ((ln (F / K) + s * s / 2) / s) - s * s / 2) with (ln (F / K)) by (field; lra).
    rewrite exp_ln by (apply Rdiv_lt_0_compat; auto). field. lra.
  Qed.
  Lemma blk_delta (K F s : R) : 0 < F -> 0 < K -> 0 < s -> is_derive (fun F => blk K F s) F (N ((ln (F / K) + s * s / 2) / s)).
  Proof.
    intros HF HK S. pose proof (tilted F K s HF HK S) as T. unfold blk. auto_derive.
    - assert (0 < F * / K) by (apply Rdiv_lt_0_compat; auto). repeat split; auto using ex_N.
    - unfold Rdiv, Rminus in *. rewrite !D_N.
      match goal with |- ?a = ?b => replace a with (b + (F * density ((ln (F * / K) + s * s * / 2) * / s) - K * density ((ln (F * / K) + s * s * / 2) * / s + - s)) / (F * s)) by (field; lra) end.
      rewrite T. field. lra.
  Qed.
  Lemma blk_vega_s (K F s : R) : 0 < F -> 0 < K -> 0 < s -> is_derive (blk K F) s (F * density ((ln (F / K) + s * s / 2) / s)).
  Proof.
    intros HF HK S. pose proof (tilted F K s HF HK S) as T. unfold blk. auto_derive.
    - repeat split; auto using ex_N; lra.
    - unfold Rdiv, Rminus in *. rewrite !D_N.
      match goal with |- ?a = ?b => replace a with (b + (F * density ((ln (F * / K) + s * s * / 2) * / s) - K * density ((ln (F * / K) + s * s * / 2) * / s + - s)) * (- / 2 - ln (F * / K) * / (s * s))) by (field; lra) end.
      rewrite T. ring.
  Qed.
End Greeks.
