(** Expected payoffs and small changes of the market, values of models in double precision.
    Used for C114. *)
From Coq Require Import ZArith Lia Reals Lra Psatz List Bool Floats.SpecFloat.
From Flocq Require Import Raux.
From Verif Require Import Num Py MDates MInterpolation MCurve MRateCurve MOption MFloat SOption SNormal SRound SRound2
  LBase LOption LNormal LSeries LGauss LExpect LRound LRound2 LRound4 LRound5 LRound7 LRound8 PNormal PExpect PStrikes.
Local Open Scope R_scope.

Lemma expectation_const c : expectation (fun _ => c) c.
Proof.
  pose proof (forward_mean FNormal c 0 1 ltac:(lra)) as H. revert H. apply expectation_ext. intros z. cbn [forward_at]. unfold normal_forward. ring.
Qed.
Lemma lognormal_half K K' F F' s t e e' : 0 < t ->
  expectation (fun z => call_payoff K (lognormal_forward F s t z)) e -> expectation (fun z => call_payoff K' (lognormal_forward F' s t z)) e' ->
  e' <= e + (Rabs (F' - F) + Rabs (K' - K)).
Proof.
  intros Ht E E'. assert (EF : expectation (fun z => lognormal_forward 1 s t z) 1) by exact (forward_mean FLogNormal 1 s t Ht).
  assert (EA := expectation_lin _ _ _ _ (Rabs (F' - F)) (Rabs (K' - K)) EF (expectation_const 1)).
  assert (EB := expectation_lin _ _ _ _ 1 1 E EA). refine (Rle_trans _ _ _ (expectation_le _ _ _ _ _ E' EB) _); [|lra].
  intros z. cbv beta. unfold call_payoff, lognormal_forward. set (x := exp (s * sqrt t * z - s ^ 2 * t / 2)). assert (X : 0 < x) by apply exp_pos.
  assert (A : F' * x - K' <= F * x - K + (Rabs (F' - F) * x + Rabs (K' - K))).
  { pose proof (Rle_abs (F' - F)). pose proof (Rle_abs (- (K' - K))) as A2. rewrite Rabs_Ropp in A2. nra. }
  assert (B : 0 <= Rabs (F' - F) * x) by (apply Rmult_le_pos; [apply Rabs_pos|lra]). pose proof (Rabs_pos (K' - K)).
  unfold Rmax. destruct (Rle_dec (F' * x - K') 0), (Rle_dec (F * x - K) 0); lra.
Qed.
Lemma lognormal_change K K' F F' s t e e' : 0 < t ->
  expectation (fun z => call_payoff K (lognormal_forward F s t z)) e -> expectation (fun z => call_payoff K' (lognormal_forward F' s t z)) e' ->
  Rabs (e' - e) <= Rabs (F' - F) + Rabs (K' - K).
Proof.
  intros Ht E E'. pose proof (lognormal_half _ _ _ _ _ _ _ _ Ht E E'). pose proof (lognormal_half _ _ _ _ _ _ _ _ Ht E' E) as H'.
  rewrite (Rabs_minus_sym F F'), (Rabs_minus_sym K K') in H'. apply Rabs_le. lra.
Qed.
Lemma put_call_expected fm F K s t ec ep : 0 < t ->
  expectation (fun z => call_payoff K (forward_at fm F s t z)) ec -> expectation (fun z => put_payoff K (forward_at fm F s t z)) ep -> ep = K - F + ec.
Proof.
  intros Ht EC EP. apply (expectation_unique (fun z => put_payoff K (forward_at fm F s t z))); auto.
  pose proof (expectation_lin _ _ _ _ 1 (- 1) (expectation_const K) (forward_mean fm F s t Ht)) as E1.
  pose proof (expectation_lin _ _ _ _ 1 1 E1 EC) as E2. replace (1 * (1 * K + -1 * F) + 1 * ec) with (K - F + ec) in E2 by ring.
  revert E2. apply expectation_ext. intros z. unfold put_payoff, call_payoff. set (x := forward_at fm F s t z). unfold Rmax.
  destruct (Rle_dec (x - K) 0), (Rle_dec (K - x) 0); lra.
Qed.

Section Live.
  Context (lib : libm) {D P : Type} (DS : DateSys float64 D P) (DC : DayCounts float64 D).
  #[local] Instance n64live : Num float64 := f64 lib.
  Lemma live64 fuel flr (m : omodel float64 D P) d strike F K s t : good s -> good t -> 0 < v s -> 0 < v t ->
    om_details fuel flr m d strike = Ok (mkOD (Some F) K (Some s) t) ->
    get_call_value fuel flr m d strike = call_price (om_formula m) t K F s /\
    get_put_value fuel flr m d strike = (c <- call_price (om_formula m) t K F s ;; Ok (nadd (nsub K F) c)).
  Proof.
    intros Gs Gt Ps Pt E. unfold get_call_value, get_put_value. rewrite E. cbn [bind od_forward number od_strike od_vol od_time].
    assert (TR : forall x, good x -> 0 < v x -> ntruthy x = true).
    { intros x G X. unfold ntruthy. change (neqb x n0) with (SFeqb x f64_zero). rewrite (eqb_value x f64_zero G zero_good). change (v f64_zero) with 0.
      destruct (Reqb (v x) 0) eqn:Q; auto. apply Reqb_true in Q. lra. }
    unfold degenerate. cbn [od_vol od_time]. rewrite (TR s Gs Ps), (TR t Gt Pt). cbn [negb orb]. split; reflexivity.
  Qed.
End Live.
