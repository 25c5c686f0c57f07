(** Lemmas on rounding: present values on curves of zero rates. *)
From Coq Require Import ZArith Lia List Bool Reals Lra Floats.SpecFloat.
From Verif Require Import Num Py MDates MCompounding MInterpolation MCurve MRateCurve MOption MCashflow MBracket MPricer MFloat SRound LRound LRound2.
Import ListNotations.
Local Open Scope R_scope.

Section Zero.
  Context (lib : libm) {D P : Type} (DS : DateSys float64 D P) (DC : DayCounts float64 D).
  #[local] Instance n64z : Num float64 := f64 lib.

  Lemma exp_mono a b : a <= b -> exp a <= exp b.
  Proof. intros [L| ->]; [left; now apply exp_increasing|lra]. Qed.

  Lemma df_zero eps M fuel disc o d df q : 0 <= eps -> exp_within lib eps ->
    rc_cls disc = CZeroRate -> rc_origin disc = Some o -> d_is o o = true ->
    0 <= M <= 600 -> Rabs q <= M -> exponent disc o d q ->
    get_discount_factor fuel disc o d = Ok df ->
    is_double df /\ finite_float df /\
    Rabs (float_value df - exp (- q)) <= exp (- q) * ((1 + eps) * exp (rounding_unit * M + tiny) - 1).
  Proof.
    intros E0 EW CL OR IO HM HQ EX H. pose proof u_pos as U0. pose proof tiny_pos as T0. pose proof (exp_pos (- q)) as EQ.
    unfold get_discount_factor, interest_only in H. rewrite CL in H. cbn [is_interest] in H.
    destruct fuel as [|n]; [discriminate|]. cbn [factor] in H. rewrite CL in H.
    destruct EX as [[E ->]|(E & r & t & Er & Et & Dr & Fr & Dt & Ft & ->)]; rewrite E in H.
    - apply (f_equal (fun z => match z with Ok b => b | Err _ => df end)) in H. cbv beta iota in H. rewrite <- H.
      change (n1 (Num := n64z)) with (f64_ofZ 1).
      split; [apply one_double|]. split; [apply one_finite|]. rewrite one_value, Ropp_0, exp_0, Rminus_diag_eq, Rabs_R0 by auto.
      pose proof (exp_mono 0 (rounding_unit * M + tiny)) as X. rewrite exp_0 in X.
      assert (0 <= rounding_unit * M + tiny) by (apply Rplus_le_le_0_compat; [apply Rmult_le_pos|]; lra). specialize (X H0). nra.
    - destruct n as [|n]; [discriminate|]. cbn [rate] in H. rewrite CL in H. unfold both_origin in H. rewrite E in H. cbn [andb] in H.
      unfold at_origin in H. rewrite OR, IO, Er in H. cbn [bind] in H. rewrite Et in H. cbn [bind] in H.
      destruct (continuous_error lib eps r t df E0 EW Dr Dt Fr Ft) as (A1 & A2 & A3); auto; try lra.
      split; auto. split; auto. eapply Rle_trans; [exact A3|]. apply Rmult_le_compat_l; [lra|].
      set (q := float_value r * float_value t) in *.
      assert (exp (rounding_unit * Rabs q + tiny) <= exp (rounding_unit * M + tiny)) by (apply exp_mono; nra). nra.
  Qed.
End Zero.

(** factors that are off by a relative error at most K - 1, multiplied and added *)
Lemma sum_of_products K : 1 <= K -> forall dfs es amounts, length dfs = length es -> length amounts = length es ->
  Forall2 (fun df e => 0 < e /\ Rabs (float_value df - e) <= e * (K - 1)) dfs es ->
  let exact := map (fun p => fst p * float_value (snd p)) (combine es amounts) in
  Rabs (total (products dfs amounts) - total exact) <= (K - 1) * total_abs exact /\
  total_abs (products dfs amounts) <= K * total_abs exact.
Proof.
  intros HK dfs. induction dfs as [|df dfs IH]; intros [|e es] [|a amounts] H1 H2 F; try discriminate; cbv zeta.
  - cbn. unfold total_abs. cbn. rewrite Rminus_0_r, Rabs_R0. lra.
  - inversion F as [|? ? ? ? [E0 E1] F']; subst. injection H1 as H1. injection H2 as H2.
    destruct (IH es amounts H1 H2 F') as [I1 I2]. cbv zeta in *.
    change (products (df :: dfs) (a :: amounts)) with (float_value df * float_value a :: products dfs amounts).
    cbn [combine map fst snd]. rewrite !total_cons, !total_abs_cons. set (x := float_value df) in *. set (y := float_value a) in *.
    set (S1 := total (products dfs amounts)) in *. set (S2 := total (map _ _)) in *. set (A1 := total_abs (products dfs amounts)) in *.
    set (A2 := total_abs (map _ _)) in *.
    assert (B : Rabs ((x - e) * y) <= (K - 1) * Rabs (e * y)).
    { rewrite !Rabs_mult, (Rabs_pos_eq e) by lra. pose proof (Rabs_pos y). nra. }
    split.
    + replace (x * y + S1 - (e * y + S2)) with ((x - e) * y + (S1 - S2)) by ring. eapply Rle_trans; [apply Rabs_triang|]. lra.
    + replace (x * y) with (e * y + (x - e) * y) by ring. pose proof (Rabs_triang (e * y) ((x - e) * y)). lra.
Qed.
