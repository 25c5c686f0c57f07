(** Property C99: present values on curves of zero rates in double precision. *)
From Coq Require Import ZArith Lia List Bool Reals Lra Floats.SpecFloat.
From Verif Require Import Num Py MDates MInterpolation MCurve MRateCurve MOption MCashflow MBracket MPricer MFloat SRound LRound LRound2 LRound3
  PRound PRound2.
Import ListNotations.
Local Open Scope R_scope.

Section C99.
  Context (lib : libm) {D P : Type} (DS : DateSys float64 D P) (DC : DayCounts float64 D).
  #[local] Instance n64c : Num float64 := f64 lib.

  (** the present value at the origin of a curve of zero rates misses the sum of the amounts
      times exp(- rate * time), in real numbers, by at most the given bound, which is about
      (n + M) units of rounding plus the error of math.exp, relative to the sum of the
      absolute values; M bounds |rate * time| *)
  Theorem C99_zero_rates : forall eps M fuel flr h h' i k disc o x,
    0 <= eps -> exp_within lib eps -> 0 <= M <= 600 ->
    nth_error (h_curves h) k = Some disc -> rc_cls disc = CZeroRate -> rc_origin disc = Some o -> d_is o o = true ->
    get_present_value fuel flr (PrList i) k (Some o) h = (Ok x, h') -> finite_float x ->
    exists c amounts, seen_at h o i c /\
      Forall2 (fun d a => cf_get fuel flr c d = Ok a) (filter (fun d => d_leb o d) (cf_domain c)) amounts /\
      forall qs, Forall is_double amounts ->
        Forall2 (fun d q => exponent disc o d q /\ Rabs q <= M) (filter (fun d => d_leb o d) (cf_domain c)) qs ->
        let exact := map (fun p => exp (- fst p) * float_value (snd p)) (combine qs amounts) in
        let n := length qs in
        Rabs (float_value x - total exact) <=
          ((1 + rounding_unit) ^ n * (1 + eps) * exp (rounding_unit * M + tiny) - 1) * total_abs exact +
          INR n * (1 + rounding_unit) ^ (n - 1) * tiny.
  Proof.
    intros eps M fuel flr h h' i k disc o x E0 EW HM Hk CL OR IO H F.
    destruct (C97_present_value lib DS DC _ _ _ _ _ _ _ _ _ Hk H F) as (c & dfs & am & S1 & F1 & F2 & B).
    exists c, am. split; [auto|]. split; [auto|]. intros qs Da FQ.
    set (ds := filter _ _) in *. set (K := (1 + eps) * exp (rounding_unit * M + tiny)).
    pose proof u_pos as U0. pose proof tiny_pos as T0.
    assert (HK : 1 <= K).
    { unfold K. pose proof (exp_mono 0 (rounding_unit * M + tiny)) as X. rewrite exp_0 in X.
      assert (Y : 0 <= rounding_unit * M + tiny) by (apply Rplus_le_le_0_compat; [apply Rmult_le_pos|]; lra). specialize (X Y). nra. }
    assert (G : Forall is_double dfs /\ Forall2 (fun df e => 0 < e /\ Rabs (float_value df - e) <= e * (K - 1)) dfs (map (fun q => exp (- q)) qs)).
    { clear -E0 EW HM CL OR IO F1 FQ. revert qs FQ. induction F1 as [|d df ds dfs Hd F1 IH]; intros qs FQ; inversion FQ as [|? q ? qs' [HX HQ] FQ']; subst.
      - split; constructor.
      - destruct (IH _ FQ') as [I1 I2]. destruct (df_zero lib DS DC eps M fuel disc o d df q) as (A1 & _ & A3); auto.
        split; constructor; auto. split; [apply exp_pos|exact A3]. }
    destruct G as [Dd G]. destruct (B Dd Da) as (_ & _ & B').
    pose proof (Forall2_len _ _ _ F1) as L1. pose proof (Forall2_len _ _ _ F2) as L2. pose proof (Forall2_len _ _ _ FQ) as L3.
    destruct (sum_of_products K HK dfs (map (fun q => exp (- q)) qs) am) as [P1 P2]; auto; try (rewrite map_length; congruence).
    cbv zeta in P1, P2 |- *.
    assert (EE : map (fun p => fst p * float_value (snd p)) (combine (map (fun q => exp (- q)) qs) am) =
                 map (fun p => exp (- fst p) * float_value (snd p)) (combine qs am)).
    { clear. revert am. induction qs as [|q qs IH]; intros [|a am]; cbn; auto. now rewrite IH. }
    rewrite EE in P1, P2. set (exact := map _ (combine qs am)) in *.
    replace (length qs) with (length dfs) by congruence. set (A := (1 + rounding_unit) ^ length dfs) in *.
    assert (A1 : 1 <= A) by apply pow_u_ge. pose proof (total_abs_nonneg exact).
    replace (float_value x - total exact) with ((float_value x - total (products dfs am)) + (total (products dfs am) - total exact)) by ring.
    eapply Rle_trans; [apply Rabs_triang|]. rewrite (Rmult_assoc A). fold K. set (tt' := INR _ * _ * tiny) in *.
    assert ((A - 1) * total_abs (products dfs am) <= (A - 1) * (K * total_abs exact)) by (apply Rmult_le_compat_l; lra). nra.
  Qed.
End C99.
Print Assumptions C99_zero_rates.

(** instance: FixedCashFlowList([1], [100], origin=0) on ZeroRateCurve([0], [1.0]), that is a
    rate of 100%, with the math.exp of [poor_exp]; the present value is 36.788 *)
Section Case.
  #[local] Instance n64p : Num float64 := f64 poor_exp.
  #[local] Instance no_registry99 : DayCounts float64 float64 := [].
  Example C99_instance : exists l disc,
    fixed_new [f64_ofZ 1] (Many [f64_ofZ 100]) (Some f64_zero) = Ok l /\
    rc_new CZeroRate [f64_zero] [f64_ofZ 1] None None DcDefault None = Ok disc /\
    rc_cls disc = CZeroRate /\ rc_origin disc = Some f64_zero /\ d_is f64_zero f64_zero = true /\
    get_present_value 3 None (PrList 0) 0 (Some f64_zero) (mkH [disc] [] [mkHL l HNone]) =
      (Ok (f64_ratio 36788 1000), mkH [disc] [] [mkHL l HNone]) /\
    cf_get 3 None l (f64_ofZ 1) = Ok (f64_ofZ 100) /\ is_double (f64_ofZ 100) /\
    exponent disc f64_zero (f64_ofZ 1) 1 /\ Rabs 1 <= 600.
  Proof.
    eexists. eexists. split; [reflexivity|]. split; [reflexivity|]. split; [reflexivity|]. split; [reflexivity|]. split; [reflexivity|].
    split; [vm_compute; reflexivity|]. split; [reflexivity|]. split; [reflexivity|]. split; [|rewrite Rabs_R1; lra].
    right. split; [reflexivity|]. exists (f64_ofZ 1), (f64_ofZ 1).
    split; [vm_compute; reflexivity|]. split; [vm_compute; reflexivity|]. rewrite one_value.
    repeat split; try apply one_double; try apply one_finite. lra.
  Qed.
End Case.
