(** Property C104: redemption plans in double precision. *)
From Coq Require Import ZArith Lia List Bool Reals Lra Floats.SpecFloat.
From Flocq Require Import Core BinarySingleNaN.
From Verif Require Import Num MPlans MFloat SRound LRound LRound2 LRound4 LRound5.
Import ListNotations.
Local Open Scope R_scope.
#[local] Existing Instances prec53 prec_emax.

Lemma map_rep {A B} (f : A -> B) x n : map f (repeat x n) = repeat (f x) n.
Proof. induction n as [|n IH]; cbn; congruence. Qed.
Lemma total_repeat x n : total (repeat x n) = INR n * x.
Proof. induction n as [|n IH]; [cbn; lra|]. rewrite S_INR. cbn [repeat]. rewrite total_cons, IH. ring. Qed.
Lemma total_abs_repeat x n : total_abs (repeat x n) = INR n * Rabs x.
Proof. unfold total_abs. rewrite map_rep. apply total_repeat. Qed.

(** a quotient not greater than the dividend does not overflow *)
Lemma div_le_good x y : good x -> good y -> 1 <= v y -> good (SFdiv 53 1024 x y).
Proof.
  intros [Dx Fx] [Dy Fy] NZ. split; [now apply div_double|]. destruct (double_B x Dx) as [a <-], (double_B y Dy) as [b <-].
  rewrite div_eq, !B_value in *. apply B_finite in Fx, Fy. apply B_finite.
  pose proof (Bdiv_correct 53 1024 _ _ mode_NE a b ltac:(lra)) as C. rewrite Rlt_bool_true in C; [destruct C as (_ & C & _); congruence|].
  apply Rle_lt_trans with (Rabs (B2R a)); [|apply abs_B2R_lt_emax].
  assert (I : 0 < / B2R b <= 1) by (split; [apply Rinv_0_lt_compat; lra|rewrite <- Rinv_1; apply Rinv_le_contravar; lra]).
  assert (L : Rabs (B2R a / B2R b) <= Rabs (B2R a)).
  { unfold Rdiv. rewrite Rabs_mult, (Rabs_pos_eq (/ _)) by lra. pose proof (Rabs_pos (B2R a)). nra. }
  assert (G : generic_format radix2 (SpecFloat.fexp 53 1024) (Rabs (B2R a))) by (apply generic_format_abs, generic_format_B2R).
  apply abs_round_le_generic; auto; apply valid_rnd_round_mode || apply (fexp_correct 53 1024 _).
Qed.

Section C104.
  Context (lib : libm).
  #[local] Instance n64k : Num float64 := f64 lib.

  (** linear amortisation: n equal payments, each the n-th part of the amount up to one unit
      of rounding (and half the least positive double); they add up to the amount up to n
      units of rounding *)
  Theorem C104_amortize : forall n amount plan, (1 <= n)%nat -> (Z.of_nat n < 2 ^ 53)%Z ->
    is_double amount -> finite_float amount -> amortize n amount = Ok plan ->
    length plan = n /\ Forall is_double plan /\ Forall finite_float plan /\
    Forall (fun p => Rabs (float_value p - float_value amount / INR n) <= rounding_unit * Rabs (float_value amount / INR n) + tiny) plan /\
    (finite_float (nsum plan) ->
     Rabs (float_value (nsum plan) - float_value amount) <=
       ((1 + rounding_unit) ^ n - 1) * Rabs (float_value amount) + INR n * (1 + rounding_unit) ^ (n - 1) * tiny).
  Proof.
    intros n a plan Hn Bn Da Fa H. unfold amortize in H. cbn [ndiv n64k f64] in H. unfold n_ofN in H. cbn [n_ofZ n64k f64] in H.
    destruct (ofZ_good (Z.of_nat n)) as [[Dn Fn] Vn]; [lia|]. rewrite <- INR_IZR_INZ in Vn.
    assert (N1 : 1 <= INR n) by (change 1 with (INR 1); now apply le_INR).
    rewrite not_zero in H by (rewrite Vn; lra). cbn [bind] in H.
    apply (f_equal (fun z => match z with Ok x => x | Err _ => [] end)) in H. cbv beta iota in H. subst plan.
    set (p := SFdiv 53 1024 a (f64_ofZ (Z.of_nat n))).
    assert (G : good p).
    { apply div_le_good; [split; auto|split; auto|rewrite Vn; lra]. }
    destruct G as [Dp Fp].
    assert (NZ : v (f64_ofZ (Z.of_nat n)) <> 0) by (rewrite Vn; lra).
    destruct (div_round a (f64_ofZ (Z.of_nat n)) Da Dn Fn NZ Fp) as (_ & _ & E). rewrite Vn in E. fold p in E.
    destruct (rnd_error (v a / INR n)) as (d & e & Hd & He & R). rewrite R in E. pose proof u_pos as U0. pose proof tiny_pos as T0.
    assert (B : Rabs (v p - v a / INR n) <= rounding_unit * Rabs (v a / INR n) + tiny).
    { rewrite E. replace (_ - _) with (d * (v a / INR n) + e) by ring. eapply Rle_trans; [apply Rabs_triang|]. rewrite Rabs_mult.
      apply Rplus_le_compat; auto. apply Rmult_le_compat_r; auto using Rabs_pos. }
    assert (FA : forall (Q : float64 -> Prop), Q p -> Forall Q (repeat p n)).
    { intros Q HQ. apply Forall_forall. intros x I. apply repeat_spec in I. now subst. }
    split; [apply repeat_length|]. do 3 (split; [now apply FA|]). intros F.
    destruct (nsum_error lib (repeat p n) (FA _ Dp) F) as (_ & _ & S1). rewrite repeat_length, map_rep, total_repeat, total_abs_repeat in S1.
    set (A := (1 + rounding_unit) ^ (n - 1)) in *. assert (A1 : 1 <= A) by apply pow_u_ge.
    replace ((1 + rounding_unit) ^ n) with ((1 + rounding_unit) * A) by (unfold A; replace n with (S (n - 1)) at 2 by lia; reflexivity).
    set (x := v a / INR n) in *. assert (EX : v a = INR n * x) by (unfold x; field; lra).
    rewrite EX. rewrite Rabs_mult, (Rabs_pos_eq (INR n)) by lra.
    replace (float_value _ - INR n * x) with ((float_value (nsum (repeat p n)) - INR n * v p) + INR n * (v p - x)) by ring.
    eapply Rle_trans; [apply Rabs_triang|]. rewrite Rabs_mult, (Rabs_pos_eq (INR n)) by lra.
    assert (P : Rabs (v p) <= (1 + rounding_unit) * Rabs x + tiny).
    { replace (v p) with (x + (v p - x)) by ring. eapply Rle_trans; [apply Rabs_triang|]. lra. }
    assert (Q : (A - 1) * (INR n * Rabs (v p)) <= (A - 1) * (INR n * ((1 + rounding_unit) * Rabs x + tiny))).
    { apply Rmult_le_compat_l; [lra|]. apply Rmult_le_compat_l; lra. }
    assert (Q' : INR n * Rabs (v p - x) <= INR n * (rounding_unit * Rabs x + tiny)) by (apply Rmult_le_compat_l; lra).
    eapply Rle_trans; [apply Rplus_le_compat; [eapply Rle_trans; [exact S1|exact Q]|exact Q']|]. apply Req_le. ring.
  Qed.

  (** a bullet plan adds up exactly *)
  Theorem C104_bullet : forall n amount, is_double amount -> finite_float amount ->
    float_value (nsum (bullet n amount)) = float_value amount.
  Proof.
    intros n a Da Fa. unfold bullet, nsum. cbn [nadd n0 n64k f64]. rewrite fold_left_app. cbn [fold_left].
    assert (Z : fold_left (SFadd 53 1024) (repeat f64_zero (n - 1)) f64_zero = f64_zero).
    { generalize (n - 1)%nat as k. induction k; auto. }
    rewrite Z. destruct (value_zero_add a Da Fa) as (V & _ & _). exact V.
  Qed.

  Lemma loop_error (s : R) sgn : is_double sgn -> float_value sgn = s -> s = 1 \/ s = -1 ->
    forall i l acc o, Forall is_double l -> is_double acc ->
    nth_error (acc :: outstanding_loop l acc sgn) i = Some o -> finite_float o ->
    (i <= length l)%nat /\ finite_float acc /\
    Rabs (float_value o - (float_value acc + s * total (map float_value (firstn i l)))) <=
      ((1 + rounding_unit) ^ i - 1) * (Rabs (float_value acc) + total_abs (map float_value (firstn i l))).
  Proof.
    intros Ds Vs Hs. pose proof u_pos as U0. induction i as [|i IH]; intros l acc o Dl Da H F.
    - cbn in H. injection H as <-. split; [lia|]. split; auto. cbn. replace (_ - _) with 0 by ring. rewrite Rabs_R0. lra.
    - destruct l as [|p l]; [destruct i; discriminate|]. inversion Dl as [|? ? Dp Dl']. subst x l0.
      cbn [outstanding_loop nth_error] in H. cbn [nadd nmul n64k f64] in H.
      set (acc' := SFadd 53 1024 acc (SFmul 53 1024 sgn p)) in *.
      assert (Dm : is_double (SFmul 53 1024 sgn p)) by now apply mul_double.
      assert (Da' : is_double acc') by now apply add_double.
      destruct (IH l acc' o Dl' Da' H F) as (L & F' & B).
      destruct (add_error acc (SFmul 53 1024 sgn p) Da Dm F') as (Fa & Fm & _ & d & Hd & E). fold acc' in E.
      destruct (mul_round sgn p Ds Dp Fm) as (_ & Fp & _ & Em). rewrite Vs in Em.
      assert (Em' : rnd (s * v p) = s * v p).
      { destruct Hs as [-> | ->]; [rewrite Rmult_1_l; now apply rnd_value|].
        replace (-1 * v p) with (- v p) by ring. unfold rnd. transitivity (- rnd (v p)); [apply round_NE_opp|]. now rewrite rnd_value. }
      rewrite Em' in Em. rewrite Em in E. clear Em Em'.
      split; [cbn; lia|]. split; [auto|]. cbn [firstn map]. rewrite total_cons, total_abs_cons.
      set (t := total _) in *. set (ta := total_abs _) in *. assert (T0 : 0 <= ta) by apply total_abs_nonneg.
      set (x := v acc + s * v p) in *. set (A := Rabs (v acc) + Rabs (v p)).
      assert (XA : Rabs x <= A).
      { unfold x, A. eapply Rle_trans; [apply Rabs_triang|]. rewrite Rabs_mult.
        assert (Rabs s = 1) as -> by (destruct Hs as [-> | ->]; [apply Rabs_R1|rewrite Rabs_left; lra]). lra. }
      assert (X1 : Rabs (v acc' - x) <= rounding_unit * A).
      { rewrite E. replace (x * (1 + d) - x) with (d * x) by ring. rewrite Rabs_mult. apply Rmult_le_compat; auto using Rabs_pos. }
      assert (X2 : Rabs (v acc') <= (1 + rounding_unit) * A).
      { replace (v acc') with (x + (v acc' - x)) by ring. eapply Rle_trans; [apply Rabs_triang|]. lra. }
      replace (v o - (v acc + s * (v p + t))) with ((v o - (v acc' + s * t)) + (v acc' - x)) by (unfold x; ring).
      eapply Rle_trans; [apply Rabs_triang|]. cbn [pow]. pose proof (pow_u_ge i) as G. set (U := (1 + rounding_unit) ^ i) in *.
      replace (Rabs (v acc) + (Rabs (v p) + ta)) with (A + ta) by (unfold A; ring).
      assert ((U - 1) * (Rabs (v acc') + ta) <= (U - 1) * ((1 + rounding_unit) * A + ta)) by (apply Rmult_le_compat_l; lra).
      assert (0 <= rounding_unit * U * ta) by (repeat apply Rmult_le_pos; lra). lra.
  Qed.

  (** outstanding amounts: entry i is the amount less (or plus) the first i payments, up to i
      units of rounding of everything added *)
  Theorem C104_outstanding : forall plan amount sign i o, Forall is_double plan -> is_double amount ->
    nth_error (outstanding plan amount sign) i = Some o -> finite_float o ->
    let s := if sign then 1 else -1 in
    let paid := map float_value (firstn i plan) in
    Rabs (float_value o - (float_value amount + s * total paid)) <=
      ((1 + rounding_unit) ^ i - 1) * (Rabs (float_value amount) + total_abs paid).
  Proof.
    intros plan amount sign i o Dl Da H F s paid. unfold outstanding in H.
    assert (DR : Forall is_double (removelast plan)).
    { clear -Dl. induction Dl as [|p l Hp Dl IH]; cbn; auto. destruct l; auto. }
    assert (FE : (i <= length (removelast plan))%nat -> firstn i (removelast plan) = firstn i plan).
    { intros L. destruct plan as [|p l]; [reflexivity|]. rewrite (app_removelast_last p (l := p :: l)) at 2 by discriminate.
      rewrite firstn_app. replace (i - _)%nat with 0%nat by lia. cbn [firstn]. now rewrite app_nil_r. }
    destruct sign.
    - destruct (loop_error 1 (f64_ofZ 1) one_double one_value (or_introl eq_refl) i (removelast plan) amount o DR Da H F) as (L & _ & B).
      rewrite (FE L) in B. exact B.
    - destruct (loop_error (-1) (SFopp (f64_ofZ 1))) with (i := i) (l := removelast plan) (acc := amount) (o := o) as (L & _ & B); auto.
      + reflexivity.
      + assert (E : SFopp (f64_ofZ 1) = S754_finite true 4503599627370496 (-52)) by (vm_compute; reflexivity). rewrite E.
        unfold float_value. simpl. lra.
      + rewrite (FE L) in B. exact B.
  Qed.
End C104.
Print Assumptions C104_amortize.
Print Assumptions C104_bullet.
Print Assumptions C104_outstanding.

(** ten payments of a tenth of 1.0 add up to 0.9999999999999999, and after them
    1.1102230246251565e-16 is outstanding *)
Theorem C104_amortize_refuted : forall lib, exists plan,
  amortize (N := f64 lib) 10 (f64_ofZ 1) = Ok plan /\
  float_value (nsum (N := f64 lib) plan) < 1 /\
  exists o p, nth_error (outstanding (N := f64 lib) plan (f64_ofZ 1) false) 9 = Some o /\ nth_error plan 9 = Some p /\
    0 < float_value (nsub (Num := f64 lib) o p).
Proof.
  intros lib. exists (repeat (f64_ratio 1 10) 10). split; [reflexivity|]. split.
  - assert (E : nsum (N := f64 lib) (repeat (f64_ratio 1 10) 10) = S754_finite false 9007199254740991 (-53)) by (vm_compute; reflexivity).
    rewrite E. unfold float_value. simpl. lra.
  - do 2 eexists. split; [vm_compute; reflexivity|]. split; [vm_compute; reflexivity|].
    match goal with |- 0 < float_value ?x => let y := eval vm_compute in x in replace x with y by (vm_compute; reflexivity) end.
    unfold float_value. simpl. lra.
Qed.
Print Assumptions C104_amortize_refuted.
