(** Lemmas on rounding: rates of linearly interpolated curves, year fractions of calendar
    dates, and present values from the data of a curve of zero rates. *)
From Coq Require Import ZArith Lia List Bool Reals Lra Floats.SpecFloat.
From Flocq Require Import Core Relative Plus_error BinarySingleNaN.
From Verif Require Import Num Py MDates MInterpolation MCurve MRateCurve MOption MCashflow MBracket MPricer MFloat
  Spec SInterpolation SCurve SRound LInterpolation2 LCurve LRound LRound2 LRound3 LRound4 PRound PRound2 PRound3 PRound4.
Import ListNotations.
Local Open Scope R_scope.

Lemma add_zero_good x : good x -> good (SFadd 53 1024 x f64_zero) /\ v (SFadd 53 1024 x f64_zero) = v x.
Proof.
  intros [Dx Fx]. destruct x as [s|s| |s m e]; try contradiction.
  - destruct s; split; try split; try reflexivity; exact Logic.I.
  - split; [split|]; auto.
Qed.

(** off by a factor in [exp (-m), exp m] and by a relative error K - 1 *)
Lemma two_errors K x e e' m : 1 <= K -> 0 <= m -> 0 < e -> e * exp (- m) <= e' <= e * exp m -> Rabs (x - e') <= e' * (K - 1) ->
  Rabs (x - e) <= e * (K * exp m - 1).
Proof.
  intros HK Hm E0 HE HX. rewrite exp_Ropp in HE. pose proof (exp_mono 0 m Hm) as Y. rewrite exp_0 in Y.
  set (y := exp m) in *. assert (IY : / y * y = 1) by (apply Rinv_l; lra). set (z := / y) in *.
  apply Rabs_le_inv in HX. apply Rabs_le.
  assert (Z0 : 0 < z) by (unfold z; apply Rinv_0_lt_compat; lra).
  assert (E1 : e' * K <= e * y * K) by (apply Rmult_le_compat_r; lra).
  assert (G : 2 <= K * y + (2 - K) * z).
  { assert (0 <= (y - 1) * (y - 1)) by nra. assert (K * (y * y - 1) + 2 - 2 * y >= 0) by nra.
    assert (z * (K * y * y + (2 - K) - 2 * y) >= 0) by nra.
    replace (z * (K * y * y + (2 - K) - 2 * y)) with (K * y * (z * y) + (2 - K) * z - 2 * (z * y)) in H1 by ring.
    rewrite IY in H1. lra. }
  split.
  - destruct (Rle_dec K 2) as [L|L].
    + assert (e * z * (2 - K) <= e' * (2 - K)) by (apply Rmult_le_compat_r; lra). nra.
    + assert (e * y * (2 - K) <= e' * (2 - K)) by nra. nra.
  - nra.
Qed.

Lemma pl_bound ps t z M : piecewise_linear ps t z -> (forall a b, In (a, b) ps -> Rabs b <= M) -> Rabs z <= M.
Proof.
  intros [(a & ya & b & yb & (I1 & I2 & Hlt & _) & Hx & ->)|[(a & I & _)|(b & I & _)]] H; [|eauto|eauto].
  pose proof (H _ _ I1) as A. pose proof (H _ _ I2) as B. apply Rabs_le_inv in A. apply Rabs_le_inv in B. apply Rabs_le.
  unfold chord. set (w := (t - a) / (b - a)).
  assert (W : 0 <= w <= 1).
  { unfold w. split; [apply Rmult_le_pos; [lra|left; apply Rinv_0_lt_compat; lra]|].
    apply Rmult_le_reg_r with (b - a); [lra|]. unfold Rdiv. rewrite Rmult_assoc, Rinv_l by lra. lra. }
  nra.
Qed.

Section Float.
  Context (lib : libm) {D P : Type} (DS : DateSys float64 D P) (DC : DayCounts float64 D).
  #[local] Instance n64d : Num float64 := f64 lib.

  (** a curve of one of the linearly interpolated classes, made of any dates and finite data,
      gives a finite number at every date, and misses the piecewise linear function of its
      data (in real numbers, constant outside of the data) by at most the given bound; the
      times are the year fractions its day count returns *)
  Lemma rates_float : forall k ds rs ts origin count tenor M gap disc o,
    cls_interp k = linear_scheme ->
    rc_new k ds rs None origin count tenor = Ok disc -> rc_origin disc = Some o ->
    Forall2 (fun d t => rc_yf disc o d = Ok t) ds ts -> double_data ts rs ->
    (forall t, In t ts -> Rabs (float_value t) <= powerRZ 2 500) ->
    (forall r, In r rs -> Rabs (float_value r) <= M) -> M <= powerRZ 2 500 ->
    0 < gap -> (forall a ya b yb, consecutive (float_points ts rs) a ya b yb -> gap <= b - a) ->
    forall d t, rc_yf disc o d = Ok t -> is_double t -> finite_float t ->
    exists r Y, rc_call disc d = Ok r /\ is_double r /\ finite_float r /\
      piecewise_linear (float_points ts rs) (float_value t) Y /\
      Rabs (float_value r - Y) <= 15 * rounding_unit * M + 2 * tiny * (1 + / gap).
  Proof.
    intros k ds rs ts origin count tenor M gap disc o KL HN OR FT DD BT BR BM G0 GG d t Ht Dt Ft.
    unfold rc_new in HN.
    assert (PD : prepare_data k rs = Ok rs) by (destruct k; try discriminate KL; reflexivity).
    rewrite PD in HN. cbn [bind] in HN. unfold dc_new in HN.
    destruct (length ds =? length rs)%nat; cbn [negb] in HN; [|discriminate].
    unfold dc_update in HN. cbn [dc_dflt dc_interp dc_origin0 dc_count dc_fix] in HN.
    set (c0 := mkD (cls_interp k) None no_fn ds origin count []) in HN.
    destruct (mapM (dc_time c0) ds) as [ts'|e] eqn:ET; [|discriminate]. cbn [bind] in HN.
    destruct (update_fn (dc_spec (cls_interp k) None) ts' rs) as [[f p]|e] eqn:EU; [|discriminate]. cbn [bind fst] in HN.
    apply (f_equal (fun z => match z with Ok b => b | Err _ => disc end)) in HN. cbv beta iota in HN. subst disc.
    unfold rc_origin, rc_yf, dc_origin, dc_yf in *. cbn [rc_dc dc_origin0 dc_domain dc_count] in *.
    assert (TS : ts' = ts).
    { assert (EQ : forall d, dc_time c0 d = dc_apply count o d).
      { intros d'. unfold dc_time, dc_origin, dc_yf, c0. cbn [dc_origin0 dc_domain dc_count]. now rewrite OR. }
      apply mapM_Forall2 in ET. clearbody c0. clear -ET FT EQ. revert ts FT. induction ET as [|a t' l l' Ha ET IH]; intros ts FT; inversion FT; subst; auto.
      f_equal; auto. rewrite EQ in Ha. congruence. }
    subst ts'.
    destruct (C100_curve lib ts rs M gap DD BT BR BM G0 GG) as (c & EC & CC).
    assert (EF : c_fn c = f).
    { unfold curve_new in EC. destruct DD as (_ & _ & LE & _). rewrite LE, Nat.eqb_refl in EC. cbn [negb] in EC.
      unfold dc_spec in EU. rewrite KL in EU. unfold curve_spec in EC. fold n64d in EC. rewrite EU in EC. cbn [bind fst snd] in EC.
      apply (f_equal (fun z => match z with Ok b => b | Err _ => c end)) in EC. cbv beta iota in EC. now rewrite <- EC. }
    destruct (CC t Dt Ft) as (y & Y & Ey & Dy & Fy & PL & B). unfold curve_call in Ey. rewrite EF in Ey.
    destruct (add_zero_good y (conj Dy Fy)) as [[A1 A2] A3].
    exists (SFadd 53 1024 y f64_zero), Y. split.
    - cbn [rc_call bind]. unfold dc_val, dc_call. cbn [dc_fix assoc]. unfold dc_time, dc_origin. cbn [dc_origin0 dc_domain].
      rewrite OR. unfold dc_yf. cbn [dc_count]. rewrite Ht. cbn [bind dc_fn]. fold n64d in Ey. rewrite Ey. cbn [bind some_float]. reflexivity.
    - split; auto. split; auto. split; auto. now rewrite A3.
  Qed.

  Lemma present_value_float : forall eps M T m gap ds rs ts origin count tenor fuel flr h h' i k disc o x,
    0 <= eps -> exp_within lib eps -> 0 <= T -> 0 <= m ->
    rc_new CZeroRate ds rs None origin count tenor = Ok disc -> rc_origin disc = Some o -> d_is o o = true ->
    Forall2 (fun d t => rc_yf disc o d = Ok t) ds ts -> double_data ts rs ->
    (forall t, In t ts -> Rabs (float_value t) <= powerRZ 2 500) ->
    (forall r, In r rs -> Rabs (float_value r) <= M) -> M <= powerRZ 2 500 ->
    0 < gap -> (forall a ya b yb, consecutive (float_points ts rs) a ya b yb -> gap <= b - a) ->
    let delta := 15 * rounding_unit * M + 2 * tiny * (1 + / gap) in
    (M + delta) * T <= 600 ->
    nth_error (h_curves h) k = Some disc ->
    get_present_value fuel flr (PrList i) k (Some o) h = (Ok x, h') -> finite_float x ->
    exists c amounts, seen_at h o i c /\
      Forall2 (fun d a => cf_get fuel flr c d = Ok a) (filter (fun d => d_leb o d) (cf_domain c)) amounts /\
      forall times qs, Forall is_double amounts ->
        Forall2 (fun d t => rc_yf disc o d = Ok t /\ is_double t /\ finite_float t /\ Rabs (float_value t) <= T /\
                            (d_eqb o d = true -> float_value t = 0))
                (filter (fun d => d_leb o d) (cf_domain c)) times ->
        Forall2 (fun t q => exists z, piecewise_linear (float_points ts rs) (float_value t) z /\ Rabs (z * float_value t - q) <= m) times qs ->
        let exact := map (fun p => exp (- fst p) * float_value (snd p)) (combine qs amounts) in
        let n := length amounts in
        Rabs (float_value x - total exact) <=
          ((1 + rounding_unit) ^ n * (1 + eps) * exp (rounding_unit * ((M + delta) * T) + tiny + (delta * T + m)) - 1) * total_abs exact +
          INR n * (1 + rounding_unit) ^ (n - 1) * tiny.
  Proof.
    intros eps M T m gap ds rs ts origin count tenor fuel flr h h' i k disc o x E0 EW T0 m0 HN OR IO FT DD BT BR BM G0 GG delta BQ Hk H F.
    pose proof u_pos as U0. pose proof tiny_pos as TP.
    assert (M0 : 0 <= M).
    { destruct DD as (_ & _ & LE & NE & _). destruct rs as [|r rs]; [destruct ts; [congruence|discriminate]|].
      eapply Rle_trans; [apply Rabs_pos|apply (BR r); now left]. }
    assert (D0 : 0 <= delta).
    { assert (0 < / gap) by now apply Rinv_0_lt_compat. unfold delta. assert (0 <= rounding_unit * M) by (apply Rmult_le_pos; lra).
      assert (0 <= tiny * (1 + / gap)) by (apply Rmult_le_pos; lra). lra. }
    assert (Q0 : 0 <= (M + delta) * T) by (apply Rmult_le_pos; lra).
    assert (DT0' : 0 <= delta * T) by (apply Rmult_le_pos; lra). assert (DT0 : 0 <= delta * T + m) by lra.
    assert (CL : rc_cls disc = CZeroRate).
    { unfold rc_new in HN. change (prepare_data CZeroRate rs) with (Ok rs) in HN. cbn [bind] in HN.
      destruct (dc_new (cls_interp CZeroRate) ds rs None origin count); [|discriminate]. cbn [bind] in HN.
      apply (f_equal (fun z => match z with Ok b => rc_cls b | Err _ => CZeroRate end)) in HN. exact (eq_sym HN). }
    pose proof (rates_float CZeroRate ds rs ts origin count tenor M gap disc o eq_refl HN OR FT DD BT BR BM G0 GG) as RT. fold delta in RT.
    destruct (C97_present_value lib DS DC _ _ _ _ _ _ _ _ _ Hk H F) as (c & dfs & am & S1 & F1 & F2 & B).
    exists c, am. split; [auto|]. split; [auto|]. intros times qs Da FTm FZ.
    set (dd := filter _ _) in *. set (K := (1 + eps) * exp (rounding_unit * ((M + delta) * T) + tiny)).
    assert (HK : 1 <= K).
    { unfold K. pose proof (exp_mono 0 (rounding_unit * ((M + delta) * T) + tiny)) as X. rewrite exp_0 in X.
      assert (Y : 0 <= rounding_unit * ((M + delta) * T) + tiny) by (apply Rplus_le_le_0_compat; [apply Rmult_le_pos|]; lra). specialize (X Y). nra. }
    set (K' := K * exp (delta * T + m)).
    assert (HK' : 1 <= K').
    { unfold K'. pose proof (exp_mono 0 _ DT0) as X. rewrite exp_0 in X. nra. }
    set (es := map (fun q => exp (- q)) qs).
    assert (DP : distinct (float_points ts rs)).
    { destruct DD as (_ & _ & LE & _ & ND). unfold float_points. apply distinct_combine; rewrite ?map_length; auto. }
    assert (PB : forall t z, piecewise_linear (float_points ts rs) t z -> Rabs z <= M).
    { intros t z PL. apply (pl_bound _ t z M PL). intros a b I. unfold float_points in I. apply in_combine_r in I.
      apply in_map_iff in I. destruct I as (r & <- & I). now apply BR. }
    assert (G : Forall is_double dfs /\ Forall2 (fun df e => 0 < e /\ Rabs (float_value df - e) <= e * (K' - 1)) dfs es).
    { unfold es. clear -E0 EW Q0 BQ CL OR IO F1 FTm FZ RT HK D0 DT0 DP PB M0 U0 TP T0. subst K'. revert times qs FTm FZ.
      induction F1 as [|d df dd dfs Hd F1 IH]; intros times qs FTm FZ; inversion FTm as [|? t ? times' (T1 & T2 & T3 & T4 & T5) FTm']; subst;
        inversion FZ as [|? Q ? qs' (z & Z1 & Z2) FZ']; subst.
      - split; constructor.
      - destruct (IH _ _ FTm' FZ') as [I1 I2].
        destruct (RT d t T1 T2 T3) as (r & Y & R1 & R2 & R3 & R4 & R5).
        assert (Y = z) by (eapply pl_fun; eauto). subst Y. pose proof (PB _ _ Z1) as ZM.
        assert (RM : Rabs (float_value r) <= M + delta).
        { replace (float_value r) with (z + (float_value r - z)) by ring. eapply Rle_trans; [apply Rabs_triang|]. lra. }
        set (q := float_value r * float_value t).
        assert (QM : Rabs q <= (M + delta) * T).
        { unfold q. rewrite Rabs_mult. apply Rmult_le_compat; auto using Rabs_pos. }
        assert (EX : exponent disc o d q).
        { destruct (d_eqb o d) eqn:E.
          - left. split; auto. unfold q. rewrite (T5 eq_refl). ring.
          - right. split; auto. exists r, t. repeat split; auto. }
        destruct (df_zero lib DS DC eps ((M + delta) * T) fuel disc o d df q) as (A1 & _ & A3); auto.
        cbn [map]. split; constructor; auto. split; [apply exp_pos|].
        apply (two_errors K _ _ (exp (- q)) (delta * T + m)); auto using exp_pos.
        rewrite <- !exp_plus.
        assert (W : Rabs (q - z * float_value t) <= delta * T).
        { unfold q. rewrite <- Rmult_minus_distr_r, Rabs_mult. apply Rmult_le_compat; auto using Rabs_pos. }
        apply Rabs_le_inv in W. apply Rabs_le_inv in Z2. split; apply exp_mono; lra. }
    destruct G as [Dd G]. destruct (B Dd Da) as (_ & _ & B').
    pose proof (Forall2_len _ _ _ F1) as L1. pose proof (Forall2_len _ _ _ F2) as L2. pose proof (Forall2_len _ _ _ G) as L3.
    destruct (sum_of_products K' HK' dfs es am) as [P1 P2]; auto; try congruence.
    cbv zeta in P1, P2 |- *.
    assert (EE : map (fun p => fst p * float_value (snd p)) (combine es am) =
                 map (fun p => exp (- fst p) * float_value (snd p)) (combine qs am)).
    { unfold es. clear. revert am. induction qs as [|q qs IH]; intros [|a am]; cbn; auto. now rewrite IH. }
    rewrite EE in P1, P2. set (exact := map _ (combine qs am)) in *.
    replace (length am) with (length dfs) by congruence. set (A := (1 + rounding_unit) ^ length dfs) in *.
    assert (A1 : 1 <= A) by apply pow_u_ge. pose proof (total_abs_nonneg exact).
    replace (float_value x - total exact) with ((float_value x - total (products dfs am)) + (total (products dfs am) - total exact)) by ring.
    eapply Rle_trans; [apply Rabs_triang|]. rewrite (Rmult_assoc A), exp_plus, <- Rmult_assoc. fold K. fold K'.
    rewrite (Rmult_assoc A), <- (Rmult_assoc (1 + eps)). fold K. fold K'. set (tt' := INR _ * _ * tiny) in *.
    assert ((A - 1) * total_abs (products dfs am) <= (A - 1) * (K' * total_abs exact)) by (apply Rmult_le_compat_l; lra). nra.
  Qed.
End Float.
#[local] Existing Instances prec53 prec_emax.

(** * year fractions of calendar dates *)
Lemma ofZ_good z : (Z.abs z < 2 ^ 53)%Z -> good (f64_ofZ z) /\ v (f64_ofZ z) = IZR z.
Proof.
  intros H. unfold f64_ofZ. rewrite normalize_eq.
  pose proof (binary_normalize_correct 53 1024 _ _ mode_NE z 0 false) as C.
  assert (E : F2R (Float radix2 z 0) = IZR z) by (unfold F2R; cbn; ring).
  cbv zeta in C. rewrite E in C.
  assert (G : generic_format radix2 fexp64 (IZR z)).
  { change fexp64 with (FLT_exp (SpecFloat.emin 53 1024) 53). apply generic_format_FLT. apply (FLT_spec _ _ _ _ (Float radix2 z 0)); cbn [Fnum Fexp]; [now rewrite E|exact H|unfold SpecFloat.emin; lia]. }
  rewrite round_generic in C by (auto; apply valid_rnd_round_mode).
  assert (B : Rabs (IZR z) < bpow radix2 1024).
  { rewrite <- abs_IZR. apply Rlt_trans with (IZR (2 ^ 53)); [now apply IZR_lt|].
    change (2 ^ 53)%Z with (Zpower radix2 53). rewrite IZR_Zpower by lia. now apply bpow_lt. }
  rewrite Rlt_bool_true in C by exact B. destruct C as (C1 & C2 & _).
  split; [split; [apply B_double|now apply B_finite]|]. now rewrite B_value.
Qed.

Definition year : R := 1461 / 4.
Lemma year_float : good (f64_ratio 1461 4) /\ v (f64_ratio 1461 4) = year.
Proof.
  assert (E : f64_ratio 1461 4 = S754_finite false 6425545952722944 (-44)) by (vm_compute; reflexivity).
  rewrite E. split; [split; [reflexivity|exact Logic.I]|]. unfold float_value, year.
  change (powerRZ 2 (-44)) with (/ 2 ^ 44). lra.
Qed.

Lemma rnd_rel_int n : exists d, Rabs d <= rounding_unit /\ rnd (IZR n / year) = IZR n / year * (1 + d).
Proof.
  destruct (Z.eq_dec n 0) as [->|N].
  - exists 0. pose proof u_pos. rewrite Rabs_R0. split; [lra|]. unfold Rdiv. rewrite !Rmult_0_l. apply rnd_0.
  - apply rnd_rel. apply Rle_trans with (/ 2 ^ 9).
    + change (powerRZ 2 (-1022)) with (/ 2 ^ 1022). apply Rinv_le_contravar; [apply pow_lt; lra|]. apply Rle_pow; [lra|lia].
    + unfold Rdiv. rewrite Rabs_mult, <- abs_IZR. assert (1 <= IZR (Z.abs n)) by (apply IZR_le; lia).
      unfold year. rewrite (Rabs_pos_eq (/ (1461 / 4))) by lra. assert (/ 2 ^ 9 <= / (1461 / 4)) by lra. nra.
Qed.

Section Calendar.
  Context (lib : libm).
  #[local] Instance n64e : Num float64 := f64 lib.

  (** the year fraction of whole days is the correctly rounded quotient *)
  Lemma yf_days_float s e : (Z.abs (e - s) < 2 ^ 53)%Z ->
    exists t, yf_days s e = Ok t /\ good t /\ v t = rnd (IZR (e - s) / year).
  Proof.
    intros H. destruct (ofZ_good _ H) as [G1 G2]. destruct year_float as [Y1 Y2].
    assert (NZ : v (f64_ratio 1461 4) <> 0) by (rewrite Y2; unfold year; lra).
    exists (SFdiv 53 1024 (f64_ofZ (e - s)) (f64_ratio 1461 4)).
    assert (GD : good (SFdiv 53 1024 (f64_ofZ (e - s)) (f64_ratio 1461 4))).
    { apply div_good; auto. rewrite G2, Y2. unfold Rdiv. rewrite Rabs_mult. unfold year. rewrite (Rabs_pos_eq (/ _)) by lra.
      rewrite <- abs_IZR. apply Rle_trans with (IZR (2 ^ 53) * 1); [apply Rmult_le_compat; try lra; [apply IZR_le; lia|apply IZR_le; lia]|].
      rewrite Rmult_1_r. change (2 ^ 53)%Z with (Zpower radix2 53). rewrite IZR_Zpower by lia. rewrite bpow_powerRZ. apply small_pow. lia. }
    split.
    - unfold yf_days. cbn [ndiv n64e f64]. change (days_in_year (N := n64e)) with (f64_ratio 1461 4).
      rewrite not_zero by exact NZ. reflexivity.
    - split; auto. destruct G1 as [D1 F1]. destruct Y1 as [D2 F2]. destruct GD as [D3 F3].
      destruct (div_round (f64_ofZ (e - s)) (f64_ratio 1461 4) D1 D2 F2 NZ F3) as (_ & _ & E). now rewrite E, G2, Y2.
  Qed.
End Calendar.

(** * the grid of times and the grid of days *)
Section Days.
  Context (N : Z) (HN : (0 <= N)%Z) (HU : IZR N * rounding_unit <= / 8).
  Definition time_of (n : Z) : R := rnd (IZR n / year).
  Lemma year_pos : 0 < year. Proof. unfold year. lra. Qed.

  Lemma time_error n : (Z.abs n <= N)%Z -> exists p, Rabs p <= IZR N * rounding_unit /\ time_of n = (IZR n + p) / year.
  Proof.
    intros H. destruct (rnd_rel_int n) as (d & Hd & E). exists (IZR n * d). split.
    - rewrite Rabs_mult, <- abs_IZR. apply Rmult_le_compat; auto using Rabs_pos; apply IZR_le; lia.
    - unfold time_of. rewrite E. unfold Rdiv. ring.
  Qed.
  Lemma time_lt n m : (Z.abs n <= N)%Z -> (Z.abs m <= N)%Z -> (n < m)%Z ->
    / 2 / year <= time_of m - time_of n.
  Proof.
    intros A B L. destruct (time_error n A) as (p & P1 & ->), (time_error m B) as (q & Q1 & ->).
    apply Rabs_le_inv in P1. apply Rabs_le_inv in Q1.
    assert (1 <= IZR m - IZR n) by (rewrite <- minus_IZR; apply IZR_le; lia).
    unfold Rdiv. rewrite <- Rmult_minus_distr_r. apply Rmult_le_compat_r; [left; apply Rinv_0_lt_compat, year_pos|]. lra.
  Qed.
  Lemma time_lt0 n m : (Z.abs n <= N)%Z -> (Z.abs m <= N)%Z -> (n < m)%Z -> time_of n < time_of m.
  Proof.
    intros A B L. pose proof (time_lt n m A B L) as X. assert (0 < / 2 / year) by (apply Rdiv_lt_0_compat; [lra|apply year_pos]). lra.
  Qed.
  Lemma time_inv n m : (Z.abs n <= N)%Z -> (Z.abs m <= N)%Z -> time_of n < time_of m -> (n < m)%Z.
  Proof.
    intros A B L. destruct (Z.lt_trichotomy n m) as [C|[->|C]]; auto; [lra|]. pose proof (time_lt0 m n B A C). lra.
  Qed.
  Lemma time_le n m : (Z.abs n <= N)%Z -> (Z.abs m <= N)%Z -> (n <= m)%Z -> time_of n <= time_of m.
  Proof.
    intros A B L. destruct (Z.eq_dec n m) as [->|X]; [lra|]. left. apply time_lt0; auto. lia.
  Qed.
  Lemma year_lt n m : IZR n / year < IZR m / year -> (n < m)%Z.
  Proof.
    intros H. apply lt_IZR. apply Rmult_lt_reg_r with (/ year); [apply Rinv_0_lt_compat, year_pos|exact H].
  Qed.
  Lemma year_le n m : IZR n / year <= IZR m / year -> (n <= m)%Z.
  Proof.
    intros H. apply le_IZR. apply Rmult_le_reg_r with (/ year); [apply Rinv_0_lt_compat, year_pos|exact H].
  Qed.
  Lemma year_lt_of n m : (n < m)%Z -> IZR n / year < IZR m / year.
  Proof. intros H. apply Rmult_lt_compat_r; [apply Rinv_0_lt_compat, year_pos|now apply IZR_lt]. Qed.

  Definition exact_points (ps : list (Z * R)) : points := map (fun p => (IZR (fst p) / year, snd p)) ps.
  Definition time_points (ps : list (Z * R)) : points := map (fun p => (time_of (fst p), snd p)) ps.

  Lemma weights n a b p q r : (a < b)%Z -> (a <= n <= b)%Z ->
    Rabs p <= IZR N * rounding_unit -> Rabs q <= IZR N * rounding_unit -> Rabs r <= IZR N * rounding_unit ->
    Rabs (((IZR n + p) / year - (IZR a + q) / year) / ((IZR b + r) / year - (IZR a + q) / year) -
          (IZR n / year - IZR a / year) / (IZR b / year - IZR a / year)) * (IZR b / year - IZR a / year)
    <= 3 * (IZR N / year * rounding_unit).
  Proof.
    intros L [I1 I2] P Q R. apply Rabs_le_inv in P. apply Rabs_le_inv in Q. apply Rabs_le_inv in R.
    replace (3 * (IZR N / year * rounding_unit)) with (3 * (IZR N * rounding_unit) / year) by (unfold Rdiv; ring).
    set (e := IZR N * rounding_unit) in *. pose proof year_pos as Y.
    assert (L1 : 1 <= IZR b - IZR a) by (rewrite <- minus_IZR; apply IZR_le; lia).
    assert (X0 : 0 <= IZR n - IZR a) by (rewrite <- minus_IZR; apply IZR_le; lia).
    assert (X1 : IZR n - IZR a <= IZR b - IZR a) by (rewrite <- !minus_IZR; apply IZR_le; lia).
    replace (((IZR n + p) / year - (IZR a + q) / year) / ((IZR b + r) / year - (IZR a + q) / year))
      with ((IZR n - IZR a + (p - q)) / (IZR b - IZR a + (r - q))) by (field; split; lra).
    replace ((IZR n / year - IZR a / year) / (IZR b / year - IZR a / year)) with ((IZR n - IZR a) / (IZR b - IZR a)) by (field; split; lra).
    replace (IZR b / year - IZR a / year) with ((IZR b - IZR a) / year) by (field; lra).
    set (x := IZR n - IZR a) in *. set (l := IZR b - IZR a) in *. set (w := x / l).
    assert (W : 0 <= w <= 1).
    { unfold w. split; [apply Rmult_le_pos; [lra|left; apply Rinv_0_lt_compat; lra]|].
      apply Rmult_le_reg_r with l; [lra|]. unfold Rdiv. rewrite Rmult_assoc, Rinv_l by lra. lra. }
    assert (XW : x = w * l) by (unfold w; field; lra).
    replace ((x + (p - q)) / (l + (r - q)) - w) with ((p - (1 - w) * q - w * r) / (l + (r - q))) by (rewrite XW; field; lra).
    unfold Rdiv at 1. rewrite Rabs_mult, (Rabs_pos_eq (/ _)) by (left; apply Rinv_0_lt_compat; lra).
    unfold Rdiv. rewrite <- Rmult_assoc. apply Rmult_le_compat_r; [left; now apply Rinv_0_lt_compat|].
    assert (A : Rabs (p - (1 - w) * q - w * r) <= 2 * e) by (apply Rabs_le; nra).
    apply Rmult_le_reg_r with (l + (r - q)); [lra|].
    rewrite !Rmult_assoc, (Rmult_comm l), <- !Rmult_assoc, (Rmult_assoc _ (/ _)), Rinv_l, Rmult_1_r by lra.
    assert (E0 : 0 <= e) by lra. apply Rle_trans with (2 * e * l); [apply Rmult_le_compat_r; lra|]. nra.
  Qed.

  Lemma pl_days ps n z S : 0 <= S -> (forall p, In p ps -> (Z.abs (fst p) <= N)%Z) ->
    (forall a ya b yb, consecutive (exact_points ps) a ya b yb -> Rabs (yb - ya) <= S * (b - a)) -> (Z.abs n <= N)%Z ->
    piecewise_linear (exact_points ps) (IZR n / year) z ->
    exists z', piecewise_linear (time_points ps) (time_of n) z' /\ Rabs (z' - z) <= 3 * S * (IZR N / year) * rounding_unit.
  Proof.
    intros S0 HP HS Hn PL.
    assert (IE : forall x y, In (x, y) (exact_points ps) -> exists a, In (a, y) ps /\ x = IZR a / year /\ In (time_of a, y) (time_points ps)).
    { intros x y I. apply in_map_iff in I. destruct I as ([a b] & E & I). injection E as <- <-. exists a. split; auto. split; auto.
      apply in_map_iff. now exists (a, b). }
    assert (IT : forall x y, In (x, y) (time_points ps) -> exists a, In (a, y) ps /\ x = time_of a /\ In (IZR a / year, y) (exact_points ps)).
    { intros x y I. apply in_map_iff in I. destruct I as ([a b] & E & I). injection E as <- <-. exists a. split; auto. split; auto.
      apply in_map_iff. now exists (a, b). }
    assert (M0 : 0 <= 3 * S * (IZR N / year) * rounding_unit).
    { pose proof u_pos. assert (0 <= IZR N) by now apply IZR_le. pose proof year_pos.
      repeat apply Rmult_le_pos; try lra. left. now apply Rinv_0_lt_compat. }
    destruct PL as [(a & ya & b & yb & CO & Hx & ->)|[(a & I & FI & LE)|(b & I & LA & LE)]].
    - pose proof (HS _ _ _ _ CO) as SL. destruct CO as (I1 & I2 & Hlt & NB). destruct (IE _ _ I1) as (na & J1 & -> & K1). destruct (IE _ _ I2) as (nb & J2 & -> & K2).
      pose proof (HP _ J1) as B1. pose proof (HP _ J2) as B2. cbn [fst snd] in *.
      pose proof (year_lt _ _ Hlt) as L. destruct Hx as [X1 X2]. apply year_le in X1. apply year_le in X2.
      exists (chord (time_of na) ya (time_of nb) yb (time_of n)). split.
      + left. exists (time_of na), ya, (time_of nb), yb. split; [|split; [split; apply time_le; auto|reflexivity]].
        split; [auto|]. split; [auto|]. split; [now apply time_lt0|].
        intros c yc IC. destruct (IT _ _ IC) as (nc & J3 & -> & K3). pose proof (HP _ J3) as B3. cbn [fst] in B3.
        destruct (NB _ _ K3) as [G|G]; [left|right]; apply year_le in G; now apply time_le.
      + destruct (time_error n Hn) as (p & P1 & ->), (time_error na B1) as (q & Q1 & ->), (time_error nb B2) as (r & R1 & ->).
        unfold chord. 
        match goal with |- Rabs (ya + (yb - ya) * ?w' - (ya + (yb - ya) * ?w)) <= _ =>
          replace (ya + (yb - ya) * w' - (ya + (yb - ya) * w)) with ((yb - ya) * (w' - w)) by ring end.
        rewrite Rabs_mult. pose proof (weights n na nb p q r L (conj X1 X2) P1 Q1 R1) as W.
        match type of W with ?A * _ <= _ => eapply Rle_trans; [apply Rmult_le_compat_r with (r := A); [apply Rabs_pos|exact SL]|]; set (w := A) in * end.
        rewrite Rmult_assoc, (Rmult_comm _ w). replace (3 * S * (IZR N / year) * rounding_unit) with (S * (3 * (IZR N / year * rounding_unit))) by ring.
        now apply Rmult_le_compat_l.
    - destruct (IE _ _ I) as (na & J1 & -> & K1). pose proof (HP _ J1) as B1. cbn [fst snd] in *.
      exists z. split; [|rewrite Rminus_diag_eq, Rabs_R0 by auto; auto]. right. left. exists (time_of na). split; auto. split.
      + intros c yc IC. destruct (IT _ _ IC) as (nc & J3 & -> & K3). pose proof (HP _ J3) as B3. cbn [fst] in B3.
        apply time_le; auto. apply year_le. eapply FI; eauto.
      + apply time_le; auto. now apply year_le.
    - destruct (IE _ _ I) as (na & J1 & -> & K1). pose proof (HP _ J1) as B1. cbn [fst snd] in *.
      exists z. split; [|rewrite Rminus_diag_eq, Rabs_R0 by auto; auto]. right. right. exists (time_of na). split; auto. split.
      + intros c yc IC. destruct (IT _ _ IC) as (nc & J3 & -> & K3). pose proof (HP _ J3) as B3. cbn [fst] in B3.
        apply time_le; auto. apply year_le. eapply LA; eauto.
      + apply time_le; auto. now apply year_le.
  Qed.
End Days.
