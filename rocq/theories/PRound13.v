(** Property C105: curves of discount factors at calendar dates in double precision, compared
    with the exact factors at the exact times. *)
From Coq Require Import ZArith Lia List Bool Permutation Reals Lra Floats.SpecFloat.
From Flocq Require Import Core.
From Verif Require Import Num Py MDates MInterpolation MCurve MRateCurve MOption MCashflow MBracket MPricer MFloat
  Spec SInterpolation SCurve SRound SRound2 LSort LInterpolation LInterpolation2 LCurve LRound LRound2 LRound3 LRound4 LRound5 LRound6 PRound PRound2 PRound5 PRound8.
Import ListNotations.
Local Open Scope R_scope.

(** * factors at rounded and at exact times *)
Section Days.
  Context (N : Z) (HN : (0 <= N)%Z) (HU : IZR N * rounding_unit <= / 8).
  Local Notation exact_points := (LRound5.exact_points).
  Local Notation time_points := (LRound5.time_points).
  Definition rate_days (ps : list (Z * R)) : list (Z * R) :=
    map (fun p => (fst p, ln (snd p) / (IZR (fst p) / year))) (filter (fun p => negb (Z.eqb (fst p) 0)) ps).
  Definition log_rates (ps : points) : points := transform (fun t y => ln y / t) (without_zero ps).

  Lemma time_zero n : (Z.abs n <= N)%Z -> (time_of n = 0 <-> n = 0%Z).
  Proof.
    assert (Z0 : time_of 0 = 0) by (unfold time_of, Rdiv; rewrite Rmult_0_l; apply rnd_0).
    intros A. split; [|now intros ->]. intros E. destruct (Z.lt_trichotomy n 0) as [C|[C|C]]; auto.
    - pose proof (time_lt0 N HU n 0 A ltac:(lia) C). lra.
    - pose proof (time_lt0 N HU 0 n ltac:(lia) A C). lra.
  Qed.
  Lemma year_zero n : IZR n / year = 0 <-> n = 0%Z.
  Proof.
    pose proof year_pos. split; [|intros ->; unfold Rdiv; ring]. intros E. apply eq_IZR. unfold Rdiv in E.
    apply Rmult_integral in E. destruct E as [E|E]; auto. pose proof (Rinv_0_lt_compat _ H). lra.
  Qed.

  Lemma exact_rates ps : log_rates (exact_points ps) = exact_points (rate_days ps).
  Proof.
    unfold log_rates, transform, without_zero, LRound5.exact_points, rate_days. induction ps as [|[n y] ps IH]; [reflexivity|]. cbn [map filter fst snd].
    destruct (Req_EM_T (IZR n / year) 0) as [E|E].
    - apply year_zero in E. subst n. cbn [Z.eqb negb]. exact IH.
    - destruct (Z.eqb_spec n 0) as [->|Q]; [elim E; now apply year_zero|]. cbn [negb map fst snd]. now rewrite IH.
  Qed.

  Lemma near_rates ps M : (forall p, In p ps -> (Z.abs (fst p) <= N)%Z) -> (forall t z, In (t, z) (log_rates (exact_points ps)) -> Rabs z <= M) ->
    Forall2 (fun p q => fst p = fst q /\ Rabs (snd p - snd q) <= 2 * rounding_unit * M) (time_points (rate_days ps)) (log_rates (time_points ps)).
  Proof.
    intros B. rewrite exact_rates. pose proof u_pos. pose proof u_small. pose proof year_pos as YP.
    unfold log_rates, transform, without_zero, LRound5.time_points, LRound5.exact_points, rate_days. induction ps as [|[n y] ps IH]; intros BM; [constructor|].
    assert (Bn := B (n, y) (or_introl eq_refl)). cbn [fst] in Bn. cbn [map filter fst snd] in *.
    destruct (Z.eqb_spec n 0) as [Q|Q]; cbn [negb] in *.
    - destruct (Req_EM_T (time_of n) 0) as [E|E]; [|elim E; now apply time_zero]. apply IH; auto. intros; apply B; now right.
    - destruct (Req_EM_T (time_of n) 0) as [E|E]; [apply time_zero in E; auto; congruence|]. cbn [map fst snd] in *.
      constructor; [|apply IH; [intros; apply B; now right|intros t z I; apply (BM t z); now right]].
      cbn [fst snd]. split; auto. assert (BZ := BM _ _ (or_introl eq_refl)). set (t := IZR n / year) in *.
      assert (t <> 0) by (unfold t; intro; now apply Q, year_zero).
      destruct (rnd_rel_int n) as (e & He & Ee). fold t in Ee. change (time_of n = t * (1 + e)) in Ee. rewrite Ee. apply Rabs_le_inv in He.
      replace (ln y / t - ln y / (t * (1 + e))) with (ln y / t * (e / (1 + e))) by (field; split; lra).
      rewrite Rabs_mult, (Rmult_comm (2 * rounding_unit)). apply Rmult_le_compat; auto using Rabs_pos.
      unfold Rdiv. rewrite Rabs_mult, (Rabs_pos_eq (/ (1 + e))) by (left; apply Rinv_0_lt_compat; lra).
      rewrite (Rmult_comm 2). apply Rmult_le_compat; auto using Rabs_pos.
      + left; apply Rinv_0_lt_compat; lra.
      + apply Rabs_le; lra.
      + apply Rle_trans with (/ / 2); [apply Rinv_le_contravar; lra|lra].
  Qed.

  (** the factor at rounded times is the factor at exact times up to a small exponent *)
  Lemma days_factor ps n e' M S T : 0 <= S -> 0 <= M -> IZR N / year * (1 + rounding_unit) <= T -> (forall p, In p ps -> (Z.abs (fst p) <= N)%Z) -> (Z.abs n <= N)%Z ->
    distinct (time_points ps) -> (exists p, In p ps /\ fst p <> 0%Z) ->
    (forall t z, In (t, z) (log_rates (exact_points ps)) -> Rabs z <= M) ->
    (forall a ya b yb, consecutive (log_rates (exact_points ps)) a ya b yb -> Rabs (yb - ya) <= S * (b - a)) ->
    factor_value (time_points ps) (time_of n) e' ->
    exists e w, factor_value (exact_points ps) (IZR n / year) e /\ e' = e * exp w /\ Rabs w <= 3 * (S * T + M) * rounding_unit * T.
  Proof.
    intros S0 M0 HT BP Bn DI NE BM SL FV. pose proof u_pos as U0. pose proof year_pos as YP.
    assert (N0 : 0 <= IZR N) by (apply IZR_le; lia).
    assert (Y0 : 0 <= IZR N / year) by (apply Rmult_le_pos; [auto|left; now apply Rinv_0_lt_compat]).
    assert (YT : IZR N / year <= T) by nra. assert (T0 : 0 <= T) by lra. assert (ST : 0 <= S * T) by now apply Rmult_le_pos.
    destruct FV as [(E & I)|(E & z' & PL' & ->)].
    - apply time_zero in E; auto. subst n. exists e', 0. split; [|split; [rewrite exp_0; ring|rewrite Rabs_R0; repeat apply Rmult_le_pos; lra]].
      left. split; [now apply year_zero|]. apply in_map_iff in I. destruct I as ([m y] & Q & I). cbn [fst snd] in Q. injection Q as Q ->.
      apply time_zero in Q; [|exact (BP _ I)]. subst m. apply in_map_iff. exists (0%Z, e'). split; auto. cbn [fst snd]. f_equal. now apply year_zero.
    - assert (Q : n <> 0%Z) by (intros ->; apply E; now apply time_zero).
      assert (NR : exact_points (rate_days ps) <> []).
      { destruct NE as ([m y] & I & Nm). assert (J : In (m, y) (filter (fun p => negb (Z.eqb (fst p) 0)) ps)).
        { apply filter_In. split; auto. cbn [fst] in *. destruct (Z.eqb_spec m 0); auto. }
        unfold LRound5.exact_points, rate_days. destruct (filter _ ps); [destruct J|discriminate]. }
      destruct (pl_total (exact_points (rate_days ps)) (IZR n / year) NR) as (z & PL).
      assert (BR : forall p, In p (rate_days ps) -> (Z.abs (fst p) <= N)%Z).
      { intros p I. apply in_map_iff in I. destruct I as (q & <- & I). apply filter_In in I. apply (BP q), I. }
      assert (ZM : Rabs z <= M) by (apply (pl_bound _ _ _ M PL); rewrite <- exact_rates; exact BM).
      pose proof (near_rates ps M BP BM) as NR2. rewrite exact_rates in SL.
      destruct (pl_days N HN HU (rate_days ps) n z S S0 BR SL Bn PL) as (z1 & PL1 & B1).
      destruct (pl_nodes _ _ (2 * rounding_unit * M) (time_of n) z1 ltac:(repeat apply Rmult_le_pos; lra) NR2 PL1) as (z2 & PL2 & B2).
      assert (z2 = z').
      { eapply pl_fun; [|exact PL2|exact PL']. unfold distinct in *. clear -DI. unfold log_rates, transform. rewrite map_map. cbn [fst].
        unfold without_zero. induction (time_points ps) as [|p l IH]; cbn in *; [constructor|]. inversion DI as [|? ? NI DI']. subst.
        destruct (Req_EM_T (fst p) 0); auto. cbn. constructor; auto. intros I. apply NI. apply in_map_iff in I. destruct I as (q & <- & I).
        apply filter_In in I. now apply in_map. }
      subst z2. set (t := IZR n / year) in *.
      destruct (rnd_rel_int n) as (d & Hd & Ed). fold t in Ed. change (time_of n = t * (1 + d)) in Ed.
      exists (exp (z * t)), (z' * time_of n - z * t). split; [|split].
      + right. split; [intros X; now apply Q, year_zero|]. exists z. split; auto. fold (log_rates (exact_points ps)). now rewrite exact_rates.
      + rewrite <- exp_plus. f_equal. ring.
      + assert (BT : Rabs t <= T).
        { eapply Rle_trans; [|exact YT]. unfold t, Rdiv. rewrite Rabs_mult, (Rabs_pos_eq (/ year)) by (left; now apply Rinv_0_lt_compat).
          apply Rmult_le_compat_r; [left; now apply Rinv_0_lt_compat|]. rewrite <- abs_IZR. now apply IZR_le. }
        assert (BTt : Rabs (time_of n) <= T).
        { eapply Rle_trans; [|exact HT]. rewrite Ed, Rabs_mult. apply Rmult_le_compat; auto using Rabs_pos.
          - unfold t, Rdiv. rewrite Rabs_mult, (Rabs_pos_eq (/ year)) by (left; now apply Rinv_0_lt_compat).
            apply Rmult_le_compat_r; [left; now apply Rinv_0_lt_compat|]. rewrite <- abs_IZR. now apply IZR_le.
          - apply Rabs_le_inv in Hd. apply Rabs_le. lra. }
        replace (z' * time_of n - z * t) with ((z' - z) * time_of n + z * (t * d)) by (rewrite Ed; ring).
        eapply Rle_trans; [apply Rabs_triang|]. rewrite !Rabs_mult.
        replace (3 * (S * T + M) * rounding_unit * T) with ((3 * S * T * rounding_unit + 2 * rounding_unit * M) * T + M * (T * rounding_unit)) by ring.
        apply Rplus_le_compat.
        * apply Rmult_le_compat; auto using Rabs_pos. replace (z' - z) with ((z1 - z) + - (z1 - z')) by ring.
          eapply Rle_trans; [apply Rabs_triang|]. rewrite Rabs_Ropp. apply Rplus_le_compat; auto. eapply Rle_trans; [exact B1|].
          apply Rmult_le_compat_r; [lra|]. apply Rmult_le_compat_l; [lra|exact YT].
        * apply Rmult_le_compat; auto using Rabs_pos; [apply Rmult_le_pos; apply Rabs_pos|]. apply Rmult_le_compat; auto using Rabs_pos.
  Qed.
End Days.

(** the exact zero rates of the data: logarithm of the factor divided by the exact time *)
Definition dated_rates (o : bdate) (ds : list bdate) (rs : list float64) : points :=
  transform (fun t y => ln y / t) (without_zero (dated_points o ds rs)).

Section Calendar.
  Context (lib : libm) (DC : DayCounts float64 bdate).
  #[local] Instance n64s : Num float64 := f64 lib.

  (** what a DiscountFactorCurve with calendar dates and the default day count returns at a
      date misses the exact log-linear factor at the exact time, days since the origin divided
      by 365.25, by at most the given relative error: rounding of the year fractions, the
      logarithms, the interpolation, the exponent and math.exp; [M] bounds the exact zero rates
      of the data, [S] their change per year and [N] the days from the origin *)
  Theorem C105_calendar_factors : forall eps eta M S N ds rs origin tenor disc o,
    0 <= eps -> exp_within lib eps -> 0 <= eta -> log_within lib eta -> 0 <= S -> 0 <= M -> (0 <= N <= 2 ^ 50)%Z ->
    rc_new CDiscountFactor ds rs None origin DcDefault tenor = Ok disc -> rc_origin disc = Some o ->
    NoDup (map bd_day ds) -> (exists d, In d ds /\ bd_day d <> bd_day o) -> (forall d, In d ds -> (Z.abs (bd_day d - bd_day o) <= N)%Z) ->
    Forall (fun r => is_double r /\ finite_float r) rs ->
    (forall t z, In (t, z) (dated_rates o ds rs) -> Rabs z <= M) ->
    (forall a ya b yb, consecutive (dated_rates o ds rs) a ya b yb -> Rabs (yb - ya) <= S * (b - a)) ->
    let T := IZR N / (1461 / 4) * (1 + rounding_unit) in let M1 := M * (1 + 2 * rounding_unit) in
    let kappa := (eta + rounding_unit * (1 + eta)) * M1 + tiny in M1 + kappa <= powerRZ 2 500 ->
    let delta := 15 * rounding_unit * (M1 + kappa) + 2002 * tiny + kappa in (M1 + delta) * T <= 600 ->
    let m := 3 * (S * T + M) * rounding_unit * T in
    forall d r, (Z.abs (bd_day d - bd_day o) <= N)%Z -> rc_call disc d = Ok r ->
    is_double r /\ finite_float r /\ exists e, factor_value (dated_points o ds rs) (years_between o d) e /\ 0 < e /\
      Rabs (float_value r - e) <= e * ((1 + eps) * exp (rounding_unit * ((M1 + delta) * T) + tiny + (delta * T + m)) - 1).
  Proof.
    intros eps eta M S N ds rs origin tenor disc o E0 EW H0 LW S0 M0 HN HR OR ND NZ BD FR BM SL T M1 kappa BK delta BQ m d r Bd Hr.
    pose proof u_pos as U0. pose proof u_small as US. pose proof tiny_pos as TP. pose proof year_pos as YP. fold year in T.
    assert (HU : IZR N * rounding_unit <= / 8).
    { apply Rle_trans with (IZR (2 ^ 50) * rounding_unit); [apply Rmult_le_compat_r; [lra|apply IZR_le; lia]|].
      unfold rounding_unit. change (powerRZ 2 (-53)) with (/ 2 ^ 53). simpl (IZR _). lra. }
    assert (N0 : 0 <= IZR N) by (apply IZR_le; lia).
    assert (Y0 : 0 <= IZR N / year) by (apply Rmult_le_pos; [auto|left; now apply Rinv_0_lt_compat]).
    assert (T0 : 0 <= T) by (unfold T; apply Rmult_le_pos; lra).
    assert (LEN : length ds = length rs).
    { unfold rc_new in HR. change (prepare_data CDiscountFactor rs) with (Ok rs) in HR. cbn [bind] in HR. unfold dc_new in HR.
      destruct (Nat.eqb_spec (length ds) (length rs)); auto. discriminate. }
    assert (YF : forall d, rc_yf disc o d = yf_days (bd_day o) (bd_day d)).
    { intros d'. unfold rc_new in HR. change (prepare_data CDiscountFactor rs) with (Ok rs) in HR. cbn [bind] in HR. unfold dc_new in HR.
      rewrite LEN, Nat.eqb_refl in HR. cbn [negb] in HR. unfold dc_update in HR.
      match type of HR with context [mapM ?f ds] => destruct (mapM f ds) as [ts'|e]; [|discriminate] end. cbn [bind] in HR.
      match type of HR with context [update_fn ?a ?b ?c] => destruct (update_fn a b c) as [[f p]|e]; [|discriminate] end. cbn [bind fst] in HR.
      apply (f_equal (fun z => match z with Ok b => b | Err _ => disc end)) in HR. cbv beta iota in HR. subst disc. reflexivity. }
    set (day := fun d => (bd_day d - bd_day o)%Z).
    assert (TB : forall n, (Z.abs n <= N)%Z -> Rabs (time_of n) <= T).
    { intros n Hn. unfold time_of. destruct (rnd_rel_int n) as (e & He & ->). rewrite Rabs_mult. unfold T. apply Rmult_le_compat; auto using Rabs_pos.
      - unfold Rdiv. rewrite Rabs_mult, (Rabs_pos_eq (/ year)) by (left; now apply Rinv_0_lt_compat).
        apply Rmult_le_compat_r; [left; now apply Rinv_0_lt_compat|]. rewrite <- abs_IZR. now apply IZR_le.
      - apply Rabs_le_inv in He. apply Rabs_le. lra. }
    assert (TE : forall l, (forall d, In d l -> (Z.abs (day d) <= N)%Z) ->
       exists ts, Forall2 (fun d t => rc_yf disc o d = Ok t /\ good t /\ v t = time_of (day d)) l ts).
    { induction l as [|d' l IH]; intros B; [exists []; constructor|].
      destruct IH as (ts & IH); [intros; apply B; now right|].
      destruct (yf_days_float lib (bd_day o) (bd_day d')) as (t & A1 & A2 & A3).
      { pose proof (B d' (or_introl eq_refl)). unfold day in *. lia. }
      exists (t :: ts). constructor; auto. rewrite YF. auto. }
    destruct (TE ds BD) as (ts & FT).
    set (ps := combine (map day ds) (map float_value rs)).
    assert (VT : map float_value ts = map time_of (map day ds)).
    { clear -FT. induction FT as [|d t ds ts (_ & _ & E) FT IH]; cbn; auto. now rewrite IH, E. }
    assert (EP : float_points ts rs = time_points ps).
    { unfold float_points, time_points, ps. rewrite VT. generalize (map day ds), (map float_value rs). clear.
      induction l as [|a l IH]; intros [|b k]; cbn; auto. now rewrite IH. }
    assert (EX : dated_points o ds rs = exact_points ps).
    { unfold dated_points, exact_points, ps. generalize (map float_value rs). clear. induction ds as [|a l IH]; intros [|b k]; cbn; auto. now rewrite IH. }
    assert (BP : forall p, In p ps -> (Z.abs (fst p) <= N)%Z).
    { intros [a b] I. apply in_combine_l in I. apply in_map_iff in I. destruct I as (d' & <- & I). now apply BD. }
    assert (INT : forall t, In t ts -> exists n, (Z.abs n <= N)%Z /\ float_value t = time_of n).
    { intros t I. assert (I' : In (float_value t) (map float_value ts)) by now apply in_map. rewrite VT in I'.
      apply in_map_iff in I'. destruct I' as (n & E & I'). apply in_map_iff in I'. destruct I' as (d' & <- & I'). exists (day d'). split; auto. now apply BD. }
    assert (DD : double_data ts rs).
    { split; [|split; [|split; [|split]]].
      - clear -FT. induction FT as [|d t ds ts (_ & G & _) FT IH]; constructor; auto.
      - eapply Forall_impl; [|exact FR]. cbv beta. tauto.
      - rewrite <- LEN. symmetry. now apply (Forall2_len _ _ _ FT).
      - intros ->. inversion FT. subst. destruct NZ as (? & [] & _).
      - rewrite VT. clear -ND BD HU HN. induction ds as [|d ds IH]; cbn; [constructor|]. inversion ND as [|? ? NI ND']. subst. constructor.
        + intros I. apply in_map_iff in I. destruct I as (n & E & I). apply in_map_iff in I. destruct I as (d' & <- & I).
          assert (B1 := BD d (or_introl eq_refl)). assert (B2 := BD d' (or_intror I)). fold (day d) in B1. fold (day d') in B2.
          destruct (Z.lt_trichotomy (day d) (day d')) as [C|[C|C]].
          * pose proof (time_lt0 N HU _ _ B1 B2 C). lra.
          * apply NI. apply in_map_iff. exists d'. split; auto. unfold day in C. lia.
          * pose proof (time_lt0 N HU _ _ B2 B1 C). lra.
        + apply IH; auto. intros. apply BD. now right. }
    assert (BT : forall t, In t ts -> Rabs (float_value t) <= powerRZ 2 500).
    { intros t I. destruct (INT t I) as (n & Bn & ->).
      eapply Rle_trans; [apply TB, Bn|]. apply Rle_trans with (powerRZ 2 50); [|apply small_pow; lia].
      unfold T. apply Rle_trans with (IZR N); [|replace (powerRZ 2 50) with (IZR (2 ^ 50)) by (simpl; lra); apply IZR_le; lia].
      unfold Rdiv. rewrite Rmult_assoc. rewrite <- (Rmult_1_r (IZR N)) at 2. apply Rmult_le_compat_l; auto. unfold year. lra. }
    assert (GG : forall a b, In a ts -> In b ts -> float_value a < float_value b -> / 1000 <= float_value b - float_value a).
    { intros a b Ia Ib. destruct (INT a Ia) as (n1 & B1 & ->), (INT b Ib) as (n2 & B2 & ->). intros L.
      pose proof (time_inv N HU _ _ B1 B2 L) as L'. eapply Rle_trans; [|apply (time_lt N HU _ _ B1 B2 L')]. unfold year. lra. }
    assert (NZ' : exists t, In t ts /\ float_value t <> 0).
    { destruct NZ as (d' & I & Q). assert (J : In (time_of (day d')) (map float_value ts)) by (rewrite VT; now apply in_map, in_map).
      apply in_map_iff in J. destruct J as (t & E & J). exists t. split; auto. rewrite E. intros Z0. apply (time_zero N HU) in Z0; [unfold day in Z0; lia|now apply BD]. }
    assert (NP : exists p, In p ps /\ fst p <> 0%Z).
    { destruct NZ as (d' & I & Q). assert (LE : length (map day ds) = length (map float_value rs)) by (now rewrite !map_length).
      assert (J : In (day d') (map fst ps)) by (unfold ps; rewrite map_fst_combine by auto; now apply in_map).
      apply in_map_iff in J. destruct J as (p & E & J). exists p. split; auto. rewrite E. unfold day. lia. }
    fold (log_rates (dated_points o ds rs)) in *. unfold dated_rates in BM, SL. fold (log_rates (dated_points o ds rs)) in BM, SL. rewrite EX in BM, SL.
    assert (BM1 : forall t y, In (t, y) (float_points ts rs) -> t <> 0 -> Rabs (ln y / t) <= M1).
    { intros t y I Nt. rewrite EP in I.
      assert (J : In (t, ln y / t) (log_rates (time_points ps))).
      { unfold log_rates, transform. apply in_map_iff. exists (t, y). split; auto. unfold without_zero. apply filter_In. split; auto. cbn [fst]. destruct (Req_EM_T t 0); auto. }
      pose proof (near_rates N HU ps M BP BM) as NR.
      assert (BR : forall t z, In (t, z) (time_points (rate_days ps)) -> Rabs z <= M).
      { intros t' z I'. apply in_map_iff in I'. destruct I' as ([n z'] & E & I'). injection E as _ <-. apply (BM (IZR n / year)).
        rewrite exact_rates. apply in_map_iff. now exists (n, z'). }
      clear -NR BR J. unfold M1. revert NR BR J. generalize (time_points (rate_days ps)) (log_rates (time_points ps)). intros l k F BR J.
      induction F as [|[a z] [b z'] l k [E B] F IH]; [destruct J|]. cbn [fst snd] in *. destruct J as [J|J].
      - injection J as -> ->. assert (BZ := BR a z (or_introl eq_refl)).
        replace (ln y / t) with (z + - (z - ln y / t)) by ring. eapply Rle_trans; [apply Rabs_triang|]. rewrite Rabs_Ropp. lra.
      - apply IH; auto. intros t' z'' I. apply (BR t'). now right. }
    assert (DE : 15 * rounding_unit * (M1 + kappa) + 2 * tiny * (1 + / / 1000) + kappa = delta) by (unfold delta; rewrite Rinv_inv; ring).
    destruct (TE [d]) as (tl & FTd); [intros ? [<-|[]]; exact Bd|]. inversion FTd as [|? t ? ? (Y1 & [Y2 Y3] & Y4) _]. subst.
    destruct (C105_factors lib DayDates DC eps eta M1 T (/ 1000) CDiscountFactor ds rs rs ts origin DcDefault tenor disc o eq_refl eq_refl E0 EW H0 LW T0 HR OR) with (d := d) (t := t) (r := r)
      as (A1 & A2 & e' & A3 & A4 & A5); auto.
    { clear -FT. induction FT as [|d t ds ts (E & _) FT IH]; constructor; auto. }
    { lra. }
    { fold kappa. rewrite DE. exact BQ. }
    { rewrite Y4. apply TB, Bd. }
    fold kappa in A5. rewrite DE in A5. split; auto. split; auto.
    assert (DI : distinct (time_points ps)).
    { rewrite <- EP. destruct DD as (_ & _ & LE & _ & NDv). unfold float_points. apply distinct_combine; rewrite ?map_length; auto. }
    rewrite EP, Y4 in A3.
    destruct (days_factor N (proj1 HN) HU ps (day d) e' M S T S0 M0 (Rle_refl _) BP Bd DI NP BM SL A3) as (e & w & F1 & F2 & F3).
    exists e. rewrite EX. split; [exact F1|]. pose proof (exp_pos w) as EWp.
    assert (Ep : 0 < e) by (apply Rmult_lt_reg_r with (exp w); [auto|]; rewrite Rmult_0_l, <- F2; auto). split; auto.
    fold m in F3. set (g := rounding_unit * ((M1 + delta) * T) + tiny) in *.
    replace (g + (delta * T + m)) with ((g + delta * T) + m) by ring. rewrite exp_plus, <- Rmult_assoc. set (K := (1 + eps) * exp (g + delta * T)) in *.
    assert (K1 : 1 <= K).
    { assert (0 <= e' * (K - 1)) by (eapply Rle_trans; [apply Rabs_pos|exact A5]). destruct (Rle_dec 1 K); auto. nra. }
    apply Rabs_le_inv in F3. assert (W1 : exp w <= exp m) by (apply exp_mono; lra).
    assert (W2 : 2 - exp m <= exp w).
    { apply Rle_trans with (exp (- m)); [|apply exp_mono; lra]. pose proof (exp_pos m) as Xp. rewrite exp_Ropp.
      apply Rmult_le_reg_r with (exp m); auto. rewrite Rinv_l by lra. pose proof (Rle_0_sqr (exp m - 1)) as SQ. unfold Rsqr in SQ. lra. }
    replace (float_value r - e) with ((float_value r - e') + (e' - e)) by ring. eapply Rle_trans; [apply Rabs_triang|].
    assert (B2 : Rabs (e' - e) <= e * (exp m - 1)) by (rewrite F2; apply Rabs_le; split; nra).
    assert (B3 : e' * (K - 1) <= e * exp m * (K - 1)) by (apply Rmult_le_compat_r; [lra|]; rewrite F2; apply Rmult_le_compat_l; lra).
    replace (e * (K * exp m - 1)) with (e * exp m * (K - 1) + e * (exp m - 1)) by ring. lra.
  Qed.

  (** the present value of flows at calendar dates misses the sum of the amounts times the
      exact factors at the exact times by at most the given bound *)
  Theorem C105_calendar : forall eps eta M S N ds rs origin tenor fuel flr h h' i k disc o x,
    0 <= eps -> exp_within lib eps -> 0 <= eta -> log_within lib eta -> 0 <= S -> 0 <= M -> (0 <= N <= 2 ^ 50)%Z ->
    rc_new CDiscountFactor ds rs None origin DcDefault tenor = Ok disc -> rc_origin disc = Some o ->
    NoDup (map bd_day ds) -> (exists d, In d ds /\ bd_day d <> bd_day o) -> (forall d, In d ds -> (Z.abs (bd_day d - bd_day o) <= N)%Z) ->
    Forall (fun r => is_double r /\ finite_float r) rs ->
    (forall t z, In (t, z) (dated_rates o ds rs) -> Rabs z <= M) ->
    (forall a ya b yb, consecutive (dated_rates o ds rs) a ya b yb -> Rabs (yb - ya) <= S * (b - a)) ->
    let T := IZR N / (1461 / 4) * (1 + rounding_unit) in let M1 := M * (1 + 2 * rounding_unit) in
    let kappa := (eta + rounding_unit * (1 + eta)) * M1 + tiny in M1 + kappa <= powerRZ 2 500 ->
    let delta := 15 * rounding_unit * (M1 + kappa) + 2002 * tiny + kappa in (M1 + delta) * T <= 600 ->
    let m := 3 * (S * T + M) * rounding_unit * T in
    nth_error (h_curves h) k = Some disc ->
    get_present_value fuel flr (PrList i) k (Some o) h = (Ok x, h') -> finite_float x ->
    exists c amounts, seen_at h o i c /\
      Forall2 (fun d a => cf_get fuel flr c d = Ok a) (filter (fun d => d_leb o d) (cf_domain c)) amounts /\
      forall factors, Forall is_double amounts ->
        let dates := filter (fun d => d_leb o d) (cf_domain c) in
        (forall d, In d dates -> (Z.abs (bd_day d - bd_day o) <= N)%Z) ->
        Forall2 (fun d e => factor_value (dated_points o ds rs) (years_between o d) e) dates factors ->
        let exact := map (fun p => fst p * float_value (snd p)) (combine factors amounts) in
        let n := length amounts in
        Rabs (float_value x - total exact) <=
          ((1 + rounding_unit) ^ n * (1 + eps) * exp (rounding_unit * ((M1 + delta) * T) + tiny + (delta * T + m)) - 1) * total_abs exact +
          INR n * (1 + rounding_unit) ^ (n - 1) * tiny.
  Proof.
    intros eps eta M S N ds rs origin tenor fuel flr h h' i k disc o x E0 EW H0 LW S0 M0 HN HR OR ND NZ BD FR BM SL T M1 kappa BK delta BQ m Hk H F.
    pose proof u_pos as U0. pose proof tiny_pos as TP. pose proof year_pos as YP.
    assert (CL : rc_cls disc = CDiscountFactor).
    { unfold rc_new in HR. change (prepare_data CDiscountFactor rs) with (Ok rs) in HR. cbn [bind] in HR.
      destruct (dc_new (cls_interp CDiscountFactor) ds rs None origin DcDefault); [|discriminate]. cbn [bind] in HR.
      apply (f_equal (fun z => match z with Ok b => rc_cls b | Err _ => CDiscountFactor end)) in HR. exact (eq_sym HR). }
    assert (LEN : length ds = length rs).
    { unfold rc_new in HR. change (prepare_data CDiscountFactor rs) with (Ok rs) in HR. cbn [bind] in HR. unfold dc_new in HR.
      destruct (Nat.eqb_spec (length ds) (length rs)); auto. discriminate. }
    pose proof (C105_calendar_factors eps eta M S N ds rs origin tenor disc o E0 EW H0 LW S0 M0 HN HR OR ND NZ BD FR BM SL BK BQ) as RT.
    cbv zeta in RT. fold T in RT. fold M1 in RT. fold kappa in RT. fold delta in RT. fold m in RT.
    destruct (C97_present_value lib DayDates DC _ _ _ _ _ _ _ _ _ Hk H F) as (c & dfs & am & S1 & F1 & F2 & B).
    exists c, am. split; [auto|]. split; [auto|]. intros es Da dates BDD FZ exact n. fold dates in F1, F2. clearbody dates.
    set (g := rounding_unit * ((M1 + delta) * T) + tiny + (delta * T + m)) in *. set (K := (1 + eps) * exp g) in *.
    assert (IO : d_is (DateSys := DayDates) o o = true) by (cbn; rewrite Z.eqb_refl, Nat.eqb_refl; reflexivity).
    assert (DP : distinct (dated_points o ds rs)).
    { unfold dated_points. apply distinct_combine; rewrite ?map_length; auto. clear -ND YP. induction ds as [|d ds IH]; cbn; [constructor|].
      inversion ND as [|? ? NI ND']. subst. constructor; auto. intros I. apply in_map_iff in I. destruct I as (d' & E & I). apply NI.
      apply in_map_iff. exists d'. split; auto. unfold years_between, Rdiv in E. apply Rmult_eq_reg_r in E; [apply eq_IZR in E; lia|apply Rinv_neq_0_compat; lra]. }
    assert (N0 : 0 <= IZR N) by (apply IZR_le; lia).
    assert (T0 : 0 <= T) by (unfold T; apply Rmult_le_pos; lra).
    assert (M10 : 0 <= M1) by (unfold M1; apply Rmult_le_pos; lra).
    assert (K0 : 0 <= kappa).
    { unfold kappa. apply Rplus_le_le_0_compat; [|lra]. apply Rmult_le_pos; [|lra]. assert (0 <= rounding_unit * (1 + eta)) by (apply Rmult_le_pos; lra). lra. }
    assert (D0 : 0 <= delta).
    { unfold delta. assert (0 <= rounding_unit * (M1 + kappa)) by (apply Rmult_le_pos; lra). lra. }
    assert (g0 : 0 <= g).
    { unfold g, m. assert (0 <= (M1 + delta) * T) by (apply Rmult_le_pos; lra). assert (0 <= rounding_unit * ((M1 + delta) * T)) by (apply Rmult_le_pos; lra).
      assert (0 <= delta * T) by (apply Rmult_le_pos; lra). assert (0 <= S * T) by (apply Rmult_le_pos; lra).
      assert (0 <= 3 * (S * T + M) * rounding_unit * T) by (repeat apply Rmult_le_pos; lra). lra. }
    assert (HK : 1 <= K).
    { unfold K. pose proof (exp_mono 0 g g0) as X. rewrite exp_0 in X. nra. }
    assert (G : Forall is_double dfs /\ Forall2 (fun df e => 0 < e /\ Rabs (float_value df - e) <= e * (K - 1)) dfs es).
    { clear -CL OR IO F1 BDD FZ RT DP. revert es FZ.
      induction F1 as [|d df dd dfs Hd F1 IH]; intros es FZ; inversion FZ as [|? e ? es' Z1 FZ']; subst; [split; constructor|].
      destruct (IH (fun d' I => BDD d' (or_intror I)) _ FZ') as [I1 I2].
      assert (Hd' : rc_call disc d = Ok df).
      { unfold get_discount_factor, interest_only in Hd. rewrite CL in Hd. cbn [is_interest] in Hd. destruct fuel as [|fuel']; [discriminate|].
        cbn [factor] in Hd. rewrite CL in Hd. unfold at_origin in Hd. rewrite OR, IO in Hd. exact Hd. }
      destruct (RT d df (BDD d (or_introl eq_refl)) Hd') as (A1 & A2 & e' & A3 & A4 & A5).
      assert (e' = e) by (eapply factor_fun; eauto). subst e'. split; constructor; auto. }
    destruct G as [Dd G]. destruct (B Dd Da) as (_ & _ & B').
    pose proof (Forall2_len _ _ _ F1) as L1. pose proof (Forall2_len _ _ _ F2) as L2. pose proof (Forall2_len _ _ _ G) as L3.
    destruct (sum_of_products K HK dfs es am) as [P1 P2]; auto; try congruence.
    cbv zeta in P1, P2. fold exact in P1, P2. unfold n.
    replace (length am) with (length dfs) by congruence. set (A := (1 + rounding_unit) ^ length dfs) in *.
    assert (A1 : 1 <= A) by apply pow_u_ge. pose proof (total_abs_nonneg exact).
    replace (float_value x - total exact) with ((float_value x - total (products dfs am)) + (total (products dfs am) - total exact)) by ring.
    eapply Rle_trans; [apply Rabs_triang|]. rewrite (Rmult_assoc A). fold K. set (tt' := INR _ * _ * tiny) in *.
    assert ((A - 1) * total_abs (products dfs am) <= (A - 1) * (K * total_abs exact)) by (apply Rmult_le_compat_l; lra). nra.
  Qed.
End Calendar.
Print Assumptions C105_calendar_factors.
Print Assumptions C105_calendar.

(** instance: 100 paid 1461 days after the origin on DiscountFactorCurve with the factors 1 at
    the origin and 0.36788 after 1461 days, with the math.exp and math.log of [poor_log] *)
Section Case.
  #[local] Instance n64t : Num float64 := f64 poor_log.
  #[local] Instance no_registry105c : DayCounts float64 bdate := [].
  Example C105_calendar_instance :
    let ds := [BD 0 0; BD 1461 1] in let rs := [f64_ofZ 1; f64_ratio 36788 100000] in
    exists l disc,
    fixed_new [BD 1461 0] (Many [f64_ofZ 100]) (Some (BD 0 0)) = Ok l /\
    exp_within poor_log (1 / 10) /\ log_within poor_log (1 / 10) /\
    rc_new CDiscountFactor ds rs None None DcDefault None = Ok disc /\ rc_origin disc = Some (BD 0 0) /\
    NoDup (map bd_day ds) /\ (exists d, In d ds /\ bd_day d <> bd_day (BD 0 0)) /\ (forall d, In d ds -> (Z.abs (bd_day d - 0) <= 1461)%Z) /\
    Forall (fun r => is_double r /\ finite_float r) rs /\
    (forall t z, In (t, z) (dated_rates (BD 0 0) ds rs) -> Rabs z <= 3 / 10) /\
    (forall a ya b yb, consecutive (dated_rates (BD 0 0) ds rs) a ya b yb -> Rabs (yb - ya) <= 1 * (b - a)) /\
    (let M1 := 3 / 10 * (1 + 2 * rounding_unit) in let kappa := (1 / 10 + rounding_unit * (1 + 1 / 10)) * M1 + tiny in
     M1 + kappa <= powerRZ 2 500 /\
     (M1 + (15 * rounding_unit * (M1 + kappa) + 2002 * tiny + kappa)) * (1461 / (1461 / 4) * (1 + rounding_unit)) <= 600) /\
    get_present_value 3 None (PrList 0) 0 (Some (BD 0 0)) (mkH [disc] [] [mkHL l HNone]) =
      (Ok (f64_ratio 36788 1000), mkH [disc] [] [mkHL l HNone]) /\
    cf_get 3 None l (BD 1461 0) = Ok (f64_ofZ 100) /\ is_double (f64_ofZ 100) /\
    factor_value (dated_points (BD 0 0) ds rs) (years_between (BD 0 0) (BD 1461 0)) (float_value (f64_ratio 36788 100000)).
  Proof.
    cbv zeta. destruct near_e1 as [V1 [L1 L2]]. set (y := f64_ratio 36788 100000) in *. pose proof one_value as O1.
    assert (Y0 : 0 < float_value y) by (rewrite V1; lra).
    destruct C105_instance as (_ & _ & _ & XW & LW & _).
    eexists. eexists. split; [reflexivity|]. split; [exact XW|]. split; [exact LW|].
    split; [reflexivity|]. split; [reflexivity|].
    split; [repeat constructor; cbn; intuition discriminate|].
    split; [exists (BD 1461 1); split; [right; now left|discriminate]|].
    split; [intros d [<-|[<-|[]]]; cbn; lia|].
    split; [repeat constructor; vm_compute; auto|].
    assert (RT : dated_rates (BD 0 0) [BD 0 0; BD 1461 1] [f64_ofZ 1; y] = [(1461 / (1461 / 4), ln (float_value y) / (1461 / (1461 / 4)))]).
    { unfold dated_rates, dated_points, years_between, without_zero, transform. cbn [map combine bd_day]. simpl (0 - 0)%Z. simpl (1461 - 0)%Z. cbn [filter fst].
      destruct (Req_EM_T (0 / (1461 / 4)) 0) as [_|X]; [|elim X; lra]. destruct (Req_EM_T (1461 / (1461 / 4)) 0); [lra|]. reflexivity. }
    split. { intros t z. rewrite RT. intros [E|[]]. apply (f_equal snd) in E. cbn [snd] in E. subst z. apply Rabs_le. lra. }
    split. { intros a ya b yb. rewrite RT. intros (I1 & I2 & L & _). destruct I1 as [E|[]], I2 as [E'|[]]. rewrite E in E'. injection E' as -> _. lra. }
    split. { assert (P1 : 2 <= powerRZ 2 500) by (apply Rle_trans with (powerRZ 2 1); [simpl; lra|now apply small_pow]).
      pose proof u_small. pose proof u_pos. pose proof tiny_pos. pose proof tiny_lt_u.
      set (M1 := 3 / 10 * (1 + 2 * rounding_unit)). assert (3 / 10 <= M1 <= 4 / 10) by (unfold M1; lra).
      set (kappa := (1 / 10 + rounding_unit * (1 + 1 / 10)) * M1 + tiny). assert (0 <= kappa <= 1) by (unfold kappa; split; nra).
      split; [lra|]. assert (0 <= rounding_unit * (M1 + kappa) <= 1) by nra.
      assert (tiny <= 1 / 1000) by lra. nra. }
    split; [vm_compute; reflexivity|]. split; [reflexivity|]. split; [reflexivity|].
    right. unfold years_between. cbn [bd_day]. simpl (1461 - 0)%Z. split; [lra|]. fold (dated_rates (BD 0 0) [BD 0 0; BD 1461 1] [f64_ofZ 1; y]). rewrite RT.
    exists (ln (float_value y) / (1461 / (1461 / 4))). split.
    - right. right. exists (1461 / (1461 / 4)). split; [now left|]. split; [|lra]. intros c z [E|[]]. apply (f_equal fst) in E. cbn [fst] in E. subst c. lra.
    - replace (ln (float_value y) / (1461 / (1461 / 4)) * (1461 / (1461 / 4))) with (ln (float_value y)) by (field; lra). symmetry. now apply exp_ln.
  Qed.
End Case.
