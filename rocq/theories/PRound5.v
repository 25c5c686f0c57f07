(** Property C102: rates and present values of curves of zero rates in double precision, from
    the data of the curve. *)
From Coq Require Import ZArith Lia List Bool Reals Lra Floats.SpecFloat.
From Flocq Require Import Core.
From Verif Require Import Num Py MDates MInterpolation MCurve MRateCurve MOption MCashflow MBracket MPricer MFloat
  Spec SInterpolation SCurve SRound LInterpolation2 LCurve LRound LRound2 LRound3 LRound4 LRound5 PRound PRound2 PRound3 PRound4.
Import ListNotations.
Local Open Scope R_scope.

Section C102.
  Context (lib : libm) {D P : Type} (DS : DateSys float64 D P) (DC : DayCounts float64 D).
  #[local] Instance n64f : Num float64 := f64 lib.

  (** * rates *)
  (** a rate of a ZeroRateCurve, ShortRateCurve or CashRateCurve made of dates and rates is the
      piecewise linear function of its data, at the time of the date, up to 15 units of
      rounding of the greatest rate and the least positive double *)
  Theorem C102_rates : forall k ds rs ts origin count tenor M gap disc o,
    cls_interp k = linear_scheme ->
    rc_new k ds rs None origin count tenor = Ok disc -> rc_origin disc = Some o ->
    Forall2 (fun d t => rc_yf disc o d = Ok t) ds ts -> double_data ts rs ->
    (forall t, In t ts -> Rabs (float_value t) <= powerRZ 2 500) ->
    (forall r, In r rs -> Rabs (float_value r) <= M) -> M <= powerRZ 2 500 ->
    0 < gap -> (forall a ya b yb, consecutive (float_points ts rs) a ya b yb -> gap <= b - a) ->
    forall d t, rc_yf disc o d = Ok t -> is_double t -> finite_float t ->
    exists r Y, rc_call disc d = Ok r /\ is_double r /\ finite_float r /\
      piecewise_linear (float_points ts rs) (float_value t) Y /\
      Rabs (float_value r - Y) <= 15 * rounding_unit * M + 2 * tiny * (1 + / gap).
  Proof.
    exact (rates_float lib DS DC).
  Qed.

  (** * present values *)
  (** the present value the library returns for a list of flows on a ZeroRateCurve made of
      dates and rates misses the sum of the amounts times exp(- Z(t) t), Z the piecewise
      linear function of the rates, all in real numbers, by at most the given bound: about
      (n + 16 M T) units of rounding plus the error of math.exp, relative to the sum of the
      absolute values; M bounds the rates and T the times of the flows *)
  Theorem C102_present_value : forall eps M T gap ds rs ts origin count tenor fuel flr h h' i k disc o x,
    0 <= eps -> exp_within lib eps -> 0 <= T ->
    rc_new CZeroRate ds rs None origin count tenor = Ok disc -> rc_origin disc = Some o -> d_is o o = true ->
    Forall2 (fun d t => rc_yf disc o d = Ok t) ds ts -> double_data ts rs ->
    (forall t, In t ts -> Rabs (float_value t) <= powerRZ 2 500) ->
    (forall r, In r rs -> Rabs (float_value r) <= M) -> M <= powerRZ 2 500 ->
    0 < gap -> (forall a ya b yb, consecutive (float_points ts rs) a ya b yb -> gap <= b - a) ->
    let delta := 15 * rounding_unit * M + 2 * tiny * (1 + / gap) in
    (M + delta) * T <= 600 ->
    nth_error (h_curves h) k = Some disc ->
    get_present_value fuel flr (PrList i) k (Some o) h = (Ok x, h') -> finite_float x ->
    exists c amounts, seen_at h o i c /\
      Forall2 (fun d a => cf_get fuel flr c d = Ok a) (filter (fun d => d_leb o d) (cf_domain c)) amounts /\
      forall times zeros, Forall is_double amounts ->
        Forall2 (fun d t => rc_yf disc o d = Ok t /\ is_double t /\ finite_float t /\ Rabs (float_value t) <= T /\
                            (d_eqb o d = true -> float_value t = 0))
                (filter (fun d => d_leb o d) (cf_domain c)) times ->
        Forall2 (fun t z => piecewise_linear (float_points ts rs) (float_value t) z) times zeros ->
        let exact := map (fun p => exp (- (fst (fst p) * float_value (snd (fst p)))) * float_value (snd p))
                         (combine (combine zeros times) amounts) in
        let n := length amounts in
        Rabs (float_value x - total exact) <=
          ((1 + rounding_unit) ^ n * (1 + eps) * exp (rounding_unit * ((M + delta) * T) + tiny + delta * T) - 1) * total_abs exact +
          INR n * (1 + rounding_unit) ^ (n - 1) * tiny.
  Proof.
    intros eps M T gap ds rs ts origin count tenor fuel flr h h' i k disc o x E0 EW T0 HN OR IO FT DD BT BR BM G0 GG delta BQ Hk H F.
    destruct (present_value_float lib DS DC eps M T 0 gap ds rs ts origin count tenor fuel flr h h' i k disc o x E0 EW T0 (Rle_refl 0) HN OR IO FT DD BT BR BM G0 GG BQ Hk H F)
      as (c & am & S1 & F1 & B).
    exists c, am. split; auto. split; auto. intros times zeros Da FTm FZ exact n.
    specialize (B times (map (fun p => fst p * float_value (snd p)) (combine zeros times)) Da FTm). fold delta in B. rewrite (Rplus_0_r (delta * T)) in B.
    assert (E : map (fun p => exp (- fst p) * float_value (snd p)) (combine (map (fun p => fst p * float_value (snd p)) (combine zeros times)) am) = exact).
    { unfold exact. generalize (combine zeros times). clear. intros l. revert am. induction l as [|q l IH]; intros [|a am]; cbn; auto. now rewrite IH. }
    rewrite E in B. apply B. clear -FZ. induction FZ as [|t z ts' zs PL FZ IH]; cbn; constructor; auto.
    exists z. split; auto. cbn [fst snd]. rewrite Rminus_diag_eq, Rabs_R0 by reflexivity. lra.
  Qed.
End C102.
Print Assumptions C102_rates.
Print Assumptions C102_present_value.

(** * calendar dates *)
(** days / 365.25 *)
Definition years_between (o d : bdate) : R := IZR (bd_day d - bd_day o) / (1461 / 4).
(** the data of a curve: exact times in years since [o] and rates *)
Definition dated_points (o : bdate) (ds : list bdate) (rs : list float64) : points :=
  combine (map (years_between o) ds) (map float_value rs).

Section Calendar.
  Context (lib : libm) (DC : DayCounts float64 bdate).
  #[local] Instance n64g : Num float64 := f64 lib.

  (** the present value of flows at calendar dates on a ZeroRateCurve with calendar dates and
      the default day count misses the sum of the amounts times exp(- Z(t) t), where t are
      the days since the origin divided by 365.25 and Z the piecewise linear function of the
      rates at the exact times, by at most the given bound: rounding of the year fractions,
      the interpolation, the exponent, math.exp, the products and the sum; [M] bounds the
      rates, [S] their change per year and [N] the days of curve and flows from the origin *)
  Theorem C102_calendar : forall eps M S N ds rs origin tenor fuel flr h h' i k disc o x,
    0 <= eps -> exp_within lib eps -> 0 <= S -> (0 <= N <= 2 ^ 50)%Z -> ds <> [] ->
    rc_new CZeroRate ds rs None origin DcDefault tenor = Ok disc -> rc_origin disc = Some o ->
    NoDup (map bd_day ds) -> (forall d, In d ds -> (Z.abs (bd_day d - bd_day o) <= N)%Z) ->
    Forall (fun r => is_double r /\ finite_float r /\ Rabs (float_value r) <= M) rs -> M <= powerRZ 2 500 ->
    (forall a ya b yb, consecutive (dated_points o ds rs) a ya b yb -> Rabs (yb - ya) <= S * (b - a)) ->
    let T := IZR N / (1461 / 4) * (1 + rounding_unit) in
    let delta := 15 * rounding_unit * M + 2002 * tiny in
    let m := (3 * S * T + M) * rounding_unit * T in
    (M + delta) * T <= 600 ->
    nth_error (h_curves h) k = Some disc ->
    get_present_value fuel flr (PrList i) k (Some o) h = (Ok x, h') -> finite_float x ->
    exists c amounts, seen_at h o i c /\
      Forall2 (fun d a => cf_get fuel flr c d = Ok a) (filter (fun d => d_leb o d) (cf_domain c)) amounts /\
      forall zeros, Forall is_double amounts ->
        let dates := filter (fun d => d_leb o d) (cf_domain c) in
        (forall d, In d dates -> (Z.abs (bd_day d - bd_day o) <= N)%Z) ->
        Forall2 (fun d z => piecewise_linear (dated_points o ds rs) (years_between o d) z) dates zeros ->
        let exact := map (fun p => exp (- (fst (fst p) * years_between o (snd (fst p)))) * float_value (snd p))
                         (combine (combine zeros dates) amounts) in
        let n := length amounts in
        Rabs (float_value x - total exact) <=
          ((1 + rounding_unit) ^ n * (1 + eps) * exp (rounding_unit * ((M + delta) * T) + tiny + (delta * T + m)) - 1) * total_abs exact +
          INR n * (1 + rounding_unit) ^ (n - 1) * tiny.
  Proof.
    intros eps M S N ds rs origin tenor fuel flr h h' i k disc o x E0 EW S0 HN NE HR OR ND BD FR BM SL T delta m BQ Hk H F.
    pose proof u_pos as U0. pose proof tiny_pos as TP. pose proof year_pos as YP. fold year in T.
    assert (HU : IZR N * rounding_unit <= / 8).
    { apply Rle_trans with (IZR (2 ^ 50) * rounding_unit); [apply Rmult_le_compat_r; [lra|apply IZR_le; lia]|].
      unfold rounding_unit. change (powerRZ 2 (-53)) with (/ 2 ^ 53). simpl (IZR _). lra. }
    assert (N0 : 0 <= IZR N) by (apply IZR_le; lia).
    assert (Y0 : 0 <= IZR N / year) by (apply Rmult_le_pos; [auto|left; now apply Rinv_0_lt_compat]).
    assert (T0 : 0 <= T) by (unfold T; apply Rmult_le_pos; lra).
    assert (YT : IZR N / year <= T) by (unfold T; nra).
    assert (LEN : length ds = length rs).
    { unfold rc_new in HR. change (prepare_data CZeroRate rs) with (Ok rs) in HR. cbn [bind] in HR. unfold dc_new in HR.
      destruct (Nat.eqb_spec (length ds) (length rs)); auto. discriminate. }
    assert (YF : forall d, rc_yf disc o d = yf_days (bd_day o) (bd_day d)).
    { intros d. unfold rc_new in HR. change (prepare_data CZeroRate rs) with (Ok rs) in HR. cbn [bind] in HR. unfold dc_new in HR.
      rewrite LEN, Nat.eqb_refl in HR. cbn [negb] in HR. unfold dc_update in HR.
      match type of HR with context [mapM ?f ds] => destruct (mapM f ds) as [ts'|e]; [|discriminate] end. cbn [bind] in HR.
      match type of HR with context [update_fn ?a ?b ?c] => destruct (update_fn a b c) as [[f p]|e]; [|discriminate] end. cbn [bind fst] in HR.
      apply (f_equal (fun z => match z with Ok b => b | Err _ => disc end)) in HR. cbv beta iota in HR. subst disc. reflexivity. }
    set (day := fun d => (bd_day d - bd_day o)%Z).
    assert (TB : forall n, (Z.abs n <= N)%Z -> Rabs (time_of n) <= T).
    { intros n Hn. unfold time_of. destruct (rnd_rel_int n) as (e & He & ->). rewrite Rabs_mult. unfold T. apply Rmult_le_compat; auto using Rabs_pos.
      - unfold Rdiv. rewrite Rabs_mult, (Rabs_pos_eq (/ year)) by (left; now apply Rinv_0_lt_compat).
        apply Rmult_le_compat_r; [left; now apply Rinv_0_lt_compat|]. rewrite <- abs_IZR. now apply IZR_le.
      - apply Rabs_le_inv in He. apply Rabs_le. lra. }
    assert (TE : forall l, (forall d, In d l -> (Z.abs (day d) <= N)%Z) ->
       exists ts, Forall2 (fun d t => rc_yf disc o d = Ok t /\ good t /\ v t = time_of (day d)) l ts).
    { induction l as [|d l IH]; intros B; [exists []; constructor|].
      destruct IH as (ts & IH); [intros; apply B; now right|].
      destruct (yf_days_float lib (bd_day o) (bd_day d)) as (t & A1 & A2 & A3).
      { pose proof (B d (or_introl eq_refl)). unfold day in *. lia. }
      exists (t :: ts). constructor; auto. rewrite YF. auto. }
    destruct (TE ds BD) as (ts & FT).
    set (ps := combine (map day ds) (map float_value rs)).
    assert (VT : map float_value ts = map time_of (map day ds)).
    { clear -FT. induction FT as [|d t ds ts (_ & _ & E) FT IH]; cbn; auto. now rewrite IH, E. }
    assert (EP : float_points ts rs = time_points ps).
    { unfold float_points, time_points, ps. rewrite VT. generalize (map day ds), (map float_value rs). clear.
      induction l as [|a l IH]; intros [|b k]; cbn; auto. now rewrite IH. }
    assert (EX : dated_points o ds rs = exact_points ps).
    { unfold dated_points, exact_points, ps. generalize (map float_value rs). clear. induction ds as [|a l IH]; intros [|b k]; cbn; auto. now rewrite IH. }
    assert (BP : forall p, In p ps -> (Z.abs (fst p) <= N)%Z).
    { intros [a b] I. apply in_combine_l in I. apply in_map_iff in I. destruct I as (d & <- & I). now apply BD. }
    assert (INR' : forall r, In r rs -> Rabs (float_value r) <= M) by (intros r I; rewrite Forall_forall in FR; now apply (FR r I)).
    assert (DD : double_data ts rs).
    { split; [|split; [|split; [|split]]].
      - clear -FT. induction FT as [|d t ds ts (_ & G & _) FT IH]; constructor; auto.
      - eapply Forall_impl; [|exact FR]. cbv beta. tauto.
      - rewrite <- LEN. symmetry. now apply (Forall2_len _ _ _ FT).
      - intros ->. inversion FT. subst. auto.
      - rewrite VT. clear -ND BD HU HN. induction ds as [|d ds IH]; cbn; [constructor|]. inversion ND as [|? ? NI ND']. subst. constructor.
        + intros I. apply in_map_iff in I. destruct I as (n & E & I). apply in_map_iff in I. destruct I as (d' & <- & I).
          assert (B1 := BD d (or_introl eq_refl)). assert (B2 := BD d' (or_intror I)). fold (day d) in B1. fold (day d') in B2.
          destruct (Z.lt_trichotomy (day d) (day d')) as [C|[C|C]].
          * pose proof (time_lt0 N HU _ _ B1 B2 C). lra.
          * apply NI. apply in_map_iff. exists d'. split; auto. unfold day in C. lia.
          * pose proof (time_lt0 N HU _ _ B2 B1 C). lra.
        + apply IH; auto. intros. apply BD. now right. }
    assert (BT : forall t, In t ts -> Rabs (float_value t) <= powerRZ 2 500).
    { intros t I. assert (I' : In (float_value t) (map float_value ts)) by now apply in_map. rewrite VT in I'.
      apply in_map_iff in I'. destruct I' as (n & <- & I'). apply in_map_iff in I'. destruct I' as (d & <- & I').
      eapply Rle_trans; [apply TB, BD, I'|]. apply Rle_trans with (powerRZ 2 50); [|apply small_pow; lia].
      unfold T. apply Rle_trans with (IZR N); [|replace (powerRZ 2 50) with (IZR (2 ^ 50)) by (simpl; lra); apply IZR_le; lia].
      unfold Rdiv. rewrite Rmult_assoc. rewrite <- (Rmult_1_r (IZR N)) at 2. apply Rmult_le_compat_l; auto.
      pose proof u_small. unfold year. lra. }
    assert (GG : forall a ya b yb, consecutive (float_points ts rs) a ya b yb -> / 1000 <= b - a).
    { intros a ya b yb (I1 & I2 & L & _). rewrite EP in I1, I2. apply in_map_iff in I1, I2.
      destruct I1 as (p & E1 & I1), I2 as (q & E2 & I2). injection E1 as <- _. injection E2 as <- _.
      pose proof (time_inv N HU _ _ (BP _ I1) (BP _ I2) L) as L'.
      eapply Rle_trans; [|apply (time_lt N HU _ _ (BP _ I1) (BP _ I2) L')]. unfold year. lra. }
    assert (DE : 15 * rounding_unit * M + 2 * tiny * (1 + / / 1000) = delta) by (unfold delta; rewrite Rinv_inv; ring).
    assert (m0 : 0 <= m).
    { assert (0 <= M).
      { clear -INR' NE LEN. destruct ds as [|d0 ds]; [congruence|]. destruct rs as [|r rs]; [discriminate|]. apply Rle_trans with (Rabs (float_value r)); [apply Rabs_pos|]. apply (INR' r). now left. }
      assert (0 <= S * T) by now apply Rmult_le_pos. unfold m. apply Rmult_le_pos; [apply Rmult_le_pos|]; lra. }
    destruct (present_value_float lib DayDates DC eps M T m (/ 1000) ds rs ts origin DcDefault tenor fuel flr h h' i k disc o x) as (c & am & S1 & F1 & B); auto.
    - cbn. rewrite Z.eqb_refl, Nat.eqb_refl. reflexivity.
    - clear -FT. induction FT as [|d t ds ts (E & _) FT IH]; constructor; auto.
    - lra.
    - rewrite DE. exact BQ.
    - exists c, am. split; auto. split; auto. intros zeros Da dates BDD FZ exact n.
      destruct (TE dates BDD) as (times & FTm).
      set (qs := map (fun p => fst p * years_between o (snd p)) (combine zeros dates)).
      specialize (B times qs Da). rewrite DE in B.
      assert (E : map (fun p => exp (- fst p) * float_value (snd p)) (combine qs am) = exact).
      { unfold exact, qs. generalize (combine zeros dates). clear. intros l. revert am. induction l as [|q l IH]; intros [|a am]; cbn; auto. now rewrite IH. }
      rewrite E in B. apply B.
      + clear -FTm TB BDD. fold dates. clearbody dates. induction FTm as [|d t l ts (A1 & [A2 A3] & A4) FTm IH]; constructor.
        * split; auto. split; auto. split; auto. split; [rewrite A4; apply TB, BDD; now left|].
          intros E. cbn in E. apply Z.eqb_eq in E. rewrite A4. unfold day. rewrite E, Z.sub_diag. unfold time_of.
          unfold Rdiv. rewrite Rmult_0_l. apply rnd_0.
        * apply IH. intros. apply BDD. now right.
      + unfold qs. fold dates. clear B E exact Da F1 qs S1. clearbody dates. revert zeros FZ.
        induction FTm as [|d t l ts' (A1 & A2 & A4) FTm IH]; intros zeros FZ; inversion FZ as [|? z ? zs PL FZ']; subst; cbn; constructor.
        * rewrite EX in PL, SL. cbn [fst snd]. destruct (pl_days N (proj1 HN) HU ps (day d) z S S0 BP SL (BDD d (or_introl eq_refl)) PL) as (z' & PL' & BZ).
          exists z'. rewrite EP, A4. split; auto.
          assert (ZM : Rabs z <= M).
          { apply (pl_bound _ _ _ M PL). intros a b I. apply in_map_iff in I. destruct I as ([a' b'] & Eab & I). injection Eab as _ <-.
            apply in_combine_r in I. apply in_map_iff in I. destruct I as (r & <- & I). now apply INR'. }
          destruct (rnd_rel_int (day d)) as (e & He & Ee). fold (time_of (day d)) in Ee.
          change (years_between o d) with (IZR (day d) / year).
          replace (z' * time_of (day d) - z * (IZR (day d) / year)) with ((z' - z) * time_of (day d) + z * (IZR (day d) / year * e)) by (rewrite Ee; ring).
          eapply Rle_trans; [apply Rabs_triang|]. rewrite !Rabs_mult.
          pose proof (TB _ (BDD d (or_introl eq_refl))) as BTd. set (t' := Rabs (time_of (day d))) in *.
          assert (BY : Rabs (IZR (day d) / year) <= T).
          { eapply Rle_trans; [|exact YT]. unfold Rdiv. rewrite Rabs_mult, (Rabs_pos_eq (/ year)) by (left; now apply Rinv_0_lt_compat).
            apply Rmult_le_compat_r; [left; now apply Rinv_0_lt_compat|]. rewrite <- abs_IZR. apply IZR_le. apply (BDD d (or_introl eq_refl)). }
          replace m with (3 * S * T * rounding_unit * T + M * (T * rounding_unit)) by (unfold m; ring).
          apply Rplus_le_compat.
          -- apply Rmult_le_compat; auto using Rabs_pos; [unfold t'; apply Rabs_pos|]. eapply Rle_trans; [exact BZ|].
             apply Rmult_le_compat_r; [lra|]. apply Rmult_le_compat_l; [lra|exact YT].
          -- apply Rmult_le_compat; auto using Rabs_pos; [apply Rmult_le_pos; apply Rabs_pos|]. apply Rmult_le_compat; auto using Rabs_pos.
        * apply IH; auto. intros. apply BDD. now right.
  Qed.
End Calendar.
Print Assumptions C102_calendar.

(** instance: 100 paid 1461 days after the origin on ZeroRateCurve with the rates 50% at the
    origin and 25% after 1461 days, with the math.exp of [poor_exp]; the present value is
    36.788 *)
Section Case.
  #[local] Instance n64h : Num float64 := f64 poor_exp.
  #[local] Instance no_registry102 : DayCounts float64 bdate := [].
  Example C102_instance :
    let ds := [BD 0 0; BD 1461 1] in let rs := [f64_ratio 1 2; f64_ratio 1 4] in
    exists l disc,
    fixed_new [BD 1461 0] (Many [f64_ofZ 100]) (Some (BD 0 0)) = Ok l /\
    exp_within poor_exp (1 / 10) /\
    rc_new CZeroRate ds rs None None DcDefault None = Ok disc /\ rc_origin disc = Some (BD 0 0) /\
    NoDup (map bd_day ds) /\ (forall d, In d ds -> (Z.abs (bd_day d - 0) <= 1461)%Z) /\
    Forall (fun r => is_double r /\ finite_float r /\ Rabs (float_value r) <= 1 / 2) rs /\
    (forall a ya b yb, consecutive (dated_points (BD 0 0) ds rs) a ya b yb -> Rabs (yb - ya) <= 1 / 16 * (b - a)) /\
    (1 / 2 + (15 * rounding_unit * (1 / 2) + 2002 * tiny)) * (1461 / (1461 / 4) * (1 + rounding_unit)) <= 600 /\
    get_present_value 3 None (PrList 0) 0 (Some (BD 0 0)) (mkH [disc] [] [mkHL l HNone]) =
      (Ok (f64_ratio 36788 1000), mkH [disc] [] [mkHL l HNone]) /\
    cf_get 3 None l (BD 1461 0) = Ok (f64_ofZ 100) /\ is_double (f64_ofZ 100) /\
    piecewise_linear (dated_points (BD 0 0) ds rs) (years_between (BD 0 0) (BD 1461 0)) (1 / 4).
  Proof.
    cbv zeta. eexists. eexists. split; [reflexivity|]. split; [apply C98_continuous_instance|]. split; [reflexivity|]. split; [reflexivity|].
    split; [repeat constructor; cbn; intuition discriminate|].
    split; [intros d [<-|[<-|[]]]; cbn; lia|].
    assert (V1 : float_value (f64_ratio 1 2) = 1 / 2).
    { assert (E : f64_ratio 1 2 = S754_finite false 4503599627370496 (-53)) by (vm_compute; reflexivity). rewrite E. unfold float_value. simpl. lra. }
    assert (V2 : float_value (f64_ratio 1 4) = 1 / 4).
    { assert (E : f64_ratio 1 4 = S754_finite false 4503599627370496 (-54)) by (vm_compute; reflexivity). rewrite E. unfold float_value. simpl. lra. }
    split. { constructor; [|constructor; [|constructor]]; (split; [reflexivity|split; [exact Logic.I|]]); rewrite ?V1, ?V2; apply Rabs_le; lra. }
    unfold dated_points, years_between. cbn [combine map bd_day]. rewrite V1, V2. simpl (0 - 0)%Z. simpl (1461 - 0)%Z.
    split.
    { intros a ya b yb (I1 & I2 & L & _). destruct I1 as [E|[E|[]]], I2 as [E'|[E'|[]]]; injection E as <- <-; injection E' as <- <-; try lra.
      apply Rabs_le. lra. }
    split.
    { assert (tiny <= 1 / 10000) by (unfold tiny; change (powerRZ 2 (-1075)) with (/ 2 ^ 1075);
        apply Rle_trans with (/ 2 ^ 20); [apply Rinv_le_contravar; [apply pow_lt; lra|apply Rle_pow; [lra|lia]]|lra]).
      pose proof u_small. pose proof u_pos. pose proof tiny_pos. nra. }
    split; [vm_compute; reflexivity|]. split; [reflexivity|]. split; [reflexivity|].
    right. right. exists (1461 / (1461 / 4)). split; [right; now left|]. split; [|lra].
    intros c z [E|[E|[]]]; injection E as <- <-; lra.
  Qed.
End Case.
