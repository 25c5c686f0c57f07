(** Property C105: curves of discount factors in double precision, from the data of the curve. *)
From Coq Require Import ZArith Lia List Bool Permutation Reals Lra Floats.SpecFloat.
From Flocq Require Import Core.
From Verif Require Import Num Py MDates MInterpolation MCurve MRateCurve MOption MCashflow MBracket MPricer MFloat
  Spec SInterpolation SCurve SRound SRound2 LSort LInterpolation LInterpolation2 LCurve LRound LRound2 LRound3 LRound4 LRound5 LRound6 PRound PRound2.
Import ListNotations.
Local Open Scope R_scope.

Section C105.
  Context (lib : libm) {D P : Type} (DS : DateSys float64 D P) (DC : DayCounts float64 D).
  #[local] Instance n64q : Num float64 := f64 lib.

  (** * the curve *)
  (** whatever a curve made of dates and discount factors (or survival probabilities) returns
      at a date misses the exact log-linear value of its data by at most the given relative
      error: [eps] and [eta] bound the errors of math.exp and math.log, [M] the exact zero
      rates of the data, [T] the time of the date and [gap] the distance of the times *)
  Theorem C105_factors : forall eps eta M T gap k ds rs ys ts origin count tenor disc o,
    cls_interp k = log_linear_rate_scheme -> prepare_data k rs = Ok ys ->
    0 <= eps -> exp_within lib eps -> 0 <= eta -> log_within lib eta -> 0 <= T ->
    rc_new k ds rs None origin count tenor = Ok disc -> rc_origin disc = Some o ->
    Forall2 (fun d t => rc_yf disc o d = Ok t) ds ts -> double_data ts ys ->
    (forall t, In t ts -> Rabs (float_value t) <= powerRZ 2 500) -> (exists t, In t ts /\ float_value t <> 0) ->
    (forall t y, In (t, y) (float_points ts ys) -> t <> 0 -> Rabs (ln y / t) <= M) ->
    0 < gap -> (forall a b, In a ts -> In b ts -> float_value a < float_value b -> gap <= float_value b - float_value a) ->
    let kappa := (eta + rounding_unit * (1 + eta)) * M + tiny in M + kappa <= powerRZ 2 500 ->
    let delta := 15 * rounding_unit * (M + kappa) + 2 * tiny * (1 + / gap) + kappa in (M + delta) * T <= 600 ->
    forall d t r, rc_yf disc o d = Ok t -> is_double t -> finite_float t -> Rabs (float_value t) <= T -> rc_call disc d = Ok r ->
    is_double r /\ finite_float r /\ exists e, factor_value (float_points ts ys) (float_value t) e /\ 0 < e /\
      Rabs (float_value r - e) <= e * ((1 + eps) * exp (rounding_unit * ((M + delta) * T) + tiny + delta * T) - 1).
  Proof.
    intros eps eta M T gap k ds rs ys ts origin count tenor disc o KL PD E0 EW H0 LW T0 HN OR FT DD BT NZ BM G0 GG kappa BK delta BQ d t r Ht Dt Ft Bt Hr.
    unfold rc_new in HN. rewrite PD in HN. cbn [bind] in HN. unfold dc_new in HN.
    destruct (length ds =? length ys)%nat; cbn [negb] in HN; [|discriminate].
    unfold dc_update in HN. cbn [dc_dflt dc_interp dc_origin0 dc_count dc_fix] in HN.
    set (c0 := mkD (cls_interp k) None no_fn ds origin count []) in HN.
    destruct (mapM (dc_time c0) ds) as [ts'|e] eqn:ET; [|discriminate]. cbn [bind] in HN.
    destruct (update_fn (dc_spec (cls_interp k) None) ts' ys) as [[f p]|e] eqn:EU; [|discriminate]. cbn [bind fst] in HN.
    apply (f_equal (fun z => match z with Ok b => b | Err _ => disc end)) in HN. cbv beta iota in HN. subst disc.
    unfold rc_origin, rc_yf, dc_origin, dc_yf in *. cbn [rc_dc dc_origin0 dc_domain dc_count] in *.
    assert (TS : ts' = ts).
    { assert (EQ : forall d, dc_time c0 d = dc_apply count o d).
      { intros d'. unfold dc_time, dc_origin, dc_yf, c0. cbn [dc_origin0 dc_domain dc_count]. now rewrite OR. }
      apply mapM_Forall2 in ET. clearbody c0. clear -ET FT EQ. revert ts FT. induction ET as [|a t' l l' Ha ET IH]; intros ts FT; inversion FT; subst; auto.
      f_equal; auto. rewrite EQ in Ha. congruence. }
    subst ts'. unfold dc_spec in EU. rewrite KL in EU. unfold update_fn in EU.
    destruct DD as (Hx & Hy & HL & NE & ND).
    destruct (sorted_value lib ts ys Hx Hy) as (_ & GX & GY). unfold sorted_data in *. change (N64 lib) with n64q in *.
    pose proof (split_combine_eq (sort pair_ltb (combine ts ys))) as Q.
    assert (LEN : length (fst (List.split (sort pair_ltb (combine ts ys)))) = length (snd (List.split (sort pair_ltb (combine ts ys))))).
    { rewrite fst_split, snd_split, !map_length. reflexivity. }
    destruct (List.split (sort pair_ltb (combine ts ys))) as [xs zs]. cbn [fst snd] in *.
    assert (PM : Permutation (combine xs zs) (combine ts ys)) by (rewrite Q; apply sort_perm).
    assert (PX : Permutation xs ts).
    { rewrite <- (map_fst_combine xs zs LEN), <- (map_fst_combine ts ys HL). now apply Permutation_map. }
    destruct (fn_new log_linear_rate_scheme xs zs) as [f'|] eqn:EF; [|discriminate]. cbn [bind] in EU.
    apply (f_equal (fun z => match z with Ok b => fst b | Err _ => f end)) in EU. cbv beta iota in EU. cbn [fst] in EU. subst f'.
    pose proof (combine_same _ _ _ _ PM) as SM.
    assert (CALL : exists y, fn_call f t = Ok (Some y) /\ r = SFadd 53 1024 y f64_zero).
    { cbn [rc_call bind] in Hr. unfold dc_val, dc_call in Hr. cbn [dc_fix assoc] in Hr. unfold dc_time, dc_origin in Hr. cbn [dc_origin0 dc_domain] in Hr.
      rewrite OR in Hr. unfold dc_yf in Hr. cbn [dc_count] in Hr. rewrite Ht in Hr. cbn [bind dc_fn] in Hr.
      destruct (fn_call f t) as [[y|]|]; try discriminate. cbn [bind some_float] in Hr. exists y. split; auto.
      apply (f_equal (fun z => match z with Ok b => b | Err _ => r end)) in Hr. cbv beta iota in Hr. rewrite <- Hr. reflexivity. }
    destruct CALL as (y & CY & ->).
    destruct (log_factor lib eps eta M T gap xs zs f E0 EW H0 LW T0) with (x := t) (y := y) as (Gy & e & FV & PE & BE); auto.
    - unfold double_data. split; [|split; [|split; [|split]]]; auto.
      + intros ->. apply Permutation_nil in PX. congruence.
      + eapply Permutation_NoDup; [|exact ND]. apply Permutation_map. now symmetry.
    - intros a I. apply BT. eapply Permutation_in; eauto.
    - destruct NZ as (a & I & N). exists a. split; auto. eapply Permutation_in; [symmetry; exact PX|auto].
    - intros a b I. apply BM. now apply SM.
    - intros a b Ia Ib. apply GG; eapply Permutation_in; eauto.
    - split; auto.
    - destruct (add_zero_good y Gy) as [[A1 A2] A3]. split; auto. split; auto. exists e. split; [|split; auto; now rewrite A3].
      eapply factor_same; eauto.
  Qed.

  (** * present values *)
  (** the present value the library returns for a list of flows on a DiscountFactorCurve made
      of dates and discount factors misses the sum of the amounts times the exact log-linear
      discount factors by at most the given bound, relative to the sum of the absolute values *)
  Theorem C105_present_value : forall eps eta M T gap ds rs ts origin count tenor fuel flr h h' i k disc o x,
    0 <= eps -> exp_within lib eps -> 0 <= eta -> log_within lib eta -> 0 <= T ->
    rc_new CDiscountFactor ds rs None origin count tenor = Ok disc -> rc_origin disc = Some o -> d_is o o = true ->
    Forall2 (fun d t => rc_yf disc o d = Ok t) ds ts -> double_data ts rs ->
    (forall t, In t ts -> Rabs (float_value t) <= powerRZ 2 500) -> (exists t, In t ts /\ float_value t <> 0) ->
    (forall t y, In (t, y) (float_points ts rs) -> t <> 0 -> Rabs (ln y / t) <= M) ->
    0 < gap -> (forall a b, In a ts -> In b ts -> float_value a < float_value b -> gap <= float_value b - float_value a) ->
    let kappa := (eta + rounding_unit * (1 + eta)) * M + tiny in M + kappa <= powerRZ 2 500 ->
    let delta := 15 * rounding_unit * (M + kappa) + 2 * tiny * (1 + / gap) + kappa in (M + delta) * T <= 600 ->
    nth_error (h_curves h) k = Some disc ->
    get_present_value fuel flr (PrList i) k (Some o) h = (Ok x, h') -> finite_float x ->
    exists c amounts, seen_at h o i c /\
      Forall2 (fun d a => cf_get fuel flr c d = Ok a) (filter (fun d => d_leb o d) (cf_domain c)) amounts /\
      forall times factors, Forall is_double amounts ->
        Forall2 (fun d t => rc_yf disc o d = Ok t /\ is_double t /\ finite_float t /\ Rabs (float_value t) <= T)
                (filter (fun d => d_leb o d) (cf_domain c)) times ->
        Forall2 (fun t e => factor_value (float_points ts rs) (float_value t) e) times factors ->
        let exact := map (fun p => fst p * float_value (snd p)) (combine factors amounts) in
        let n := length amounts in
        Rabs (float_value x - total exact) <=
          ((1 + rounding_unit) ^ n * (1 + eps) * exp (rounding_unit * ((M + delta) * T) + tiny + delta * T) - 1) * total_abs exact +
          INR n * (1 + rounding_unit) ^ (n - 1) * tiny.
  Proof.
    intros eps eta M T gap ds rs ts origin count tenor fuel flr h h' i k disc o x E0 EW H0 LW T0 HN OR IO FT DD BT NZ BM G0 GG kappa BK delta BQ Hk H F.
    pose proof u_pos as U0. pose proof tiny_pos as TP.
    assert (CL : rc_cls disc = CDiscountFactor).
    { unfold rc_new in HN. change (prepare_data CDiscountFactor rs) with (Ok rs) in HN. cbn [bind] in HN.
      destruct (dc_new (cls_interp CDiscountFactor) ds rs None origin count); [|discriminate]. cbn [bind] in HN.
      apply (f_equal (fun z => match z with Ok b => rc_cls b | Err _ => CDiscountFactor end)) in HN. exact (eq_sym HN). }
    pose proof (C105_factors eps eta M T gap CDiscountFactor ds rs rs ts origin count tenor disc o eq_refl eq_refl E0 EW H0 LW T0 HN OR FT DD BT NZ BM G0 GG BK BQ) as RT.
    fold kappa in RT. fold delta in RT.
    destruct (C97_present_value lib DS DC _ _ _ _ _ _ _ _ _ Hk H F) as (c & dfs & am & S1 & F1 & F2 & B).
    exists c, am. split; [auto|]. split; [auto|]. intros times es Da FTm FZ exact n.
    set (dd := filter _ _) in *. set (m := rounding_unit * ((M + delta) * T) + tiny + delta * T) in *. set (K := (1 + eps) * exp m) in *.
    assert (DP : distinct (float_points ts rs)).
    { destruct DD as (_ & _ & LE & _ & ND). unfold float_points. apply distinct_combine; rewrite ?map_length; auto. }
    assert (M0 : 0 <= M).
    { destruct DD as (_ & _ & LE & _ & _). destruct NZ as (t & I & N).
      assert (J : exists y, In (float_value t, y) (float_points ts rs)).
      { unfold float_points. clear -I LE. revert rs LE. induction ts as [|a ts IH]; intros [|b rs] LE; try discriminate; [destruct I|].
        cbn [map combine]. destruct I as [->|I]; [eexists; now left|]. destruct (IH I rs) as (y & J); [now injection LE|]. exists y. now right. }
      destruct J as (y & J). eapply Rle_trans; [apply Rabs_pos|exact (BM _ _ J N)]. }
    assert (K0 : 0 <= kappa).
    { unfold kappa. apply Rplus_le_le_0_compat; [|lra]. apply Rmult_le_pos; [|lra]. assert (0 <= rounding_unit * (1 + eta)) by (apply Rmult_le_pos; lra). lra. }
    assert (D0 : 0 <= delta).
    { assert (0 < / gap) by now apply Rinv_0_lt_compat. unfold delta. assert (0 <= rounding_unit * (M + kappa)) by (apply Rmult_le_pos; lra).
      assert (0 <= tiny * (1 + / gap)) by (apply Rmult_le_pos; lra). lra. }
    assert (m0 : 0 <= m).
    { unfold m. assert (0 <= (M + delta) * T) by (apply Rmult_le_pos; lra). assert (0 <= rounding_unit * ((M + delta) * T)) by (apply Rmult_le_pos; lra).
      assert (0 <= delta * T) by (apply Rmult_le_pos; lra). lra. }
    assert (HK : 1 <= K).
    { unfold K. pose proof (exp_mono 0 m m0) as X. rewrite exp_0 in X. nra. }
    assert (G : Forall is_double dfs /\ Forall2 (fun df e => 0 < e /\ Rabs (float_value df - e) <= e * (K - 1)) dfs es).
    { clear -CL OR IO F1 FTm FZ RT DP. revert times es FTm FZ.
      induction F1 as [|d df dd dfs Hd F1 IH]; intros times es FTm FZ; inversion FTm as [|? t ? times' (T1 & T2 & T3 & T4) FTm']; subst;
        inversion FZ as [|? e ? es' Z1 FZ']; subst; [split; constructor|].
      destruct (IH _ _ FTm' FZ') as [I1 I2].
      assert (Hd' : rc_call disc d = Ok df).
      { unfold get_discount_factor, interest_only in Hd. rewrite CL in Hd. cbn [is_interest] in Hd. destruct fuel as [|fuel']; [discriminate|].
        cbn [factor] in Hd. rewrite CL in Hd. unfold at_origin in Hd. rewrite OR, IO in Hd. exact Hd. }
      destruct (RT d t df T1 T2 T3 T4 Hd') as (A1 & A2 & e' & A3 & A4 & A5).
      assert (e' = e) by (eapply factor_fun; eauto). subst e'. split; constructor; auto. }
    destruct G as [Dd G]. destruct (B Dd Da) as (_ & _ & B').
    pose proof (Forall2_len _ _ _ F1) as L1. pose proof (Forall2_len _ _ _ F2) as L2. pose proof (Forall2_len _ _ _ G) as L3.
    destruct (sum_of_products K HK dfs es am) as [P1 P2]; auto; try congruence.
    cbv zeta in P1, P2. fold exact in P1, P2. unfold n.
    replace (length am) with (length dfs) by congruence. set (A := (1 + rounding_unit) ^ length dfs) in *.
    assert (A1 : 1 <= A) by apply pow_u_ge. pose proof (total_abs_nonneg exact).
    replace (float_value x - total exact) with ((float_value x - total (products dfs am)) + (total (products dfs am) - total exact)) by ring.
    eapply Rle_trans; [apply Rabs_triang|]. rewrite (Rmult_assoc A). fold K. set (tt' := INR _ * _ * tiny) in *.
    assert ((A - 1) * total_abs (products dfs am) <= (A - 1) * (K * total_abs exact)) by (apply Rmult_le_compat_l; lra). nra.
  Qed.
End C105.
Print Assumptions C105_factors.
Print Assumptions C105_present_value.

(** * DiscountFactorCurve([0, 1], [1.0, 0.36788]) and a flow of 100 at 1, on a platform whose
    math.log and math.exp know exp(-1) only, as 0.36788 *)
Definition poor_log : libm :=
  mkLibm (lm_exp poor_exp) (fun y => if SFeqb y (f64_ratio 36788 100000) then Ok (f64_ofZ (-1)) else Err ValueError)
         (fun _ _ => Err ValueError) (fun x => x).
Section Case.
  #[local] Instance n64r : Num float64 := f64 poor_log.
  #[local] Instance no_registry105 : DayCounts float64 float64 := [].
  Lemma eqb_finite z s m e : SFeqb z (S754_finite s m e) = true -> z = S754_finite s m e.
  Proof.
    unfold SFeqb, SFcompare. destruct z as [s'|s'| |s' m' e']; try discriminate; destruct s'; try discriminate; destruct s; try discriminate.
    - destruct (Z.compare_spec e' e) as [->|Hc|Hc]; try discriminate. intros Q.
      destruct (Pos.compare_cont Eq m' m) eqn:PC; try discriminate. apply Pos.compare_eq in PC. now subst.
    - destruct (Z.compare_spec e' e) as [->|Hc|Hc]; try discriminate. intros Q.
      destruct (Pos.compare_cont Eq m' m) eqn:PC; try discriminate. apply Pos.compare_eq in PC. now subst.
  Qed.
  Lemma near_e1 : float_value (f64_ratio 36788 100000) = 6627136923668232 / 2 ^ 54 /\
    - (11 / 10) <= ln (float_value (f64_ratio 36788 100000)) <= - (91 / 100).
  Proof.
    assert (E2 : f64_ratio 36788 100000 = S754_finite false 6627136923668232 (-54)) by (vm_compute; reflexivity). rewrite E2.
    cbn [float_value]. change (powerRZ 2 (-54)) with (/ 2 ^ 54). split; [unfold Rdiv; ring|].
    set (w := 6627136923668232 * / 2 ^ 54). assert (W : 36787 / 100000 < w < 36789 / 100000) by (unfold w; split; lra).
    split.
    - rewrite <- (ln_exp (- (11 / 10))). left. apply ln_increasing; [apply exp_pos|].
      assert (P : exp (11/10) = exp (11/160) ^ 16) by (cbn [pow]; rewrite !Rmult_1_r, <- !exp_plus; f_equal; lra).
      pose proof (exp_ineq1 (11/160) ltac:(lra)) as L.
      assert (B : (1 + 11/160) ^ 16 <= exp (11/10)) by (rewrite P; apply pow_incr; lra).
      rewrite exp_Ropp. apply Rle_lt_trans with (/ ((1 + 11/160) ^ 16)); [apply Rinv_le_contravar; [apply pow_lt; lra|exact B]|]. lra.
    - rewrite <- (ln_exp (- (91 / 100))). left. apply ln_increasing; [lra|].
      assert (P : exp (- (91/100)) = exp (- (91/1600)) ^ 16) by (cbn [pow]; rewrite !Rmult_1_r, <- !exp_plus; f_equal; lra).
      pose proof (exp_ineq1 (- (91/1600)) ltac:(lra)) as L.
      assert (B : (1 + - (91/1600)) ^ 16 <= exp (- (91/100))) by (rewrite P; apply pow_incr; lra). lra.
  Qed.
  Example C105_instance :
    let ds := [f64_ofZ 0; f64_ofZ 1] in let rs := [f64_ofZ 1; f64_ratio 36788 100000] in
    exists l disc,
    fixed_new [f64_ofZ 1] (Many [f64_ofZ 100]) (Some (f64_ofZ 0)) = Ok l /\
    exp_within poor_log (1 / 10) /\ log_within poor_log (1 / 10) /\
    rc_new (DS := FloatDates) CDiscountFactor ds rs None None DcDefault None = Ok disc /\ rc_origin disc = Some (f64_ofZ 0) /\
    d_is (DateSys := FloatDates) (f64_ofZ 0) (f64_ofZ 0) = true /\
    Forall2 (fun d t => rc_yf disc (f64_ofZ 0) d = Ok t) ds [f64_ofZ 0; f64_ofZ 1] /\ double_data ds rs /\
    (exists t, In t ds /\ float_value t <> 0) /\
    (forall t y, In (t, y) (float_points ds rs) -> t <> 0 -> Rabs (ln y / t) <= 11 / 10) /\
    (forall a b, In a ds -> In b ds -> float_value a < float_value b -> 1 <= float_value b - float_value a) /\
    (let kappa := (1 / 10 + rounding_unit * (1 + 1 / 10)) * (11 / 10) + tiny in
     11 / 10 + kappa <= powerRZ 2 500 /\
     (11 / 10 + (15 * rounding_unit * (11 / 10 + kappa) + 2 * tiny * (1 + / 1) + kappa)) * 1 <= 600) /\
    get_present_value 3 None (PrList 0) 0 (Some (f64_ofZ 0)) (mkH [disc] [] [mkHL l HNone]) =
      (Ok (f64_ratio 36788 1000), mkH [disc] [] [mkHL l HNone]) /\
    factor_value (float_points ds rs) (float_value (f64_ofZ 1)) (float_value (f64_ratio 36788 100000)).
  Proof.
    cbv zeta. destruct near_e1 as [V1 [L1 L2]]. set (y := f64_ratio 36788 100000) in *.
    assert (V0 : float_value (f64_ofZ 0) = 0) by reflexivity. pose proof one_value as O1.
    assert (Y0 : 0 < float_value y) by (rewrite V1; lra).
    eexists. eexists. split; [reflexivity|]. split; [apply C98_continuous_instance|]. split.
    { intros z w Dz Fz Pz E. cbn [lm_log poor_log] in E. destruct (SFeqb z _) eqn:Q; [|discriminate].
      apply (f_equal (fun z => match z with Ok b => b | Err _ => w end)) in E. cbv beta iota in E. rewrite <- E. clear E w.
      assert (EY : f64_ratio 36788 100000 = S754_finite false 6627136923668232 (-54)) by (vm_compute; reflexivity).
      rewrite EY in Q. apply eqb_finite in Q. rewrite <- EY in Q. fold y in Q. rewrite Q.
      split; [reflexivity|]. split; [exact Logic.I|].
      assert (VM : float_value (f64_ofZ (-1)) = -1).
      { assert (E1 : f64_ofZ (-1) = S754_finite true 4503599627370496 (-52)) by (vm_compute; reflexivity). rewrite E1. cbn [float_value]. change (powerRZ 2 (-52)) with (/ 2 ^ 52). lra. }
      rewrite VM, (Rabs_left1 (ln (float_value y))) by lra. apply Rabs_le. lra. }
    split; [reflexivity|]. split; [reflexivity|]. split; [reflexivity|].
    split; [repeat constructor|].
    assert (DD : double_data [f64_ofZ 0; f64_ofZ 1] [f64_ofZ 1; y]).
    { unfold double_data. split; [|split; [|split; [|split]]].
      - repeat constructor; vm_compute; auto.
      - repeat constructor; vm_compute; auto.
      - reflexivity.
      - discriminate.
      - cbn [map]. rewrite V0, O1. constructor; [|constructor; [intros []|constructor]]. intros [F|[]]. lra. }
    split; [exact DD|]. unfold float_points. cbn [map combine In]. rewrite V0, O1.
    split; [exists (f64_ofZ 1); split; [auto|rewrite O1; lra]|].
    split. { intros t z [E|[E|[]]] N; pose proof (f_equal fst E) as E1; pose proof (f_equal snd E) as E2; cbn [fst snd] in E1, E2; subst t z; [now elim N|]. unfold Rdiv. rewrite Rinv_1, Rmult_1_r. apply Rabs_le. lra. }
    split. { intros a b [<-|[<-|[]]] [<-|[<-|[]]]; rewrite ?V0, ?O1; lra. }
    assert (P1 : 2 <= powerRZ 2 500) by (apply Rle_trans with (powerRZ 2 1); [simpl; lra|now apply small_pow]).
    pose proof u_small. pose proof u_pos. pose proof tiny_pos. pose proof tiny_lt_u.
    split. { split; [nra|]. rewrite Rinv_1. nra. }
    split; [vm_compute; reflexivity|].
    right. split; [lra|]. exists (ln (float_value y)). split; [|now rewrite Rmult_1_r, exp_ln].
    unfold without_zero. cbn [filter fst]. destruct (Req_EM_T 0 0); [|congruence]. destruct (Req_EM_T 1 0); [lra|]. cbn [transform map fst snd].
    unfold Rdiv. rewrite Rinv_1, Rmult_1_r. right. left. exists 1. split; [now left|]. split; [|lra].
    intros c z [E|[]]. pose proof (f_equal fst E) as E1. cbn [fst] in E1. subst c. lra.
  Qed.
End Case.
