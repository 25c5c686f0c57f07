(** Properties C97, C99, C102 and C105: present values in double precision are returned and finite. *)
From Coq Require Import ZArith Lia List Bool Permutation Reals Lra Floats.SpecFloat.
From Flocq Require Import Core.
From Verif Require Import Num Py MDates MInterpolation MCurve MRateCurve MOption MCashflow MBracket MPricer MFloat
  Spec SInterpolation SCurve SRound SRound2 SRound3 LSort LInterpolation LInterpolation2 LCurve LRound LRound2 LRound3 LRound4 LRound5 LRound6 LRound11 LRound12 LLibm PRound PRound2 PRound3 PRound5 PRound8.
Import ListNotations.
Local Open Scope R_scope.

(** doubles of absolute value at most 2^p *)
Definition doubles_below (p : Z) (l : list float64) : Prop :=
  Forall (fun x => is_double x /\ finite_float x /\ Rabs (float_value x) <= powerRZ 2 p) l.
Lemma below_good p l : doubles_below p l <-> Forall (fun x => good x /\ Rabs (v x) <= powerRZ 2 p) l.
Proof. unfold doubles_below, good. rewrite !Forall_forall. split; intros H x I; specialize (H x I); tauto. Qed.

Section Returns.
  Context (lib : libm) {D P : Type} (DS : DateSys float64 D P) (DC : DayCounts float64 D).
  #[local] Instance n64v : Num float64 := f64 lib.

  (** a list whose discount factors and amounts are returned has a present value, which is
      finite, unless the factors, the amounts or the number of flows are astronomic; the heap
      is as before *)
  Theorem C97_returns : forall fuel flr h i k disc o c dfs amounts,
    nth_error (h_curves h) k = Some disc -> seen_at h o i c ->
    Forall2 (fun d df => get_discount_factor fuel disc o d = Ok df) (filter (fun d => d_leb o d) (cf_domain c)) dfs ->
    Forall2 (fun d a => cf_get fuel flr c d = Ok a) (filter (fun d => d_leb o d) (cf_domain c)) amounts ->
    doubles_below 900 dfs -> doubles_below 70 amounts -> (Z.of_nat (length amounts) <= 2 ^ 50)%Z ->
    exists x, get_present_value fuel flr (PrList i) k (Some o) h = (Ok x, h) /\ is_double x /\ finite_float x /\
      Rabs (float_value x - total (products dfs amounts)) <=
        ((1 + rounding_unit) ^ length dfs - 1) * total_abs (products dfs amounts) +
        INR (length dfs) * (1 + rounding_unit) ^ (length dfs - 1) * tiny.
  Proof.
    intros fuel flr h i k disc o c dfs am Hk SA F1 F2 B1 B2 HN.
    pose proof (list_value fuel flr disc o i h c dfs am SA F1 F2) as E.
    apply Forall2_len in F1 as L1. apply Forall2_len in F2 as L2. assert (HL : length dfs = length am) by congruence.
    destruct (dot_finite lib 900 70 dfs am HL ltac:(lia) (proj1 (below_good _ _) B1) (proj1 (below_good _ _) B2) HN) as [Dx Fx].
    eexists. split; [|split; [exact Dx|split; [exact Fx|]]].
    - unfold get_present_value, bindS, get_curve. rewrite (proj2 (nth_res_Some _ _ _) Hk). cbn [pv_of]. exact E.
    - apply dot_error; auto; eapply Forall_impl; try exact B1; try exact B2; cbv beta; tauto.
  Qed.

  (** on a curve of zero rates: flows at dates where rate times time is at most 600 in
      absolute value, on a platform whose math.exp returns between -700 and 700 *)
  Theorem C99_returns : forall eps M n flr h i k disc o c amounts qs,
    0 <= eps <= 1 -> exp_within lib eps -> exp_returns lib -> 0 <= M <= 600 ->
    nth_error (h_curves h) k = Some disc -> rc_cls disc = CZeroRate -> rc_origin disc = Some o -> d_is o o = true ->
    seen_at h o i c ->
    Forall2 (fun d a => cf_get (2 + n) flr c d = Ok a) (filter (fun d => d_leb o d) (cf_domain c)) amounts ->
    Forall2 (fun d q => exponent disc o d q /\ Rabs q <= M) (filter (fun d => d_leb o d) (cf_domain c)) qs ->
    doubles_below 70 amounts -> (Z.of_nat (length amounts) <= 2 ^ 50)%Z ->
    exists x, get_present_value (2 + n) flr (PrList i) k (Some o) h = (Ok x, h) /\ is_double x /\ finite_float x /\
      let exact := map (fun p => exp (- fst p) * float_value (snd p)) (combine qs amounts) in
      let n := length qs in
      Rabs (float_value x - total exact) <=
        ((1 + rounding_unit) ^ n * (1 + eps) * exp (rounding_unit * M + tiny) - 1) * total_abs exact +
        INR n * (1 + rounding_unit) ^ (n - 1) * tiny.
  Proof.
    intros eps M n flr h i k disc o c am qs E0 EW ER HM Hk CL OR IO SA F2 FQ B2 HN.
    assert (G : exists dfs, Forall2 (fun d df => get_discount_factor (2 + n) disc o d = Ok df) (filter (fun d => d_leb o d) (cf_domain c)) dfs /\
                  doubles_below 900 dfs).
    { clear F2 SA. induction FQ as [|d q ds qs [HX HQ] FQ (dfs & I1 & I2)]; [exists []; split; constructor|].
      destruct (zero_returns lib DS DC n disc o d q ER CL OR IO ltac:(lra) HX) as [df Hd].
      destruct (df_zero lib DS DC eps M (2 + n) disc o d df q (proj1 E0) EW CL OR IO HM HQ HX Hd) as (A1 & A2 & A3).
      exists (df :: dfs). split; constructor; auto. split; [exact A1|]. split; [exact A2|].
      assert (X1 : exp (- q) <= exp 600) by (apply exp_mono; apply Rabs_le_inv in HQ; lra).
      assert (X2 : exp (rounding_unit * M + tiny) <= exp 1).
      { apply exp_mono. pose proof u_small. pose proof u_pos. pose proof tiny_lt_u. nra. }
      assert (X3 : 1 + eps <= exp 1) by (pose proof (exp_ineq1_le 1); lra).
      pose proof (exp_pos (- q)) as P0. pose proof (exp_pos (rounding_unit * M + tiny)) as P1.
      apply Rle_trans with (exp 600 * (exp 1 * exp 1)).
      - apply Rle_trans with (exp (- q) * ((1 + eps) * exp (rounding_unit * M + tiny))).
        + replace (float_value df) with ((float_value df - exp (- q)) + exp (- q)) by ring. eapply Rle_trans; [apply Rabs_triang|].
          rewrite (Rabs_right (exp (- q))) by lra. lra.
        + apply Rmult_le_compat; try lra; [apply Rmult_le_pos; lra|]. apply Rmult_le_compat; lra.
      - rewrite <- !exp_plus. eapply Rle_trans; [apply (exp_mono _ 620); lra|]. eapply Rle_trans; [apply exp_middle|]. apply small_pow. lia. }
    destruct G as (dfs & F1 & B1).
    destruct (C97_returns (2 + n) flr h i k disc o c dfs am Hk SA F1 F2 B1 B2 HN) as (x & E & Dx & Fx & BX).
    exists x. do 3 (split; [assumption|]). cbv zeta.
    destruct (C99_zero_rates lib DS DC eps M (2 + n) flr h h i k disc o x (proj1 E0) EW HM Hk CL OR IO E Fx) as (c' & am' & S1 & F3 & B).
    assert (c' = c).
    { destruct SA as (l & a & Hl & -> & Ha), S1 as (l' & a' & Hl' & -> & Ha'). rewrite Hl in Hl'. injection Hl' as <-. f_equal.
      destruct (hl_attr l); try congruence; [|contradiction]. destruct Ha as (m1 & Hm & ->), Ha' as (m2 & Hm' & ->). rewrite Hm in Hm'. injection Hm' as <-. reflexivity. }
    subst c'.
    change (n64c lib) with n64v in F3.
    assert (am' = am). { clear -F2 F3. revert F2 F3. generalize (2 + n)%nat. intros fuel F2 F3. revert am F2.
      induction F3 as [|d a ds as_ H F3 IH]; intros am F2; inversion F2 as [|? b ? l' H' F2']; subst; auto. rewrite H in H'.
      f_equal; [|now apply IH]. now apply (f_equal (fun z => match z with Ok b => b | Err _ => a end)) in H'. }
    subst am'. apply B; [|exact FQ]. eapply Forall_impl; try exact B2; cbv beta; tauto.
  Qed.

  (** on a ZeroRateCurve made of dates and rates, see C102_present_value for the error *)
  Theorem C102_returns : forall eps M T gap ds rs ts origin count tenor n flr h i k disc o c amounts,
    0 <= eps <= 1 -> exp_within lib eps -> exp_returns lib -> 0 <= T ->
    rc_new CZeroRate ds rs None origin count tenor = Ok disc -> rc_origin disc = Some o -> d_is o o = true ->
    Forall2 (fun d t => rc_yf disc o d = Ok t) ds ts -> double_data ts rs ->
    (forall t, In t ts -> Rabs (float_value t) <= powerRZ 2 500) ->
    (forall r, In r rs -> Rabs (float_value r) <= M) -> M <= powerRZ 2 500 ->
    0 < gap -> (forall a ya b yb, consecutive (float_points ts rs) a ya b yb -> gap <= b - a) ->
    let delta := 15 * rounding_unit * M + 2 * tiny * (1 + / gap) in
    (M + delta) * T <= 600 ->
    nth_error (h_curves h) k = Some disc -> seen_at h o i c ->
    Forall2 (fun d a => cf_get (2 + n) flr c d = Ok a) (filter (fun d => d_leb o d) (cf_domain c)) amounts ->
    (forall d, In d (filter (fun d => d_leb o d) (cf_domain c)) ->
       exists t, rc_yf disc o d = Ok t /\ is_double t /\ finite_float t /\ Rabs (float_value t) <= T) ->
    doubles_below 70 amounts -> (Z.of_nat (length amounts) <= 2 ^ 50)%Z ->
    exists x, get_present_value (2 + n) flr (PrList i) k (Some o) h = (Ok x, h) /\ is_double x /\ finite_float x.
  Proof.
    intros eps M T gap ds rs ts origin count tenor n flr h i k disc o c am E0 EW ER T0 HN OR IO FT DD BT BR BM G0 GG delta BQ Hk SA F2 TM B2 LN.
    assert (CL : rc_cls disc = CZeroRate).
    { unfold rc_new in HN. change (prepare_data CZeroRate rs) with (Ok rs) in HN. cbn [bind] in HN.
      destruct (dc_new (cls_interp CZeroRate) ds rs None origin count); [|discriminate]. cbn [bind] in HN.
      apply (f_equal (fun z => match z with Ok b => rc_cls b | Err _ => CZeroRate end)) in HN. exact (eq_sym HN). }
    assert (M0 : 0 <= M).
    { destruct DD as (_ & _ & HL & NE & _). destruct ts as [|t ts]; [congruence|]. destruct rs as [|r rs]; [discriminate|].
      apply Rle_trans with (Rabs (float_value r)); [apply Rabs_pos|]. apply BR. now left. }
    assert (D0 : 0 <= delta).
    { assert (0 < / gap) by now apply Rinv_0_lt_compat. pose proof u_pos. pose proof tiny_pos. unfold delta. assert (0 <= rounding_unit * M) by (apply Rmult_le_pos; lra).
      assert (0 <= tiny * (1 + / gap)) by (apply Rmult_le_pos; lra). lra. }
    assert (FQ : exists qs, Forall2 (fun d q => exponent disc o d q /\ Rabs q <= (M + delta) * T) (filter (fun d => d_leb o d) (cf_domain c)) qs).
    { clear F2. induction (filter _ _) as [|d l IH]; [exists []; constructor|]. destruct IH as (qs & FQ); [intros; apply TM; now right|].
      destruct (TM d (or_introl eq_refl)) as (t & Ht & Dt & Ft & Bt).
      destruct (d_eqb o d) eqn:EQ.
      - exists (0 :: qs). constructor; auto. split; [left; auto|]. rewrite Rabs_R0. apply Rmult_le_pos; lra.
      - destruct (C102_rates lib DS DC CZeroRate ds rs ts origin count tenor M gap disc o eq_refl HN OR FT DD BT BR BM G0 GG d t Ht Dt Ft) as (r & Y & Hr & Dr & Fr & PL & BY).
        exists (float_value r * float_value t :: qs). constructor; auto. split; [right; split; auto; exists r, t; tauto|].
        rewrite Rabs_mult. apply Rmult_le_compat; auto using Rabs_pos. fold delta in BY.
        assert (Rabs Y <= M).
        { apply (pl_bound _ _ _ M PL). intros a b I. unfold float_points in I. apply in_combine_r in I. apply in_map_iff in I. destruct I as (r' & <- & I). now apply BR. }
        replace (float_value r) with ((float_value r - Y) + Y) by ring. eapply Rle_trans; [apply Rabs_triang|]. lra. }
    destruct FQ as (qs & FQ).
    destruct (C99_returns eps ((M + delta) * T) n flr h i k disc o c am qs E0 EW ER) as (x & E & Dx & Fx & _); auto.
    - split; [apply Rmult_le_pos; lra|lra].
    - exists x. auto.
  Qed.

  Lemma factor_call eta M T gap k ds rs ys ts origin count tenor disc o : exp_returns lib ->
    cls_interp k = log_linear_rate_scheme -> prepare_data k rs = Ok ys ->
    0 <= eta -> log_within lib eta -> 0 <= T ->
    rc_new k ds rs None origin count tenor = Ok disc -> rc_origin disc = Some o ->
    Forall2 (fun d t => rc_yf disc o d = Ok t) ds ts -> double_data ts ys ->
    (forall t, In t ts -> Rabs (float_value t) <= powerRZ 2 500) -> (exists t, In t ts /\ float_value t <> 0) ->
    (forall t y, In (t, y) (float_points ts ys) -> t <> 0 -> Rabs (ln y / t) <= M) ->
    0 < gap -> (forall a b, In a ts -> In b ts -> float_value a < float_value b -> gap <= float_value b - float_value a) ->
    let kappa := (eta + rounding_unit * (1 + eta)) * M + tiny in M + kappa <= powerRZ 2 500 ->
    let delta := 15 * rounding_unit * (M + kappa) + 2 * tiny * (1 + / gap) + kappa in (M + delta) * T <= 600 ->
    forall d t, rc_yf disc o d = Ok t -> is_double t -> finite_float t -> Rabs (float_value t) <= T ->
    (float_value t = 0 -> exists t0, In t0 ts /\ float_value t0 = 0) -> exists r, rc_call disc d = Ok r.
  Proof.
    intros ER KL PD H0 LW T0 HN OR FT DD BT NZ BM G0 GG kappa BK delta BQ d t Ht Dt Ft Bt AZ.
    unfold rc_new in HN. rewrite PD in HN. cbn [bind] in HN. unfold dc_new in HN.
    destruct (length ds =? length ys)%nat; cbn [negb] in HN; [|discriminate].
    unfold dc_update in HN. cbn [dc_dflt dc_interp dc_origin0 dc_count dc_fix] in HN.
    set (c0 := mkD (cls_interp k) None no_fn ds origin count []) in HN.
    destruct (mapM (dc_time c0) ds) as [ts'|e] eqn:ET; [|discriminate]. cbn [bind] in HN.
    destruct (update_fn (dc_spec (cls_interp k) None) ts' ys) as [[f p]|e] eqn:EU; [|discriminate]. cbn [bind fst] in HN.
    apply (f_equal (fun z => match z with Ok b => b | Err _ => disc end)) in HN. cbv beta iota in HN. subst disc.
    unfold rc_origin, rc_yf, dc_origin, dc_yf in *. cbn [rc_dc dc_origin0 dc_domain dc_count] in *.
    assert (TS : ts' = ts).
    { assert (EQ : forall d, dc_time c0 d = dc_apply count o d).
      { intros d'. unfold dc_time, dc_origin, dc_yf, c0. cbn [dc_origin0 dc_domain dc_count]. now rewrite OR. }
      apply mapM_Forall2 in ET. clearbody c0. clear -ET FT EQ. revert ts FT. induction ET as [|a t' l l' Ha ET IH]; intros ts FT; inversion FT; subst; auto.
      f_equal; auto. rewrite EQ in Ha. congruence. }
    subst ts'. unfold dc_spec in EU. rewrite KL in EU. unfold update_fn in EU.
    destruct DD as (Hx & Hy & HL & NE & ND).
    destruct (sorted_value lib ts ys Hx Hy) as (_ & GX & GY). unfold sorted_data in *. change (N64 lib) with n64v in *.
    pose proof (split_combine_eq (sort pair_ltb (combine ts ys))) as Q.
    assert (LEN : length (fst (List.split (sort pair_ltb (combine ts ys)))) = length (snd (List.split (sort pair_ltb (combine ts ys))))).
    { rewrite fst_split, snd_split, !map_length. reflexivity. }
    destruct (List.split (sort pair_ltb (combine ts ys))) as [xs zs]. cbn [fst snd] in *.
    assert (PM : Permutation (combine xs zs) (combine ts ys)) by (rewrite Q; apply sort_perm).
    assert (PX : Permutation xs ts).
    { rewrite <- (map_fst_combine xs zs LEN), <- (map_fst_combine ts ys HL). now apply Permutation_map. }
    destruct (fn_new log_linear_rate_scheme xs zs) as [f'|] eqn:EF; [|discriminate]. cbn [bind] in EU.
    apply (f_equal (fun z => match z with Ok b => fst b | Err _ => f end)) in EU. cbv beta iota in EU. cbn [fst] in EU. subst f'.
    pose proof (combine_same _ _ _ _ PM) as SM.
    destruct (factor_returns lib eta M T gap xs zs f ER H0 LW T0) with (x := t) as (y & CY); auto.
    - unfold double_data. split; [|split; [|split; [|split]]]; auto.
      + intros ->. apply Permutation_nil in PX. congruence.
      + eapply Permutation_NoDup; [|exact ND]. apply Permutation_map. now symmetry.
    - intros a I. apply BT. eapply Permutation_in; eauto.
    - destruct NZ as (a & I & N). exists a. split; auto. eapply Permutation_in; [symmetry; exact PX|auto].
    - intros a b I. apply BM. now apply SM.
    - intros a b Ia Ib. apply GG; eapply Permutation_in; eauto.
    - split; auto.
    - intros Z. destruct (AZ Z) as (t0 & I0 & Z0). exists t0. split; auto. eapply Permutation_in; [symmetry; exact PX|auto].
    - exists (SFadd 53 1024 y f64_zero).
      cbn [rc_call bind]. unfold dc_val, dc_call. cbn [dc_fix assoc]. unfold dc_time, dc_origin. cbn [dc_origin0 dc_domain].
      rewrite OR. unfold dc_yf. cbn [dc_count]. rewrite Ht. cbn [bind dc_fn]. change (LRound12.n64p lib) with n64v in CY. rewrite CY. reflexivity.
  Qed.

  (** on a DiscountFactorCurve made of dates and factors (at most 100), see C105_present_value
      for the error; a flow at time zero needs a factor at time zero *)
  Theorem C105_returns : forall eps eta M T gap ds rs ts origin count tenor n flr h i k disc o c amounts,
    0 <= eps <= 1 -> exp_within lib eps -> exp_returns lib -> 0 <= eta -> log_within lib eta -> 0 <= T ->
    rc_new CDiscountFactor ds rs None origin count tenor = Ok disc -> rc_origin disc = Some o -> d_is o o = true ->
    Forall2 (fun d t => rc_yf disc o d = Ok t) ds ts -> double_data ts rs -> (forall r, In r rs -> float_value r <= 100) ->
    (forall t, In t ts -> Rabs (float_value t) <= powerRZ 2 500) -> (exists t, In t ts /\ float_value t <> 0) ->
    (forall t y, In (t, y) (float_points ts rs) -> t <> 0 -> Rabs (ln y / t) <= M) ->
    0 < gap -> (forall a b, In a ts -> In b ts -> float_value a < float_value b -> gap <= float_value b - float_value a) ->
    let kappa := (eta + rounding_unit * (1 + eta)) * M + tiny in M + kappa <= powerRZ 2 500 ->
    let delta := 15 * rounding_unit * (M + kappa) + 2 * tiny * (1 + / gap) + kappa in (M + delta) * T <= 600 ->
    nth_error (h_curves h) k = Some disc -> seen_at h o i c ->
    Forall2 (fun d a => cf_get (1 + n) flr c d = Ok a) (filter (fun d => d_leb o d) (cf_domain c)) amounts ->
    (forall d, In d (filter (fun d => d_leb o d) (cf_domain c)) ->
       exists t, rc_yf disc o d = Ok t /\ is_double t /\ finite_float t /\ Rabs (float_value t) <= T /\
         (float_value t = 0 -> exists t0, In t0 ts /\ float_value t0 = 0)) ->
    doubles_below 70 amounts -> (Z.of_nat (length amounts) <= 2 ^ 50)%Z ->
    exists x, get_present_value (1 + n) flr (PrList i) k (Some o) h = (Ok x, h) /\ is_double x /\ finite_float x.
  Proof.
    intros eps eta M T gap ds rs ts origin count tenor n flr h i k disc o c am E0 EW ER H0 LW T0 HN OR IO FT DD B100 BT NZ BM G0 GG kappa BK delta BQ Hk SA F2 TM B2 LN.
    pose proof u_pos as U0. pose proof tiny_pos as TP.
    assert (CL : rc_cls disc = CDiscountFactor).
    { unfold rc_new in HN. change (prepare_data CDiscountFactor rs) with (Ok rs) in HN. cbn [bind] in HN.
      destruct (dc_new (cls_interp CDiscountFactor) ds rs None origin count); [|discriminate]. cbn [bind] in HN.
      apply (f_equal (fun z => match z with Ok b => rc_cls b | Err _ => CDiscountFactor end)) in HN. exact (eq_sym HN). }
    pose proof (factor_call eta M T gap CDiscountFactor ds rs rs ts origin count tenor disc o ER eq_refl eq_refl H0 LW T0 HN OR FT DD BT NZ BM G0 GG BK BQ) as RC.
    pose proof (C105_factors lib DS DC eps eta M T gap CDiscountFactor ds rs rs ts origin count tenor disc o eq_refl eq_refl (proj1 E0) EW H0 LW T0 HN OR FT DD BT NZ BM G0 GG BK BQ) as RT.
    fold kappa in RT. fold delta in RT.
    assert (M0 : 0 <= M).
    { destruct DD as (_ & _ & LE & _ & _). destruct NZ as (t & I & N).
      assert (J : exists y, In (float_value t, y) (float_points ts rs)).
      { unfold float_points. clear -I LE. revert rs LE. induction ts as [|a ts IH]; intros [|b rs] LE; try discriminate; [destruct I|].
        cbn [map combine]. destruct I as [->|I]; [eexists; now left|]. destruct (IH I rs) as (y & J); [now injection LE|]. exists y. now right. }
      destruct J as (y & J). eapply Rle_trans; [apply Rabs_pos|exact (BM _ _ J N)]. }
    assert (K0 : 0 <= kappa).
    { unfold kappa. apply Rplus_le_le_0_compat; [|lra]. apply Rmult_le_pos; [|lra]. assert (0 <= rounding_unit * (1 + eta)) by (apply Rmult_le_pos; lra). lra. }
    assert (D0 : 0 <= delta).
    { assert (0 < / gap) by now apply Rinv_0_lt_compat. unfold delta. assert (0 <= rounding_unit * (M + kappa)) by (apply Rmult_le_pos; lra).
      assert (0 <= tiny * (1 + / gap)) by (apply Rmult_le_pos; lra). lra. }
    assert (DT : 0 <= delta * T) by (apply Rmult_le_pos; lra). assert (MT : 0 <= M * T) by (apply Rmult_le_pos; lra).
    assert (G : exists dfs, Forall2 (fun d df => get_discount_factor (1 + n) disc o d = Ok df) (filter (fun d => d_leb o d) (cf_domain c)) dfs /\
                  doubles_below 900 dfs).
    { clear F2 SA. induction (filter _ _) as [|d l IH]; [exists []; split; constructor|]. destruct IH as (dfs & I1 & I2); [intros; apply TM; now right|].
      destruct (TM d (or_introl eq_refl)) as (t & Ht & Dt & Ft & Bt & AZ). destruct (RC d t Ht Dt Ft Bt AZ) as [r Hr].
      destruct (RT d t r Ht Dt Ft Bt Hr) as (A1 & A2 & e & A3 & A4 & A5).
      exists (r :: dfs). split; constructor; auto.
      { unfold get_discount_factor, interest_only. rewrite CL. cbn [is_interest]. cbn [plus factor]. rewrite CL. unfold at_origin. rewrite OR, IO. exact Hr. }
      split; [exact A1|]. split; [exact A2|].
      assert (X0 : e <= exp (M * T) * exp 5).
      { pose proof exp_5 as E5.
        pose proof (exp_mono 0 (M * T) MT) as Q0. rewrite exp_0 in Q0.
        destruct A3 as [[Z J]|(NZt & z & PL & ->)].
        - assert (e <= 100). { unfold float_points in J. apply in_combine_r in J. apply in_map_iff in J. destruct J as (r' & <- & J). now apply B100. }
          nra.
        - assert (Rabs z <= M).
          { apply (pl_bound _ _ _ M PL). intros a b I. unfold transform in I. apply in_map_iff in I. destruct I as ([a' b'] & Eab & I).
            cbn [fst snd] in Eab. injection Eab as <- <-. unfold without_zero in I. apply filter_In in I. destruct I as [I TR]. cbn [fst] in TR.
            apply BM; auto. destruct (Req_EM_T a' 0); [discriminate|auto]. }
          assert (z * float_value t <= M * T).
          { eapply Rle_trans; [apply Rle_abs|]. rewrite Rabs_mult. apply Rmult_le_compat; auto using Rabs_pos. }
          pose proof (exp_mono _ _ H1) as Q1. pose proof (exp_pos (z * float_value t)). nra. }
      assert (X2 : exp (rounding_unit * ((M + delta) * T) + tiny + delta * T) <= exp 1 * exp (delta * T)).
      { rewrite <- exp_plus. apply exp_mono. pose proof u_small. pose proof tiny_lt_u. 
        assert (rounding_unit * ((M + delta) * T) <= / 1000 * 600) by (apply Rmult_le_compat; lra). lra. }
      assert (X3 : 1 + eps <= exp 1) by (pose proof (exp_ineq1_le 1); lra).
      set (m := rounding_unit * ((M + delta) * T) + tiny + delta * T) in *. pose proof (exp_pos m) as P1.
      apply Rle_trans with (e * ((1 + eps) * exp m)).
      { replace (float_value r) with ((float_value r - e) + e) by ring. eapply Rle_trans; [apply Rabs_triang|].
        rewrite (Rabs_right e) by lra. lra. }
      apply Rle_trans with (exp (M * T) * exp 5 * (exp 1 * (exp 1 * exp (delta * T)))).
      - apply Rmult_le_compat; try lra; [apply Rmult_le_pos; lra|]. apply Rmult_le_compat; lra.
      - rewrite <- !exp_plus. eapply Rle_trans; [apply (exp_mono _ 620); lra|]. eapply Rle_trans; [apply exp_middle|]. apply small_pow. lia. }
    destruct G as (dfs & F1 & B1).
    destruct (C97_returns (1 + n) flr h i k disc o c dfs am Hk SA F1 F2 B1 B2 LN) as (x & E & Dx & Fx & _). exists x. auto.
  Qed.
End Returns.
Print Assumptions C97_returns.
Print Assumptions C99_returns.
Print Assumptions C102_returns.
Print Assumptions C105_returns.

(** instance: 100 and -200 at times 1 and 4 on ZeroRateCurve([0, 2], [0.5, 0.25]), with a math.exp
    that is accurate to 1e-15: there is a present value, and it misses
    100 exp(-0.375) - 200 exp(-1) by less than 1e-11 *)
Section Case.
  #[local] Instance n64u : Num float64 := f64 good_libm.
  #[local] Instance no_registry_r : DayCounts float64 float64 := [].
  Example C99_returns_instance : exists l disc x,
    fixed_new [f64_ofZ 1; f64_ofZ 4] (Many [f64_ofZ 100; f64_ofZ (-200)]) (Some f64_zero) = Ok l /\
    rc_new CZeroRate [f64_zero; f64_ofZ 2] [f64_ratio 1 2; f64_ratio 1 4] None None DcDefault None = Ok disc /\
    get_present_value 2 None (PrList 0) 0 (Some f64_zero) (mkH [disc] [] [mkHL l HNone]) = (Ok x, mkH [disc] [] [mkHL l HNone]) /\
    finite_float x /\ Rabs (float_value x - (100 * exp (- (3 / 8)) - 200 * exp (- (1)))) <= 1 / 10 ^ 11.
  Proof.
    assert (V : float_value (f64_ofZ 4) = 4 /\ float_value (f64_ofZ 100) = 100 /\ float_value (f64_ofZ (-200)) = -200 /\
                float_value (f64_ratio 1 4) = 1 / 4 /\ float_value (f64_ratio 3 8) = 3 / 8).
    { repeat split.
      - assert (E : f64_ofZ 4 = S754_finite false 4503599627370496 (-50)) by (vm_compute; reflexivity). rewrite E. unfold float_value. simpl. lra.
      - assert (E : f64_ofZ 100 = S754_finite false 7036874417766400 (-46)) by (vm_compute; reflexivity). rewrite E. unfold float_value. simpl. lra.
      - assert (E : f64_ofZ (-200) = S754_finite true 7036874417766400 (-45)) by (vm_compute; reflexivity). rewrite E. unfold float_value. simpl. lra.
      - assert (E : f64_ratio 1 4 = S754_finite false 4503599627370496 (-54)) by (vm_compute; reflexivity). rewrite E. unfold float_value. simpl. lra.
      - assert (E : f64_ratio 3 8 = S754_finite false 6755399441055744 (-54)) by (vm_compute; reflexivity). rewrite E. unfold float_value. simpl. lra. }
    destruct V as (V4 & V100 & V200 & Vq & V38). destruct good_exp as [EW ER].
    assert (SH : forall X (A B : Prop) (C : X -> Prop), A -> B -> (exists x, C x) -> exists x, A /\ B /\ C x) by (intros X A B C HA HB [y HC]; eauto).
    eexists. eexists. apply SH; [reflexivity|reflexivity|]. clear SH.
    match goal with |- context [mkH [?d] [] [mkHL ?l HNone]] => set (disc := d); set (lst := l) end.
    assert (P0 : (1 <= 2 ^ 50)%Z) by lia.
    destruct (C99_returns good_libm FloatDates no_registry_r (1 / 10 ^ 15) 1 0 None (mkH [disc] [] [mkHL lst HNone]) 0 0 disc f64_zero lst
                [f64_ofZ 100; f64_ofZ (-200)] [3 / 8; 1]) as (x & E & Dx & Fx & B).
    - lra.
    - exact EW.
    - exact ER.
    - lra.
    - reflexivity.
    - reflexivity.
    - reflexivity.
    - reflexivity.
    - eexists. eexists. split; [reflexivity|]. split; [|reflexivity]. reflexivity.
    - constructor; [vm_compute; reflexivity|]. constructor; [vm_compute; reflexivity|constructor].
    - constructor; [|constructor; [|constructor]].
      + split; [|apply Rabs_le; lra]. right. split; [reflexivity|]. exists (f64_ratio 3 8), (f64_ofZ 1).
        split; [vm_compute; reflexivity|]. split; [vm_compute; reflexivity|]. rewrite V38, one_value.
        repeat split; try apply one_double; try apply one_finite. lra.
      + split; [|apply Rabs_le; lra]. right. split; [reflexivity|]. exists (f64_ratio 1 4), (f64_ofZ 4).
        split; [vm_compute; reflexivity|]. split; [vm_compute; reflexivity|]. rewrite Vq, V4. repeat split. lra.
    - assert (B70 : 200 <= powerRZ 2 70) by (change (powerRZ 2 70) with (2 ^ 70); lra).
      constructor; [|constructor; [|constructor]].
      + split; [reflexivity|]. split; [exact Logic.I|]. rewrite V100. apply Rabs_le. lra.
      + split; [reflexivity|]. split; [exact Logic.I|]. rewrite V200. apply Rabs_le. lra.
    - exact P0.
    - exists x. split; [exact E|]. split; [exact Fx|].
      cbn [combine map fst snd length] in B. rewrite V100, V200 in B. unfold total_abs, total in B. cbn [map fold_right] in B.
      match type of B with Rabs (_ - ?t) <= _ => replace t with (100 * exp (- (3 / 8)) - 200 * exp (- (1))) in B by (cbv [IZR]; ring) end.
      eapply Rle_trans; [exact B|]. clear B E.
      assert (X1 : Rabs (exp (- (3 / 8)) * 100) <= 100).
      { pose proof (exp_pos (- (3 / 8))). pose proof (exp_mono (- (3 / 8)) 0 ltac:(lra)) as Q. rewrite exp_0 in Q. rewrite Rabs_right; lra. }
      assert (X2 : Rabs (exp (- (1)) * -200) <= 200).
      { pose proof (exp_pos (- (1))). pose proof (exp_mono (- (1)) 0 ltac:(lra)) as Q. rewrite exp_0 in Q. rewrite Rabs_left; lra. }
      pose proof (Rabs_pos (exp (- (3 / 8)) * 100)) as Y1. pose proof (Rabs_pos (exp (- (1)) * -200)) as Y2.
      set (a1 := Rabs _) in *. set (a2 := Rabs (exp (- (1)) * -200)) in *.
      assert (U : rounding_unit <= 2 / 10 ^ 16) by (unfold rounding_unit; lra). pose proof u_pos as U0. pose proof tiny_pos as T0. pose proof tiny_lt_u as T1.
      assert (X3 : exp (rounding_unit * 1 + tiny) <= 1 + 1 / 10 ^ 15).
      { set (z := rounding_unit * 1 + tiny). assert (Z : 0 <= z <= 4 / 10 ^ 16) by (unfold z; lra).
        pose proof (exp_ineq1_le (- z)) as I1. rewrite exp_Ropp in I1. pose proof (exp_pos z) as P.
        apply Rle_trans with (/ (1 - 4 / 10 ^ 16)); [|lra]. rewrite <- (Rinv_inv (exp z)). apply Rinv_le_contravar; lra. }
      pose proof (exp_pos (rounding_unit * 1 + tiny)) as P3. set (e1 := exp (rounding_unit * 1 + tiny)) in *. clearbody a1 a2 e1.
      set (u := rounding_unit) in *. set (ty := tiny) in *. clearbody u ty.
      assert (S1 : (1 + u) ^ 2 <= 1 + 1 / 10 ^ 15) by (cbn [pow]; nra).
      assert (S2 : (1 + u) ^ 2 * (1 + 1 / 10 ^ 15) * e1 <= 1 + 1 / 10 ^ 14).
      { apply Rle_trans with ((1 + 1 / 10 ^ 15) * (1 + 1 / 10 ^ 15) * (1 + 1 / 10 ^ 15)); [|lra].
        assert (0 <= (1 + u) ^ 2) by (apply pow_le; lra). apply Rmult_le_compat; try lra. }
      apply Rle_trans with (1 / 10 ^ 14 * 300 + 4 * ty); [|lra].
      apply Rplus_le_compat.
      + apply Rle_trans with (1 / 10 ^ 14 * (a1 + (a2 + 0))); [apply Rmult_le_compat_r; lra|]. apply Rmult_le_compat_l; lra.
      + cbn [INR]. apply Rmult_le_compat_r; [lra|]. simpl. nra.
  Qed.
End Case.

(** instance: 100 at time 1 on DiscountFactorCurve([0, 1], [1.0, 0.36788]), with the accurate
    math.exp and the math.log of [poor_log]: there is a present value *)
Definition half_libm : libm := mkLibm (lm_exp good_libm) (lm_log poor_log) (lm_pow poor_log) (lm_round7 poor_log).
Section Case105.
  #[local] Instance n64t : Num float64 := f64 half_libm.
  #[local] Instance no_registry_s : DayCounts float64 float64 := [].
  Example C105_returns_instance : exists l disc x,
    fixed_new [f64_ofZ 1] (Many [f64_ofZ 100]) (Some (f64_ofZ 0)) = Ok l /\
    rc_new (DS := FloatDates) CDiscountFactor [f64_ofZ 0; f64_ofZ 1] [f64_ofZ 1; f64_ratio 36788 100000] None None DcDefault None = Ok disc /\
    get_present_value 1 None (PrList 0) 0 (Some (f64_ofZ 0)) (mkH [disc] [] [mkHL l HNone]) = (Ok x, mkH [disc] [] [mkHL l HNone]) /\
    finite_float x.
  Proof.
    destruct C105_instance as (l0 & disc0 & _ & _ & LW & _ & _ & _ & _ & DD & NZ & BM & GG & (K1 & K2) & _ & _).
    assert (SH : forall X (A B : Prop) (C : X -> Prop), A -> B -> (exists x, C x) -> exists x, A /\ B /\ C x) by (intros X A B C HA HB [y HC]; eauto).
    eexists. eexists. apply SH; [reflexivity|reflexivity|]. clear SH.
    match goal with |- context [mkH [?d] [] [mkHL ?l HNone]] => set (disc := d); set (lst := l) end.
    destruct (C105_returns half_libm FloatDates no_registry_s (1 / 10 ^ 15) (1 / 10) (11 / 10) 1 1 [f64_ofZ 0; f64_ofZ 1] [f64_ofZ 1; f64_ratio 36788 100000]
                [f64_ofZ 0; f64_ofZ 1] None DcDefault None 0 None (mkH [disc] [] [mkHL lst HNone]) 0 0 disc (f64_ofZ 0) lst [f64_ofZ 100]) as (x & E & Dx & Fx).
    - lra.
    - exact (proj1 good_exp).
    - exact (proj2 good_exp).
    - lra.
    - exact LW.
    - lra.
    - reflexivity.
    - reflexivity.
    - reflexivity.
    - constructor; [reflexivity|]. constructor; [reflexivity|constructor].
    - exact DD.
    - pose proof (proj1 near_e1) as Q. intros r [<-|[<-|[]]]; [rewrite one_value; lra|]. rewrite Q. lra.
    - assert (1 <= powerRZ 2 500) by (apply Rle_trans with (powerRZ 2 0); [simpl; lra|now apply small_pow]).
      intros t [<-|[<-|[]]]; [change (float_value (f64_ofZ 0)) with 0; rewrite Rabs_R0; lra|rewrite one_value, Rabs_R1; lra].
    - exact NZ.
    - exact BM.
    - lra.
    - exact GG.
    - exact K1.
    - exact K2.
    - reflexivity.
    - eexists. eexists. split; [reflexivity|]. split; reflexivity.
    - constructor; [vm_compute; reflexivity|constructor].
    - intros d [<-|[]]. exists (f64_ofZ 1). split; [vm_compute; reflexivity|]. split; [apply one_double|]. split; [apply one_finite|].
      rewrite one_value, Rabs_R1. split; [lra|]. intros Z. lra.
    - assert (V100 : float_value (f64_ofZ 100) = 100).
      { assert (E : f64_ofZ 100 = S754_finite false 7036874417766400 (-46)) by (vm_compute; reflexivity). rewrite E. unfold float_value. simpl. lra. }
      constructor; [|constructor]. split; [reflexivity|]. split; [exact Logic.I|]. rewrite V100, Rabs_right by lra.
      change (powerRZ 2 70) with (2 ^ 70). lra.
    - cbn [length]. lia.
    - exists x. split; [exact E|exact Fx].
  Qed.
End Case105.
