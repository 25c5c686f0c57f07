(** Properties C51-C57 and C69: option payoff models. *)
From Coq Require Import Reals ZArith List Bool Lra Lia.
From Verif Require Import Num Py MDates MCurve MRateCurve MOption SDates SOption LBase LDates LOption.
Import ListNotations.
Open Scope R_scope.

(** * C52: the normal distribution *)

(** positive, even, maximal at zero *)
Theorem C52_density : forall x, exists y y0,
  normal_pdf x = Ok y /\ normal_pdf (- x) = Ok y /\ normal_pdf 0 = Ok y0 /\
  0 < y <= y0 /\ (x <> 0 -> y < y0).
Proof.
  intros x. exists (phi x), (phi 0). rewrite !pdf_ok, phi_even. repeat split; auto.
  - apply phi_pos.
  - rewrite phi_zero. apply phi_max.
  - intros N. destruct (Rlt_dec 0 x).
    + apply phi_decr; lra.
    + rewrite <- phi_even. apply phi_decr; lra.
Qed.
Print Assumptions C52_density.

(** strictly between 0 and 1 and strictly increasing *)
Theorem C52_distribution : forall x y a b,
  normal_cdf x = Ok a -> normal_cdf y = Ok b ->
  0 < a < 1 /\ (x < y -> a < b).
Proof.
  intros x y a b A B. rewrite cdf_ok in A, B. injection A as <-. injection B as <-.
  split; [apply Phi_range | apply Phi_incr].
Qed.
Print Assumptions C52_distribution.

(** never raises *)
Theorem C52_total : forall x, exists a, normal_cdf x = Ok a.
Proof. intros x. rewrite cdf_ok. eauto. Qed.
Print Assumptions C52_total.

Theorem C52_symmetric : forall x, x <> 0 -> exists a b,
  normal_cdf x = Ok a /\ normal_cdf (- x) = Ok b /\ a + b = 1.
Proof. intros x N. rewrite !cdf_ok. do 2 eexists. repeat split. apply Phi_sym; auto. Qed.
Print Assumptions C52_symmetric.

(** at zero the symmetry fails: the distribution function is not 1/2 there *)
Theorem C52_zero_refuted : exists a, normal_cdf 0 = Ok a /\
  1/2 + 4 / 10 ^ 10 < a < 1/2 + 6 / 10 ^ 10 /\ a + a <> 1.
Proof.
  exists (Phi 0). rewrite cdf_ok, Phi_nonneg, as_tail_zero by lra.
  pose proof cpi_Pl_one. repeat split; lra.
Qed.
Print Assumptions C52_zero_refuted.

(** the tails vanish *)
Theorem C52_tails : forall eps, 0 < eps -> exists r, forall x a,
  normal_cdf x = Ok a -> (x <= - r -> a < eps) /\ (r <= x -> 1 - eps < a).
Proof.
  assert (B : forall x, 0 <= x -> as_tail x < exp (- (x * x) / 2)).
  { intros x H. rewrite as_tail_eq. unfold phi. pose proof (exp_pos (- (x * x) / 2)).
    assert (Pl (tt_ x) <= Pl 1).
    { destruct H as [H | <-]; [|rewrite tt_zero; lra]. left. apply Pl_incr.
      rewrite <- tt_zero. apply tt_decr; lra. }
    pose proof cpi_Pl_one. pose proof (Pl_pos _ (tt_pos x H)). unfold cpi in *. nra. }
  intros eps He. exists (2 / eps). intros x a A. rewrite cdf_ok in A. injection A as <-.
  assert (C : forall y, 2 / eps <= y -> as_tail y < eps).
  { intros y Hy. assert (0 < 2 / eps) by (apply Rdiv_lt_0_compat; lra).
    apply Rlt_le_trans with (exp (- (y * y) / 2)); [apply B; lra|].
    replace (- (y * y) / 2) with (- (y * y / 2)) by field. rewrite exp_Ropp.
    assert (1 + y * y / 2 < exp (y * y / 2)) by (apply exp_ineq1; nra).
    assert (2 <= y * eps).
    { apply (Rmult_le_compat_r eps) in Hy; [|lra]. unfold Rdiv in Hy. rewrite Rmult_assoc, Rinv_l in Hy by lra. lra. }
    assert (/ exp (y * y / 2) <= / (1 + y * y / 2)) by (apply Rinv_le_contravar; nra).
    assert (/ (1 + y * y / 2) <= eps).
    { apply (Rmult_le_reg_r (1 + y * y / 2)); [nra|]. rewrite Rinv_l by nra. nra. }
    lra. }
  assert (0 < 2 / eps) by (apply Rdiv_lt_0_compat; lra).
  split; intros Hx.
  - rewrite Phi_neg by lra. apply C. lra.
  - rewrite Phi_nonneg by lra. pose proof (C x Hx). lra.
Qed.
Print Assumptions C52_tails.

Section Options.
  Context {D P : Type} (DS : DateSys R D P) (DC : DayCounts R D) (DN : DateNum R D).
  Implicit Types (m : omodel R D P) (d : D).

  (** * C69: what a model sees of the market *)
  (** a given strike is used as it is, without strike the option is at the money *)
  Theorem C69_strike : forall fuel flr m d strike F K v t,
    market fuel flr m d strike F K v t ->
    match strike with Some k => K = k | None => K = F end.
  Proof.
    intros fuel flr m d strike F K v t (ov & E & _). unfold om_details in E.
    destruct (fw_value fuel (om_forward m) d) as [[f|]|]; cbn [bind] in E; try discriminate;
    destruct (vo_value fuel flr (om_vol m) d); cbn [bind] in E; try discriminate;
    destruct (om_time m d); cbn [bind] in E; try discriminate.
    injection E as <- <- <- <-. destruct strike; auto.
  Qed.

  (** forward, volatility and time come from the sources of the model: numbers are taken
      as they are, curves are asked for forward price, cash rate resp. terminal
      volatility at the expiry date, functions are called; the time to expiry is measured
      by the model's day count, else the volatility curve's, else the forward curve's,
      else the default one *)
  Theorem C69_sources : forall fuel flr m d strike F K v t,
    market fuel flr m d strike F K v t ->
    (match om_forward m with
     | FwNone => False
     | FwNum x => F = x /\ x <> 0
     | FwPrice c => fc_price c d = Ok F
     | FwRate c =>
         match rc_cls c with
         | CDiscountFactor | CZeroRate | CShortRate | CCashRate => get_cash_rate fuel c d None None = Ok F
         | _ => rc_call c d = Ok F
         end
     | FwDate c => dc_val c d = Ok F
     | FwFun f => f d = Ok F
     end) /\
    (match om_vol m with
     | VoNone => v = 0
     | VoNum x => v = x
     | VoRate c =>
         match rc_cls c with
         | CInstVol | CTermVol => terminal_vol fuel flr c d None = Ok v
         | _ => rc_call c d = Ok v
         end
     | VoDate c => dc_val c d = Ok v
     | VoFun f => f d = Ok v
     end) /\
    exists val, om_valuation m = Some val /\
    match om_count m, om_vol m, om_forward m with
    | Some f, _, _ => f val d = Ok t
    | None, VoRate c, _ => rc_yf c val d = Ok t
    | None, VoDate c, _ => dc_yf c val d = Ok t
    | None, _, FwPrice c => dc_yf (fc_dc c) val d = Ok t
    | None, _, FwRate c => rc_yf c val d = Ok t
    | None, _, FwDate c => dc_yf c val d = Ok t
    | None, _, _ => d_yf val d = Ok t
    end.
  Proof.
    intros fuel flr m d strike F K v t (ov & E & V). unfold om_details in E.
    destruct (fw_value fuel (om_forward m) d) as [f|] eqn:EF; cbn [bind] in E; [|discriminate].
    destruct (vo_value fuel flr (om_vol m) d) as [w|] eqn:EV; cbn [bind] in E; [|discriminate].
    destruct (om_time m d) as [s|] eqn:ET; cbn [bind] in E; [|discriminate].
    injection E as -> _ -> ->. repeat split.
    - destruct (om_forward m); cbn [fw_value rmap] in EF; try discriminate.
      + destruct (ntruthy x) eqn:Z; [|discriminate]. injection EF as ->. split; auto.
        unfold ntruthy in Z. rn. rbool. auto.
      + destruct (fc_price c d); [|discriminate]. cbn [rmap] in EF. congruence.
      + destruct (rc_cls c); cbn [is_interest] in EF;
          match type of EF with rmap _ ?x = _ => destruct x end; try discriminate EF; cbn [rmap] in EF; congruence.
      + destruct (dc_val c d); [|discriminate]. cbn [rmap] in EF. congruence.
      + destruct (f d); [|discriminate]. cbn [rmap] in EF. congruence.
    - destruct (om_vol m); cbn [vo_value rmap] in EV.
      + injection EV as <-. destruct V as [V | [_ V]]; [discriminate|auto].
      + destruct (ntruthy x) eqn:Z; injection EV as <-; destruct V as [V | [V V']]; try discriminate.
        * congruence.
        * subst. unfold ntruthy in Z. rn. rbool. auto.
      + destruct (rc_cls c); cbn [is_vol] in EV;
          match type of EV with rmap _ ?x = _ => destruct x end; try discriminate EV;
          cbn [rmap] in EV; injection EV as <-; (destruct V as [V | [V V']]; congruence).
      + destruct (dc_val c d); [|discriminate]. cbn [rmap] in EV.
        injection EV as <-. destruct V as [V | [V V']]; congruence.
      + destruct (f d); [|discriminate]. cbn [rmap] in EV.
        injection EV as <-. destruct V as [V | [V V']]; congruence.
    - unfold om_time in ET. destruct (om_valuation m) as [val|]; [|discriminate].
      exists val. split; auto.
      destruct (om_count m); auto.
      destruct (om_vol m); cbn [vo_count] in ET; auto;
      destruct (om_forward m); cbn [fw_count] in ET; auto.
  Qed.

  (** conversely these sources make a market: two numbers and the default day count *)
  Theorem C69_numbers : forall fuel flr fm c x v val d strike t bump,
    x <> 0 -> d_yf val d = Ok t ->
    market fuel flr (mkOM fm c (Some val) (FwNum x) (VoNum v) None bump) d strike
           x (match strike with Some k => k | None => x end) v t.
  Proof.
    intros fuel flr fm c x v val d strike t bump N E. unfold market, om_details, om_time.
    cbn [om_forward om_vol om_valuation om_count fw_value vo_value vo_count fw_count].
    rewrite truthy_ne by auto. cbn [bind]. rewrite E. cbn [bind].
    destruct (Req_EM_T v 0) as [-> | Nv].
    - rewrite truthy_0. exists None. split; auto.
    - rewrite truthy_ne by auto. exists (Some v). split; auto.
  Qed.

  (** the number zero is not accepted as a forward: the model raises *)
  Theorem C69_zero_forward_refuted : forall fuel flr fm c v val d strike bump t,
    d_yf val d = Ok t ->
    get_call_value fuel flr (mkOM fm c (Some val) (FwNum 0) (VoNum v) None bump) d strike
    = Err TypeError /\
    get_put_value fuel flr (mkOM fm c (Some val) (FwNum 0) (VoNum v) None bump) d strike
    = Err TypeError.
  Proof.
    intros. unfold get_call_value, get_put_value, om_details, om_time.
    cbn [om_forward om_vol om_valuation om_count fw_value vo_value vo_count fw_count].
    rewrite truthy_0. cbn [bind]. rewrite H. cbn [bind od_forward number]. auto.
  Qed.

  (** * C51: put call parity, for every model *)
  Theorem C51_parity : forall fuel flr m d strike F K v t,
    market fuel flr m d strike F K v t ->
    (forall c p, get_call_value fuel flr m d strike = Ok c ->
                 get_put_value fuel flr m d strike = Ok p -> c - p = F - K) /\
    (forall e, get_call_value fuel flr m d strike = Err e <->
               get_put_value fuel flr m d strike = Err e).
  Proof.
    intros fuel flr m d strike F K v t M.
    destruct (Req_dec v 0) as [Z | Nv]; [|destruct (Req_dec t 0) as [Z | Nt]].
    1,2: destruct (value_dead _ _ _ _ _ _ _ _ _ M) as [E1 E2]; [unfold no_time_value; auto|];
      rewrite E1, E2; split; [|intros; split; discriminate];
      intros c p [= <-] [= <-]; unfold Rmax; destruct (Rle_dec (F - K) 0), (Rle_dec (K - F) 0); lra.
    destruct (value_live _ _ _ _ _ _ _ _ _ M Nv Nt) as [E1 E2]. rewrite E1, E2.
    destruct (call_price (om_formula m) t K F v); cbn [bind]; split; try discriminate.
    - intros c p [= <-] [= <-]. lra.
    - intros; split; discriminate.
    - intros e'. split; auto.
  Qed.

  (** * C53: bounds *)
  (** without time value the values are the intrinsic ones, for every model *)
  Theorem C53_no_time_value : forall fuel flr m d strike F K v t,
    market fuel flr m d strike F K v t -> no_time_value v t ->
    get_call_value fuel flr m d strike = Ok (Rmax (F - K) 0) /\
    get_put_value fuel flr m d strike = Ok (Rmax (K - F) 0).
  Proof. intros. eapply value_dead; eauto. Qed.

  Theorem C53_intrinsic : forall fuel flr m d strike F K v t,
    om_formula m = FIntrinsic -> market fuel flr m d strike F K v t ->
    get_call_value fuel flr m d strike = Ok (Rmax (F - K) 0) /\
    get_put_value fuel flr m d strike = Ok (Rmax (K - F) 0).
  Proof.
    intros fuel flr m d strike F K v t C M.
    destruct (Req_dec v 0) as [Z | Nv]; [|destruct (Req_dec t 0) as [Z | Nt]].
    1,2: eapply value_dead; eauto; unfold no_time_value; auto.
    destruct (value_live _ _ _ _ _ _ _ _ _ M Nv Nt) as [E1 E2]. rewrite E1, E2, C.
    cbn [call_price bind]. rewrite nmax_R. rn. split; auto. f_equal.
    unfold Rmax; destruct (Rle_dec (F - K) 0), (Rle_dec (K - F) 0); lra.
  Qed.

  (** a Black 76 call is worth more than its intrinsic value and less than the forward *)
  Theorem C53_black : forall fuel flr m d strike F K v t,
    om_formula m = FLogNormal -> market fuel flr m d strike F K v t ->
    0 < F -> 0 < K -> 0 < v -> 0 < t ->
    exists c p, get_call_value fuel flr m d strike = Ok c /\
                get_put_value fuel flr m d strike = Ok p /\
                c = black_call t K F v /\
                Rmax (F - K) 0 < c < F /\ Rmax (K - F) 0 < p < K.
  Proof.
    intros fuel flr m d strike F K v t C M HF HK Hv Ht.
    destruct (value_live _ _ _ _ _ _ _ _ _ M) as [E1 E2]; try lra.
    rewrite E1, E2, C. cbn [call_price].
    rewrite black_price_ok; auto; try lra. 2:{ apply Rdiv_lt_0_compat; auto. }
    cbn [bind]. do 2 eexists. do 3 (split; [reflexivity|]).
    pose proof (black_lower t K F v Ht Hv HK HF) as B. split; auto.
    destruct B as [B B']. revert B. unfold Rmax.
    destruct (Rle_dec (F - K) 0), (Rle_dec (K - F) 0); lra.
  Qed.

  Theorem C53_displaced : forall fuel flr m d strike F K v t a,
    om_formula m = FDisplaced a -> market fuel flr m d strike F K v t ->
    0 < F + a -> 0 < K + a -> 0 < v -> 0 < t ->
    exists c p, get_call_value fuel flr m d strike = Ok c /\
                get_put_value fuel flr m d strike = Ok p /\
                Rmax (F - K) 0 < c < F + a /\ Rmax (K - F) 0 < p < K + a.
  Proof.
    intros fuel flr m d strike F K v t a C M HF HK Hv Ht.
    destruct (value_live _ _ _ _ _ _ _ _ _ M) as [E1 E2]; try lra.
    rewrite E1, E2, C. cbn [call_price]. rn.
    rewrite black_price_ok; auto; try lra. 2:{ apply Rdiv_lt_0_compat; auto. }
    cbn [bind]. do 2 eexists. do 2 (split; [reflexivity|]).
    pose proof (black_lower t (K + a) (F + a) v Ht Hv HK HF) as B.
    replace (F + a - (K + a)) with (F - K) in B by ring. split; auto.
    destruct B as [B B']. revert B. unfold Rmax.
    destruct (Rle_dec (F - K) 0), (Rle_dec (K - F) 0); lra.
  Qed.

  (** Bachelier: holds up to 8.6 standard deviations from the money *)
  Theorem C53_bachelier_partial : forall fuel flr m d strike F K v t,
    om_formula m = FNormal -> market fuel flr m d strike F K v t ->
    0 < v -> 0 < t -> Rabs (F - K) <= 86/10 * (v * sqrt t) ->
    exists c p, get_call_value fuel flr m d strike = Ok c /\
                get_put_value fuel flr m d strike = Ok p /\
                c = bachelier_call t K F v /\
                Rmax (F - K) 0 < c /\ Rmax (K - F) 0 < p.
  Proof.
    intros fuel flr m d strike F K v t C M Hv Ht A.
    destruct (value_live _ _ _ _ _ _ _ _ _ M) as [E1 E2]; try lra.
    rewrite E1, E2, C. cbn [call_price]. rewrite normal_price_ok by (auto; lra).
    cbn [bind]. do 2 eexists. do 3 (split; [reflexivity|]).
    pose proof (bach_lower t K F v Ht Hv A) as B. split; auto.
    revert B. unfold Rmax.
    destruct (Rle_dec (F - K) 0), (Rle_dec (K - F) 0); lra.
  Qed.

  (** ... and fails from 8.7 standard deviations on: the option out of the money has a
      negative value *)
  Theorem C53_bachelier_tail_refuted : forall fuel flr m d strike F K v t,
    om_formula m = FNormal -> market fuel flr m d strike F K v t ->
    0 < v -> 0 < t ->
    (F - K <= - (87/10 * (v * sqrt t)) ->
     exists c, get_call_value fuel flr m d strike = Ok c /\ c < 0) /\
    (87/10 * (v * sqrt t) <= F - K ->
     exists p, get_put_value fuel flr m d strike = Ok p /\ p < 0).
  Proof.
    intros fuel flr m d strike F K v t C M Hv Ht.
    destruct (value_live _ _ _ _ _ _ _ _ _ M) as [E1 E2]; try lra.
    rewrite E1, E2, C. cbn [call_price]. rewrite normal_price_ok by (auto; lra).
    cbn [bind]. split; intros A; eexists; (split; [reflexivity|]).
    - apply bach_far_otm; auto.
    - pose proof (bach_far_itm t K F v Ht Hv A). lra.
  Qed.

  (** * C54: greeks *)
  (** greeks of puts follow from those of calls *)
  Theorem C54_put_greeks : forall fuel flr m d strike,
    get_put_delta fuel flr m d strike
    = (x <- get_call_delta fuel flr m d strike ;; Ok (x - delta_scale (om_const m))) /\
    get_put_gamma fuel flr m d strike = get_call_gamma fuel flr m d strike /\
    get_put_vega fuel flr m d strike = get_call_vega fuel flr m d strike /\
    get_put_theta fuel flr m d strike = get_call_theta fuel flr m d strike.
  Proof.
    intros. repeat split. unfold get_put_delta. destruct (get_call_delta fuel flr m d strike); auto.
    cbn [bind]. f_equal. rn. ring.
  Qed.

  (** without time value: the greeks of the payoff *)
  Theorem C54_no_time_value : forall fuel flr m d strike F K v t,
    market fuel flr m d strike F K v t -> no_time_value v t ->
    get_call_delta fuel flr m d strike
      = Ok (if Rlt_dec F K then 0 else delta_scale (om_const m)) /\
    get_put_delta fuel flr m d strike
      = Ok (if Rlt_dec F K then - delta_scale (om_const m) else 0) /\
    get_call_gamma fuel flr m d strike = Ok 0 /\
    get_call_vega fuel flr m d strike = Ok 0 /\
    get_call_theta fuel flr m d strike = Ok 0.
  Proof.
    intros fuel flr m d strike F K v t M Z.
    destruct (market_degenerate _ _ _ _ _ _ _ _ _ M Z) as (ov & E & G).
    unfold get_put_delta, get_call_delta, get_call_gamma, get_call_vega, get_call_theta. rewrite E.
    cbn [bind od_forward number od_strike]. rewrite G. rn. unfold Rltb.
    destruct (Rlt_dec F K); cbn [bind]; repeat split; f_equal; ring.
  Qed.

  (** the bumped delta and gamma are the documented difference quotients *)
  Theorem C54_bumped : forall fuel flr m d strike F K v t up mid dn,
    market fuel flr m d strike F K v t -> v <> 0 -> t <> 0 -> om_bump m = true ->
    let h := delta_shift (om_const m) in let s := delta_scale (om_const m) in h <> 0 ->
    call_price (om_formula m) t K (F + h) v = Ok up ->
    call_price (om_formula m) t K F v = Ok mid ->
    call_price (om_formula m) t K (F - h) v = Ok dn ->
    get_call_delta fuel flr m d strike = Ok ((up - mid) / h * s) /\
    get_call_gamma fuel flr m d strike = Ok ((up - 2 * mid + dn) / h ^ 2 * s ^ 2).
  Proof.
    intros fuel flr m d strike F K v t up mid dn M Nv Nt B h s Nh U A Dn.
    destruct (market_live _ _ _ _ _ _ _ _ _ M Nv Nt) as (E & G).
    unfold get_call_delta, get_call_gamma. rewrite E.
    cbn [bind od_forward number od_strike od_vol od_time]. rewrite G, B. fold h. cbn [bind]. rn.
    fold h s. rewrite U, A, Dn. cbn [bind]. rewrite !Rdivp_ok by auto. cbn [bind npow]. rn.
    split; f_equal. field; auto.
  Qed.

  (** values and the analytic delta and vega depend on the dates only through the time
      to expiry; so do gamma and theta by differences *)
  Theorem C54_time_only : forall fuel flr m d strike m' d' strike' F K v t,
    market fuel flr m d strike F K v t -> market fuel flr m' d' strike' F K v t ->
    om_formula m' = om_formula m -> om_const m' = om_const m -> om_bump m' = om_bump m ->
    get_call_value fuel flr m' d' strike' = get_call_value fuel flr m d strike /\
    get_put_value fuel flr m' d' strike' = get_put_value fuel flr m d strike /\
    get_call_delta fuel flr m' d' strike' = get_call_delta fuel flr m d strike /\
    get_put_delta fuel flr m' d' strike' = get_put_delta fuel flr m d strike /\
    (om_bump m = true ->
     get_call_gamma fuel flr m' d' strike' = get_call_gamma fuel flr m d strike /\
     get_call_theta fuel flr m' d' strike' = get_call_theta fuel flr m d strike) /\
    (om_bump m = false ->
     (forall x, call_vega (om_formula m) (Ok t) K F v = Ok x -> x <> None) ->
     get_call_vega fuel flr m' d' strike' = get_call_vega fuel flr m d strike).
  Proof.
    intros fuel flr m d strike m' d' strike' F K v t M M' EF EC EB.
    destruct (Req_dec v 0) as [Z | Nv]; [|destruct (Req_dec t 0) as [Z | Nt]].
    1,2: assert (NT : no_time_value v t) by (unfold no_time_value; auto);
      destruct (C53_no_time_value _ _ _ _ _ _ _ _ _ M NT) as [-> ->];
      destruct (C53_no_time_value _ _ _ _ _ _ _ _ _ M' NT) as [-> ->];
      destruct (C54_no_time_value _ _ _ _ _ _ _ _ _ M NT) as (-> & -> & -> & -> & ->);
      destruct (C54_no_time_value _ _ _ _ _ _ _ _ _ M' NT) as (-> & -> & -> & -> & ->);
      rewrite EC; auto 10.
    destruct (market_live _ _ _ _ _ _ _ _ _ M Nv Nt) as (E & G).
    destruct (market_live _ _ _ _ _ _ _ _ _ M' Nv Nt) as (E' & _).
    unfold get_call_value, get_put_value, get_put_delta, get_call_delta, get_call_gamma,
      get_call_theta, get_call_vega.
    rewrite E, E', EF, EC, EB. cbn [bind od_forward number od_strike od_vol od_time]. rewrite G.
    do 4 (split; [reflexivity|]). split; [intros B; rewrite B; auto|]. intros B V. rewrite B.
    destruct (call_vega (om_formula m) (Ok t) K F v) as [[x|]|] eqn:W; cbn [bind]; auto.
    exfalso. apply (V None); auto.
  Qed.

  (** * C55: the analytic greeks are the documented formulas *)
  (** Bachelier delta and vega; gamma only where the date as a number is the time *)
  Theorem C55_bachelier : forall fuel flr m d strike F K v t,
    om_formula m = FNormal -> om_bump m = false ->
    market fuel flr m d strike F K v t -> 0 < v -> 0 < t ->
    let x := d_bachelier t K F v in
    get_call_delta fuel flr m d strike = Ok (Phi x * delta_scale (om_const m)) /\
    get_call_vega fuel flr m d strike = Ok (sqrt t * phi x * vega_scale (om_const m)) /\
    (date_num d = Ok t ->
     get_call_gamma fuel flr m d strike
     = Ok (phi x / (v * sqrt t) * delta_scale (om_const m) ^ 2)).
  Proof.
    intros fuel flr m d strike F K v t C B M Hv Ht x.
    destruct (market_live _ _ _ _ _ _ _ _ _ M) as (E & G); try lra.
    unfold get_call_delta, get_call_vega, get_call_gamma. rewrite E.
    cbn [bind od_forward number od_strike od_vol od_time]. rewrite G, B, C.
    cbn [call_delta call_vega call_gamma]. rewrite normal_delta_ok, normal_vega_ok by (auto; lra).
    cbn [rmap bind]. rn. repeat split. intros ->. rewrite normal_gamma_ok by (auto; lra).
    cbn [rmap bind npow]. rn. reflexivity.
  Qed.

  Theorem C55_black : forall fuel flr m d strike F K v t,
    om_formula m = FLogNormal -> om_bump m = false ->
    market fuel flr m d strike F K v t -> 0 < F -> 0 < K -> 0 < v -> 0 < t ->
    let x := d_black t K F v in
    get_call_delta fuel flr m d strike = Ok (Phi x * delta_scale (om_const m)) /\
    get_call_vega fuel flr m d strike
    = Ok (F * sqrt t * phi (x - v * sqrt t) * vega_scale (om_const m)).
  Proof.
    intros fuel flr m d strike F K v t C B M HF HK Hv Ht x.
    destruct (market_live _ _ _ _ _ _ _ _ _ M) as (E & G); try lra.
    assert (0 < F / K) by (apply Rdiv_lt_0_compat; auto).
    unfold get_call_delta, get_call_vega. rewrite E.
    cbn [bind od_forward number od_strike od_vol od_time]. rewrite G, B, C.
    cbn [call_delta call_vega]. rewrite black_delta_ok, black_vega_ok by (auto; lra).
    cbn [rmap bind]. auto.
  Qed.

  (** the Black vega is not the documented F sqrt(t) phi(x) but F/K times that *)
  Theorem C55_black_vega_refuted : forall fuel flr m d strike F K v t,
    om_formula m = FLogNormal -> om_bump m = false ->
    market fuel flr m d strike F K v t -> 0 < F -> 0 < K -> 0 < v -> 0 < t ->
    vega_scale (om_const m) <> 0 ->
    let documented := F * sqrt t * phi (d_black t K F v) * vega_scale (om_const m) in
    exists a, get_call_vega fuel flr m d strike = Ok a /\
              a = F / K * documented /\ (F <> K -> a <> documented).
  Proof.
    intros fuel flr m d strike F K v t C B M HF HK Hv Ht Ns doc.
    destruct (C55_black _ _ _ _ _ _ _ _ _ C B M HF HK Hv Ht) as [_ E]. rewrite E.
    eexists. split; [reflexivity|].
    assert (Nv : v <> 0) by lra.
    pose proof (black_parity t K F v Ht Nv HK HF) as Q.
    assert (X : F * sqrt t * phi (d_black t K F v - v * sqrt t) * vega_scale (om_const m) = F / K * doc).
    { unfold doc.
      replace (phi (d_black t K F v - v * sqrt t)) with (F / K * phi (d_black t K F v)).
      - field. lra.
      - apply (Rmult_eq_reg_l K); [|lra]. rewrite <- Q. field. lra. }
    split; auto. rewrite X. intros NF EQ.
    pose proof (sqrt_pos_lt t Ht). pose proof (phi_pos (d_black t K F v)).
    assert (doc <> 0).
    { unfold doc. apply Rmult_integral_contrapositive_currified; auto.
      apply Rmult_integral_contrapositive_currified; [|lra].
      apply Rmult_integral_contrapositive_currified; lra. }
    assert (F / K = 1) by (apply (Rmult_eq_reg_r doc); [|auto]; rewrite EQ; ring).
    apply NF. apply (Rmult_eq_reg_r (/ K)); [|apply Rinv_neq_0_compat; lra]. unfold Rdiv in H2.
    rewrite H2, Rinv_r; lra.
  Qed.

  (** intrinsic models: delta, gamma, vega and the binary price *)
  Theorem C55_intrinsic : forall fuel flr m d strike F K v t,
    om_formula m = FIntrinsic -> om_bump m = false ->
    market fuel flr m d strike F K v t -> v <> 0 -> t <> 0 ->
    get_call_delta fuel flr m d strike
      = Ok ((if Rlt_dec F K then 0 else 1) * delta_scale (om_const m)) /\
    get_call_gamma fuel flr m d strike = Ok 0 /\ get_call_vega fuel flr m d strike = Ok 0.
  Proof.
    intros fuel flr m d strike F K v t C B M Nv Nt.
    destruct (market_live _ _ _ _ _ _ _ _ _ M) as (E & G); auto.
    unfold get_call_delta, get_call_gamma, get_call_vega. rewrite E.
    cbn [bind od_forward number od_strike od_vol od_time]. rewrite G, B, C.
    cbn [call_delta call_vega call_gamma rmap bind npow]. rn.
    split; [unfold Rltb; destruct (Rlt_dec F K); reflexivity|]. split; f_equal; ring.
  Qed.
  Theorem C55_binary_intrinsic : forall fuel flr m d strike F K v t,
    om_formula m = FBinIntrinsic -> om_bump m = false ->
    market fuel flr m d strike F K v t -> v <> 0 -> t <> 0 ->
    get_call_value fuel flr m d strike = Ok (if Rle_dec F K then 0 else 1) /\
    get_call_delta fuel flr m d strike = Ok 0 /\
    get_call_gamma fuel flr m d strike = Ok 0 /\ get_call_vega fuel flr m d strike = Ok 0.
  Proof.
    intros fuel flr m d strike F K v t C B M Nv Nt.
    destruct (market_live _ _ _ _ _ _ _ _ _ M) as (E & G); auto.
    unfold get_call_value, get_call_delta, get_call_gamma, get_call_vega. rewrite E.
    cbn [bind od_forward number od_strike od_vol od_time]. rewrite G, B, C.
    cbn [call_price call_delta call_vega call_gamma rmap bind npow]. rn.
    split; [unfold Rleb; destruct (Rle_dec F K); reflexivity|]. repeat split; f_equal; ring.
  Qed.
  (** ... so the documented price, 0 if F < K else 1, is missed exactly at the money *)
  Theorem C55_binary_intrinsic_price_refuted : forall fuel flr m d strike F K v t,
    om_formula m = FBinIntrinsic -> om_bump m = false ->
    market fuel flr m d strike F K v t -> v <> 0 -> t <> 0 ->
    (get_call_value fuel flr m d strike = Ok (if Rlt_dec F K then 0 else 1) <-> F <> K).
  Proof.
    intros fuel flr m d strike F K v t C B M Nv Nt.
    destruct (C55_binary_intrinsic _ _ _ _ _ _ _ _ _ C B M Nv Nt) as [-> _]. split.
    - intros H EQ. injection H as H. destruct (Rle_dec F K), (Rlt_dec F K); lra.
    - intros N. f_equal. destruct (Rle_dec F K), (Rlt_dec F K); lra.
  Qed.

  (** binary Bachelier option: price, delta and vega as documented *)
  Theorem C55_binary_bachelier : forall fuel flr m d strike F K v t,
    om_formula m = FBinNormal -> om_bump m = false ->
    market fuel flr m d strike F K v t -> 0 < v -> 0 < t ->
    let x := d_bachelier t K F v in
    get_call_value fuel flr m d strike = Ok (Phi x) /\
    get_call_delta fuel flr m d strike
      = Ok (phi x / (v * sqrt t) * delta_scale (om_const m)) /\
    get_call_vega fuel flr m d strike = Ok (sqrt t * phi x * vega_scale (om_const m)).
  Proof.
    intros fuel flr m d strike F K v t C B M Hv Ht x.
    destruct (market_live _ _ _ _ _ _ _ _ _ M) as (E & G); try lra.
    unfold get_call_value, get_call_delta, get_call_vega. rewrite E.
    cbn [bind od_forward number od_strike od_vol od_time]. rewrite G, B, C.
    cbn [call_price call_delta call_vega].
    rewrite normal_delta_ok, normal_vega_ok, normal_gamma_ok by (auto; lra).
    cbn [rmap bind]. auto.
  Qed.
  (** ... but gamma is divided by the time once too often, even where the date is the
      time *)
  Theorem C55_binary_bachelier_gamma_refuted : forall fuel flr m d strike F K v t,
    om_formula m = FBinNormal -> om_bump m = false ->
    market fuel flr m d strike F K v t -> 0 < v -> 0 < t -> date_num d = Ok t ->
    let x := d_bachelier t K F v in
    let documented := x * phi x / (v ^ 2 * t) * delta_scale (om_const m) ^ 2 in
    get_call_gamma fuel flr m d strike = Ok (documented / t).
  Proof.
    intros fuel flr m d strike F K v t C B M Hv Ht DT x doc.
    destruct (market_live _ _ _ _ _ _ _ _ _ M) as (E & G); try lra.
    unfold get_call_gamma. rewrite E.
    cbn [bind od_forward number od_strike od_vol od_time]. rewrite G, B, C, DT.
    cbn [call_gamma]. rewrite bin_normal_gamma_ok by (auto; lra).
    cbn [rmap bind npow]. rn. f_equal. unfold doc, x. field. lra.
  Qed.

  (** binary Black option: price and vega as documented; delta is the documented one
      divided by the forward *)
  Theorem C55_binary_black : forall fuel flr m d strike F K v t,
    om_formula m = FBinLogNormal -> om_bump m = false ->
    market fuel flr m d strike F K v t -> 0 < F -> 0 < K -> 0 < v -> 0 < t ->
    let x := d_black t K F v in
    get_call_value fuel flr m d strike = Ok (Phi x) /\
    get_call_vega fuel flr m d strike
      = Ok ((x / v - sqrt t) * phi x * vega_scale (om_const m)) /\
    get_call_delta fuel flr m d strike
      = Ok (phi (x - v * sqrt t) / (v * sqrt t) / F * delta_scale (om_const m)).
  Proof.
    intros fuel flr m d strike F K v t C B M HF HK Hv Ht x.
    destruct (market_live _ _ _ _ _ _ _ _ _ M) as (E & G); try lra.
    assert (0 < F / K) by (apply Rdiv_lt_0_compat; auto). pose proof (sqrt_pos_lt t Ht).
    unfold get_call_value, get_call_delta, get_call_vega. rewrite E.
    cbn [bind od_forward number od_strike od_vol od_time]. rewrite G, B, C.
    cbn [call_price call_delta call_vega].
    rewrite bin_black_price_ok, bin_black_vega_ok, bin_black_delta_ok by (auto; lra).
    cbn [rmap bind]. rn. repeat split; f_equal; unfold x; field; lra.
  Qed.

  (** * C56: the displaced model is Black 76 on shifted forward and strike *)
  Theorem C56_displaced : forall fuel flr m m' d strike strike' F K v t a,
    om_formula m = FDisplaced a -> om_formula m' = FLogNormal ->
    om_const m' = om_const m -> om_bump m' = om_bump m ->
    market fuel flr m d strike F K v t ->
    market fuel flr m' d strike' (F + a) (K + a) v t ->
    get_call_value fuel flr m d strike = get_call_value fuel flr m' d strike' /\
    get_put_value fuel flr m d strike = get_put_value fuel flr m' d strike' /\
    get_call_delta fuel flr m d strike = get_call_delta fuel flr m' d strike' /\
    get_call_gamma fuel flr m d strike = get_call_gamma fuel flr m' d strike' /\
    get_call_vega fuel flr m d strike = get_call_vega fuel flr m' d strike' /\
    get_call_theta fuel flr m d strike = get_call_theta fuel flr m' d strike'.
  Proof.
    intros fuel flr m m' d strike strike' F K v t a C C' EC EB M M'.
    destruct (Req_dec v 0) as [Z | Nv]; [|destruct (Req_dec t 0) as [Z | Nt]].
    1,2: assert (NT : no_time_value v t) by (unfold no_time_value; auto);
      destruct (C53_no_time_value _ _ _ _ _ _ _ _ _ M NT) as [-> ->];
      destruct (C53_no_time_value _ _ _ _ _ _ _ _ _ M' NT) as [-> ->];
      destruct (C54_no_time_value _ _ _ _ _ _ _ _ _ M NT) as (-> & _ & -> & -> & ->);
      destruct (C54_no_time_value _ _ _ _ _ _ _ _ _ M' NT) as (-> & _ & -> & -> & ->);
      rewrite EC; replace (F + a - (K + a)) with (F - K) by ring;
      replace (K + a - (F + a)) with (K - F) by ring; repeat split;
      destruct (Rlt_dec F K), (Rlt_dec (F + a) (K + a)); auto; lra.
    destruct (market_live _ _ _ _ _ _ _ _ _ M Nv Nt) as (E & G).
    destruct (market_live _ _ _ _ _ _ _ _ _ M' Nv Nt) as (E' & G').
    unfold get_call_value, get_put_value, get_call_delta, get_call_gamma,
      get_call_theta, get_call_vega.
    rewrite E, E', C, C', EC, EB. cbn [bind od_forward number od_strike od_vol od_time]. rewrite G, G'.
    cbn [call_price call_delta call_gamma call_vega call_theta]. rn.
    set (h := delta_shift (om_const m)).
    replace (F + h + a) with (F + a + h) by ring.
    replace (F - h + a) with (F + a - h) by ring.
    repeat split.
    destruct (black_price (Ok t) (K + a) (F + a) v); cbn [bind]; auto. f_equal. ring.
  Qed.

  (** displacement zero changes nothing *)
  Theorem C56_zero : forall fuel flr m m' d strike strike' F K v t,
    om_formula m = FDisplaced 0 -> om_formula m' = FLogNormal ->
    om_const m' = om_const m -> om_bump m' = om_bump m ->
    market fuel flr m d strike F K v t -> market fuel flr m' d strike' F K v t ->
    get_call_value fuel flr m d strike = get_call_value fuel flr m' d strike' /\
    get_call_delta fuel flr m d strike = get_call_delta fuel flr m' d strike' /\
    get_call_vega fuel flr m d strike = get_call_vega fuel flr m' d strike'.
  Proof.
    intros fuel flr m m' d strike strike' F K v t C C' EC EB M M'.
    rewrite <- (Rplus_0_r F), <- (Rplus_0_r K) in M'.
    destruct (C56_displaced _ _ _ _ _ _ _ _ _ _ _ _ C C' EC EB M M') as (-> & _ & -> & _ & -> & _).
    auto.
  Qed.

  (** the binary displaced model prices like binary Black on shifted forward and strike *)
  Theorem C56_binary_value : forall fuel flr m m' d strike strike' F K v t a,
    om_formula m = FBinDisplaced a -> om_formula m' = FBinLogNormal ->
    market fuel flr m d strike F K v t ->
    market fuel flr m' d strike' (F + a) (K + a) v t ->
    get_call_value fuel flr m d strike = get_call_value fuel flr m' d strike' /\
    get_put_value fuel flr m d strike = get_put_value fuel flr m' d strike'.
  Proof.
    intros fuel flr m m' d strike strike' F K v t a C C' M M'.
    destruct (Req_dec v 0) as [Z | Nv]; [|destruct (Req_dec t 0) as [Z | Nt]].
    1,2: assert (NT : no_time_value v t) by (unfold no_time_value; auto);
      destruct (C53_no_time_value _ _ _ _ _ _ _ _ _ M NT) as [-> ->];
      destruct (C53_no_time_value _ _ _ _ _ _ _ _ _ M' NT) as [-> ->];
      replace (F + a - (K + a)) with (F - K) by ring;
      replace (K + a - (F + a)) with (K - F) by ring; auto.
    destruct (value_live _ _ _ _ _ _ _ _ _ M Nv Nt) as [-> ->].
    destruct (value_live _ _ _ _ _ _ _ _ _ M' Nv Nt) as [-> ->].
    rewrite C, C'. cbn [call_price]. rn. split; auto.
    destruct (bin_black_price (Ok t) (K + a) (F + a) v); cbn [bind]; auto. f_equal. ring.
  Qed.

  (** ... but its delta ignores the displacement: for every displacement it is the delta
      of the binary Black model at the original forward and strike, so a negative
      forward raises although the displaced forward is positive *)
  Theorem C56_binary_delta_refuted : forall fuel flr m d strike F K v t a,
    om_formula m = FBinDisplaced a -> om_bump m = false ->
    market fuel flr m d strike F K v t -> 0 < v -> 0 < t ->
    F < 0 -> 0 < K -> 0 < F + a ->
    (exists c, get_call_value fuel flr m d strike = Ok c) /\
    get_call_delta fuel flr m d strike = Err ValueError.
  Proof.
    intros fuel flr m d strike F K v t a C B M Hv Ht HF HK HA.
    destruct (market_live _ _ _ _ _ _ _ _ _ M) as (E & G); try lra.
    unfold get_call_value, get_call_delta. rewrite E.
    cbn [bind od_forward number od_strike od_vol od_time]. rewrite G, B, C.
    cbn [call_price call_delta]. rn. split.
    - rewrite bin_black_price_ok by (auto; try lra; apply Rdiv_lt_0_compat; lra). eauto.
    - unfold bin_black_delta, black_d. rn. rewrite sqrtp_ok by lra. cbn [bind].
      rewrite Rdivp_ok by lra. cbn [bind]. rewrite Rlogp_err; [reflexivity|].
      left. unfold Rdiv. assert (0 < / K) by (apply Rinv_0_lt_compat; lra). nra.
  Qed.

  (** * C57: binary options as call spreads *)
  (** BinaryOptionPayOffModel around a model: the value is the documented difference
      quotient of the inner call prices in the strike, with step 1/10000 *)
  Theorem C57_call_spread : forall fuel flr inner shift val fw vo count d strike F K v t lo hi,
    let m := binary_new inner shift val fw vo count in
    market fuel flr m d strike F K v t -> v <> 0 -> t <> 0 ->
    let h := 1 / 10000 in
    call_price (om_formula inner) t (K - h / 2) F v = Ok lo ->
    call_price (om_formula inner) t (K + h / 2) F v = Ok hi ->
    get_call_value fuel flr m d strike = Ok ((lo - hi) / h) /\
    (0 <= lo - hi <= h -> exists c, get_call_value fuel flr m d strike = Ok c /\ 0 <= c <= 1).
  Proof.
    intros fuel flr inner shift val fw vo count d strike F K v t lo hi m M Nv Nt h L H.
    destruct (value_live _ _ _ _ _ _ _ _ _ M Nv Nt) as [E1 _].
    assert (X : get_call_value fuel flr m d strike = Ok ((lo - hi) / h)).
    { rewrite E1. unfold m, binary_new. cbn [om_formula call_price]. unfold default_strike_shift. rn.
      fold h. rewrite Rdivp_ok by lra. cbn [bind]. rewrite L, H. cbn [bind].
      apply Rdivp_ok. unfold h. lra. }
    split; auto. intros Q. rewrite X. eexists. split; [reflexivity|]. unfold h in *. lra.
  Qed.

  (** the market data default to those of the inner model *)
  Theorem C57_defaults : forall inner shift,
    let m := binary_new inner shift None FwNone VoNone None in
    om_valuation m = om_valuation inner /\ om_forward m = om_forward inner /\
    om_vol m = om_vol inner /\ om_count m = om_count inner /\ om_bump m = true.
  Proof. repeat split. Qed.

  (** a requested [strike_shift] has no effect *)
  Theorem C57_strike_shift_refuted : forall inner s s' val fw vo count,
    binary_new inner s val fw vo count = binary_new inner s' val fw vo count.
  Proof. reflexivity. Qed.

  (** binary puts are not 1 - call but K - F + call: for every class *)
  Theorem C57_binary_put_refuted : forall fuel flr m d strike F K v t c p,
    market fuel flr m d strike F K v t ->
    get_call_value fuel flr m d strike = Ok c -> get_put_value fuel flr m d strike = Ok p ->
    c + p = 1 -> 2 * c = 1 + F - K.
  Proof.
    intros fuel flr m d strike F K v t c p M A B S.
    destruct (C51_parity _ _ _ _ _ _ _ _ _ M) as [Q _]. specialize (Q c p A B). lra.
  Qed.

  (** without time value a binary option is valued like a plain one *)
  Theorem C57_no_time_value_refuted : forall fuel flr m d strike F K v t,
    market fuel flr m d strike F K v t -> no_time_value v t -> 1 < F - K ->
    exists c, get_call_value fuel flr m d strike = Ok c /\ 1 < c.
  Proof.
    intros. destruct (C53_no_time_value _ _ _ _ _ _ _ _ _ H H0) as [-> _].
    eexists. split; [reflexivity|]. rewrite Rmax_left; lra.
  Qed.
End Options.

(** * Concrete dates *)
#[local] Instance no_registry {D} : DayCounts R D := [].

(** a model with float dates and numbers for forward and volatility *)
Definition flat_model (fm : formula R) (val F v : R) (bump : bool) : omodel R R (fperiod R) :=
  mkOM fm default_gconst (Some val) (FwNum F) (VoNum v) None bump.

Lemma flat_market fm val F v bump d strike : F <> 0 ->
  market 1 None (flat_model fm val F v bump) d strike
         F (match strike with Some k => k | None => F end) v (d - val).
Proof. intros. apply C69_numbers; auto. Qed.

(** gamma: the expiry date is used as time to expiry, so the documented value (here at
    the money) is missed unless the valuation date is zero *)
Theorem C54_gamma_date_refuted : forall val d F v,
  F <> 0 -> 0 < v -> 0 < d -> val < d ->
  exists g, get_call_gamma 1 None (flat_model FNormal val F v false) d None = Ok g /\
  g = phi 0 / (v * sqrt d) * (1 / 10000) ^ 2 /\
  (val <> 0 -> g <> phi 0 / (v * sqrt (d - val)) * (1 / 10000) ^ 2).
Proof.
  intros val d F v NF Hv Hd Hl.
  pose proof (flat_market FNormal val F v false d None NF) as M. cbv beta iota in M.
  destruct (market_live _ _ _ _ _ _ _ _ _ M) as (E & G); try lra.
  unfold get_call_gamma. rewrite E. cbn [bind od_forward number od_strike od_vol od_time].
  rewrite G. cbn [om_bump om_formula flat_model call_gamma om_const default_gconst delta_scale].
  change (date_num d) with (Ok d : res R).
  rewrite normal_gamma_ok by lra. cbn [rmap bind npow]. rn.
  assert (Z : d_bachelier d F F v = 0).
  { unfold d_bachelier. replace (F - F) with 0 by ring. field.
    split; [apply Rgt_not_eq, sqrt_pos_lt; lra|lra]. }
  rewrite Z. eexists. split; [reflexivity|]. split; [ring|].
  intros N EQ. pose proof (sqrt_pos_lt d Hd). assert (0 < d - val) by lra.
  pose proof (sqrt_pos_lt (d - val) H0). pose proof (phi_pos 0).
  assert (X : sqrt d = sqrt (d - val)).
  { assert (Q : phi 0 / (v * sqrt d) = phi 0 / (v * sqrt (d - val))) by lra.
    apply (Rmult_eq_compat_r (v * sqrt d * sqrt (d - val))) in Q.
    replace (phi 0 / (v * sqrt d) * (v * sqrt d * sqrt (d - val))) with (phi 0 * sqrt (d - val)) in Q by (field; lra).
    replace (phi 0 / (v * sqrt (d - val)) * (v * sqrt d * sqrt (d - val))) with (phi 0 * sqrt d) in Q by (field; lra).
    apply Rmult_eq_reg_l in Q; lra. }
  apply (f_equal (fun x => x * x)) in X. rewrite !sqrt_sqrt in X by lra. lra.
Qed.
Print Assumptions C54_gamma_date_refuted.

(** ... and raises for date objects *)
Theorem C54_gamma_date_object_refuted : forall val d F v,
  F <> 0 -> v <> 0 -> bd_day val <> bd_day d ->
  get_call_gamma 1 None
    (mkOM FNormal default_gconst (Some val) (FwNum F) (VoNum v) None false : omodel R bdate bperiod) d None
  = Err TypeError.
Proof.
  intros val d F v NF Nv Nd.
  assert (Y : d_yf val d = Ok (IZR (bd_day d - bd_day val) / (1461 / 4))).
  { unfold d_yf, DayDates, yf_days, days_in_year. rn. apply Rdivp_ok. lra. }
  pose proof (C69_numbers _ _ 1 None FNormal default_gconst F v val d None _ false NF Y) as M.
  destruct (market_live _ _ _ _ _ _ _ _ _ M) as (E & G); auto.
  { intros Z. apply Nd. assert (IZR (bd_day d - bd_day val) = 0) by lra. apply eq_IZR in H. lia. }
  unfold get_call_gamma. rewrite E. cbn [bind od_forward number od_strike od_vol od_time].
  rewrite G. reflexivity.
Qed.
Print Assumptions C54_gamma_date_object_refuted.

(** vega by differences: the subtracted price uses the date as time; a call can have a
    negative vega *)
Theorem C54_bumped_vega_refuted :
  exists x, get_call_vega 1 None (flat_model FNormal 3 1 (1/10) true) 4 None = Ok x /\ x < 0.
Proof.
  assert (NF : 1 <> 0) by lra.
  pose proof (flat_market FNormal 3 1 (1/10) true 4 None NF) as M. cbv beta iota in M.
  destruct (market_live _ _ _ _ _ _ _ _ _ M) as (E & G); try lra.
  unfold get_call_vega. rewrite E. cbn [bind od_forward number od_strike od_vol od_time].
  rewrite G. cbn [om_bump om_formula flat_model call_price om_const default_gconst vega_scale vega_shift].
  change (date_num 4) with (Ok 4 : res R). cbn [bind]. rn.
  rewrite !normal_price_ok by lra. cbn [bind].
  rewrite Rdivp_ok by lra. cbn [bind]. eexists. split; [reflexivity|].
  assert (Z : forall t v, bachelier_call t 1 1 v = v * sqrt t * phi 0).
  { intros t v. unfold bachelier_call, d_bachelier. cbv zeta. replace (1 - 1) with 0 by ring.
    unfold Rdiv. rewrite !Rmult_0_l. ring. }
  rewrite !Z. replace (4 - 3) with 1 by ring. rewrite sqrt_1.
  replace 4 with (2 * 2) by ring. rewrite sqrt_square by lra. pose proof (phi_pos 0). nra.
Qed.
Print Assumptions C54_bumped_vega_refuted.

(** theta by differences is not divided by the shift: with the default constants it is
    the documented value times 1/365.25 *)
Theorem C54_theta_refuted : forall val d F v,
  F <> 0 -> 0 < v -> val < d ->
  let t := d - val in let h := 4 / 1461 in
  let documented := (bachelier_call (t + h) F F v - bachelier_call t F F v) / (h / h) in
  get_call_theta 1 None (flat_model FNormal val F v false) d None = Ok (documented * h) /\
  0 < documented.
Proof.
  intros val d F v NF Hv Hl t h doc.
  pose proof (flat_market FNormal val F v false d None NF) as M. cbv beta iota in M.
  destruct (market_live _ _ _ _ _ _ _ _ _ M) as (E & G); try lra.
  assert (Z : forall t v, bachelier_call t F F v = v * sqrt t * phi 0).
  { intros t' v'. unfold bachelier_call, d_bachelier. cbv zeta. replace (F - F) with 0 by ring.
    unfold Rdiv. rewrite !Rmult_0_l. ring. }
  split.
  - unfold get_call_theta. rewrite E. cbn [bind od_forward number od_strike od_vol od_time].
    rewrite G. cbn [om_bump om_formula flat_model call_theta call_price om_const default_gconst theta_scale theta_shift bind].
    rn. fold t. fold h. rewrite !normal_price_ok by (unfold t, h; lra). cbn [bind]. f_equal.
    unfold doc, h. field.
  - unfold doc. rewrite !Z. replace (h / h) with 1 by (unfold h; field).
    assert (sqrt t < sqrt (t + h)) by (apply sqrt_lt_1; unfold t, h; lra).
    pose proof (phi_pos 0). assert (0 < v * phi 0) by nra. nra.
Qed.
Print Assumptions C54_theta_refuted.

(** * Satisfiable hypotheses *)
Example black_example :
  exists c p, get_call_value 1 None (flat_model FLogNormal 0 100 (1/10) false) (1/4) (Some 110) = Ok c /\
              get_put_value 1 None (flat_model FLogNormal 0 100 (1/10) false) (1/4) (Some 110) = Ok p /\
              c - p = -10 /\ 0 < c /\ 10 < p.
Proof.
  assert (NF : 100 <> 0) by lra.
  pose proof (flat_market FLogNormal 0 100 (1/10) false (1/4) (Some 110) NF) as M. cbv beta iota in M.
  destruct (C53_black _ _ _ _ (flat_model FLogNormal 0 100 (1/10) false) _ _ _ _ _ _ eq_refl M) as (c & p & A & B & _ & [C _] & [Q _]); try lra.
  exists c, p. destruct (C51_parity _ _ _ _ _ _ _ _ _ _ _ M) as [X _].
  specialize (X c p A B). rewrite Rmax_right in C by lra. rewrite Rmax_left in Q by lra.
  repeat split; auto; lra.
Qed.
Example displaced_example :
  exists c, get_call_value 1 None (flat_model (FDisplaced (3/100)) 0 (-1/100) (1/10) false) 1 (Some (1/100)) = Ok c /\ 0 < c.
Proof.
  assert (NF : -1/100 <> 0) by lra.
  pose proof (flat_market (FDisplaced (3/100)) 0 (-1/100) (1/10) false 1 (Some (1/100)) NF) as M. cbv beta iota in M.
  destruct (C53_displaced _ _ _ _ (flat_model (FDisplaced (3/100)) 0 (-1/100) (1/10) false) _ _ _ _ _ _ (3/100) eq_refl M) as (c & p & A & _ & [C _] & _); try lra.
  exists c. rewrite Rmax_right in C by lra. auto.
Qed.
Example bachelier_example :
  exists c, get_call_value 1 None (flat_model FNormal 0 1 1 false) 1 (Some 11) = Ok c /\ c < 0.
Proof.
  assert (NF : 1 <> 0) by lra.
  pose proof (flat_market FNormal 0 1 1 false 1 (Some 11) NF) as M. cbv beta iota in M.
  destruct (C53_bachelier_tail_refuted _ _ _ _ (flat_model FNormal 0 1 1 false) _ _ _ _ _ _ eq_refl M) as [X _]; try lra.
  apply X. replace (1 - 0) with 1 by ring. rewrite sqrt_1. lra.
Qed.
Example bachelier_near_example :
  exists c p, get_call_value 1 None (flat_model FNormal 0 1 1 false) 1 (Some 2) = Ok c /\
              get_put_value 1 None (flat_model FNormal 0 1 1 false) 1 (Some 2) = Ok p /\ 0 < c /\ 1 < p.
Proof.
  assert (NF : 1 <> 0) by lra.
  pose proof (flat_market FNormal 0 1 1 false 1 (Some 2) NF) as M. cbv beta iota in M.
  destruct (C53_bachelier_partial _ _ _ _ (flat_model FNormal 0 1 1 false) _ _ _ _ _ _ eq_refl M) as (c & p & A & B & _ & C & Q); try lra.
  - replace (1 - 0) with 1 by ring. rewrite sqrt_1. unfold Rabs. destruct (Rcase_abs (1 - 2)); lra.
  - exists c, p. rewrite Rmax_right in C by lra. rewrite Rmax_left in Q by lra. repeat split; auto; lra.
Qed.
Example binary_intrinsic_example :
  get_call_value 1 None (flat_model FBinIntrinsic 0 2 1 false) 1 (Some 2) = Ok 0.
Proof.
  assert (NF : 2 <> 0) by lra.
  pose proof (flat_market FBinIntrinsic 0 2 1 false 1 (Some 2) NF) as M. cbv beta iota in M.
  destruct (C55_binary_intrinsic FloatDates no_registry _ 1 None (flat_model FBinIntrinsic 0 2 1 false) 1 (Some 2) 2 2 1 (1 - 0) eq_refl eq_refl M) as [E _]; try lra.
  rewrite E. destruct (Rle_dec 2 2); [reflexivity|lra].
Qed.
(** a digital option on the intrinsic model, above the strike *)
Example digital_example :
  get_call_value 1 None (binary_new (flat_model FIntrinsic 0 2 1 false) None None FwNone VoNone None) 1 (Some 1)
  = Ok 1.
Proof.
  assert (NF : 2 <> 0) by lra.
  set (m := binary_new (flat_model FIntrinsic 0 2 1 false) None None FwNone VoNone None).
  assert (M : market 1 None m 1 (Some 1) 2 1 1 (1 - 0)).
  { apply (C69_numbers FloatDates no_registry 1 None (FSpread default_strike_shift (call_price FIntrinsic)) default_gconst 2 1 0 1 (Some 1) (1 - 0) true NF). reflexivity. }
  destruct (C57_call_spread _ _ 1 None _ None None FwNone VoNone None 1 (Some 1) 2 1 1 (1 - 0)
             (2 - (1 - 1 / 10000 / 2)) (2 - (1 + 1 / 10000 / 2)) M) as [E _]; try lra.
  - cbn [om_formula flat_model call_price]. rewrite nmax_R. rn. rewrite Rmax_left by lra. f_equal; lra.
  - cbn [om_formula flat_model call_price]. rewrite nmax_R. rn. rewrite Rmax_left by lra. f_equal; lra.
  - fold m in E. rewrite E. f_equal. lra.
Qed.
Print Assumptions C51_parity.
Print Assumptions C53_black.
Print Assumptions C53_displaced.
Print Assumptions C53_bachelier_partial.
Print Assumptions C53_bachelier_tail_refuted.
Print Assumptions C54_time_only.
Print Assumptions C55_bachelier.
Print Assumptions C55_black_vega_refuted.
Print Assumptions C55_intrinsic.
Print Assumptions C55_binary_intrinsic.
Print Assumptions C55_binary_intrinsic_price_refuted.
Print Assumptions C55_binary_bachelier.
Print Assumptions C55_binary_bachelier_gamma_refuted.
Print Assumptions C55_binary_black.
Print Assumptions C56_displaced.
Print Assumptions C56_binary_value.
Print Assumptions C56_binary_delta_refuted.
Print Assumptions C57_call_spread.
Print Assumptions C69_sources.
