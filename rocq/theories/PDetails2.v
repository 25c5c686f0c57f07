(** Property C78, continued: the tables of lists of option strategies and of collared
    coupons. *)
From Coq Require Import Reals Lra Lia ZArith List Bool.
From Verif Require Import Num Py Spec MPlans MDates MCurve MRateCurve MOption MCashflow MDetails SDates SOption
  SCashflow SDetails LBase LDates LOption LCashflow LDetails POption PCashflow2 PDetails.
Import ListNotations.
Open Scope R_scope.

(** the columns shown for n options *)
Definition strategy_header (n : nat) : list key :=
  [KCashflow; KPayDate] ++
  flat_map (fun i => [KNum i KPutCall; KNum i KLongShort; KNum i KNotional; KNum i KStrike]) (seq 0 n).

Section Generic.
  Context {T D P : Type} {N : Num T} {DS : DateSys T D P} {DC : DayCounts T D}.
  Definition strategy_cells (os : list (optp T D)) : list (value T D P) :=
    flat_map (fun o => [VLabel (if op_put o then LPut else LCall);
                        VLabel (if nltb n0 (op_amount o) then LLong else LShort);
                        VNum (op_amount o); vnum (op_strike o)]) os.

  Lemma strategy_row fuel flr os (d : D) h : (length os <= 10)%nat -> h = [] \/ h = strategy_header (length os) ->
    exists e, details (P:=P) fuel flr (PStrategy os) (PmSource FwNone) = Ok e /\
      extend strategy_columns (dset KPayDate (VDate d) e) h = strategy_header (length os) /\
      row (dset KPayDate (VDate d) e) (strategy_header (length os)) =
        VNum (fold_left nadd (repeat n0 (length os)) n0) :: VDate d :: strategy_cells os.
  Proof.
    intros L HH.
    do 11 (destruct os as [|? os];
      [eexists; split; [reflexivity|]; split; [destruct HH as [->| ->]; reflexivity|reflexivity]|]).
    exfalso. cbn in L. lia.
  Qed.
End Generic.

Section Table.
  Context {D P : Type} (DS : DateSys R D P) (DC : DayCounts R D).

  (** the table of a list of strategies of n options shows zero at every date, whatever the
      payoff model, and no expiry *)
  Theorem C78_strategies_zero : forall fuel flr l a n, cf_attr l = LModel a ->
    (n <= 10)%nat -> cf_domain l <> [] ->
    (forall d, In d (cf_domain l) -> exists os, cf_payoff l d = Some (FlPay (PStrategy os)) /\ length os = n) ->
    exists h rs, table fuel flr l strategy_columns = Ok (h, rs) /\
      h = [KCashflow; KPayDate] ++
          flat_map (fun i => [KNum i KPutCall; KNum i KLongShort; KNum i KNotional; KNum i KStrike]) (seq 0 n) /\
      ~ In KExpiry h /\
      forall i d r, nth_error (cf_domain l) i = Some d -> nth_error rs i = Some r ->
        exists os, cf_payoff l d = Some (FlPay (PStrategy os)) /\
        r = VNum 0 :: VDate d ::
            flat_map (fun o => [VLabel (if op_put o then LPut else LCall);
                                VLabel (if Rlt_dec 0 (op_amount o) then LLong else LShort);
                                VNum (op_amount o);
                                match op_strike o with Some k => VNum k | None => VNone end]) os.
  Proof.
    intros fuel flr l a n AT L NE ALL.
    set (H0 := strategy_header n).
    assert (G : forall ds h, (forall d, In d ds -> exists os, cf_payoff l d = Some (FlPay (PStrategy os)) /\ length os = n) ->
      h = [] \/ h = H0 ->
      exists rs, rows fuel flr l strategy_columns ds h = Ok (match ds with [] => h | _ => H0 end, rs) /\
      forall i d r, nth_error ds i = Some d -> nth_error rs i = Some r ->
        exists os, cf_payoff l d = Some (FlPay (PStrategy os)) /\
        r = VNum 0 :: VDate d :: strategy_cells os).
    { induction ds as [|d ds IH]; intros h A HH; cbn [rows].
      - exists []. split; [reflexivity|]. intros [|i]; discriminate.
      - destruct (A d (or_introl eq_refl)) as (os & O & LO). unfold row_dict, cf_flow.
        pose proof O as O'. unfold cf_payoff in O'. rewrite O', AT.
        destruct (strategy_row (DS:=DS) (DC:=DC) fuel flr os d h) as (e & E & X & W);
          [now rewrite LO|now rewrite LO|].
        rewrite E. cbn [bind]. rewrite X, W, LO. fold H0.
        destruct (IH H0) as (rs & Q & RR); [intros; apply A; now right|auto|].
        rewrite Q. cbn [bind fst snd]. eexists. split; [do 2 f_equal; now destruct ds|].
        intros [|i] d' r I J; cbn in I, J.
        + injection I as <-. injection J as <-. exists os. split; [exact O|]. f_equal. f_equal.
          clear. generalize n at 1. intros m. change (fold_left Rplus (repeat 0 m) 0 = 0).
          induction m as [|m IHm]; [reflexivity|]. cbn. now rewrite Rplus_0_l.
        + now apply (RR i). }
    destruct (G (cf_domain l) [] ALL (or_introl eq_refl)) as (rs & Q & RR).
    exists H0, rs. split; [unfold table; rewrite Q; now destruct (cf_domain l)|].
    split; [reflexivity|]. split.
    { unfold H0, strategy_header. intros I. apply in_app_or in I. destruct I as [I|I].
      - cbn in I. intuition discriminate.
      - apply in_flat_map in I. destruct I as (i & _ & I). cbn in I. intuition discriminate. }
    intros i d r I J. destruct (RR i d r I J) as (os & O & ->). exists os. split; [exact O|].
    do 2 f_equal. unfold strategy_cells. apply flat_map_ext. intros o. unfold vnum. cbn [nltb n0 Rnum]. unfold Rltb.
    now destruct (Rlt_dec 0 (op_amount o)).
  Qed.

  (** the table of a list of capped and floored coupons shows the fixed rate coupons only:
      neither the forward rates nor the options of the payoff model *)
  Theorem C78_collars_fixed : forall fuel flr l a h rs, cf_attr l = LModel a -> cf_domain l <> [] ->
    (forall d, In d (cf_domain l) -> exists p floor cap, cf_payoff l d = Some (FlPay (PContRate p floor cap))) ->
    table fuel flr l contrate_columns = Ok (h, rs) ->
    h = [KCashflow; KPayDate; KNotional; KStart; KEnd; KYearFraction; KFixedRate] /\
    forall i d r, nth_error (cf_domain l) i = Some d -> nth_error rs i = Some r ->
      exists p floor cap tau c,
        cf_payoff l d = Some (FlPay (PContRate p floor cap)) /\
        pay_count (rp_count p) (rp_start p) (rp_end p) = Ok tau /\ rp_rate p = Some c /\
        r = [VNum (c * tau * rp_amount p); VDate d; VNum (rp_amount p); VDate (rp_start p);
             VDate (rp_end p); VNum tau; VNum c].
  Proof.
    intros fuel flr l a h rs AT NE ALL.
    set (H0 := [KCashflow; KPayDate; KNotional; KStart; KEnd; KYearFraction; KFixedRate]).
    assert (G : forall ds h h' rs,
      (forall d, In d ds -> exists p floor cap, cf_payoff l d = Some (FlPay (PContRate p floor cap))) ->
      h = [] \/ h = H0 -> rows fuel flr l contrate_columns ds h = Ok (h', rs) ->
      h' = match ds with [] => h | _ => H0 end /\
      forall i d r, nth_error ds i = Some d -> nth_error rs i = Some r ->
        exists p floor cap tau c,
        cf_payoff l d = Some (FlPay (PContRate p floor cap)) /\
        pay_count (rp_count p) (rp_start p) (rp_end p) = Ok tau /\ rp_rate p = Some c /\
        r = [VNum (c * tau * rp_amount p); VDate d; VNum (rp_amount p); VDate (rp_start p);
             VDate (rp_end p); VNum tau; VNum c]).
    { induction ds as [|d ds IH]; intros h0 h' rs0 A HH; cbn [rows].
      - intros [= <- <-]. split; [reflexivity|]. intros [|i]; discriminate.
      - destruct (A d (or_introl eq_refl)) as (p & fl & cp & O).
        destruct (row_dict fuel flr l d) as [e|] eqn:RD; [|intros K; discriminate K].
        unfold row_dict, cf_flow in RD.
        pose proof O as O'. unfold cf_payoff in O'. rewrite O', AT in RD.
        cbn [details] in RD. unfold d_contingent, d_rate in RD. cbn [pm_source] in RD.
        destruct (pay_count (rp_count p) (rp_start p) (rp_end p)) as [tau|] eqn:PC; [|discriminate RD].
        cbn [bind pm_truthy src_truthy fst snd] in RD.
        destruct (rp_rate p) as [c|] eqn:C; [|discriminate RD]. cbn [number bind vnum] in RD.
        apply ok_inj in RD. subst e. cbn [bind].
        match goal with |- context [extend contrate_columns ?z h0] =>
          replace (extend contrate_columns z h0) with H0 by (destruct HH as [->| ->]; reflexivity) end.
        destruct (rows fuel flr l contrate_columns ds H0) as [[h1 r1]|] eqn:Q; [|intros K; discriminate K].
        cbn [bind fst snd]. destruct (IH H0 h1 r1) as (E1 & RR); [intros; apply A; now right|auto|exact Q|].
        intros K. apply ok_inj in K. injection K as <- <-. split; [rewrite E1; now destruct ds|].
        intros [|i] d' r I J; cbn in I, J.
        + injection I as <-. injection J as <-. exists p, fl, cp, tau, c.
          split; [exact O|]. split; [exact PC|]. split; [exact C|].
          cbn. do 2 f_equal. ring.
        + now apply (RR i). }
    intros TB. destruct (G _ _ _ _ ALL (or_introl eq_refl) TB) as (E & RR). split; [|exact RR].
    rewrite E. now destruct (cf_domain l).
  Qed.
End Table.
Print Assumptions C78_strategies_zero.
Print Assumptions C78_collars_fixed.

(** both kinds of lists are built by their constructors; a floored coupon whose table shows
    nothing although the list pays 2 *)
Definition some_model : omodel R R (fperiod R) :=
  mkOM FIntrinsic default_gconst (Some 0) (FwNum (1/100)) (VoNum (1/10)) None false.
Example C78_strategies_instance : exists l a,
  strategylist_new (DS := FloatDates (T:=R)) [1] (One 10) [3] (One 10) [2] None None (Some 0) (PmModel some_model) = Ok l /\
  cf_attr l = LModel a /\ cf_domain l = [1] /\
  exists os, cf_payoff (DS := FloatDates (T:=R)) l 1 = Some (FlPay (PStrategy os)) /\ length os = 2%nat.
Proof.
  eexists. eexists. split; [reflexivity|]. split; [reflexivity|]. split; [reflexivity|].
  unfold cf_payoff. cbn [cf_flows dict_of fold_left combine fst snd assoc_set assoc spread_arg length repeat].
  change (d_eqb 1 1) with (Reqb 1 1). replace (Reqb 1 1) with true by (unfold Reqb; destruct Req_EM_T; lra).
  eexists. split; [reflexivity|]. cbn. unfold Rltb. destruct (Rlt_dec 3 2); reflexivity.
Qed.
Theorem C78_collars_refuted : exists l,
  contrate_new (DS := FloatDates (T:=R)) [2] (One 100) (Some 1) DcDefault None None 0 None (Some (2/100)) (PmModel some_model) = Ok l /\
  cf_get (DC := []) 0 None l 2 = Ok 2 /\
  exists h r, table (DC := []) 0 None l contrate_columns = Ok (KCashflow :: h, [VNum 0 :: r]).
Proof.
  set (p := mkRP 1 2 100 DcDefault None (Some 0) : ratep R R (fperiod R)).
  exists (mkCF [2] [(2, FlPay (PContRate p (Some (2/100)) None))] (Some 1) (LModel (PmModel some_model)) true).
  assert (E : Reqb 2 2 = true) by (unfold Reqb; destruct Req_EM_T; lra).
  assert (FL : cf_flow (DS := FloatDates (T:=R))
      (mkCF [2] [(2, FlPay (PContRate p (Some (2/100)) None))] (Some 1) (LModel (PmModel some_model)) true) 2 =
      FlPay (PContRate p (Some (2/100)) None)).
  { unfold cf_flow. cbn [cf_flows assoc]. change (d_eqb 2 2) with (Reqb 2 2). now rewrite E. }
  split.
  { unfold contrate_new, cont_start_dates. cbn [d_truthy FloatDates].
    rewrite (proj2 (ntruthy_true 1)) by lra. cbn [bind]. reflexivity. }
  split.
  - unfold cf_get. rewrite FL. cbn [flow_value attr_model cf_attr].
    assert (TT : pay_count (DS := FloatDates (T:=R)) (rp_count p) (rp_start p) (rp_end p) = Ok 1).
    { change (@Ok R (2 - 1) = Ok 1). f_equal. lra. }
    assert (M : market (DS := FloatDates (T:=R)) (DC := []) 0 None some_model 1 None (1/100) (1/100) (1/10) 1).
    { apply (C69_numbers (FloatDates (T:=R)) [] 0 None FIntrinsic default_gconst (1/100) (1/10) 0 1 None 1 false); [lra|].
      change (@Ok R (1 - 0) = Ok 1). f_equal. lra. }
    rewrite (proj1 (C58_floor (FloatDates (T:=R)) [] 0 None p 0 1 1 some_model (1/100) (1/10) 1 eq_refl TT eq_refl M (or_introl eq_refl) (2/100))).
    f_equal. unfold p. cbn [rp_amount]. rewrite Rmax_left by lra. lra.
  - unfold table. cbn [cf_domain rows]. unfold row_dict. rewrite FL. cbn [cf_attr details].
    unfold d_contingent, d_rate. cbn [pm_source p rp_count rp_start rp_end rp_rate rp_amount].
    change (pay_count DcDefault 1 2) with (Ok (2 - 1) : res R).
    cbn [bind pm_truthy src_truthy fst snd number n0 nadd nmul Rnum].
    assert (Z : (0 + 0) * (2 - 1) * 100 = 0) by lra. rewrite Z.
    eexists. eexists. reflexivity.
Qed.
Print Assumptions C78_collars_refuted.
