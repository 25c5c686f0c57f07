(** Property C46, continued: assigning the property fixed_rate of rate lists. *)
From Coq Require Import Reals Lra Lia List Bool ZArith.
From Verif Require Import Num Py MDates MCurve MRateCurve MOption MCashflow LBase LPricer2 LFair LCashflow PFair.
Import ListNotations.

Section Setter.
  Context {T D P : Type} (N : Num T) (DS : DateSys T D P).

  Lemma assoc_set_with (x : option T) (k : D) (v : flow T D P) l :
    map (fun kf => (fst kf, with_rate x (snd kf))) (assoc_set d_eqb k v l) =
    assoc_set d_eqb k (with_rate x v) (map (fun kf => (fst kf, with_rate x (snd kf))) l).
  Proof.
    induction l as [|[k' v'] l IH]; cbn; auto. destruct (d_eqb k' k); cbn; [reflexivity|]. now rewrite IH.
  Qed.
  Lemma dict_with (x : option T) (l : list (D * flow T D P)) :
    map (fun kf => (fst kf, with_rate x (snd kf))) (dict_of d_eqb l) =
    dict_of d_eqb (map (fun kf => (fst kf, with_rate x (snd kf))) l).
  Proof.
    unfold dict_of. change [] with (map (fun kf : D * flow T D P => (fst kf, with_rate x (snd kf))) []) at 2.
    generalize (@nil (D * flow T D P)). induction l as [|[k v] l IH]; intros acc; cbn [fold_left map fst snd]; auto.
    rewrite IH, assoc_set_with. reflexivity.
  Qed.

  Definition rated (y : T) (r : ratep T D P) : ratep T D P :=
    mkRP (rp_start r) (rp_end r) (rp_amount r) (rp_count r) (rp_fixing r) (Some y).
  Lemma payoffs_rated starts dates amounts count fixing payo x y rs :
    rate_payoffs starts dates amounts count fixing payo x = Ok rs ->
    rate_payoffs starts dates amounts count fixing payo y = Ok (map (rated y) rs).
  Proof.
    unfold rate_payoffs. generalize (combine (combine starts dates) amounts). intro l. revert rs.
    induction l as [|[[s e] a] l IH]; cbn; intros rs H; [injection H as <-; reflexivity|].
    destruct (offset e payo); [|discriminate]. cbn in H |- *. destruct (offset s payo); [|discriminate]. cbn in H |- *.
    destruct (mapM _ l) eqn:E in H; [|discriminate]. injection H as <-. erewrite IH by exact E. reflexivity.
  Qed.
  Lemma new_rated (mk : ratep T D P -> payoff T D P) dates rs o a y c :
    (forall r, with_rate (Some y) (FlPay (mk r)) = FlPay (mk (rated y r))) ->
    cf_new dates (Many (map (fun r => FlPay (mk r)) rs)) o a true = Ok c ->
    cf_new dates (Many (map (fun r => FlPay (mk r)) (map (rated y) rs))) o a true = Ok (set_fixed_rate c (Some y)).
  Proof.
    intros M. unfold cf_new. cbn [spread_arg]. rewrite !map_length.
    destruct (negb _); [discriminate|]. intro H. injection H as <-. unfold set_fixed_rate. cbn [cf_rated cf_domain cf_flows cf_origin0 cf_attr].
    rewrite dict_with. f_equal. f_equal. f_equal. revert rs. induction dates as [|d dates IH]; intros [|r rs]; cbn [map combine]; auto.
    rewrite IH. cbn [fst snd]. now rewrite M.
  Qed.

  (** assigning a fixed rate turns a list into the one built with that rate *)
  Theorem C46_setter : forall dates amounts o count fixing payo x y fwd c,
    ratelist_new dates amounts o count fixing payo x fwd = Ok c ->
    ratelist_new dates amounts o count fixing payo y fwd = Ok (set_fixed_rate c (Some y)).
  Proof.
    intros dates amounts o count fixing payo x y fwd c. unfold ratelist_new.
    destruct (start_dates o dates) as [starts|]; [|discriminate]. cbn [bind].
    destruct (rate_payoffs _ _ _ _ _ _ x) as [rs|] eqn:E; [|discriminate]. cbn [bind].
    rewrite (payoffs_rated _ _ _ _ _ _ _ y _ E). cbn [bind]. now apply new_rated.
  Qed.
  (** the same with caps and floors, which stay as they are *)
  Theorem C46_setter_capped : forall dates amounts o count fixing payo x y cap floor model c,
    contrate_new dates amounts o count fixing payo x cap floor model = Ok c ->
    contrate_new dates amounts o count fixing payo y cap floor model = Ok (set_fixed_rate c (Some y)).
  Proof.
    intros dates amounts o count fixing payo x y cap floor model c. unfold contrate_new.
    destruct (cont_start_dates o dates) as [starts|]; [|discriminate]. cbn [bind].
    destruct (rate_payoffs _ _ _ _ _ _ x) as [rs|] eqn:E; [|discriminate]. cbn [bind].
    rewrite (payoffs_rated _ _ _ _ _ _ _ y _ E). cbn [bind]. now apply (new_rated (fun r => PContRate r floor cap)).
  Qed.
End Setter.
Print Assumptions C46_setter.
Print Assumptions C46_setter_capped.

(** what is read after an assignment is what was assigned *)
Theorem C46_assigned : forall {D P} (DS : DateSys R D P) (c : cflist R D P) y,
  cf_rated c = true -> cf_flows c <> [] ->
  Forall (fun kf => match snd kf with FlPay (PRate _) | FlPay (PContRate _ _ _) => True | _ => False end) (cf_flows c) ->
  fixed_rate (set_fixed_rate c y) = Ok y.
Proof.
  intros D P DS c y RA NE F. unfold set_fixed_rate, fixed_rate. rewrite RA. cbn [cf_rated cf_flows].
  assert (M : mapM (fun kf => flow_rate (snd kf)) (map (fun kf => (fst kf, with_rate y (snd kf))) (cf_flows c)) = Ok (map (fun _ => y) (cf_flows c))).
  { induction F as [|[k f] l HF F IH]; cbn [mapM map snd fst]; auto. cbn [snd] in HF.
    destruct f as [n|[| | | | |]]; try contradiction; cbn [with_rate flow_rate rp_rate bind];
      (destruct l; [reflexivity|]; rewrite IH by discriminate; reflexivity). }
  rewrite M. cbn [bind]. destruct (cf_flows c) as [|kf fl]; [congruence|]. cbn [map].
  replace (forallb _ _) with true; auto. symmetry. apply forallb_forall. intros z I. apply in_map_iff in I.
  destruct I as (w & <- & _). now apply rate_eqb_eq.
Qed.
Print Assumptions C46_assigned.

(** instance: two capped coupons on 100, from 1% to 2% *)
Example C46_setter_instance :
  exists c, contrate_new (DS := DayDates) [BD 365 0; BD 730 1] (One 100%R) (Some (BD 0 2)) DcDefault None None (1/100)%R
              (Some (3/100)%R) None (PmSource FwNone) = Ok c /\
    cf_rated c = true /\ length (cf_flows c) = 2%nat /\
    Forall (fun kf => match snd kf with FlPay (PRate _) | FlPay (PContRate _ _ _) => True | _ => False end) (cf_flows c).
Proof.
  eexists. split; [reflexivity|]. split; [reflexivity|]. split; [reflexivity|]. repeat constructor.
Qed.
