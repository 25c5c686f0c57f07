(** Lemmas about the fair rate. *)
From Coq Require Import Reals Lra Lia List Bool ZArith.
From Verif Require Import Num Py Spec MDates MCurve MRateCurve MOption MCashflow MBracket MPricer
  SDates SRateCurve SCashflow SPricer SBracket SYield LBase LSort LDates LCashflow LPricer LPricer2 LBracket LYield.
Import ListNotations.
Open Scope R_scope.

Section Fair.
  Context {D P : Type} {DS : DateSys R D P} {DC : DayCounts R D}.
  Implicit Types (h : heap R D P) (disc : rcurve R D P) (cs : list (D * (R * R))).

  Lemma assoc_with x (l : list (D * flow R D P)) d :
    assoc d_eqb d (map (fun kf => (fst kf, with_rate x (snd kf))) l) =
    match assoc d_eqb d l with Some f => Some (with_rate x f) | None => None end.
  Proof. induction l as [|[k f] l IH]; cbn; auto. destruct (d_eqb k d); auto. Qed.

  Lemma coupon_flow fuel flr (l : cflist R D P) s d alpha fwd x a : cf_rated l = true ->
    coupon fuel s (cf_payoff l d) alpha fwd ->
    cf_get fuel flr (mkCF a (cf_flows (set_fixed_rate l (Some x))) (cf_origin0 l) (LForward s) true) d
    = Ok ((x + fwd) * alpha).
  Proof.
    intros RA (r & y & e & E & T & -> & M & F). unfold cf_get, cf_flow, set_fixed_rate. rewrite RA. cbn [cf_flows].
    rewrite assoc_with. unfold cf_payoff in E. rewrite E. cbn [flow_value with_rate pay cf_attr attr_model].
    rewrite (rate_details_ok fuel _ s y e fwd x); auto. cbn [bind rd_cashflow rp_amount]. f_equal. ring.
  Qed.

  Lemma coupons_flows fuel flr h v i cs h' x l s : nth_error (h_lists h) i = Some l -> hl_attr l = HForward s ->
    cf_rated (hl_list l) = true -> map fst cs = due v (hl_list l) ->
    (forall d alpha fwd, In (d, (alpha, fwd)) cs -> coupon fuel (s (h_curves h)) (cf_payoff (hl_list l) d) alpha fwd) ->
    h_curves h' = h_curves h ->
    nth_error (h_lists h') i = Some (mkHL (set_fixed_rate (hl_list l) (Some x)) (hl_attr l)) ->
    list_flows fuel flr h' v i (map (fun c => (fst c, (x + snd (snd c)) * fst (snd c))) cs).
  Proof.
    intros Hl HA RA HD HC CU HL'.
    assert (DD : cf_domain (set_fixed_rate (hl_list l) (Some x)) = cf_domain (hl_list l)) by (unfold set_fixed_rate; now rewrite RA).
    assert (DO : cf_origin0 (set_fixed_rate (hl_list l) (Some x)) = cf_origin0 (hl_list l)) by (unfold set_fixed_rate; now rewrite RA).
    assert (DR : cf_rated (set_fixed_rate (hl_list l) (Some x)) = true) by (unfold set_fixed_rate; now rewrite RA).
    exists (mkCF (cf_domain (hl_list l)) (cf_flows (set_fixed_rate (hl_list l) (Some x))) (cf_origin0 (hl_list l))
                 (LForward (s (h_curves h))) true).
    split; [|split].
    - eexists. exists (LForward (s (h_curves h))). split; [exact HL'|]. cbn [hl_list hl_attr].
      rewrite DD, DO, DR, HA, CU. auto.
    - rewrite map_map. transitivity (map fst cs); [now apply map_ext|]. rewrite HD. reflexivity.
    - intros d a I. apply in_map_iff in I. destruct I as ([d0 [al fw]] & E & I). cbn in E. injection E as <- <-.
      apply coupon_flow; auto.
  Qed.

  Lemma coupon_sum (df : D -> R) x cs :
    Rsum (map (fun da => df (fst da) * snd da) (map (fun c => (fst c, (x + snd (snd c)) * fst (snd c))) cs))
    = x * annuity df cs + floating df cs.
  Proof.
    unfold annuity, floating. induction cs as [|[d [al fw]] cs IH]; cbn [map Rsum fst snd]; [lra|].
    rewrite IH. ring.
  Qed.

  Lemma fair_evaluates fuel flr i k v target h cs disc v0 (df : D -> R) a b l : 
    nth_error (h_lists h) i = Some l ->
    coupons fuel h v0 i cs -> nth_error (h_curves h) k = Some disc -> valued_at disc v = Some v0 ->
    (forall d, In d (map fst cs) -> get_discount_factor fuel disc v0 d = Ok (df d)) ->
    evaluates (rate_only i l h) (fun x h' => nth_error (h_lists h') i = Some (mkHL (set_fixed_rate (hl_list l) (Some x)) (hl_attr l)))
       a b (fair_err fuel flr i k v target)
       (fun x => x * annuity df cs + floating df cs - target).
  Proof.
    intros HL (l' & s & Hl & HA & RA & HD & HC) Hk HV DF x h1 _ RO. assert (l' = l) by congruence. subst l'. clear HL.
    unfold fair_err, bindS.
    assert (SR : exists h2, set_rate i (Some x) h1 = (Ok tt, h2)).
    { destruct RO as (_ & _ & _ & w & W & _). unfold set_rate, bindS, get_list. rewrite (nth_res_some _ _ _ W). unfold put_list. eauto. }
    destruct SR as (h2 & E). rewrite E. destruct (set_rate_ok _ _ _ _ _ _ _ RO E) as (RO2 & N & _).
    unfold get_present_value, bindS, get_curve. pose proof RO2 as (_ & C2 & _). rewrite C2, (nth_res_some _ _ _ Hk).
    assert (PV : pv_of fuel flr disc v (PrList i) h2 = (Ok (x * annuity df cs + floating df cs), h2)).
    { replace (pv_of fuel flr disc v (PrList i) h2) with (pv_of fuel flr disc (Some v0) (PrList i) h2).
      2: { unfold pv_of. destruct v as [v|]; cbn in HV; [congruence|]. now rewrite HV. }
      rewrite (product_flows_pv _ _ _ _ _ _ (map (fun c => (fst c, (x + snd (snd c)) * fst (snd c))) cs) df).
      - now rewrite coupon_sum.
      - apply (coupons_flows fuel flr h v0 i cs h2 x l s); auto.
      - intros d y I. apply DF. apply in_map_iff in I. destruct I as (c & Ec & I). injection Ec as <- _. now apply in_map. }
    rewrite PV. exists h2. unfold ret. auto.
  Qed.

  Lemma assoc_set_in {V} (l : list (D * V)) k v q : In q (assoc_set d_eqb k v l) -> snd q = v \/ In q l.
  Proof.
    induction l as [|[k0 v0] l IH]; cbn; [intros [<-|[]]; auto|].
    destruct (d_eqb k0 k); cbn; intros [<-|I]; auto. destruct (IH I); auto.
  Qed.
  Lemma dict_of_in {V} (l : list (D * V)) k v : In (k, v) (dict_of d_eqb l) -> exists k', In (k', v) l.
  Proof.
    unfold dict_of. assert (G : forall l acc, In (k, v) (fold_left (fun d kv => assoc_set d_eqb (fst kv) (snd kv) d) l acc) ->
      (exists k', In (k', v) l) \/ exists k', In (k', v) acc).
    { clear. induction l as [|[k0 v0] l IH]; cbn [fold_left fst snd]; intros acc I; [eauto|].
      destruct (IH _ I) as [[k' J]|[k' J]]; [left; exists k'; now right|].
      apply assoc_set_in in J. cbn in J. destruct J as [->|J]; [left; exists k0; now left|eauto]. }
    intros I. destruct (G _ _ I) as [J|[k' []]]; auto.
  Qed.
  Lemma dict_of_ne {V} (l : list (D * V)) : l <> [] -> dict_of d_eqb l <> [].
  Proof.
    unfold dict_of. destruct l as [|[k v] l]; [congruence|]. intros _. cbn [fold_left].
    assert (G : forall acc : list (D * V), acc <> [] ->
      fold_left (fun d kv => assoc_set d_eqb (fst kv) (snd kv) d) l acc <> []).
    { induction l as [|[k0 v0] l IH]; cbn [fold_left]; auto. intros acc NE. apply IH.
      destruct acc as [|[k1 v1] acc]; [congruence|]. cbn. destruct (d_eqb k1 k0); discriminate. }
    apply G. discriminate.
  Qed.
  Lemma affine_continuous (u w : R) x : continuity_pt (fun x => x * u + w) x.
  Proof. apply derivable_continuous_pt. reg. Qed.
End Fair.
