(** Property C46: the fair rate. *)
From Coq Require Import Reals Lra Lia List Bool ZArith.
From Verif Require Import Num Py Spec MDates MCurve MRateCurve MOption MCashflow MBracket MPricer
  SDates SRateCurve SCashflow SPricer SBracket SYield LBase LSort LDates LDateCurve LCashflow LRateCurve LPricer
  LPricer2 LBracket LYield LFair PBracket PCashflow PPricer2.
Import ListNotations.
Open Scope R_scope.

Section Fair.
  Context {D P : Type} (DS : DateSys R D P) (DC : DayCounts R D).
  Implicit Types (h : heap R D P) (disc : rcurve R D P) (cs : list (D * (R * R))) (x y : R).

  (** after assigning the fixed rate x the list is worth x times the annuity plus the value
      of its floating part *)
  Theorem C46_affine : forall fuel flr h i k v disc v0 cs df x h',
    coupons fuel h v0 i cs -> nth_error (h_curves h) k = Some disc -> valued_at disc v = Some v0 ->
    (forall d, In d (map fst cs) -> get_discount_factor fuel disc v0 d = Ok (df d)) ->
    set_rate i (Some x) h = (Ok tt, h') ->
    returns (get_present_value fuel flr (PrList i) k v) h' (x * annuity df cs + floating df cs).
  Proof.
    intros fuel flr h i k v disc v0 cs df x h' CO Hk HV DF E. pose proof CO as (l & s & Hl & _).
    destruct (fair_evaluates fuel flr i k v 0 h cs disc v0 df x x l Hl CO Hk HV DF x h (inside_l x x) (rate_only_refl i l h Hl))
      as (h2 & Q & _). unfold fair_err, bindS in Q. rewrite E in Q. unfold returns.
    destruct (get_present_value fuel flr (PrList i) k v h') as [[z|e] h3] eqn:G; [|discriminate].
    pose proof (pv_still _ _ _ _ _ _ _ _ G). subst h3. unfold ret in Q. injection Q as Q _.
    change (nsub z 0) with (z - 0) in Q. do 2 f_equal. lra.
  Qed.

  (** the result: with the rate y the list is worth the target up to the precision; y is
      nearer than half the precision to the unique par rate; the list is as it was *)
  Theorem C46_fair_rate : forall fuel flr h i k v disc v0 cs df target precision a b y h' l r,
    coupons fuel h v0 i cs -> nth_error (h_curves h) k = Some disc -> valued_at disc v = Some v0 ->
    (forall d, In d (map fst cs) -> get_discount_factor fuel disc v0 d = Ok (df d)) ->
    nth_error (h_lists h) i = Some l -> fixed_rate (hl_list l) = Ok (Some r) ->
    get_fair_rate fuel flr (PrList i) k v target precision a b h = (Ok y, h') ->
    h' = h /\ inside a b y /\
    (exists hy z, set_rate i (Some y) h = (Ok tt, hy) /\
       returns (get_present_value fuel flr (PrList i) k v) hy z /\ Rabs (z - target) < precision) /\
    (annuity df cs <> 0 -> Rabs (y - (target - floating df cs) / annuity df cs) < precision / 2).
  Proof.
    intros fuel flr h i k v disc v0 cs df target precision a b y h' l r CO Hk HV DF Hl Hr H.
    split. { eapply C42_fair_rate; eauto. }
    pose proof (fair_evaluates fuel flr i k v target h cs disc v0 df a b l Hl CO Hk HV DF) as EV.
    unfold get_fair_rate in H. apply bind_ok in H. destruct H as (l' & h1 & E & H).
    unfold get_list in E. injection E as E <-. apply nth_res_get in E. assert (l' = l) by congruence. subst l'.
    apply bind_ok in H. destruct H as (r' & h1 & E' & H). unfold lift in E'. injection E' as E' <-.
    apply bind_ok in H. destruct H as ([[a' m] b'] & h1 & B & H).
    apply bind_ok in H. destruct H as (u & h2 & S & H). unfold ret in H. cbn [fst snd] in H. injection H as <- _.
    pose proof (rate_only_refl i l h Hl) as J.
    destruct (C43_bracket _ _ _ _ _ _ _ _ _ _ _ _ _ EV J B) as (_ & _ & _ & M & Ia & Ib & _).
    split.
    { apply (inside_sub a b a' b'); auto. rewrite M. unfold inside, Rmin, Rmax. destruct (Rle_dec a' b'); lra. }
    split.
    - assert (SR : exists hy, set_rate i (Some m) h = (Ok tt, hy)).
      { unfold set_rate, bindS, get_list. rewrite (nth_res_some _ _ _ Hl). unfold put_list. eauto. }
      destruct SR as (hy & Ey). exists hy, (m * annuity df cs + floating df cs). split; auto. split.
      + eapply C46_affine; eauto.
      + destruct (C43_values _ _ _ _ _ _ _ _ _ _ _ _ _ EV J B) as (_ & _ & Q). apply Q.
        destruct (Rle_dec 0 (annuity df cs)) as [G|G].
        * left. intros x z _ _ LE. pose proof (Rmult_le_compat_r _ _ _ G LE). lra.
        * right. intros x z _ _ LE. pose proof (Rmult_le_compat_r (- annuity df cs) _ _ ltac:(lra) LE). lra.
    - intros NZ.
      assert (CT : forall x, inside a b x -> continuity_pt (fun x => x * annuity df cs + floating df cs - target) x).
      { intros x _. apply continuity_pt_minus; [apply affine_continuous|]. apply continuity_const. intros ? ?. reflexivity. }
      destruct (C43_root _ _ _ _ _ _ _ _ _ _ _ _ _ EV J CT B) as (x & Z & _ & Q).
      replace ((target - floating df cs) / annuity df cs) with x.
      + rewrite <- Rabs_Ropp. now replace (- (m - x)) with (x - m) by ring.
      + replace (target - floating df cs) with (x * annuity df cs) by lra. field. auto.
  Qed.

  (** the search ends with a result if the target lies between the values at the bounds *)
  Theorem C46_returns : forall flr h i k v disc v0 cs df target precision a b l r n0,
    (forall fuel, (n0 <= fuel)%nat -> coupons fuel h v0 i cs /\
       forall d, In d (map fst cs) -> get_discount_factor fuel disc v0 d = Ok (df d)) ->
    nth_error (h_curves h) k = Some disc -> valued_at disc v = Some v0 ->
    nth_error (h_lists h) i = Some l -> fixed_rate (hl_list l) = Ok (Some r) -> 0 < precision ->
    (a * annuity df cs + floating df cs <= target <= b * annuity df cs + floating df cs \/
     b * annuity df cs + floating df cs <= target <= a * annuity df cs + floating df cs) ->
    exists n, forall fuel, (n <= fuel)%nat -> exists y,
      get_fair_rate fuel flr (PrList i) k v target precision a b h = (Ok y, h).
  Proof.
    intros flr h i k v disc v0 cs df target precision a b l r n0 F Hk HV Hl Hr HP SC.
    destruct (uniform_search (rate_only i l h)
      (fun x h' => nth_error (h_lists h') i = Some (mkHL (set_fixed_rate (hl_list l) (Some x)) (hl_attr l)))
      (fun x => x * annuity df cs + floating df cs - target) a b precision) as (n & HN).
    { unfold sign_change. lra. }
    { exact HP. }
    { intros x _. apply continuity_pt_minus; [apply affine_continuous|]. apply continuity_const. intros ? ?. reflexivity. }
    exists (S (n + n0)). intros fuel LE. destruct (F fuel ltac:(lia)) as [CO DF].
    pose proof (fair_evaluates fuel flr i k v target h cs disc v0 df a b l Hl CO Hk HV DF) as EV.
    destruct (HN fuel _ h ltac:(lia) EV (rate_only_refl i l h Hl)) as (a' & y & b' & s & Q & RO).
    exists y.
    assert (G : exists h', get_fair_rate fuel flr (PrList i) k v target precision a b h = (Ok y, h')).
    { unfold get_fair_rate, bindS, get_list, lift. rewrite (nth_res_some _ _ _ Hl), Hr, Q.
      unfold set_rate, bindS, get_list. destruct RO as (_ & _ & _ & w & W & _). rewrite (nth_res_some _ _ _ W).
      unfold put_list, ret. eauto. }
    destruct G as (h' & G). rewrite G. f_equal. eapply C42_fair_rate; eauto.
  Qed.

  (** the rate of a list built with one rate for all periods can be read and is that rate *)
  Theorem C46_getter : forall dates amounts o count fixing payo x fwd c,
    ratelist_new dates amounts o count fixing payo x fwd = Ok c -> dates <> [] ->
    cf_rated c = true /\ fixed_rate c = Ok (Some x).
  Proof.
    intros dates amounts o count fixing payo x fwd c H NE. unfold ratelist_new in H.
    destruct (start_dates o dates) as [starts|]; [|discriminate]. cbn [bind] in H.
    destruct (rate_payoffs _ _ _ _ _ _ _) as [rs|] eqn:E; [|discriminate]. cbn [bind] in H.
    destruct (cf_new_inv _ _ _ _ _ _ H) as [LEN ->]. cbn [spread_arg] in LEN |- *. rewrite map_length in LEN.
    split; [reflexivity|]. unfold fixed_rate. cbn [cf_rated cf_flows].
    assert (A : forall r, In r rs -> rp_rate r = Some x).
    { unfold rate_payoffs in E. apply mapM_inv in E. clear - E. induction E as [|[[s e] n] r l rs H E IH]; [easy|].
      intros r' [<-|I]; auto. cbn in H. destruct (offset e payo); [|discriminate]. cbn [bind] in H.
      destruct (offset s payo); [|discriminate]. cbn [bind] in H. injection H as <-. reflexivity. }
    set (fl := dict_of d_eqb (combine dates (map (fun r => FlPay (PRate r)) rs))).
    assert (B : forall k f, In (k, f) fl -> flow_rate f = Ok (Some x)).
    { intros k f I. apply dict_of_in in I. destruct I as [k' I]. apply in_combine_r in I. apply in_map_iff in I.
      destruct I as (r & <- & I). cbn. f_equal. auto. }
    assert (C : fl <> []).
    { destruct dates as [|d dates]; [congruence|]. destruct rs as [|r rs]; [discriminate|].
      unfold fl. cbn [combine map]. apply dict_of_ne. discriminate. }
    clearbody fl. clear - B C.
    assert (M : mapM (fun kf => flow_rate (snd kf)) fl = Ok (map (fun _ => Some x) fl)).
    { clear C. induction fl as [|[k f] fl IH]; cbn [mapM map snd]; auto. rewrite (B k f) by now left. cbn [bind].
      rewrite IH; auto. intros. apply (B k0). now right. }
    rewrite M. cbn [bind]. destruct fl as [|kf fl]; [congruence|]. cbn [map].
    replace (forallb _ _) with true; auto. symmetry. apply forallb_forall. intros y I. apply in_map_iff in I.
    destruct I as (z & <- & _). now apply rate_eqb_eq.
  Qed.

  (** REFUTED for lists whose flows have different rates: the common rate reads as None, this
      is what is assigned afterwards, and no coupon of the list can be computed any more *)
  Theorem C46_different_rates_refuted : forall fuel flr h i k v disc v0 cs df target precision a b y h' l,
    coupons fuel h v0 i cs -> nth_error (h_curves h) k = Some disc -> valued_at disc v = Some v0 ->
    (forall d, In d (map fst cs) -> get_discount_factor fuel disc v0 d = Ok (df d)) ->
    nth_error (h_lists h) i = Some l -> fixed_rate (hl_list l) = Ok None ->
    get_fair_rate fuel flr (PrList i) k v target precision a b h = (Ok y, h') ->
    exists c, seen h' v0 i c /\ forall d, In d (map fst cs) -> cf_get fuel flr c d = Err TypeError.
  Proof.
    intros fuel flr h i k v disc v0 cs df target precision a b y h' l CO Hk HV DF Hl Hr H.
    pose proof (fair_evaluates fuel flr i k v target h cs disc v0 df a b l Hl CO Hk HV DF) as EV.
    unfold get_fair_rate in H. apply bind_ok in H. destruct H as (l' & h1 & E & H).
    unfold get_list in E. injection E as E <-. apply nth_res_get in E. assert (l' = l) by congruence. subst l'.
    apply bind_ok in H. destruct H as (r' & h1 & E' & H). unfold lift in E'. injection E' as E' <-.
    assert (r' = None) by congruence. subst r'.
    apply bind_ok in H. destruct H as ([[a' m] b'] & h1 & B & H).
    apply bind_ok in H. destruct H as (u & h2 & S & H). unfold ret in H. injection H as _ <-.
    destruct (C43_bracket _ _ _ _ _ _ _ _ _ _ _ _ _ EV (rate_only_refl i l h Hl) B) as (_ & _ & _ & _ & _ & _ & RO & _).
    destruct (set_rate_ok _ _ _ _ _ _ _ RO S) as ((_ & C & _) & N & _).
    destruct CO as (l' & s & Hl' & HA & RA & HD & HC). assert (l' = l) by congruence. subst l'.
    eexists. split.
    { eexists. exists (LForward (s (h_curves h))). split; [exact N|]. split; [reflexivity|]. cbn [hl_attr]. now rewrite HA, C. }
    intros d I. apply in_map_iff in I. destruct I as ([d0 [al fw]] & Ed & I). cbn in Ed. subst d0.
    destruct (HC _ _ _ I) as (r & z & e & P1 & P2 & _ & P4 & P5). cbn [hl_list].
    unfold cf_get, cf_flow, set_fixed_rate. rewrite RA. cbn [cf_flows cf_attr attr_model]. rewrite assoc_with.
    unfold cf_payoff in P1. rewrite P1. cbn [flow_value with_rate pay]. unfold rate_details.
    cbn [rp_count rp_start rp_end rp_fixing rp_rate rp_amount]. rewrite P2. cbn [bind].
    cbn [pm_truthy pm_source]. destruct (src_truthy (s (h_curves h))) eqn:Q.
    - apply moved_offset in P4. rewrite P4. cbn [bind]. now rewrite (forward_ok _ _ _ _ P5 Q).
    - reflexivity.
  Qed.

  (** leg lists have no fixed rate *)
  Theorem C46_legs : forall fuel flr legs dom o k v target precision a b h,
    get_fair_rate fuel flr (PrLegs legs dom o) k v target precision a b h = (Err AttributeError, h).
  Proof. reflexivity. Qed.
End Fair.
Print Assumptions C46_affine.
Print Assumptions C46_fair_rate.
Print Assumptions C46_returns.
Print Assumptions C46_getter.
Print Assumptions C46_different_rates_refuted.
Print Assumptions C46_legs.

(** instance: yearly coupons on 100 for two years, no discounting, to be worth 20 *)
#[local] Instance no_counts {D} : DayCounts R D := [].
Example C46_example : exists l disc,
  ratelist_new (DS := FloatDates (T:=R)) [1; 2] (Many [100; 100]) (Some 0) DcDefault None None (5/100) FwNone = Ok l /\
  rc_new (DS := FloatDates (T:=R)) CZeroRate [0] [0] None None DcDefault None = Ok disc /\
  let h := mkH [disc] [] [mkHL l (HForward (fun _ => FwNone))] in
  exists n, forall fuel, (n <= fuel)%nat -> exists y,
    get_fair_rate fuel None (PrList 0) 0 None 20 (1/1000) 0 1 h = (Ok y, h) /\ Rabs (y - 1/10) < 1/2000.
Proof.
  assert (ND : NoDup (map (fun d : R => d) [1; 2])).
  { repeat constructor; cbn; intuition lra. }
  destruct (C38_total FloatDates [1; 2] [100; 100] 0 DcDefault None None (5/100) FwNone I) as (T & _ & _).
  destruct (T ltac:(cbn; lia)) as (l & E). clear T.
  destruct (flat_zero (DC := no_counts) (L:=float_laws) 0 0 None) as (disc & ED & HO & _ & DF).
  exists l, disc. split; [exact E|]. split; [exact ED|]. cbv zeta. set (h := mkH [disc] [] [mkHL l (HForward (fun _ => FwNone))]).
  destruct (C38_periods FloatDates (fun d => d) float_laws [1; 2] [100; 100] 0 DcDefault None None (5/100) FwNone l E ND)
    as (_ & HD & PE).
  destruct (C46_getter FloatDates [1; 2] (Many [100; 100]) (Some 0) DcDefault None None (5/100) FwNone l E ltac:(discriminate)) as [RA FR].
  assert (CO : forall fuel, coupons fuel h 0 0 [(1, (100, 0)); (2, (100, 0))]).
  { intros fuel. exists (mkHL l (HForward (fun _ => FwNone))), (fun _ => FwNone). split; [reflexivity|]. split; [reflexivity|].
    split; [exact RA|]. split.
    - unfold due. cbn [hl_list]. rewrite HD. cbn [map fst filter d_leb FloatDates nleb Rnum]. unfold Rleb.
      destruct (Rle_dec 0 1), (Rle_dec 0 2); try lra. reflexivity.
    - intros d al fw [J|[J|[]]]; injection J as <- <- <-; cbn [hl_list].
      + destruct (PE 0%nat 0 1 100 eq_refl eq_refl eq_refl) as (s' & e' & M1 & M2 & Q). cbn in M1, M2. subst s' e'.
        eexists. exists 1, 0. split; [exact Q|]. cbn. split; [|split; [lra|auto]].
        change (@Ok R (1 - 0) = Ok 1). f_equal. lra.
      + destruct (PE 1%nat 1 2 100 eq_refl eq_refl eq_refl) as (s' & e' & M1 & M2 & Q). cbn in M1, M2. subst s' e'.
        eexists. exists 1, 1. split; [exact Q|]. cbn. split; [|split; [lra|auto]].
        change (@Ok R (2 - 1) = Ok 1). f_equal. lra. }
  set (df := fun d : R => 1).
  assert (DF' : forall fuel, (2 <= fuel)%nat -> forall d, In d (map fst [(1, (100, 0)); (2, (100, 0))]) ->
     get_discount_factor fuel disc 0 d = Ok (df d)).
  { intros fuel LE d _. destruct fuel as [|[|m]]; [lia|lia|]. rewrite DF. unfold df. f_equal.
    transitivity (exp 0); [f_equal; ring|apply exp_0]. }
  assert (AN : annuity df [(1, (100, 0)); (2, (100, 0))] = 200) by (unfold annuity, df; cbn; lra).
  assert (FL : floating df [(1, (100, 0)); (2, (100, 0))] = 0) by (unfold floating, df; cbn; lra).
  destruct (C46_returns FloatDates no_counts None h 0 0 None disc 0 [(1, (100, 0)); (2, (100, 0))] df 20 (1/1000) 0 1
     (mkHL l (HForward (fun _ => FwNone))) (5/100) 2) as (n & HN); auto.
  { lra. }
  { rewrite AN, FL. lra. }
  exists (n + 2)%nat. intros fuel LE. destruct (HN fuel ltac:(lia)) as (y & Hy). exists y. split; auto.
  destruct (C46_fair_rate FloatDates no_counts fuel None h 0 0 None disc 0 [(1, (100, 0)); (2, (100, 0))] df 20 (1/1000) 0 1 y h
     (mkHL l (HForward (fun _ => FwNone))) (5/100)) as (_ & _ & _ & Q); auto.
  { apply DF'. lia. }
  rewrite AN, FL in Q. specialize (Q ltac:(lra)). replace (1/10) with ((20 - 0)/200) by lra.
  replace (1/2000) with (1/1000/2) by lra. exact Q.
Qed.
