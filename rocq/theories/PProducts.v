(** Properties C62, C63, C76: bonds and swaps. *)
From Coq Require Import Reals Lra Lia List Bool ZArith.
From Coq Require String.
Import String.StringSyntax.
From Verif Require Import Num Py Spec MDates MPlans MCurve MRateCurve MOption MCashflow MProducts
  SDates SCashflow SProducts LBase LDates LPlans LCashflow PCashflow.
Import ListNotations.
Open Scope R_scope.

Section Products.
  Context {D P : Type} (DS : DateSys R D P) (DC : DayCounts R D) (tm : D -> R) (L : DateLaws DS tm).
  Implicit Types (start stop d : D) (ds : list D).

  Lemma fixed_made dates amounts origin (l : cflist R D P) : fixed_new dates (Many amounts) origin = Ok l ->
    made l /\ cf_origin0 l = origin.
  Proof.
    unfold fixed_new. intros H. split; [do 5 eexists; exact H|].
    destruct (cf_new_inv _ _ _ _ _ _ H) as [_ ->]. reflexivity.
  Qed.
  Lemma rate_made dates amounts origin count fixing payo c fwd (l : cflist R D P) :
    ratelist_new dates (Many amounts) origin count fixing payo c fwd = Ok l -> made l /\ cf_origin0 l = origin /\ cf_domain l = dates.
  Proof.
    unfold ratelist_new. intros H. destruct (start_dates origin dates); [|discriminate]. cbn [bind] in H.
    destruct (rate_payoffs _ _ _ _ _ _ _); [|discriminate]. cbn [bind] in H. split; [do 5 eexists; exact H|].
    destruct (cf_new_inv _ _ _ _ _ _ H) as [_ ->]. split; reflexivity.
  Qed.
  Lemma two_legs start (a b : cflist R D P) : cf_origin0 a = Some start -> cf_origin0 b = Some start -> exists ll, legs_new [a; b] = Ok ll.
  Proof.
    intros A B. destruct (C39_origin DS tm L [a; b] [start; start]) as (ll & _ & E & _); [discriminate| |eauto].
    cbn. unfold cf_origin, dom_origin. now rewrite A, B.
  Qed.
  Lemma notionals_length : forall l (o : R), length (interest_notionals o l) = length l.
  Proof. induction l; intros o; cbn; auto. Qed.
  Lemma notionals_nth : forall l (o : R) i, (i < length l)%nat -> nth_error (interest_notionals o l) i = Some (o - Rsum (firstn i l)).
  Proof.
    induction l as [|x l IH]; intros o i H; cbn in H; [lia|]. destruct i as [|i]; cbn [interest_notionals nth_error firstn].
    - cbn. f_equal. lra.
    - rewrite IH by lia. cbn. rn. f_equal. lra.
  Qed.
  Lemma remaining_split l i : Rsum (firstn i l) + remaining l i = Rsum l.
  Proof. unfold remaining. rewrite <- Rsum_app, firstn_skipn. reflexivity. Qed.

  (** the coupons of a rate leg *)
  Lemma coupons fuel flr count fixing payo c fwd start ds ns (l : cflist R D P) :
    ratelist_new ds (Many ns) (Some start) count fixing payo c fwd = Ok l -> NoDup (map tm ds) ->
    (forall i s e n x d, nth_error (start :: ds) i = Some s -> nth_error ds i = Some e -> nth_error ns i = Some n ->
       interest fuel count fixing payo c fwd s e x -> tm d = tm e -> cf_get fuel flr l d = Ok (x * n)) /\
    (forall d, ~ In (tm d) (map tm ds) -> cf_get fuel flr l d = Ok 0).
  Proof.
    intros H ND. split.
    - intros i s e n x d I1 I2 I3 (s' & e' & d0 & f & tau & M1 & M2 & M3 & F & T & ->) E.
      apply (C38_flow DS DC tm L fuel flr ds ns start count fixing payo c fwd l H ND i s e n s' e' d0 f tau I1 I2 I3 M1 M2 M3 F T).
      now apply (eqb_t (tm:=tm)).
    - intros d NI. destruct (rate_made _ _ _ _ _ _ _ _ _ H) as (M & _ & DM).
      unfold cf_get, cf_flow. rewrite (made_none (tm:=tm) l d M); [reflexivity|].
      rewrite DM. destruct (mem d_eqb d ds) eqn:B; auto. destruct NI.
      unfold mem in B. apply existsb_exists in B. destruct B as (y & J & B). apply (eqb_inv (tm:=tm)) in B.
      rewrite <- B. now apply in_map.
  Qed.
  Lemma fixed_flows fuel flr dates amounts origin (l : cflist R D P) : fixed_new dates (Many amounts) origin = Ok l -> NoDup (map tm dates) ->
    (forall i d e a, nth_error dates i = Some e -> nth_error amounts i = Some a -> tm d = tm e -> cf_get fuel flr l d = Ok a) /\
    (forall d, ~ In (tm d) (map tm dates) -> cf_get fuel flr l d = Ok 0).
  Proof.
    intros H ND. destruct (C37_fixed DS DC tm L fuel flr dates amounts origin l H ND) as (_ & _ & V & Z). split; auto.
    intros i d e a I1 I2 E. apply (V i e a I1 I2). now apply (eqb_t (tm:=tm)).
  Qed.
  Lemma sum_legs fuel flr (a b : cflist R D P) ll d x y : legs_new [a; b] = Ok ll -> made a -> made b ->
    cf_get fuel flr a d = Ok x -> cf_get fuel flr b d = Ok y -> ll_get fuel flr ll d = Ok (x + y).
  Proof.
    intros H A B X Y. rewrite (C39_get DS DC tm L fuel flr [a; b] ll d [x; y] H); auto. f_equal. cbn. lra.
  Qed.

  (** * C62 *)
  (** a list of redemptions *)
  Theorem C62_redemptions : forall fuel flr f times n start stop period ds l count c fwd fixing payo ll,
    f start stop period = Ok ds -> NoDup (map tm (start :: ds)) ->
    bond (Some f) times n start stop period (Many l) count c fwd fixing payo = Ok ll ->
    length l = length ds /\
    (forall d, tm d = tm start -> ll_get fuel flr ll d = Ok (- Rsum l)) /\
    (forall i s e p x d, nth_error (start :: ds) i = Some s -> nth_error ds i = Some e -> nth_error l i = Some p ->
       interest fuel count fixing payo c fwd s e x -> tm d = tm e ->
       ll_get fuel flr ll d = Ok (p + x * remaining l i)) /\
    (forall d, ~ In (tm d) (map tm (start :: ds)) -> ll_get fuel flr ll d = Ok 0).
  Proof.
    intros fuel flr f times n start stop period ds l count c fwd fixing payo ll S ND H.
    unfold bond, interest_payment_dates in H. rewrite S in H. cbn [bind] in H.
    destruct (length l =? length ds)%nat eqn:EL; [|discriminate]. cbn [negb bind] in H. apply Nat.eqb_eq in EL. split; [exact EL|].
    destruct (fixed_new _ _ _) as [nl|] eqn:EN; [|discriminate]. cbn [bind] in H.
    destruct (ratelist_new _ _ _ _ _ _ _ _) as [cl|] eqn:EC; [|discriminate]. cbn [bind] in H.
    destruct (fixed_made _ _ _ _ EN) as (MN & _). destruct (rate_made _ _ _ _ _ _ _ _ _ EC) as (MC & _).
    destruct (fixed_flows fuel flr _ _ _ _ EN ND) as (FV & FZ).
    assert (ND' : NoDup (map tm ds)) by (now inversion ND).
    destruct (coupons fuel flr _ _ _ _ _ _ _ _ _ EC ND') as (CV & CZ).
    assert (NI : ~ In (tm start) (map tm ds)) by (now inversion ND).
    rewrite nsum_Rsum in *. split; [|split].
    - intros d E. rewrite (sum_legs fuel flr nl cl ll d (- Rsum l) 0 H MN MC); [f_equal; lra| |].
      + now apply (FV 0%nat d start).
      + apply CZ. now rewrite E.
    - intros i s e p x d I1 I2 I3 X E. apply (sum_legs fuel flr nl cl ll d p _ H MN MC).
      + now apply (FV (Datatypes.S i) d e).
      + apply (CV i s e _ x d I1 I2); auto. rewrite notionals_nth.
        * f_equal. pose proof (remaining_split l i). lra.
        * apply nth_error_Some. congruence.
    - intros d N. cbn in N. rewrite (sum_legs fuel flr nl cl ll d 0 0 H MN MC); [f_equal; lra| |]; auto.
  Qed.

  (** the balance the interest is paid on is the plan [outstanding] of the redemptions *)
  Theorem C62_outstanding : forall (l : list R) i, (i < length l)%nat -> remaining l i = nth i (outstanding l (Rsum l) false) 0.
  Proof.
    intros l i H. rewrite outstanding_nth by auto. pose proof (remaining_split l i). lra.
  Qed.

  (** a single notional amount *)
  Theorem C62_bullet : forall fuel flr f times n start stop period ds N count c fwd fixing payo ll,
    f start stop period = Ok ds -> NoDup (map tm (start :: ds)) -> tm start <> tm stop ->
    bond (Some f) times n start stop period (One N) count c fwd fixing payo = Ok ll ->
    (forall d, tm d = tm start -> ll_get fuel flr ll d = Ok (- N)) /\
    (forall i s e x d, nth_error (start :: ds) i = Some s -> nth_error ds i = Some e ->
       interest fuel count fixing payo c fwd s e x -> tm d = tm e ->
       (tm e <> tm stop -> ll_get fuel flr ll d = Ok (x * N)) /\
       (tm e = tm stop -> ll_get fuel flr ll d = Ok (N + x * N))) /\
    (forall d, tm d = tm stop -> ~ In (tm d) (map tm ds) -> ll_get fuel flr ll d = Ok N) /\
    (forall d, ~ In (tm d) (map tm (start :: stop :: ds)) -> ll_get fuel flr ll d = Ok 0).
  Proof.
    intros fuel flr f times n start stop period ds N count c fwd fixing payo ll S ND NE H.
    unfold bond, interest_payment_dates in H. rewrite S in H. cbn [bind] in H.
    destruct (fixed_new _ _ _) as [nl|] eqn:EN; [|discriminate]. cbn [bind] in H.
    destruct (ratelist_new _ _ _ _ _ _ _ _) as [cl|] eqn:EC; [|discriminate]. cbn [bind] in H.
    destruct (fixed_made _ _ _ _ EN) as (MN & _). destruct (rate_made _ _ _ _ _ _ _ _ _ EC) as (MC & _).
    assert (ND2 : NoDup (map tm [start; stop])).
    { cbn. constructor; [intros [E|[]]; congruence|]. constructor; auto. constructor. }
    destruct (fixed_flows fuel flr _ _ _ _ EN ND2) as (FV & FZ).
    assert (ND' : NoDup (map tm ds)) by (now inversion ND).
    destruct (coupons fuel flr _ _ _ _ _ _ _ _ _ EC ND') as (CV & CZ).
    assert (NI : ~ In (tm start) (map tm ds)) by (now inversion ND). split; [|split; [|split]].
    - intros d E. rewrite (sum_legs fuel flr nl cl ll d (- N) 0 H MN MC); [f_equal; lra| |].
      + now apply (FV 0%nat d start).
      + apply CZ. now rewrite E.
    - intros i s e x d I1 I2 X E.
      assert (C : cf_get fuel flr cl d = Ok (x * N)).
      { apply (CV i s e N x d I1 I2); auto. apply nth_error_repeat. apply nth_error_Some. congruence. }
      assert (NS : tm d <> tm start).
      { rewrite E. intros Q. apply NI. rewrite <- Q. apply in_map. eapply nth_error_In; eauto. }
      split; intros Q.
      + rewrite (sum_legs fuel flr nl cl ll d 0 (x * N) H MN MC); auto; [f_equal; lra|].
        apply FZ. cbn. intros [Z|[Z|[]]]; congruence.
      + apply (sum_legs fuel flr nl cl ll d N (x * N) H MN MC); auto. apply (FV 1%nat d stop); auto. congruence.
    - intros d E NIN. rewrite (sum_legs fuel flr nl cl ll d N 0 H MN MC); auto; [f_equal; lra|]. now apply (FV 1%nat d stop).
    - intros d NIN. cbn in NIN. rewrite (sum_legs fuel flr nl cl ll d 0 0 H MN MC); auto; [f_equal; lra| |].
      + apply FZ. cbn. tauto.
      + apply CZ. tauto.
  Qed.

  (** it returns: always for a single notional, for a list if there is one redemption per
      payment date *)
  Theorem C62_returns : forall f times n start stop period ds notional count c fwd fixing payo,
    f start stop period = Ok ds -> no_offset payo ->
    match notional with One _ => True | Many l => length l = length ds end ->
    exists ll, bond (Some f) times n start stop period notional count c fwd fixing payo = Ok ll.
  Proof.
    intros f times n start stop period ds notional count c fwd fixing payo S NO LE.
    unfold bond, interest_payment_dates. rewrite S. cbn [bind].
    assert (G : forall dates amounts ns, length amounts = length dates -> length ns = length ds -> exists ll,
      (nl <- fixed_new dates (Many amounts) (Some start) ;;
       cl <- ratelist_new ds (Many ns) (Some start) count fixing payo c fwd ;; legs_new [nl; cl]) = Ok ll).
    { intros dates amounts ns LA LN. unfold fixed_new. rewrite cf_new_ok by (cbn [spread_arg]; now rewrite map_length).
      cbn [bind]. destruct (proj1 (C38_total DS ds ns start count fixing payo c fwd NO)) as (cl & EC); [lia|].
      rewrite EC. cbn [bind]. apply (two_legs start); [reflexivity|]. now apply (rate_made _ _ _ _ _ _ _ _ _ EC). }
    destruct notional as [N|l]; cbn [bind].
    - apply G; [reflexivity|]. apply repeat_length.
    - rewrite LE, Nat.eqb_refl. cbn [negb bind]. apply G; [cbn; now rewrite LE|]. now rewrite notionals_length.
  Qed.

  (** ... and a plan of another length is refused *)
  Theorem C62_plan_length : forall f times n start stop period ds l count c fwd fixing payo,
    f start stop period = Ok ds -> length l <> length ds ->
    bond (Some f) times n start stop period (Many l) count c fwd fixing payo = Err ValueError.
  Proof.
    intros f times n start stop period ds l count c fwd fixing payo S LE.
    unfold bond, interest_payment_dates. rewrite S. cbn [bind]. apply Nat.eqb_neq in LE. now rewrite LE.
  Qed.

  (** the default day count is a string, which payoffs do not look up: no interest payment
      has an amount *)
  Theorem C62_day_count_refuted : forall fuel flr f times n start stop period ds N c fwd fixing payo ll name e,
    f start stop period = Ok ds -> NoDup (map tm (start :: ds)) -> name <> String.EmptyString -> tm start <> tm stop ->
    bond (Some f) times n start stop period (One N) (DcName name) c fwd fixing payo = Ok ll ->
    In e ds -> ll_get fuel flr ll e = Err TypeError.
  Proof.
    intros fuel flr f times n start stop period ds N c fwd fixing payo ll name e S ND NN NE H I.
    unfold bond, interest_payment_dates in H. rewrite S in H. cbn [bind] in H.
    destruct (fixed_new _ _ _) as [nl|] eqn:EN; [|discriminate]. cbn [bind] in H.
    destruct (ratelist_new _ _ _ _ _ _ _ _) as [cl|] eqn:EC; [|discriminate]. cbn [bind] in H.
    destruct (legs_inv DS _ _ H) as (o & _ & ->). clear H.
    assert (ND' : NoDup (map tm ds)) by (now inversion ND).
    destruct (C38_periods DS tm L _ _ _ _ _ _ _ _ _ EC ND') as (_ & DM & PP).
    destruct (In_nth_error _ _ I) as [i J].
    assert (exists s, nth_error (start :: ds) i = Some s) as (s & J0).
    { assert (i < length (start :: ds))%nat as Q by (assert (i < length ds)%nat by (apply nth_error_Some; congruence); cbn; lia).
      apply nth_error_Some in Q. destruct (nth_error (start :: ds) i); [eauto|congruence]. }
    assert (J1 : nth_error (repeat N (length ds)) i = Some N) by (apply nth_error_repeat; apply nth_error_Some; congruence).
    destruct (PP i s e N J0 J J1) as (s' & e' & _ & _ & PO).
    assert (CE : cf_get fuel flr cl e = Err TypeError).
    { unfold cf_payoff in PO. unfold cf_get, cf_flow. rewrite PO. cbn [flow_value pay]. unfold rate_details. cbn [rp_count pay_count].
      destruct (String.eqb name String.EmptyString) eqn:B; [apply String.eqb_eq in B; contradiction|]. reflexivity. }
    assert (MC : mem d_eqb e (cf_domain cl) = true).
    { rewrite DM. unfold mem. apply existsb_exists. exists e. split; auto. apply (eqb_refl (L:=L)). }
    unfold ll_get. cbn [ll_legs filter]. rewrite MC.
    destruct (mem d_eqb e (cf_domain nl)) eqn:MN; cbn [mapM]; rewrite CE; cbn [bind]; [|reflexivity].
    assert (ND2 : NoDup (map tm [start; stop])).
    { cbn. constructor; [intros [E|[]]; congruence|]. constructor; auto. constructor. }
    destruct (fixed_flows fuel flr _ _ _ _ EN ND2) as (FV & FZ).
    assert (DN : cf_domain nl = [start; stop]) by (now apply (C37_fixed DS DC tm L fuel flr _ _ _ _ EN ND2)).
    rewrite DN in MN. unfold mem in MN. cbn in MN. apply orb_true_iff in MN. destruct MN as [B|B].
    - apply (eqb_inv (tm:=tm)) in B. rewrite (FV 0%nat e start (- N)); auto.
    - rewrite orb_false_r in B. apply (eqb_inv (tm:=tm)) in B. rewrite (FV 1%nat e stop N); auto.
  Qed.

  (** * C76: swaps *)
  (** the flows of a swap: received minus paid *)
  Theorem C76_flows : forall fuel flr f times n start stop period ds N count c fwd fixing payo period' ds' count' c' fwd' ll,
    f start stop period = Ok ds -> NoDup (map tm ds) -> f start stop period' = Ok ds' -> NoDup (map tm ds') ->
    interest_rate_swap (Some f) times n start stop period N count c fwd fixing payo period' count' c' fwd' = Ok ll ->
    forall d x y, leg_pays tm fuel count fixing payo c fwd start ds N d x ->
      leg_pays tm fuel count' fixing payo c' fwd' start ds' N d y -> ll_get fuel flr ll d = Ok (y - x).
  Proof.
    intros fuel flr f times n start stop period ds N count c fwd fixing payo period' ds' count' c' fwd' ll S ND S' ND' H d x y X Y.
    unfold interest_rate_swap, interest_payment_dates in H. rewrite S, S' in H. cbn [bind] in H.
    destruct (ratelist_new ds _ _ _ _ _ _ _) as [pl|] eqn:EP; [|discriminate]. cbn [bind] in H.
    destruct (ratelist_new ds' _ _ _ _ _ _ _) as [rl|] eqn:ER; [|discriminate]. cbn [bind] in H.
    destruct (rate_made _ _ _ _ _ _ _ _ _ EP) as (MP & _). destruct (rate_made _ _ _ _ _ _ _ _ _ ER) as (MR & _).
    destruct (coupons fuel flr _ _ _ _ _ _ _ _ _ EP ND) as (PV & PZ).
    destruct (coupons fuel flr _ _ _ _ _ _ _ _ _ ER ND') as (RV & RZ).
    rewrite (sum_legs fuel flr pl rl ll d (- x) y H MP MR); [f_equal; lra| |].
    - destruct X as [(i & s & e & r & I1 & I2 & E & X & ->)|(NI & ->)].
      + replace (- (r * N)) with (r * - N) by ring. apply (PV i s e (- N) r d I1 I2); auto.
        apply nth_error_repeat. apply nth_error_Some. congruence.
      + replace (- 0) with 0 by ring. auto.
    - destruct Y as [(i & s & e & r & I1 & I2 & E & Y & ->)|(NI & ->)]; auto.
      apply (RV i s e N r d I1 I2); auto. apply nth_error_repeat. apply nth_error_Some. congruence.
  Qed.

  (** a swap of a leg against itself pays nothing *)
  Theorem C76_same_legs : forall fuel flr f times n start stop period ds N count c fwd fixing payo ll,
    f start stop period = Ok ds -> NoDup (map tm ds) ->
    interest_rate_swap (Some f) times n start stop period N count c fwd fixing payo period count c fwd = Ok ll ->
    forall d x, leg_pays tm fuel count fixing payo c fwd start ds N d x -> ll_get fuel flr ll d = Ok 0.
  Proof.
    intros fuel flr f times n start stop period ds N count c fwd fixing payo ll S ND H d x X.
    rewrite (C76_flows fuel flr f times n start stop period ds N count c fwd fixing payo period ds count c fwd ll S ND S ND H d x x X X).
    f_equal. lra.
  Qed.

  Theorem C76_returns : forall f times n start stop period ds N count c fwd fixing payo period' ds' count' c' fwd',
    f start stop period = Ok ds -> f start stop period' = Ok ds' -> no_offset payo ->
    exists ll, interest_rate_swap (Some f) times n start stop period N count c fwd fixing payo period' count' c' fwd' = Ok ll.
  Proof.
    intros f times n start stop period ds N count c fwd fixing payo period' ds' count' c' fwd' S S' NO.
    unfold interest_rate_swap, interest_payment_dates. rewrite S, S'. cbn [bind].
    destruct (proj1 (C38_total DS ds (repeat (nopp N) (length ds)) start count fixing payo c fwd NO)) as (pl & EP); [now rewrite repeat_length|].
    destruct (proj1 (C38_total DS ds' (repeat N (length ds')) start count' fixing payo c' fwd' NO)) as (rl & ER); [now rewrite repeat_length|].
    rewrite EP, ER. cbn [bind]. apply (two_legs start); [now apply (rate_made _ _ _ _ _ _ _ _ _ EP)|now apply (rate_made _ _ _ _ _ _ _ _ _ ER)].
  Qed.

  (** * C63 *)
  (** dates other than business dates: no schedule is ever returned *)
  Lemma fill_nonempty times : forall fuel start stop period cnt l r, l <> [] -> fill_dates times fuel start stop period cnt l = Ok r -> r <> [].
  Proof.
    induction fuel as [|fuel IH]; intros start stop period cnt l r NE H; [discriminate|]. cbn [fill_dates] in H.
    destruct (d_add start period); [|discriminate]. cbn [bind] in H.
    destruct (nth_res l 0) as [x|]; [|discriminate]. cbn [bind] in H. destruct (d_leb a x); [|congruence].
    destruct (times period cnt); [|discriminate]. cbn [bind] in H. destruct (d_sub stop _) as [d|]; [|discriminate]. cbn [bind] in H.
    eapply IH; [|exact H]. destruct l; discriminate.
  Qed.
  Lemma no_schedule times fuel start stop period : exists e, interest_payment_dates None times fuel start stop period = Err e.
  Proof.
    unfold interest_payment_dates. destruct (fill_dates _ _ _ _ _ _ _) as [l|e] eqn:E; [|eexists; reflexivity]. cbn [bind].
    apply fill_nonempty in E; [|discriminate]. assert (R : rev l <> []).
    { intros Q. apply E. rewrite <- (rev_involutive l), Q. reflexivity. }
    destruct (rev l); [congruence|]. eexists. reflexivity.
  Qed.
  Theorem C63_dates_refuted : forall times fuel start stop period,
    (forall notional count c fwd fixing payo, exists e, bond None times fuel start stop period notional count c fwd fixing payo = Err e) /\
    (forall N count c fwd fixing payo period' count' c' fwd', exists e,
       interest_rate_swap None times fuel start stop period N count c fwd fixing payo period' count' c' fwd' = Err e).
  Proof.
    intros times fuel start stop period. destruct (no_schedule times fuel start stop period) as (e & E).
    split; intros; exists e; [unfold bond|unfold interest_rate_swap]; now rewrite E.
  Qed.

  (** an asset swap never returns a product *)
  Theorem C63_asset_swap_refuted : forall coupon_leg rest, asset_swap (T:=R) (D:=D) (P:=P) coupon_leg rest = Err TypeError.
  Proof. reflexivity. Qed.
End Products.
Print Assumptions C62_redemptions.
Print Assumptions C62_outstanding.
Print Assumptions C62_bullet.
Print Assumptions C62_returns.
Print Assumptions C62_plan_length.
Print Assumptions C62_day_count_refuted.
Print Assumptions C76_flows.
Print Assumptions C76_same_legs.
Print Assumptions C76_returns.
Print Assumptions C63_dates_refuted.
Print Assumptions C63_asset_swap_refuted.

(** number dates: the loop of the schedule never ends if it is entered, otherwise the call
    raises *)
Lemma fill_floats (DC : DayCounts R R) (a b p : R) : forall fuel cnt l, a + p <= b -> nth_error l 0 = Some b ->
  fill_dates (DS := FloatDates (T:=R)) float_times fuel a b (FP p) cnt l = Err OutOfFuel.
Proof.
  induction fuel as [|fuel IH]; intros cnt l H HL; [reflexivity|]. cbn [fill_dates d_add FloatDates bind].
  unfold nth_res. rewrite HL. cbn [bind].
  assert (B : d_leb (DateSys := FloatDates (T:=R)) (nadd a p) b = true) by (apply (leb_t (L:=float_laws)); exact H).
  rewrite B. cbn [float_times bind d_sub FloatDates]. apply IH; auto. destruct l; [discriminate|exact HL].
Qed.
Theorem C63_numbers_refuted : forall (DC : DayCounts R R) (a b p : R),
  (a + p <= b -> forall fuel,
     (forall notional count c fwd fixing payo, bond (DS := FloatDates (T:=R)) None float_times fuel a b (FP p) notional count c fwd fixing payo = Err OutOfFuel) /\
     (forall N count c fwd fixing payo period' count' c' fwd',
        interest_rate_swap (DS := FloatDates (T:=R)) None float_times fuel a b (FP p) N count c fwd fixing payo period' count' c' fwd' = Err OutOfFuel)) /\
  (b < a + p -> forall fuel,
     (forall notional count c fwd fixing payo, bond (DS := FloatDates (T:=R)) None float_times (S fuel) a b (FP p) notional count c fwd fixing payo = Err TypeError) /\
     (forall N count c fwd fixing payo period' count' c' fwd',
        interest_rate_swap (DS := FloatDates (T:=R)) None float_times (S fuel) a b (FP p) N count c fwd fixing payo period' count' c' fwd' = Err TypeError)).
Proof.
  intros DC a b p. split; intros H fuel.
  - assert (E : interest_payment_dates (DS := FloatDates (T:=R)) None float_times fuel a b (FP p) = Err OutOfFuel)
      by (unfold interest_payment_dates; rewrite (fill_floats DC); auto).
    split; intros; [unfold bond|unfold interest_rate_swap]; now rewrite E.
  - assert (E : interest_payment_dates (DS := FloatDates (T:=R)) None float_times (S fuel) a b (FP p) = Err TypeError).
    { unfold interest_payment_dates. cbn [fill_dates d_add FloatDates bind nth_res nth_error].
      assert (B : d_leb (DateSys := FloatDates (T:=R)) (nadd a p) b = false) by (apply (leb_f (L:=float_laws)); exact H).
      rewrite B. reflexivity. }
    split; intros; [unfold bond|unfold interest_rate_swap]; now rewrite E.
Qed.
Print Assumptions C63_numbers_refuted.

(** ... in particular with the default arguments *)
Theorem C63_defaults_refuted : forall (DC : DayCounts R R) fuel,
  default_bond (T:=R) fuel = Err OutOfFuel /\ default_swap (T:=R) fuel = Err OutOfFuel.
Proof.
  intros DC fuel. split; apply (proj1 (C63_numbers_refuted DC 0 10 1)); lra.
Qed.
Print Assumptions C63_defaults_refuted.

#[local] Instance no_counts : DayCounts R R := [].
(** a bond of 100 paid back by 40 and 60 at 5 percent *)
Example C62_example : exists ll,
  bond (DS := FloatDates (T:=R)) (Some (fun _ _ _ => Ok [1; 2])) float_times 0 0 2 (FP 1) (Many [40; 60]) DcDefault (5 / 100) FwNone None None = Ok ll /\
  ll_get 1 None ll 0 = Ok (-100) /\ ll_get 1 None ll 1 = Ok 45 /\ ll_get 1 None ll 2 = Ok 63 /\ ll_get 1 None ll (1 / 2) = Ok 0.
Proof.
  set (g := fun (_ _ : R) (_ : fperiod R) => Ok [1; 2]).
  destruct (C62_returns FloatDates (fun d => d) float_laws g float_times 0 0 2 (FP 1) [1; 2] (Many [40; 60]) DcDefault (5 / 100) FwNone None None eq_refl I eq_refl) as (ll & E).
  exists ll. split; [exact E|].
  assert (ND : NoDup (map (fun d : R => d) [0; 1; 2])) by (repeat constructor; cbn; intuition lra).
  destruct (C62_redemptions FloatDates no_counts (fun d => d) float_laws 1 None g float_times 0 0 2 (FP 1) [1; 2] [40; 60] DcDefault (5 / 100) FwNone None None ll eq_refl ND E)
    as (_ & A & B & C).
  assert (I : forall s e, interest (DS := FloatDates (T:=R)) 1 DcDefault None None (5 / 100) FwNone s e ((5 / 100 + 0) * (e - s))).
  { intros s e. exists s, e, s, 0, (e - s). repeat split; reflexivity. }
  split; [rewrite A by reflexivity; f_equal; cbn; lra|].
  split; [rewrite (B 0%nat 0 1 40 _ 1 eq_refl eq_refl eq_refl (I 0 1) eq_refl); f_equal; unfold remaining; cbn; lra|].
  split; [rewrite (B 1%nat 1 2 60 _ 2 eq_refl eq_refl eq_refl (I 1 2) eq_refl); f_equal; unfold remaining; cbn; lra|].
  apply C. cbn. intuition lra.
Qed.

(** 5 percent against 6 percent on 100 *)
Example C76_example : exists ll,
  interest_rate_swap (DS := FloatDates (T:=R)) (Some (fun _ _ _ => Ok [1; 2])) float_times 0 0 2 (FP 1) 100 DcDefault (5 / 100) FwNone None None (FP 1) DcDefault (6 / 100) FwNone = Ok ll /\
  ll_get 1 None ll 1 = Ok 1 /\ ll_get 1 None ll 2 = Ok 1 /\ ll_get 1 None ll 0 = Ok 0.
Proof.
  set (g := fun (_ _ : R) (_ : fperiod R) => Ok [1; 2]).
  destruct (C76_returns FloatDates (fun d => d) float_laws g float_times 0 0 2 (FP 1) [1; 2] 100 DcDefault (5 / 100) FwNone None None (FP 1) [1; 2] DcDefault (6 / 100) FwNone eq_refl eq_refl I) as (ll & E).
  exists ll. split; [exact E|].
  assert (ND : NoDup (map (fun d : R => d) [1; 2])) by (repeat constructor; cbn; intuition lra).
  assert (I : forall c s e, interest (DS := FloatDates (T:=R)) 1 DcDefault None None c FwNone s e ((c + 0) * (e - s))).
  { intros c s e. exists s, e, s, 0, (e - s). repeat split; reflexivity. }
  pose proof (C76_flows FloatDates no_counts (fun d => d) float_laws 1 None g float_times 0 0 2 (FP 1) [1; 2] 100 DcDefault (5 / 100) FwNone None None (FP 1) [1; 2] DcDefault (6 / 100) FwNone ll eq_refl ND eq_refl ND E) as F.
  split; [|split].
  - rewrite (F 1 5 6); [f_equal; lra| |]; left; exists 0%nat, 0, 1; eexists; repeat split; try apply I; lra.
  - rewrite (F 2 5 6); [f_equal; lra| |]; left; exists 1%nat, 1, 2; eexists; repeat split; try apply I; lra.
  - rewrite (F 0 0 0); [f_equal; lra| |]; right; cbn; (split; [intuition lra|reflexivity]).
Qed.
