(** Property C93: what bonds and swaps are worth at issue. *)
From Coq Require Import Reals Lra Lia List Bool ZArith.
From Verif Require Import Num Py Spec MPlans MDates MCurve MRateCurve MOption MCashflow MBracket MPricer MProducts
  SDates SRateCurve SCashflow SPricer SBracket SYield SProducts LBase LSort LPlans LDates LDateCurve LCashflow LRateCurve LAccrued LPricer
  LPricer2 LBracket LYield LFair PBracket PCashflow PRateCurve PRateCurve2 PPricer PPricer2 PFair PParity PProducts.
Import ListNotations.
Open Scope R_scope.

(** * Vocabulary *)
Section Spec.
  Context {D P : Type} {DS : DateSys R D P} {DC : DayCounts R D}.
  Implicit Types (h : heap R D P) (ll : leglist R D P).

  (** lists number i and j are the legs of the product; the forward curve of a leg is
      [s (curves)], as the curves are *)
  Definition bond_in h (i j : nat) ll (s : list (rcurve R D P) -> fsource R D P) : Prop :=
    exists a b, ll_legs ll = [a; b] /\ nth_error (h_lists h) i = Some (mkHL a HNone) /\
      nth_error (h_lists h) j = Some (mkHL b (HForward s)).
  Definition swap_in h (i j : nat) ll (s s' : list (rcurve R D P) -> fsource R D P) : Prop :=
    exists a b, ll_legs ll = [a; b] /\ nth_error (h_lists h) i = Some (mkHL a (HForward s)) /\
      nth_error (h_lists h) j = Some (mkHL b (HForward s')).

  (** what is outstanding during the n periods: the notional, or what is still to be paid back *)
  Definition balances (notional : arg R) (n : nat) : list R :=
    match notional with One N => repeat N n | Many plan => map (remaining plan) (seq 0 n) end.

  (** the sum of [g start end balance] over the periods *)
  Definition over_periods (o : D) (dates : list D) (bs : list R) (g : D -> D -> R -> R) : R :=
    Rsum (map (fun x => g (fst (fst x)) (snd (fst x)) (snd x)) (combine (combine (o :: dates) dates) bs)).
End Spec.

Section Par.
  Context {D P : Type} (DS : DateSys R D P) (tm : D -> R) (DC : DayCounts R D) (L : DateLaws DS tm).
  Implicit Types (h : heap R D P) (disc : rcurve R D P) (ll : leglist R D P).

  Lemma over_cons o d (ds : list D) b bs g : over_periods o (d :: ds) (b :: bs) g = g o d b + over_periods d ds bs g.
  Proof. reflexivity. Qed.
  Lemma over_plus o (ds : list D) bs g1 g2 : over_periods o ds bs g1 + over_periods o ds bs g2 = over_periods o ds bs (fun s e b => g1 s e b + g2 s e b).
  Proof.
    revert o bs. induction ds as [|d ds IH]; intros o [|b bs]; [cbn; lra|cbn; lra|cbn; lra|]. rewrite !over_cons, <- IH. lra.
  Qed.
  Lemma over_ext o (ds : list D) bs g1 g2 : (forall s e b, period o ds s e -> g1 s e b = g2 s e b) -> over_periods o ds bs g1 = over_periods o ds bs g2.
  Proof.
    revert o bs. induction ds as [|d ds IH]; intros o [|b bs] H; try reflexivity. rewrite !over_cons. f_equal.
    - apply H. exists 0%nat. auto.
    - apply IH. intros s e b' [j [H1 H2]]. apply H. exists (S j). auto.
  Qed.
  Lemma over_opp o (ds : list D) bs g : over_periods o ds (map Ropp bs) g = over_periods o ds bs (fun s e b => g s e (- b)).
  Proof.
    revert o bs. induction ds as [|d ds IH]; intros o [|b bs]; try reflexivity. cbn [map]. rewrite !over_cons. now rewrite IH.
  Qed.
  Lemma notionals_balances plan : forall o, o = Rsum plan -> interest_notionals o plan = balances (Many plan) (length plan).
  Proof.
    induction plan as [|p plan IH]; intros o ->; [reflexivity|]. cbn [interest_notionals]. rewrite IH by (cbn; rn; lra).
    cbn [length balances seq map]. f_equal. rewrite <- seq_shift, map_map. reflexivity.
  Qed.

  (** redemptions: as if each balance was lent at the start of its period and paid back at its end *)
  Lemma redeemed (DF : D -> R) : forall plan ds o, length plan = length ds ->
    Rsum (map (fun p => DF (fst p) * snd p) (combine ds plan)) - Rsum plan * DF o
      = over_periods o ds (balances (Many plan) (length ds)) (fun s e b => b * (DF e - DF s)).
  Proof.
    induction plan as [|p plan IH]; intros [|d ds] o LE; try discriminate; [cbn; lra|]. injection LE as LE.
    specialize (IH ds d LE). cbn [length balances seq map]. rewrite over_cons.
    replace (map (remaining (p :: plan)) (seq 1 (length ds))) with (balances (Many plan) (length ds)) by (cbn [balances]; now rewrite <- seq_shift, map_map).
    rewrite <- IH. unfold remaining. cbn [skipn combine map Rsum fst snd]. ring.
  Qed.
  Lemma bullet (DF : D -> R) N : forall ds o,
    N * DF (last ds o) - N * DF o = over_periods o ds (repeat N (length ds)) (fun s e b => b * (DF e - DF s)).
  Proof.
    induction ds as [|d ds IH]; intros o; [cbn; lra|]. cbn [length repeat]. rewrite over_cons, <- IH, last_default. lra.
  Qed.

  (** the value of a leg with fixed rate c *)
  Lemma fixed_leg_value fuel flr h j k disc v o dates ns count fixing payo c l s tau DF :
    nth_error (h_curves h) k = Some disc -> nth_error (h_lists h) j = Some (mkHL l (HForward s)) -> s (h_curves h) = FwNone ->
    no_offset fixing -> no_offset payo -> NoDup (map tm dates) ->
    ratelist_new dates (Many ns) (Some o) count fixing payo c FwNone = Ok l ->
    (forall a b, period o dates a b -> pay_count count a b = Ok (tau a b) /\ d_leb v b = true) ->
    (forall d, In d dates -> get_discount_factor fuel disc v d = Ok (DF d)) ->
    returns (get_present_value fuel flr (PrList j) k (Some v)) h (over_periods o dates ns (fun a b n => n * (c * tau a b * DF b))).
  Proof.
    intros Hk Hj HS NF NP ND HN HP HD.
    assert (NF' : forall d, moved_back d fixing d) by (intros; apply moved_offset, offset_none; auto).
    assert (NP' : forall d, moved_back d payo d) by (intros; apply moved_offset, offset_none; auto).
    destruct (C38_periods DS tm L _ _ _ _ _ _ _ _ _ HN ND) as (LEN & DOM & _).
    assert (AT : cf_attr l = LForward FwNone).
    { unfold ratelist_new in HN. cbn [start_dates bind] in HN. destruct (rate_payoffs _ _ _ _ _ _ _); [|discriminate]. cbn [bind] in HN.
      destruct (cf_new_inv _ _ _ _ _ _ HN) as [_ ->]. reflexivity. }
    apply (C40_list DS DC fuel flr h j k disc v l); auto.
    { exists (mkHL l (HForward s)), (LForward FwNone). split; auto. split; [|cbn; now rewrite HS]. cbn [hl_list].
      rewrite <- AT. now destruct l. }
    assert (V : forall m a b n, nth_error (o :: dates) m = Some a -> nth_error dates m = Some b -> nth_error ns m = Some n ->
              discounted fuel flr disc v l b (n * (c * tau a b * DF b))).
    { intros m a b n Ha Hb Hn. assert (PE : period o dates a b) by (exists m; auto).
      destruct (HP a b PE) as (Q1 & Q2). exists (DF b), ((c + 0) * tau a b * n).
      split; [apply HD; eapply nth_error_In; eauto|]. split; [|ring].
      apply (C38_flow DS DC tm L fuel flr _ _ _ _ _ _ _ _ _ HN ND m a b n a b a 0 (tau a b)); auto; [reflexivity|apply eqb_refl]. }
    unfold worth, due. rewrite DOM. eexists. split; [|reflexivity].
    assert (FI : filter (fun d => d_leb v d) dates = dates).
    { assert (G : forall m b, nth_error dates m = Some b -> d_leb v b = true).
      { intros m b Hb. destruct (nth_error (o :: dates) m) as [a|] eqn:Ha.
        - apply (HP a b). exists m. auto.
        - apply nth_error_None in Ha. assert (m < length dates)%nat by (apply nth_error_Some; congruence). cbn in Ha. lia. }
      clear -G. induction dates as [|d ds IH]; [reflexivity|]. cbn [filter]. rewrite (G 0%nat d eq_refl). f_equal. apply IH.
      intros m b Hb. apply (G (S m) b Hb). }
    rewrite FI. clear -V LEN. revert o ns V LEN. induction dates as [|d ds IH]; intros o am V LEN.
    - cbn. constructor.
    - destruct am as [|n am]; [cbn in LEN; lia|].
      change (combine (combine (o :: d :: ds) (d :: ds)) (n :: am)) with ((o, d, n) :: combine (combine (d :: ds) ds) am).
      cbn [map fst snd]. constructor.
      + apply (V 0%nat); reflexivity.
      + apply IH; [|cbn in LEN; lia]. intros m a b n' Ha Hb Hm. apply (V (S m)); auto.
  Qed.

  (** the bond and its legs *)
  Lemma bond_inv f times n start stop per ds notional count c fwd fixing payo ll :
    f start stop per = Ok ds -> bond (Some f) times n start stop per notional count c fwd fixing payo = Ok ll ->
    exists a b dates amounts, ll_legs ll = [a; b] /\
      match notional with
      | One N => dates = [start; stop] /\ amounts = [- N; N]
      | Many plan => length plan = length ds /\ dates = start :: ds /\ amounts = (- Rsum plan) :: plan
      end /\
      fixed_new dates (Many amounts) (Some start) = Ok a /\
      ratelist_new ds (Many (balances notional (length ds))) (Some start) count fixing payo c fwd = Ok b.
  Proof.
    intros S H. unfold bond, interest_payment_dates in H. rewrite S in H. cbn [bind] in H.
    assert (LI : forall a b, legs_new [a; b] = Ok ll -> ll_legs ll = [a; b]).
    { intros a b E. unfold legs_new in E. destruct (min_origin _); [|discriminate]. cbn [bind] in E.
      destruct (cf_new _ _ _ _ _); [|discriminate]. cbn [bind] in E. now injection E as <-. }
    destruct notional as [N|plan]; cbn [bind] in H.
    - destruct (fixed_new _ _ _) as [a|] eqn:EA; [|discriminate]. cbn [bind] in H.
      destruct (ratelist_new _ _ _ _ _ _ _ _) as [b|] eqn:EB; [|discriminate]. cbn [bind] in H.
      exists a, b, [start; stop], [- N; N]. auto 6.
    - destruct (length plan =? length ds)%nat eqn:EL; [|discriminate]. cbn [negb bind] in H. apply Nat.eqb_eq in EL.
      destruct (fixed_new _ _ _) as [a|] eqn:EA; [|discriminate]. cbn [bind] in H.
      destruct (ratelist_new _ _ _ _ _ _ _ _) as [b|] eqn:EB; [|discriminate]. cbn [bind] in H.
      exists a, b, (start :: ds), ((- Rsum plan) :: plan). split; [auto|]. split; [auto|].
      rewrite nsum_Rsum in EA, EB. split; [exact EA|]. rewrite <- EL. rewrite (notionals_balances plan) in EB by reflexivity. exact EB.
  Qed.

  (** the value of the notional leg *)
  Lemma notional_value fuel flr h i k disc v start stop ds notional a dates amounts DF :
    match notional with
    | One N => dates = [start; stop] /\ amounts = [- N; N]
    | Many plan => length plan = length ds /\ dates = start :: ds /\ amounts = (- Rsum plan) :: plan
    end ->
    (match notional with One _ => stop = last ds start /\ ds <> [] | Many _ => True end) ->
    nth_error (h_curves h) k = Some disc -> nth_error (h_lists h) i = Some (mkHL a HNone) ->
    fixed_new dates (Many amounts) (Some start) = Ok a -> NoDup (map tm (start :: ds)) ->
    (forall d, In d (start :: ds) -> d_leb v d = true /\ get_discount_factor fuel disc v d = Ok (DF d)) ->
    returns (get_present_value fuel flr (PrList i) k (Some v)) h
      (over_periods start ds (balances notional (length ds)) (fun s e b => b * (DF e - DF s))).
  Proof.
    intros HD HL Hk Hi HN ND HV.
    assert (IN : In (last ds start) (start :: ds)).
    { clear. destruct ds as [|d ds]; [now left|]. right. rewrite (last_nth (d :: ds) start). apply nth_In. cbn. lia. }
    destruct notional as [N|plan].
    - destruct HD as [-> ->]. destruct HL as [-> NE].
      assert (ND2 : NoDup (map tm [start; last ds start])).
      { constructor; [|repeat constructor; intros []]. intros [E|[]]. inversion ND as [|? ? NI _]. apply NI. rewrite <- E.
        apply in_map. clear -NE. destruct ds as [|d ds]; [congruence|]. rewrite (last_nth (d :: ds) start). apply nth_In. cbn. lia. }
      cbn [balances]. rewrite <- bullet.
      pose proof (C40_pairs DS DC tm L fuel flr h i k disc v a _ _ _ DF Hk Hi (or_introl HN) ND2) as Q.
      unfold pairs_value in Q. cbn [combine map Rsum fst snd] in Q. rewrite (proj1 (HV start (or_introl eq_refl))), (proj1 (HV _ IN)) in Q.
      replace (N * DF (last ds start) - N * DF start) with (DF start * - N + (DF (last ds start) * N + 0)) by ring.
      apply Q. intros d [<-|[<-|[]]] _; apply HV; auto. now left.
    - destruct HD as (LE & -> & ->). rewrite <- (redeemed DF plan ds start LE).
      pose proof (C40_pairs DS DC tm L fuel flr h i k disc v a _ _ _ DF Hk Hi (or_introl HN) ND) as Q.
      replace (Rsum (map (fun p => DF (fst p) * snd p) (combine ds plan)) - Rsum plan * DF start)
        with (pairs_value DS v DF (start :: ds) (- Rsum plan :: plan)); [apply Q; intros d Id _; now apply HV|].
      unfold pairs_value. cbn [combine map Rsum fst snd]. rewrite (proj1 (HV start (or_introl eq_refl))).
      match goal with |- _ + Rsum ?x = Rsum ?y - _ => assert (E : x = y) end; [|rewrite E; ring].
      apply map_ext_in. intros [d p] I. cbn [fst snd]. apply in_combine_l in I. now rewrite (proj1 (HV d (or_intror I))).
  Qed.

  (** * C93 *)
  (** A bond with fixed rate c is worth, at or before its start: in each period the balance
      times what it earns, DF end (1 + c t) against DF start.  Single notional or any list
      of redemptions. *)
  Theorem C93_fixed_bond : forall fuel flr h i j k disc f times m v start stop per ds notional count c fixing payo ll s tau DF dom lo,
    f start stop per = Ok ds -> bond (Some f) times m start stop per notional count c FwNone fixing payo = Ok ll ->
    nth_error (h_curves h) k = Some disc -> bond_in h i j ll s -> s (h_curves h) = FwNone ->
    no_offset fixing -> no_offset payo -> NoDup (map tm (start :: ds)) ->
    match notional with One _ => stop = last ds start /\ ds <> [] | Many _ => True end ->
    (forall a b, period start ds a b -> pay_count count a b = Ok (tau a b)) ->
    (forall d, In d (start :: ds) -> d_leb v d = true /\ get_discount_factor fuel disc v d = Ok (DF d)) ->
    returns (get_present_value fuel flr (PrLegs [i; j] dom lo) k (Some v)) h
      (over_periods start ds (balances notional (length ds)) (fun s e b => b * (DF e * (1 + c * tau s e) - DF s))).
  Proof.
    intros fuel flr h i j k disc f times m v start stop per ds notional count c fixing payo ll s tau DF dom lo
      SC B Hk (a & b & EL & Hi & Hj) HS NF NP ND HL HP HV.
    destruct (bond_inv _ _ _ _ _ _ _ _ _ _ _ _ _ _ SC B) as (a' & b' & dates & amounts & EL' & SH & EA & EB).
    rewrite EL in EL'. injection EL' as <- <-.
    apply (C40_legs DS DC fuel flr h [i; j] dom lo k disc v _ Hk). eexists. split.
    - constructor; [|constructor; [|constructor]].
      + exact (notional_value fuel flr h i k disc v start stop ds notional a dates amounts DF SH HL Hk Hi EA ND HV).
      + apply (fixed_leg_value fuel flr h j k disc v start ds (balances notional (length ds)) count fixing payo c b s tau DF Hk Hj HS NF NP); auto.
        * now inversion ND.
        * intros x y PE. split; [now apply HP|]. apply HV. destruct PE as [q [_ Hy]]. right. eapply nth_error_In; eauto.
        * intros d Id. apply HV. now right.
    - cbn [Rsum]. rewrite Rplus_0_r, over_plus. apply over_ext. intros. ring.
  Qed.

  (** floating rate bonds: only the margin c counts, whatever the redemptions *)
  Theorem C93_floating_bond : forall fuel flr h i j k disc f times m v start stop per ds notional count c fixing payo ll s tau DF dom lo,
    f start stop per = Ok ds -> bond (Some f) times m start stop per notional count c (FwRate disc) fixing payo = Ok ll ->
    nth_error (h_curves h) k = Some disc -> bond_in h i j ll s -> s (h_curves h) = FwRate disc ->
    no_offset fixing -> no_offset payo -> NoDup (map tm (start :: ds)) ->
    match notional with One _ => stop = last ds start /\ ds <> [] | Many _ => True end ->
    floats tm disc count tau v start ds -> d_leb v start = true ->
    discounts fuel disc v start ds DF -> discounts (S fuel) disc v start ds DF ->
    (rc_cls disc = CCashRate -> forall a b, period start ds a b ->
       exists x, has_value disc a x /\ get_discount_factor fuel disc a b = Ok (/ (1 + x * tau a b)) /\ 1 + x * tau a b <> 0) ->
    returns (get_present_value (S fuel) flr (PrLegs [i; j] dom lo) k (Some v)) h
      (over_periods start ds (balances notional (length ds)) (fun s e b => b * (c * tau s e * DF e))).
  Proof.
    intros fuel flr h i j k disc f times m v start stop per ds notional count c fixing payo ll s tau DF dom lo
      SC B Hk (a & b & EL & Hi & Hj) HS NF NP ND HL FT LV D1 D2 KC.
    destruct (bond_inv _ _ _ _ _ _ _ _ _ _ _ _ _ _ SC B) as (a' & b' & dates & amounts & EL' & SH & EA & EB).
    rewrite EL in EL'. injection EL' as <- <-.
    assert (FL : float_leg h j k disc start ds (balances notional (length ds)) count c).
    { split; [exact Hk|]. exists b, s, fixing, payo. auto. }
    pose proof (C84_coupons DS tm DC L fuel flr h j k disc v start ds _ count c tau DF FL FT D1 D2 KC) as Q.
    apply (C40_legs DS DC (S fuel) flr h [i; j] dom lo k disc v _ Hk). eexists. split.
    - constructor; [|constructor; [exact Q|constructor]].
      refine (notional_value (S fuel) flr h i k disc v start stop ds notional a dates amounts DF SH HL Hk Hi EA ND _).
      intros d Id. split; [|now apply D2]. destruct Id as [<-|Id]; [exact LV|]. destruct FT as (_ & _ & _ & HP).
      destruct (In_nth_error _ _ Id) as [q Hq]. destruct (nth_error (start :: ds) q) as [x|] eqn:Hx.
      + apply (HP x d). exists q. auto.
      + apply nth_error_None in Hx. assert (q < length ds)%nat by (apply nth_error_Some; congruence). cbn in Hx. lia.
    - cbn [Rsum].
      match goal with |- _ = _ + (Rsum ?x + 0) => assert (E : Rsum x = over_periods start ds (balances notional (length ds)) (fun s e b => b * (DF s - DF e + c * tau s e * DF e))) end.
      { unfold over_periods. f_equal. apply map_ext. intros [[x y] z]. reflexivity. }
      rewrite E, Rplus_0_r, over_plus. apply over_ext. intros. ring.
  Qed.

  (** ... so without margin it is worth nothing when it is issued against its notional *)
  Theorem C93_floating_par : forall fuel flr h i j k disc f times m v start stop per ds notional count fixing payo ll s tau DF dom lo,
    f start stop per = Ok ds -> bond (Some f) times m start stop per notional count 0 (FwRate disc) fixing payo = Ok ll ->
    nth_error (h_curves h) k = Some disc -> bond_in h i j ll s -> s (h_curves h) = FwRate disc ->
    no_offset fixing -> no_offset payo -> NoDup (map tm (start :: ds)) ->
    match notional with One _ => stop = last ds start /\ ds <> [] | Many _ => True end ->
    floats tm disc count tau v start ds -> d_leb v start = true ->
    discounts fuel disc v start ds DF -> discounts (S fuel) disc v start ds DF ->
    (rc_cls disc = CCashRate -> forall a b, period start ds a b ->
       exists x, has_value disc a x /\ get_discount_factor fuel disc a b = Ok (/ (1 + x * tau a b)) /\ 1 + x * tau a b <> 0) ->
    returns (get_present_value (S fuel) flr (PrLegs [i; j] dom lo) k (Some v)) h 0.
  Proof.
    intros. replace 0 with (over_periods start ds (balances notional (length ds)) (fun s e b => b * (0 * tau s e * DF e)));
      [eapply C93_floating_bond; eauto|].
    generalize (balances notional (length ds)). clear. intros bs. revert start bs.
    induction ds as [|d ds IH]; intros o [|b bs]; try reflexivity. rewrite over_cons, IH. ring.
  Qed.

  (** fixed rate bonds are worth nothing at issue, too, if the discount curve is flat at the
      coupon: a cash rate curve with tenor of the coupon period *)
  Theorem C93_fixed_par : forall flr h i j k disc f times m start stop per ds notional count c fixing payo ll s tau dom lo,
    f start stop per = Ok ds -> bond (Some f) times m start stop per notional count c FwNone fixing payo = Ok ll ->
    nth_error (h_curves h) k = Some disc -> bond_in h i j ll s -> s (h_curves h) = FwNone ->
    no_offset fixing -> no_offset payo -> NoDup (map tm (start :: ds)) ->
    match notional with One _ => stop = last ds start /\ ds <> [] | Many _ => True end ->
    rc_cls disc = CCashRate -> additive (rc_yf disc) tau ->
    (forall a b, period start ds a b -> d_add a (rc_tenor disc) = Ok b /\ d_ltb a b = true /\
       pay_count count a b = Ok (tau a b) /\ has_value disc a c /\ 0 < 1 + c * tau a b) ->
    forall fuel, (length ds + 3 <= fuel)%nat ->
    returns (get_present_value fuel flr (PrLegs [i; j] dom lo) k (Some start)) h 0.
  Proof.
    intros flr h i j k disc f times m start stop per ds notional count c fixing payo ll s tau dom lo
      SC B Hk BI HS NF NP ND HL K A HP fuel HF.
    set (dn := fun q => nth q (start :: ds) start). set (N := length ds) in *.
    assert (PE : forall q, (q < N)%nat -> period start ds (dn q) (dn (S q))).
    { intros q Hq. exists q. unfold dn. split.
      - apply nth_error_nth'. cbn. unfold N in Hq. lia.
      - cbn [nth]. now apply nth_error_nth'. }
    assert (CF : forall b, (b <= N)%nat -> get_discount_factor fuel disc start (dn b) = Ok (prod_n (fun q => / (1 + c * tau (dn q) (dn (S q)))) b)).
    { intros b Hb. destruct (C25_cash_rate_curve DS tm DC L disc tau A K dn N (fun _ => c)) with (i := 0%nat) (j := b) (k := b) (fuel := fuel)
        as (x & y & E & _ & _ & -> & _); auto; try lia.
      - intros q Hq. destruct (HP _ _ (PE q Hq)) as (Q1 & Q2 & _). auto.
      - intros q Hq. now destruct (HP _ _ (PE q Hq)) as (_ & _ & _ & Q & _).
      - intros q Hq. now destruct (HP _ _ (PE q Hq)) as (_ & _ & _ & _ & Q).
      - change (dn 0%nat) with start in E at 1. rewrite E. replace (b - 0)%nat with b by lia. reflexivity. }
    set (DF := fun d => match get_discount_factor fuel disc start d with Ok x => x | Err _ => 0 end).
    assert (ID : forall d, In d (start :: ds) -> exists q, (q <= N)%nat /\ d = dn q).
    { intros d Id. apply (In_nth _ _ start) in Id. destruct Id as [q [Hq <-]]. exists q. split; [cbn [length] in Hq; unfold N; lia|reflexivity]. }
    assert (LQ : forall q, (q <= N)%nat -> d_leb start (dn q) = true).
    { induction q as [|q IH]; intros Hq; [apply (leb_t (L:=L)); apply Rle_refl|]. specialize (IH ltac:(lia)).
      destruct (HP _ _ (PE q ltac:(lia))) as (_ & Q & _). apply (leb_t (L:=L)). apply (leb_inv (L:=L)) in IH. apply (ltb_inv (L:=L)) in Q. lra. }
    pose proof (C93_fixed_bond fuel flr h i j k disc f times m start start stop per ds notional count c fixing payo ll s tau DF dom lo
      SC B Hk BI HS NF NP ND HL) as V.
    assert (Z : over_periods start ds (balances notional N) (fun s e b => b * (DF e * (1 + c * tau s e) - DF s)) = 0).
    { assert (G : forall s0 e, period start ds s0 e -> DF e * (1 + c * tau s0 e) - DF s0 = 0).
      { intros s0 e [q [H1 H2]]. assert (Hq : (q < N)%nat) by (apply nth_error_Some; congruence).
        apply (nth_error_nth _ _ start) in H1. apply (nth_error_nth _ _ start) in H2. fold (dn q) in H1.
        assert (E2 : dn (S q) = e) by exact H2. clear H2. subst s0 e. unfold DF. rewrite !CF by lia. rewrite prod_n_last.
        destruct (HP _ _ (PE q Hq)) as (_ & _ & _ & _ & Q). field. lra. }
      rewrite (over_ext start ds _ _ (fun _ _ _ => 0)) by (intros x y z PQ; rewrite G by exact PQ; ring).
      generalize (balances notional N). clear. intros bs. revert start bs. induction ds as [|d ds IH]; intros o [|b bs]; try reflexivity.
      rewrite over_cons, IH. ring. }
    fold N in V. rewrite Z in V. apply V.
    - intros x y PQ. now destruct (HP x y PQ) as (_ & _ & Q & _).
    - intros d Id. destruct (ID d Id) as (q & Hq & ->). split; [now apply LQ|]. unfold DF. now rewrite CF.
  Qed.

  (** premium and discount: coupons above the discount curve's rates are worth more than par *)
  Theorem C93_premium : forall fuel flr h i j k disc f times m v start stop per ds notional count c fixing payo ll s tau DF dom lo,
    f start stop per = Ok ds -> bond (Some f) times m start stop per notional count c FwNone fixing payo = Ok ll ->
    nth_error (h_curves h) k = Some disc -> bond_in h i j ll s -> s (h_curves h) = FwNone ->
    no_offset fixing -> no_offset payo -> NoDup (map tm (start :: ds)) ->
    match notional with One _ => stop = last ds start /\ ds <> [] | Many _ => True end ->
    (forall a b, period start ds a b -> pay_count count a b = Ok (tau a b)) ->
    (forall d, In d (start :: ds) -> d_leb v d = true /\ get_discount_factor fuel disc v d = Ok (DF d)) ->
    (forall b, In b (balances notional (length ds)) -> 0 <= b) ->
    exists x, returns (get_present_value fuel flr (PrLegs [i; j] dom lo) k (Some v)) h x /\
      ((forall a b, period start ds a b -> DF a <= DF b * (1 + c * tau a b)) -> 0 <= x) /\
      ((forall a b, period start ds a b -> DF b * (1 + c * tau a b) <= DF a) -> x <= 0).
  Proof.
    intros fuel flr h i j k disc f times m v start stop per ds notional count c fixing payo ll s tau DF dom lo
      SC B Hk BI HS NF NP ND HL HP HV PB.
    eexists. split; [eapply C93_fixed_bond; eauto|].
    revert PB. generalize (balances notional (length ds)). clear. intros bs PB.
    split; intros H; revert start bs PB H; induction ds as [|d ds IH]; intros o [|b bs] PB H; try (cbn; lra);
      rewrite over_cons; (assert (B0 : 0 <= b) by (apply PB; now left));
      (assert (H0 := H o d (ex_intro _ 0%nat (conj eq_refl eq_refl))));
      (assert (I0 := IH d bs (fun x I => PB x (or_intror I)) (fun x y PE => let '(ex_intro _ q (conj H1 H2)) := PE in H x y (ex_intro _ (S q) (conj H1 H2))))).
    - assert (0 <= b * (DF d * (1 + c * tau o d) - DF o)) by (apply Rmult_le_pos; lra). lra.
    - assert (0 <= b * (DF o - DF d * (1 + c * tau o d))) by (apply Rmult_le_pos; lra). lra.
  Qed.

  Lemma over_level N (DF : D -> R) tau c : forall ds o,
    over_periods o ds (repeat N (length ds)) (fun s e b => b * (c * tau s e * DF e)) = N * c * level DF tau o ds.
  Proof.
    induction ds as [|d ds IH]; intros o; [unfold level; cbn; lra|]. cbn [length repeat]. rewrite over_cons, IH.
    unfold level. cbn [combine map Rsum fst snd]. destruct ds; cbn [combine map Rsum fst snd]; ring.
  Qed.

  (** a swap paying the rate c and receiving the forward rates of the curve plus margin *)
  Theorem C93_swap : forall fuel flr h i j k disc f times m v start stop per per' ds ds' N count count' c c' fixing payo ll s s' tau tau' DF dom lo,
    f start stop per = Ok ds -> f start stop per' = Ok ds' ->
    interest_rate_swap (Some f) times m start stop per N count c FwNone fixing payo per' count' c' (FwRate disc) = Ok ll ->
    nth_error (h_curves h) k = Some disc -> swap_in h i j ll s s' -> s (h_curves h) = FwNone -> s' (h_curves h) = FwRate disc ->
    no_offset fixing -> no_offset payo -> NoDup (map tm ds) ->
    (forall a b, period start ds a b -> pay_count count a b = Ok (tau a b) /\ d_leb v b = true) ->
    (forall d, In d ds -> get_discount_factor (S fuel) disc v d = Ok (DF d)) ->
    floats tm disc count' tau' v start ds' ->
    discounts fuel disc v start ds' DF -> discounts (S fuel) disc v start ds' DF ->
    (rc_cls disc = CCashRate -> forall a b, period start ds' a b ->
       exists x, has_value disc a x /\ get_discount_factor fuel disc a b = Ok (/ (1 + x * tau' a b)) /\ 1 + x * tau' a b <> 0) ->
    returns (get_present_value (S fuel) flr (PrLegs [i; j] dom lo) k (Some v)) h
      (N * (DF start - DF (last ds' start)) + N * c' * level DF tau' start ds' - N * c * level DF tau start ds).
  Proof.
    intros fuel flr h i j k disc f times m v start stop per per' ds ds' N count count' c c' fixing payo ll s s' tau tau' DF dom lo
      SC SC' B Hk (a & b & EL & Hi & Hj) HS HS' NF NP ND HP HD FT D1 D2 KC.
    unfold interest_rate_swap, interest_payment_dates in B. rewrite SC, SC' in B. cbn [bind] in B.
    destruct (ratelist_new ds _ _ _ _ _ _ _) as [a'|] eqn:EA; [|discriminate]. cbn [bind] in B.
    destruct (ratelist_new ds' _ _ _ _ _ _ _) as [b'|] eqn:EB; [|discriminate]. cbn [bind] in B.
    assert (LI : ll_legs ll = [a'; b']).
    { unfold legs_new in B. destruct (min_origin _); [|discriminate]. cbn [bind] in B.
      destruct (cf_new _ _ _ _ _); [|discriminate]. cbn [bind] in B. now injection B as <-. }
    rewrite EL in LI. injection LI as <- <-.
    assert (FL : float_leg h j k disc start ds' (repeat N (length ds')) count' c').
    { split; [exact Hk|]. exists b, s', fixing, payo. auto. }
    pose proof (C84_coupons DS tm DC L fuel flr h j k disc v start ds' _ count' c' tau' DF FL FT D1 D2 KC) as Q.
    pose proof (fixed_leg_value (S fuel) flr h i k disc v start ds _ count fixing payo c a s tau DF Hk Hi HS NF NP ND EA HP HD) as W.
    apply (C40_legs DS DC (S fuel) flr h [i; j] dom lo k disc v _ Hk). eexists. split.
    - constructor; [exact W|constructor; [exact Q|constructor]].
    - cbn [Rsum]. rewrite over_level.
      match goal with |- _ = _ + (Rsum ?x + 0) => assert (E : Rsum x =
        over_periods start ds' (repeat N (length ds')) (fun s e b => b * (DF s - DF e)) +
        over_periods start ds' (repeat N (length ds')) (fun s e b => b * (c' * tau' s e * DF e))) end.
      { rewrite over_plus. unfold over_periods. f_equal. apply map_ext. intros [[x y] z]. cbn [fst snd]. ring. }
      rewrite E, over_level, Rplus_0_r.
      rewrite (over_ext start ds' _ _ (fun s e b => - (b * (DF e - DF s)))) by (intros; ring).
      assert (O : forall bs o g, over_periods o ds' bs (fun s e b => - g s e b) = - over_periods o ds' bs g).
      { clear. induction ds' as [|d ds' IH]; intros [|x bs] o g; try (cbn; lra). rewrite !over_cons, IH. lra. }
      rewrite (O _ _ (fun s e b => b * (DF e - DF s))), <- bullet. change (nopp N) with (- N). ring.
  Qed.
End Par.
Print Assumptions C93_swap.
Print Assumptions C93_fixed_bond.
Print Assumptions C93_floating_bond.
Print Assumptions C93_floating_par.
Print Assumptions C93_fixed_par.
Print Assumptions C93_premium.

(** instances: a bond of 100 at 25 percent, paid back by 40 and 60, and a cash rate curve at 25
    percent; the same at 50 percent with margin over the curve; a swap *)
#[local] Instance no_counts {D} : DayCounts R D := [].
Example C93_instance : exists disc fixed floater swap a1 a2 b1 b2 c1 c2,
  rc_new (DS := FloatDates (T:=R)) CCashRate [0] [1/4] None None DcDefault (Some (FP 1)) = Ok disc /\
  bond (DS := FloatDates (T:=R)) (Some (fun _ _ _ => Ok [1; 2])) float_times 0 0 2 (FP 1) (Many [40; 60]) DcDefault (1/4) FwNone None None = Ok fixed /\
  bond (DS := FloatDates (T:=R)) (Some (fun _ _ _ => Ok [1; 2])) float_times 0 0 2 (FP 1) (One 100) DcDefault (1/100) (FwRate disc) None None = Ok floater /\
  interest_rate_swap (DS := FloatDates (T:=R)) (Some (fun _ _ _ => Ok [1; 2])) float_times 0 0 2 (FP 1) 100 DcDefault (1/5) FwNone None None (FP 1) DcDefault 0 (FwRate disc) = Ok swap /\
  ll_legs fixed = [a1; a2] /\ ll_legs floater = [b1; b2] /\ ll_legs swap = [c1; c2] /\
  let none := HForward (fun _ => FwNone) in
  let curve := HForward (fun cs => match cs with c :: _ => FwRate c | [] => FwNone end) in
  let h := mkH [disc] [] [mkHL a1 HNone; mkHL a2 none; mkHL b1 HNone; mkHL b2 curve; mkHL c1 none; mkHL c2 curve] in
  forall fuel, (6 <= fuel)%nat ->
    returns (get_present_value fuel None (PrLegs [0%nat; 1%nat] (ll_domain fixed) (ll_origin fixed)) 0 (Some 0)) h 0 /\
    returns (get_present_value fuel None (PrLegs [2%nat; 3%nat] (ll_domain floater) (ll_origin floater)) 0 (Some 0)) h (144/100) /\
    returns (get_present_value fuel None (PrLegs [4%nat; 5%nat] (ll_domain swap) (ll_origin swap)) 0 (Some 0)) h (36 - 144/5).
Proof.
  destruct (single_curve (DC := no_counts) (L:=float_laws) DcDefault _ CCashRate 0 (1/4) (Some (FP 1)) None 0 (default_additive (L:=float_laws)) eq_refl eq_refl)
      as (disc & ED & (B1 & B2 & B3 & B4 & B5 & B6 & B7 & B8 & B9 & B10) & V).
  set (g := fun (_ _ : R) (_ : fperiod R) => Ok [1; 2]).
  destruct (C62_returns FloatDates (fun d => d) float_laws g float_times 0 0 2 (FP 1) [1; 2] (Many [40; 60]) DcDefault (1/4) FwNone None None eq_refl I eq_refl) as (fixed & E1).
  destruct (C62_returns FloatDates (fun d => d) float_laws g float_times 0 0 2 (FP 1) [1; 2] (One 100) DcDefault (1/100) (FwRate disc) None None eq_refl I I) as (floater & E2).
  destruct (C76_returns FloatDates (fun d => d) float_laws g float_times 0 0 2 (FP 1) [1; 2] 100 DcDefault (1/5) FwNone None None (FP 1) [1; 2] DcDefault 0 (FwRate disc) eq_refl eq_refl I) as (swap & E3).
  destruct (bond_inv FloatDates g float_times 0 0 2 (FP 1) [1; 2] _ _ _ _ _ _ _ eq_refl E1) as (a1 & a2 & _ & _ & L1 & _).
  destruct (bond_inv FloatDates g float_times 0 0 2 (FP 1) [1; 2] _ _ _ _ _ _ _ eq_refl E2) as (b1 & b2 & _ & _ & L2 & _).
  assert (L3 : exists c1 c2, ll_legs swap = [c1; c2]).
  { pose proof E3 as B. unfold interest_rate_swap, interest_payment_dates, g in B. cbn [bind] in B.
    destruct (ratelist_new [1; 2] _ _ _ _ _ (1/5) _) as [c1|]; [|discriminate]. cbn [bind] in B.
    destruct (ratelist_new [1; 2] _ _ _ _ _ 0 _) as [c2|]; [|discriminate]. cbn [bind] in B.
    exists c1, c2. unfold legs_new in B. destruct (min_origin _); [|discriminate]. cbn [bind] in B.
    destruct (cf_new _ _ _ _ _); [|discriminate]. cbn [bind] in B. now injection B as <-. }
  destruct L3 as (c1 & c2 & L3).
  exists disc, fixed, floater, swap, a1, a2, b1, b2, c1, c2.
  do 7 (split; [assumption|]). cbv zeta. set (h := mkH _ _ _). intros fuel HF.
  assert (PE : forall s e : R, period 0 [1; 2] s e -> (s = 0 /\ e = 1) \/ (s = 1 /\ e = 2)).
  { intros s e [[|[|[|i]]] [H1 H2]]; cbn in H1, H2; try discriminate; injection H1 as <-; injection H2 as <-; lra. }
  assert (ND : NoDup (map (fun d : R => d) [0; 1; 2])) by (repeat constructor; cbn; intuition lra).
  assert (ND' : NoDup (map (fun d : R => d) [1; 2])) by (repeat constructor; cbn; intuition lra).
  assert (TN : forall s e, period 0 [1; 2] s e -> d_add (DateSys := FloatDates (T:=R)) s (rc_tenor disc) = Ok e /\ d_ltb (DateSys := FloatDates (T:=R)) s e = true /\
      pay_count (DS := FloatDates (T:=R)) DcDefault s e = Ok (e - s) /\ has_value disc s (1/4) /\ 0 < 1 + 1/4 * (e - s)).
  { intros s e H. pose proof (PE s e H) as Q. split; [|split; [|split; [|split]]].
    - unfold rc_tenor. rewrite B7. cbn. f_equal. lra.
    - apply (ltb_t (L:=float_laws)). lra.
    - reflexivity.
    - apply V.
    - lra. }
  assert (LB : forall d, In d [0; 1; 2] -> d_leb (DateSys := FloatDates (T:=R)) 0 d = true).
  { intros d [<-|[<-|[<-|[]]]]; apply (leb_t (L:=float_laws)); lra. }
  set (dn := fun q => nth q [0; 1; 2] 0).
  assert (CF : forall a b n, (5 <= n)%nat -> (a <= b)%nat -> (b <= 2)%nat -> get_discount_factor n disc (dn a) (dn b) = Ok (prod_n (fun _ => 4/5) (b - a))).
  { intros a b n Hn Ha Hb. destruct (C25_cash_rate_curve FloatDates (fun d => d) no_counts float_laws disc _ B10 B1 dn 2 (fun _ => 1/4)) with (i := a) (j := b) (k := b) (fuel := n)
      as (x & y & E & _ & _ & -> & _); auto; try lia.
    - intros q Hq. unfold dn. destruct q as [|[|q]]; [|  |lia]; cbn [nth]; split; (apply (TN 0 1) || apply (TN 1 2)); [exists 0%nat|exists 0%nat|exists 1%nat|exists 1%nat]; auto.
    - intros q Hq. apply V.
    - intros q Hq. unfold dn. destruct q as [|[|q]]; [| |lia]; cbn; lra.
    - rewrite E. f_equal. apply prod_n_ext. intros q Hq. assert (dn (S (a + q)%nat) - dn (a + q)%nat = 1).
      { unfold dn. destruct (a + q)%nat as [|[|z]] eqn:EZ; [cbn; lra|cbn; lra|lia]. }
      rewrite H. lra. }
  set (DF := fun d : R => if Req_EM_T d 0 then 1 else if Req_EM_T d 1 then 4/5 else 16/25).
  assert (F0 : DF 0 = 1) by (unfold DF; destruct (Req_EM_T 0 0); lra).
  assert (F1 : DF 1 = 4/5) by (unfold DF; destruct (Req_EM_T 1 0); [lra|]; destruct (Req_EM_T 1 1); lra).
  assert (F2 : DF 2 = 16/25) by (unfold DF; destruct (Req_EM_T 2 0); [lra|]; destruct (Req_EM_T 2 1); lra).
  assert (DD : forall n, (5 <= n)%nat -> discounts (DS := FloatDates (T:=R)) n disc 0 0 [1; 2] DF).
  { intros n Hn. split.
    - intros d [<-|[<-|[<-|[]]]].
      + change (get_discount_factor n disc (dn 0%nat) (dn 0%nat) = Ok (DF 0)). rewrite CF, F0 by lia. reflexivity.
      + change (get_discount_factor n disc (dn 0%nat) (dn 1%nat) = Ok (DF 1)). rewrite CF, F1 by lia. cbn. f_equal. lra.
      + change (get_discount_factor n disc (dn 0%nat) (dn 2%nat) = Ok (DF 2)). rewrite CF, F2 by lia. cbn. f_equal. lra.
    - intros s e H. destruct (PE s e H) as [[-> ->]|[-> ->]]; exists (4/5).
      + split; [|split; lra]. change (get_discount_factor n disc (dn 0%nat) (dn 1%nat) = Ok (4/5)). rewrite CF by lia. cbn. f_equal. lra.
      + split; [|split; lra]. change (get_discount_factor n disc (dn 1%nat) (dn 2%nat) = Ok (4/5)). rewrite CF by lia. cbn. f_equal. lra. }
  assert (FT : floats (DS := FloatDates (T:=R)) (fun d => d) disc DcDefault (fun s e => e - s) 0 0 [1; 2]).
  { split; [now rewrite B1|]. split; [exact B10|]. split; [exact ND'|]. intros s e H. destruct (TN s e H) as (Q1 & Q2 & Q3 & _).
    split; [exact Q1|]. split; [|split; [exact Q3|apply LB; destruct (PE s e H) as [[_ ->]|[_ ->]]; cbn; auto]].
    cbn. apply Reqb_false. destruct (PE s e H); lra. }
  assert (KC : forall n, (5 <= n)%nat -> rc_cls disc = CCashRate -> forall a b, period 0 [1; 2] a b ->
       exists x, has_value disc a x /\ get_discount_factor n disc a b = Ok (/ (1 + x * (b - a))) /\ 1 + x * (b - a) <> 0).
  { intros n Hn _ a b H. exists (1/4). split; [apply V|]. destruct (PE a b H) as [[-> ->]|[-> ->]].
    + split; [|lra]. change (get_discount_factor n disc (dn 0%nat) (dn 1%nat) = Ok (/ (1 + 1/4 * (1 - 0)))). rewrite CF by lia. cbn. f_equal. lra.
    + split; [|lra]. change (get_discount_factor n disc (dn 1%nat) (dn 2%nat) = Ok (/ (1 + 1/4 * (2 - 1)))). rewrite CF by lia. cbn. f_equal. lra. }
  destruct fuel as [|fuel]; [lia|].
  split; [|split].
  - apply (C93_fixed_par FloatDates (fun d => d) no_counts float_laws None h 0 1 0 disc g float_times 0 0 2 (FP 1) [1; 2] (Many [40; 60]) DcDefault (1/4) None None
      fixed (fun _ => FwNone) (fun a b => b - a) _ _ eq_refl E1 eq_refl); auto; try exact I.
    + exists a1, a2. auto.
    + cbn. lia.
  - pose proof (C93_floating_bond FloatDates (fun d => d) no_counts float_laws fuel None h 2 3 0 disc g float_times 0 0 0 2 (FP 1) [1; 2] (One 100) DcDefault (1/100) None None
      floater (fun cs => match cs with c :: _ => FwRate c | [] => FwNone end) (fun s e => e - s) DF (ll_domain floater) (ll_origin floater) eq_refl E2 eq_refl) as Q.
    replace (144/100) with (over_periods 0 [1; 2] (balances (One 100) (length [1; 2])) (fun s e b => b * (1/100 * (e - s) * DF e))).
    + apply Q; auto; try exact I.
      * exists b1, b2. auto.
      * split; [reflexivity|discriminate].
      * apply LB. now left.
      * apply DD. lia.
      * apply DD. lia.
      * apply KC. lia.
    + unfold over_periods. cbn. rewrite F1, F2. lra.
  - pose proof (C93_swap FloatDates (fun d => d) no_counts float_laws fuel None h 4 5 0 disc g float_times 0 0 0 2 (FP 1) (FP 1) [1; 2] [1; 2] 100 DcDefault DcDefault (1/5) 0 None None
      swap (fun _ => FwNone) (fun cs => match cs with c :: _ => FwRate c | [] => FwNone end) (fun s e => e - s) (fun s e => e - s) DF (ll_domain swap) (ll_origin swap) eq_refl eq_refl E3 eq_refl) as Q.
    replace (36 - 144/5) with (100 * (DF 0 - DF (last [1; 2] 0)) + 100 * 0 * level DF (fun s e => e - s) 0 [1; 2] - 100 * (1/5) * level DF (fun s e => e - s) 0 [1; 2]).
    + apply Q; auto; try exact I.
      * exists c1, c2. auto.
      * intros a b H. destruct (TN a b H) as (_ & _ & Q3 & _). split; [exact Q3|]. apply LB. destruct (PE a b H) as [[_ ->]|[_ ->]]; cbn; auto.
      * intros d Id. apply DD; [lia|]. now right.
      * apply DD. lia.
      * apply DD. lia.
      * apply KC. lia.
    + unfold level. cbn. rewrite F0, F1, F2. lra.
Qed.
