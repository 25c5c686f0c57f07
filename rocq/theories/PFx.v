(** Properties C35 and C36: FxContainer (dcf/curves/fx.py).

    A history is [FxContainer(base, dom)] followed by any list of [add] calls
    (SFx.v).  Currencies other than the base currency may be added repeatedly unless
    [NoDup] says otherwise; the base currency itself is not added again. *)
From Coq Require Import Reals Lra Lia List Arith Bool Sorted.
From Verif Require Import Num Py Spec SInterpolation SDates LBase MInterpolation MDates MCurve LDates LDateCurve
  MRateCurve SRateCurve LRateCurve LRateCurve3 SCurve LFuel MFx SFx LFx.
Import ListNotations.
Open Scope R_scope.

#[local] Instance no_registry {D} : DayCounts R D := [].

(** * C35 *)
(** distinct currencies: every pair trades at the quotient of the given spot rates *)
Theorem C35_spots : forall {D P} (DS : DateSys R D P) (tm : D -> R) (DC : DayCounts R D),
  DateLaws DS tm -> forall tau, additive d_yf tau ->
  forall fuel base (dom : rcurve R D P) o (qs : list (quote D P)),
  rc_origin dom = Some o ->
  (forall q, In q qs -> 0 < q_spot q) -> NoDup (currencies base qs) ->
  exists c, fx_history fuel base dom qs = Ok c /\
    forall a b, In a (currencies base qs) -> In b (currencies base qs) ->
      (a <> b \/ a = base -> has_spot fuel c a b (spot_of base qs b / spot_of base qs a)) /\
      (a = b -> a <> base -> forall d, fx_forward fuel c a b d = Err AssertionError).
Proof.
  intros D P DS tm DC L tau A fuel base dom o qs HO HP ND. unfold currencies in ND. inversion ND as [|x l NI ND' E]; subst.
  destruct (forward_ok DcDefault tau A [] o [] 1 None o (YFloat 0)) as [fcd' [EF _]]; auto.
  { simpl. constructor; [simpl; tauto | constructor]. } { simpl. intros y [<-|[]]; lra. }
  destruct (history_ok tau A o (mkF fcd' (YFloat 0)) base dom HO fuel qs) as [c [cv [S [E [H1 [H2 [I [HC [HB [HR HN]]]]]]]]]].
  { intros q Q. split; auto. intro X. apply NI. rewrite <- X. now apply in_map. }
  exists c. split; auto. intros a b Ha Hb. specialize (HN ND'). split.
  - intro AB. assert (PR : paired base (currencies base qs) a b) by (repeat split; auto; tauto).
    exists o. rewrite H2. split; auto. unfold fx_forward, fx_get.
    assert (PR' : paired base (known_of base qs) a b) by (destruct PR as [P1 [P2 P3]]; repeat split; auto; now apply known_in).
    rewrite (inv_in _ _ _ _ _ _ _ I a b PR'). cbn [bind].
    rewrite (fx_price_o tau A) by apply (inv_pos _ _ _ _ _ _ _ I). now rewrite HN.
  - intros -> N d. unfold fx_forward, fx_get. rewrite (inv_out _ _ _ _ _ _ _ I); auto.
    unfold paired. tauto.
Qed.
Print Assumptions C35_spots.

(** hence triangulation, for all currencies of the container *)
Theorem C35_triangulation : forall {D P} (DS : DateSys R D P) (tm : D -> R) (DC : DayCounts R D),
  DateLaws DS tm -> forall tau, additive d_yf tau ->
  forall fuel base (dom : rcurve R D P) o (qs : list (quote D P)) cont,
  rc_origin dom = Some o ->
  (forall q, In q qs -> 0 < q_spot q) -> NoDup (currencies base qs) ->
  fx_history fuel base dom qs = Ok cont ->
  forall a b c, In a (currencies base qs) -> In b (currencies base qs) -> In c (currencies base qs) ->
  a <> b -> b <> c -> a <> c ->
  exists x y z, has_spot fuel cont a b x /\ has_spot fuel cont b c y /\ has_spot fuel cont a c z /\ x * y = z.
Proof.
  intros D P DS tm DC L tau A fuel base dom o qs cont HO HP ND E a b c Ha Hb Hc N1 N2 N3.
  destruct (C35_spots DS tm DC L tau A fuel base dom o qs HO HP ND) as [c' [E' H]].
  rewrite E in E'. inversion E'; subst c'.
  exists (spot_of base qs b / spot_of base qs a), (spot_of base qs c / spot_of base qs b), (spot_of base qs c / spot_of base qs a).
  repeat split; try (apply H; auto; fail).
  assert (PS : forall x, 0 < spot_of base qs x).
  { intro x. unfold spot_of. destruct (Nat.eqb x base); [lra|]. clear - HP. revert HP. induction qs as [|q qs IH]; simpl; intro HP; [lra|].
    specialize (IH (fun q' H => HP q' (or_intror H))). destruct (quoted qs x); auto.
    destruct (Nat.eqb (q_cur q) x); auto; lra. }
  pose proof (PS a). pose proof (PS b). field. lra.
Qed.
Print Assumptions C35_triangulation.

(** any history, re-adding currencies included: the base pairs carry the last spot given
    and opposite pairs stay reciprocal *)
Theorem C35_history : forall {D P} (DS : DateSys R D P) (tm : D -> R) (DC : DayCounts R D),
  DateLaws DS tm -> forall tau, additive d_yf tau ->
  forall fuel base (dom : rcurve R D P) o (qs : list (quote D P)),
  rc_origin dom = Some o ->
  (forall q, In q qs -> q_cur q <> base /\ 0 < q_spot q) ->
  exists c, fx_history fuel base dom qs = Ok c /\
    (forall b, In b (currencies base qs) -> has_spot fuel c base b (spot_of base qs b)) /\
    (forall a b, In a (currencies base qs) -> In b (currencies base qs) -> a <> b ->
       exists x y, has_spot fuel c a b x /\ has_spot fuel c b a y /\ 0 < x /\ x * y = 1).
Proof.
  intros D P DS tm DC L tau A fuel base dom o qs HO HP.
  destruct (forward_ok DcDefault tau A [] o [] 1 None o (YFloat 0)) as [fcd' [EF _]]; auto.
  { simpl. constructor; [simpl; tauto | constructor]. } { simpl. intros y [<-|[]]; lra. }
  destruct (history_ok tau A o (mkF fcd' (YFloat 0)) base dom HO fuel qs HP) as [c [cv [S [E [H1 [H2 [I [HC [HB [HR HN]]]]]]]]]].
  exists c. split; auto.
  assert (HS : forall a b, In a (currencies base qs) -> In b (currencies base qs) -> (a = b -> a = base) -> has_spot fuel c a b (S a b)).
  { intros a b Ha Hb AB. exists o. rewrite H2. split; auto. unfold fx_forward, fx_get.
    rewrite (inv_in _ _ _ _ _ _ _ I a b) by (repeat split; auto; now apply known_in). cbn [bind].
    apply (fx_price_o tau A), (inv_pos _ _ _ _ _ _ _ I). }
  split.
  - intros b Hb. rewrite <- HB. apply HS; simpl; auto.
  - intros a b Ha Hb AB. exists (S a b), (S b a). repeat split; try (apply HS; auto; congruence).
    + apply (inv_pos _ _ _ _ _ _ _ I).
    + auto.
Qed.
Print Assumptions C35_history.

(** a zero rate curve with rate r at the dates 0 and 1, used in the examples *)
Lemma rate_curve (r : R) : exists c : rcurve R R (fperiod R),
  rc_new (DS:=FloatDates) (DC:=no_registry) CZeroRate [0; 1] [r; r] None (Some 0) DcDefault None = Ok c /\
  rc_origin c = Some 0 /\ get_discount_factor (DS:=FloatDates) (DC:=no_registry) 2 c 0 1 = Ok (exp (- r)).
Proof.
  pose proof (float_additive (DC:=no_registry)) as A.
  destruct (rc_new_linear (L:=float_laws) DcDefault _ A CZeroRate [0; 1] [r; r] (Some 0) 0 None) as [c [E [B [V V']]]]; auto.
  { reflexivity. } { repeat constructor; simpl; intuition lra. } { discriminate. }
  exists c. split; auto. destruct B as [B1 [_ [B3 [_ [_ [_ [_ [_ [B9 B10]]]]]]]]]. split; auto.
  unfold get_discount_factor, interest_only. rewrite B1. cbn [is_interest].
  assert (V1 : rc_call (DS:=FloatDates) c 1 = Ok r) by (apply V; simpl; auto).
  assert (Hf : Reqb 0 1 = false) by (apply Reqb_false; lra).
  cbn [factor rate]. unfold both_origin, at_origin. rewrite B1, B3. cbn [d_eqb d_is FloatDates neqb Rnum]. rewrite Hf.
  replace (Reqb 0 0) with true by (symmetry; now apply Reqb_true). cbn [andb]. rewrite V1. cbn [bind].
  rewrite (add_val _ _ B10). cbn [bind]. unfold MCompounding.continuous_compounding. rn. do 2 f_equal. lra.
Qed.

(** ... but cross rates keep the spot of the first addition: after re-adding a currency
    with a new spot triangulation fails.  Base 0; currency 1 at 2, then 2 at 4, then 1
    again at 3: spot(0,1) = 3, spot(1,2) = 2, spot(0,2) = 4. *)
Theorem C35_readd_refuted : exists (dom : rcurve R R (fperiod R)) c,
  fx_history (DS:=FloatDates) (DC:=no_registry) 2 0%nat dom [Q 1 dom 2; Q 2 dom 4; Q 1 dom 3] = Ok c /\
  has_spot (DS:=FloatDates) (DC:=no_registry) 2 c 0 1 3 /\ has_spot (DS:=FloatDates) (DC:=no_registry) 2 c 1 2 2 /\
  has_spot (DS:=FloatDates) (DC:=no_registry) 2 c 0 2 4 /\ 3 * 2 <> 4.
Proof.
  pose proof (float_additive (DC:=no_registry)) as A.
  destruct (rate_curve 0) as [dom [_ [HO _]]]. exists dom.
  destruct (forward_ok (L:=float_laws) DcDefault _ A [] 0 [] 1 None 0 (YFloat 0)) as [fcd' [EF _]]; auto.
  { simpl. constructor; [simpl; tauto | constructor]. } { simpl. intros y [<-|[]]; lra. }
  set (fcd := mkF fcd' (YFloat 0)).
  destruct (history_ok (L:=float_laws) _ A 0 fcd 0%nat dom HO 2 [Q 1 dom 2; Q 2 dom 4]) as [c2 [cv [Sp [E [H1 [H2 [I [HC [HB [HR HN]]]]]]]]]].
  { simpl. intros q [<-|[<-|[]]]; cbn; split; try lra; discriminate. }
  destruct c2 as [cc cd cm]. cbn [fxc_cur fxc_dom fxc_map] in *. subst cc cd.
  assert (CB : cv 0%nat = dom) by (rewrite HC; reflexivity).
  destruct (add_ok (L:=float_laws) _ A 0 fcd 0%nat dom HO 2 1%nat dom 3 ltac:(discriminate) ltac:(lra) cm _ cv Sp I CB) as [c3 [E3 [H1' [H2' I3]]]].
  exists c3. split.
  { change [Q 1 dom 2; Q 2 dom 4; Q 1 dom 3] with ([Q 1 dom 2; Q 2 dom 4] ++ [Q 1 dom 3]).
    unfold fx_history in *. destruct (fx_container _ _ _); [|discriminate]. cbn [bind] in *.
    rewrite foldM_app, E. cbn [bind foldM]. cbn [q_cur q_curve q_spot]. rewrite E3. reflexivity. }
  assert (HS : forall a b : nat, In a [0; 1; 2]%nat -> In b [0; 1; 2]%nat -> a <> b ->
     has_spot (DS:=FloatDates) (DC:=no_registry) 2 c3 a b (S' 0%nat 1%nat 3 (known_of 0%nat [Q 1 dom 2; Q 2 dom 4]) Sp a b)).
  { intros a b Ha Hb N. exists 0. rewrite H2'. split; auto. unfold fx_forward, fx_get.
    rewrite (inv_in _ _ _ _ _ _ _ I3 a b).
    - cbn [bind]. apply (fx_price_o (L:=float_laws) _ A), (inv_pos _ _ _ _ _ _ _ I3).
    - simpl in Ha, Hb. unfold paired. simpl. intuition (subst; congruence || auto). }
  assert (S12 : Sp 1%nat 2%nat = 2).
  { rewrite HN.
    - unfold spot_of. simpl. lra.
    - simpl. repeat constructor; simpl; intuition discriminate.
    - unfold paired. simpl. intuition discriminate. }
  assert (S02 : Sp 0%nat 2%nat = 4) by (rewrite HB; reflexivity).
  split; [|split; [|split]].
  - apply (HS 0%nat 1%nat); simpl; auto.
  - pose proof (HS 1%nat 2%nat) as H. unfold S' in H. simpl in H. rewrite S12 in H. apply H; auto.
  - pose proof (HS 0%nat 2%nat) as H. unfold S' in H. simpl in H. rewrite S02 in H. apply H; auto.
  - lra.
Qed.
Print Assumptions C35_readd_refuted.

(** the dates of all spots come from the domestic curve: without any, nothing can be added *)
Theorem C35_no_dates : forall {D P} (DS : DateSys R D P) (DC : DayCounts R D) k (count : dcspec R D) (tenor : option P),
  exists dom, rc_new k [] [] None None count tenor = Ok dom /\
  forall fuel cur, fx_container fuel cur dom = Err TypeError /\
    forall m f curve spot, fx_add fuel (mkFC cur dom m) f curve spot = Err TypeError.
Proof.
  intros D P DS DC k count tenor.
  assert (E : exists dom, rc_new k [] [] None None count tenor = Ok dom /\ rc_origin dom = None) by (destruct k; eexists; split; reflexivity).
  destruct E as (dom & E & O). exists dom. split; [exact E|]. intros fuel cur.
  unfold fx_container, fx_add, fx_spot_curve. cbn [fxc_dom]. rewrite O. auto.
Qed.
Print Assumptions C35_no_dates.

(** [container[a]] is the dict of all curves of currency [a]: [container[a][b]] is
    [container[a, b]], with no item where the container has none *)
Theorem C35_row : forall {D P} (c : fxcont R D P) (a b : ccy),
  assoc Nat.eqb b (fx_row (fxc_map c) a) = match fx_get (fxc_map c) (a, b) with Ok e => Some e | Err _ => None end.
Proof.
  intros D P [cur dom m] a b. cbn [fxc_map]. unfold fx_row, fx_get. induction m as [|[[x y] e] m IH]; [reflexivity|].
  cbn [filter fst snd assoc]. unfold pair_eqb at 1. cbn [fst snd]. destruct (Nat.eqb x a) eqn:X; cbn [andb map assoc fst snd].
  - destruct (Nat.eqb y b) eqn:Y; cbn [assoc]; [reflexivity|exact IH].
  - exact IH.
Qed.
Print Assumptions C35_row.

(** assigning a curve to a pair changes the forward prices of that pair and of no other *)
Theorem C35_set_pair : forall {D P} (DS : DateSys R D P) (DC : DayCounts R D) fuel (c : fxcont R D P) a b e d,
  fx_forward fuel (fx_set_pair c (a, b) e) a b d = fx_price fuel e d /\
  (forall x y, (x, y) <> (a, b) -> fx_forward fuel (fx_set_pair c (a, b) e) x y d = fx_forward fuel c x y d).
Proof.
  intros D P DS DC fuel c a b e d. unfold fx_forward, fx_get, fx_set_pair. cbn [fxc_map]. split.
  - rewrite assoc_set_pair. unfold pair_eqb. cbn [fst snd]. rewrite !Nat.eqb_refl. reflexivity.
  - intros x y N. rewrite assoc_set_pair. unfold pair_eqb at 1. cbn [fst snd].
    destruct (Nat.eqb a x) eqn:X; cbn [andb]; auto. destruct (Nat.eqb b y) eqn:Y; auto.
    apply Nat.eqb_eq in X, Y. subst. now destruct N.
Qed.
Print Assumptions C35_set_pair.

(** assigning a curve to a currency adds the currency with the foreign curve and the
    forward price at the origin as spot rate; a curve with another domestic curve is refused *)
Theorem C35_set_currency : forall {D P} (DS : DateSys R D P) (DC : DayCounts R D) fuel (c : fxcont R D P) f e o x,
  rc_origin (fxc_dom c) = Some o -> fx_price fuel e o = Ok x ->
  fx_set_currency fuel c f e true = fx_add fuel c f (fx_for e) x /\
  fx_set_currency fuel c f e false = Err AssertionError.
Proof. intros D P DS DC fuel c f e o x O X. unfold fx_set_currency. rewrite O. cbn [bind]. rewrite X. auto. Qed.
Print Assumptions C35_set_currency.

(** a container meeting the hypotheses of C35_spots *)
Example C35_example : exists (dom : rcurve R R (fperiod R)) c,
  fx_history (DS:=FloatDates) (DC:=no_registry) 2 0%nat dom [Q 1 dom 2; Q 2 dom 4] = Ok c /\
  has_spot (DS:=FloatDates) (DC:=no_registry) 2 c 1 2 (4 / 2).
Proof.
  destruct (rate_curve 0) as [dom [_ [HO _]]]. exists dom.
  destruct (C35_spots FloatDates (fun d => d) no_registry float_laws _ (float_additive (DC:=no_registry))
             2 0%nat dom 0 [Q 1 dom 2; Q 2 dom 4] HO) as [c [E H]].
  { simpl. intros q [<-|[<-|[]]]; cbn; lra. }
  { simpl. repeat constructor; simpl; intuition discriminate. }
  exists c. split; auto. destruct (H 1%nat 2%nat) as [H1 _]; simpl; auto.
Qed.

(** * C36 *)
(** the forward prices of every history: with x after the origin and da, db the discount
    factors of the two curves, a cross pair and a pair (base, b) has price
    spot * da / db, a pair (a, base) is flat *)
Theorem C36_forwards : forall {D P} (DS : DateSys R D P) (tm : D -> R) (DC : DayCounts R D),
  DateLaws DS tm -> forall tau, additive d_yf tau ->
  forall fuel base (dom : rcurve R D P) o (qs : list (quote D P)),
  rc_origin dom = Some o ->
  (forall q, In q qs -> q_cur q <> base /\ 0 < q_spot q) ->
  exists c, fx_history fuel base dom qs = Ok c /\
    forall a b x s da db, In a (currencies base qs) -> In b (currencies base qs) -> a <> b ->
      has_spot fuel c a b s -> d_ltb o x = true ->
      get_discount_factor fuel (curve_of base dom qs a) o x = Ok da -> da <> 0 ->
      get_discount_factor fuel (curve_of base dom qs b) o x = Ok db -> db <> 0 ->
      fx_forward fuel c a b x = Ok (if Nat.eqb b base then s else s * da / db).
Proof.
  intros D P DS tm DC L tau A fuel base dom o qs HO HP.
  destruct (forward_ok DcDefault tau A [] o [] 1 None o (YFloat 0)) as [fcd' [EF _]]; auto.
  { simpl. constructor; [simpl; tauto | constructor]. } { simpl. intros y [<-|[]]; lra. }
  destruct (history_ok tau A o (mkF fcd' (YFloat 0)) base dom HO fuel qs HP) as [c [cv [S [E [H1 [H2 [I [HC [HB [HR HN]]]]]]]]]].
  exists c. split; auto. intros a b x s da db Ha Hb N [o' [Ho' Hs]] LT Da Na Db Nb.
  rewrite H2, HO in Ho'. inversion Ho'; subst o'. clear Ho'.
  assert (PR : paired base (known_of base qs) a b).
  { split; [now apply known_in|]. split; [now apply known_in|]. intro; contradiction. }
  unfold fx_forward, fx_get in *. rewrite (inv_in _ _ _ _ _ _ _ I a b PR) in Hs |- *.
  cbn [bind] in *. rewrite (fx_price_o tau A) in Hs by apply (inv_pos _ _ _ _ _ _ _ I). inversion Hs as [Hs']. clear Hs.
  rewrite (fx_price_after tau A) by (try apply (inv_pos _ _ _ _ _ _ _ I); now apply (law_ltb o x)).
  rewrite !HC, Hs', Da. cbn [bind]. destruct (Nat.eqb b base).
  - rewrite Da. cbn [bind]. rn. rewrite Rdivp_ok by auto. cbn [bind]. f_equal. field. auto.
  - rewrite Db. cbn [bind]. rn. rewrite Rdivp_ok by auto. cbn [bind]. f_equal. field. auto.
Qed.
Print Assumptions C36_forwards.

(** reciprocity holds for pairs without the base currency, at every date after origin *)
Theorem C36_reciprocal_partial : forall {D P} (DS : DateSys R D P) (tm : D -> R) (DC : DayCounts R D),
  DateLaws DS tm -> forall tau, additive d_yf tau ->
  forall fuel base (dom : rcurve R D P) o (qs : list (quote D P)) c,
  rc_origin dom = Some o -> (forall q, In q qs -> q_cur q <> base /\ 0 < q_spot q) ->
  fx_history fuel base dom qs = Ok c ->
  forall a b x da db, In a (map q_cur qs) -> In b (map q_cur qs) -> a <> b -> d_ltb o x = true ->
  get_discount_factor fuel (curve_of base dom qs a) o x = Ok da -> 0 < da ->
  get_discount_factor fuel (curve_of base dom qs b) o x = Ok db -> 0 < db ->
  exists u v, fx_forward fuel c a b x = Ok u /\ fx_forward fuel c b a x = Ok v /\ u * v = 1.
Proof.
  intros D P DS tm DC L tau A fuel base dom o qs c HO HP E a b x da db Ha Hb N LT Da Pa Db Pb.
  destruct (C35_history DS tm DC L tau A fuel base dom o qs HO HP) as [c1 [E1 [_ H1]]].
  destruct (C36_forwards DS tm DC L tau A fuel base dom o qs HO HP) as [c2 [E2 H2]].
  rewrite E in E1, E2. inversion E1; inversion E2; subst c1 c2.
  destruct (H1 a b) as [s [t [Hs [Ht [Ps ST]]]]]; simpl; auto.
  assert (NB : forall y, In y (map q_cur qs) -> Nat.eqb y base = false).
  { intros y Y. apply in_map_iff in Y. destruct Y as [q [<- Q]]. apply Nat.eqb_neq. now apply HP. }
  exists (s * da / db), (t * db / da). split; [|split].
  - rewrite (H2 a b x s da db) by (simpl; auto; lra). now rewrite NB.
  - rewrite (H2 b a x t db da) by (simpl; auto; lra). now rewrite NB.
  - transitivity (s * t); [field; lra | auto].
Qed.
Print Assumptions C36_reciprocal_partial.

(** with the base currency it fails, and so does covered interest parity in the quotation
    documented for [add] (spot s turns one unit of the foreign currency into s units of
    base): a foreign curve at rate 0, a base curve at rate 1.  Parity demands
    s * df_foreign / df_base = 2 e; the container says 2 / e, and 1 / 2 for the
    opposite pair. *)
Theorem C36_parity_refuted : exists (dom foreign : rcurve R R (fperiod R)) c,
  fx_history (DS:=FloatDates) (DC:=no_registry) 2 0%nat dom [Q 1 foreign 2] = Ok c /\
  get_discount_factor (DS:=FloatDates) (DC:=no_registry) 2 dom 0 1 = Ok (exp (-1)) /\
  get_discount_factor (DS:=FloatDates) (DC:=no_registry) 2 foreign 0 1 = Ok 1 /\
  fx_forward (DS:=FloatDates) (DC:=no_registry) 2 c 0 1 1 = Ok (2 * exp (-1)) /\
  fx_forward (DS:=FloatDates) (DC:=no_registry) 2 c 1 0 1 = Ok (1 / 2) /\
  2 * exp (-1) <> 2 * 1 / exp (-1) /\ 2 * exp (-1) * (1 / 2) <> 1.
Proof.
  destruct (rate_curve 1) as [dom [_ [HO Hd]]], (rate_curve 0) as [foreign [_ [HF Hf]]]. exists dom, foreign.
  replace (exp (- 0)) with 1 in Hf by (rewrite Ropp_0, exp_0; auto).
  assert (HQ : forall q, In q [Q 1 foreign 2] -> q_cur q <> 0%nat /\ 0 < q_spot q).
  { simpl. intros q [<-|[]]; cbn; split; try lra; discriminate. }
  destruct (C35_history FloatDates (fun d => d) no_registry float_laws _ (float_additive (DC:=no_registry))
             2 0%nat dom 0 _ HO HQ) as [c [E [H1 H2]]].
  destruct (C36_forwards FloatDates (fun d => d) no_registry float_laws _ (float_additive (DC:=no_registry))
             2 0%nat dom 0 _ HO HQ) as [c' [E' H3]].
  rewrite E in E'. inversion E'; subst c'. exists c.
  pose proof (exp_pos (-1)) as PE.
  assert (PE1 : exp (-1) < 1) by (rewrite <- exp_0; apply exp_increasing; lra).
  assert (S01 : has_spot (DS:=FloatDates) (DC:=no_registry) 2 c 0 1 2) by (apply (H1 1%nat); simpl; auto).
  destruct (H2 0%nat 1%nat) as [s [t [Hs [Ht [Ps ST]]]]]; simpl; auto.
  assert (s = 2) by (destruct Hs as [o1 [O1 F1]], S01 as [o2 [O2 F2]]; rewrite O1 in O2; inversion O2; subst; rewrite F1 in F2; now inversion F2).
  subst s. assert (t = 1 / 2) by lra. subst t.
  assert (LT : d_ltb (DateSys:=FloatDates) 0 1 = true) by (cbn; apply Rltb_true; lra).
  split; [|split; [|split; [|split; [|split; [|split]]]]]; auto.
  - rewrite (H3 0%nat 1%nat 1 2 (exp (-1)) 1) by (simpl; auto; lra). cbn [Nat.eqb]. f_equal. lra.
  - rewrite (H3 1%nat 0%nat 1 (1 / 2) 1 (exp (-1))) by (simpl; auto; lra). reflexivity.
  - intro X. assert (exp (-1) * exp (-1) = 1).
    { apply (Rmult_eq_compat_r (exp (-1))) in X. replace (2 * 1 / exp (-1) * exp (-1)) with 2 in X by (field; lra). lra. }
    nra.
  - nra.
Qed.
Print Assumptions C36_parity_refuted.

(** a cross pair with different rates *)
Example C36_example : exists (dom f g : rcurve R R (fperiod R)) c u v,
  fx_history (DS:=FloatDates) (DC:=no_registry) 2 0%nat dom [Q 1 f 2; Q 2 g 4] = Ok c /\
  fx_forward (DS:=FloatDates) (DC:=no_registry) 2 c 1 2 1 = Ok u /\
  fx_forward (DS:=FloatDates) (DC:=no_registry) 2 c 2 1 1 = Ok v /\ u * v = 1.
Proof.
  destruct (rate_curve 0) as [dom [_ [HO _]]], (rate_curve 1) as [f [_ [_ Hf]]], (rate_curve 2) as [g [_ [_ Hg]]].
  assert (HQ : forall q, In q [Q 1 f 2; Q 2 g 4] -> q_cur q <> 0%nat /\ 0 < q_spot q).
  { simpl. intros q [<-|[<-|[]]]; cbn; split; try lra; discriminate. }
  destruct (C35_history FloatDates (fun d => d) no_registry float_laws _ (float_additive (DC:=no_registry))
             2 0%nat dom 0 _ HO HQ) as [c [E _]].
  destruct (C36_reciprocal_partial FloatDates (fun d => d) no_registry float_laws _ (float_additive (DC:=no_registry))
             2 0%nat dom 0 _ c HO HQ E 1%nat 2%nat 1 (exp (- (1))) (exp (- (2)))) as [u [v H]]; simpl; auto.
  - cbn. apply Rltb_true. lra.
  - apply exp_pos.
  - apply exp_pos.
  - exists dom, f, g, c, u, v. tauto.
Qed.
