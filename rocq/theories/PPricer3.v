(** Properties C48 and C49: basis point value and bucketed delta. *)
From Coq Require Import Reals Lra Lia List Bool ZArith Sorted.
From Verif Require Import Num Py Spec MDates MInterpolation MCurve MRateCurve MOption MCashflow MBracket MPricer
  SDates SInterpolation SCurve SPricer LBase LSort LDates LCurve LCurve2 LRateCurve LRateCurve3 LCashflow LPricer LPricer2 LPricer3 PPricer PPricer2.
Import ListNotations.
Open Scope R_scope.

Section Shifts.
  Context {D P : Type} (DS : DateSys R D P) (DC : DayCounts R D) (tm : D -> R) (L : DateLaws DS tm).
  Implicit Types (h : heap R D P).

  (** the curves that are shifted: the discount curve if none are given *)
  Definition deltas (disc : nat) (delta : option (list nat)) : list nat :=
    match delta with Some l => l | None => [disc] end.

  (** curves which can be shifted: known, without spread, with points *)
  Definition plain_curves h (ks : list nat) : Prop := NoDup ks /\
    forall k, In k ks -> exists c o, nth_error (h_curves h) k = Some c /\ rc_spread c = None /\ rc_origin c = Some o.

  (** * C48: the scaled difference of the present values *)
  (** the same shifted curves for all products *)
  Lemma bpv_uniform : forall disc delta shift h,
    plain_curves h (deltas disc delta) -> shift <> 0 ->
    exists h1, shifted_by h (deltas disc delta) (fun _ => shift) h1 /\
      forall fuel flr p v x, returns (get_basis_point_value fuel flr p disc v delta shift) h x <->
        exists p0 p1, returns (get_present_value fuel flr p disc v) h p0 /\
          returns (get_present_value fuel flr p disc v) h1 p1 /\ x = (p1 - p0) / shift * (1 / 10000).
  Proof.
    intros disc delta shift h [ND HC] NZ.
    destruct (spread_run (shift_curve shift) (fun _ => shift) (deltas disc delta) h ND) as (us & h1 & E & SB).
    { intros k I. destruct (HC k I) as (c & o & A & B & _). eauto. }
    { intros h' k c I Ek Ek'. destruct (HC k I) as (c' & o & A & _ & B). assert (c' = c) by congruence. subst c'.
      destruct (flat_spread (L:=L) o shift) as (s & Es & V). exists s. split; auto.
      unfold shift_curve. unfold bindS, get_curve. rewrite (nth_res_some _ _ _ Ek'), B. unfold lift. now rewrite Es. }
    destruct (unspread_run _ _ _ _ SB) as (us' & E').
    { intros k I. destruct (HC k I) as (c & o & A & B & _). eauto. }
    exists h1. split; auto. intros fuel flr p v x. unfold returns. split.
    - intros H. unfold get_basis_point_value in H. apply bind_ok in H. destruct H as (p0 & h0 & E0 & H).
      pose proof (pv_still _ _ _ _ _ _ _ _ E0) as ->. cbv zeta in H. fold (deltas disc delta) in H.
      unfold bindS in H. rewrite E in H. destruct (get_present_value fuel flr p disc v h1) as [[p1|e] h2] eqn:E1; [|discriminate].
      pose proof (pv_still _ _ _ _ _ _ _ _ E1) as ->. rewrite E' in H. unfold lift in H.
      change (ndiv (nsub p1 p0) shift) with (Rdivp (p1 - p0) shift) in H. rewrite Rdivp_ok in H by auto. unfold ret in H. injection H as <-.
      exists p0, p1. auto.
    - intros (p0 & p1 & E0 & E1 & ->). unfold get_basis_point_value, bindS. rewrite E0. cbv zeta. fold (deltas disc delta).
      rewrite E, E1, E'. unfold lift. change (ndiv (nsub p1 p0) shift) with (Rdivp (p1 - p0) shift).
      rewrite Rdivp_ok by auto. unfold ret. reflexivity.
  Qed.

  Theorem C48_value : forall fuel flr p disc v delta shift h,
    plain_curves h (deltas disc delta) -> shift <> 0 ->
    exists h1, shifted_by h (deltas disc delta) (fun _ => shift) h1 /\
      forall x, returns (get_basis_point_value fuel flr p disc v delta shift) h x <->
        exists p0 p1, returns (get_present_value fuel flr p disc v) h p0 /\
          returns (get_present_value fuel flr p disc v) h1 p1 /\ x = (p1 - p0) / shift * (1 / 10000).
  Proof.
    intros fuel flr p disc v delta shift h PC NZ. destruct (bpv_uniform disc delta shift h PC NZ) as (h1 & S & Q). eauto.
  Qed.

  (** a shift of zero *)
  Theorem C48_zero_shift : forall fuel flr p disc v delta h h' x,
    get_basis_point_value fuel flr p disc v delta 0 h <> (Ok x, h').
  Proof.
    intros fuel flr p disc v delta h h' x H. unfold get_basis_point_value in H.
    apply bind_ok in H. destruct H as (p0 & h0 & E0 & H). cbv zeta in H.
    apply bind_ok in H. destruct H as (u & h1 & E1 & H).
    apply bind_ok in H. destruct H as (p1 & h2 & E2 & H).
    apply bind_ok in H. destruct H as (u' & h3 & E3 & H).
    unfold bindS, lift in H. change (ndiv (nsub p1 p0) 0) with (Rdivp (p1 - p0) 0) in H.
    rewrite Rdivp_zero in H by reflexivity. discriminate.
  Qed.

  (** a curve which has a spread already cannot be shifted *)
  Theorem C48_spread_refuted : forall fuel flr p disc v k shift h p0 c o s,
    returns (get_present_value fuel flr p disc v) h p0 ->
    nth_error (h_curves h) k = Some c -> rc_origin c = Some o -> rc_spread c = Some s ->
    get_basis_point_value fuel flr p disc v (Some [k]) shift h = (Err TypeError, h).
  Proof.
    intros fuel flr p disc v k shift h p0 c o s HP Ek HO HS.
    assert (S : shift_curve shift k h = (Err TypeError, h)).
    { unfold shift_curve, bindS, get_curve. rewrite (nth_res_some _ _ _ Ek), HO. unfold lift.
      destruct (flat_spread (L:=L) o shift) as (sp & Es & _). rewrite Es. exact (put_spread_twice _ _ _ _ _ Ek HS). }
    unfold get_basis_point_value, bindS. rewrite HP. cbn [mapS]. unfold bindS. now rewrite S.
  Qed.

  (** * C42 again: a curve listed twice keeps the spread of the failed call *)
  Theorem C42_twice_refuted : forall fuel flr p disc v k shift h p0 c o,
    returns (get_present_value fuel flr p disc v) h p0 ->
    nth_error (h_curves h) k = Some c -> rc_spread c = None -> rc_origin c = Some o ->
    exists h1, shifted_by h [k] (fun _ => shift) h1 /\
      get_basis_point_value fuel flr p disc v (Some [k; k]) shift h = (Err TypeError, h1).
  Proof.
    intros fuel flr p disc v k shift h p0 c o HP Ek HS HO.
    assert (RUN : forall h' c', nth_error (h_curves h') k = Some c' -> rc_origin c' = Some o -> exists s,
      shift_curve shift k h' = put_spread k (Some (inl s)) h' /\ forall d, dc_val s d = Ok shift).
    { intros h' c' Ek' HO'. destruct (flat_spread (L:=L) o shift) as (s & Es & V). exists s. split; auto.
      unfold shift_curve. unfold bindS, get_curve. rewrite (nth_res_some _ _ _ Ek'), HO'. unfold lift. now rewrite Es. }
    destruct (spread_run (shift_curve shift) (fun _ => shift) [k] h) as (us & h1 & E & SB).
    { repeat constructor. intros []. }
    { intros j [<-|[]]. eauto. }
    { intros h' j c' [<-|[]] Ej Ej'. assert (c' = c) by congruence. subst c'. eauto. }
    exists h1. split; auto. destruct SB as (_ & _ & _ & C2). destruct (C2 k c (or_introl eq_refl) Ek) as (s & Es & _).
    unfold get_basis_point_value, bindS. rewrite HP. cbn [mapS] in *. unfold bindS, ret in *.
    destruct (shift_curve shift k h) as [[u|e] h2] eqn:E1; [|discriminate]. injection E as _ ->.
    destruct (RUN h1 _ Es HO) as (s2 & -> & _).
    rewrite (put_spread_twice _ _ _ _ s Es eq_refl). reflexivity.
  Qed.

  (** * C49: one bucket per grid date: the documented triangle, and the buckets add up to the shift *)
  (** the same shifted curves for all products *)
  Lemma buckets_uniform : forall disc delta (grid : list D) shift h,
    plain_curves h (deltas disc delta) -> shift <> 0 -> grid <> [] -> increasing (map tm grid) ->
    (exists c, nth_error (h_curves h) disc = Some c) ->
    exists (bs : list (D -> R)) (hs : list (heap R D P)),
      length bs = length grid /\
      (forall i j d b, nth_error grid i = Some d -> nth_error bs j = Some b -> b d = if Nat.eqb i j then shift else 0) /\
      (forall j d b, nth_error bs j = Some b -> piecewise_linear (combine (map tm grid) (spike shift (length grid) j)) (tm d) (b d)) /\
      (forall d, Rsum (map (fun b => b d) bs) = shift) /\
      Forall2 (fun b h1 => shifted_by h (deltas disc delta) b h1) bs hs /\
      forall fuel flr p v xs, returns (get_bucketed_delta fuel flr p disc v delta (Some grid) shift) h xs <->
        exists p0 ps, returns (get_present_value fuel flr p disc v) h p0 /\
          Forall2 (fun h1 p1 => returns (get_present_value fuel flr p disc v) h1 p1) hs ps /\
          xs = map (fun p1 => (p1 - p0) / shift * (1 / 10000)) ps.
  Proof.
    intros disc delta grid shift h [ND HC] NZ NE INC [cd Hcd].
    destruct (buckets_hat grid shift NE) as (gs & EG & LG & HG).
    destruct (hats_sum (L:=L) shift grid INC NE gs LG HG) as (bs & FB & LB & NB & PB & SB).
    assert (HC' : forall k, In k (deltas disc delta) -> exists c, nth_error (h_curves h) k = Some c /\ rc_spread c = None).
    { intros k I. destruct (HC k I) as (c & o & A & B & _). eauto. }
    assert (EACH : exists hs, Forall2 (fun b h1 => shifted_by h (deltas disc delta) b h1) bs hs /\
      Forall2 (fun g h1 => forall fuel flr p v p0 x, returns (bucket_value fuel flr p disc v (deltas disc delta) shift p0 g) h x <->
          exists p1, returns (get_present_value fuel flr p disc v) h1 p1 /\ x = (p1 - p0) / shift * (1 / 10000)) gs hs).
    { clear -FB ND HC' NZ L. induction FB as [|g b gs bs (s & Es & V) F IH]; [exists []; auto|].
      destruct IH as (hs & F1 & F2).
      destruct (spread_run (bucket_curve g) b (deltas disc delta) h ND HC') as (us & h1 & E & SB).
      { intros h' k c I Ek Ek'. exists s. split; auto. unfold bucket_curve, bindS, lift. now rewrite Es. }
      destruct (unspread_run _ _ _ _ SB HC') as (us' & E').
      exists (h1 :: hs). split; [constructor; auto|]. constructor; auto.
      intros fuel flr p v p0 x. unfold returns. split.
      - intros H. unfold bucket_value, bindS in H. rewrite E in H.
        destruct (get_present_value fuel flr p disc v h1) as [[p1|e] h2] eqn:E1; [|discriminate].
        pose proof (pv_still _ _ _ _ _ _ _ _ E1) as ->. rewrite E' in H. unfold lift in H.
        change (ndiv (nsub p1 p0) shift) with (Rdivp (p1 - p0) shift) in H. rewrite Rdivp_ok in H by auto. unfold ret in H. injection H as <-.
        exists p1. auto.
      - intros (p1 & E1 & ->). unfold bucket_value, bindS.
        rewrite E, E1, E'. unfold lift. change (ndiv (nsub p1 p0) shift) with (Rdivp (p1 - p0) shift).
        rewrite Rdivp_ok by auto. unfold ret. reflexivity. }
    destruct EACH as (hs & F1 & F2). exists bs, hs. do 5 (split; [assumption|]). intros fuel flr p v xs. unfold returns at 1.
    assert (STILL : forall p0 g s y s', bucket_value fuel flr p disc v (deltas disc delta) shift p0 g s = (Ok y, s') -> s' = s).
    { intros p0 g s y s' H. unfold bucket_value in H. apply bind_ok in H. destruct H as (u & s1 & A1 & H).
      apply bind_ok in H. destruct H as (p1 & s2 & A2 & H). apply pv_still in A2. subst s2.
      apply bind_ok in H. destruct H as (u' & s3 & A3 & H). apply bind_ok in H. destruct H as (q & s4 & A4 & H).
      unfold lift in A4. injection A4 as _ <-. unfold ret in H. injection H as _ <-.
      eapply there_and_back; [apply bucket_puts|exact A1|exact A3]. }
    assert (GR : match Some grid with Some ((_ :: _) as g) => g | _ => rc_domain cd end = grid) by (destruct grid; congruence).
    split.
    - intros H. unfold get_bucketed_delta in H. apply bind_ok in H. destruct H as (p0 & h0 & E0 & H).
      pose proof (pv_still _ _ _ _ _ _ _ _ E0) as ->. cbv zeta in H. fold (deltas disc delta) in H.
      unfold bindS, get_curve in H. rewrite (nth_res_some _ _ _ Hcd) in H.
      rewrite GR in H.
      unfold lift in H. rewrite EG in H. apply mapS_pure_inv in H; [|intros *; apply STILL]. destruct H as [_ F].
      exists p0. assert (G : exists ps, Forall2 (fun h1 p1 => returns (get_present_value fuel flr p disc v) h1 p1) hs ps /\
         xs = map (fun p1 => (p1 - p0) / shift * (1 / 10000)) ps).
      { clear -F F2. revert xs F. induction F2 as [|g h1 gs hs H F2 IH]; intros xs F; inversion F as [|? x ? xs' F0 F']; subst.
        - exists []. auto.
        - destruct (IH _ F') as (ps & A & ->). apply H in F0. destruct F0 as (p1 & B & ->).
          exists (p1 :: ps). auto. }
      destruct G as (ps & A & B). eauto.
    - intros (p0 & ps & E0 & F & ->). unfold get_bucketed_delta, bindS. rewrite E0. cbv zeta. fold (deltas disc delta).
      unfold get_curve. rewrite (nth_res_some _ _ _ Hcd).
      rewrite GR.
      unfold lift. rewrite EG. apply mapS_pure.
      clear -F F2. revert ps F. induction F2 as [|g h1 gs hs H F2 IH]; intros ps F; inversion F; subst; cbn [map]; constructor; auto.
      apply H. eauto.
  Qed.

  (** the grid: by default the dates of the discount curve *)
  Theorem C49_buckets : forall fuel flr p disc v delta (grid : list D) shift h,
    plain_curves h (deltas disc delta) -> shift <> 0 -> grid <> [] -> increasing (map tm grid) ->
    (exists c, nth_error (h_curves h) disc = Some c) ->
    exists (bs : list (D -> R)) (hs : list (heap R D P)),
      length bs = length grid /\
      (forall i j d b, nth_error grid i = Some d -> nth_error bs j = Some b -> b d = if Nat.eqb i j then shift else 0) /\
      (forall j d b, nth_error bs j = Some b -> piecewise_linear (combine (map tm grid) (spike shift (length grid) j)) (tm d) (b d)) /\
      (forall d, Rsum (map (fun b => b d) bs) = shift) /\
      Forall2 (fun b h1 => shifted_by h (deltas disc delta) b h1) bs hs /\
      forall xs, returns (get_bucketed_delta fuel flr p disc v delta (Some grid) shift) h xs <->
        exists p0 ps, returns (get_present_value fuel flr p disc v) h p0 /\
          Forall2 (fun h1 p1 => returns (get_present_value fuel flr p disc v) h1 p1) hs ps /\
          xs = map (fun p1 => (p1 - p0) / shift * (1 / 10000)) ps.
  Proof.
    intros fuel flr p disc v delta grid shift h PC NZ NE INC HD.
    destruct (buckets_uniform disc delta grid shift h PC NZ NE INC HD) as (bs & hs & A & B & C & E & F & G).
    exists bs, hs. do 5 (split; [assumption|]). apply G.
  Qed.

  (** without a grid: the dates of the discount curve, whatever curves are shifted *)
  Theorem C49_default_grid : forall fuel flr p disc v delta shift h c,
    nth_error (h_curves h) disc = Some c -> rc_domain c <> [] ->
    get_bucketed_delta fuel flr p disc v delta None shift h =
    get_bucketed_delta fuel flr p disc v delta (Some (rc_domain c)) shift h.
  Proof.
    intros fuel flr p disc v delta shift h c Hc NE. unfold get_bucketed_delta, bindS.
    destruct (get_present_value fuel flr p disc v h) as [[p0|e] h0] eqn:E; auto.
    pose proof (pv_still _ _ _ _ _ _ _ _ E) as ->. cbv zeta. unfold get_curve. rewrite (nth_res_some _ _ _ Hc).
    destruct (rc_domain c); [congruence|reflexivity].
  Qed.
End Shifts.

Print Assumptions C48_value.
Print Assumptions C48_zero_shift.
Print Assumptions C48_spread_refuted.
Print Assumptions C42_twice_refuted.
Print Assumptions C49_buckets.
Print Assumptions C49_default_grid.

(** instance: 100 after one and 50 after two years, flat zero rate of five percent *)
Local Instance no_counts : DayCounts R R := [].
Section Instance.
  Let fdates : DateSys R R (fperiod R) := FloatDates.

  Lemma flat_shifted (c : rcurve R R (fperiod R)) s (b : R -> R) n t :
    rc_new CZeroRate [0] [5/100] None None DcDefault None = Ok c ->
    (forall d, rc_call (mkR (rc_cls c) (rc_dc c) (rc_tenor0 c) (Some s)) d = Ok (5/100 + b d)) ->
    get_discount_factor (S (S n)) (mkR (rc_cls c) (rc_dc c) (rc_tenor0 c) (Some s)) 0 t =
    Ok (exp (- ((5/100 + b t) * t))).
  Proof.
    intros E V.
    destruct (single_curve (L:=float_laws) DcDefault _ CZeroRate 0 (5/100) None None 0 (default_additive (L:=float_laws)) eq_refl eq_refl)
      as (c' & E' & (B1 & B2 & B3 & B4 & B5 & B6 & B7 & B8 & B9 & B10) & _).
    assert (c' = c) by congruence. subst c'.
    unfold get_discount_factor, interest_only. cbn [rc_cls]. rewrite B1. cbn [is_interest]. rewrite <- B1.
    rewrite (flat_factor (L:=float_laws) (mkR (rc_cls c) (rc_dc c) (rc_tenor0 c) (Some s)) 0 (fun a b => b - a) B3 B10 n 0 t (5/100 + b 0) (5/100 + b t)).
    - do 3 f_equal. lra.
    - left. exact B1.
    - intros a d Q. replace d with a; auto. apply (law_eqb (DateLaws:=float_laws)) in Q. exact Q.
    - apply V.
    - apply V.
  Qed.

  Example shift_instance : exists (disc : rcurve R R (fperiod R)) (l : cflist R R (fperiod R)),
    rc_new CZeroRate [0] [5/100] None None DcDefault None = Ok disc /\
    fixed_new [1; 2] (Many [100; 50]) None = Ok l /\
    let h := mkH [disc] [] [mkHL l HNone] in
    plain_curves h [0%nat] /\ increasing (map (fun d : R => d) [1; 2; 3]) /\
    returns (get_basis_point_value 2 None (PrList 0) 0 (Some 0) None (1/10000)) h
      ((100 * exp (- (5/100 + 1/10000)) + 50 * exp (- ((5/100 + 1/10000) * 2))
       - (100 * exp (- (5/100)) + 50 * exp (- (5/100 * 2)))) / (1/10000) * (1/10000)) /\
    returns (get_bucketed_delta 2 None (PrList 0) 0 (Some 0) None (Some [1; 2; 3]) (1/10000)) h
      [100 * (exp (- (5/100 + 1/10000)) - exp (- (5/100))) / (1/10000) * (1/10000);
       50 * (exp (- ((5/100 + 1/10000) * 2)) - exp (- (5/100 * 2))) / (1/10000) * (1/10000);
       0] /\
    exists h1, get_basis_point_value 2 None (PrList 0) 0 (Some 0) (Some [0; 0]%nat) (1/10000) h = (Err TypeError, h1) /\
      h1 <> h /\ get_basis_point_value 2 None (PrList 0) 0 (Some 0) None (1/10000) h1 = (Err TypeError, h1).
  Proof.
    destruct (flat_zero (L:=float_laws) 0 (5/100) None) as (disc & E & HO & V & DF).
    assert (exists l, fixed_new (DS:=FloatDates) (P:=fperiod R) [1; 2] (Many [100; 50]) None = Ok l) as [l E1].
    { unfold fixed_new. cbn [spread_arg]. rewrite cf_new_ok by reflexivity. eauto. }
    exists disc, l. do 2 (split; auto). cbv zeta. set (h := mkH _ _ _).
    assert (SP : rc_spread disc = None).
    { destruct (single_curve (L:=float_laws) DcDefault _ CZeroRate 0 (5/100) None None 0 (default_additive (L:=float_laws)) eq_refl eq_refl)
      as (c' & E' & (B1 & B2 & B3 & B4 & B5 & B6 & B7 & B8 & B9 & B10) & _). assert (c' = disc) by congruence. congruence. }
    assert (PC : plain_curves h (deltas 0 None)).
    { split; [repeat constructor; intros []|]. intros k [<-|[]]. exists disc, 0. auto. }
    assert (INC : increasing (map (fun d : R => d) [1; 2; 3])) by (repeat constructor; lra).
    assert (ND : NoDup (map (fun d : R => d) [1; 2])) by (repeat constructor; cbn; intuition lra).
    assert (PV : forall h1 b, h_lists h1 = h_lists h -> (exists c1, nth_error (h_curves h1) 0 = Some c1 /\
        forall d, get_discount_factor 2 c1 0 d = Ok (exp (- ((5/100 + b d) * d)))) ->
      returns (get_present_value 2 None (PrList 0) 0 (Some 0)) h1
        (100 * exp (- (5/100 + b 1)) + 50 * exp (- ((5/100 + b 2) * 2)))).
    { intros h1 b HL (c1 & Hc & DF1).
      pose proof (C40_pairs FloatDates no_counts (fun d => d) float_laws 2 None h1 0 0 c1 0 l [1; 2] [100; 50] None
        (fun d => exp (- ((5/100 + b d) * d))) Hc ltac:(rewrite HL; reflexivity) (or_introl E1) ND (fun d _ _ => DF1 d)) as H.
      assert (Q : pairs_value FloatDates 0 (fun d => exp (- ((5/100 + b d) * d))) [1; 2] [100; 50] =
        100 * exp (- (5/100 + b 1)) + 50 * exp (- ((5/100 + b 2) * 2))).
      { unfold pairs_value. cbn [combine map fst snd Rsum d_leb FloatDates nleb Rnum]. unfold Rleb.
        destruct (Rle_dec 0 1), (Rle_dec 0 2); try lra. rewrite Rmult_1_r. lra. }
      rewrite Q in H. exact H. }
    assert (P0 : returns (get_present_value 2 None (PrList 0) 0 (Some 0)) h (100 * exp (- (5/100)) + 50 * exp (- (5/100 * 2)))).
    { assert (Q : returns (get_present_value 2 None (PrList 0) 0 (Some 0)) h (100 * exp (- (5/100 + 0)) + 50 * exp (- ((5/100 + 0) * 2)))).
      { apply (PV h (fun _ => 0)); auto. exists disc. split; auto. intros d. rewrite DF. do 3 f_equal. lra. }
      rewrite !Rplus_0_r in Q. exact Q. }
    assert (PS : forall b h1, shifted_by h [0%nat] b h1 -> returns (get_present_value 2 None (PrList 0) 0 (Some 0)) h1
        (100 * exp (- (5/100 + b 1)) + 50 * exp (- ((5/100 + b 2) * 2)))).
    { intros b h1 (_ & HL & _ & HC). apply PV; auto. destruct (HC 0%nat disc (or_introl eq_refl) eq_refl) as (s & Es & _ & Vs).
      eexists. split; [exact Es|]. intros d. apply (flat_shifted disc s b 0 d); auto. }
    split; [exact PC|]. split; [exact INC|]. split; [|split].
    - destruct (C48_value FloatDates no_counts (fun d => d) float_laws 2 None (PrList 0) 0 (Some 0) None (1/10000) h PC ltac:(lra)) as (h1 & SB & H).
      apply H. eexists. eexists. split; [exact P0|]. split; [exact (PS _ _ SB)|]. reflexivity.
    - destruct (C49_buckets FloatDates no_counts (fun d => d) float_laws 2 None (PrList 0) 0 (Some 0) None [1; 2; 3] (1/10000) h PC ltac:(lra) ltac:(discriminate) INC)
        as (bs & hs & LB & NB & _ & _ & FB & H); [eexists; reflexivity|].
      destruct bs as [|b0 [|b1 [|b2 [|? ?]]]]; try discriminate.
      inversion FB as [|? h0 ? ? S0 FB1]; subst. inversion FB1 as [|? h1 ? ? S1 FB2]; subst.
      inversion FB2 as [|? h2 ? ? S2 FB3]; subst. inversion FB3; subst.
      apply H. eexists. eexists. split; [exact P0|]. split.
      { constructor; [exact (PS _ _ S0)|]. constructor; [exact (PS _ _ S1)|]. constructor; [exact (PS _ _ S2)|]. constructor. }
      pose proof (NB 0%nat 0%nat 1 b0 eq_refl eq_refl) as N00. pose proof (NB 1%nat 0%nat 2 b0 eq_refl eq_refl) as N10.
      pose proof (NB 0%nat 1%nat 1 b1 eq_refl eq_refl) as N01. pose proof (NB 1%nat 1%nat 2 b1 eq_refl eq_refl) as N11.
      pose proof (NB 0%nat 2%nat 1 b2 eq_refl eq_refl) as N02. pose proof (NB 1%nat 2%nat 2 b2 eq_refl eq_refl) as N12.
      cbn [Nat.eqb] in *. cbn [map]. rewrite N00, N10, N01, N11, N02, N12. rewrite !Rplus_0_r.
      f_equal; [lra|]. f_equal; [lra|]. f_equal. lra.
    - destruct (C42_twice_refuted FloatDates no_counts (fun d => d) float_laws 2 None (PrList 0) 0 (Some 0) 0 (1/10000) h _ disc 0 P0 eq_refl SP HO)
        as (h1 & SB & H). exists h1. split; [exact H|]. pose proof (PS _ _ SB) as P1.
      destruct SB as (_ & _ & _ & HC). destruct (HC 0%nat disc (or_introl eq_refl) eq_refl) as (s & Es & _). split.
      + intros ->. cbn in Es. injection Es as Es. rewrite Es in SP. discriminate.
      + exact (C48_spread_refuted FloatDates no_counts (fun d => d) float_laws 2 None (PrList 0) 0 (Some 0) 0 (1/10000) h1 _ _ 0 s P1 Es HO eq_refl).
  Qed.

  (** instance: an option on a forward which is not known at its expiry *)
  Example raising_instance : exists (disc : rcurve R R (fperiod R)) h',
    rc_new CZeroRate [0] [5/100] None None DcDefault None = Ok disc /\
    let m := mkHM (Some 0) (fun _ => mkOM FIntrinsic default_gconst None (FwFun (T:=R) (D:=R) (P:=fperiod R) (fun _ => Err KeyError)) VoNone None false) in
    let l := mkCF [1] [(1, FlPay (POption (mkOP 1 100 (Some 3) false)))] None LNone false in
    let h := mkH [disc] [m] [mkHL l (HModel 0)] in
    get_present_value 2 None (PrList 0) 0 (Some (1/2)) h = (Err KeyError, h') /\
    nth_error (h_models h') 0 = Some (mkHM (Some (1/2)) (hm_model m)) /\ h' <> h.
  Proof.
    destruct (flat_zero (L:=float_laws) 0 (5/100) None) as (disc & E & HO & V & DF).
    set (m := mkHM (T:=R) (D:=R) (P:=fperiod R) (Some 0) (fun _ => mkOM FIntrinsic default_gconst None (FwFun (fun _ => Err KeyError)) VoNone None false)).
    set (l := mkCF (T:=R) (D:=R) (P:=fperiod R) [1] [(1, FlPay (POption (mkOP 1 100 (Some 3) false)))] None LNone false).
    set (h := mkH [disc] [m] [mkHL l (HModel 0)]).
    destruct (C42_present_value_refuted FloatDates no_counts 2 None 0 0 disc (1/2) h
      (mkCF (cf_domain l) (cf_flows l) (cf_origin0 l) (LModel (PmModel (model_view h (mkHM (Some (1/2)) (hm_model m))))) (cf_rated l))
      KeyError (mkHL l (HModel 0)) 0 m) as (h' & H1 & H2 & H3); try reflexivity.
    - eexists. eexists. split; [reflexivity|]. split; [reflexivity|]. cbn [hl_attr]. exists m. auto.
    - unfold due. cbn [cf_domain l filter d_leb FloatDates nleb Rnum]. unfold Rleb. destruct (Rle_dec (1/2) 1); [|lra].
      unfold cf_get_list. cbn [mapM]. unfold cf_get, cf_flow. cbn [cf_flows l].
      cbn [assoc]. change (d_eqb 1 1) with (Reqb 1 1). unfold Reqb. destruct (Req_EM_T 1 1); [|lra]. reflexivity.
    - exists disc, h'. split; auto. cbv zeta. fold m l h. split; auto. split; auto. apply H3. cbn. intros Q. injection Q. lra.
  Qed.
End Instance.
