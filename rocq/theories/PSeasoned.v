(** Property C108: what bonds and swaps are worth during their life. *)
From Coq Require Import Reals Lra Lia List Bool ZArith.
From Verif Require Import Num Py Spec MPlans MDates MCurve MRateCurve MOption MCashflow MBracket MPricer MProducts
  SDates SRateCurve SCashflow SPricer SBracket SYield SProducts LBase LSort LPlans LDates LDateCurve LCashflow LRateCurve LAccrued LPricer
  LPricer2 LBracket LYield LFair PBracket PCashflow PRateCurve PRateCurve2 PPricer PPricer2 PFair PParity PProducts PAtPar.
Import ListNotations.
Open Scope R_scope.

(** * Vocabulary *)
Section Spec.
  Context {D P : Type} {DS : DateSys R D P}.

  (** the payments at [paid] are before v, those at [left] are not; the bond started before v *)
  Definition seasoned (v start : D) (paid left : list D) : Prop :=
    (forall d, In d (start :: paid) -> d_leb v d = false) /\ (forall d, In d left -> d_leb v d = true).

  (** what is outstanding in the running period and in the remaining periods, after n payments of m *)
  Definition running (notional : arg R) (n m : nat) : R := nth n (balances notional m) 0.
  Definition after (notional : arg R) (n m : nat) : list R := skipn n (balances notional m).
End Spec.

Section Seasoned.
  Context {D P : Type} (DS : DateSys R D P) (tm : D -> R) (DC : DayCounts R D) (L : DateLaws DS tm).
  Implicit Types (h : heap R D P) (disc : rcurve R D P) (ll : leglist R D P).

  Lemma nth_past (paid left : list D) : forall o m, nth_error (o :: paid ++ left) (length paid + m) = nth_error (last paid o :: left) m.
  Proof.
    induction paid as [|d paid IH]; intros o m; [reflexivity|]. cbn [length Nat.add app nth_error]. rewrite last_default. apply IH.
  Qed.
  Lemma nth_past' {A} (paid left : list A) m : nth_error (paid ++ left) (length paid + m) = nth_error left m.
  Proof. rewrite nth_error_app2 by lia. f_equal. lia. Qed.
  Lemma nth_skip {A} (l : list A) n : forall m, nth_error (skipn n l) m = nth_error l (n + m).
  Proof. revert l. induction n as [|n IH]; intros [|x l] m; try reflexivity; [now destruct m|]. apply IH. Qed.
  Lemma filter_due v start (paid left : list D) : seasoned v start paid left -> filter (fun d => d_leb v d) (paid ++ left) = left.
  Proof.
    intros [H1 H2]. rewrite filter_app.
    assert (E1 : filter (fun d => d_leb v d) paid = []).
    { assert (G : forall d, In d paid -> d_leb v d = false) by (intros; apply H1; now right). clear -G.
      induction paid as [|d paid IH]; [reflexivity|]. cbn [filter]. rewrite (G d (or_introl eq_refl)). apply IH. intros x Ix. apply G. now right. }
    rewrite E1. cbn [app]. clear -H2. induction left as [|d l IH]; [reflexivity|]. cbn [filter]. rewrite (H2 d (or_introl eq_refl)). f_equal.
    apply IH. intros x Ix. apply H2. now right.
  Qed.

  (** a leg paying at the dates [paid] and [left] *)
  Lemma leg_left fuel flr disc v l (g : D -> D -> R -> R) : forall left p ns, (length left <= length ns)%nat ->
    (forall m a b n, nth_error (p :: left) m = Some a -> nth_error left m = Some b -> nth_error ns m = Some n -> discounted fuel flr disc v l b (g a b n)) ->
    Forall2 (discounted fuel flr disc v l) left (map (fun x => g (fst (fst x)) (snd (fst x)) (snd x)) (combine (combine (p :: left) left) ns)).
  Proof.
    induction left as [|d left IH]; intros p ns LE V; [constructor|]. destruct ns as [|n ns]; [cbn in LE; lia|].
    change (combine (combine (p :: d :: left) (d :: left)) (n :: ns)) with ((p, d, n) :: combine (combine (d :: left) left) ns).
    cbn [map fst snd]. constructor; [apply (V 0%nat); reflexivity|]. apply IH; [cbn in LE; lia|]. intros m a b n' Ha Hb Hn. now apply (V (S m)).
  Qed.
  Lemma rate_leg fuel flr h j k disc v o paid left ns count fixing payo c fwd l s tau DF (f : D -> R) :
    nth_error (h_curves h) k = Some disc -> nth_error (h_lists h) j = Some (mkHL l (HForward s)) -> s (h_curves h) = fwd ->
    no_offset fixing -> no_offset payo -> NoDup (map tm (paid ++ left)) -> seasoned v o paid left ->
    ratelist_new (paid ++ left) (Many ns) (Some o) count fixing payo c fwd = Ok l ->
    (forall a b, period (last paid o) left a b -> pay_count count a b = Ok (tau a b) /\ forward_at fuel fwd a (f a)) ->
    (forall d, In d left -> get_discount_factor fuel disc v d = Ok (DF d)) ->
    returns (get_present_value fuel flr (PrList j) k (Some v)) h
      (over_periods (last paid o) left (skipn (length paid) ns) (fun a b n => n * ((c + f a) * tau a b * DF b))).
  Proof.
    intros Hk Hj HS NF NP ND SE HN HP HD.
    assert (NF' : forall d, moved_back d fixing d) by (intros; apply moved_offset, offset_none; auto).
    assert (NP' : forall d, moved_back d payo d) by (intros; apply moved_offset, offset_none; auto).
    destruct (C38_periods DS tm L _ _ _ _ _ _ _ _ _ HN ND) as (LEN & DOM & _).
    assert (AT : cf_attr l = LForward fwd).
    { unfold ratelist_new in HN. cbn [start_dates bind] in HN. destruct (rate_payoffs _ _ _ _ _ _ _); [|discriminate]. cbn [bind] in HN.
      destruct (cf_new_inv _ _ _ _ _ _ HN) as [_ ->]. reflexivity. }
    apply (C40_list DS DC fuel flr h j k disc v l); auto.
    { exists (mkHL l (HForward s)), (LForward fwd). split; auto. split; [|cbn; now rewrite HS]. cbn [hl_list].
      rewrite <- AT. now destruct l. }
    unfold worth, due. rewrite DOM, (filter_due v o) by exact SE. eexists. split; [|reflexivity].
    apply (leg_left fuel flr disc v l (fun a b n => n * ((c + f a) * tau a b * DF b))).
    - rewrite skipn_length. rewrite app_length in LEN. lia.
    - intros m a b n Ha Hb Hn. assert (PE : period (last paid o) left a b) by (exists m; auto).
      destruct (HP a b PE) as (Q1 & Q2). exists (DF b), ((c + f a) * tau a b * n).
      split; [apply HD; eapply nth_error_In; eauto|]. split; [|ring].
      rewrite <- nth_past in Ha. rewrite <- (nth_past' paid left) in Hb. rewrite nth_skip in Hn.
      apply (C38_flow DS DC tm L fuel flr _ _ _ _ _ _ _ _ _ HN ND (length paid + m)%nat a b n a b a (f a) (tau a b)); auto. apply eqb_refl.
  Qed.

  (** the notional leg: what is outstanding, paid back at the dates [left] *)
  Lemma balances_skip plan n : forall m, skipn n (balances (Many plan) m) = balances (Many (skipn n plan)) (m - n).
  Proof.
    revert plan. induction n as [|n IH]; intros plan m; [now rewrite Nat.sub_0_r|]. destruct m as [|m]; [reflexivity|].
    destruct plan as [|p plan].
    - specialize (IH [] m). replace (skipn n (@nil R)) with (@nil R) in IH by now destruct n. cbn [skipn Nat.sub]. rewrite <- IH.
      cbn [balances seq map skipn]. f_equal. rewrite <- seq_shift, map_map. apply map_ext. intros i. unfold remaining. now destruct i.
    - cbn [skipn Nat.sub]. rewrite <- IH. cbn [balances seq map skipn]. f_equal. now rewrite <- seq_shift, map_map.
  Qed.
  Lemma repeat_skip {A} (x : A) n : forall m, skipn n (repeat x m) = repeat x (m - n).
  Proof. induction n as [|n IH]; intros [|m]; try reflexivity. apply IH. Qed.
  Lemma nth_rep {A} (x y : A) n : forall m, (n < m)%nat -> nth n (repeat x m) y = x.
  Proof. induction n as [|n IH]; intros [|m] H; try lia; [reflexivity|]. apply IH. lia. Qed.
  Lemma running_many plan n m : length plan = m -> running (Many plan) n m = Rsum (skipn n plan).
  Proof.
    intros <-. unfold running. destruct (Nat.lt_ge_cases n (length plan)) as [H|H].
    - cbn [balances]. rewrite (nth_indep _ 0 (remaining plan 0)) by (now rewrite map_length, seq_length). rewrite map_nth, seq_nth by lia. reflexivity.
    - rewrite nth_overflow by (cbn [balances]; now rewrite map_length, seq_length). now rewrite skipn_all2.
  Qed.
  Lemma notional_left fuel flr h i k disc v start stop paid left notional a dates amounts DF :
    match notional with
    | One N => dates = [start; stop] /\ amounts = [- N; N]
    | Many plan => length plan = length (paid ++ left) /\ dates = start :: paid ++ left /\ amounts = (- Rsum plan) :: plan
    end ->
    (match notional with One _ => stop = last (paid ++ left) start /\ paid ++ left <> [] | Many _ => True end) ->
    nth_error (h_curves h) k = Some disc -> nth_error (h_lists h) i = Some (mkHL a HNone) ->
    fixed_new dates (Many amounts) (Some start) = Ok a -> NoDup (map tm (start :: paid ++ left)) -> seasoned v start paid left ->
    (forall d, In d left -> get_discount_factor fuel disc v d = Ok (DF d)) ->
    returns (get_present_value fuel flr (PrList i) k (Some v)) h
      (running notional (length paid) (length (paid ++ left)) * DF (last paid start) +
       over_periods (last paid start) left (after notional (length paid) (length (paid ++ left))) (fun s e b => b * (DF e - DF s))).
  Proof.
    intros HD HL Hk Hi HN ND SE HV. pose proof SE as [S1 S2].
    destruct notional as [N|plan].
    - destruct HD as [-> ->]. destruct HL as [-> NE].
      assert (ND2 : NoDup (map tm [start; last (paid ++ left) start])).
      { constructor; [|repeat constructor; intros []]. intros [E|[]]. inversion ND as [|? ? NI _]. apply NI. rewrite <- E.
        apply in_map. clear -NE. destruct (paid ++ left) as [|d ds]; [congruence|]. rewrite (last_nth (d :: ds) start). apply nth_In. cbn. lia. }
      pose proof (C40_pairs DS DC tm L fuel flr h i k disc v a _ _ _ DF Hk Hi (or_introl HN) ND2) as Q.
      unfold pairs_value in Q. cbn [combine map Rsum fst snd] in Q. rewrite (S1 start (or_introl eq_refl)) in Q.
      unfold after, running. cbn [balances]. rewrite repeat_skip, app_length.
      replace (length paid + length left - length paid)%nat with (length left) by lia. rewrite <- bullet.
      assert (LL : last (paid ++ left) start = last left (last paid start)).
      { clear. revert start. induction paid as [|d paid IH]; intros o; [reflexivity|]. cbn [app]. now rewrite !last_default, IH. }
      rewrite LL in *. destruct left as [|d left].
      + cbn [last length Nat.add] in *. rewrite nth_overflow by (rewrite repeat_length; lia).
        assert (F : d_leb v (last paid start) = false).
        { apply S1. clear. revert start. induction paid as [|d paid IH]; intros o; [now left|]. rewrite last_default. right. apply IH. }
        rewrite F in Q. replace (0 * DF (last paid start) + (N * DF (last paid start) - N * DF (last paid start))) with (0 + (0 + 0)) by ring. apply Q.
        intros x [<-|[<-|[]]] T; [rewrite (S1 start (or_introl eq_refl)) in T; discriminate|congruence].
      + assert (IL : In (last (d :: left) (last paid start)) (d :: left)) by (rewrite (last_nth (d :: left) (last paid start)); apply nth_In; cbn; lia).
        rewrite (S2 _ IL) in Q. rewrite nth_rep by (cbn; lia).
        replace (N * DF (last paid start) + (N * DF (last (d :: left) (last paid start)) - N * DF (last paid start)))
          with (0 + (DF (last (d :: left) (last paid start)) * N + 0)) by ring.
        apply Q. intros x [<-|[<-|[]]] T; [rewrite (S1 start (or_introl eq_refl)) in T; discriminate|]. now apply HV.
    - destruct HD as (LE & -> & ->).
      pose proof (C40_pairs DS DC tm L fuel flr h i k disc v a _ _ _ DF Hk Hi (or_introl HN) ND) as Q.
      rewrite running_many by exact LE. unfold after. rewrite balances_skip, app_length.
      replace (length paid + length left - length paid)%nat with (length left) by lia.
      rewrite <- (redeemed DF (skipn (length paid) plan) left (last paid start)) by (rewrite skipn_length, LE, app_length; lia).
      replace (Rsum (skipn (length paid) plan) * DF (last paid start) + _) with (pairs_value DS v DF (start :: paid ++ left) (- Rsum plan :: plan)).
      { apply Q. intros d Id T. apply HV. destruct Id as [<-|Id].
        - rewrite (S1 start (or_introl eq_refl)) in T. discriminate.
        - apply in_app_or in Id. destruct Id as [Id|Id]; [|exact Id]. rewrite (S1 d (or_intror Id)) in T. discriminate. }
      unfold pairs_value. cbn [combine map Rsum fst snd]. rewrite (S1 start (or_introl eq_refl)).
      match goal with |- _ = ?u + (?y - ?u) => replace (u + (y - u)) with (0 + y) by ring end. f_equal.
      clear -S1 S2 LE. assert (S1' : forall d, In d paid -> d_leb v d = false) by (intros; apply S1; now right). clear S1.
      revert plan LE. induction paid as [|d paid IH]; intros plan LE; cbn [app length skipn] in *.
      + f_equal. apply map_ext_in. intros [d p] Id. cbn [fst snd]. apply in_combine_l in Id. now rewrite (S2 d Id).
      + destruct plan as [|p plan]; [discriminate|]. injection LE as LE. cbn [combine map Rsum fst snd].
        rewrite (S1' d (or_introl eq_refl)), IH by (auto; intros; apply S1'; now right). lra.
  Qed.

  Lemma skipn_nth {A} n (l : list A) d : (n < length l)%nat -> skipn n l = nth n l d :: skipn (S n) l.
  Proof. revert l. induction n as [|n IH]; intros [|x l] H; try (cbn in H; lia); [reflexivity|]. cbn [skipn nth]. rewrite (IH l) by (cbn in H; lia). reflexivity. Qed.
  Lemma over_zero : forall ds bs (o : D), over_periods o ds bs (fun _ _ _ => 0) = 0.
  Proof. induction ds as [|d ds IH]; intros [|b bs] o; try reflexivity. rewrite over_cons, IH. lra. Qed.

  (** * C108 *)
  (** A bond with fixed rate c, [paid] payments made, [left] payments to come.  It is worth the
      balance of the running period, at any number [DF] for the start of that period, and in
      each remaining period the balance times what it earns: payments made do not count, those
      due on the valuation date do. *)
  Theorem C108_fixed_bond : forall fuel flr h i j k disc f times m v start stop per paid left notional count c fixing payo ll s tau DF dom lo,
    f start stop per = Ok (paid ++ left) -> bond (Some f) times m start stop per notional count c FwNone fixing payo = Ok ll ->
    nth_error (h_curves h) k = Some disc -> bond_in h i j ll s -> s (h_curves h) = FwNone ->
    no_offset fixing -> no_offset payo -> NoDup (map tm (start :: paid ++ left)) -> seasoned v start paid left ->
    match notional with One _ => stop = last (paid ++ left) start /\ paid ++ left <> [] | Many _ => True end ->
    (forall a b, period (last paid start) left a b -> pay_count count a b = Ok (tau a b)) ->
    (forall d, In d left -> get_discount_factor fuel disc v d = Ok (DF d)) ->
    let n := length paid in let all := length (paid ++ left) in let p := last paid start in
    returns (get_present_value fuel flr (PrLegs [i; j] dom lo) k (Some v)) h
      (running notional n all * DF p + over_periods p left (after notional n all) (fun s e b => b * (DF e * (1 + c * tau s e) - DF s))).
  Proof.
    intros fuel flr h i j k disc f times m v start stop per paid left notional count c fixing payo ll s tau DF dom lo
      SC B Hk (a & b & EL & Hi & Hj) HS NF NP ND SE HL HP HV n all p.
    destruct (bond_inv _ _ _ _ _ _ _ _ _ _ _ _ _ _ _ SC B) as (a' & b' & dates & amounts & EL' & SH & EA & EB).
    rewrite EL in EL'. injection EL' as <- <-.
    apply (C40_legs DS DC fuel flr h [i; j] dom lo k disc v _ Hk). eexists. split.
    - constructor; [|constructor; [|constructor]].
      + exact (notional_left fuel flr h i k disc v start stop paid left notional a dates amounts DF SH HL Hk Hi EA ND SE HV).
      + apply (rate_leg fuel flr h j k disc v start paid left (balances notional all) count fixing payo c FwNone b s tau DF (fun _ => 0) Hk Hj HS NF NP); auto.
        * now inversion ND.
        * intros x y PE. split; [now apply HP|reflexivity].
    - cbn [Rsum]. fold n all p. unfold after. rewrite Rplus_0_r, Rplus_assoc. f_equal. rewrite over_plus. apply over_ext. intros. ring.
  Qed.
  (** with discount factors growing at the rate c from the next payment on: the balance and the
      interest of the whole running period, discounted from the next payment date *)
  Theorem C108_fixed_par : forall fuel flr h i j k disc f times m v start stop per paid e left notional count c fixing payo ll s tau DF dom lo,
    f start stop per = Ok (paid ++ e :: left) -> bond (Some f) times m start stop per notional count c FwNone fixing payo = Ok ll ->
    nth_error (h_curves h) k = Some disc -> bond_in h i j ll s -> s (h_curves h) = FwNone ->
    no_offset fixing -> no_offset payo -> NoDup (map tm (start :: paid ++ e :: left)) -> seasoned v start paid (e :: left) ->
    match notional with One _ => stop = last (paid ++ e :: left) start | Many _ => True end ->
    (forall a b, period (last paid start) (e :: left) a b -> pay_count count a b = Ok (tau a b)) ->
    (forall d, In d (e :: left) -> get_discount_factor fuel disc v d = Ok (DF d)) ->
    (forall a b, period e left a b -> DF a = DF b * (1 + c * tau a b)) ->
    returns (get_present_value fuel flr (PrLegs [i; j] dom lo) k (Some v)) h
      (running notional (length paid) (length (paid ++ e :: left)) * (1 + c * tau (last paid start) e) * DF e).
  Proof.
    intros fuel flr h i j k disc f times m v start stop per paid e left notional count c fixing payo ll s tau DF dom lo
      SC B Hk BI HS NF NP ND SE HL HP HV PAR.
    assert (HL' : match notional with One _ => stop = last (paid ++ e :: left) start /\ paid ++ e :: left <> [] | Many _ => True end).
    { destruct notional; auto. split; auto. now destruct paid. }
    pose proof (C108_fixed_bond fuel flr h i j k disc f times m v start stop per paid (e :: left) notional count c fixing payo ll s tau DF dom lo
      SC B Hk BI HS NF NP ND SE HL' HP HV) as Q. cbv zeta in Q. unfold after in Q.
    assert (LB : (length paid < length (balances notional (length (paid ++ e :: left))))%nat).
    { rewrite app_length. cbn [length]. destruct notional; cbn [balances]; rewrite ?repeat_length, ?map_length, ?seq_length; lia. }
    rewrite (skipn_nth (length paid) _ 0 LB) in Q. fold (running notional (length paid) (length (paid ++ e :: left))) in Q.
    rewrite over_cons in Q. rewrite (over_ext e left _ _ (fun _ _ _ => 0)) in Q by (intros x y z PQ; rewrite (PAR x y PQ); ring).
    rewrite over_zero in Q. match type of Q with returns _ _ ?u => match goal with |- returns _ _ ?w => replace w with u by ring end end. exact Q.
  Qed.

  (** after the last payment nothing *)
  Theorem C108_matured : forall fuel flr h i j k disc f times m v start stop per paid notional count c fixing payo ll s dom lo,
    f start stop per = Ok paid -> bond (Some f) times m start stop per notional count c FwNone fixing payo = Ok ll ->
    nth_error (h_curves h) k = Some disc -> bond_in h i j ll s -> s (h_curves h) = FwNone ->
    no_offset fixing -> no_offset payo -> NoDup (map tm (start :: paid)) ->
    (forall d, In d (start :: paid) -> d_leb v d = false) ->
    match notional with One _ => stop = last paid start /\ paid <> [] | Many _ => True end ->
    returns (get_present_value fuel flr (PrLegs [i; j] dom lo) k (Some v)) h 0.
  Proof.
    intros fuel flr h i j k disc f times m v start stop per paid notional count c fixing payo ll s dom lo SC B Hk BI HS NF NP ND SE HL.
    rewrite <- (app_nil_r paid) in SC, ND, HL.
    assert (SE' : seasoned v start paid []) by (split; [exact SE|intros d []]).
    pose proof (C108_fixed_bond fuel flr h i j k disc f times m v start stop per paid [] notional count c fixing payo ll s (fun _ _ => 0) (fun _ => 0) dom lo
      SC B Hk BI HS NF NP ND SE' HL) as Q. cbv zeta in Q.
    rewrite Rmult_0_r, Rplus_0_l in Q. apply Q; [|intros d []]. intros a b [q [_ H]]. now destruct q.
  Qed.

  (** floating rate bonds: the balance of the running period at [DF] of its start, which is the
      next payment's discount factor and forward interest, and the margin *)
  Definition rate_from (fuel : nat) disc (tau : D -> D -> R) (a : D) : R :=
    match d_add a (rc_tenor disc) with
    | Ok b => match get_discount_factor fuel disc a b with Ok q => (1 / q - 1) / tau a b | Err _ => 0 end
    | Err _ => 0
    end.
  Lemma rate_from_ok fuel disc count tau v o dates : floats tm disc count tau v o dates ->
    (forall a b, period o dates a b -> exists q, get_discount_factor fuel disc a b = Ok q /\ q <> 0) ->
    (rc_cls disc = CCashRate -> forall a b, period o dates a b ->
       exists x, has_value disc a x /\ get_discount_factor fuel disc a b = Ok (/ (1 + x * tau a b)) /\ 1 + x * tau a b <> 0) ->
    forall a b, period o dates a b -> forward_at (S fuel) (FwRate disc) a (rate_from fuel disc tau a) /\
      forall q, get_discount_factor fuel disc a b = Ok q -> q <> 0 -> rate_from fuel disc tau a * tau a b = / q - 1.
  Proof.
    intros (KI & A & ND & HP) H1 KC a b PE. destruct (HP a b PE) as (Q1 & Q2 & Q3 & Q4). destruct (H1 a b PE) as [q [E1 Z1]].
    pose proof (tau_ne disc tau A a b Q2) as TZ.
    unfold rate_from. rewrite Q1, E1. split; [|intros q' E' _; injection E' as <-; field; auto].
    cbn [forward_at]. rewrite KI.
    assert (CD : rc_cls disc = CCashRate \/ rc_cls disc <> CCashRate) by (destruct (rc_cls disc); (left; reflexivity) || (right; discriminate)).
    destruct CD as [K|K].
    + destruct (KC K a b PE) as [f [HF [HQ HZ]]]. rewrite E1 in HQ. injection HQ as ->.
      destruct (C24_cash_rate_curve DS tm DC L disc a b f fuel K Q1 HF) as [E _]. rewrite E. f_equal. field. auto.
    + now destruct (C24_cash_rate DS tm DC L disc tau A K fuel a b _ Q2 E1 Z1) as (_ & _ & CR); apply CR.
  Qed.
  Lemma floating_left fuel flr h j k disc v o paid left ns count fixing payo c l s tau DF :
    nth_error (h_curves h) k = Some disc -> nth_error (h_lists h) j = Some (mkHL l (HForward s)) -> s (h_curves h) = FwRate disc ->
    no_offset fixing -> no_offset payo -> NoDup (map tm (paid ++ left)) -> seasoned v o paid left ->
    ratelist_new (paid ++ left) (Many ns) (Some o) count fixing payo c (FwRate disc) = Ok l ->
    floats tm disc count tau v (last paid o) left ->
    (forall a b, period (last paid o) left a b -> exists q, get_discount_factor fuel disc a b = Ok q /\ q <> 0 /\ DF a * q = DF b) ->
    (forall d, In d left -> get_discount_factor (S fuel) disc v d = Ok (DF d)) ->
    (rc_cls disc = CCashRate -> forall a b, period (last paid o) left a b ->
       exists x, has_value disc a x /\ get_discount_factor fuel disc a b = Ok (/ (1 + x * tau a b)) /\ 1 + x * tau a b <> 0) ->
    returns (get_present_value (S fuel) flr (PrList j) k (Some v)) h
      (over_periods (last paid o) left (skipn (length paid) ns) (fun a b n => n * (DF a - DF b + c * tau a b * DF b))).
  Proof.
    intros Hk Hj HS NF NP ND SE HN FT H1 HD KC.
    assert (H1' : forall a b, period (last paid o) left a b -> exists q, get_discount_factor fuel disc a b = Ok q /\ q <> 0).
    { intros a b PE. destruct (H1 a b PE) as (q & E & Z & _). eauto. }
    pose proof (rate_from_ok fuel disc count tau v _ left FT H1' KC) as RF.
    rewrite (over_ext _ _ _ _ (fun a b n => n * ((c + rate_from fuel disc tau a) * tau a b * DF b))).
    - apply (rate_leg (S fuel) flr h j k disc v o paid left ns count fixing payo c (FwRate disc) l s tau DF); auto.
      intros a b PE. split; [|now apply (RF a b)]. destruct FT as (_ & _ & _ & HP). now destruct (HP a b PE) as (_ & _ & Q & _).
    - intros a b n PE. destruct (H1 a b PE) as (q & E & Z & M). destruct (RF a b PE) as [_ R1]. specialize (R1 q E Z).
      replace ((c + rate_from fuel disc tau a) * tau a b * DF b) with (c * tau a b * DF b + (rate_from fuel disc tau a * tau a b) * DF b) by ring.
      rewrite R1, <- M. field. auto.
  Qed.
  Theorem C108_floating_bond : forall fuel flr h i j k disc f times m v start stop per paid left notional count c fixing payo ll s tau DF dom lo,
    f start stop per = Ok (paid ++ left) -> bond (Some f) times m start stop per notional count c (FwRate disc) fixing payo = Ok ll ->
    nth_error (h_curves h) k = Some disc -> bond_in h i j ll s -> s (h_curves h) = FwRate disc ->
    no_offset fixing -> no_offset payo -> NoDup (map tm (start :: paid ++ left)) -> seasoned v start paid left ->
    match notional with One _ => stop = last (paid ++ left) start /\ paid ++ left <> [] | Many _ => True end ->
    let n := length paid in let all := length (paid ++ left) in let p := last paid start in
    floats tm disc count tau v p left ->
    (forall a b, period p left a b -> exists q, get_discount_factor fuel disc a b = Ok q /\ q <> 0 /\ DF a * q = DF b) ->
    (forall d, In d left -> get_discount_factor (S fuel) disc v d = Ok (DF d)) ->
    (rc_cls disc = CCashRate -> forall a b, period p left a b ->
       exists x, has_value disc a x /\ get_discount_factor fuel disc a b = Ok (/ (1 + x * tau a b)) /\ 1 + x * tau a b <> 0) ->
    returns (get_present_value (S fuel) flr (PrLegs [i; j] dom lo) k (Some v)) h
      (running notional n all * DF p + over_periods p left (after notional n all) (fun s e b => b * (c * tau s e * DF e))).
  Proof.
    intros fuel flr h i j k disc f times m v start stop per paid left notional count c fixing payo ll s tau DF dom lo
      SC B Hk (a & b & EL & Hi & Hj) HS NF NP ND SE HL n all p FT H1 HV KC.
    destruct (bond_inv _ _ _ _ _ _ _ _ _ _ _ _ _ _ _ SC B) as (a' & b' & dates & amounts & EL' & SH & EA & EB).
    rewrite EL in EL'. injection EL' as <- <-.
    apply (C40_legs DS DC (S fuel) flr h [i; j] dom lo k disc v _ Hk). eexists. split.
    - constructor; [|constructor; [|constructor]].
      + exact (notional_left (S fuel) flr h i k disc v start stop paid left notional a dates amounts DF SH HL Hk Hi EA ND SE HV).
      + apply (floating_left fuel flr h j k disc v start paid left (balances notional all) count fixing payo c b s tau DF Hk Hj HS NF NP); auto.
        now inversion ND.
    - cbn [Rsum]. fold n all p. unfold after. rewrite Rplus_0_r, Rplus_assoc. f_equal. rewrite over_plus. apply over_ext. intros. ring.
  Qed.

  (** a swap paying the rate c and receiving the forward rates of the curve plus margin c' *)
  Theorem C108_swap : forall fuel flr h i j k disc f times m v start stop per per' paid left paid' left' N count count' c c' fixing payo ll s s' tau tau' DF dom lo,
    f start stop per = Ok (paid ++ left) -> f start stop per' = Ok (paid' ++ left') ->
    interest_rate_swap (Some f) times m start stop per N count c FwNone fixing payo per' count' c' (FwRate disc) = Ok ll ->
    nth_error (h_curves h) k = Some disc -> swap_in h i j ll s s' -> s (h_curves h) = FwNone -> s' (h_curves h) = FwRate disc ->
    no_offset fixing -> no_offset payo -> NoDup (map tm (paid ++ left)) -> NoDup (map tm (paid' ++ left')) ->
    seasoned v start paid left -> seasoned v start paid' left' ->
    (forall a b, period (last paid start) left a b -> pay_count count a b = Ok (tau a b)) ->
    (forall d, In d (left ++ left') -> get_discount_factor (S fuel) disc v d = Ok (DF d)) ->
    let p := last paid start in let p' := last paid' start in
    floats tm disc count' tau' v p' left' ->
    (forall a b, period p' left' a b -> exists q, get_discount_factor fuel disc a b = Ok q /\ q <> 0 /\ DF a * q = DF b) ->
    (rc_cls disc = CCashRate -> forall a b, period p' left' a b ->
       exists x, has_value disc a x /\ get_discount_factor fuel disc a b = Ok (/ (1 + x * tau' a b)) /\ 1 + x * tau' a b <> 0) ->
    returns (get_present_value (S fuel) flr (PrLegs [i; j] dom lo) k (Some v)) h
      (N * (DF p' - DF (last left' p')) + N * c' * level DF tau' p' left' - N * c * level DF tau p left).
  Proof.
    intros fuel flr h i j k disc f times m v start stop per per' paid left paid' left' N count count' c c' fixing payo ll s s' tau tau' DF dom lo
      SC SC' B Hk (a & b & EL & Hi & Hj) HS HS' NF NP ND ND' SE SE' HP HD p p' FT H1 KC.
    unfold interest_rate_swap, interest_payment_dates in B. rewrite SC, SC' in B. cbn [bind] in B.
    destruct (ratelist_new (paid ++ left) _ _ _ _ _ _ _) as [a'|] eqn:EA; [|discriminate]. cbn [bind] in B.
    destruct (ratelist_new (paid' ++ left') _ _ _ _ _ _ _) as [b'|] eqn:EB; [|discriminate]. cbn [bind] in B.
    assert (LI : ll_legs ll = [a'; b']).
    { unfold legs_new in B. destruct (min_origin _); [|discriminate]. cbn [bind] in B.
      destruct (cf_new _ _ _ _ _); [|discriminate]. cbn [bind] in B. now injection B as <-. }
    rewrite EL in LI. injection LI as <- <-.
    apply (C40_legs DS DC (S fuel) flr h [i; j] dom lo k disc v _ Hk). eexists. split.
    - constructor; [|constructor; [|constructor]].
      + apply (rate_leg (S fuel) flr h i k disc v start paid left _ count fixing payo c FwNone a s tau DF (fun _ => 0) Hk Hi HS NF NP ND SE EA).
        * intros x y PE. split; [now apply HP|reflexivity].
        * intros d Id. apply HD, in_or_app. auto.
      + apply (floating_left fuel flr h j k disc v start paid' left' _ count' fixing payo c' b s' tau' DF Hk Hj HS' NF NP ND' SE' EB FT H1); auto.
        intros d Id. apply HD, in_or_app. auto.
    - cbn [Rsum]. fold p p'. rewrite !repeat_skip, !app_length.
      replace (length paid + length left - length paid)%nat with (length left) by lia.
      replace (length paid' + length left' - length paid')%nat with (length left') by lia.
      rewrite (over_ext p left _ _ (fun s e b => b * (c * tau s e * DF e))) by (intros; ring). rewrite over_level, Rplus_0_r.
      rewrite (over_ext p' left' _ _ (fun s e b => - (b * (DF e - DF s)) + b * (c' * tau' s e * DF e))) by (intros; ring).
      rewrite <- over_plus, over_level.
      assert (O : forall ds bs o g, over_periods (D:=D) o ds bs (fun s e b => - g s e b) = - over_periods o ds bs g).
      { clear. induction ds as [|d ds IH]; intros [|x bs] o g; try (cbn; lra). rewrite !over_cons, IH. lra. }
      rewrite (O _ _ _ (fun s e b => b * (DF e - DF s))), <- bullet. change (nopp N) with (- N). ring.
  Qed.
End Seasoned.
Print Assumptions C108_fixed_bond.
Print Assumptions C108_fixed_par.
Print Assumptions C108_matured.
Print Assumptions C108_floating_bond.
Print Assumptions C108_swap.

(** instances: two years, a discount curve growing by a quarter each year.  A bond at 25 percent
    paid back by 40 and 60: on the first payment date it is worth the 125 due on 100, half a year
    later 60 with the interest to come.  A floating rate bond of 100, and a swap paying 20 percent. *)
#[local] Instance no_counts {D} : DayCounts R D := [].
Example C108_instance : exists disc fixed floater swap a1 a2 b1 b2 c1 c2,
  rc_new (DS := FloatDates (T:=R)) CZeroRate [0] [ln (5/4)] None None DcDefault (Some (FP 1)) = Ok disc /\
  bond (DS := FloatDates (T:=R)) (Some (fun _ _ _ => Ok [1; 2])) float_times 0 0 2 (FP 1) (Many [40; 60]) DcDefault (1/4) FwNone None None = Ok fixed /\
  bond (DS := FloatDates (T:=R)) (Some (fun _ _ _ => Ok [1; 2])) float_times 0 0 2 (FP 1) (One 100) DcDefault 0 (FwRate disc) None None = Ok floater /\
  interest_rate_swap (DS := FloatDates (T:=R)) (Some (fun _ _ _ => Ok [1; 2])) float_times 0 0 2 (FP 1) 100 DcDefault (1/5) FwNone None None (FP 1) DcDefault 0 (FwRate disc) = Ok swap /\
  ll_legs fixed = [a1; a2] /\ ll_legs floater = [b1; b2] /\ ll_legs swap = [c1; c2] /\
  let none := HForward (fun _ => FwNone) in
  let curve := HForward (fun cs => match cs with c :: _ => FwRate c | [] => FwNone end) in
  let h := mkH [disc] [] [mkHL a1 HNone; mkHL a2 none; mkHL b1 HNone; mkHL b2 curve; mkHL c1 none; mkHL c2 curve] in
  let pv ids ll v := get_present_value (DS := FloatDates (T:=R)) 4 None (PrLegs ids (ll_domain ll) (ll_origin ll)) 0 (Some v) in
  returns (pv [0%nat; 1%nat] fixed 1) h 125 /\
  returns (pv [0%nat; 1%nat] fixed (3/2)) h (75 * exp (- (ln (5/4) * (1/2)))) /\
  returns (pv [0%nat; 1%nat] fixed 3) h 0 /\
  returns (pv [2%nat; 3%nat] floater (3/2)) h (100 * exp (ln (5/4) * (1/2))) /\
  returns (pv [4%nat; 5%nat] swap (3/2)) h (100 * (exp (ln (5/4) * (1/2)) - 6/5 * exp (- (ln (5/4) * (1/2))))).
Proof.
  set (r := ln (5/4)). assert (ER : exp r = 5/4) by (apply exp_ln; lra).
  destruct (single_curve (DC := no_counts) (L:=float_laws) DcDefault _ CZeroRate 0 r (Some (FP 1)) None 0 (default_additive (L:=float_laws)) eq_refl eq_refl)
      as (disc & ED & (B1 & B2 & B3 & B4 & B5 & B6 & B7 & B8 & B9 & B10) & V).
  destruct (flat_zero (DC := no_counts) (L:=float_laws) 0 r (Some (FP 1))) as (disc' & ED' & _ & _ & DFS). rewrite ED in ED'. injection ED' as <-.
  set (g := fun (_ _ : R) (_ : fperiod R) => Ok [1; 2]).
  destruct (C62_returns FloatDates (fun d => d) float_laws g float_times 0 0 2 (FP 1) [1; 2] (Many [40; 60]) DcDefault (1/4) FwNone None None eq_refl I eq_refl) as (fixed & E1).
  destruct (C62_returns FloatDates (fun d => d) float_laws g float_times 0 0 2 (FP 1) [1; 2] (One 100) DcDefault 0 (FwRate disc) None None eq_refl I I) as (floater & E2).
  destruct (C76_returns FloatDates (fun d => d) float_laws g float_times 0 0 2 (FP 1) [1; 2] 100 DcDefault (1/5) FwNone None None (FP 1) [1; 2] DcDefault 0 (FwRate disc) eq_refl eq_refl I) as (swap & E3).
  destruct (bond_inv FloatDates g float_times 0 0 2 (FP 1) [1; 2] _ _ _ _ _ _ _ eq_refl E1) as (a1 & a2 & _ & _ & L1 & _).
  destruct (bond_inv FloatDates g float_times 0 0 2 (FP 1) [1; 2] _ _ _ _ _ _ _ eq_refl E2) as (b1 & b2 & _ & _ & L2 & _).
  assert (L3 : exists c1 c2, ll_legs swap = [c1; c2]).
  { pose proof E3 as B. unfold interest_rate_swap, interest_payment_dates, g in B. cbn [bind] in B.
    destruct (ratelist_new [1; 2] _ _ _ _ _ (1/5) _) as [c1|]; [|discriminate]. cbn [bind] in B.
    destruct (ratelist_new [1; 2] _ _ _ _ _ 0 _) as [c2|]; [|discriminate]. cbn [bind] in B.
    exists c1, c2. unfold legs_new in B. destruct (min_origin _); [|discriminate]. cbn [bind] in B.
    destruct (cf_new _ _ _ _ _); [|discriminate]. cbn [bind] in B. now injection B as <-. }
  destruct L3 as (c1 & c2 & L3).
  exists disc, fixed, floater, swap, a1, a2, b1, b2, c1, c2.
  do 7 (split; [assumption|]). cbv zeta. set (h := mkH _ _ _).
  assert (ND : NoDup (map (fun d : R => d) [0; 1; 2])) by (repeat constructor; cbn; intuition lra).
  assert (ND' : NoDup (map (fun d : R => d) [1; 2])) by (repeat constructor; cbn; intuition lra).
  assert (LE : forall v d : R, v <= d -> d_leb (DateSys := FloatDates (T:=R)) v d = true) by (intros; now apply (leb_t (L:=float_laws))).
  assert (GT : forall v d : R, d < v -> d_leb (DateSys := FloatDates (T:=R)) v d = false).
  { intros v d H. destruct (d_leb v d) eqn:E; [|reflexivity]. apply (leb_inv (L:=float_laws)) in E. lra. }
  assert (S1 : seasoned (DS := FloatDates (T:=R)) 1 0 [] [1; 2]).
  { split; [intros d [<-|[]]; apply GT; lra|intros d [<-|[<-|[]]]; apply LE; lra]. }
  assert (S2 : seasoned (DS := FloatDates (T:=R)) (3/2) 0 [1] [2]).
  { split; [intros d [<-|[<-|[]]]; apply GT; lra|intros d [<-|[]]; apply LE; lra]. }
  set (DF := fun d : R => exp (- (r * (d - 3/2)))).
  assert (PE : forall s e : R, period 1 [2] s e -> s = 1 /\ e = 2).
  { intros s e [[|[|i]] [H1 H2]]; cbn in H1, H2; try discriminate; injection H1 as <-; injection H2 as <-; auto. }
  assert (FT : floats (DS := FloatDates (T:=R)) (fun d => d) disc DcDefault (fun s e => e - s) (3/2) 1 [2]).
  { split; [now rewrite B1|]. split; [exact B10|]. split; [repeat constructor; intros []|]. intros s e H. destruct (PE s e H) as [-> ->].
    split; [unfold rc_tenor; rewrite B7; cbn; f_equal; lra|]. split; [cbn; apply Reqb_false; lra|]. split; [reflexivity|apply LE; lra]. }
  assert (QS : forall a b, period 1 [2] a b -> exists q, get_discount_factor (DS := FloatDates (T:=R)) 3 disc a b = Ok q /\ q <> 0 /\ DF a * q = DF b).
  { intros a b H. eexists. split; [apply DFS|]. split; [apply Rgt_not_eq, exp_pos|]. unfold DF. rewrite <- exp_plus. f_equal. ring. }
  assert (PC : forall a b : R, pay_count (DS := FloatDates (T:=R)) DcDefault a b = Ok (b - a)) by reflexivity.
  assert (D1 : DF 1 = exp (r * (1/2))) by (unfold DF; f_equal; lra).
  assert (D2 : DF 2 = exp (- (r * (1/2)))) by (unfold DF; f_equal; lra).
  split; [|split; [|split; [|split]]].
  - pose proof (C108_fixed_par FloatDates (fun d => d) no_counts float_laws 4 None h 0 1 0 disc g float_times 0 1 0 2 (FP 1) [] 1 [2] (Many [40; 60]) DcDefault (1/4) None None
      fixed (fun _ => FwNone) (fun a b => b - a) (fun d => exp (- (r * (d - 1)))) (ll_domain fixed) (ll_origin fixed) eq_refl E1 eq_refl) as Q.
    cbn [running balances nth map seq length app last remaining skipn Rsum] in Q. unfold remaining in Q. cbn [skipn Rsum] in Q.
    replace 125 with ((40 + (60 + 0)) * (1 + 1/4 * (1 - 0)) * exp (- (r * (1 - 1)))) by (replace (- (r * (1 - 1))) with 0 by ring; rewrite exp_0; lra).
    apply Q; auto; try exact I.
    + exists a1, a2. auto.
    + intros a b [[|[|i]] [H1 H2]]; cbn in H1, H2; try discriminate. injection H1 as <-. injection H2 as <-.
      replace (- (r * (1 - 1))) with 0 by ring. replace (- (r * (2 - 1))) with (- r) by ring. rewrite exp_Ropp, exp_0, ER. lra.
  - pose proof (C108_fixed_par FloatDates (fun d => d) no_counts float_laws 4 None h 0 1 0 disc g float_times 0 (3/2) 0 2 (FP 1) [1] 2 [] (Many [40; 60]) DcDefault (1/4) None None
      fixed (fun _ => FwNone) (fun a b => b - a) DF (ll_domain fixed) (ll_origin fixed) eq_refl E1 eq_refl) as Q.
    cbn [running balances nth map seq length app last] in Q. unfold remaining in Q. cbn [skipn Rsum] in Q. rewrite D2 in Q.
    replace (75 * exp (- (r * (1 / 2)))) with ((60 + 0) * (1 + 1 / 4 * (2 - 1)) * exp (- (r * (1 / 2)))) by lra.
    apply Q; auto; try exact I.
    + exists a1, a2. auto.
    + intros d _. apply DFS.
    + intros a b [[|i] [H1 H2]]; discriminate.
  - apply (C108_matured FloatDates (fun d => d) no_counts float_laws 4 None h 0 1 0 disc g float_times 0 3 0 2 (FP 1) [1; 2] (Many [40; 60]) DcDefault (1/4) None None
      fixed (fun _ => FwNone) (ll_domain fixed) (ll_origin fixed) eq_refl E1 eq_refl); auto; try exact I.
    + exists a1, a2. auto.
    + intros d [<-|[<-|[<-|[]]]]; apply GT; lra.
  - pose proof (C108_floating_bond FloatDates (fun d => d) no_counts float_laws 3 None h 2 3 0 disc g float_times 0 (3/2) 0 2 (FP 1) [1] [2] (One 100) DcDefault 0 None None
      floater (fun cs => match cs with c :: _ => FwRate c | [] => FwNone end) (fun s e => e - s) DF (ll_domain floater) (ll_origin floater) eq_refl E2 eq_refl) as Q.
    cbn [running after balances nth repeat length app last skipn] in Q. rewrite over_cons, D1 in Q. cbn [over_periods combine map Rsum] in Q.
    match type of Q with _ -> _ -> _ -> _ -> _ -> _ -> _ -> _ -> _ -> _ -> _ -> returns _ _ ?u => replace (100 * exp (r * (1/2))) with u end.
    + apply Q; auto; try exact I.
      * exists b1, b2. auto.
      * split; [reflexivity|discriminate].
      * intros d _. apply DFS.
      * rewrite B1. discriminate.
    + unfold over_periods. cbn. lra.
  - pose proof (C108_swap FloatDates (fun d => d) no_counts float_laws 3 None h 4 5 0 disc g float_times 0 (3/2) 0 2 (FP 1) (FP 1) [1] [2] [1] [2] 100 DcDefault DcDefault (1/5) 0 None None
      swap (fun _ => FwNone) (fun cs => match cs with c :: _ => FwRate c | [] => FwNone end) (fun s e => e - s) (fun s e => e - s) DF (ll_domain swap) (ll_origin swap) eq_refl eq_refl E3 eq_refl) as Q.
    cbn [last] in Q. rewrite D1, D2 in Q.
    match type of Q with _ -> _ -> _ -> _ -> _ -> _ -> _ -> _ -> _ -> _ -> _ -> _ -> _ -> _ -> returns _ _ ?u => replace (100 * (exp (r * (1/2)) - 6/5 * exp (- (r * (1/2))))) with u end.
    + apply Q; auto; try exact I.
      * exists c1, c2. auto.
      * intros d _. apply DFS.
      * rewrite B1. discriminate.
    + unfold level. cbn [combine map Rsum fst snd]. rewrite D2. lra.
Qed.
