(** Values of floating lists on a curve which is fitted. *)
From Coq Require Import Reals Lra Lia List Bool ZArith Sorted.
From Verif Require Import Num Py Spec MDates MInterpolation MCurve MRateCurve MOption MCashflow MBracket MPricer
  SDates SInterpolation SCurve SRateCurve SCashflow SPricer SBracket SYield SFit SBootstrap LBase LSort LDates LInterpolation LCurve LCurve2
  LDateCurve LDateCurve2 LCashflow LRateCurve LRateCurve3 LCast LPricer LPricer2 LPricer3 LBracket LYield LFair LFit LMore LInterpolation2
  LCompounding PBracket PCashflow PRateCurve2 PPricer PFit LBootstrap PBootstrap PFitFail.
Import ListNotations.
Open Scope R_scope.

Lemma map_seq_nth {A} (f : nat -> A) k m : (m < k)%nat -> nth_error (map f (seq 0 k)) m = Some (f m).
Proof.
  intros H. apply map_nth_error. rewrite (nth_error_nth' _ 0%nat) by (now rewrite seq_length). now rewrite seq_nth.
Qed.

Section Forward.
  Context {D P : Type} (DS : DateSys R D P) (tm : D -> R) (DC : DayCounts R D) (L : DateLaws DS tm).
  Implicit Types (c : rcurve R D P) (h : heap R D P).

  Lemma built_cash count tau grid orig o og : additive (dc_apply count) tau -> monotone tau ->
    grid <> [] -> increasing (map tm grid) -> dom_origin orig grid = Some o -> (forall d, In d grid -> tm og <= tm d) ->
    forall zs t, length zs = length grid -> exists c,
    rc_new CCashRate grid zs None orig count t = Ok c /\ built count tau CCashRate grid orig o t c /\
    (forall i d, nth_error grid i = Some d -> rc_call c d = Ok (nth i zs 0)) /\ rc_call c og = Ok (nth 0 zs 0).
  Proof.
    intros A MO NE INC OG AV zs t LZ. pose proof (increasing_distinct _ INC) as ND.
    destruct (rc_new_linear (L:=L) count tau A CCashRate grid zs orig o t) as (c & E & B & V & W); auto; [reflexivity|].
    exists c. split; auto. split; auto.
    assert (VG : forall i d, nth_error grid i = Some d -> In (d, nth i zs 0) (combine grid zs)).
    { intros i d I. apply (nth_error_In _ i). apply combine_nth_both; auto. apply nth_error_nth'. rewrite LZ. now apply nth_Some_lt in I. }
    split.
    - intros i d I. apply V. auto.
    - destruct (W og) as (w & Ew & PL). rewrite Ew. f_equal. specialize (PL (tau o) ltac:(intros; apply (tau_diff A))).
      destruct (nth_lt_Some grid 0) as (d0 & H0); [destruct grid; [congruence|cbn; lia]|].
      refine (pl_fun _ _ _ _ (times_distinct (L:=L) count tau A o grid zs (eq_sym LZ) ND) PL _).
      right. left. exists (tau o d0).
      assert (TD : forall a, tau og a = tau o a - tau o og) by (intros; apply (tau_diff A)).
      split; [|split].
      + apply (nth_error_In _ 0). apply combine_nth_both; [now apply map_nth_error|]. apply nth_error_nth'. rewrite LZ. now apply nth_Some_lt in H0.
      + intros a z I. apply in_combine_l in I. apply in_map_iff in I. destruct I as (d & <- & Id).
        assert (T : tm d0 <= tm d).
        { destruct (In_nth_error _ _ Id) as [i Hi]. apply (increasing_nth _ INC 0 i); [now apply map_nth_error..|lia]. }
        pose proof (tau_mono (L:=L) count tau A MO d0 d T). pose proof (tau_diff A o d0 d). lra.
      + pose proof (tau_mono (L:=L) count tau A MO og d0 (AV d0 (nth_error_In _ _ H0))). rewrite TD in *. lra.
  Qed.

  (** the value of a list in a heap *)
  Lemma list_value grid v fuel flr h i l am kd disc df :
    (forall d, In d grid -> tm v <= tm d) -> seen h v i l ->
    cf_domain l = firstn (length am) grid -> (length am <= length grid)%nat ->
    (forall j d a, nth_error grid j = Some d -> nth_error am j = Some a -> cf_get fuel flr l d = Ok a) ->
    nth_error (h_curves h) kd = Some disc -> (forall d, In d grid -> get_discount_factor fuel disc v d = Ok (df d)) ->
    returns (get_present_value fuel flr (PrList i) kd (Some v)) h (value_on grid df am).
  Proof.
    intros AV SE DM LE G HK HD. apply (C40_list DS DC fuel flr h i kd disc v l); auto. unfold worth, due. rewrite DM.
    assert (Q : forall g a', (forall d, In d g -> d_leb v d = true) -> (forall d, In d g -> get_discount_factor fuel disc v d = Ok (df d)) ->
      (length a' <= length g)%nat ->
      (forall j d x, nth_error g j = Some d -> nth_error a' j = Some x -> cf_get fuel flr l d = Ok x) ->
      exists xs, Forall2 (discounted fuel flr disc v l) (filter (fun d => d_leb v d) (firstn (length a') g)) xs /\ value_on g df a' = Rsum xs).
    { clear. unfold value_on. induction g as [|d g IH]; intros [|a a'] H1 H2 LE H3.
      - exists []. split; [constructor|reflexivity].
      - cbn in LE. lia.
      - exists []. split; [constructor|reflexivity].
      - destruct (IH a') as (xs & F & E); [intros; apply H1; now right|intros; apply H2; now right|cbn in LE; lia|intros j; apply (H3 (S j))|].
        exists (df d * a :: xs). cbn [length firstn filter]. rewrite H1 by now left. split.
        + constructor; auto. exists (df d), a. split; [apply H2; now left|]. split; auto. now apply (H3 0%nat).
        + cbn [combine map Rsum fst snd]. now rewrite E. }
    apply Q; auto. intros d Id. apply (leb_t (L:=L)). auto.
  Qed.

  (** the value of a floating list with the forward rates of a curve *)
  Lemma floater_value grid og v kf kd disc df pc pt fuel flr h h2 cs p rate ns f :
    increasing (map tm grid) -> (forall d, In d grid -> tm v <= tm d) ->
    h_lists h2 = h_lists h -> nth_error (h_curves h2) kf = Some cs -> nth_error (h_curves h2) kd = Some disc ->
    (forall d, In d grid -> get_discount_factor fuel disc v d = Ok (df d)) ->
    (forall a b, pay_count pc a b = Ok (pt a b)) -> floater h kf grid og pc p rate ns -> (length ns <= length grid)%nat ->
    (forall m s, (m < length grid)%nat -> nth_error (og :: grid) m = Some s -> forward_at fuel (FwRate cs) s (f m)) ->
    returns (get_present_value fuel flr p kd (Some v)) h2 (value_on grid df (floats pt grid og f rate ns)).
  Proof.
    intros INC AV HL HK HD DF PC (i & l & c0 & -> & Li & RN) LN FW.
    assert (DM : cf_domain l = firstn (length ns) grid /\
      ratelist_new (firstn (length ns) grid) (Many ns) (Some og) pc None None rate (FwRate cs) =
        Ok (mkCF (cf_domain l) (cf_flows l) (cf_origin0 l) (LForward (FwRate cs)) (cf_rated l))).
    { unfold ratelist_new in RN |- *. cbn [start_dates bind] in RN |- *.
      destruct (rate_payoffs _ _ _ _ _ _ _) as [rs|]; [|discriminate]. cbn [bind] in RN |- *.
      destruct (cf_new_inv _ _ _ _ _ _ RN) as [LE ->]. split; [reflexivity|].
      unfold cf_new in RN |- *. destruct (_ =? _)%nat; [reflexivity|discriminate]. }
    destruct DM as [DM RN'].
    apply (list_value grid v fuel flr _ i (mkCF (cf_domain l) (cf_flows l) (cf_origin0 l) (LForward (FwRate cs)) (cf_rated l)) _ kd disc df); auto.
    - exists (mkHL l (HForward (fun cs => match nth_error cs kf with Some c => FwRate c | None => FwNone end))), (LForward (FwRate cs)).
      cbn [hl_list hl_attr]. rewrite HL, HK. auto.
    - unfold floats. rewrite map_length, seq_length. exact DM.
    - unfold floats. rewrite map_length, seq_length. exact LN.
    - intros m e x He Hx. assert (Lm : (m < length ns)%nat) by (apply nth_Some_lt in Hx; unfold floats in Hx; now rewrite map_length, seq_length in Hx).
      unfold floats in Hx. rewrite map_seq_nth in Hx by exact Lm. injection Hx as <-.
      assert (Lg : (m < length grid)%nat) by lia.
      assert (Hs : nth_error (og :: grid) m = Some (nth m (og :: grid) og)) by (apply nth_error_nth'; cbn [length]; lia).
      rewrite (nth_error_nth _ _ og He).
      apply (C38_flow DS DC tm L fuel flr _ _ _ _ _ _ _ _ _ RN' (prefix_nodup grid INC (length ns)) m (nth m (og :: grid) og) e (nth m ns 0)
        (nth m (og :: grid) og) e (nth m (og :: grid) og) (f m) (pt (nth m (og :: grid) og) e)); auto.
      + destruct m as [|m]; [exact Hs|]. cbn [nth_error] in Hs |- *. apply prefix_nth; auto. lia.
      + now apply prefix_nth.
      + now apply nth_error_nth'.
      + reflexivity.
      + reflexivity.
      + reflexivity.
      + apply (LDates.eqb_refl (L:=L)).
  Qed.

  (** floating lists as products of a fit of their forward curve *)
  Section Quotes.
    Variables (grid : list D) (og v : D) (kf kd : nat) (disc : rcurve R D P) (df : D -> R) (pc : dcspec R D) (pt : D -> D -> R)
      (fuel : nat) (flr : option R) (h : heap R D P) (c : rcurve R D P) (ps : list (@product D)) (rates : list R) (nss : list (list R))
      (FF : list R -> nat -> R).
    Hypotheses (INC : increasing (map tm grid)) (AV : forall d, In d grid -> tm v <= tm d) (HK : nth_error (h_curves h) kf = Some c)
      (KD : kd <> kf) (HD : nth_error (h_curves h) kd = Some disc) (DF : forall d, In d grid -> get_discount_factor fuel disc v d = Ok (df d))
      (PC : forall a b, pay_count pc a b = Ok (pt a b))
      (LP : length ps = length grid) (LR : length rates = length grid) (LN : length nss = length grid)
      (FL : forall j p rate ns, nth_error ps j = Some p -> nth_error rates j = Some rate -> nth_error nss j = Some ns ->
         floater h kf grid og pc p rate ns /\ length ns = S j)
      (FW : forall xs s, length xs = length grid -> on_grid c grid xs = Ok s ->
         forall m x, (m < length grid)%nat -> nth_error (og :: grid) m = Some x ->
           forward_at fuel (FwRate (mkR (rc_cls c) (rc_dc c) (rc_tenor0 c) (Some (inr s)))) x (FF xs m)).

    Definition fvalue (xs : list R) (j : nat) : R := value_on grid df (floats pt grid og (FF xs) (nth j rates 0) (nth j nss [])).
    Definition fquotes : list (D * (list R -> R)) := map (fun j => (nth j grid og, fun xs => fvalue xs j)) (seq 0 (length grid)).

    Lemma fquotes_at j d : nth_error grid j = Some d -> nth_error fquotes j = Some (d, fun xs => fvalue xs j).
    Proof. intros Hd. unfold fquotes. rewrite map_seq_nth by (now apply nth_Some_lt in Hd). now rewrite (nth_error_nth _ _ og Hd). Qed.
    Lemma fquotes_nth j q : nth_error fquotes j = Some q -> exists d, nth_error grid j = Some d /\ q = (d, fun xs => fvalue xs j).
    Proof.
      intros Hq. assert (Lj : (j < length grid)%nat) by (apply nth_Some_lt in Hq; unfold fquotes in Hq; now rewrite map_length, seq_length in Hq).
      destruct (nth_lt_Some grid j Lj) as (d & Hd). exists d. split; auto. rewrite (fquotes_at j d Hd) in Hq. congruence.
    Qed.
    Lemma grid_order i j x y : nth_error grid i = Some x -> nth_error grid j = Some y -> tm y <= tm x -> (j <= i)%nat.
    Proof. intros Hx Hy T. apply (increasing_nth _ INC j i (tm y) (tm x)); auto; now apply map_nth_error. Qed.

    Lemma fvalue_ext j xs zs : (j < length grid)%nat -> (forall m, (m <= j)%nat -> FF xs m = FF zs m) -> fvalue xs j = fvalue zs j.
    Proof.
      intros Lj EN. unfold fvalue. f_equal. unfold floats. apply map_ext_in. intros m Im. apply in_seq in Im.
      assert (LS : length (nth j nss []) = S j).
      { destruct (nth_lt_Some ps j) as (p & Hp); [lia|]. apply (FL j p (nth j rates 0) (nth j nss []) Hp); apply nth_error_nth'; lia. }
      rewrite EN by lia. reflexivity.
    Qed.

    Lemma fquotes_one_each : one_each tm grid fquotes.
    Proof.
      split; [unfold fquotes; now rewrite map_length, seq_length|]. intros i j d q Hd Hq. destruct (fquotes_nth j q Hq) as (e & He & ->). cbn [fst]. split; intros T.
      - now apply (grid_order i j d e).
      - apply (increasing_nth _ INC j i); auto; now apply map_nth_error.
    Qed.

    Lemma fquotes_local : (forall m xs zs, (m < length grid)%nat -> length xs = length grid -> length zs = length grid ->
      (forall k, (k <= m)%nat -> nth_error xs k = nth_error zs k) -> FF xs m = FF zs m) -> Forall (local tm grid) fquotes.
    Proof.
      intros DEP. apply Forall_forall. intros q Iq. destruct (In_nth_error _ _ Iq) as [j Hj]. destruct (fquotes_nth j q Hj) as (e & He & ->).
      intros i d xs zs Hd T LX LZ EN. cbn [fst snd] in *. pose proof (grid_order i j d e Hd He T). assert (Lj : (j < length grid)%nat) by (now apply nth_Some_lt in He).
      apply fvalue_ext; auto. intros m Lm. apply DEP; auto; [lia|]. intros k Lk. apply EN. lia.
    Qed.

    Lemma fquotes_priced : Forall2 (fun p q => last_payment h p (fst q) /\ priced fuel flr h kd (Some v) kf c grid p (snd q)) ps fquotes.
    Proof.
      assert (G : forall j p q, nth_error ps j = Some p -> nth_error fquotes j = Some q ->
        last_payment h p (fst q) /\ priced fuel flr h kd (Some v) kf c grid p (snd q)).
      { intros j p q Hp Hq. destruct (fquotes_nth j q Hq) as (e & He & ->). cbn [fst snd].
        assert (Lj : (j < length grid)%nat) by (now apply nth_Some_lt in He).
        destruct (FL j p (nth j rates 0) (nth j nss []) Hp) as [F1 F2]; [apply nth_error_nth'; lia..|]. split.
        - destruct F1 as (i & l & c0 & -> & Li & RN). rewrite F2 in RN.
          eapply (list_last (L:=L) grid INC h i l _ e j); eauto.
          unfold ratelist_new in RN. cbn [start_dates bind] in RN.
          destruct (rate_payoffs _ _ _ _ _ _ _) as [rs|]; [|discriminate]. cbn [bind] in RN.
          destruct (cf_new_inv _ _ _ _ _ _ RN) as [_ ->]. reflexivity.
        - intros xs s LX GR. unfold fvalue.
          apply (floater_value grid og v kf kd disc df pc pt fuel flr h _ (mkR (rc_cls c) (rc_dc c) (rc_tenor0 c) (Some (inr s))) p (nth j rates 0) (nth j nss []) (FF xs)); auto; try lia.
          + unfold with_spread. cbn [h_curves]. apply set_nth_nth. now apply nth_Some_lt in HK.
          + unfold with_spread. cbn [h_curves]. rewrite set_nth_other by auto. exact HD. }
      assert (LE : length ps = length fquotes) by (unfold fquotes; rewrite map_length, seq_length; exact LP). clear -G LE. revert G LE. generalize fquotes, ps.
      intros l1 l. revert l1. induction l as [|p l IH]; intros [|q l1] G LE; try discriminate; constructor.
      - apply (G 0%nat); reflexivity.
      - apply IH; [|cbn in LE; lia]. intros j p' q' H1 H2. apply (G (S j) p' q' H1 H2).
    Qed.
  End Quotes.

  (** a curve with a spread adds it *)
  Lemma with_spread_call c (s : rcurve R D P) x y z : rc_spread c = None -> rc_call c x = Ok y -> rc_call s x = Ok z ->
    rc_call (mkR (rc_cls c) (rc_dc c) (rc_tenor0 c) (Some (inr s))) x = Ok (y + z).
  Proof.
    intros NS Y Z. destruct c as [k0 d0 t0 sp0]. cbn [rc_spread] in NS. subst sp0.
    rewrite rc_call_plain in Y. cbn [rc_call rc_cls rc_dc rc_tenor0]. rewrite Y. cbn [bind]. rewrite Z. reflexivity.
  Qed.

  (** the forward rate of a curve of cash rates is its value *)
  Lemma cash_forward c fuel x y : rc_cls c = CCashRate -> (exists e, d_add x (rc_tenor c) = Ok e) -> rc_call c x = Ok y ->
    forward_at (S fuel) (FwRate c) x y.
  Proof.
    intros K (e & E) V. cbn [forward_at]. rewrite K. cbn [is_interest]. unfold get_cash_rate, interest_only.
    rewrite K. cbn [is_interest cash_rate bind]. rewrite E. cbn [bind]. now rewrite K, (LDates.eqb_refl (L:=L)).
  Qed.

  (** the forward rate of a curve of zero rates *)
  Lemma zero_forward c tau o fuel x e e' y z : rc_cls c = CZeroRate -> rc_origin c = Some o -> additive (rc_yf c) tau -> date_values c ->
    d_add x (rc_tenor c) = Ok e' -> d_eqb e' e = true -> tm x <> tm e -> rc_call c x = Ok y -> rc_call c e = Ok z ->
    forward_at (S (S (S fuel))) (FwRate c) x ((exp (z * tau o e - y * tau o x) - 1) / tau x e).
  Proof.
    intros K HO A DV E EE NX Y Z. cbn [forward_at]. rewrite K. cbn [is_interest]. unfold get_cash_rate, interest_only.
    rewrite K. cbn [is_interest cash_rate bind]. rewrite E. cbn [bind]. rewrite K.
    assert (Z' : rc_call c e' = Ok z) by (rewrite (DV e' e EE); exact Z).
    assert (T1 : tau e' e = 0) by (now apply (add_zero _ _ A)).
    assert (T2 : tau o e' = tau o e) by (pose proof (tau_diff A o e' e); lra).
    assert (T3 : tau x e' = tau x e) by (pose proof (tau_diff A o x e'); pose proof (tau_diff A o x e); lra).
    assert (T4 : tau x e <> 0).
    { intro Q. apply (add_zero _ _ A) in Q. apply NX. now apply (eqb_inv (L:=L)). }
    rewrite (flat_factor (L:=L) c o tau HO A fuel x e' y z); auto; [|now left]. cbn [bind]. rewrite (add_val _ _ A), T2, T3. cbn [bind].
    set (u := z * tau o e - y * tau o x). pose proof (exp_pos (- u)) as PU.
    rewrite (simple_rate_ok (exp (- u)) (tau x e)) by (try exact T4; lra). f_equal. rewrite exp_Ropp. field. pose proof (exp_pos u). split; [exact T4|lra].
  Qed.
End Forward.
