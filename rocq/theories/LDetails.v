(** Lemmas about details and tables. *)
From Coq Require Import List Bool ZArith Arith Lia.
From Verif Require Import Num Py MPlans MDates MCurve MRateCurve MOption MCashflow MDetails LBase LCashflow.
Import ListNotations.

Lemma key_beq_eq k k' : key_beq k k' = true <-> k = k'.
Proof. split; [apply internal_key_dec_bl|apply internal_key_dec_lb]. Qed.
Lemma key_beq_refl k : key_beq k k = true.
Proof. now apply key_beq_eq. Qed.
Lemma key_beq_ne k k' : k <> k' -> key_beq k k' = false.
Proof. intros H. destruct (key_beq k k') eqn:E; auto. now apply key_beq_eq in E. Qed.

Section Dict.
  Context {T D P : Type}.
  Notation dict := (list (key * value T D P)).
  Implicit Types (d e : dict) (v : value T D P).

  Lemma dget_dset d k v k' : dget (dset k v d) k' = if key_beq k k' then Some v else dget d k'.
  Proof.
    unfold dget, dset. induction d as [|[a b] d IH]; cbn; [reflexivity|].
    destruct (key_beq a k) eqn:E; cbn.
    - apply key_beq_eq in E. subst a. now destruct (key_beq k k').
    - destruct (key_beq a k') eqn:F; auto.
      apply key_beq_eq in F. subst a. destruct (key_beq k k') eqn:G; auto.
      apply key_beq_eq in G. subst k'. now rewrite key_beq_refl in E.
  Qed.
  Lemma dget_dset_same d k v : dget (dset k v d) k = Some v.
  Proof. now rewrite dget_dset, key_beq_refl. Qed.
  Lemma dget_dset_other d k v k' : k <> k' -> dget (dset k v d) k' = dget d k'.
  Proof. intros H. now rewrite dget_dset, key_beq_ne. Qed.

  Lemma dget_cons a b d k : dget ((a, b) :: d) k = if key_beq a k then Some b else dget d k.
  Proof. reflexivity. Qed.
  Lemma dget_nil k : dget ([] : dict) k = None.
  Proof. reflexivity. Qed.
  Lemma dget_app d e k : dget (d ++ e) k = match dget d k with Some v => Some v | None => dget e k end.
  Proof. unfold dget. induction d as [|[a b] d IH]; cbn; auto. now destruct (key_beq a k). Qed.

  (** updating with keys which differ *)
  Lemma dupdate_get e : forall d k, NoDup (map fst e) ->
    dget (dupdate d e) k = match dget e k with Some v => Some v | None => dget d k end.
  Proof.
    unfold dupdate. induction e as [|[a b] e IH]; intros d k ND; [reflexivity|].
    cbn [map fst] in ND. inversion_clear ND as [|? ? NI ND'].
    cbn [fold_left fst snd]. rewrite IH by auto. rewrite dget_dset.
    cbn [dget assoc]. unfold dget at 3. cbn [assoc]. destruct (key_beq a k) eqn:E.
    - apply key_beq_eq in E. subst a. destruct (dget e k) eqn:F; auto.
      exfalso. apply NI. clear -F. unfold dget in F. induction e as [|[a c] e IH]; cbn in F; [easy|].
      destruct (key_beq a k) eqn:E; [apply key_beq_eq in E; now left|right; auto].
    - reflexivity.
  Qed.
  Lemma dupdate_none e : forall d k, (forall v, ~ In (k, v) e) -> dget (dupdate d e) k = dget d k.
  Proof.
    unfold dupdate. induction e as [|[a b] e IH]; intros d k H; [reflexivity|].
    cbn [fold_left fst snd]. rewrite IH by (intros v I; apply (H v); now right).
    apply dget_dset_other. intros ->. apply (H b). now left.
  Qed.
  Lemma dupdate_keys e : forall d k, (forall k' v, In (k', v) e -> k' <> k) -> dget (dupdate d e) k = dget d k.
  Proof. intros d k H. apply dupdate_none. intros v I. now apply (H k v I). Qed.
End Dict.

Section Payoffs.
  Context {T D P : Type} {N : Num T} (DS : DateSys T D P) (DC : DayCounts T D).
  Open Scope num_scope.

  Lemma d_rate_pay fuel (r : ratep T D P) a :
    rate_details fuel r a =
    (e <- d_rate fuel r a ;;
     match dget e KCashflow, dget e KYearFraction with
     | Some (VNum x), Some (VNum yf) =>
         Ok (mkRD x yf (match dget e KFixing with Some (VDate d) => Some d | _ => None end))
     | _, _ => Err TypeError
     end).
  Proof.
    unfold rate_details, d_rate. destruct (pay_count _ _ _) as [yf|]; [|reflexivity]. cbn [bind].
    destruct (pm_truthy a); [|now destruct (number (rp_rate r))].
    destruct (offset _ _) as [x|]; [|reflexivity]. cbn [bind].
    destruct (source_rate _ _ _) as [f|]; [|reflexivity]. cbn [bind].
    destruct (number (rp_rate r)); reflexivity.
  Qed.
  Lemma d_rate_fields fuel (r : ratep T D P) a e : d_rate fuel r a = Ok e ->
    exists yf f c, pay_count (rp_count r) (rp_start r) (rp_end r) = Ok yf /\ rp_rate r = Some c /\
      dget e KNotional = Some (VNum (rp_amount r)) /\ dget e KFixedRate = Some (VNum c) /\
      dget e KStart = Some (VDate (rp_start r)) /\ dget e KEnd = Some (VDate (rp_end r)) /\
      dget e KYearFraction = Some (VNum yf) /\
      dget e KCashflow = Some (VNum ((c + f) * yf * rp_amount r)) /\
      (if pm_truthy a then
         exists d, offset (rp_start r) (rp_fixing r) = Ok d /\ source_rate fuel (pm_source a) d = Ok f /\
           dget e KForwardRate = Some (VNum f) /\ dget e KFixing = Some (VDate d) /\
           dget e KTenor = Some (match source_tenor (pm_source a) with Some p => VPeriod p | None => VNone end)
       else f = n0 /\ dget e KForwardRate = None /\ dget e KFixing = None /\ dget e KTenor = None).
  Proof.
    unfold d_rate. destruct (pay_count _ _ _) as [yf|]; [|discriminate]. cbn [bind].
    destruct (pm_truthy a).
    - destruct (offset _ _) as [x|]; [|discriminate]. cbn [bind].
      destruct (source_rate fuel (pm_source a) x) as [f|] eqn:F; [|discriminate]. cbn [bind].
      destruct (rp_rate r) as [c|]; [|discriminate]. cbn [number bind fst snd vnum]. intros [= <-].
      exists yf, f, c. repeat (split; [reflexivity|]). exists x. split; [reflexivity|]. split; [exact F|]. now repeat (split; [reflexivity|]).
    - destruct (rp_rate r) as [c|]; [|discriminate]. cbn [number bind fst snd vnum]. intros [= <-].
      exists yf, n0, c. now repeat (split; [reflexivity|]).
  Qed.

  Lemma d_rate_label fuel (r : ratep T D P) a e : d_rate fuel r a = Ok e ->
    dget e KPayRec = Some (VLabel (if n0 <? rp_amount r then LPay else LRec)).
  Proof.
    unfold d_rate. destruct (pay_count _ _ _) as [yf|]; [|discriminate]. cbn [bind].
    destruct (pm_truthy a).
    - destruct (offset _ _) as [x|]; [|discriminate]. cbn [bind].
      destruct (source_rate fuel (pm_source a) x) as [f|] eqn:F; [|discriminate]. cbn [bind].
      destruct (rp_rate r) as [c|]; [|discriminate]. cbn [number bind fst snd vnum]. now intros [= <-].
    - destruct (rp_rate r) as [c|]; [|discriminate]. cbn [number bind fst snd vnum]. now intros [= <-].
  Qed.

  Lemma d_model_value fuel flr (m : omodel T D P) d k x :
    om_details fuel flr m d k = Ok x -> exists e, d_model fuel flr m d k = Ok e /\
      NoDup (map fst e) /\
      dget e KCashflow = None /\ dget e KNotional = None /\ dget e KPutCall = None /\ dget e KLongShort = None /\
      dget e KExpiry = None /\
      dget e KValuation = Some (vdate (om_valuation m)) /\
      dget e KForward = option_map VNum (od_forward x) /\
      dget e KStrike = Some (VNum (od_strike x)) /\
      dget e KVolatility = option_map VNum (od_vol x) /\
      dget e KTime = Some (VNum (od_time x)).
  Proof.
    intros E. unfold d_model. rewrite E. cbn [bind]. eexists. split; [reflexivity|].
    destruct (od_forward x), (source_tenor (om_forward m)), (od_vol x); cbn;
      (split; [repeat constructor; cbn; intuition discriminate|now repeat (split; [reflexivity|])]).
  Qed.

  Lemma value_details fuel flr (m : omodel T D P) d k v (b : bool) :
    (if b then get_put_value fuel flr m d k else get_call_value fuel flr m d k) = Ok v ->
    exists x, om_details fuel flr m d k = Ok x.
  Proof.
    destruct b; [unfold get_put_value|unfold get_call_value];
      (destruct (om_details fuel flr m d k) as [x|]; [now exists x|discriminate]).
  Qed.

  (** one option: the dict and its cash flow *)
  Lemma d_option_ok fuel flr (o : optp T D) (a : pmodel T D P) e : d_option fuel flr o a = Ok e ->
    exists x, option_cashflow fuel flr o a = Ok x /\ dget e KCashflow = Some (VNum x).
  Proof.
    destruct a as [s|m]; unfold d_option, option_cashflow.
    - destruct (src_truthy s); [discriminate|]. intros [= <-]. exists n0. now split.
    - set (val := if op_put o then _ else _). destruct val as [v|] eqn:V; [|discriminate]. cbn [bind].
      destruct (value_details _ _ _ _ _ _ _ V) as [x X].
      destruct (d_model_value _ _ _ _ _ _ X) as (e' & E & ND & C & _). rewrite E. cbn [bind]. intros [= <-].
      exists (op_amount o * v). split; [reflexivity|]. now rewrite dupdate_get, C by auto.
  Qed.
  Lemma d_option_err fuel flr (o : optp T D) (a : pmodel T D P) er :
    d_option fuel flr o a = Err er <-> option_cashflow fuel flr o a = Err er.
  Proof.
    destruct a as [s|m]; unfold d_option, option_cashflow.
    - destruct (src_truthy s); [|split; discriminate]. split; intros [= <-]; reflexivity.
    - set (val := if op_put o then _ else _). destruct val as [v|] eqn:V; cbn [bind]; [|split; intros [= <-]; reflexivity].
      destruct (value_details _ _ _ _ _ _ _ V) as [x X].
      destruct (d_model_value _ _ _ _ _ _ X) as (e' & E & _). rewrite E. cbn [bind]. split; discriminate.
  Qed.

  Lemma d_options_sum fuel flr (a : pmodel T D P) os : forall i d cf,
    match d_options fuel flr os a i d cf with
    | Ok x => exists vs, mapM (fun o => option_cashflow fuel flr o a) os = Ok vs /\
                         snd x = fold_left nadd vs cf
    | Err er => mapM (fun o => option_cashflow fuel flr o a) os = Err er
    end.
  Proof.
    induction os as [|o os IH]; intros i d cf; cbn [d_options mapM]; [now exists []|].
    destruct (d_option fuel flr o a) as [e|er] eqn:E; cbn [bind].
    - destruct (d_option_ok _ _ _ _ _ E) as (x & O & G). rewrite O, G. cbn [bind].
      specialize (IH (Datatypes.S i) (dupdate d (map (fun kv => (KNum i (fst kv), snd kv)) e)) (cf + x)).
      destruct (d_options _ _ _ _ _ _ _) as [y|].
      + destruct IH as (vs & M & S). rewrite M. cbn [bind]. exists (x :: vs). now split.
      + now rewrite IH.
    - apply d_option_err in E. now rewrite E.
  Qed.

  (** the entries of the options *)
  Lemma d_options_get fuel flr (a : pmodel T D P) os : forall i d cf x,
    d_options fuel flr os a i d cf = Ok x ->
    forall j o, nth_error os j = Some o -> exists e, d_option fuel flr o a = Ok e /\
      forall k, dget (fst x) (KNum (i + j) k) = match dget e k with Some v => Some v
                                               | None => dget d (KNum (i + j) k) end.
  Proof.
    assert (ND : forall (o : optp T D) e, d_option fuel flr o a = Ok e -> NoDup (map fst e)).
    { intros o e. destruct a as [s|m]; unfold d_option.
      - destruct (src_truthy s); [discriminate|]. intros [= <-]. cbn. repeat constructor; cbn; intuition discriminate.
      - set (val := if op_put o then _ else _). destruct val as [v|] eqn:V; [|discriminate]. cbn [bind].
        destruct (d_model _ _ _ _ _) as [e'|]; [|discriminate]. cbn [bind]. intros [= <-].
        assert (A : forall l (d : list (key * value T D P)), NoDup (map fst d) -> NoDup (map fst (dupdate d l))).
        { assert (B : forall d k (v : value T D P), NoDup (map fst d) -> NoDup (map fst (dset k v d))).
          { intros d k w. unfold dset. induction d as [|[p q] d IHd]; cbn; intros H; [repeat constructor; auto|].
            inversion_clear H as [|? ? NI H'].
            destruct (key_beq p k) eqn:Q; cbn; constructor; auto.
            intros I. apply NI. clear -I Q. induction d as [|[p' q'] d IH]; cbn in *.
            - destruct I as [<-|[]]. now rewrite key_beq_refl in Q.
            - destruct (key_beq p' k) eqn:G; cbn in I; [exact I|]. destruct I as [I|I]; auto. }
          unfold dupdate. induction l as [|[p q] l IHl]; intros d H; cbn; auto. }
        apply A. cbn. repeat constructor; cbn; intuition discriminate. }
    assert (INJ : forall i (e : list (key * value T D P)), NoDup (map fst e) ->
              NoDup (map fst (map (fun kv => (KNum i (fst kv), snd kv)) e))).
    { intros i e H. rewrite map_map. cbn. rewrite <- map_map with (g := KNum i).
      apply FinFun.Injective_map_NoDup; auto. intros p q E. now injection E. }
    assert (GET : forall i (e : list (key * value T D P)) j k,
              dget (map (fun kv => (KNum i (fst kv), snd kv)) e) (KNum j k) =
              if Nat.eqb i j then dget e k else None).
    { intros i e j k. unfold dget. destruct (Nat.eqb i j) eqn:Q.
      - apply Nat.eqb_eq in Q. subst j. induction e as [|[p q] e IHe]; [reflexivity|]. cbn [map assoc fst snd].
        replace (key_beq (KNum i p) (KNum i k)) with (key_beq p k).
        { destruct (key_beq p k); auto. }
        destruct (key_beq p k) eqn:Q; symmetry.
        + apply key_beq_eq in Q. subst. apply key_beq_refl.
        + apply key_beq_ne. intros [= ->]. now rewrite key_beq_refl in Q.
      - apply Nat.eqb_neq in Q. induction e as [|[p q] e IHe]; [reflexivity|]. cbn [map assoc fst snd].
        rewrite key_beq_ne by congruence. exact IHe. }
    induction os as [|o os IH]; intros i d cf x H j o' J; [now destruct j|].
    cbn [d_options] in H. destruct (d_option fuel flr o a) as [e|] eqn:E; [|discriminate]. cbn [bind] in H.
    destruct (dget e KCashflow) as [[y| | | | | ]|]; try discriminate. cbn [bind] in H.
    assert (KEEP : forall os i d cf x, d_options fuel flr os a i d cf = Ok x -> forall m k, (m < i)%nat ->
              dget (fst x) (KNum m k) = dget d (KNum m k)).
    { clear -GET ND INJ. induction os as [|o os IH]; intros i d cf x H m k L; cbn [d_options] in H.
      - now injection H as <-.
      - destruct (d_option fuel flr o a) as [e|] eqn:E; [|discriminate]. cbn [bind] in H.
        destruct (dget e KCashflow) as [[y| | | | | ]|]; try discriminate. cbn [bind] in H.
        rewrite (IH _ _ _ _ H) by lia. rewrite dupdate_get by (apply INJ; eauto).
        rewrite GET. now replace (Nat.eqb i m) with false by (symmetry; apply Nat.eqb_neq; lia). }
    destruct j as [|j]; cbn in J.
    - injection J as <-. exists e. split; [exact E|]. intros k.
      rewrite (KEEP _ _ _ _ _ H) by lia. rewrite dupdate_get by (apply INJ; eauto).
      rewrite GET. replace (i + 0)%nat with i by lia. now rewrite Nat.eqb_refl.
    - destruct (IH _ _ _ _ H j o' J) as (e' & E' & G). exists e'. split; [exact E'|].
      intros k. replace (i + Datatypes.S j)%nat with (Datatypes.S i + j)%nat by lia. rewrite G.
      rewrite dupdate_get by (apply INJ; eauto). rewrite GET.
      now replace (Nat.eqb i (Datatypes.S i + j)) with false by (symmetry; apply Nat.eqb_neq; lia).
  Qed.
  Lemma d_model_strike fuel flr (m : omodel T D P) d k k' e : d_model fuel flr m d k = Ok e ->
    exists e', d_model fuel flr m d k' = Ok e'.
  Proof.
    unfold d_model, om_details. destruct (fw_value _ _ _) as [f|]; [|discriminate]. cbn [bind].
    destruct (vo_value _ _ _ _) as [v|]; [|discriminate]. cbn [bind].
    destruct (om_time m d) as [t|]; [|discriminate]. cbn [bind]. intros _. eexists. reflexivity.
  Qed.
End Payoffs.

(** * Tables *)
Lemma mem_key k h : mem key_beq k h = true <-> In k h.
Proof.
  unfold mem. rewrite existsb_exists. split.
  - intros (x & I & E). apply key_beq_eq in E. now subst.
  - intros I. exists k. split; [exact I|apply key_beq_refl].
Qed.

Section Tables.
  Context {T D P : Type} {N : Num T} (DS : DateSys T D P) (DC : DayCounts T D).
  Notation dict := (list (key * value T D P)).

  Lemma extend_spec columns (e : dict) : forall h, NoDup h ->
    exists h', extend columns e h = h ++ h' /\ NoDup (h ++ h') /\ incl h' columns /\
      (forall k, In k h' -> dget e k <> None) /\
      (forall k, In k columns -> dget e k <> None -> In k (h ++ h')).
  Proof.
    unfold extend. induction columns as [|c columns IH]; intros h ND.
    - exists []. rewrite app_nil_r. repeat split; auto; intros k [].
    - cbn [fold_left].
      assert (KEEP : exists g, (match dget e c with
                      | Some _ => if mem key_beq c h then h else h ++ [c] | None => h end) = h ++ g /\
                      NoDup (h ++ g) /\ incl g [c] /\ (forall k, In k g -> dget e k <> None) /\
                      (dget e c <> None -> In c (h ++ g))).
      { destruct (dget e c) eqn:E.
        - destruct (mem key_beq c h) eqn:M.
          + exists []. rewrite app_nil_r. apply mem_key in M. repeat split; auto; intros k [].
          + exists [c]. assert (NI : ~ In c h) by (intros I; apply mem_key in I; congruence).
            repeat split; auto using incl_refl.
            * apply NoDup_rev in ND. rewrite <- (rev_involutive (h ++ [c])). apply NoDup_rev. rewrite rev_app_distr.
              cbn. constructor; auto. intros I. apply NI. now apply in_rev.
            * intros k [<-|[]]. congruence.
            * intros _. apply in_or_app. right. now left.
        - exists []. rewrite app_nil_r. repeat split; auto; try easy; intros k []. }
      destruct KEEP as (g & EQ & ND' & I & G & C). rewrite EQ.
      destruct (IH (h ++ g) ND') as (h' & E' & ND2 & I2 & G2 & C2).
      exists (g ++ h'). rewrite app_assoc. split; [exact E'|]. split; [exact ND2|]. split; [|split].
      + intros k K. apply in_app_or in K. destruct K as [K|K]; [destruct (I k K) as [<-|[]]; now left|right; auto].
      + intros k K. apply in_app_or in K. destruct K; auto.
      + intros k [<-|K] X; [|auto]. apply in_or_app. left. auto.
  Qed.

  (** all columns are there *)
  Lemma extend_all columns (e : dict) : forall h, NoDup (h ++ columns) ->
    (forall k, In k columns -> dget e k <> None) -> extend columns e h = h ++ columns.
  Proof.
    unfold extend. induction columns as [|c columns IH]; intros h ND A; cbn [fold_left]; [now rewrite app_nil_r|].
    destruct (dget e c) eqn:G; [|now destruct (A c (or_introl eq_refl))].
    destruct (mem key_beq c h) eqn:M.
    { apply mem_key in M. apply NoDup_remove_2 in ND. destruct ND. apply in_or_app. now left. }
    rewrite IH; [now rewrite <- app_assoc| |intros k I; apply A; now right].
    now rewrite <- app_assoc.
  Qed.
  Lemma row_nth (e : dict) h j k : nth_error h j = Some k ->
    nth_error (row e h) j = Some (match dget e k with Some v => v | None => VEmpty end).
  Proof. intros H. unfold row. now rewrite (map_nth_error _ j h H). Qed.

  Lemma rows_spec fuel flr (l : cflist T D P) columns ds : forall h h2 rs, NoDup h ->
    rows fuel flr l columns ds h = Ok (h2, rs) ->
    length rs = length ds /\ NoDup h2 /\ (exists g, h2 = h ++ g /\ incl g columns) /\
    forall i d r, nth_error ds i = Some d -> nth_error rs i = Some r ->
      exists e h1 g, row_dict fuel flr l d = Ok e /\ h2 = h1 ++ g /\ r = row e h1 /\
        (forall k, In k columns -> dget e k <> None -> In k h1) /\
        (forall k, In k h -> In k h1).
  Proof.
    induction ds as [|d ds IH]; intros h h2 rs ND H; cbn [rows] in H.
    - injection H as <- <-. split; [reflexivity|]. split; [exact ND|]. split.
      + exists []. rewrite app_nil_r. split; [reflexivity|]. intros k [].
      + intros [|i] d r; discriminate.
    - destruct (row_dict fuel flr l d) as [e|] eqn:E; [|discriminate]. cbn [bind] in H.
      destruct (extend_spec columns e h ND) as (g & EX & ND1 & I1 & _ & C1). rewrite EX in H.
      destruct (rows fuel flr l columns ds (h ++ g)) as [[h3 rs']|] eqn:Q; [|discriminate]. cbn [bind fst snd] in H.
      injection H as <- <-. destruct (IH _ _ _ ND1 Q) as (LEN & ND2 & (g2 & EG & IG) & ROW).
      split; [cbn; congruence|]. split; [exact ND2|]. split.
      + exists (g ++ g2). rewrite app_assoc. split; [exact EG|]. apply incl_app; auto.
      + intros [|i] d' r A B; cbn in A, B.
        * injection A as <-. injection B as <-. exists e, (h ++ g), g2. repeat split; auto.
          intros k K. apply in_or_app. now left.
        * destruct (ROW i d' r A B) as (e' & h1 & g1 & R1 & R2 & R3 & R4 & R5). exists e', h1, g1.
          repeat split; auto. intros k K. apply R5. apply in_or_app. now left.
  Qed.
End Tables.
