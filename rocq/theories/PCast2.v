(** Property C87: a curve cast to another class quotes, on the grid of the curve cast, the
    rates of that curve (dcf/curves/curve.py:693-746, interestratecurve.py:361-415,
    creditcurve.py:41-53, 141-162, 272-340, volatilitycurve.py:35-95). *)
From Coq Require Import Reals Lra Lia List Bool ZArith.
From Verif Require Import Num Py Spec SInterpolation SCurve SDates SRateCurve SCast LBase LCompounding MCompounding MInterpolation MDates
  MCurve MRateCurve LDates LFuel LCurve LDateCurve LRateCurve LRateCurve2 LRateCurve3 LRateCurve4 LCredit LCivil LCast LCast2 LPricer.
Import ListNotations.
Open Scope R_scope.

#[local] Instance no_registry2 {D} : DayCounts R D := [].

(** ShortRateCurve(src): the same grid and the same short rates on it *)
Theorem C87_to_short_rate : forall {D P} (DS : DateSys R D P) (tm : D -> R) (DC : DayCounts R D),
  DateLaws DS tm -> forall (src : rcurve R D P) o tau fuel flr, castable src o tau ->
  is_interest (rc_cls src) = true -> NoDup (map tm (rc_domain src)) ->
  (forall x, In x (rc_domain src) -> exists r, get_short_rate fuel src x = Ok r) ->
  exists c, rc_cast fuel flr CShortRate src None None DcDefault None = Ok c /\
    rc_cls c = CShortRate /\ same_time c src /\ rc_domain c = rc_domain src /\
    forall x n, In x (rc_domain src) -> get_short_rate (S n) c x = get_short_rate fuel src x.
Proof.
  intros D P DS tm DC L src o tau fuel flr C I ND HV.
  destruct (stored_on (L:=L) src o tau C CShortRate fuel flr (rc_domain src) None o None) as [c [E [B V]]]; auto.
  { unfold prob_cls. intuition discriminate. } { apply (ca_domain _ _ _ C). } { exact (ca_origin _ _ _ C). }
  { intros x Ix. destruct (HV x Ix) as [r Er]. exists r. split; auto. unfold marginal_cls. intuition discriminate. }
  destruct B as [B1 [B2 [B3 [B4 _]]]]. exists c. split; [exact E|]. split; auto. split; [|split; auto].
  - split; [now rewrite B3, (ca_origin _ _ _ C)|exact B4].
  - intros x n Ix. unfold get_short_rate at 1, interest_only. rewrite B1. cbn [is_interest short_rate]. rewrite B1. exact (V x Ix).
Qed.
Print Assumptions C87_to_short_rate.

(** HazardRateCurve(src): the same hazard rates on the grid of src *)
Theorem C87_to_hazard_rate : forall {D P} (DS : DateSys R D P) (tm : D -> R) (DC : DayCounts R D),
  DateLaws DS tm -> forall (src : rcurve R D P) o tau fuel flr, castable src o tau ->
  (dc_origin0 (rc_dc src) = Some o \/ forall x, In x (rc_domain src) -> d_leb o x = true) ->
  is_credit (rc_cls src) = true -> NoDup (map tm (rc_domain src)) -> steps (p_str (DateSys:=DS) Tyear) ->
  (forall x, looked_up src o (p_str Tyear) x -> exists r, get_hazard_rate fuel src x = Ok r) ->
  by_date (get_hazard_rate fuel src) ->
  exists c, rc_cast fuel flr CHazard src None None DcDefault None = Ok c /\
    rc_cls c = CHazard /\ same_time c src /\
    forall x n, In x (rc_domain src) -> get_hazard_rate (S n) c x = get_hazard_rate fuel src x.
Proof.
  intros D P DS tm DC L src o tau fuel flr C HO I ND S1 HV BD.
  destruct (d_max_ok (L:=L) (rc_domain src) (ca_domain _ _ _ C)) as [hi [HM [Ih Hh]]].
  destruct (S1 hi) as [hi' [H2 [LT _]]]. apply ltb_inv in LT.
  set (l := rc_domain src ++ [hi']).
  assert (NDl : NoDup (map tm l)).
  { unfold l. rewrite map_app. apply (Permutation.Permutation_NoDup (l:=tm hi' :: map tm (rc_domain src))).
    - apply Permutation.Permutation_cons_append.
    - constructor; auto. intro Q. apply in_map_iff in Q. destruct Q as [z [Ez Iz]]. pose proof (Hh z Iz). lra. }
  assert (OR : dom_origin (dc_origin0 (rc_dc src)) (date_set l) = Some o).
  { pose proof (ca_origin _ _ _ C) as O. unfold rc_origin, dc_origin, dom_origin in *.
    destruct (dc_origin0 (rc_dc src)) as [o'|]; auto. destruct HO as [HO|HO]; [discriminate|].
    change (dc_domain (rc_dc src)) with (rc_domain src) in O.
    assert (In o (rc_domain src)) as Io by (destruct (rc_domain src); inversion O; simpl; auto).
    apply (date_set_head (L:=L)); auto; [apply in_or_app; auto|].
    intros x Ix. apply in_app_or in Ix. destruct Ix as [Ix|[<-|[]]]; [apply leb_inv; auto|].
    pose proof (Hh o Io). lra. }
  destruct (stored_set (L:=L) src o tau C CHazard fuel flr l None o None) as [c [E [B V]]]; auto.
  { unfold prob_cls. intuition discriminate. } { intro E'. apply app_eq_nil in E'. destruct E'; discriminate. }
  { intros x Ix. destruct (HV x) as [r Er].
    - apply in_app_or in Ix. unfold looked_up. destruct Ix as [Ix|[<-|[]]]; auto. right; right; eauto.
    - exists r. split; auto. unfold marginal_cls. intuition discriminate. }
  { intros x y _ _ Exy. exact (BD x y Exy). }
  destruct B as [B1 [B2 [B3 [B4 _]]]]. exists c. split; [|split; [auto|split]].
  - unfold rc_cast. rewrite HM. cbn [bind]. rewrite H2. cbn [bind]. exact E.
  - split; [now rewrite B3, (ca_origin _ _ _ C)|exact B4].
  - intros x n Ix. unfold get_hazard_rate at 1, credit_only. rewrite B1. cbn [is_credit is_interest is_vol negb andb short_rate]. rewrite B1.
    apply V. apply in_or_app; auto.
Qed.
Print Assumptions C87_to_hazard_rate.

(** CashRateCurve(src): whenever the cast returns, the forward tenor of src and the same
    cash rates over it on the grid of src *)
Theorem C87_to_cash_rate : forall {D P} (DS : DateSys R D P) (tm : D -> R) (DC : DayCounts R D),
  DateLaws DS tm -> forall (src : rcurve R D P) o tau fuel flr c, castable src o tau -> solid_origin src o ->
  is_interest (rc_cls src) = true -> by_date (fun x => get_cash_rate fuel src x None None) ->
  rc_cast fuel flr CCashRate src None None DcDefault None = Ok c ->
  rc_cls c = CCashRate /\ same_time c src /\ rc_tenor c = rc_tenor src /\
  forall x n, In x (rc_domain src) ->
    (exists r, get_cash_rate fuel src x None None = Ok r) /\
    get_cash_rate (S n) c x None None = get_cash_rate fuel src x None None.
Proof.
  intros D P DS tm DC L src o tau fuel flr c C SO I BD H.
  destruct (cash_stored (L:=L) src o tau C fuel flr None c SO BD H) as [B1 [T [RT [V _]]]].
  split; auto. split; auto. split; auto. intros x n Ix. destruct (V x) as [r [Er Vr]].
  { now left. }
  split; [eauto|]. rewrite Er. unfold get_cash_rate, interest_only. rewrite B1. cbn [is_interest].
  assert (exists e, d_add x (rc_tenor src) = Ok e) as [e Ee].
  { unfold get_cash_rate, interest_only in Er. rewrite I in Er. destruct fuel as [|f]; [discriminate|]. cbn [cash_rate bind] in Er.
    destruct (d_add x (rc_tenor src)); [eauto|discriminate]. }
  cbn [cash_rate bind]. rewrite B1, RT, Ee. cbn [bind]. rewrite (eqb_refl (L:=L)). exact Vr.
Qed.
Print Assumptions C87_to_cash_rate.

(** REFUTED for a forward tenor given in the call: CashRateCurve(src, forward_tenor=p) has
    the tenor p, but quotes the cash rates of src over the tenor of src *)
Theorem C87_given_tenor_refuted : forall {D P} (DS : DateSys R D P) (tm : D -> R) (DC : DayCounts R D),
  DateLaws DS tm -> forall (src : rcurve R D P) o tau fuel flr p c, castable src o tau -> solid_origin src o ->
  is_interest (rc_cls src) = true -> by_date (fun x => get_cash_rate fuel src x None None) ->
  rc_cast fuel flr CCashRate src None None DcDefault (Some p) = Ok c ->
  rc_cls c = CCashRate /\ rc_tenor c = p /\
  forall x e n, In x (rc_domain src) -> d_add x p = Ok e ->
    get_cash_rate (S n) c x None None = get_cash_rate fuel src x None None /\
    get_cash_rate (S n) c x None (Some p) = get_cash_rate fuel src x None None.
Proof.
  intros D P DS tm DC L src o tau fuel flr p c C SO I BD H.
  destruct (cash_stored (L:=L) src o tau C fuel flr (Some p) c SO BD H) as [B1 [T [RT [V _]]]].
  split; auto. split; auto. intros x e n Ix Ee. destruct (V x) as [r [Er Vr]]; [now left|].
  rewrite Er. unfold get_cash_rate, interest_only. rewrite B1. cbn [is_interest].
  split; cbn [cash_rate bind]; rewrite ?B1, ?RT, ?Ee; cbn [bind]; rewrite ?B1, ?RT, ?Ee; cbn [bind]; rewrite (eqb_refl (L:=L)); exact Vr.
Qed.
Print Assumptions C87_given_tenor_refuted.

(** MarginalSurvivalProbabilityCurve(src), MarginalDefaultProbabilityCurve(src): the new
    curve holds the survival probabilities of src over the tenor of src ... *)
Theorem C87_to_marginal : forall {D P} (DS : DateSys R D P) (tm : D -> R) (DC : DayCounts R D),
  DateLaws DS tm -> forall (src : rcurve R D P) o tau k fuel flr, castable src o tau -> solid_origin src o ->
  k = CMargSurvival \/ k = CMargDefault ->
  is_credit (rc_cls src) = true -> steps (p_str (DateSys:=DS) Tday) -> steps (p_str (DateSys:=DS) Tyear) ->
  steps (rc_tenor src) ->
  (forall x e, looked_up src o (p_str Tyear) x -> d_add x (rc_tenor src) = Ok e ->
     exists y, get_survival_prob fuel src x e = Ok y /\ 2 * / IZR (2 ^ 1022) <= y) ->
  (forall a b e e', d_eqb a b = true -> d_eqb e e' = true -> get_survival_prob fuel src a e = get_survival_prob fuel src b e') ->
  exists c, rc_cast fuel flr k src None None DcDefault None = Ok c /\
    rc_cls c = k /\ same_time c src /\ rc_tenor c = p_str Tyear /\
    forall x e, In x (rc_domain src) -> d_add x (rc_tenor src) = Ok e ->
      rc_call c x = get_survival_prob fuel src x e /\
      (* ... and returns them for its own tenor, one year *)
      forall e' n, d_add x (p_str Tyear) = Ok e' -> get_survival_prob (S (S n)) c x e' = get_survival_prob fuel src x e.
Proof.
  intros D P DS tm DC L src o tau k fuel flr C SO K I S1 S2 S3 HV BD.
  destruct (S1 o) as [o1 [H1 _]]. destruct (d_max_ok (L:=L) (rc_domain src) (ca_domain _ _ _ C)) as [hi [HM [Ih _]]].
  destruct (S2 hi) as [hi' [H2 _]].
  set (l := rc_domain src ++ [o1; hi']).
  assert (OO : origin_or (Some o) (dc_origin0 (rc_dc src)) = Some o).
  { cbn [origin_or]. destruct SO as [-> | ->]; auto. destruct (d_truthy o); auto. }
  assert (FM : 0 < / IZR (2 ^ 1022)) by (apply Rinv_0_lt_compat, IZR_lt; reflexivity).
  assert (SV : forall x e, d_add x (rc_tenor src) = Ok e -> storage_value fuel flr k src x = get_survival_prob fuel src x e).
  { intros x e E. destruct K as [-> | ->]; cbn [storage_value]; rewrite E; reflexivity. }
  assert (LU : forall x, In x l -> looked_up src o (p_str Tyear) x).
  { intros x Ix. apply in_app_or in Ix. unfold looked_up. destruct Ix as [Ix|[<-|[<-|[]]]]; auto. right; right; eauto. }
  destruct (stored_set (L:=L) src o tau C k fuel flr l (Some o) o None) as [c [E [B V]]]; auto.
  { unfold prob_cls. destruct K as [-> | ->]; intuition discriminate. }
  { intro E'. apply app_eq_nil in E'. destruct E'; discriminate. }
  { rewrite OO. reflexivity. }
  { intros x Ix. destruct (S3 x) as [e [Ee _]]. rewrite (SV x e Ee). destruct (HV x e (LU x Ix) Ee) as [y [Ey Py]].
    exists y. split; auto. intros _. lra. }
  { intros x y _ _ Exy. destruct (S3 x) as [e [Ee [_ Q]]]. destruct (Q y Exy) as [e' [Ee' Q']].
    rewrite (SV x e Ee), (SV y e' Ee'). now apply BD. }
  destruct B as [B1 [B2 [B3 [B4 [B5 [B6 [B7 [B8 [B9 B10]]]]]]]]].
  assert (RT : rc_tenor c = p_str Tyear).
  { unfold rc_tenor. rewrite B7, B1. destruct K as [-> | ->]; reflexivity. }
  exists c. split; [|split; [auto|split; [|split; [auto|]]]].
  - unfold rc_cast. cbv zeta. rewrite (ca_origin _ _ _ C).
    destruct K as [-> | ->]; rewrite H1; cbn [bind]; rewrite HM; cbn [bind]; rewrite H2; exact E.
  - split; [now rewrite B3, (ca_origin _ _ _ C)|exact B4].
  - intros x e Ix Ee. assert (Il : In x l) by (apply in_or_app; auto).
    destruct (HV x e (LU x Il) Ee) as [y [Ey Py]].
    assert (Vx : rc_call c x = Ok y) by (now rewrite (V x Il), (SV x e Ee)).
    split; [congruence|]. intros e' n E'. rewrite Ey.
    destruct (S2 x) as [e'' [E'' [LT _]]]. rewrite E' in E''. inversion E''; subst e''. apply ltb_inv in LT.
    unfold get_survival_prob, credit_only. rewrite B1.
    replace (is_credit k) with true by (destruct K as [-> | ->]; reflexivity).
    pose proof (marg_factor (L:=L) c tau B10 (S (S n)) 0 (fun i => match i with O => x | _ => e' end) e' (fun _ => y)) as G.
    cbv beta iota in G. rewrite G; auto; try lia.
    + f_equal. unfold marg_prod, prod_n. cbn. rewrite Rmult_1_l.
      replace (tau x e' / tau x e') with 1; [apply Rpower_1; lra|]. symmetry. apply Rinv_r. apply (tau_ne c tau B10). apply eqb_f. lra.
    + rewrite B1. destruct K; auto.
    + intros i Hi. replace i with 0%nat by lia. rewrite RT. split; auto. now apply ltb_t.
    + split; lra.
    + intros i Hi. replace i with 0%nat by lia. exact Vx.
Qed.
Print Assumptions C87_to_marginal.

(** TerminalVolatilityCurve(src): the same terminal volatilities on the grid of src *)
Theorem C87_to_terminal_vol : forall {D P} (DS : DateSys R D P) (tm : D -> R) (DC : DayCounts R D),
  DateLaws DS tm -> forall (src : rcurve R D P) o tau fuel flr, castable src o tau -> solid_origin src o ->
  steps (p_str (DateSys:=DS) Tday) -> steps (p_str (DateSys:=DS) T10years) ->
  (forall x, looked_up src o (p_str T10years) x -> exists v, terminal_vol fuel flr src x None = Ok v) ->
  by_date (fun x => terminal_vol fuel flr src x None) ->
  exists c, rc_cast fuel flr CTermVol src None None DcDefault None = Ok c /\
    rc_cls c = CTermVol /\ same_time c src /\
    forall x n flr', In x (rc_domain src) -> terminal_vol (S n) flr' c x None = terminal_vol fuel flr src x None.
Proof.
  intros D P DS tm DC L src o tau fuel flr C SO S1 S2 HV BD.
  destruct (S1 o) as [o1 [H1 _]]. destruct (d_max_ok (L:=L) (rc_domain src) (ca_domain _ _ _ C)) as [hi [HM [Ih _]]].
  destruct (S2 hi) as [hi' [H2 _]].
  set (l := rc_domain src ++ [o1; hi']).
  assert (OO : origin_or (Some o) (dc_origin0 (rc_dc src)) = Some o).
  { cbn [origin_or]. destruct SO as [-> | ->]; auto. destruct (d_truthy o); auto. }
  destruct (stored_set (L:=L) src o tau C CTermVol fuel flr l (Some o) o None) as [c [E [B V]]]; auto.
  { unfold prob_cls. intuition discriminate. }
  { intro E'. apply app_eq_nil in E'. destruct E'; discriminate. }
  { rewrite OO. reflexivity. }
  { intros x Ix. destruct (HV x) as [v Ev].
    - apply in_app_or in Ix. unfold looked_up. destruct Ix as [Ix|[<-|[<-|[]]]]; auto. right; right; eauto.
    - exists v. split; auto. unfold marginal_cls. intuition discriminate. }
  { intros x y _ _ Exy. exact (BD x y Exy). }
  destruct B as [B1 [B2 [B3 [B4 _]]]]. exists c. split; [|split; [auto|split]].
  - unfold rc_cast. cbv zeta. rewrite (ca_origin _ _ _ C), H1. cbn [bind]. rewrite HM. cbn [bind]. rewrite H2. exact E.
  - split; [now rewrite B3, (ca_origin _ _ _ C)|exact B4].
  - intros x n flr' Ix. cbn [terminal_vol]. rewrite B1. apply V. apply in_or_app; auto.
Qed.
Print Assumptions C87_to_terminal_vol.

(** InstantaneousVolatilityCurve(src): the same instantaneous volatilities on the grid of
    src, at its origin, and one day before and after *)
Theorem C87_to_instantaneous_vol : forall {D P} (DS : DateSys R D P) (tm : D -> R) (DC : DayCounts R D),
  DateLaws DS tm -> forall (src : rcurve R D P) o tau fuel flr, castable src o tau -> solid_origin src o ->
  let near d x := x = d \/ d_sub d (p_str Tday) = Ok x \/ d_add d (p_str Tday) = Ok x in
  (forall d, exists a b, d_sub d (p_str (DateSys:=DS) Tday) = Ok a /\ d_add d (p_str Tday) = Ok b) ->
  (forall d x, d = o \/ In d (rc_domain src) -> near d x -> exists v, instantaneous_vol fuel flr src x = Ok v) ->
  by_date (instantaneous_vol fuel flr src) ->
  exists c, rc_cast fuel flr CInstVol src None None DcDefault None = Ok c /\
    rc_cls c = CInstVol /\ same_time c src /\
    forall d x n flr', d = o \/ In d (rc_domain src) -> near d x ->
      instantaneous_vol n flr' c x = instantaneous_vol fuel flr src x.
Proof.
  intros D P DS tm DC L src o tau fuel flr C SO near S1 HV BD.
  set (f := fun d => a <- d_sub d (p_str Tday) ;; b <- d_add d (p_str Tday) ;; Ok [a; d; b]).
  assert (HF : forall d, exists r, f d = Ok r /\ forall x, In x r <-> near d x).
  { intro d. destruct (S1 d) as [a [b [Ea Eb]]]. exists [a; d; b]. unfold f. rewrite Ea. cbn [bind]. rewrite Eb. split; auto.
    intro x. unfold near. rewrite Ea, Eb. simpl. split.
    - intros [-> | [-> | [-> | []]]]; auto.
    - intros [-> | [Q | Q]]; auto; inversion Q; auto. }
  destruct (mapM_total f (rc_domain src ++ [o])) as [ls EL]. { intros x _. destruct (HF x) as [r [Er _]]. eauto. }
  set (l := List.concat ls).
  assert (IL : forall x, In x l <-> exists d, (d = o \/ In d (rc_domain src)) /\ near d x).
  { intro x. assert (In x l <-> exists d, In d (rc_domain src ++ [o]) /\ near d x) as ->.
    { unfold l. apply mapM_inv in EL. clear - EL HF. induction EL as [|d r ds rs Hd _ IH]; simpl.
      - split; [intros []|intros [d [[] _]]].
      - destruct (HF d) as [r' [Er Hr]]. rewrite Hd in Er. inversion Er; subst r'. rewrite in_app_iff, IH, Hr. split.
        + intros [H|[d' [H1 H2]]]; eauto.
        + intros [d' [[<-|H1] H2]]; eauto. }
    split; intros [d [Hd Hx]]; exists d; split; auto.
    - apply in_app_or in Hd. destruct Hd as [Hd|[Hd|[]]]; auto.
    - apply in_or_app. simpl. destruct Hd as [->|Hd]; auto. }
  assert (OO : origin_or (Some o) (dc_origin0 (rc_dc src)) = Some o).
  { cbn [origin_or]. destruct SO as [-> | ->]; auto. destruct (d_truthy o); auto. }
  destruct (stored_set (L:=L) src o tau C CInstVol fuel flr l (Some o) o None) as [c [E [B V]]]; auto.
  { unfold prob_cls. intuition discriminate. }
  { intro E'. assert (In o []) as []. rewrite <- E'. apply IL. exists o. split; auto. left. reflexivity. }
  { rewrite OO. reflexivity. }
  { intros x Ix. apply IL in Ix. destruct Ix as [d [Hd Hx]]. destruct (HV d x Hd Hx) as [v Ev].
    exists v. split; auto. unfold marginal_cls. intuition discriminate. }
  { intros x y _ _ Exy. exact (BD x y Exy). }
  destruct B as [B1 [B2 [B3 [B4 _]]]]. exists c. split; [|split; [auto|split]].
  - unfold rc_cast. cbv zeta. rewrite (ca_origin _ _ _ C). fold f. rewrite EL. cbn [bind]. exact E.
  - split; [now rewrite B3, (ca_origin _ _ _ C)|exact B4].
  - intros d x n flr' Hd Hx. unfold instantaneous_vol at 1. rewrite B1. apply V. apply IL. eauto.
Qed.
Print Assumptions C87_to_instantaneous_vol.

(** REFUTED for the forward tenor, which the documentation says is taken over: every class
    but CashRateCurve gets the default one *)
Theorem C87_tenor_refuted : forall {D P} (DS : DateSys R D P) (DC : DayCounts R D)
  (src c : rcurve R D P) fuel flr k i orig s, k <> CCashRate ->
  rc_cast fuel flr k src i orig s None = Ok c ->
  rc_tenor c = p_str (if is_credit k then Tyear else T3months).
Proof.
  intros D P DS DC src c fuel flr k i orig s K H.
  assert (G : forall ds o', rc_cast_on fuel flr k ds src i o' s None = Ok c -> rc_tenor c = p_str (if is_credit k then Tyear else T3months)).
  { intros ds o' E. unfold rc_cast_on in E. destruct (mapM (storage_value fuel flr k src) ds); [|discriminate]. cbn [bind] in E.
    destruct (mapM (rc_call src) (rc_domain src)); [|discriminate]. cbn [bind] in E.
    destruct (dc_new _ _ _ _ _ _); [|discriminate]. cbn [bind] in E. inversion E; subst. reflexivity. }
  unfold rc_cast in H. destruct k; cbv zeta in H; try congruence; try (eapply G; exact H; fail);
    repeat match type of H with
        | match match ?a with _ => _ end with _ => _ end = _ => destruct (match a with Some _ => orig | None => rc_origin src end) as [o|] eqn:Eo; [|discriminate H]
        | bind (d_max ?l) _ = _ => let E := fresh "EM" in destruct (d_max l) eqn:E; cbn [bind] in H; [|discriminate H]
        | bind (d_add ?a ?p) _ = _ => let E := fresh "EA" in destruct (d_add a p) eqn:E; cbn [bind] in H; [|discriminate H]
        | bind (mapM ?f ?l) _ = _ => let E := fresh "EL" in destruct (mapM f l) eqn:E; cbn [bind] in H; [|discriminate H]
    end; eapply G; exact H.
Qed.
Print Assumptions C87_tenor_refuted.

(** on days: zero rates 10% and 20% become short rates; intensities become hazard rates *)
Notation tauD := (fun a b : bdate => IZR (bd_day b) / (1461 / 4) - IZR (bd_day a) / (1461 / 4)).
Example C87_short_and_hazard_instance : forall k, k = CZeroRate \/ k = CFlatIntensity -> exists z c : rcurve R bdate bperiod,
  rc_new (DS:=DayDates) k [BD 0 3; BD 365 1; BD 730 2] [0; 1 / 10; 2 / 10] None (Some (BD 0 3)) DcDefault None = Ok z /\
  rc_cast (DS:=DayDates) 5 None (if is_interest k then CShortRate else CHazard) z None None DcDefault None = Ok c /\
  (k = CZeroRate -> forall x, In x [BD 0 3; BD 365 1; BD 730 2] -> get_short_rate (DS:=DayDates) 5 c x = get_short_rate (DS:=DayDates) 5 z x) /\
  (k = CFlatIntensity -> forall x, In x [BD 0 3; BD 365 1; BD 730 2] -> get_hazard_rate (DS:=DayDates) 5 c x = get_hazard_rate (DS:=DayDates) 5 z x).
Proof.
  intros k HK.
  destruct (rc_new_linear (L:=day_laws) DcDefault _ (default_additive (L:=day_laws)) k [BD 0 3; BD 365 1; BD 730 2] [0; 1 / 10; 2 / 10] (Some (BD 0 3)) (BD 0 3) None)
    as [z [E [B [V V']]]]; auto.
  { destruct HK as [-> | ->]; reflexivity. } { cbn. repeat constructor; simpl; intuition lra. } { discriminate. }
  destruct B as [B1 [B2 [B3 [B4 [B5 [B6 [B7 [B8 [B9 B10]]]]]]]]].
  assert (VA : forall x, exists v, has_value (DS:=DayDates) z x v).
  { intro x. destruct (V' x) as [v [Ev _]]. exists v. exact Ev. }
  assert (C : castable (DS:=DayDates) z (BD 0 3) tauD).
  { constructor; auto. { rewrite B2. discriminate. } { intros n f. rewrite B6. discriminate. } }
  assert (RT : forall n s t, d_eqb (DateSys:=DayDates) s t = false -> exists r, rate (DS:=DayDates) (S n) z s t = Ok r).
  { intros n s t NE. destruct (VA s) as [vs Hs], (VA t) as [vt Ht]. eexists.
    apply (flat_rate (L:=day_laws) z (BD 0 3) tauD B3 B10 n s t vs vt); auto. rewrite B1. unfold flat_cls. tauto. }
  assert (SR : forall x, exists r, short_rate (DS:=DayDates) 5 z x = Ok r).
  { assert (G : forall n x, (0 <= bd_day x < 730)%Z -> exists r, short_rate (DS:=DayDates) (S (S n)) z x = Ok r).
    { intros n x Hx.
      replace (short_rate (DS:=DayDates) (S (S n)) z x) with
        (rate (DS:=DayDates) (S n) z (if (bd_day x <? 365)%Z then BD 0 3 else BD 365 1) (if (bd_day x <? 365)%Z then BD 365 1 else BD 730 2)).
      - destruct (bd_day x <? 365)%Z; apply RT; reflexivity.
      - rewrite (short_rate_S (DS:=DayDates)), B1, B2. generalize (short_rate (DS:=DayDates) (S n) z) (rate (DS:=DayDates) (S n) z). intros sr rt.
        destruct x as [x id]. cbn [bd_day] in *.
        assert (W : forall k' (a : res R) (b : res R), (k' = CZeroRate \/ k' = CFlatIntensity) -> match k' with CShortRate | CHazard => a | _ => b end = b)
          by (intros k' a b [-> | ->]; reflexivity).
        rewrite W by auto. cbn.
        replace (x <? 0)%Z with false by (symmetry; apply Z.ltb_ge; lia). replace (0 <=? x)%Z with true by (symmetry; apply Z.leb_le; lia).
        replace (730 <=? x)%Z with false by (symmetry; apply Z.leb_gt; lia). replace (x <? 730)%Z with true by (symmetry; apply Z.ltb_lt; lia).
        destruct (x <? 365)%Z eqn:Q.
        + replace (365 <=? x)%Z with false by (symmetry; apply Z.leb_gt; apply Z.ltb_lt in Q; lia). cbn.
          replace (0 <=? x)%Z with true by (symmetry; apply Z.leb_le; lia).
          replace (x <=? 365)%Z with true by (symmetry; apply Z.leb_le; apply Z.ltb_lt in Q; lia). reflexivity.
        + replace (365 <=? x)%Z with true by (symmetry; apply Z.leb_le; apply Z.ltb_ge in Q; lia). cbn.
          replace (365 <=? x)%Z with true by (symmetry; apply Z.leb_le; apply Z.ltb_ge in Q; lia).
          replace (x <=? 730)%Z with true by (symmetry; apply Z.leb_le; lia). reflexivity. }
    intro x. destruct (Z_lt_ge_dec (bd_day x) 0) as [H|H]; [|destruct (Z_lt_ge_dec (bd_day x) 730) as [H'|H'];[apply G; lia|]].
    - replace (short_rate (DS:=DayDates) 5 z x) with (short_rate (DS:=DayDates) 4 z (BD 0 3)); [apply G; cbn; lia|].
      symmetry. rewrite (short_rate_S (DS:=DayDates)), B1, B2.
      generalize (short_rate (DS:=DayDates) 4 z) (rate (DS:=DayDates) 4 z) (rc_call (DS:=DayDates) z x). intros sr rt rv.
      destruct HK as [-> | ->]; cbn; (replace (bd_day x <? 0)%Z with true by (symmetry; apply Z.ltb_lt; lia)); reflexivity.
    - replace (short_rate (DS:=DayDates) 5 z x) with (short_rate (DS:=DayDates) 4 z (BD 729 0)); [apply G; cbn; lia|].
      symmetry. rewrite (short_rate_S (DS:=DayDates)), B1, B2.
      generalize (short_rate (DS:=DayDates) 4 z) (rate (DS:=DayDates) 4 z) (rc_call (DS:=DayDates) z x). intros sr rt rv.
      destruct HK as [-> | ->]; cbn; (replace (bd_day x <? 0)%Z with false by (symmetry; apply Z.ltb_ge; lia));
        (replace (730 <=? bd_day x)%Z with true by (symmetry; apply Z.leb_le; lia)); reflexivity. }
  assert (BYD : by_date (DS:=DayDates) (short_rate (DS:=DayDates) 5 z)).
  { intros a b Q. cbn in Q. apply Z.eqb_eq in Q. rewrite !(short_rate_S (DS:=DayDates)), B1, B2.
    generalize (short_rate (DS:=DayDates) 4 z) (rate (DS:=DayDates) 4 z) (rc_call (DS:=DayDates) z a) (rc_call (DS:=DayDates) z b). intros sr rt va vb.
    destruct HK as [-> | ->]; cbn; rewrite Q; reflexivity. }
  destruct HK as [-> | ->].
  - destruct (C87_to_short_rate DayDates _ no_registry2 day_laws z (BD 0 3) tauD 5 None C) as [c [Ec [_ [_ [_ Hc]]]]].
    + now rewrite B1.
    + rewrite B2. cbn. repeat constructor; simpl; intuition lra.
    + intros x _. unfold get_short_rate, interest_only. rewrite B1. apply SR.
    + exists z, c. split; auto. split; auto. split; [|discriminate]. intros _ x Ix. apply Hc. now rewrite B2.
  - destruct (C87_to_hazard_rate DayDates _ no_registry2 day_laws z (BD 0 3) tauD 5 None C) as [c [Ec [_ [_ Hc]]]].
    + left. auto.
    + now rewrite B1.
    + rewrite B2. cbn. repeat constructor; simpl; intuition lra.
    + apply tenor_steps.
    + intros x _. unfold get_hazard_rate, credit_only. rewrite B1. apply SR.
    + intros a b Q. unfold get_hazard_rate, credit_only. rewrite B1. now apply BYD.
    + exists z, c. split; auto. split; auto. split; [discriminate|]. intros _ x Ix. apply Hc. now rewrite B2.
Qed.

(** a flat intensity of 10% with a tenor of two years: the marginal curve takes the
    probability to survive two years for that to survive one *)
Example C87_marginal_instance : exists z c : rcurve R bdate bperiod,
  rc_new (DS:=DayDates) CFlatIntensity [BD 365 1] [1 / 10] None (Some (BD 0 3)) DcDefault (Some (BP 24 0)) = Ok z /\
  rc_cast (DS:=DayDates) 5 None CMargSurvival z None None DcDefault None = Ok c /\
  exists e1 e2, d_add (BD 365 1) (p_str (DateSys:=DayDates) Tyear) = Ok e1 /\ d_add (DateSys:=DayDates) (BD 365 1) (BP 24 0) = Ok e2 /\
  get_survival_prob (DS:=DayDates) 5 c (BD 365 1) e1 = get_survival_prob (DS:=DayDates) 5 z (BD 365 1) e2 /\
  get_survival_prob (DS:=DayDates) 5 c (BD 365 1) e1 <> get_survival_prob (DS:=DayDates) 5 z (BD 365 1) e1.
Proof.
  destruct (single_curve (L:=day_laws) DcDefault _ CFlatIntensity (BD 365 1) (1 / 10) (Some (BP 24 0)) (Some (BD 0 3)) (BD 0 3)
             (default_additive (L:=day_laws)) eq_refl eq_refl) as (z & E & B & V).
  destruct B as [B1 [B2 [B3 [B4 [B5 [B6 [B7 [B8 [B9 B10]]]]]]]]].
  assert (C : castable (DS:=DayDates) z (BD 0 3) tauD).
  { constructor; auto. { rewrite B2. discriminate. } { intros x _. exists (1 / 10). apply V. } { intros n f. rewrite B6. discriminate. } }
  assert (RT : rc_tenor (DS:=DayDates) z = BP 24 0) by (unfold rc_tenor; now rewrite B7).
  assert (SP : forall n s t, get_survival_prob (DS:=DayDates) (S (S n)) z s t = Ok (exp (- (1 / 10) * tauD s t))).
  { intros n s t. unfold get_survival_prob, credit_only. rewrite B1. cbn [is_credit is_interest is_vol negb andb].
    rewrite (flat_factor (L:=day_laws) z (BD 0 3) tauD B3 B10 n s t (1 / 10) (1 / 10)); auto.
    - do 2 f_equal. field.
    - rewrite B1. now right.
    - apply V.
    - apply V. }
  destruct (C87_to_marginal DayDates _ no_registry2 day_laws z (BD 0 3) tauD CMargSurvival 5 None C) as [c [Ec [_ [_ [_ Hc]]]]].
  { now left. } { now left. } { now rewrite B1. } { apply tenor_steps. } { apply tenor_steps. }
  { rewrite RT. apply later_steps. intro x. apply plus_later; cbn; lia. }
  { intros x e LU Ae. rewrite SP. eexists. split; [reflexivity|]. rewrite RT in Ae.
    assert (M : 2 * / IZR (2 ^ 1022) <= 1 / 2).
    { assert (IZR 4 <= IZR (2 ^ 1022)) by (apply IZR_le; vm_compute; discriminate).
      apply Rle_trans with (2 * / IZR 4); [|lra]. apply Rmult_le_compat_l; [lra|]. apply Rinv_le_contravar; lra. }
    assert (G : forall y, x = BD (bd_day x) y -> (bd_day e - bd_day x < 732)%Z -> 2 * / IZR (2 ^ 1022) <= exp (- (1 / 10) * tauD x e)).
    { intros y _ Q. apply IZR_lt in Q. rewrite minus_IZR in Q. eapply Rle_trans; [exact M|].
      eapply Rle_trans; [|apply exp_ineq1_le]. lra. }
    unfold looked_up in LU. rewrite B2 in LU. apply (G (bd_id x)); [now destruct x|]. destruct LU as [LU|[LU|[d [[<-|[]] LU]]]].
    - destruct LU as [<-|[]]. vm_compute in Ae. injection Ae as <-. vm_compute. reflexivity.
    - vm_compute in LU. injection LU as <-. vm_compute in Ae. injection Ae as <-. vm_compute. reflexivity.
    - vm_compute in LU. injection LU as <-. vm_compute in Ae. injection Ae as <-. vm_compute. reflexivity. }
  { intros a b e e' Q1 Q2. rewrite !SP. cbn in Q1, Q2. apply Z.eqb_eq in Q1. apply Z.eqb_eq in Q2. now rewrite Q1, Q2. }
  exists z, c. split; auto. split; auto.
  exists (BD 730 0), (BD 1096 0).
  assert (P1 : d_add (BD 365 1) (p_str (DateSys:=DayDates (T:=R)) Tyear) = Ok (BD 730 0)) by (vm_compute; reflexivity).
  assert (P2 : d_add (DateSys:=DayDates (T:=R)) (BD 365 1) (BP 24 0) = Ok (BD 1096 0)) by (vm_compute; reflexivity).
  split; auto. split; auto.
  destruct (Hc (BD 365 1) (BD 1096 0)) as [_ G]. { rewrite B2. simpl. auto. } { now rewrite RT. }
  rewrite (G _ 3%nat P1). split; auto. rewrite !SP. cbn [bd_day]. intro Q. injection Q as Q. apply exp_inv in Q. lra.
Qed.


(** a volatility of 20% *)
Example C87_volatility_instance : forall k, k = CTermVol \/ k = CInstVol -> exists z c : rcurve R bdate bperiod,
  rc_new (DS:=DayDates) CTermVol [BD 365 1] [1 / 5] None (Some (BD 0 3)) DcDefault None = Ok z /\
  rc_cast (DS:=DayDates) 5 None k z None None DcDefault None = Ok c /\
  (k = CTermVol -> terminal_vol (DS:=DayDates) 5 None c (BD 365 1) None = Ok (1 / 5)) /\
  (k = CInstVol -> instantaneous_vol (DS:=DayDates) 5 None c (BD 364 0) = Ok (1 / 5)).
Proof.
  intros k HK.
  destruct (single_curve (L:=day_laws) DcDefault _ CTermVol (BD 365 1) (1 / 5) None (Some (BD 0 3)) (BD 0 3)
             (default_additive (L:=day_laws)) eq_refl eq_refl) as (z & E & B & V).
  destruct B as [B1 [B2 [B3 [B4 [B5 [B6 [B7 [B8 [B9 B10]]]]]]]]].
  assert (C : castable (DS:=DayDates) z (BD 0 3) tauD).
  { constructor; auto. { rewrite B2. discriminate. } { intros x _. exists (1 / 5). apply V. } { intros n f. rewrite B6. discriminate. } }
  assert (TV : forall x, terminal_vol (DS:=DayDates) 5 None z x None = Ok (1 / 5)).
  { intro x. cbn [terminal_vol]. rewrite B1. apply V. }
  assert (RTm : forall x, rc_time (DS:=DayDates) z x = Ok (tauD (BD 0 3) x)).
  { intro x. unfold rc_time, dc_time. change (dc_origin (rc_dc z)) with (rc_origin z). rewrite B3. apply (add_val _ _ B10). }
  assert (IV : forall x, instantaneous_vol (DS:=DayDates) 5 None z x = Ok (1 / 5)).
  { intro x. unfold instantaneous_vol. rewrite B1. destruct (tenor_steps Tday x) as [e [Ee [LT _]]]. rewrite Ee. cbn [bind].
    assert (LT' := LT). apply (ltb_inv (L:=day_laws)) in LT'.
    cbn [terminal_vol]. rewrite B1, B3. destruct (d_eqb (DateSys:=DayDates) x (BD 0 3)); [apply V|].
    replace (d_eqb (DateSys:=DayDates) x e) with false by (symmetry; apply (eqb_f (L:=day_laws)); lra).
    replace (d_ltb (DateSys:=DayDates) e x) with false by (symmetry; apply (ltb_f (L:=day_laws)); lra).
    rewrite !RTm, !V, (add_val _ _ B10). cbn [bind]. rn. rewrite Rdivp_ok by lra. cbn [bind].
    set (u := IZR (bd_day x) / (1461 / 4)) in *. set (w := IZR (bd_day e) / (1461 / 4)) in *. set (q := IZR (bd_day (BD 0 3)) / (1461 / 4)).
    match goal with |- (if Rltb ?v 0 && true then _ else _) = _ => replace v with ((1 / 5) * (1 / 5)) end.
    - replace (Rltb (1 / 5 * (1 / 5)) 0) with false by (symmetry; apply Rltb_false; lra). cbn [andb]. rewrite Rsqrtp_ok by lra.
      f_equal. apply sqrt_square. lra.
    - unfold npow. cbn. field. lra. }
  destruct HK as [-> | ->].
  - destruct (C87_to_terminal_vol DayDates _ no_registry2 day_laws z (BD 0 3) tauD 5 None C) as [c [Ec [_ [_ Hc]]]].
    + now left.
    + apply tenor_steps.
    + apply tenor_steps.
    + intros x _. eauto.
    + intros a b _. now rewrite !TV.
    + exists z, c. split; auto. split; auto. split; [|discriminate]. intros _. rewrite Hc; auto. rewrite B2. simpl. auto.
  - destruct (C87_to_instantaneous_vol DayDates _ no_registry2 day_laws z (BD 0 3) tauD 5 None C) as [c [Ec [_ [_ Hc]]]].
    + now left.
    + intro d. do 2 eexists. split; reflexivity.
    + intros d x _ _. eauto.
    + intros a b _. now rewrite !IV.
    + exists z, c. split; auto. split; auto. split; [discriminate|]. intros _. rewrite (Hc (BD 365 1)); auto.
      * rewrite B2. simpl. auto.
Qed.

(** a zero rate of 10%, tenor 1, cast with tenor 2: the cash rates over 1 *)
Example C87_given_tenor_instance : exists z c : rcurve R R (fperiod R),
  rc_new (DS:=FloatDates) CZeroRate [2] [1 / 10] None (Some 0) DcDefault (Some (FP 1)) = Ok z /\
  rc_cast (DS:=FloatDates) 5 None CCashRate z None None DcDefault (Some (FP 2)) = Ok c /\
  rc_tenor (DS:=FloatDates) c = FP 2 /\
  get_cash_rate (DS:=FloatDates) 5 c 2 None None = Ok (exp (1 / 10) - 1) /\
  get_cash_rate (DS:=FloatDates) 5 z 2 None (Some (FP 2)) = Ok ((exp (2 / 10) - 1) / 2) /\
  exp (1 / 10) - 1 <> (exp (2 / 10) - 1) / 2.
Proof.
  pose proof (float_additive (DC:=no_registry2)) as A.
  destruct (single_curve (L:=float_laws) DcDefault _ CZeroRate 2 (1 / 10) (Some (FP 1)) (Some 0) 0 A eq_refl eq_refl) as (z & E & B & V).
  destruct B as [B1 [B2 [B3 [B4 [B5 [B6 [B7 [B8 [B9 B10]]]]]]]]].
  assert (C : castable (DS:=FloatDates) z 0 (fun a b => b - a)).
  { constructor; auto. { rewrite B2. discriminate. } { intros x _. exists (1 / 10). apply V. } { intros n f. rewrite B6. discriminate. } }
  assert (RT : rc_tenor (DS:=FloatDates) z = FP 1) by (unfold rc_tenor; now rewrite B7).
  assert (F : forall n s t, factor (DS:=FloatDates) (S (S n)) z s t = Ok (exp (- (1 / 10 * (t - s))))).
  { intros n s t. rewrite (flat_factor (L:=float_laws) z 0 (fun a b => b - a) B3 B10 n s t (1 / 10) (1 / 10)); auto; try apply V.
    - do 2 f_equal. lra.
    - rewrite B1. now left. }
  assert (CR : forall x p, 0 < p -> get_cash_rate (DS:=FloatDates) 5 z x None (Some (FP p)) = Ok ((exp (1 / 10 * p) - 1) / p)).
  { intros x p Hp. unfold get_cash_rate, interest_only. rewrite B1. cbn [is_interest cash_rate bind].
    change (d_add (DateSys:=FloatDates) x (FP p)) with (Ok (x + p) : res R). cbn [bind]. rewrite B1, F, (add_val _ _ B10). cbn [bind].
    rewrite simple_rate_ok by (pose proof (exp_pos (- (1 / 10 * (x + p - x)))); lra). f_equal.
    replace (x + p - x) with p by lra. rewrite exp_Ropp. field. pose proof (exp_pos (1 / 10 * p)). lra. }
  assert (CN : forall x, get_cash_rate (DS:=FloatDates) 5 z x None None = Ok (exp (1 / 10) - 1)).
  { intro x. transitivity (get_cash_rate (DS:=FloatDates) 5 z x None (Some (FP 1))).
    - unfold get_cash_rate. f_equal. cbn [cash_rate]. now rewrite RT.
    - rewrite CR by lra. f_equal. rewrite Rmult_1_r. field. }
  assert (SO : solid_origin (DS:=FloatDates) z 0) by (left; exact B5).
  assert (BD : by_date (DS:=FloatDates) (fun x => get_cash_rate (DS:=FloatDates) 5 z x None None)) by (intros a b _; now rewrite !CN).
  destruct (cash_exists (L:=float_laws) z 0 _ C 5 None (Some (FP 2)) SO BD) as [c Ec].
  { intros x Ix. rewrite B2 in Ix. destruct Ix as [<-|[]]. apply step_back_ends. exists (fun i => 2 - 2 * INR i), 1%nat. split; [lia|].
    split; [cbn; lra|]. split.
    - intros i Hi. change (Ok (2 - 2 * INR i - 2) = Ok (2 - 2 * INR (S i)) :> res R). f_equal. rewrite S_INR. lra.
    - change (Rltb 0 (2 - 2 * INR 1) = false). apply Rltb_false. cbn. lra. }
  { intros x _. eauto. }
  destruct (C87_given_tenor_refuted FloatDates (fun x => x) no_registry2 float_laws z 0 _ 5 None (FP 2) c C SO ltac:(now rewrite B1) BD Ec) as [_ [T G]].
  destruct (G 2 (2 + 2) 4%nat) as [G1 _]. { rewrite B2. simpl. auto. } { reflexivity. }
  exists z, c. split; auto. split; auto. split; auto. split; [rewrite G1; apply CN|]. split; [rewrite CR by lra; do 4 f_equal; lra|].
  replace (2 / 10) with (1 / 10 + 1 / 10) by lra. rewrite exp_plus.
  assert (Q1 : 1 < exp (1 / 10)) by (pose proof (exp_increasing 0 (1 / 10) ltac:(lra)) as Q; rewrite exp_0 in Q; exact Q).
  intro Q. assert (0 < (exp (1 / 10) - 1) * (exp (1 / 10) - 1)) by (apply Rmult_lt_0_compat; lra). lra.
Qed.
