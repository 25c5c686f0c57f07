(** Property C125: leg lists of leg lists. *)
From Coq Require Import Reals Lra Lia List Bool FunctionalExtensionality.
From Verif Require Import Num Py Spec MPlans MDates MInterpolation MCurve MRateCurve MOption MCashflow MBracket MPricer MNested
  SDates SCashflow SNested LBase LDates LCast LCashflow LNested PCashflow PPricer.
Import ListNotations.
Open Scope R_scope.

(** * C125: the pricer *)
Section Pricer.
  Context {D P : Type} (DS : DateSys R D P) (DC : DayCounts R D).
  Implicit Types (t : tree D).

  (** valuing a nested leg list is valuing the leg list of its plain lists: the same numbers,
      the same exceptions, the same objects afterwards *)
  Theorem C125_present_value : forall fuel flr t disc v (h : heap R D P),
    tree_present_value fuel flr t disc v h = get_present_value fuel flr (flattened t) disc v h.
  Proof. intros. now rewrite flat_present. Qed.

  (** ... which is the sum of their present values *)
  Theorem C125_sum : forall fuel flr t disc v (h : heap R D P) xs,
    Forall2 (fun i x => get_present_value fuel flr (PrList i) disc v h = (Ok x, h)) (tree_leaves t) xs ->
    (exists c, nth_error (h_curves h) disc = Some c) ->
    tree_present_value fuel flr t disc v h = (Ok (Rsum xs), h).
  Proof.
    intros fuel flr t disc v h xs F (c & C). unfold tree_present_value, get_present_value in *.
    assert (G : get_curve disc h = (Ok c, h)) by (unfold get_curve, nth_res; now rewrite C).
    unfold bindS in *. rewrite G. unfold tree_pv_of. rewrite tree_sum_flat. unfold bindS, ret.
    assert (M : mapS (pv_list fuel flr c match v with Some _ => v | None => rc_origin c end) (tree_leaves t) h = (Ok xs, h)).
    { induction F as [|i x is xs Hi _ IH]; [reflexivity|]. cbn [mapS]. unfold bindS, ret.
      rewrite G in Hi. cbn [pv_of] in Hi. rewrite Hi, IH. reflexivity. }
    rewrite M. now rewrite nsum_Rsum.
  Qed.

  Theorem C125_interest_accrued : forall fuel flr t v (h : heap R D P),
    tree_accrued fuel flr t v h = get_interest_accrued fuel flr (flattened t) v h.
  Proof.
    intros fuel flr t v h. unfold tree_accrued. rewrite tree_sum_flat.
    destruct t as [i|ts dom o]; [|reflexivity]. cbn [flattened get_interest_accrued tree_leaves mapS]. unfold bindS, ret.
    destruct (accrued_list fuel flr v i h) as [[x|e] h']; [|reflexivity]. now rewrite sum_one.
  Qed.

  Theorem C125_yield : forall fuel flr t v target precision a b i origin count tenor (h : heap R D P),
    tree_yield fuel flr t v target precision a b i origin count tenor h =
    get_yield_to_maturity fuel flr (flattened t) v target precision a b i origin count tenor h.
  Proof.
    intros. unfold tree_yield, get_yield_to_maturity. rewrite flat_origin.
    unfold bindS. destruct (match v with Some _ => ret v | None => pr_origin (flattened t) end h) as [[[w|]|e] h']; try reflexivity.
    destruct (lift _ h') as [[c|e] h2]; [|reflexivity]. now rewrite flat_ytm_err.
  Qed.

  Theorem C125_basis_point_value : forall fuel flr t disc v delta shift (h : heap R D P),
    tree_bpv fuel flr t disc v delta shift h = get_basis_point_value fuel flr (flattened t) disc v delta shift h.
  Proof. intros. unfold tree_bpv, get_basis_point_value. now rewrite flat_present. Qed.

  Theorem C125_bucketed_delta : forall fuel flr t disc v delta grid shift (h : heap R D P),
    tree_buckets fuel flr t disc v delta grid shift h = get_bucketed_delta fuel flr (flattened t) disc v delta grid shift h.
  Proof.
    intros. unfold tree_buckets, get_bucketed_delta, tree_bucket_value, bucket_value. now rewrite flat_present.
  Qed.

  Theorem C125_curve_fit : forall fuel flr ts disc v fitting grid targets precision a b (h : heap R D P),
    tree_fit fuel flr ts disc v fitting grid targets precision a b h =
    get_curve_fit fuel flr (map flattened ts) disc v fitting grid targets precision a b h.
  Proof.
    intros. unfold tree_fit, get_curve_fit. rewrite map_length, combine_flat.
    set (ps := combine ts (spread_arg targets (length ts))). set (fit := match fitting with Some i => i | None => disc end).
    assert (E : (fun d => fs <~ tree_matured d ps ;; bracketing fuel (tree_fit_err fuel flr disc v fit d fs) a b precision) =
                (fun d => fs <~ matured d (map flat1 ps) ;; bracketing fuel (fit_err fuel flr disc v fit d fs) a b precision)).
    { apply functional_extensionality. intros d. apply functional_extensionality. intros h'. unfold bindS.
      rewrite (flat_matured DS). unfold bindS, ret. destruct (tree_matured d ps h') as [[fs|e] h2]; [|reflexivity].
      now rewrite flat_fit_err. }
    now rewrite E.
  Qed.
End Pricer.
Print Assumptions C125_present_value.
Print Assumptions C125_sum.
Print Assumptions C125_interest_accrued.
Print Assumptions C125_yield.
Print Assumptions C125_basis_point_value.
Print Assumptions C125_bucketed_delta.
Print Assumptions C125_curve_fit.

(** * C125: the container *)
Section Container.
  Context {D P : Type} (DS : DateSys R D P) (DC : DayCounts R D) (tm : D -> R) (L : DateLaws DS tm).

  (** the dates of a nested leg list are the dates of its plain lists, once each, increasing *)
  Theorem C125_domain : forall legs (base : cflist R D P), built (NLegs legs base) ->
    increasing (map tm (n_domain (NLegs legs base))) /\
    forall x, In x (map tm (n_domain (NLegs legs base))) <->
              exists l, In l (leaves (NLegs legs base)) /\ In x (map tm (cf_domain l)).
  Proof.
    intros legs base B. split; [|now apply (n_times DS tm L)].
    inversion B as [|? ? F N]; subst. destruct (n_new_inv _ _ _ N) as (o & _ & E). cbv zeta in E. injection E as ->.
    unfold n_domain at 1. cbn [n_base cf_domain]. set (l := concat (map n_domain legs)).
    pose proof (date_set_sorted (L:=L) l) as SS. pose proof (date_set_nodup (L:=L) l) as ND.
    revert SS ND. generalize (date_set l). clear. intros l SS ND. unfold increasing.
    induction SS as [|a l SS IH F]; cbn; [constructor|]. cbn in ND. inversion ND as [|? ? N1 N2]; subst.
    constructor; auto. rewrite Forall_forall in *. intros x I. apply in_map_iff in I. destruct I as (y & <- & I).
    specialize (F y I). destruct (Rle_lt_or_eq_dec _ _ F) as [|E]; auto. destruct N1. rewrite E. now apply in_map.
  Qed.

  (** its origin is the first of the origins of its plain lists *)
  Theorem C125_origin : forall n : nested R D P, built n ->
    (forall l, In l (leaves n) -> cf_origin l <> None) ->
    exists o, n_origin n = Some o /\ (exists l, In l (leaves n) /\ cf_origin l = Some o) /\
              forall l o', In l (leaves n) -> cf_origin l = Some o' -> tm o <= tm o'.
  Proof.
    apply (built_ind2 DS (fun n => (forall l, In l (leaves n) -> cf_origin l <> None) ->
      exists o, n_origin n = Some o /\ (exists l, In l (leaves n) /\ cf_origin l = Some o) /\
                forall l o', In l (leaves n) -> cf_origin l = Some o' -> tm o <= tm o')).
    - intros l H. specialize (H l (or_introl eq_refl)). destruct (cf_origin l) as [o|] eqn:E; [|congruence].
      exists o. unfold n_origin. cbn [n_base leaves]. split; auto. split; [exists l; split; [now left|auto]|].
      intros l' o' [<-|[]] E'. assert (o' = o) by congruence. subst. lra.
    - intros legs base _ IH N H. destruct (n_new_inv _ _ _ N) as (o & MO & E). cbv zeta in E. injection E as E.
      cbn [leaves] in *.
      assert (X : exists os, map n_origin legs = map Some os /\
                 (forall o, In o os -> exists l, In l (flat_map leaves legs) /\ cf_origin l = Some o) /\
                 (forall l o', In l (flat_map leaves legs) -> cf_origin l = Some o' -> exists o, In o os /\ tm o <= tm o')).
      { clear N MO E base. induction IH as [|n legs Hn _ IH]; [exists []; cbn; repeat split; easy|].
        destruct IH as (os & E1 & E2 & E3); [intros l I; apply H; cbn [flat_map]; apply in_or_app; auto|].
        destruct Hn as (o1 & F1 & (l1 & F2 & F2') & F3); [intros l I; apply H; cbn [flat_map]; apply in_or_app; auto|].
        exists (o1 :: os). cbn [map flat_map]. split; [now rewrite F1, E1|]. split.
        - intros q [<-|I]; [exists l1; split; auto; apply in_or_app; auto|].
          destruct (E2 q I) as (l & I1 & I2). exists l. split; auto. apply in_or_app; auto.
        - intros l o' I EO. apply in_app_or in I. destruct I as [I|I].
          + exists o1. split; [now left|]. eauto.
          + destruct (E3 l o' I EO) as (q & Q1 & Q2). exists q. split; [now right|auto]. }
      destruct X as (os & E1 & E2 & E3). rewrite E1 in MO.
      destruct (min_origin_first DS tm L os) as (m & M1 & M2 & M3).
      { intros ->. destruct legs; [discriminate N|discriminate E1]. }
      rewrite M1 in MO. injection MO as <-. exists m. split; [|split; auto].
      + unfold n_origin. cbn [n_base]. rewrite E. reflexivity.
      + intros l o' I EO. destruct (E3 l o' I EO) as (q & Q1 & Q2). specialize (M3 q Q1). lra.
  Qed.

  (** its flow at a date is the sum of the flows of the plain lists with that date: the same
      as of the leg list of all plain lists, exceptions included *)
  Theorem C125_flow : forall fuel flr legs (base : cflist R D P) d vs, built (NLegs legs base) ->
    Forall2 (fun l v => cf_get fuel flr l d = Ok v)
            (filter (fun l => mem d_eqb d (cf_domain l)) (leaves (NLegs legs base))) vs ->
    n_get fuel flr d (NLegs legs base) = Ok (Rsum vs).
  Proof.
    intros fuel flr legs base d vs B F.
    rewrite (n_get_legs DS DC tm L) by auto.
    assert (M : mapM (fun l => cf_get fuel flr l d) (filter (fun l => mem d_eqb d (cf_domain l)) (leaves (NLegs legs base))) = Ok vs).
    { induction F as [|l v ls vs E _ IH]; [reflexivity|]. cbn [mapM]. now rewrite E, IH. }
    rewrite M. cbn [bind]. now rewrite nsum_Rsum.
  Qed.
  Theorem C125_flattened : forall fuel flr legs (base : cflist R D P) ll d, built (NLegs legs base) ->
    legs_new (leaves (NLegs legs base)) = Ok ll ->
    n_get fuel flr d (NLegs legs base) = ll_get fuel flr ll d /\
    forall x, In x (map tm (n_domain (NLegs legs base))) <-> In x (map tm (ll_domain ll)).
  Proof.
    intros fuel flr legs base ll d B E. split.
    - rewrite (n_get_legs DS DC tm L) by auto. destruct (legs_inv DS _ _ E) as (o & _ & ->). reflexivity.
    - intros x. rewrite (proj2 (C125_domain _ _ B) x). now rewrite (proj2 (C39_domain DS tm L _ _ E) x).
  Qed.

  (** a nested leg list can be built whenever the origins of its legs are known *)
  Theorem C125_builds : forall legs : list (nested R D P), legs <> [] -> Forall built legs ->
    (forall n, In n legs -> n_origin n <> None) ->
    exists base, n_new legs = Ok (NLegs legs base) /\ built (NLegs legs base).
  Proof.
    intros legs NE F H.
    assert (X : exists os, map n_origin legs = map Some os).
    { clear NE F. induction legs as [|n legs IH]; [now exists []|]. destruct IH as (os & E); [intros m I; apply H; now right|].
      destruct (n_origin n) as [o|] eqn:O; [|now destruct (H n (or_introl eq_refl))]. exists (o :: os). cbn. now rewrite O, E. }
    destruct X as (os & EO). destruct (min_origin_first DS tm L os) as (m & M1 & _).
    { intros ->. destruct legs; [congruence|discriminate EO]. }
    assert (N : exists base, n_new legs = Ok (NLegs legs base)).
    { unfold n_new. rewrite EO, M1. cbn [bind]. rewrite cf_new_ok by (now rewrite repeat_length). cbn [bind]. eauto. }
    destruct N as (base & N). exists base. split; [exact N|]. now constructor.
  Qed.
End Container.
Print Assumptions C125_domain.
Print Assumptions C125_origin.
Print Assumptions C125_flow.
Print Assumptions C125_flattened.
Print Assumptions C125_builds.

(** instance: the value at 1 of a list of 100 and 50, twice beside a list of 1 and 1: once as
    leg and once two levels down *)
Local Instance no_counts : DayCounts R R := [].
Example C125_value_instance : exists (disc : rcurve R R (fperiod R)) (l l2 : cflist R R (fperiod R)),
  let h := mkH [disc] [] [mkHL l HNone; mkHL l2 HNone; mkHL l2 HNone] in
  let inner := TLegs [TList 0; TLegs [TList 0] [1; 2] (Some 1)] [1; 2] (Some 1) in
  fixed_new (DS:=FloatDates) [1; 2] (Many [100; 50]) None = Ok l /\
  tree_leaves (TLegs [inner; TList 0] [1; 2] (Some 1)) = [0; 0; 0]%nat /\
  tree_present_value (DS:=FloatDates) 2 None (TLegs [inner; TList 0] [1; 2] (Some 1)) 0 (Some 1) h =
  (Ok (3 * (100 + 50 * exp (- (5/100)))), h).
Proof.
  destruct value_instance as (disc & l & l2 & l3 & E & E1 & E2 & E3 & H & _). cbv zeta in H.
  exists disc, l, l2. cbv zeta. split; [exact E1|]. split; [reflexivity|].
  set (x := 100 + 50 * exp (- (5/100))) in *.
  replace (3 * x) with (Rsum [x; x; x]) by (cbn; lra).
  apply (C125_sum FloatDates no_counts); [|eexists; reflexivity].
  assert (K : get_present_value (DS:=FloatDates) 2 None (PrList 0) 0 (Some 1)
                (mkH [disc] [] [mkHL l HNone; mkHL l2 HNone; mkHL l2 HNone]) =
              (Ok x, mkH [disc] [] [mkHL l HNone; mkHL l2 HNone; mkHL l2 HNone])).
  { destruct (C40_list FloatDates no_counts 2 None (mkH [disc] [] [mkHL l HNone; mkHL l2 HNone; mkHL l3 HNone]) 0 0 disc 1 l x eq_refl) as [_ K1].
    - exists (mkHL l HNone), LNone. split; auto. split; [|reflexivity]. unfold fixed_new in E1. cbn [spread_arg] in E1.
      destruct (cf_new_inv _ _ _ _ _ _ E1) as [_ ->]. reflexivity.
    - apply (C40_list FloatDates no_counts 2 None (mkH [disc] [] [mkHL l HNone; mkHL l2 HNone; mkHL l2 HNone]) 0 0 disc 1 l x eq_refl); auto.
      exists (mkHL l HNone), LNone. split; auto. split; [|reflexivity]. unfold fixed_new in E1. cbn [spread_arg] in E1.
      destruct (cf_new_inv _ _ _ _ _ _ E1) as [_ ->]. reflexivity. }
  cbn [tree_leaves flat_map app]. repeat constructor; exact K.
Qed.

(** instance: a leg list of two lists as first leg beside a third list *)
Example C125_instance : exists l1 l2 l3 base1 base,
  cf_new (DS := FloatDates (T:=R)) (P := fperiod R) [1; 2] (Many [FlNum 3; FlNum 103]) None LNone false = Ok l1 /\
  cf_new (DS := FloatDates (T:=R)) (P := fperiod R) [2; 3] (Many [FlNum (-4); FlNum (-5)]) (Some 0) LNone false = Ok l2 /\
  cf_new (DS := FloatDates (T:=R)) (P := fperiod R) [5] (Many [FlNum 7]) None LNone false = Ok l3 /\
  let inner := NLegs [NList l1; NList l2] base1 in
  let outer := NLegs [inner; NList l3] base in
  n_new (DS:=FloatDates) [NList l1; NList l2] = Ok inner /\ n_new (DS:=FloatDates) [inner; NList l3] = Ok outer /\
  built (DS:=FloatDates) outer /\ leaves outer = [l1; l2; l3] /\
  (exists o, n_origin outer = Some o /\ o = 0) /\
  n_get (DS:=FloatDates) 0 None 2 outer = Ok 99.
Proof.
  assert (ND : forall a b : R, a <> b -> NoDup (map (fun d => d) [a; b])).
  { intros a b H. cbn. repeat constructor; cbn; intuition congruence. }
  assert (A := C37_amounts (FloatDates (T:=R)) [] (fun d => d) float_laws 0 None [1; 2] [3; 103] None _ eq_refl (ND 1 2 ltac:(lra))).
  assert (B := C37_amounts (FloatDates (T:=R)) [] (fun d => d) float_laws 0 None [2; 3] [-4; -5] (Some 0) _ eq_refl (ND 2 3 ltac:(lra))).
  destruct A as (_ & A & _). destruct B as (_ & B & _).
  specialize (A 1%nat 2 103 eq_refl eq_refl 2 (eqb_refl (L:=float_laws) 2)).
  specialize (B 0%nat 2 (-4) eq_refl eq_refl 2 (eqb_refl (L:=float_laws) 2)).
  do 3 eexists.
  match type of A with cf_get _ _ ?l1 _ = _ => match type of B with cf_get _ _ ?l2 _ = _ =>
    destruct (C125_builds (FloatDates (T:=R)) (fun d => d) float_laws [NList l1; NList l2]) as (base1 & E1 & B1);
      [discriminate|repeat constructor|intros n [<-|[<-|[]]]; discriminate|] end end.
  match type of B1 with built ?inner =>
    destruct (C125_origin (FloatDates (T:=R)) (fun d => d) float_laws inner B1) as (o1 & O1 & _);
      [cbn [leaves flat_map app]; intros l [<-|[<-|[]]]; discriminate|];
    destruct (C125_builds (FloatDates (T:=R)) (fun d => d) float_laws
                [inner; NList (mkCF [5] (dict_of d_eqb (combine [5] [FlNum 7])) None LNone false)]) as (base & E2 & B2);
      [discriminate|repeat constructor; auto|intros n [<-|[<-|[]]]; [rewrite O1; discriminate|discriminate]|] end.
  exists base1, base. split; [reflexivity|]. split; [reflexivity|]. split; [reflexivity|]. cbv zeta.
  split; [exact E1|]. split; [exact E2|]. split; [exact B2|]. split; [reflexivity|]. split.
  - destruct (C125_origin (FloatDates (T:=R)) (fun d => d) float_laws _ B2) as (o & O & (l & I & Q) & M).
    { cbn [leaves flat_map app]. intros l [<-|[<-|[<-|[]]]]; discriminate. }
    exists o. split; [exact O|]. cbn [leaves flat_map app] in I, M.
    assert (Z := M _ 0 (or_intror (or_introl eq_refl)) eq_refl).
    destruct I as [<-|[<-|[<-|[]]]]; cbn in Q; injection Q as <-; lra.
  - assert (X : 103 + (-4 + 0) = 99) by lra. rewrite <- X.
    refine (C125_flow (FloatDates (T:=R)) [] (fun d => d) float_laws 0 None _ _ 2 [103; -4] B2 _).
    cbn [leaves flat_map app filter mem existsb cf_domain d_eqb FloatDates neqb Rnum].
    assert (Q : forall a b, a <> b -> Reqb a b = false) by (intros a b W; unfold Reqb; destruct (Req_EM_T a b); congruence).
    assert (Q2 : Reqb 2 2 = true) by (unfold Reqb; destruct (Req_EM_T 2 2); congruence).
    rewrite (Q 1 2), (Q 3 2), (Q 5 2), Q2 by lra. cbn [orb].
    apply Forall2_cons; [exact A|]. apply Forall2_cons; [exact B|]. constructor.
Qed.
