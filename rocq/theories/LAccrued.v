(** Lemmas about accrued interest. *)
From Coq Require Import Reals Lra Lia List Bool ZArith Sorted.
From Verif Require Import Num Py Spec MDates MCurve MRateCurve MOption MCashflow MBracket MPricer
  SDates SRateCurve SCashflow SPricer SYield LBase LSort LDates LCashflow LPricer LPricer2.
Import ListNotations.
Open Scope R_scope.

Lemma periods_in {A} (ds : list A) : forall (o s e : A), In (s, e) (periods o ds) ->
  exists i, nth_error (o :: ds) i = Some s /\ nth_error ds i = Some e.
Proof.
  induction ds as [|d ds IH]; intros o s e I; [contradiction|]. destruct I as [E|I].
  - injection E as <- <-. exists 0%nat. auto.
  - destruct (IH _ _ _ I) as (i & H1 & H2). exists (S i). auto.
Qed.

Lemma periods_app {A} (l : list A) : forall (o : A) m, periods o (l ++ m) = periods o l ++ periods (last l o) m.
Proof.
  induction l as [|d l IH]; intros o m; [reflexivity|]. cbn [app periods]. rewrite IH. cbn [app]. do 3 f_equal.
  destruct l; [reflexivity|]. cbn. clear. revert a. induction l; intros; cbn; auto.
Qed.

Lemma nth_last {A} (l : list A) : forall (o : A) m, nth_error (o :: l ++ m) (length l) = Some (last l o).
Proof.
  induction l as [|d l IH]; intros o m; [reflexivity|]. cbn [app length]. cbn [nth_error]. rewrite IH.
  f_equal. destruct l; [reflexivity|]. cbn. clear. revert a. induction l; intros; cbn; auto.
Qed.

Section Accrued.
  Context {D P : Type} {DS : DateSys R D P} {DC : DayCounts R D} {tm : D -> R} {L : DateLaws DS tm}.

  Lemma accrued_run fuel flr h i l s v : nth_error (h_lists h) i = Some (mkHL l (HForward s)) ->
    cf_attr l = LForward (s (h_curves h)) ->
    accrued_list fuel flr v i h = (rmap nsum (mapM (accrued_flow fuel flr l v) (cf_domain l)), h).
  Proof.
    intros Hl HA. unfold accrued_list, bindS, get_list, view, list_view, attr_view, lift, ret.
    rewrite (nth_res_some _ _ _ Hl). cbn [hl_attr hl_list bind].
    replace (mkCF (cf_domain l) (cf_flows l) (cf_origin0 l) (LForward (s (h_curves h))) (cf_rated l)) with l.
    2: { rewrite <- HA. now destruct l. }
    now destruct (mapM _ _).
  Qed.

  (** the elements of an increasing schedule before and after a period *)
  Lemma periods_before (pre : list D) : forall o s e, increasing (map tm (o :: pre)) -> In (s, e) (periods o pre) ->
    tm e <= tm (last pre o).
  Proof.
    induction pre as [|d pre IH]; intros o s e INC I; [contradiction|].
    assert (LA : last (d :: pre) o = last pre d).
    { destruct pre; [reflexivity|]. cbn. clear. revert d0. induction pre; intros; cbn; auto. }
    rewrite LA. cbn [map] in INC. inversion INC; subst. destruct I as [E|I].
    - injection E as <- <-. clear - H1. inversion H1; subst.
      destruct pre as [|d' pre]; [cbn; lra|]. left. rewrite Forall_forall in H3. apply H3.
      apply in_map. apply (nth_error_In _ (length pre)).
      clear. revert d'. induction pre as [|x pre IH]; intros d'; [reflexivity|].
      change (last (d' :: x :: pre) d) with (last (x :: pre) d). cbn [length]. exact (IH x).
    - eapply IH; eauto.
  Qed.
  Lemma periods_after (post : list D) : forall o s e, increasing (map tm (o :: post)) -> In (s, e) (periods o post) ->
    tm o <= tm s.
  Proof.
    induction post as [|d post IH]; intros o s e INC I; [contradiction|]. cbn [map] in INC. inversion INC; subst.
    destruct I as [E|I]; [injection E as <- <-; lra|].
    specialize (IH d s e H1 I). inversion H2; subst. lra.
  Qed.
  Lemma period_order o (dates : list D) i s e : increasing (map tm (o :: dates)) ->
    nth_error (o :: dates) i = Some s -> nth_error dates i = Some e -> tm s < tm e.
  Proof.
    revert o i. induction dates as [|d dates IH]; intros o i INC Hs He; [destruct i; discriminate|].
    cbn [map] in INC. inversion INC; subst. destruct i as [|i].
    - cbn in *. injection Hs as <-. injection He as <-. inversion H2; subst. auto.
    - cbn in Hs, He. eapply IH; eauto.
  Qed.
End Accrued.
