(** Lemmas about credit and volatility curves. *)
From Coq Require Import Reals Lra Lia List Bool ZArith.
From Verif Require Import Num Py Spec SInterpolation SCurve SDates SRateCurve LBase LCompounding MCompounding MInterpolation MDates
  MCurve MRateCurve LDates LFuel LCurve LDateCurve LRateCurve LRateCurve2 LRateCurve3 LRateCurve4.
Import ListNotations.
Open Scope R_scope.

(** * Clamping *)
Definition fmin : R := / IZR (2 ^ 1022).
Lemma fmin_pos : 0 < fmin.
Proof. apply Rinv_0_lt_compat, IZR_lt. reflexivity. Qed.
Lemma fmin_small : fmin < 1 / 1000.
Proof.
  unfold fmin. replace (1 / 1000) with (/ 1000) by lra. apply Rinv_lt_contravar.
  - apply Rmult_lt_0_compat; [lra|]. apply IZR_lt. reflexivity.
  - apply IZR_lt. reflexivity.
Qed.
Lemma nmax_R a b : nmax (T:=R) a b = Rmax a b.
Proof.
  unfold nmax. rn. destruct (Rltb a b) eqn:E; [apply Rltb_true in E|apply Rltb_false in E].
  - now rewrite Rmax_right by lra.
  - now rewrite Rmax_left by lra.
Qed.
Lemma nmin_R a b : nmin (T:=R) a b = Rmin a b.
Proof.
  unfold nmin. rn. destruct (Rltb b a) eqn:E; [apply Rltb_true in E|apply Rltb_false in E].
  - now rewrite Rmin_right by lra.
  - now rewrite Rmin_left by lra.
Qed.
Lemma clamp_val y : clamp (T:=R) y = Rmax fmin (Rmin y (1 - fmin)).
Proof. unfold clamp. rewrite nmax_R, nmin_R. reflexivity. Qed.
Lemma clamp_range y : fmin <= clamp (T:=R) y <= 1 - fmin.
Proof.
  rewrite clamp_val. pose proof fmin_pos. pose proof fmin_small.
  split; [apply Rmax_l|]. apply Rmax_lub; [lra|apply Rmin_r].
Qed.
Lemma clamp_id y : fmin <= y <= 1 - fmin -> clamp (T:=R) y = y.
Proof. intro H. rewrite clamp_val, Rmin_left, Rmax_right by lra. reflexivity. Qed.

Definition survival_data (k : cls) (ys : list R) : list R :=
  map (fun y => clamp (T:=R) (if is_default k then 1 - y else y)) ys.
Lemma prepare_ok k ys : is_probability k = true -> prepare_data (T:=R) k ys = Ok (survival_data k ys).
Proof.
  intro K. unfold prepare_data. rewrite K.
  assert (E : map (clamp (T:=R)) (if is_default k then map (fun d => nsub n1 d) ys else ys) = survival_data k ys).
  { unfold survival_data. destruct (is_default k); [rewrite map_map|]; reflexivity. }
  rewrite E. replace (forallb ntruthy (survival_data k ys)) with true; auto. symmetry. apply forallb_forall.
  intros y I. unfold survival_data in I. apply in_map_iff in I. destruct I as [x [<- _]].
  pose proof (clamp_range (if is_default k then 1 - x else x)). pose proof fmin_pos.
  unfold ntruthy. rn. apply negb_true_iff, Reqb_false. lra.
Qed.
Lemma survival_data_range k ys y : In y (survival_data k ys) -> fmin <= y <= 1 - fmin.
Proof. unfold survival_data. intro I. apply in_map_iff in I. destruct I as [x [<- _]]. apply clamp_range. Qed.
Lemma survival_data_length k ys : length (survival_data k ys) = length ys.
Proof. apply map_length. Qed.
Lemma survival_data_in k {D} (ds : list D) ys d y : In (d, y) (combine ds ys) ->
  In (d, clamp (T:=R) (if is_default k then 1 - y else y)) (combine ds (survival_data k ys)).
Proof.
  revert ys. induction ds as [|a ds IH]; intros [|z ys] I; simpl in *; try contradiction.
  destruct I as [I|I]; [inversion I; auto|right; auto].
Qed.

(** piecewise linear functions stay between bounds of the data *)
Lemma chord_between a ya b yb x lo : a < b -> a <= x <= b -> lo < ya -> lo < yb -> lo < chord a ya b yb x.
Proof.
  intros H [H1 H2] Ha Hb. unfold chord.
  replace (ya + (yb - ya) * ((x - a) / (b - a))) with ((ya * (b - x) + yb * (x - a)) / (b - a)) by (field; lra).
  apply Rmult_lt_reg_r with (b - a); [lra|].
  replace ((ya * (b - x) + yb * (x - a)) / (b - a) * (b - a)) with (ya * (b - x) + yb * (x - a)) by (field; lra).
  assert (0 <= (ya - lo) * (b - x)) by (apply Rmult_le_pos; lra).
  assert (0 <= (yb - lo) * (x - a)) by (apply Rmult_le_pos; lra).
  destruct (Req_dec x a) as [->|N].
  - assert (0 < (ya - lo) * (b - a)) by (apply Rmult_lt_0_compat; lra). lra.
  - assert (0 < (yb - lo) * (x - a)) by (apply Rmult_lt_0_compat; lra). lra.
Qed.
Lemma pl_above ps x y lo : (forall a b, In (a, b) ps -> lo < b) -> piecewise_linear ps x y -> lo < y.
Proof.
  intros H [[a [ya [b [yb [[I1 [I2 [Hlt _]]] [Hx ->]]]]]]|[[a [I _]]|[b [I _]]]].
  - apply chord_between; auto; eapply H; eauto.
  - eapply H; eauto.
  - eapply H; eauto.
Qed.

Section Credit.
  Context {D P : Type} {DS : DateSys R D P} {tm : D -> R} {L : DateLaws DS tm} {DC : DayCounts R D}.

  (** which period of a schedule a date falls into *)
  Lemma find_period p (ds : nat -> D) m t : schedule p ds (S m) -> tm (ds 0%nat) < tm t -> tm t <= tm (ds (S m)) ->
    exists i, (i <= m)%nat /\ ends (tm:=tm) ds i t.
  Proof.
    intros Sc H0. induction m; intro H1.
    - exists 0%nat. split; [lia|]. split; auto.
    - destruct (Rle_or_lt (tm t) (tm (ds (S m)))) as [H|H].
      + destruct IHm as [i [Hi E]]; auto. { eapply schedule_head; [|exact Sc]; lia. } exists i. split; [lia|auto].
      + exists (S m). split; [lia|]. split; auto.
  Qed.

  Context (c : rcurve R D P) (tau : D -> D -> R) (A : additive (rc_yf c) tau).

  Lemma rate_sum_mono v p (ds : nat -> D) i m t t' : monotone tau -> schedule p ds (S m) -> (i <= m)%nat ->
    ends (tm:=tm) ds i t -> ends (tm:=tm) ds m t' -> tm t <= tm t' -> (forall d, 0 <= v d) ->
    rate_sum tau v ds i t <= rate_sum tau v ds m t'.
  Proof.
    intros M Sc Hi [E1 E2] [E3 E4] Ht V. unfold rate_sum.
    assert (LE : forall a b, tm a <= tm b -> 0 <= tau a b).
    { intros a b H. destruct (Rle_lt_or_eq_dec _ _ H) as [H'|H'].
      - apply Rlt_le, M, ltb_t; auto.
      - assert (tau a b = 0) as ->; [|lra]. apply (tau_eq A), eqb_t; auto. }
    assert (PM : forall a b x, tm b <= tm x -> v a * tau a b <= v a * tau a x).
    { intros a b x H. apply Rmult_le_compat_l; auto. pose proof (add_add _ _ A a b x). pose proof (LE b x H). lra. }
    destruct (Nat.eq_dec i m) as [->|N].
    - pose proof (PM (ds m) t t' Ht). lra.
    - replace m with (S i + (m - S i))%nat at 1 by lia. rewrite sum_n_add, sum_n_last.
      pose proof (PM (ds i) t (ds (S i)) E2).
      assert (0 <= sum_n (fun j => v (ds (S i + j)%nat) * tau (ds (S i + j)%nat) (ds (S (S i + j)))) (m - S i)).
      { apply sum_n_nonneg. intros j Hj. apply Rmult_le_pos; auto. apply LE. left. apply ltb_inv. apply (Sc (S i + j)%nat). lia. }
      assert (0 <= v (ds m) * tau (ds m) t') by (apply Rmult_le_pos; auto; apply LE; lra). lra.
  Qed.

  (** the neighbours of a date in the domain *)
  Lemma unique_date (l : list D) a b : NoDup (map tm l) -> In a l -> In b l -> tm a = tm b -> a = b.
  Proof.
    intros ND Ia Ib E. induction l as [|x l IH]; [destruct Ia|]. simpl in ND. inversion ND as [|? ? N1 N2]; subst.
    destruct Ia as [->|Ia], Ib as [->|Ib]; auto.
    - exfalso. apply N1. rewrite E. now apply in_map.
    - exfalso. apply N1. rewrite <- E. now apply in_map.
  Qed.
  Lemma max_below (l : list D) p t : NoDup (map tm l) -> In p l -> tm p <= tm t ->
    (forall d, In d l -> tm d <= tm t -> tm d <= tm p) -> d_max (filter (fun d => d_leb d t) l) = Ok p.
  Proof.
    intros ND I H M. assert (In p (filter (fun d => d_leb d t) l)) as I'.
    { apply filter_In. split; auto. now apply leb_t. }
    destruct (d_max_ok (L:=L) (filter (fun d => d_leb d t) l)) as [m [E [Im Hm]]].
    { intro E. rewrite E in I'. destruct I'. }
    rewrite E. f_equal. apply filter_In in Im. destruct Im as [Im Lm]. apply leb_inv in Lm.
    apply (unique_date l); auto. pose proof (Hm _ I'). pose proof (M _ Im Lm). lra.
  Qed.
  Lemma min_above (l : list D) p t : NoDup (map tm l) -> In p l -> tm t < tm p ->
    (forall d, In d l -> tm t < tm d -> tm p <= tm d) -> d_min (filter (fun d => d_ltb t d) l) = Ok p.
  Proof.
    intros ND I H M. assert (In p (filter (fun d => d_ltb t d) l)) as I'.
    { apply filter_In. split; auto. now apply ltb_t. }
    destruct (d_min_ok (L:=L) (filter (fun d => d_ltb t d) l)) as [m [E [Im Hm]]].
    { intro E. rewrite E in I'. destruct I'. }
    rewrite E. f_equal. apply filter_In in Im. destruct Im as [Im Lm]. apply ltb_inv in Lm.
    apply (unique_date l); auto. pose proof (Hm _ I'). pose proof (M _ Im Lm). lra.
  Qed.
  Lemma max_all (l : list D) p : NoDup (map tm l) -> In p l -> (forall d, In d l -> tm d <= tm p) -> d_max l = Ok p.
  Proof.
    intros ND I M. destruct (d_max_ok (L:=L) l) as [m [E [Im Hm]]]; [intro E; subst; destruct I|].
    rewrite E. f_equal. apply (unique_date l); auto. pose proof (Hm _ I). pose proof (M _ Im). lra.
  Qed.
  Lemma min_all (l : list D) p : NoDup (map tm l) -> In p l -> (forall d, In d l -> tm p <= tm d) -> d_min l = Ok p.
  Proof.
    intros ND I M. destruct (d_min_ok (L:=L) l) as [m [E [Im Hm]]]; [intro E; subst; destruct I|].
    rewrite E. f_equal. apply (unique_date l); auto. pose proof (Hm _ I). pose proof (M _ Im). lra.
  Qed.

  Definition own_rate (k : cls) : Prop := k = CShortRate \/ k = CHazard.

  Lemma short_between n t p q : ~ own_rate (rc_cls c) -> NoDup (map tm (rc_domain c)) ->
    In p (rc_domain c) -> In q (rc_domain c) -> tm p <= tm t -> tm t < tm q ->
    (forall d, In d (rc_domain c) -> tm d <= tm p \/ tm q <= tm d) ->
    short_rate (S n) c t = rate n c p q.
  Proof.
    intros K ND Ip Iq Hp Hq M.
    destruct (d_min_ok (L:=L) (rc_domain c)) as [lo [El [Il Hl]]]; [intro E; rewrite E in Ip; destruct Ip|].
    destruct (d_max_ok (L:=L) (rc_domain c)) as [hi [Eh [Ih Hh]]]; [intro E; rewrite E in Ip; destruct Ip|].
    assert (G : (lo <- d_min (rc_domain c) ;;
            if d_ltb t lo then short_rate n c lo
            else
              hi <- d_max (rc_domain c) ;;
              if d_leb hi t then
                match rc_cls c with
                | CMargSurvival | CMargDefault =>
                    hi' <- d_add hi (p_str Tday) ;; rate n c hi hi'
                | _ => hi' <- d_sub hi (p_str Tday) ;; short_rate n c hi'
                end
              else
                previous <- d_max (filter (fun d => d_leb d t) (rc_domain c)) ;;
                follow <- d_min (filter (fun d => d_ltb t d) (rc_domain c)) ;;
                if negb (d_leb previous t && d_leb t follow) then Err AssertionError
                else if negb (d_ltb previous follow) then Err AssertionError
                else rate n c previous follow) = rate n c p q).
    { rewrite El, Eh. cbn [bind]. rewrite ltb_f by (pose proof (Hl _ Ip); lra).
      rewrite leb_f by (pose proof (Hh _ Iq); lra).
      rewrite (max_below _ p), (min_above _ q); auto.
      - cbn [bind]. rewrite (leb_t p t), (leb_t t q), (ltb_t p q) by lra. reflexivity.
      - intros d I H. destruct (M d I); lra.
      - intros d I H. destruct (M d I); lra. }
    cbn [short_rate]. unfold own_rate in K. destruct (rc_cls c); auto; exfalso; apply K; auto.
  Qed.

  Lemma short_before n t lo : ~ own_rate (rc_cls c) -> NoDup (map tm (rc_domain c)) ->
    In lo (rc_domain c) -> (forall d, In d (rc_domain c) -> tm lo <= tm d) -> tm t < tm lo ->
    short_rate (S n) c t = short_rate n c lo.
  Proof.
    intros K ND I M H. cbn [short_rate]. rewrite (min_all _ lo) by auto. cbn [bind]. rewrite (ltb_t t lo) by auto.
    unfold own_rate in K. destruct (rc_cls c); auto; exfalso; apply K; auto.
  Qed.

  Lemma short_after n t hi h' : ~ own_rate (rc_cls c) -> rc_cls c <> CMargSurvival -> rc_cls c <> CMargDefault ->
    NoDup (map tm (rc_domain c)) ->
    In hi (rc_domain c) -> (forall d, In d (rc_domain c) -> tm d <= tm hi) -> tm hi <= tm t ->
    d_sub hi (p_str Tday) = Ok h' -> short_rate (S n) c t = short_rate n c h'.
  Proof.
    intros K K1 K2 ND I M H E.
    destruct (d_min_ok (L:=L) (rc_domain c)) as [lo [El [Il Hl]]]; [intro E'; rewrite E' in I; destruct I|].
    cbn [short_rate]. rewrite El. cbn [bind]. rewrite ltb_f by (pose proof (Hl _ I); lra).
    rewrite (max_all _ hi) by auto. cbn [bind]. rewrite (leb_t hi t) by auto. rewrite E. cbn [bind].
    unfold own_rate in K. destruct (rc_cls c); auto; try (exfalso; apply K; auto); congruence.
  Qed.
  Lemma marg_after n t hi h' : rc_cls c = CMargSurvival \/ rc_cls c = CMargDefault ->
    NoDup (map tm (rc_domain c)) ->
    In hi (rc_domain c) -> (forall d, In d (rc_domain c) -> tm d <= tm hi) -> tm hi <= tm t ->
    d_add hi (p_str Tday) = Ok h' -> short_rate (S n) c t = rate n c hi h'.
  Proof.
    intros K ND I M H E.
    destruct (d_min_ok (L:=L) (rc_domain c)) as [lo [El [Il Hl]]]; [intro E'; rewrite E' in I; destruct I|].
    cbn [short_rate]. rewrite El. cbn [bind]. rewrite ltb_f by (pose proof (Hl _ I); lra).
    rewrite (max_all _ hi) by auto. cbn [bind]. rewrite (leb_t hi t) by auto. rewrite E. cbn [bind].
    destruct K as [-> | ->]; reflexivity.
  Qed.
End Credit.
