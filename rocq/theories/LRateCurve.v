(** Lemmas about rate curves: closed forms of factors and rates. *)
From Coq Require Import Reals Lra Lia List Bool ZArith.
From Verif Require Import Num Py Spec SDates SRateCurve LBase LCompounding MCompounding MInterpolation MDates MCurve
  MRateCurve LDates LFuel.
Import ListNotations.
Open Scope R_scope.

Lemma seq_S_map {A} (f : nat -> A) n : map f (seq 0 (S n)) = f 0%nat :: map (fun i => f (S i)) (seq 0 n).
Proof. simpl. f_equal. rewrite <- seq_shift, map_map. reflexivity. Qed.
Lemma sum_n_S f n : sum_n f (S n) = f 0%nat + sum_n (fun i => f (S i)) n.
Proof. unfold sum_n. rewrite seq_S_map. reflexivity. Qed.
Lemma prod_n_S f n : prod_n f (S n) = f 0%nat * prod_n (fun i => f (S i)) n.
Proof. unfold prod_n. rewrite seq_S_map. reflexivity. Qed.
Lemma Rprod_app a b : Rprod (a ++ b) = Rprod a * Rprod b.
Proof. induction a; simpl; [ring|]. rewrite IHa. ring. Qed.
Lemma sum_n_last f n : sum_n f (S n) = sum_n f n + f n.
Proof. unfold sum_n. rewrite seq_S, map_app, Rsum_app. simpl. lra. Qed.
Lemma prod_n_last f n : prod_n f (S n) = prod_n f n * f n.
Proof. unfold prod_n. rewrite seq_S, map_app, Rprod_app. simpl. ring. Qed.
Lemma sum_n_ext f g n : (forall i, (i < n)%nat -> f i = g i) -> sum_n f n = sum_n g n.
Proof. intro H. unfold sum_n. f_equal. apply map_ext_in. intros i I. apply in_seq in I. apply H. lia. Qed.
Lemma prod_n_ext f g n : (forall i, (i < n)%nat -> f i = g i) -> prod_n f n = prod_n g n.
Proof. intro H. unfold prod_n. f_equal. apply map_ext_in. intros i I. apply in_seq in I. apply H. lia. Qed.
Lemma prod_n_pos f n : (forall i, (i < n)%nat -> 0 < f i) -> 0 < prod_n f n.
Proof.
  revert f. induction n; intros f H; [unfold prod_n; simpl; lra|]. rewrite prod_n_S.
  apply Rmult_lt_0_compat; [apply H; lia|]. apply IHn. intros; apply H; lia.
Qed.
Lemma sum_n_add f n m : sum_n f (n + m) = sum_n f n + sum_n (fun i => f (n + i)%nat) m.
Proof.
  revert f. induction n; intros f; [change (sum_n f m = 0 + sum_n f m); ring|]. simpl (S n + m)%nat.
  rewrite !sum_n_S, IHn. simpl. ring.
Qed.
Lemma prod_n_add f n m : prod_n f (n + m) = prod_n f n * prod_n (fun i => f (n + i)%nat) m.
Proof.
  revert f. induction n; intros f; [change (prod_n f m = 1 * prod_n f m); ring|]. simpl (S n + m)%nat.
  rewrite !prod_n_S, IHn. simpl. ring.
Qed.
Lemma sum_n_nonneg f n : (forall i, (i < n)%nat -> 0 <= f i) -> 0 <= sum_n f n.
Proof.
  revert f. induction n; intros f H; [unfold sum_n; simpl; lra|]. rewrite sum_n_S.
  assert (0 <= f 0%nat) by (apply H; lia). assert (0 <= sum_n (fun i => f (S i)) n) by (apply IHn; intros; apply H; lia). lra.
Qed.

Section Closed.
  Context {D P : Type} {DS : DateSys R D P} {tm : D -> R} {L : DateLaws DS tm} {DC : DayCounts R D}.
  Context (c : rcurve R D P) (o : D) (tau : D -> D -> R).
  Context (HO : rc_origin c = Some o) (A : additive (rc_yf c) tau).

  Lemma yf_ok a b : rc_yf c a b = Ok (tau a b).
  Proof. apply (add_val _ _ A). Qed.
  Lemma rc_time_ok d : rc_time c d = Ok (tau o d).
  Proof.
    unfold rc_time, dc_time. unfold rc_origin in HO. rewrite HO. apply yf_ok.
  Qed.
  Lemma at_origin_tau d : at_origin c d = true -> tau o d = 0.
  Proof.
    unfold at_origin. rewrite HO. intro H. apply law_is_eq in H. apply (tau_eq A). apply eqb_t. auto.
  Qed.
  Lemma at_origin_is d : at_origin c d = true <-> is_origin c d.
  Proof.
    unfold at_origin, is_origin. rewrite HO. split.
    - intro H. exists o. auto.
    - intros [o' [H H']]. inversion H; subst; auto.
  Qed.
  Lemma both_origin_neq s t : d_eqb s t = false -> both_origin c s t = false.
  Proof. intro H. unfold both_origin. now rewrite H. Qed.
  Lemma tau_ne s t : d_eqb s t = false -> tau s t <> 0.
  Proof. apply (tau_neq A). Qed.

  Definition flat_cls (k : cls) : Prop := k = CZeroRate \/ k = CFlatIntensity.
  Definition prob_cls (k : cls) : Prop := k = CDiscountFactor \/ k = CSurvival \/ k = CDefault.

  Lemma flat_rate n s t vs vt : flat_cls (rc_cls c) -> d_eqb s t = false ->
    has_value c s vs -> has_value c t vt ->
    rate (S n) c s t = Ok ((vt * tau o t - vs * tau o s) / tau s t).
  Proof.
    intros K NE Hs Ht. unfold has_value in *.
    assert (E : rate (S n) c s t = if at_origin c s then rc_call c t else
      (vs <- rc_call c s ;; ts <- rc_time c s ;; ve <- rc_call c t ;; te <- rc_time c t ;;
       t <- rc_yf c s t ;; ndiv (ve * te - vs * ts) t)).
    { cbn [rate]. cbv zeta. rewrite (both_origin_neq s t NE), NE. destruct K as [-> | ->]; reflexivity. }
    rewrite E. clear E. pose proof (tau_ne s t NE) as Nz.
    destruct (at_origin c s) eqn:O.
    - apply at_origin_tau in O. rewrite Ht. f_equal. pose proof (tau_diff A o s t). rewrite O in *.
      replace (tau s t) with (tau o t) in * by lra. field. auto.
    - rewrite Hs, !rc_time_ok, Ht, yf_ok. cbn [bind]. rn. now apply Rdivp_ok.
  Qed.

  Lemma base_factor n s t r : ~ prob_cls (rc_cls c) -> rc_cls c <> CMargSurvival -> rc_cls c <> CMargDefault ->
    d_eqb s t = false -> rate n c s t = Ok r -> factor (S n) c s t = Ok (exp (- (r * tau s t))).
  Proof.
    intros K K1 K2 NE H.
    assert (E : factor (S n) c s t = (r <- rate n c s t ;; t <- rc_yf c s t ;; continuous_compounding r t)).
    { cbn [factor]. cbv zeta. rewrite NE.
      destruct (rc_cls c) eqn:E; try reflexivity; try congruence; exfalso; apply K; unfold prob_cls; auto. }
    rewrite E, H, yf_ok. cbn [bind]. rewrite continuous_compounding_ok. do 2 f_equal.
  Qed.
  Lemma base_factor_refl n s t : ~ prob_cls (rc_cls c) -> rc_cls c <> CMargSurvival -> rc_cls c <> CMargDefault ->
    d_eqb s t = true -> factor (S n) c s t = Ok 1.
  Proof.
    intros K K1 K2 E. cbn [factor]. cbv zeta. rewrite E.
    destruct (rc_cls c) eqn:Ek; try reflexivity; try congruence; exfalso; apply K; unfold prob_cls; auto.
  Qed.

  Lemma flat_factor n s t vs vt : flat_cls (rc_cls c) -> date_values c ->
    has_value c s vs -> has_value c t vt ->
    factor (S (S n)) c s t = Ok (exp (- (vt * tau o t - vs * tau o s))).
  Proof.
    intros K DV Hs Ht.
    assert (~ prob_cls (rc_cls c) /\ rc_cls c <> CMargSurvival /\ rc_cls c <> CMargDefault) as [K0 [K1 K2]].
    { unfold prob_cls. destruct K as [-> | ->]; repeat split; intuition discriminate. }
    destruct (d_eqb s t) eqn:E.
    - rewrite base_factor_refl by auto. f_equal. unfold has_value in *. rewrite (DV s t E) in Hs.
      assert (vs = vt) by congruence. subst. pose proof (tau_eq A s t E). pose proof (tau_diff A o s t).
      replace (tau o t) with (tau o s) by lra. replace (- (vt * tau o s - vt * tau o s)) with 0 by lra.
      now rewrite exp_0.
    - rewrite (base_factor (S n) s t _ K0 K1 K2 E (flat_rate n s t vs vt K E Hs Ht)).
      f_equal. f_equal. f_equal. field. apply (tau_ne s t E).
  Qed.

  Lemma prob_factor n s t vs vt : prob_cls (rc_cls c) -> d_eqb s t = false ->
    has_value c s vs -> has_value c t vt -> vs <> 0 ->
    factor (S n) c s t = Ok (if at_origin c s then vt else vt / vs).
  Proof.
    intros K NE Hs Ht Nz. unfold has_value in *.
    assert (E : factor (S n) c s t = if at_origin c s then rc_call c t else
      (b <- rc_call c t ;; a <- rc_call c s ;; ndiv b a)).
    { cbn [factor]. cbv zeta. rewrite NE. destruct K as [->|[-> | ->]]; reflexivity. }
    rewrite E, Ht, Hs. cbn [bind]. rn. destruct (at_origin c s); auto. now apply Rdivp_ok.
  Qed.
  Lemma prob_origin n s t vt : prob_cls (rc_cls c) -> at_origin c s = true -> has_value c t vt ->
    factor (S n) c s t = Ok vt.
  Proof.
    intros K E Ht. cbn [factor]. cbv zeta. rewrite E. destruct K as [->|[-> | ->]]; exact Ht.
  Qed.
  Lemma df_factor_eq n s t vs vt : rc_cls c = CDiscountFactor ->
    has_value c s vs -> has_value c t vt -> vs <> 0 ->
    factor (S n) c s t = Ok (if at_origin c s then vt else vt / vs).
  Proof.
    intros K Hs Ht Nz. unfold has_value in *. cbn [factor]. cbv zeta. rewrite K.
    destruct (at_origin c s); auto. rewrite Hs, Ht. cbn [bind]. rn. now apply Rdivp_ok.
  Qed.
  Lemma not_tiny_true (v : R) : 2 * / IZR (2 ^ 1022) <= v -> not_tiny v = true.
  Proof. intro H. unfold not_tiny. rn. now apply Rleb_true. Qed.
  Lemma not_tiny_inv (v : R) : not_tiny v = true -> 2 * / IZR (2 ^ 1022) <= v.
  Proof. unfold not_tiny. rn. apply Rleb_true. Qed.
  Lemma surv_refl n s t vs : rc_cls c = CSurvival \/ rc_cls c = CDefault -> d_eqb s t = true ->
    at_origin c s = false -> has_value c s vs -> 2 * / IZR (2 ^ 1022) <= vs ->
    factor (S n) c s t = Ok 1.
  Proof.
    intros K E O Hs T. unfold has_value in *. cbn [factor]. cbv zeta. rewrite O, E, Hs. cbn [bind].
    rewrite (not_tiny_true vs T). destruct K as [-> | ->]; reflexivity.
  Qed.

  (** rates of the classes working with factors *)
  Lemma base_rate n s t df : prob_cls (rc_cls c) \/ rc_cls c = CMargSurvival \/ rc_cls c = CMargDefault ->
    d_eqb s t = false -> factor n c s t = Ok df -> 0 < df ->
    rate (S n) c s t = Ok (- ln df / tau s t).
  Proof.
    intros K NE H Hp.
    assert (E : rate (S n) c s t = (df <- factor n c s t ;; t <- rc_yf c s t ;; continuous_rate df t)).
    { cbn [rate]. cbv zeta. rewrite (both_origin_neq s t NE), NE.
      destruct K as [[->|[-> | ->]]|[-> | ->]]; reflexivity. }
    rewrite E, H, yf_ok. cbn [bind]. apply continuous_rate_ok; auto. now apply tau_ne.
  Qed.
  Lemma base_rate_inv n s t r : prob_cls (rc_cls c) \/ rc_cls c = CMargSurvival \/ rc_cls c = CMargDefault ->
    d_eqb s t = false -> rate (S n) c s t = Ok r ->
    exists df, factor n c s t = Ok df /\ 0 < df /\ r = - ln df / tau s t.
  Proof.
    intros K NE H.
    assert (E : rate (S n) c s t = (df <- factor n c s t ;; t <- rc_yf c s t ;; continuous_rate df t)).
    { cbn [rate]. cbv zeta. rewrite (both_origin_neq s t NE), NE.
      destruct K as [[->|[-> | ->]]|[-> | ->]]; reflexivity. }
    rewrite E in H. destruct (factor n c s t) as [df|]; [|discriminate]. cbn [bind] in H.
    rewrite yf_ok in H. cbn [bind] in H. exists df. split; auto.
    destruct (Rlt_le_dec 0 df) as [Hp|Hn].
    - split; auto. rewrite continuous_rate_ok in H by (auto; now apply tau_ne). congruence.
    - rewrite continuous_rate_err_df in H by auto. discriminate.
  Qed.
End Closed.
