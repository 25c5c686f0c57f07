(** Schedules on dates; relation of factors and rates for all classes; short rates. *)
From Coq Require Import Reals Lra Lia List Bool ZArith.
From Verif Require Import Num Py Spec SDates SRateCurve LBase LCompounding MCompounding MInterpolation MDates MCurve
  MRateCurve LDates LFuel LRateCurve LRateCurve2.
Import ListNotations.
Open Scope R_scope.

Section Dates.
  Context {D P : Type} {DS : DateSys R D P} {tm : D -> R} {L : DateLaws DS tm}.

  Definition scons (a : D) (ds : nat -> D) : nat -> D := fun i => match i with O => a | S j => ds j end.
  Lemma scons_schedule p a ds n : d_add a p = Ok (ds 0%nat) -> d_ltb a (ds 0%nat) = true ->
    schedule p ds n -> schedule p (scons a ds) (S n).
  Proof. intros H1 H2 H i Hi. destruct i; simpl; auto. apply H. lia. Qed.

  Lemma reach p n : forall a x t, steps p -> add_n a p n = Some x -> tm t < tm x -> tm a < tm t ->
    exists m ds, ds 0%nat = a /\ schedule p ds (S m) /\ ends (tm:=tm) ds m t /\ (m < n)%nat.
  Proof.
    induction n; intros a x t St E Hx Ha; simpl in E.
    - inversion E; subst. lra.
    - destruct (St a) as [a' [Ea [La _]]]. rewrite Ea in E.
      destruct (Rle_lt_dec (tm t) (tm a')) as [Ht|Ht].
      + exists 0%nat, (scons a (fun _ => a')). split; auto. split; [|split; [split; simpl; auto|lia]].
        apply scons_schedule; auto. intros i Hi; lia.
      + destruct (IHn a' x t St E Hx Ht) as [m [ds [D0 [Sd [En Lm]]]]].
        exists (S m), (scons a ds). split; auto. split; [|split; [exact En|lia]].
        apply scons_schedule; auto; now rewrite D0.
  Qed.

  (** from any date to any later one *)
  Lemma reach_any p s t : steps p -> unbounded p -> d_ltb s t = true ->
    exists m ds, ds 0%nat = s /\ schedule p ds (S m) /\ ends (tm:=tm) ds m t.
  Proof.
    intros St U Hs. apply ltb_inv in Hs. destruct (U s t) as [n [x [E Hx]]]. apply ltb_inv in Hx.
    destruct (reach p n s x t St E Hx Hs) as [m [ds [H1 [H2 [H3 _]]]]]. eauto.
  Qed.
End Dates.

(** day based dates: one day *)
Lemma day_plus a : d_add (DateSys:=DayDates (T:=R)) a (p_str Tday) = Ok (BD (bd_day a + 1) 0).
Proof. reflexivity. Qed.
Lemma day_steps : steps (DS:=DayDates (T:=R)) (p_str Tday).
Proof.
  intro a. exists (BD (bd_day a + 1) 0). split; [apply day_plus|]. split; [cbn; apply Z.ltb_lt; lia|].
  intros b E. exists (BD (bd_day b + 1) 0). split; [apply day_plus|]. cbn in *. apply Z.eqb_eq. apply Z.eqb_eq in E. lia.
Qed.
Lemma day_unbounded : unbounded (DS:=DayDates (T:=R)) (p_str Tday).
Proof.
  intros a b.
  assert (H : forall n a, exists x, add_n (DS:=DayDates (T:=R)) a (p_str Tday) n = Some x /\ bd_day x = (bd_day a + Z.of_nat n)%Z).
  { induction n; intro c.
    - exists c. split; auto. lia.
    - destruct (IHn (BD (bd_day c + 1) 0)) as [x [E Hx]]. exists x. split; [exact E|]. cbn [bd_day] in Hx. lia. }
  destruct (H (S (Z.to_nat (bd_day b - bd_day a))) a) as [x [E Hx]].
  exists (S (Z.to_nat (bd_day b - bd_day a))), x. split; auto. cbn. apply Z.ltb_lt. lia.
Qed.

Section Relation.
  Context {D P : Type} {DS : DateSys R D P} {tm : D -> R} {L : DateLaws DS tm} {DC : DayCounts R D}.
  Context (c : rcurve R D P) (tau : D -> D -> R) (A : additive (rc_yf c) tau).

  Lemma cls_split : (prob_cls (rc_cls c) \/ rc_cls c = CMargSurvival \/ rc_cls c = CMargDefault) \/
    (~ prob_cls (rc_cls c) /\ rc_cls c <> CMargSurvival /\ rc_cls c <> CMargDefault).
  Proof. unfold prob_cls. destruct (rc_cls c); intuition discriminate. Qed.

  Lemma base_factor_eq n s t : ~ prob_cls (rc_cls c) -> rc_cls c <> CMargSurvival -> rc_cls c <> CMargDefault ->
    d_eqb s t = false -> factor (S n) c s t = (r <- rate n c s t ;; t <- rc_yf c s t ;; continuous_compounding r t).
  Proof.
    intros K K1 K2 NE. cbn [factor]. cbv zeta. rewrite NE.
    destruct (rc_cls c) eqn:E; try reflexivity; try congruence; exfalso; apply K; unfold prob_cls; auto.
  Qed.

  Lemma factor_of_rate n m s t r : d_eqb s t = false -> rate n c s t = Ok r -> (n < m)%nat ->
    factor m c s t = Ok (exp (- (r * tau s t))).
  Proof.
    intros NE H Hm. pose proof (tau_ne c tau A s t NE) as Nz.
    destruct cls_split as [K|[K [K1 K2]]].
    - destruct n; [discriminate|]. destruct (base_rate_inv c tau A n s t r K NE H) as [df [Hf [Hp ->]]].
      rewrite (fle_ok _ _ _ (factor_fuel n m c s t ltac:(lia)) Hf). f_equal.
      replace (- (- ln df / tau s t * tau s t)) with (ln df) by (field; auto). now rewrite exp_ln.
    - destruct m; [lia|]. apply (base_factor c tau A); auto.
      apply (fle_ok _ _ _ (rate_fuel n m c s t ltac:(lia)) H).
  Qed.
  Lemma rate_of_factor n m s t df : d_eqb s t = false -> factor n c s t = Ok df -> 0 < df -> (n < m)%nat ->
    rate m c s t = Ok (- ln df / tau s t).
  Proof.
    intros NE H Hp Hm. pose proof (tau_ne c tau A s t NE) as Nz.
    destruct cls_split as [K|[K [K1 K2]]].
    - destruct m; [lia|]. apply (base_rate c tau A); auto.
      apply (fle_ok _ _ _ (factor_fuel n m c s t ltac:(lia)) H).
    - destruct n; [discriminate|]. rewrite base_factor_eq in H by auto.
      destruct (rate n c s t) as [r|] eqn:E; [|discriminate]. cbn [bind] in H. rewrite (add_val _ _ A) in H.
      cbn [bind] in H. rewrite continuous_compounding_ok in H. inversion H; subst df.
      apply (fle_ok _ _ _ (rate_fuel n m c s t ltac:(lia))). rewrite E. f_equal.
      rewrite ln_exp. field. auto.
  Qed.
End Relation.

Section Values.
  Context {D P : Type} {DS : DateSys R D P} {tm : D -> R} {L : DateLaws DS tm} {DC : DayCounts R D}.
  (** values along a schedule as a function of the date *)
  Lemma short_values (c : rcurve R D P) (ds : nat -> D) n v :
    (forall i, (i <= n)%nat -> has_value c (ds i) (v i)) ->
    exists w : D -> R, (forall i, (i <= n)%nat -> has_value c (ds i) (w (ds i))) /\
                       (forall i, (i <= n)%nat -> w (ds i) = v i).
  Proof.
    intro H. exists (fun d => match rc_call c d with Ok y => y | Err _ => 0 end). unfold has_value in *.
    split; intros i Hi; rewrite (H i Hi); reflexivity.
  Qed.
End Values.

Section Splits.
  Context {D P : Type} {DS : DateSys R D P} {tm : D -> R} {L : DateLaws DS tm} {DC : DayCounts R D}.
  Context (c : rcurve R D P) (tau : D -> D -> R) (A : additive (rc_yf c) tau).

  Lemma schedule_part p (ds : nat -> D) n i k : schedule p ds n -> (i + k <= n)%nat -> schedule p (fun j => ds (i + j)%nat) k.
  Proof. intros Sc H. apply schedule_tail. eapply schedule_head; [|exact Sc]. lia. Qed.

  (** short rates between dates of the schedule *)
  Lemma daily_factor fuel n ds v i k : rc_cls c = CShortRate \/ rc_cls c = CHazard ->
    schedule (p_str Tday) ds n -> (forall i, (i < n)%nat -> has_value c (ds i) (v i)) ->
    (i + k <= n)%nat -> (n + 3 <= fuel)%nat ->
    factor fuel c (ds i) (ds (i + k)%nat) =
      Ok (exp (- sum_n (fun j => v (i + j)%nat * tau (ds (i + j)%nat) (ds (S (i + j)))) k)).
  Proof.
    intros K Sc V Hi F. destruct k.
    - rewrite Nat.add_0_r. destruct fuel; [lia|]. rewrite base_factor_refl.
      + unfold sum_n. simpl. now rewrite Ropp_0, exp_0.
      + unfold prob_cls. destruct K as [-> | ->]; intuition discriminate.
      + destruct K as [-> | ->]; discriminate.
      + destruct K as [-> | ->]; discriminate.
      + apply eqb_refl.
    - destruct (short_values c (fun j => ds (i + j)%nat) k (fun j => v (i + j)%nat)) as [w [Hw Hv]].
      { intros j Hj. apply V. lia. }
      pose proof (schedule_part _ _ _ i (S k) Sc Hi) as Sc'.
      destruct (short_factor (L:=L) c tau A fuel k (fun j => ds (i + j)%nat) (ds (i + S k)%nat) w) as [_ H]; auto.
      + eapply aligned_ends; eauto.
      + lia.
      + cbv beta in H. rewrite Nat.add_0_r in H. rewrite H.
        rewrite (rate_sum_aligned (L:=L) c tau A) by reflexivity. do 3 f_equal. apply sum_n_ext. intros j Hj.
        rewrite Hv by lia. now replace (i + S j)%nat with (S (i + j)) by lia.
  Qed.

  (** cash rates between dates of the schedule *)
  Lemma tenor_factor fuel n ds v i k : rc_cls c = CCashRate ->
    schedule (rc_tenor c) ds n -> (forall i, (i < n)%nat -> has_value c (ds i) (v i)) ->
    (forall i, (i < n)%nat -> 0 < 1 + v i * tau (ds i) (ds (S i))) ->
    (i + k <= n)%nat -> (n + 3 <= fuel)%nat ->
    factor fuel c (ds i) (ds (i + k)%nat) =
      Ok (prod_n (fun j => / (1 + v (i + j)%nat * tau (ds (i + j)%nat) (ds (S (i + j))))) k).
  Proof.
    intros K Sc V Q Hi F. destruct k.
    - rewrite Nat.add_0_r. destruct fuel; [lia|]. rewrite base_factor_refl; try (unfold prob_cls; rewrite K); try (intuition discriminate).
      apply eqb_refl.
    - destruct (short_values c (fun j => ds (i + j)%nat) k (fun j => v (i + j)%nat)) as [w [Hw Hv]].
      { intros j Hj. apply V. lia. }
      pose proof (schedule_part _ _ _ i (S k) Sc Hi) as Sc'.
      assert (NI : forall j, (i + S j)%nat = S (i + j)) by (intro; lia).
      destruct (cash_factor (L:=L) c tau A fuel k (fun j => ds (i + j)%nat) (ds (i + S k)%nat) w) as [_ H]; auto.
      + eapply aligned_ends; eauto.
      + lia.
      + intros j Hj. rewrite Hv by lia. rewrite NI. apply Q. lia.
      + rewrite Hv by lia. rewrite NI. apply Q. lia.
      + cbv beta in H. rewrite Nat.add_0_r in H. rewrite H.
        rewrite (cash_prod_aligned (L:=L) c tau A) by reflexivity. f_equal. apply prod_n_ext. intros j Hj.
        rewrite Hv by lia. now rewrite NI.
  Qed.

  (** marginal survival probabilities between dates of the schedule *)
  Lemma marginal_factor fuel n ds v i k : rc_cls c = CMargSurvival \/ rc_cls c = CMargDefault ->
    schedule (rc_tenor c) ds n -> (forall i, (i < n)%nat -> has_value c (ds i) (v i)) ->
    (forall i, (i < n)%nat -> 2 * / IZR (2 ^ 1022) <= v i) ->
    (i + S k <= n)%nat -> (n + 3 <= fuel)%nat ->
    factor fuel c (ds i) (ds (i + S k)%nat) = Ok (prod_n (fun j => v (i + j)%nat) (S k)).
  Proof.
    intros K Sc V Q Hi F.
    assert (FM : 0 < 2 * / IZR (2 ^ 1022)).
    { apply Rmult_lt_0_compat; [lra|]. apply Rinv_0_lt_compat, IZR_lt. reflexivity. }
    destruct (short_values c (fun j => ds (i + j)%nat) k (fun j => v (i + j)%nat)) as [w [Hw Hv]].
    { intros j Hj. apply V. lia. }
    pose proof (schedule_part _ _ _ i (S k) Sc Hi) as Sc'.
    pose proof (marg_factor (L:=L) c tau A fuel k (fun j => ds (i + j)%nat) (ds (i + S k)%nat) w) as H.
    cbv beta in H. rewrite Nat.add_0_r in H. rewrite H; auto.
    - rewrite (marg_prod_aligned (L:=L) c tau A (rc_tenor c)); auto.
      + f_equal. apply prod_n_ext. intros j Hj. now rewrite Hv by lia.
      + rewrite Hv by lia. pose proof (Q (i + k)%nat ltac:(lia)). lra.
    - eapply aligned_ends; eauto.
    - lia.
    - intros j Hj. rewrite Hv by lia. apply Q. lia.
  Qed.
End Splits.
