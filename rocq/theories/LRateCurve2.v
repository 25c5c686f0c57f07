(** Lemmas about the loops of rate curves: short rates, cash rates, marginal survival. *)
From Coq Require Import Reals Lra Lia List Bool ZArith.
From Verif Require Import Num Py Spec SDates SRateCurve LBase LCompounding MCompounding MInterpolation MDates MCurve
  MRateCurve LDates LFuel LRateCurve.
Import ListNotations.
Open Scope R_scope.

Section Loops.
  Context {D P : Type} {DS : DateSys R D P} {tm : D -> R} {L : DateLaws DS tm} {DC : DayCounts R D}.

  Lemma schedule_shift p (ds : nat -> D) n : schedule p ds (S n) -> schedule p (fun i => ds (S i)) n.
  Proof. intros H i Hi. apply H. lia. Qed.
  Lemma schedule_tm p (ds : nat -> D) n : schedule p ds n -> forall i j, (i < j <= n)%nat -> tm (ds i) < tm (ds j).
  Proof.
    intros H i j. induction j; intros Hj; [lia|].
    destruct (H j) as [_ Hlt]; [lia|]. apply ltb_inv in Hlt.
    assert (i = j \/ (i < j)%nat) as [->|Hij] by lia; auto.
    assert (tm (ds i) < tm (ds j)) by (apply IHj; lia). lra.
  Qed.

  (** [stop] lies in the last period of the schedule *)
  Definition ends (ds : nat -> D) (n : nat) (stop : D) : Prop := tm (ds n) < tm stop <= tm (ds (S n)).

  Lemma integrate_loop_ok yf tau (p : P) (v : D -> R) (call : D -> res R) : additive yf tau ->
    forall n fuel ds stop acc, schedule p ds (S n) -> ends ds n stop ->
    (forall i, (i <= n)%nat -> call (ds i) = Ok (v (ds i))) -> (n < fuel)%nat ->
    integrate_loop fuel call yf p (ds 0%nat) stop acc =
    Ok (acc + sum_n (fun i => v (ds i) * tau (ds i) (ds (S i))) n + v (ds n) * tau (ds n) stop).
  Proof.
    intro A. induction n; intros fuel ds stop acc Sc [E1 E2] V F; (destruct fuel; [lia|]); cbn [integrate_loop].
    - destruct (Sc 0%nat) as [-> _]; [lia|]. cbn [bind]. rewrite ltb_f by auto.
      rewrite V, (add_val _ _ A) by lia. cbn [bind]. rn. f_equal. unfold sum_n; simpl. lra.
    - destruct (Sc 0%nat) as [-> _]; [lia|]. cbn [bind].
      assert (tm (ds 1%nat) < tm stop).
      { destruct n as [|n']; [lra|]. pose proof (schedule_tm _ _ _ Sc 1 (S (S n'))) as H. specialize (H ltac:(lia)). lra. }
      rewrite ltb_t by auto. rewrite V, (add_val _ _ A) by lia. cbn [bind]. rn.
      specialize (IHn fuel (fun i => ds (S i)) stop
                      (acc + v (ds 0%nat) * tau (ds 0%nat) (ds 1%nat))).
      cbv beta in IHn. rewrite IHn.
      + f_equal. rewrite sum_n_S. lra.
      + now apply schedule_shift.
      + split; auto.
      + intros i Hi. apply V. lia.
      + lia.
  Qed.

  Context (c : rcurve R D P) (tau : D -> D -> R) (A : additive (rc_yf c) tau).

  Definition rate_sum (v : D -> R) (ds : nat -> D) (n : nat) (stop : D) : R :=
    sum_n (fun i => v (ds i) * tau (ds i) (ds (S i))) n + v (ds n) * tau (ds n) stop.

  Lemma short_factor fuel n ds stop (v : D -> R) : rc_cls c = CShortRate \/ rc_cls c = CHazard ->
    schedule (p_str Tday) ds (S n) -> ends ds n stop ->
    (forall i, (i <= n)%nat -> has_value c (ds i) (v (ds i))) -> (n + 2 < fuel)%nat ->
    rate fuel c (ds 0%nat) stop = Ok (rate_sum v ds n stop / tau (ds 0%nat) stop) /\
    factor fuel c (ds 0%nat) stop = Ok (exp (- rate_sum v ds n stop)).
  Proof.
    intros K Sc E V F.
    assert (NE : d_eqb (ds 0%nat) stop = false).
    { apply eqb_f. destruct E as [E1 _]. destruct n; [lra|].
      pose proof (schedule_tm _ _ _ Sc 0 (S n)) as H. specialize (H ltac:(lia)). lra. }
    pose proof (tau_ne c tau A _ _ NE) as Nz.
    assert (RT : forall fuel, (n + 1 < fuel)%nat ->
      rate fuel c (ds 0%nat) stop = Ok (rate_sum v ds n stop / tau (ds 0%nat) stop)).
    { intros f Hf. destruct f; [lia|].
      assert (ER : rate (S f) c (ds 0%nat) stop =
                   integrate f (rc_call c) (rc_yf c) (p_str Tday) (ds 0%nat) stop).
      { cbn [rate]. cbv zeta. rewrite NE. destruct K as [-> | ->]; reflexivity. }
      rewrite ER. unfold integrate.
      rewrite (integrate_loop_ok (rc_yf c) tau (p_str Tday) v (rc_call c) A n); auto; [|lia].
      cbn [bind]. rewrite (add_val _ _ A). cbn [bind]. rn. rewrite Rdivp_ok by auto.
      f_equal. unfold rate_sum. f_equal. lra. }
    split; [apply RT; lia|]. destruct fuel; [lia|].
    rewrite (base_factor c tau A fuel _ _ (rate_sum v ds n stop / tau (ds 0%nat) stop)); auto.
    - do 3 f_equal. field. auto.
    - unfold prob_cls. destruct K as [-> | ->]; intuition discriminate.
    - destruct K as [-> | ->]; discriminate.
    - destruct K as [-> | ->]; discriminate.
    - apply RT. lia.
  Qed.

  (** cash rates *)
  Definition cash_prod (v : D -> R) (ds : nat -> D) (n : nat) (stop : D) : R :=
    prod_n (fun i => / (1 + v (ds i) * tau (ds i) (ds (S i)))) n * / (1 + v (ds n) * tau (ds n) stop).

  Lemma cash_loop_ok (v : D -> R) :
    forall n fuel ds stop acc, schedule (rc_tenor c) ds (S n) -> ends ds n stop ->
    (forall i, (i <= n)%nat -> has_value c (ds i) (v (ds i))) -> (n < fuel)%nat ->
    (forall i, (i < n)%nat -> 0 < 1 + v (ds i) * tau (ds i) (ds (S i))) ->
    0 < 1 + v (ds n) * tau (ds n) stop ->
    cash_loop fuel c (ds 0%nat) stop acc = Ok (acc * cash_prod v ds n stop).
  Proof.
    induction n; intros fuel ds stop acc Sc [E1 E2] V F Q1 Q2; (destruct fuel; [lia|]); cbn [cash_loop];
      unfold has_value in V.
    - destruct (Sc 0%nat) as [-> _]; [lia|]. cbn [bind]. rewrite ltb_f by auto.
      rewrite V, (add_val _ _ A) by lia. cbn [bind]. rewrite simple_compounding_ok by lra. cbn [bind]. rn.
      f_equal.
    - destruct (Sc 0%nat) as [-> _]; [lia|]. cbn [bind].
      assert (tm (ds 1%nat) < tm stop).
      { destruct n as [|n']; [lra|]. pose proof (schedule_tm _ _ _ Sc 1 (S (S n'))) as H. specialize (H ltac:(lia)). lra. }
      rewrite ltb_t by auto. rewrite V, (add_val _ _ A) by lia. cbn [bind].
      assert (0 < 1 + v (ds 0%nat) * tau (ds 0%nat) (ds 1%nat)) by (apply Q1; lia).
      rewrite simple_compounding_ok by lra. cbn [bind]. rn.
      specialize (IHn fuel (fun i => ds (S i)) stop
                      (acc * (1 / (1 + v (ds 0%nat) * tau (ds 0%nat) (ds 1%nat))))).
      cbv beta in IHn. rewrite IHn.
      + f_equal. unfold cash_prod. rewrite prod_n_S. unfold Rdiv. ring.
      + now apply schedule_shift.
      + split; auto.
      + intros i Hi. apply V. lia.
      + lia.
      + intros i Hi. apply Q1. lia.
      + auto.
  Qed.

  Lemma cash_prod_pos v ds n stop :
    (forall i, (i < n)%nat -> 0 < 1 + v (ds i) * tau (ds i) (ds (S i))) ->
    0 < 1 + v (ds n) * tau (ds n) stop -> 0 < cash_prod v ds n stop.
  Proof.
    intros H1 H2. apply Rmult_lt_0_compat; [|now apply Rinv_0_lt_compat].
    apply prod_n_pos. intros. apply Rinv_0_lt_compat; auto.
  Qed.

  Lemma cash_factor fuel n ds stop (v : D -> R) : rc_cls c = CCashRate ->
    schedule (rc_tenor c) ds (S n) -> ends ds n stop ->
    (forall i, (i <= n)%nat -> has_value c (ds i) (v (ds i))) -> (n + 2 < fuel)%nat ->
    (forall i, (i < n)%nat -> 0 < 1 + v (ds i) * tau (ds i) (ds (S i))) ->
    0 < 1 + v (ds n) * tau (ds n) stop ->
    rate fuel c (ds 0%nat) stop = Ok (- ln (cash_prod v ds n stop) / tau (ds 0%nat) stop) /\
    factor fuel c (ds 0%nat) stop = Ok (cash_prod v ds n stop).
  Proof.
    intros K Sc E V F Q1 Q2.
    assert (NE : d_eqb (ds 0%nat) stop = false).
    { apply eqb_f. destruct E as [E1 _]. destruct n; [lra|].
      pose proof (schedule_tm _ _ _ Sc 0 (S n)) as H. specialize (H ltac:(lia)). lra. }
    pose proof (tau_ne c tau A _ _ NE) as Nz.
    pose proof (cash_prod_pos v ds n stop Q1 Q2) as PP.
    assert (RT : forall fuel, (n + 1 < fuel)%nat ->
      rate fuel c (ds 0%nat) stop = Ok (- ln (cash_prod v ds n stop) / tau (ds 0%nat) stop)).
    { intros f Hf. destruct f; [lia|].
      assert (ER : rate (S f) c (ds 0%nat) stop =
                   (df <- cash_loop f c (ds 0%nat) stop n1 ;; t <- rc_yf c (ds 0%nat) stop ;; continuous_rate df t)).
      { cbn [rate]. cbv zeta. rewrite NE, K. reflexivity. }
      rewrite ER, (cash_loop_ok v n) by (auto; lia). cbn [bind]. rewrite (add_val _ _ A). cbn [bind]. rn.
      rewrite Rmult_1_l. apply continuous_rate_ok; auto. }
    split; [apply RT; lia|]. destruct fuel; [lia|].
    rewrite (base_factor c tau A fuel _ _ (- ln (cash_prod v ds n stop) / tau (ds 0%nat) stop)); auto.
    - f_equal. replace (- (- ln (cash_prod v ds n stop) / tau (ds 0%nat) stop * tau (ds 0%nat) stop))
        with (ln (cash_prod v ds n stop)) by (field; auto). now apply exp_ln.
    - unfold prob_cls. rewrite K. intuition discriminate.
    - rewrite K. discriminate.
    - rewrite K. discriminate.
    - apply RT. lia.
  Qed.

  (** marginal survival probabilities *)
  Definition marg_prod (v : D -> R) (ds : nat -> D) (n : nat) (stop : D) : R :=
    prod_n (fun i => v (ds i)) n *
    Rpower (v (ds n)) (tau (ds n) stop / tau (ds n) (ds (S n))).

  Lemma marginal_loop_ok (v : D -> R) :
    forall n fuel ds stop acc, schedule (rc_tenor c) ds (S n) -> ends ds n stop ->
    (forall i, (i <= n)%nat -> has_value c (ds i) (v (ds i))) -> (n < fuel)%nat ->
    (forall i, (i <= n)%nat -> 2 * / IZR (2 ^ 1022) <= v (ds i)) ->
    marginal_loop fuel c (ds 0%nat) stop acc = Ok (acc * marg_prod v ds n stop).
  Proof.
    assert (FM : 0 < / IZR (2 ^ 1022)) by (apply Rinv_0_lt_compat, IZR_lt; reflexivity).
    induction n; intros fuel ds stop acc Sc [E1 E2] V F Q; (destruct fuel; [lia|]); cbn [marginal_loop];
      unfold has_value in V.
    - destruct (Sc 0%nat) as [-> LT]; [lia|]. apply ltb_inv in LT. cbn [bind]. rewrite ltb_f by auto.
      assert (Q0 : 2 * / IZR (2 ^ 1022) <= v (ds 0%nat)) by (apply Q; lia).
      assert (tau (ds 0%nat) (ds 1%nat) <> 0).
      { apply (tau_ne c tau A). apply eqb_f. lra. }
      rewrite V by lia. cbn [bind]. rewrite (not_tiny_true _ Q0), !(add_val _ _ A) by lia. cbn [bind].
      rewrite continuous_rate_ok by (auto; lra). cbn [bind]. rewrite continuous_compounding_ok. cbn [bind]. rn.
      f_equal. unfold marg_prod, prod_n, Rpower. simpl. rewrite Rmult_1_l. do 2 f_equal. field. auto.
    - destruct (Sc 0%nat) as [-> _]; [lia|]. cbn [bind].
      assert (tm (ds 1%nat) < tm stop).
      { destruct n as [|n']; [lra|]. pose proof (schedule_tm _ _ _ Sc 1 (S (S n'))) as H. specialize (H ltac:(lia)). lra. }
      rewrite ltb_t by auto. rewrite V by lia. cbn [bind].
      assert (Q0 : 2 * / IZR (2 ^ 1022) <= v (ds 0%nat)) by (apply Q; lia).
      rewrite (not_tiny_true _ Q0). rn.
      specialize (IHn fuel (fun i => ds (S i)) stop (acc * v (ds 0%nat))).
      cbv beta in IHn. rewrite IHn.
      + f_equal. unfold marg_prod. rewrite prod_n_S. ring.
      + now apply schedule_shift.
      + split; auto.
      + intros i Hi. apply V. lia.
      + lia.
      + intros i Hi. apply Q. lia.
  Qed.

  Lemma marg_factor fuel n ds stop (v : D -> R) : rc_cls c = CMargSurvival \/ rc_cls c = CMargDefault ->
    schedule (rc_tenor c) ds (S n) -> ends ds n stop ->
    (forall i, (i <= n)%nat -> has_value c (ds i) (v (ds i))) -> (n + 1 < fuel)%nat ->
    (forall i, (i <= n)%nat -> 2 * / IZR (2 ^ 1022) <= v (ds i)) ->
    factor fuel c (ds 0%nat) stop = Ok (marg_prod v ds n stop).
  Proof.
    intros K Sc E V F Q.
    assert (NE : d_eqb (ds 0%nat) stop = false).
    { apply eqb_f. destruct E as [E1 _]. destruct n; [lra|].
      pose proof (schedule_tm _ _ _ Sc 0 (S n)) as H. specialize (H ltac:(lia)). lra. }
    destruct fuel; [lia|].
    assert (ER : factor (S fuel) c (ds 0%nat) stop = marginal_loop fuel c (ds 0%nat) stop n1).
    { cbn [factor]. cbv zeta. rewrite NE. destruct K as [-> | ->]; reflexivity. }
    rewrite ER, (marginal_loop_ok v n) by (auto; lia). rn. now rewrite Rmult_1_l.
  Qed.

  (** the last period complete *)
  Lemma aligned_tau ds n stop : tm stop = tm (ds (S n)) -> tau (ds n) stop = tau (ds n) (ds (S n)).
  Proof.
    intro H. pose proof (add_add _ _ A (ds n) (ds (S n)) stop).
    rewrite (tau_eq A (ds (S n)) stop) in H0; [lra|]. apply eqb_t. auto.
  Qed.
  Lemma aligned_ends p ds n stop : schedule p ds (S n) -> tm stop = tm (ds (S n)) -> ends ds n stop.
  Proof. intros Sc E. split; [|lra]. rewrite E. apply (schedule_tm _ _ _ Sc). lia. Qed.

  Lemma rate_sum_aligned v ds n stop : tm stop = tm (ds (S n)) ->
    rate_sum v ds n stop = sum_n (fun i => v (ds i) * tau (ds i) (ds (S i))) (S n).
  Proof. intro H. unfold rate_sum. rewrite sum_n_last, (aligned_tau ds n stop H). reflexivity. Qed.
  Lemma cash_prod_aligned v ds n stop : tm stop = tm (ds (S n)) ->
    cash_prod v ds n stop = prod_n (fun i => / (1 + v (ds i) * tau (ds i) (ds (S i)))) (S n).
  Proof. intro H. unfold cash_prod. rewrite prod_n_last, (aligned_tau ds n stop H). reflexivity. Qed.
  Lemma marg_prod_aligned p v ds n stop : schedule p ds (S n) -> 0 < v (ds n) -> tm stop = tm (ds (S n)) ->
    marg_prod v ds n stop = prod_n (fun i => v (ds i)) (S n).
  Proof.
    intros Sc Hv H. unfold marg_prod. rewrite prod_n_last, (aligned_tau ds n stop H).
    unfold Rdiv. rewrite Rinv_r, Rpower_1; auto. apply (tau_ne c tau A). apply eqb_f.
    pose proof (schedule_tm _ _ _ Sc n (S n)) as H'. specialize (H' ltac:(lia)). lra.
  Qed.

  (** splitting at a date of the schedule *)
  Lemma rate_sum_split v ds n m stop :
    rate_sum v ds (n + m) stop =
    sum_n (fun i => v (ds i) * tau (ds i) (ds (S i))) n + rate_sum v (fun i => ds (n + i)%nat) m stop.
  Proof.
    unfold rate_sum. rewrite sum_n_add.
    rewrite (sum_n_ext (fun i => v (ds (n + i)%nat) * tau (ds (n + i)%nat) (ds (S (n + i))))
                       (fun i => v (ds (n + i)%nat) * tau (ds (n + i)%nat) (ds (n + S i)%nat))).
    - ring.
    - intros. now replace (S (n + i)) with (n + S i)%nat by lia.
  Qed.
  Lemma cash_prod_split v ds n m stop :
    cash_prod v ds (n + m) stop =
    prod_n (fun i => / (1 + v (ds i) * tau (ds i) (ds (S i)))) n * cash_prod v (fun i => ds (n + i)%nat) m stop.
  Proof.
    unfold cash_prod. rewrite prod_n_add.
    rewrite (prod_n_ext (fun i => / (1 + v (ds (n + i)%nat) * tau (ds (n + i)%nat) (ds (S (n + i)))))
                       (fun i => / (1 + v (ds (n + i)%nat) * tau (ds (n + i)%nat) (ds (n + S i)%nat)))).
    - ring.
    - intros. now replace (S (n + i)) with (n + S i)%nat by lia.
  Qed.
  Lemma schedule_tail p ds n m : schedule p ds (n + m) -> schedule p (fun i => ds (n + i)%nat) m.
  Proof.
    intros H i Hi. destruct (H (n + i)%nat) as [H1 H2]; [lia|].
    replace (n + S i)%nat with (S (n + i)) by lia. auto.
  Qed.
  Lemma schedule_head p (ds : nat -> D) n m : (m <= n)%nat -> schedule p ds n -> schedule p ds m.
  Proof. intros Hm H i Hi. apply H. lia. Qed.
End Loops.
