(** Properties C82, C83: the grids of dcf/curves/plot.py. *)
From Coq Require Import Reals Lra Lia List Bool ZArith Arith Sorted.
From Verif Require Import Num Py Spec LBase LSort MDates MTable MPlot LTable LDates PTable.
Import ListNotations.
Open Scope R_scope.

(** * Lemmas *)
Lemma pairs_cons (x y : R) xs : pairs (x :: y :: xs) = (x, y) :: pairs (y :: xs).
Proof. unfold pairs. destruct xs; reflexivity. Qed.
Lemma pairs_seq (xs : list R) : pairs xs = map (fun i => (nth i xs 0, nth (S i) xs 0)) (seq 0 (length xs - 1)).
Proof.
  destruct xs as [|x xs]; [reflexivity|]. revert x. induction xs as [|y xs IH]; intro x; [reflexivity|].
  rewrite pairs_cons, IH. cbn [length]. replace (S (S (length xs)) - 1)%nat with (S (length xs)) by lia.
  replace (S (length xs) - 1)%nat with (length xs) by lia. cbn [seq map]. f_equal.
  rewrite <- seq_shift, map_map. reflexivity.
Qed.

Lemma grid_line_ok s stop : forall m last fuel, (m < fuel)%nat ->
  (forall j, (j < m)%nat -> last + INR j * s < stop) -> stop <= last + INR m * s ->
  grid_line fuel s stop last = Ok (map (fun j => last + INR (S j) * s) (seq 0 m)).
Proof.
  induction m as [|m IH]; intros last fuel HF HJ HM; (destruct fuel as [|fuel]; [lia|]); cbn [grid_line]; rn.
  - rewrite (proj2 (Rltb_false last stop)) by (simpl in HM; lra). reflexivity.
  - rewrite (proj2 (Rltb_true last stop)) by (specialize (HJ 0%nat); simpl in HJ; apply (Rle_lt_trans _ (last + 0 * s)); [lra|apply HJ; lia]).
    rewrite (IH (last + s)); [|lia| |].
    + cbn [bind seq map]. do 2 f_equal; [simpl; lra|]. rewrite <- seq_shift, map_map. apply map_ext. intro j. rewrite !S_INR. lra.
    + intros j Hj. specialize (HJ (S j)). rewrite S_INR in HJ. assert (S j < S m)%nat by lia. specialize (HJ H). lra.
    + rewrite S_INR in HM. lra.
Qed.

(** the least m with b <= a + m * s, searched up to n *)
Fixpoint least_step (a b s : R) (n : nat) : nat :=
  match n with
  | O => O
  | S p => if Rle_dec b (a + INR (least_step a b s p) * s) then least_step a b s p else S p
  end.
Lemma least_step_ok a b s : 0 < s -> let m := least_step a b s (Z.to_nat (up ((b - a) / s))) in
  (forall j, (j < m)%nat -> a + INR j * s < b) /\ b <= a + INR m * s.
Proof.
  intro HS.
  assert (G : forall n, (forall j, (j < least_step a b s n)%nat -> a + INR j * s < b) /\ (b <= a + INR (least_step a b s n) * s \/ least_step a b s n = n)).
  { induction n as [|n [I1 I2]]; [split; [intros j Hj; simpl in Hj; lia|auto]|]. cbn [least_step].
    destruct (Rle_dec b (a + INR (least_step a b s n) * s)) as [H|H]; [tauto|].
    destruct I2 as [I2|I2]; [tauto|]. rewrite I2 in I1, H. split; auto. intros j Hj.
    assert (INR j <= INR n) by (apply le_INR; lia). assert (INR j * s <= INR n * s) by (apply Rmult_le_compat_r; lra). lra. }
  cbv zeta. set (n := Z.to_nat (up ((b - a) / s))). destruct (G n) as [G1 G2]. split; auto.
  destruct G2 as [G2|G2]; auto. rewrite G2. unfold n.
  destruct (archimed ((b - a) / s)) as [U _]. destruct (Z_le_gt_dec 0 (up ((b - a) / s))) as [Q|Q].
  - rewrite INR_IZR_INZ, Z2Nat.id by auto. apply (Rmult_lt_compat_r s) in U; auto. unfold Rdiv in U at 1.
    rewrite Rmult_assoc, Rinv_l, Rmult_1_r in U by lra. lra.
  - replace (Z.to_nat (up ((b - a) / s))) with 0%nat by lia. simpl. apply Z.gt_lt in Q. apply IZR_lt in Q.
    assert ((b - a) / s < 0) by lra. apply (Rmult_lt_compat_r s) in H; auto. unfold Rdiv in H. rewrite Rmult_assoc, Rinv_l, Rmult_1_r in H by lra. lra.
Qed.

Lemma mapM_seq {B} (f : nat -> res B) g n : (forall i, (i < n)%nat -> f i = Ok (g i)) -> mapM f (seq 0 n) = Ok (map g (seq 0 n)).
Proof. intro H. apply mapM_ok. intros i Hi. apply H. apply in_seq in Hi. lia. Qed.

Lemma mapM_map {A B C} (f : B -> res C) (g : A -> B) l : mapM f (map g l) = mapM (fun a => f (g a)) l.
Proof. induction l as [|a l IH]; cbn [map mapM]; auto. now rewrite IH. Qed.

(** * C82: [make_grid] *)
(** without a step (None or 0) every pair of neighbouring dates is divided into n parts *)
Theorem C82_parts : forall (xs : list R) (n fuel : nat) (step : option R), increasing xs -> xs <> [] -> (1 <= n < fuel)%nat ->
  step = None \/ step = Some 0 ->
  make_grid fuel xs step (INR n) =
    Ok (concat (map (fun i => map (fun j => nth i xs 0 + INR j * ((nth (S i) xs 0 - nth i xs 0) / INR n)) (seq 0 (S n)))
                    (seq 0 (length xs - 1))) ++ [last xs 0]).
Proof.
  intros xs n fuel step INC NE HF HS.
  assert (N0 : 0 < INR n) by (apply lt_0_INR; lia).
  unfold make_grid. rewrite (last_res_ok xs 0 NE), pairs_seq, mapM_map.
  rewrite (mapM_seq _ (fun i => map (fun j => nth i xs 0 + INR j * ((nth (S i) xs 0 - nth i xs 0) / INR n)) (seq 0 (S n)))); [reflexivity|].
  intros i Hi. unfold grid_part.
  assert (SP : nth i xs 0 < nth (S i) xs 0) by (apply incr_nth; auto; lia).
  set (a := nth i xs 0) in *. set (b := nth (S i) xs 0) in *.
  replace (match step with Some s => if ntruthy s then Ok s else ndiv (b - a) (INR n) | None => ndiv (b - a) (INR n) end)
    with (Ok ((b - a) / INR n)).
  2:{ destruct HS as [-> | ->]; unfold ntruthy; rn; rewrite ?Reqb_refl; cbn [negb]; now rewrite Rdivp_ok by lra. }
  cbn [bind]. assert (S0 : 0 < (b - a) / INR n) by (apply Rdiv_lt_0_compat; lra).
  unfold ntruthy. rn. rewrite (proj2 (Reqb_false ((b - a) / INR n) 0)) by lra. cbn [negb].
  rewrite (grid_line_ok _ _ n).
  - cbn [bind seq map]. do 2 f_equal; [simpl; lra|]. rewrite <- seq_shift, map_map. reflexivity.
  - lia.
  - intros j Hj. apply lt_INR in Hj. assert (INR j * ((b - a) / INR n) < INR n * ((b - a) / INR n)) by (apply Rmult_lt_compat_r; auto).
    replace (INR n * ((b - a) / INR n)) with (b - a) in H by (field; lra). lra.
  - replace (INR n * ((b - a) / INR n)) with (b - a) by (field; lra). lra.
Qed.
Print Assumptions C82_parts.

(** so the grid runs from the first to the last date, contains all dates of the domain and
    nothing outside *)
Theorem C82_covers : forall (xs : list R) (n fuel : nat), increasing xs -> xs <> [] -> (1 <= n < fuel)%nat ->
  exists g, make_grid fuel xs None (INR n) = Ok g /\ (forall x, In x xs -> In x g) /\
    (forall y, In y g -> nth 0 xs 0 <= y <= last xs 0) /\
    hd_error g = hd_error xs /\ last g 0 = last xs 0 /\ length g = ((length xs - 1) * S n + 1)%nat.
Proof.
  intros xs n fuel INC NE HF. rewrite (C82_parts xs n fuel None) by auto. eexists. split; [reflexivity|].
  assert (N0 : 0 < INR n) by (apply lt_0_INR; lia).
  pose proof (last_nth xs 0) as LX.
  assert (NX : (0 < length xs)%nat) by (destruct xs; [congruence|simpl; lia]).
  split; [|split; [|split; [|split]]].
  - intros x Ix. apply in_or_app. apply (In_nth _ _ 0) in Ix. destruct Ix as [i [Hi <-]].
    destruct (Nat.eq_dec i (length xs - 1)) as [->|Ne].
    + right. left. auto.
    + left. apply in_concat. eexists. split; [apply in_map_iff; exists i; split; [reflexivity|apply in_seq; lia]|].
      apply in_map_iff. exists 0%nat. split; [simpl; lra|apply in_seq; lia].
  - assert (MON : forall i j, (i <= j < length xs)%nat -> nth i xs 0 <= nth j xs 0).
    { intros i j Hij. destruct (Nat.eq_dec i j) as [->|Ne]; [lra|]. left. apply incr_nth; auto; lia. }
    intros y Iy. apply in_app_or in Iy. destruct Iy as [Iy|[<-|[]]].
    + apply in_concat in Iy. destruct Iy as [l [Il Iy]]. apply in_map_iff in Il. destruct Il as [i [<- Hi]]. apply in_seq in Hi.
      apply in_map_iff in Iy. destruct Iy as [j [<- Hj]]. apply in_seq in Hj.
      pose proof (MON 0%nat i). pose proof (MON (S i) (length xs - 1)%nat). pose proof (MON i (S i)). rewrite LX.
      assert (0 <= INR j <= INR n) as [J1 J2] by (split; [apply pos_INR|apply le_INR; lia]).
      set (a := nth i xs 0) in *. set (b := nth (S i) xs 0) in *.
      assert (A1 : nth 0 xs 0 <= a) by (apply H; lia). assert (A2 : b <= nth (length xs - 1) xs 0) by (apply H0; lia).
      assert (A3 : a <= b) by (apply H1; lia).
      assert (0 <= INR j * ((b - a) / INR n)).
      { apply Rmult_le_pos; auto. apply Rmult_le_pos; [lra|]. left. now apply Rinv_0_lt_compat. }
      assert (INR j * ((b - a) / INR n) <= INR n * ((b - a) / INR n)).
      { apply Rmult_le_compat_r; auto. apply Rmult_le_pos; [lra|]. left. now apply Rinv_0_lt_compat. }
      replace (INR n * ((b - a) / INR n)) with (b - a) in H3 by (field; lra). lra.
    + rewrite LX. split; [apply MON; lia|lra].
  - destruct xs as [|x xs]; [congruence|]. destruct xs as [|y xs]; [reflexivity|].
    cbn [length]. replace (S (S (length xs)) - 1)%nat with (S (length xs)) by lia. cbn [seq map concat app hd_error nth]. f_equal. simpl. lra.
  - apply last_last.
  - rewrite app_length. cbn [length]. f_equal. generalize (seq_length (length xs - 1) 0). generalize (seq 0 (length xs - 1)).
    intros l <-. induction l as [|i l IH]; [reflexivity|]. cbn [map concat length]. rewrite app_length, map_length, seq_length, IH. simpl. lia.
Qed.
Print Assumptions C82_covers.

(** but the dates of the domain after the first appear twice in it *)
Theorem C82_distinct_refuted : forall (xs : list R) (n fuel : nat), increasing xs -> (2 <= length xs)%nat -> (1 <= n < fuel)%nat ->
  exists g, make_grid fuel xs None (INR n) = Ok g /\ ~ NoDup g.
Proof.
  intros xs n fuel INC LEN HF. assert (NE : xs <> []) by (destruct xs; [simpl in LEN; lia|discriminate]).
  rewrite (C82_parts xs n fuel None) by auto. eexists. split; [reflexivity|].
  assert (N0 : 0 < INR n) by (apply lt_0_INR; lia).
  assert (LX : last xs 0 = nth (S (length xs - 2)) xs 0) by (rewrite last_nth; f_equal; lia).
  intro ND. apply NoDup_remove_2 in ND. apply ND. rewrite app_nil_r. apply in_concat.
  eexists. split; [apply in_map_iff; exists (length xs - 2)%nat; split; [reflexivity|apply in_seq; lia]|].
  apply in_map_iff. exists n. split; [|apply in_seq; lia]. rewrite LX. field. lra.
Qed.
Print Assumptions C82_distinct_refuted.

(** with a positive step: multiples of the step from each date until the next one is reached or
    passed *)
Theorem C82_step : forall (xs : list R) (s nums : R), increasing xs -> xs <> [] -> 0 < s ->
  exists (k : nat) (m : nat -> nat),
    (forall i, (S i < length xs)%nat -> nth (S i) xs 0 <= nth i xs 0 + INR (m i) * s < nth (S i) xs 0 + s) /\
    forall fuel, (k <= fuel)%nat -> make_grid fuel xs (Some s) nums =
      Ok (concat (map (fun i => map (fun j => nth i xs 0 + INR j * s) (seq 0 (S (m i)))) (seq 0 (length xs - 1))) ++ [last xs 0]).
Proof.
  intros xs s nums INC NE HS.
  set (m := fun i => least_step (nth i xs 0) (nth (S i) xs 0) s (Z.to_nat (up ((nth (S i) xs 0 - nth i xs 0) / s)))).
  assert (Hm : forall i, (forall j, (j < m i)%nat -> nth i xs 0 + INR j * s < nth (S i) xs 0) /\ nth (S i) xs 0 <= nth i xs 0 + INR (m i) * s)
    by (intro i; apply least_step_ok; auto).
  clearbody m.
  exists (S (fold_right Nat.max 0%nat (map m (seq 0 (length xs - 1))))), m. split.
  - intros i Hi. destruct (Hm i) as [H1 H2]. split; auto.
    destruct (m i) as [|p] eqn:E.
    + simpl in H2. pose proof (incr_nth xs i (S i) INC). assert (i < S i < length xs)%nat as X by lia. specialize (H X). simpl. lra.
    + specialize (H1 p). rewrite S_INR. assert (p < S p)%nat as X by lia. specialize (H1 X). lra.
  - intros fuel HF. unfold make_grid. rewrite (last_res_ok xs 0 NE), pairs_seq, mapM_map.
    rewrite (mapM_seq _ (fun i => map (fun j => nth i xs 0 + INR j * s) (seq 0 (S (m i))))); [reflexivity|].
    intros i Hi. unfold grid_part. unfold ntruthy. rn. rewrite (proj2 (Reqb_false s 0)) by lra. cbn [negb bind].
    rewrite (proj2 (Reqb_false s 0)) by lra. cbn [negb]. destruct (Hm i) as [H1 H2].
    rewrite (grid_line_ok s _ (m i)); auto.
    + cbn [bind seq map]. do 2 f_equal; [simpl; lra|]. rewrite <- seq_shift, map_map. reflexivity.
    + assert (m i <= fold_right Nat.max 0%nat (map m (seq 0 (length xs - 1))))%nat; [|lia].
      assert (In (m i) (map m (seq 0 (length xs - 1)))) as I by (apply in_map, in_seq; lia).
      clear -I. induction (map m (seq 0 (length xs - 1))) as [|q l IH]; [destruct I|]. cbn [fold_right].
      destruct I as [->|I]; [lia|]. specialize (IH I). lia.
Qed.
Print Assumptions C82_step.

(** so it leaves the domain unless the step fits: between two dates whose distance is no
    multiple of the step, the grid goes beyond the last date and turns back *)
Theorem C82_inside_refuted : forall a b s nums, a < b -> 0 < s -> (forall k : nat, b - a <> INR k * s) ->
  exists k, forall fuel, (k <= fuel)%nat -> exists g x, make_grid fuel [a; b] (Some s) nums = Ok g /\ In x g /\ b < x /\ last g 0 = b.
Proof.
  intros a b s nums AB HS NM. assert (INC : increasing [a; b]) by (repeat constructor; auto).
  destruct (C82_step [a; b] s nums INC) as [k [m [Hm HG]]]; auto; [discriminate|].
  exists k. intros fuel HF. rewrite (HG fuel HF). do 2 eexists. split; [reflexivity|].
  specialize (Hm 0%nat). cbn [nth length] in Hm. assert (1 < 2)%nat as X by lia. specialize (Hm X). clear X.
  split; [|split; [|apply last_last]].
  - apply in_or_app. left. apply in_concat. eexists. split; [apply in_map_iff; exists 0%nat; split; [reflexivity|apply in_seq; simpl; lia]|].
    apply in_map_iff. exists (m 0%nat). split; [reflexivity|apply in_seq; lia].
  - cbn [nth]. specialize (NM (m 0%nat)). lra.
Qed.
Print Assumptions C82_inside_refuted.

(** and a negative step never returns *)
Theorem C82_negative_refuted : forall (xs : list R) (s nums : R) fuel, increasing xs -> (2 <= length xs)%nat -> s < 0 ->
  make_grid fuel xs (Some s) nums = Err OutOfFuel.
Proof.
  intros xs s nums fuel INC LEN HS. destruct xs as [|x [|y xs]]; try (simpl in LEN; lia).
  assert (XY : x < y) by (inversion INC as [|? ? _ F]; inversion F; auto).
  unfold make_grid. rewrite pairs_cons. cbn [mapM]. unfold grid_part at 1. unfold ntruthy. rn.
  rewrite (proj2 (Reqb_false s 0)) by lra. cbn [negb bind]. rewrite (proj2 (Reqb_false s 0)) by lra. cbn [negb].
  assert (forall fuel last, last < y -> grid_line fuel s y last = Err OutOfFuel) as ->; auto.
  clear -HS. induction fuel as [|n IH]; intros last H; cbn [grid_line]; auto. rn.
  rewrite (proj2 (Rltb_true last y)) by auto. rewrite IH by lra. reflexivity.
Qed.
Print Assumptions C82_negative_refuted.

(** two points and the grid of quarters *)
Example C82_instance : increasing [0; 1; 3] /\ exists g, make_grid 5 [0; 1; 3] None (INR 4) = Ok g /\ In (1/4) g /\ In (5/2) g.
Proof.
  assert (I : increasing [0; 1; 3]) by (repeat constructor; lra). split; auto.
  rewrite (C82_parts [0; 1; 3] 4 5 None) by (auto; try discriminate; lia). eexists. split; [reflexivity|].
  cbn [length Nat.sub seq map concat app nth]. simpl INR. split.
  - right. left. lra.
  - do 8 right. left. lra.
Qed.

(** * C83: the default axis of the [rate_table] of plot.py *)
Lemma rt_line_exact step e : forall m s fuel, (m < fuel)%nat ->
  (forall j, (1 <= j <= m)%nat -> s + INR j * step < e) -> e <= s + INR (S m) * step ->
  exists l, rt_line fuel step e s = Ok l /\ length l = S m.
Proof.
  induction m as [|m IH]; intros s fuel HF HJ HM; (destruct fuel as [|fuel]; [lia|]); cbn [rt_line]; rn.
  - rewrite (proj2 (Rltb_false (s + step) e)) by (simpl in HM; lra). eexists. split; reflexivity.
  - rewrite (proj2 (Rltb_true (s + step) e)) by (specialize (HJ 1%nat); simpl in HJ; rewrite Rmult_1_l in HJ; apply HJ; lia).
    destruct (IH (s + step) fuel) as [l [-> E]].
    + lia.
    + intros j Hj. specialize (HJ (S j)). rewrite S_INR in HJ. assert (1 <= S j <= S m)%nat as X by lia. specialize (HJ X). lra.
    + rewrite S_INR in HM. lra.
    + cbn [bind]. eexists. split; [reflexivity|]. cbn [length]. lia.
Qed.

Lemma fold_nmin (ds : list R) : forall d, let m := fold_left nmin ds d in In m (d :: ds) /\ forall x, In x (d :: ds) -> m <= x.
Proof.
  induction ds as [|y ds IH]; intros d; cbn [fold_left]; cbv zeta.
  - split; [simpl; auto|]. intros x [<-|[]]. lra.
  - destruct (IH (nmin d y)) as [I M]. cbv zeta in *. set (m := fold_left nmin ds (nmin d y)) in *.
    assert (Q : (nmin d y = d \/ nmin d y = y) /\ nmin d y <= d /\ nmin d y <= y).
    { unfold nmin. rn. destruct (Rltb y d) eqn:E; [apply Rltb_true in E|apply Rltb_false in E]; lra. }
    destruct Q as [Q1 [Q2 Q3]]. split.
    + destruct I as [I|I]; [|simpl; auto]. rewrite <- I. destruct Q1 as [-> | ->]; simpl; auto.
    + intros x [<-|[<-|Ix]].
      * pose proof (M _ (or_introl eq_refl)). lra.
      * pose proof (M _ (or_introl eq_refl)). lra.
      * apply M. simpl; auto.
Qed.
Lemma fold_max ns : forall n, let m := fold_left Nat.max ns n in In m (n :: ns) /\ forall x, In x (n :: ns) -> (x <= m)%nat.
Proof.
  induction ns as [|y ns IH]; intros n; cbn [fold_left]; cbv zeta.
  - split; [simpl; auto|]. intros x [<-|[]]. lia.
  - destruct (IH (Nat.max n y)) as [I M]. cbv zeta in *. set (m := fold_left Nat.max ns (Nat.max n y)) in *. split.
    + destruct I as [I|I]; [|simpl; auto]. rewrite <- I. destruct (Nat.max_spec n y) as [[_ ->]|[_ ->]]; simpl; auto.
    + intros x [<-|[<-|Ix]].
      * pose proof (M _ (or_introl eq_refl)). lia.
      * pose proof (M _ (or_introl eq_refl)). lia.
      * apply M. simpl; auto.
Qed.

(** for an increasing grid: the multiples of the smallest span, as many as fit strictly into
    the widest span *)
Theorem C83_axis : forall xs : list R, increasing xs -> (2 <= length xs)%nat ->
  let span i := nth (S i) xs 0 - nth i xs 0 in
  exists (k m : nat) (step : R),
    (forall fuel, (k <= fuel)%nat -> pt_ygrid fuel xs = Ok (map (fun j => step * INR j) (seq 0 m))) /\
    (exists i, (S i < length xs)%nat /\ step = span i) /\ (forall i, (S i < length xs)%nat -> step <= span i) /\
    forall j : nat, (j < m)%nat <-> exists i, (S i < length xs)%nat /\ INR j * step < span i.
Proof.
  intros xs INC LEN span.
  pose proof (diffs_pos xs INC) as PD. pose proof (diffs_length xs) as DL.
  assert (HN : forall i, (S i < length xs)%nat -> nth i (rt_diffs xs) 0 = span i) by apply diffs_nth.
  destruct (rt_diffs xs) as [|d ds] eqn:ED; [simpl in DL; lia|].
  destruct (fold_nmin ds d) as [MI MM]. cbv zeta in MI, MM. set (step := fold_left nmin ds d) in *.
  assert (S0 : 0 < step) by (apply PD; auto).
  assert (EX : exists i, (S i < length xs)%nat /\ step = span i).
  { apply (In_nth _ _ 0) in MI. destruct MI as [i [Hi Ei]]. exists i. split; [lia|]. rewrite <- HN by lia. auto. }
  assert (LE : forall i, (S i < length xs)%nat -> step <= span i).
  { intros i Hi. rewrite <- HN by lia. apply MM. apply nth_In. lia. }
  set (q := fun i => least_step (nth i xs 0) (nth (S i) xs 0) step (Z.to_nat (up ((nth (S i) xs 0 - nth i xs 0) / step)))).
  assert (Hq : forall i, (forall j, (j < q i)%nat -> nth i xs 0 + INR j * step < nth (S i) xs 0) /\ nth (S i) xs 0 <= nth i xs 0 + INR (q i) * step)
    by (intro i; apply least_step_ok; auto).
  assert (Q1 : forall i, (S i < length xs)%nat -> (1 <= q i)%nat).
  { intros i Hi. destruct (Hq i) as [_ H]. destruct (q i); [|lia]. simpl in H. specialize (LE i Hi). unfold span in LE. lra. }
  clearbody q. set (ns := map q (seq 0 (length xs - 1))).
  destruct (fold_max ns 1%nat) as [NI NM]. cbv zeta in NI, NM. set (m := fold_left Nat.max ns 1%nat) in *.
  exists (S m), m, step. split; [|split; [auto|split; [auto|]]].
  - intros fuel HF. unfold pt_ygrid. rewrite ED. fold step. cbn [bind].
    assert (mapM (pt_ticks fuel step) (pairs xs) = Ok ns) as ->.
    { rewrite pairs_seq, mapM_map. apply mapM_seq. intros i Hi. unfold pt_ticks. rn.
      rewrite (proj2 (Rltb_true (nth i xs 0) (nth i xs 0 + step))) by lra.
      assert (Hi' : (S i < length xs)%nat) by lia. specialize (Q1 i Hi'). destruct (Hq i) as [H1 H2].
      assert (q i <= m)%nat by (apply NM; right; apply in_map, in_seq; lia).
      destruct (q i) as [|p] eqn:Eq; [lia|].
      destruct (rt_line_exact step (nth (S i) xs 0) p (nth i xs 0) fuel) as [l [-> El]].
      - lia. - intros j Hj. apply H1. lia. - exact H2. - cbn [bind]. now rewrite El. }
    cbn [bind]. f_equal. apply map_ext. intro j. now rewrite n_ofN_INR.
  - intro j. split.
    + intro Hj. destruct NI as [NI|NI].
      * exists 0%nat. split; [lia|]. replace j with 0%nat by lia. assert (0 < 2)%nat by lia. simpl. specialize (LE 0%nat). assert (1 < length xs)%nat as X by lia. specialize (LE X). lra.
      * apply in_map_iff in NI. destruct NI as [i [Ei Ii]]. apply in_seq in Ii. exists i. split; [lia|].
        destruct (Hq i) as [H1 _]. unfold span. specialize (H1 j). rewrite Ei in H1. specialize (H1 Hj). lra.
    + intros [i [Hi Hj]]. assert (j < q i)%nat.
      { destruct (Hq i) as [_ H2]. destruct (Nat.lt_ge_cases j (q i)) as [|G]; auto. exfalso.
        assert (INR (q i) <= INR j) by (now apply le_INR). assert (INR (q i) * step <= INR j * step) by (apply Rmult_le_compat_r; lra).
        unfold span in Hj. lra. }
      assert (q i <= m)%nat by (apply NM; right; apply in_map, in_seq; lia). lia.
Qed.
Print Assumptions C83_axis.

(** the first cell of every row is the value at its date, if not all spans are equal *)
Theorem C83_rows : forall {V} (g : R -> V) (xs : list R), increasing xs -> (2 <= length xs)%nat ->
  (exists i j, (S i < length xs)%nat /\ (S j < length xs)%nat /\ nth (S i) xs 0 - nth i xs 0 <> nth (S j) xs 0 - nth j xs 0) ->
  exists k, forall fuel, (k <= fuel)%nat -> exists ys rows,
    pt_table fuel (fun d => Ok (g d)) xs = Ok (ys, rows) /\ map fst rows = xs /\
    forall x vs, In (x, vs) rows -> exists vs', vs = g x :: vs'.
Proof.
  intros V g xs INC LEN NEQ.
  destruct (C83_axis xs INC LEN) as [k [m [step [HY [[i0 [Hi0 Ei0]] [HL HM]]]]]]. cbv zeta in *.
  assert (S0 : 0 < step) by (rewrite Ei0; pose proof (incr_nth xs i0 (S i0) INC) as Q; assert (i0 < S i0 < length xs)%nat as X by lia; specialize (Q X); lra).
  clear Ei0.
  assert (M2 : (2 <= m)%nat).
  { destruct NEQ as [i [j [Hi [Hj NE]]]]. pose proof (HL i Hi) as Li. pose proof (HL j Hj) as Lj.
    assert (1 < m)%nat; [|lia]. apply HM. destruct (Req_EM_T step (nth (S i) xs 0 - nth i xs 0)) as [E|N].
    - exists j. split; auto. simpl. lra. - exists i. split; auto. simpl. lra. }
  exists k. intros fuel HF. unfold pt_table. rewrite (HY fuel HF). cbn [bind].
  set (ys := map FP (map (fun j => step * INR j) (seq 0 m))).
  assert (exists ys', ys = FP 0 :: ys' /\ last ys (FP 0) = FP (step * INR (m - 1))) as [ys' [EY LY]].
  { unfold ys. destruct m as [|p]; [lia|]. cbn [seq map]. eexists. split; [f_equal; f_equal; simpl; lra|].
    replace (S p - 1)%nat with p by lia. change (FP (step * INR 0) :: map FP (map (fun j => step * INR j) (seq 1 p))) with (map FP (map (fun j => step * INR j) (seq 0 (S p)))).
    rewrite seq_S, !map_app. cbn [map]. apply last_last. }
  assert (R1 : forall x lst, exists cs, rt_cells (DS:=FloatDates) (fun d => Ok (g d)) x lst ys = Ok cs /\
             (x < lst -> exists cs', cs = g x :: cs')).
  { intros x lst.
    assert (TOT : forall js, exists cs, rt_cells (DS:=FloatDates) (fun d => Ok (g d)) x lst (map FP js) = Ok cs).
    { induction js as [|j js [cs IH]]; [eexists; reflexivity|]. cbn [map rt_cells d_add d_ltb FloatDates bind]. rewrite IH. cbn [bind].
      destruct (nltb _ _); eauto. }
    unfold ys. destruct m as [|p]; [lia|]. cbn [seq map rt_cells d_add d_ltb FloatDates bind].
    destruct (TOT (map (fun j => step * INR j) (seq 1 p))) as [cs ->]. cbn [bind]. rn.
    replace (x + step * INR 0) with x by (simpl; lra).
    destruct (Rltb x lst) eqn:E; eexists; (split; [reflexivity|]); intro H; eauto. apply Rltb_false in E. lra. }
  assert (R2 : forall l, StronglySorted Rlt l -> exists rows, rt_rows (DS:=FloatDates) (fun d => Ok (g d)) ys l = Ok rows /\ map fst rows = l /\
             forall x vs, In (x, vs) rows -> exists vs', vs = g x :: vs').
  { induction l as [|x l IH]; intro SS; [eexists; repeat split; simpl; tauto|]. inversion SS as [|? ? S1 S2]; subst.
    destruct (IH S1) as [rows [E [E1 E2]]]. cbn [rt_rows].
    assert (exists lst, match l with x' :: _ => Ok x' | [] => y <- last_res ys ;; a <- d_add (DateSys:=FloatDates) x y ;; d_add (DateSys:=FloatDates) a y end = Ok lst /\ x < lst) as [lst [-> LT]].
    { destruct l as [|x' l].
      - rewrite (last_res_ok ys (FP 0)) by (rewrite EY; discriminate). rewrite LY. cbn [bind d_add FloatDates]. rn. eexists. split; [reflexivity|].
        assert (1 <= INR (m - 1)) by (replace 1 with (INR 1) by reflexivity; apply le_INR; lia).
        assert (0 < step * INR (m - 1)) by (apply Rmult_lt_0_compat; lra). lra.
      - eexists. split; [reflexivity|]. inversion S2; auto. }
    destruct (R1 x lst) as [cs [EC HC]]. cbn [bind]. rewrite EC. cbn [bind]. rewrite E. cbn [bind].
    eexists. split; [reflexivity|]. split; [simpl; now rewrite E1|]. intros z vs [I|I]; [inversion I; subst; auto|eauto]. }
  destruct (R2 xs INC) as [rows [E [E1 E2]]]. unfold rate_table. rewrite E. cbn [bind]. eauto 6.
Qed.
Print Assumptions C83_rows.

(** but for equidistant dates the axis is 0 alone and the row of the last date is empty *)
Theorem C83_last_date_refuted : forall {V} (g : R -> V) (xs : list R), increasing xs -> (2 <= length xs)%nat ->
  (forall i j, (S i < length xs)%nat -> (S j < length xs)%nat -> nth (S i) xs 0 - nth i xs 0 = nth (S j) xs 0 - nth j xs 0) ->
  exists k, forall fuel, (k <= fuel)%nat -> exists rows,
    pt_table fuel (fun d => Ok (g d)) xs = Ok ([FP 0], rows) /\ In (last xs 0, []) rows.
Proof.
  intros V g xs INC LEN EQ.
  destruct (C83_axis xs INC LEN) as [k [m [step [HY [[i0 [Hi0 Ei0]] [HL HM]]]]]]. cbv zeta in *.
  assert (S0 : 0 < step) by (rewrite Ei0; pose proof (incr_nth xs i0 (S i0) INC) as Q; assert (i0 < S i0 < length xs)%nat as X by lia; specialize (Q X); lra).
  assert (m = 1%nat).
  { assert (0 < m)%nat by (apply HM; exists i0; split; auto; simpl; lra).
    assert (~ (1 < m)%nat); [|lia]. intro H1. apply HM in H1. destruct H1 as [i [Hi Q]]. simpl in Q.
    rewrite (EQ i i0 Hi Hi0) in Q. lra. }
  subst m. exists k. intros fuel HF. unfold pt_table. rewrite (HY fuel HF). cbn [bind seq map].
  replace (step * INR 0) with 0 by (simpl; lra).
  assert (R2 : forall l, l <> [] -> exists rows, rt_rows (DS:=FloatDates) (fun d => Ok (g d)) [FP 0] l = Ok rows /\ In (last l 0, []) rows).
  { induction l as [|x l IH]; intro NE; [congruence|]. destruct l as [|y l].
    - cbn [rt_rows last_res bind d_add FloatDates rt_cells d_ltb]. rn.
      rewrite (proj2 (Rltb_false (x + 0) (x + 0 + 0))) by lra. cbn [bind]. eexists. split; [reflexivity|]. simpl; auto.
    - destruct IH as [rows [E I]]; [discriminate|]. cbn [rt_rows] in *. cbn [bind rt_cells d_add d_ltb FloatDates] in *. rn.
      destruct (Rltb (x + 0) y); rewrite E; cbn [bind]; (eexists; split; [reflexivity|]; right; exact I). }
  destruct (R2 xs) as [rows [E I]]; [destruct xs; [simpl in LEN; lia|discriminate]|].
  exists rows. unfold rate_table. rewrite E. auto.
Qed.
Print Assumptions C83_last_date_refuted.

Example C83_instance : increasing [0; 1; 3] /\ (2 <= length [0; 1; 3])%nat /\
  (exists i j, (S i < length [0; 1; 3])%nat /\ (S j < length [0; 1; 3])%nat /\
     nth (S i) [0; 1; 3] 0 - nth i [0; 1; 3] 0 <> nth (S j) [0; 1; 3] 0 - nth j [0; 1; 3] 0).
Proof.
  split; [repeat constructor; lra|]. split; [simpl; lia|]. exists 0%nat, 1%nat. simpl. repeat split; try lia. lra.
Qed.

(** a grid of fewer than two dates has no span: the table cannot be made *)
Theorem C83_short_grid : forall {V} fuel (curve : R -> res V) (xs : list R), (length xs < 2)%nat ->
  pt_table fuel curve xs = Err ValueError.
Proof. intros V fuel curve [|x [|y xs]] H; [reflexivity|reflexivity|cbn in H; lia]. Qed.
Print Assumptions C83_short_grid.
