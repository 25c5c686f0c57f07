(** Properties C60, C61 (dcf/ratingclass.py) and C64 ([rate_table],
    dcf/curves/curve.py:24-99). *)
From Coq Require Import Reals Lra Lia List Arith Bool ZArith Sorted Permutation.
From Verif Require Import Num Py Spec SDates LBase LSort MDates LDates MTable STable LTable.
Import ListNotations.
Open Scope R_scope.

(** * C64 *)
(** with given grids: the header is the y grid; row i holds x_i and the curve at those
    x_i + y_j which lie before the next grid point, after the last one before
    x_n + y_m + y_m *)
Theorem C64_rows : forall {D P V} (DS : DateSys R D P) (add : D -> P -> D) (g : D -> V),
  (forall d p, d_add d p = Ok (add d p)) ->
  forall (xs : list D) (ys : list P) (y0 : P), ys <> [] ->
  exists rows, rate_table (fun d => Ok (g d)) xs ys = Ok (ys, rows) /\ length rows = length xs /\
    forall i x, nth_error xs i = Some x ->
      let lst := match nth_error xs (S i) with
                 | Some x' => x'
                 | None => add (add x (last ys y0)) (last ys y0)
                 end in
      nth_error rows i = Some (x, map g (filter (fun d => d_ltb d lst) (map (add x) ys))).
Proof.
  intros D P V DS add g HA xs ys y0 NE.
  assert (HC : forall x lst l, rt_cells (fun d => Ok (g d)) x lst l = Ok (map g (filter (fun d => d_ltb d lst) (map (add x) l)))).
  { intros x lst l. induction l as [|y l IH]; auto. cbn [rt_cells]. rewrite HA. cbn [bind]. rewrite IH.
    cbn [map filter]. destruct (d_ltb (add x y) lst); auto. }
  assert (HR : exists rows, rt_rows (fun d => Ok (g d)) ys xs = Ok rows /\ length rows = length xs /\
    forall i x, nth_error xs i = Some x ->
      let lst := match nth_error xs (S i) with
                 | Some x' => x'
                 | None => add (add x (last ys y0)) (last ys y0)
                 end in
      nth_error rows i = Some (x, map g (filter (fun d => d_ltb d lst) (map (add x) ys)))).
  { induction xs as [|x xs IH].
    - exists []. split; auto. split; auto. intros [|i] x H; discriminate.
    - destruct IH as [rows [E [HL H]]]. cbn [rt_rows].
      set (lst := match xs with x' :: _ => x' | [] => add (add x (last ys y0)) (last ys y0) end).
      assert (EL : match xs with x' :: _ => Ok x' | [] => y <- last_res ys ;; a <- d_add x y ;; d_add a y end = Ok lst).
      { destruct xs; auto. rewrite (last_res_ok ys y0) by auto. cbn [bind]. rewrite HA. cbn [bind]. rewrite HA. reflexivity. }
      rewrite EL. cbn [bind]. rewrite HC. cbn [bind]. rewrite E. cbn [bind].
      eexists. split; [reflexivity|]. split; [simpl; auto|].
      intros [|i] z Hz.
      + cbn in Hz. inversion Hz; subst z. cbn [nth_error]. unfold lst. destruct xs; reflexivity.
      + apply (H i z Hz). }
  destruct HR as [rows [E H]]. exists rows. unfold rate_table. rewrite E. auto.
Qed.
Print Assumptions C64_rows.

(** the default y grid of an increasing x grid of numbers: computed in finitely many
    steps, increasing, starting at 0 and containing exactly the multiples of the step
    sizes below the span: the step of a span is the span before, the span itself for the
    first one *)
Theorem C64_default_grid : forall xs : list R, increasing xs -> (2 <= length xs)%nat ->
  let span i := nth (S i) xs 0 - nth i xs 0 in
  let step i := match i with O => span 0%nat | S k => span k end in
  exists k ys, (forall fuel, (k <= fuel)%nat -> rt_ygrid fuel xs = Ok ys) /\
    increasing ys /\ hd_error ys = Some 0 /\
    forall y, In y ys <-> y = 0 \/
      exists i j : nat, (S i < length xs)%nat /\ (1 <= j)%nat /\ y = INR j * step i /\ (j = 1%nat \/ y < span i).
Proof.
  intros xs INC LEN span step.
  pose proof (diffs_pos xs INC) as PD. pose proof (diffs_length xs) as DL.
  assert (HN : forall i, (S i < length xs)%nat -> nth i (rt_diffs xs) 0 = span i) by apply diffs_nth.
  assert (S0 : 0 < span 0%nat).
  { rewrite <- HN by lia. apply PD, nth_In. lia. }
  destruct (lines_ok (rt_diffs xs) (span 0%nat) S0 PD) as [k Hk].
  destruct (Hk k) as [l [El Hl]]; [lia|].
  assert (ST : nth_res (rt_diffs xs) 0 = Ok (span 0%nat)).
  { rewrite (nth_res_ok _ _ 0) by lia. f_equal. apply HN. lia. }
  exists k, (sorted_set Rltb Reqb (span 0%nat * 0 :: l)).
  assert (IN : forall y, In y l <-> exists i j : nat, (S i < length xs)%nat /\ (1 <= j)%nat /\ y = INR j * step i /\ (j = 1%nat \/ y < span i)).
  { intro y. rewrite Hl. split.
    - intros [s [e [j [I [J [-> C]]]]]]. apply (In_nth _ _ (0, 0)) in I. destruct I as [i [Hi Ei]].
      rewrite step_spans_length in Hi. rewrite step_spans_nth in Ei by auto. inversion Ei; subst s e.
      exists i, j. split; [lia|]. split; auto. rewrite HN in C by lia.
      assert (ES : match i with O => span 0%nat | S k => nth k (rt_diffs xs) 0 end = step i).
      { unfold step. destruct i; auto. apply HN. lia. }
      rewrite ES in *. auto.
    - intros [i [j [Hi [J [-> C]]]]]. exists (step i), (span i), j. split; auto.
      replace (step i, span i) with (nth i (step_spans (span 0%nat) (rt_diffs xs)) (0, 0)).
      + apply nth_In. rewrite step_spans_length. lia.
      + rewrite step_spans_nth by lia. rewrite HN by lia. unfold step. destruct i; auto. rewrite HN by lia. auto. }
  split; [|split; [|split]].
  - intros fuel HF. unfold rt_ygrid. rewrite ST. cbn [bind]. rn.
    destruct (Hk fuel HF) as [l' [-> Hl']]. cbn [bind]. f_equal.
    apply incr_ext; try apply sorted_set_incr. intro y. rewrite !sorted_set_in. simpl. rewrite Hl, Hl'. tauto.
  - apply sorted_set_incr.
  - pose proof (sorted_set_incr (span 0%nat * 0 :: l)) as SI.
    assert (I0 : In 0 (sorted_set Rltb Reqb (span 0%nat * 0 :: l))) by (rewrite sorted_set_in; left; lra).
    assert (GE : forall y, In y (sorted_set Rltb Reqb (span 0%nat * 0 :: l)) -> 0 <= y).
    { intros y Hy. rewrite sorted_set_in in Hy. destruct Hy as [<-|Hy]; [lra|]. apply IN in Hy.
      destruct Hy as [i [j [Hi [J [-> _]]]]]. apply Rmult_le_pos; [apply pos_INR|].
      unfold step. destruct i; [lra|]. left. rewrite <- HN by lia. apply PD, nth_In. lia. }
    destruct (sorted_set Rltb Reqb (span 0%nat * 0 :: l)) as [|a r]; [destruct I0|].
    simpl. f_equal. inversion SI as [|? ? S1 S2]; subst. destruct I0 as [I0|I0]; auto.
    rewrite Forall_forall in S2. specialize (S2 _ I0). specialize (GE a (or_introl eq_refl)). lra.
  - intro y. rewrite sorted_set_in. simpl. rewrite IN. split; intros [H|H]; auto; left; lra.
Qed.
Print Assumptions C64_default_grid.

(** fewer than two grid points raise IndexError *)
Theorem C64_short_grid : forall (fuel : nat) (xs : list R), (length xs < 2)%nat -> rt_ygrid fuel xs = Err IndexError.
Proof. intros fuel [|x [|y xs]] H; simpl in H; try lia; reflexivity. Qed.
Print Assumptions C64_short_grid.

(** the default x grid is the domain, with the origin first unless it is contained *)
Theorem C64_default_x : forall {D P} (DS : DateSys R D P) (tm : D -> R), DateLaws DS tm ->
  forall (domain : list D) o, exists xs, rt_xgrid domain (Some o) = Ok xs /\
    (In (tm o) (map tm domain) -> xs = domain) /\ (~ In (tm o) (map tm domain) -> xs = o :: domain).
Proof.
  intros D P DS tm L domain o. unfold rt_xgrid. eexists. split; [reflexivity|].
  assert (X : mem d_eqb o domain = true <-> In (tm o) (map tm domain)).
  { unfold mem. rewrite existsb_exists, in_map_iff. split; intros [x [A B]]; exists x.
    - apply law_eqb in B. auto.
    - split; auto. now apply law_eqb. }
  destruct (mem d_eqb o domain); split; intro H; auto.
  - exfalso. tauto.
  - apply X in H. discriminate.
Qed.
Print Assumptions C64_default_x.

(** a grid whose first step goes backwards: the loop never ends *)
Theorem C64_decreasing_grid_refuted : exists xs : list R, NoDup xs /\ forall fuel, rt_ygrid fuel xs = Err OutOfFuel.
Proof.
  exists [1; 0]. split; [repeat constructor; simpl; intuition lra|]. intro fuel.
  unfold rt_ygrid, rt_diffs. cbn [removelast tl combine map fst snd nth_res nth_error bind rt_lines]. rn.
  rewrite line_loops by lra. reflexivity.
Qed.
Print Assumptions C64_decreasing_grid_refuted.

(** the grid 0, 1, 4 has the default axis 0, 1, 2: the span from 1 to 4 has step 1 *)
Example C64_example : exists k ys, (forall fuel, (k <= fuel)%nat -> rt_ygrid fuel [0; 1; 4] = Ok ys) /\
  In 0 ys /\ In 1 ys /\ In 2 ys /\ ~ In 3 ys.
Proof.
  destruct (C64_default_grid [0; 1; 4]) as [k [ys [H [_ [_ I]]]]]; [repeat constructor; lra | simpl; lia |].
  exists k, ys. split; auto. split; [|split; [|split]].
  - apply I. auto.
  - apply I. right. exists 0%nat, 1%nat. simpl. repeat split; auto; lra.
  - apply I. right. exists 1%nat, 2%nat. simpl. repeat split; auto; try lra; right; lra.
  - rewrite I. intros [X|[i [j [Hi [J [E C]]]]]]; [lra|]. simpl in Hi.
    assert (X : i = 0%nat \/ i = 1%nat) by lia. destruct X as [-> | ->]; simpl in *.
    + destruct C as [-> | C]; [simpl in E; lra|]. lra.
    + destruct C as [-> | C]; [simpl in E; lra|]. lra.
Qed.

(** * C61 *)
Theorem C61_master_scale : forall {K} (keqb : K -> K -> bool), (forall a b, keqb a b = true <-> a = b) ->
  forall ks : list K, NoDup ks -> (2 <= length ks)%nat ->
  exists vs, ms_fromkeys (T:=R) keqb ks None = Ok (combine ks vs) /\ length vs = length ks /\
    (forall i, (i < length ks)%nat -> nth i vs 0 = / 10 ^ (length ks - 1 - i)) /\
    nth 0 vs 0 = / 10 ^ (length ks - 1) /\ nth (length ks - 1) vs 0 = 1 /\
    (forall i, (S i < length ks)%nat -> nth (S i) vs 0 = 10 * nth i vs 0) /\ increasing vs.
Proof.
  intros K keqb KE ks ND LEN. set (n := length ks) in *.
  assert (NZ : IZR (Z.of_nat n - 1) = INR n - 1) by (rewrite minus_IZR, <- INR_IZR_INZ; auto).
  assert (N1 : 1 < INR n) by (apply (lt_INR 1) in LEN; simpl in LEN; lra).
  set (x := exp (- (INR n - 1) * ln 10)).
  set (g := fun i : nat => exp (ln x - ln x * INR i / (INR n - 1))).
  assert (LX : ln x = - (INR n - 1) * ln 10) by (unfold x; apply ln_exp).
  assert (E10 : forall k : nat, exp (- INR k * ln 10) = / 10 ^ k).
  { intro k. replace (- INR k * ln 10) with (- (INR k * ln 10)) by lra. rewrite exp_Ropp. f_equal.
    change (Rpower 10 (INR k) = 10 ^ k). apply Rpower_pow. lra. }
  assert (V : ms_values x n = Ok (map g (seq 0 n))).
  { unfold ms_values. apply mapM_ok. intros i _. rn. rewrite Rlogp_ok by apply exp_pos. cbn [bind].
    rewrite n_ofN_INR, NZ, Rdivp_ok by lra. cbn [bind]. reflexivity. }
  assert (G : forall i, (i < n)%nat -> g i = / 10 ^ (n - 1 - i)).
  { intros i Hi. unfold g. rewrite LX, <- E10. f_equal. rewrite !minus_INR by lia. simpl INR. field. lra. }
  assert (NV : forall i, (i < n)%nat -> nth i (map g (seq 0 n)) 0 = / 10 ^ (n - 1 - i)).
  { intros i Hi. rewrite (nth_indep _ 0 (g 0%nat)) by now rewrite map_length, seq_length.
    rewrite map_nth, seq_nth by auto. apply G. auto. }
  assert (STEP : forall i, (S i < n)%nat -> nth (S i) (map g (seq 0 n)) 0 = 10 * nth i (map g (seq 0 n)) 0).
  { intros i Hi. rewrite !NV by lia. replace (n - 1 - i)%nat with (S (n - 1 - S i)) by lia. simpl pow.
    assert (10 ^ (n - 1 - S i) <> 0) by (apply pow_nonzero; lra). field. auto. }
  exists (map g (seq 0 n)). split; [|split; [|split; [|split; [|split; [|split]]]]]; auto.
  - unfold ms_fromkeys. fold n. rn. rewrite Rlogp_ok by lra. cbn [bind]. rewrite NZ. fold x. rewrite V. cbn [bind]. f_equal.
    apply (dict_of_nodup keqb KE). rewrite map_fst_combine; auto. now rewrite map_length, seq_length.
  - now rewrite map_length, seq_length.
  - rewrite NV by lia. now rewrite Nat.sub_0_r.
  - rewrite NV by lia. rewrite Nat.sub_diag. simpl. lra.
  - assert (PO : forall i, 0 < g i) by (intro; apply exp_pos).
    assert (X : forall m a, (a + m <= n)%nat -> increasing (map g (seq a m))).
    { induction m as [|m IH]; intros a Ha; simpl; [constructor|]. constructor; [apply IH; lia|].
      rewrite Forall_forall. intros y Hy. apply in_map_iff in Hy. destruct Hy as [i [<- I]]. apply in_seq in I.
      rewrite !G by lia. apply Rinv_lt_contravar.
      - apply Rmult_lt_0_compat; apply pow_lt; lra.
      - apply Rlt_pow; [lra|lia]. }
    apply X. lia.
Qed.
Print Assumptions C61_master_scale.

(** with an explicit smallest value: geometric from there to 1 *)
Theorem C61_with_value : forall {K} (keqb : K -> K -> bool), (forall a b, keqb a b = true <-> a = b) ->
  forall (ks : list K) x, NoDup ks -> (2 <= length ks)%nat -> 0 < x ->
  exists vs, ms_fromkeys keqb ks (Some x) = Ok (combine ks vs) /\ length vs = length ks /\
    forall i, (i < length ks)%nat -> nth i vs 0 = Rpower x (1 - INR i / INR (length ks - 1)).
Proof.
  intros K keqb KE ks x ND LEN PX. set (n := length ks) in *.
  assert (NZ : IZR (Z.of_nat n - 1) = INR n - 1) by (rewrite minus_IZR, <- INR_IZR_INZ; auto).
  assert (N1 : 1 < INR n) by (apply (lt_INR 1) in LEN; simpl in LEN; lra).
  set (g := fun i : nat => exp (ln x - ln x * INR i / (INR n - 1))).
  assert (V : ms_values x n = Ok (map g (seq 0 n))).
  { unfold ms_values. apply mapM_ok. intros i _. rn. rewrite Rlogp_ok by auto. cbn [bind].
    rewrite n_ofN_INR, NZ, Rdivp_ok by lra. cbn [bind]. reflexivity. }
  exists (map g (seq 0 n)). split; [|split].
  - unfold ms_fromkeys. fold n. cbn [bind]. rewrite V. cbn [bind]. f_equal.
    apply (dict_of_nodup keqb KE). rewrite map_fst_combine; auto. now rewrite map_length, seq_length.
  - now rewrite map_length, seq_length.
  - intros i Hi. rewrite (nth_indep _ 0 (g 0%nat)) by now rewrite map_length, seq_length.
    rewrite map_nth, seq_nth by auto. unfold g, Rpower. f_equal. simpl plus. rewrite minus_INR by lia. simpl INR. field. lra.
Qed.
Print Assumptions C61_with_value.

(** one class *)
Theorem C61_single_class : forall {K} (keqb : K -> K -> bool) (k : K),
  ms_fromkeys (T:=R) keqb [k] None = Err ZeroDivisionError.
Proof.
  intros K keqb k. unfold ms_fromkeys. rn. rewrite Rlogp_ok by lra. cbn [bind]. unfold ms_values. cbn [length seq mapM]. rn.
  rewrite Rlogp_ok by apply exp_pos. cbn [bind]. change (Z.of_nat 1 - 1)%Z with 0%Z. rewrite Rdivp_zero. reflexivity.
Qed.
Print Assumptions C61_single_class.

Example C61_example : exists vs, ms_fromkeys (T:=R) Nat.eqb [1; 2; 3; 4]%nat None = Ok (combine [1; 2; 3; 4]%nat vs) /\
  nth 0 vs 0 = / 1000.
Proof.
  destruct (C61_master_scale Nat.eqb Nat.eqb_eq [1; 2; 3; 4]%nat) as [vs [E [_ [_ [H _]]]]].
  - repeat constructor; simpl; intuition discriminate.
  - simpl; lia.
  - exists vs. split; auto. rewrite H. simpl. f_equal. lra.
Qed.

(** * C60 *)
(** [levels m L] (STable.v): L lists the levels of the master scale m, rounded to seven
    digits, in ascending order.  For a value in between, with two different levels: *)
Theorem C60_vector : forall {K} (m : list (K * R)) (L : list R) sloppy x,
  levels m L -> let v := Rround7 x in
  hd 0 L <= v <= last L 0 -> hd 0 L < last L 0 ->
  exists w i, rating_vector sloppy m x = Ok w /\ length w = length m /\
    (forall a, In a w -> 0 <= a <= 1) /\ Rsum w = 1 /\
    (S i < length L)%nat /\ nth i L 0 <= v <= nth (S i) L 0 /\
    (forall j, j <> i -> j <> S i -> nth j w 0 = 0) /\
    Rabs (Rsum (map (fun j => nth j w 0 * nth j L 0) (seq 0 (length L))) - v)
      <= (nth (S i) L 0 - nth i L 0) * (/ 2 / 10 ^ 7).
Proof.
  intros K m L sloppy x HL v HB HH.
  assert (NE : m <> []).
  { intros ->. destruct HL as [_ PM]. simpl in PM. apply Permutation_sym, Permutation_nil in PM. subst. simpl in HH. lra. }
  assert (LEN : length L = length m) by (destruct HL as [_ PM]; apply Permutation_length in PM; rewrite map_length in PM; auto).
  assert (LL : (2 <= length L)%nat).
  { destruct L as [|a [|b L]]; simpl in *; try lra; try lia. }
  pose proof (proj1 HL) as SO.
  assert (INL : In (last L 0) L).
  { rewrite last_nth. apply nth_In. lia. }
  rewrite (vector_form sloppy m L x HL NE). fold v. cbv zeta.
  replace (Rleb (hd 0 L) v) with true by (symmetry; apply Rleb_true; lra).
  replace (Rleb v (last L 0)) with true by (symmetry; apply Rleb_true; lra).
  replace (Rltb v (hd 0 L)) with false by (symmetry; apply Rltb_false; lra).
  replace (Rltb (last L 0) v) with false by (symmetry; apply Rltb_false; lra).
  cbn [andb negb].
  destruct (fnb_ok v L) as [ci [-> [C1 [C2 C3]]]]; [exists (last L 0); split; auto; lra|].
  cbn [bind]. rewrite (nth_res_ok L ci 0) by auto. cbn [bind].
  destruct ci as [|j].
  - (* the smallest level *)
    assert (H0 : hd 0 L = nth 0 L 0) by (destruct L; reflexivity).
    assert (VE : v = nth 0 L 0) by lra.
    rewrite (last_res_ok L 0) by (destruct L; [simpl in LL; lia | discriminate]). cbn [bind].
    rewrite Rdivp_ok by lra. cbn [bind].
    replace ((v - nth 0 L 0) / (last L 0 - nth 0 L 0)) with 0 by (rewrite VE; field; lra).
    rewrite (unit_clip_ok (1 - 0)) by lra. rewrite Rminus_0_r, round7_1.
    exists (map (fun i => if Nat.eqb i 0 then 1 else 0) (seq 0 (length L))), 0%nat.
    assert (NW : forall j, nth j (map (fun i => if Nat.eqb i 0 then 1 else 0) (seq 0 (length L))) 0 = if Nat.eqb j 0 then 1 else 0).
    { intro j. destruct (lt_dec j (length L)).
      - rewrite (nth_indep _ 0 ((fun i => if Nat.eqb i 0 then 1 else 0) 0%nat)) by now rewrite map_length, seq_length.
        rewrite (map_nth (fun i => if Nat.eqb i 0 then 1 else 0)). rewrite seq_nth by auto. reflexivity.
      - rewrite nth_overflow by (rewrite map_length, seq_length; lia). destruct j; [lia|reflexivity]. }
    split; auto. split; [now rewrite map_length, seq_length|]. split; [|split; [|split; [|split; [|split]]]].
    + intros a Ha. apply in_map_iff in Ha. destruct Ha as [k [<- _]]. destruct (Nat.eqb k 0); lra.
    + apply (sum_unit 1 (length L) 0 0). lia.
    + lia.
    + split; [lra|]. rewrite VE. apply (ss_nth Rle L 0 0 1 SO). lia.
    + intros k K1 K2. rewrite NW. replace (Nat.eqb k 0) with false by (symmetry; apply Nat.eqb_neq; auto). auto.
    + rewrite (Rsum_ext _ (fun k => if Nat.eqb k 0 then nth 0 L 0 else 0)).
      * rewrite (sum_unit (nth 0 L 0) (length L) 0 0) by lia. rewrite VE.
        replace (nth 0 L 0 - nth 0 L 0) with 0 by lra. rewrite Rabs_R0.
        assert (nth 0 L 0 <= nth 1 L 0) by (apply (ss_nth Rle L 0 0 1 SO); lia).
        apply Rmult_le_pos; lra.
      * intros k _. rewrite NW. destruct k; simpl; lra.
  - (* between the levels j and j + 1 *)
    rewrite (nth_res_ok L j 0) by lia. cbn [bind].
    assert (CJ : nth j L 0 < v) by (apply C3; lia).
    rewrite Rdivp_ok by lra. cbn [bind].
    set (lo := nth j L 0) in *. set (hi := nth (S j) L 0) in *. set (al := (v - hi) / (lo - hi)).
    assert (AL : 0 <= al <= 1).
    { unfold al. replace ((v - hi) / (lo - hi)) with ((hi - v) / (hi - lo)) by (field; lra).
      split.
      - unfold Rdiv. apply Rmult_le_pos; [lra|]. left. apply Rinv_0_lt_compat. lra.
      - apply (Rmult_le_reg_r (hi - lo)); [lra|]. unfold Rdiv. rewrite Rmult_assoc, Rinv_l by lra. lra. }
    rewrite (unit_clip_ok al) by auto. rewrite (unit_clip_ok (1 - al)) by lra.
    set (a := Rround7 al). set (b := Rround7 (1 - al)).
    assert (AB : a + b = 1) by apply round7_reflect.
    pose proof (round7_unit al AL) as UA. fold a in UA.
    set (g := fun i : nat => if Nat.eqb i j then a else if Nat.eqb i (S j) then b else 0).
    exists (map g (seq 0 (length L))), j.
    assert (NW : forall k, (k < length L)%nat -> nth k (map g (seq 0 (length L))) 0 = g k).
    { intros k Hk. rewrite (nth_indep _ 0 (g 0%nat)) by now rewrite map_length, seq_length.
      rewrite map_nth, seq_nth by auto. reflexivity. }
    assert (GS : forall u w k, (if Nat.eqb k j then u else if Nat.eqb k (S j) then w else 0) =
                 (if Nat.eqb k j then u else 0) + (if Nat.eqb k (S j) then w else 0)).
    { intros u w k. destruct (Nat.eqb k j) eqn:E1, (Nat.eqb k (S j)) eqn:E2; try lra.
      apply Nat.eqb_eq in E1, E2. lia. }
    split; auto. split; [now rewrite map_length, seq_length|]. split; [|split; [|split; [|split; [|split]]]].
    + intros y Hy. apply in_map_iff in Hy. destruct Hy as [k [<- _]]. unfold g.
      destruct (Nat.eqb k j); [lra|]. destruct (Nat.eqb k (S j)); lra.
    + unfold g. rewrite (Rsum_ext _ _ _ (fun k _ => GS a b k)). rewrite Rsum_plus, !sum_unit by lia. lra.
    + auto.
    + unfold lo, hi in *. split; [left; exact CJ|]. exact C2.
    + intros k K1 K2. destruct (lt_dec k (length L)).
      * rewrite NW by auto. unfold g. apply Nat.eqb_neq in K1, K2. now rewrite K1, K2.
      * apply nth_overflow. rewrite map_length, seq_length. lia.
    + rewrite (Rsum_ext _ (fun k => if Nat.eqb k j then a * lo else if Nat.eqb k (S j) then b * hi else 0)).
      * rewrite (Rsum_ext _ _ _ (fun k _ => GS (a * lo) (b * hi) k)). rewrite Rsum_plus, !sum_unit by lia.
        assert (EV : v = al * lo + (1 - al) * hi).
        { unfold al. field. lra. }
        assert (EB : b = 1 - a) by lra.
        replace (a * lo + b * hi - v) with (- ((a - al) * (hi - lo))) by (rewrite EB, EV; ring).
        rewrite Rabs_Ropp, Rabs_mult, (Rabs_right (hi - lo)) by lra. rewrite Rmult_comm.
        apply Rmult_le_compat_l; [fold lo hi; lra|]. pose proof (round7_err al) as ER. fold a in ER. unfold ten7 in ER.
        replace (10 ^ 7) with (IZR 10000000) by (simpl; lra). exact ER.
      * intros k Hk. apply in_seq in Hk. rewrite NW by lia. unfold g.
        destruct (Nat.eqb k j) eqn:E1; [apply Nat.eqb_eq in E1; now subst|].
        destruct (Nat.eqb k (S j)) eqn:E2; [apply Nat.eqb_eq in E2; now subst|]. lra.
Qed.
Print Assumptions C60_vector.

(** outside the scale: ValueError, or with SLOPPY a single weight on the nearest class *)
Theorem C60_outside : forall {K} (m : list (K * R)) (L : list R) x,
  levels m L -> m <> [] -> let v := Rround7 x in
  (v < hd 0 L \/ last L 0 < v) ->
  rating_vector false m x = Err ValueError /\
  (v < hd 0 L -> hd 0 L <> 0 -> rating_vector true m x = Ok (Rround7 (v / hd 0 L) :: repeat 0 (length L - 1))).
Proof.
  intros K m L x HL NE v H. split.
  - rewrite (vector_form false m L x HL NE). cbv zeta. fold v. rewrite andb_true_r.
    replace (Rleb (hd 0 L) v && Rleb v (last L 0)) with false; auto. symmetry. apply andb_false_iff.
    destruct H; [left | right]; apply Rleb_false; auto.
  - intros H1 H2. rewrite (vector_form true m L x HL NE). cbv zeta. fold v. rewrite andb_false_r.
    replace (Rltb v (hd 0 L)) with true by (symmetry; now apply Rltb_true).
    destruct L as [|a L]; [simpl in H2; lra|]. cbn [length seq combine mapM fst snd Nat.eqb hd] in *.
    rewrite Rdivp_ok by auto. cbn [bind]. rewrite (mapM_const_first (fun r => q <- Rdivp v r ;; Ok (Rround7 q))). cbn [bind].
    do 2 f_equal. simpl. rewrite Nat.sub_0_r. clear. induction L; simpl; auto. now rewrite IHL.
Qed.
Print Assumptions C60_outside.

(** a value which is a level has weight one there, and its name is the key of the class
    if the rounded levels are distinct *)
Theorem C60_names : forall {K} (m : list (K * R)) sloppy,
  NoDup (map (fun kv => Rround7 (snd kv)) m) ->
  forall k y x, In (k, y) m -> Rround7 x = Rround7 y -> rating_name sloppy m x = Ok (inl k).
Proof.
  intros K m sloppy ND k y x I E. unfold rating_name.
  replace (first_match x m) with (Some k); auto. symmetry.
  induction m as [|[k' y'] m IH]; [destruct I|]. cbn [first_match]. rn. simpl in ND. inversion ND as [|? ? N1 N2]; subst.
  destruct I as [I|I].
  - inversion I; subst. now replace (Reqb (Rround7 x) (Rround7 y)) with true by (symmetry; now apply Reqb_true).
  - destruct (Reqb (Rround7 x) (Rround7 y')) eqn:F; auto. apply Reqb_true in F. exfalso. apply N1.
    apply in_map_iff. exists (k, y). simpl. split; auto. congruence.
Qed.
Print Assumptions C60_names.

Theorem C60_level : forall {K} (m : list (K * R)) (L : list R) sloppy x,
  levels m L -> hd 0 L < last L 0 ->
  forall i, (i < length L)%nat -> Rround7 x = nth i L 0 -> (forall j, (j < i)%nat -> nth j L 0 < nth i L 0) ->
  rating_vector sloppy m x = Ok (map (fun j => if Nat.eqb j i then 1 else 0) (seq 0 (length m))).
Proof.
  intros K m L sloppy x HL HH i Hi HV HF.
  assert (NE : m <> []).
  { intros ->. destruct HL as [_ PM]. simpl in PM. apply Permutation_sym, Permutation_nil in PM. subst. simpl in HH. lra. }
  assert (LEN : length L = length m) by (destruct HL as [_ PM]; apply Permutation_length in PM; rewrite map_length in PM; auto).
  pose proof (proj1 HL) as SO.
  assert (B1 : hd 0 L <= nth i L 0).
  { destruct L as [|a L]; [simpl in Hi; lia|]. destruct i; [simpl; lra|].
    apply (ss_nth Rle (a :: L) 0 0 (S i) SO). lia. }
  assert (B2 : nth i L 0 <= last L 0) by (apply sorted_last_max; auto; apply nth_In; auto).
  rewrite (vector_form sloppy m L x HL NE). rewrite HV. cbv zeta.
  replace (Rleb (hd 0 L) (nth i L 0)) with true by (symmetry; apply Rleb_true; lra).
  replace (Rleb (nth i L 0) (last L 0)) with true by (symmetry; apply Rleb_true; lra).
  replace (Rltb (nth i L 0) (hd 0 L)) with false by (symmetry; apply Rltb_false; lra).
  replace (Rltb (last L 0) (nth i L 0)) with false by (symmetry; apply Rltb_false; lra).
  cbn [andb negb].
  destruct (fnb_ok (nth i L 0) L) as [ci [-> [C1 [C2 C3]]]]; [exists (nth i L 0); split; [apply nth_In; auto | lra]|].
  assert (ci = i).
  { destruct (lt_eq_lt_dec ci i) as [[X|X]|X]; auto.
    - specialize (HF ci X). lra.
    - specialize (C3 i X). lra. }
  subst ci. cbn [bind]. rewrite (nth_res_ok L i 0) by auto. cbn [bind].
  assert (U : unit_clip (1 - 0) = 1) by (rewrite unit_clip_ok by lra; rewrite Rminus_0_r; apply round7_1).
  assert (U0 : unit_clip (0 : R) = 0) by (rewrite unit_clip_ok by lra; apply round7_0).
  destruct i as [|j].
  - rewrite (last_res_ok L 0) by (destruct L; [simpl in Hi; lia | discriminate]). cbn [bind].
    assert (H0 : hd 0 L = nth 0 L 0) by (destruct L; reflexivity).
    rewrite Rdivp_ok by lra. cbn [bind].
    replace ((nth 0 L 0 - nth 0 L 0) / (last L 0 - nth 0 L 0)) with 0 by (field; lra). rewrite U, LEN. reflexivity.
  - rewrite (nth_res_ok L j 0) by lia. cbn [bind]. assert (nth j L 0 < nth (S j) L 0) by (apply HF; lia).
    rewrite Rdivp_ok by lra. cbn [bind].
    replace ((nth (S j) L 0 - nth (S j) L 0) / (nth j L 0 - nth (S j) L 0)) with 0 by (field; lra).
    rewrite U, U0, LEN. f_equal. apply map_ext. intro k. destruct (Nat.eqb k j) eqn:E; auto.
    apply Nat.eqb_eq in E. subst. now replace (Nat.eqb j (S j)) with false by (symmetry; apply Nat.eqb_neq; lia).
Qed.
Print Assumptions C60_level.

(** distinct levels closer than the rounding collapse: the vector of a value between
    them raises ZeroDivisionError *)
Theorem C60_collapse_refuted : exists (m : list (nat * R)) x,
  NoDup (map snd m) /\ (2 <= length m)%nat /\
  (exists a b, In a (map snd m) /\ In b (map snd m) /\ a < x < b) /\
  rating_vector false m x = Err ZeroDivisionError.
Proof.
  set (e := / 10 ^ 9).
  assert (R0 : forall y, 0 < y <= 3 * e -> Rround7 y = 0).
  { intros y Hy. unfold Rround7. replace (Rround_half_even (y * IZR 10000000)) with 0%Z; [unfold Rdiv; lra|].
    symmetry. assert (HE : e * IZR 10000000 = / 100) by (unfold e; simpl; lra).
    assert (0 < y * IZR 10000000 < 1 / 2) by nra.
    unfold Rround_half_even. rewrite (int_part_unique _ 0) by lra. cbv zeta.
    destruct (Rlt_dec _ _); auto. exfalso. lra. }
  assert (PE : 0 < e) by (unfold e; apply Rinv_0_lt_compat; lra).
  exists [(0%nat, e); (1%nat, 3 * e)], (2 * e). split; [|split; [|split]].
  - simpl. repeat constructor; simpl; intuition lra.
  - simpl. lia.
  - exists e, (3 * e). simpl. repeat split; auto; lra.
  - rewrite (vector_form false _ [0; 0]).
    + cbv zeta. rewrite R0 by lra. cbn [hd last]. replace (Rleb 0 0) with true by (symmetry; apply Rleb_true; lra).
      replace (Rltb 0 0) with false by (symmetry; apply Rltb_false; lra). cbn [andb negb first_not_below]. rn.
      replace (Rltb 0 0) with false by (symmetry; apply Rltb_false; lra). cbn [bind nth_res nth_error last_res].
      replace (0 - 0) with 0 by lra. rewrite Rdivp_zero. reflexivity.
    + split; [repeat constructor; lra|]. simpl. rewrite !R0 by lra. reflexivity.
    + discriminate.
Qed.
Print Assumptions C60_collapse_refuted.

Example C60_example : exists w i, rating_vector false [(0%nat, 1 / 2); (1%nat, 1)] (3 / 4) = Ok w /\ length w = 2%nat /\
  Rsum w = 1 /\ nth i [1 / 2; 1] 0 <= 3 / 4.
Proof.
  assert (RI : forall z : Z, Rround7 (IZR z / IZR 10000000) = IZR z / IZR 10000000).
  { intro z. unfold Rround7. replace (IZR z / IZR 10000000 * IZR 10000000) with (IZR z) by (field). now rewrite rhe_int. }
  pose proof (RI 5000000%Z) as R1. pose proof (RI 7500000%Z) as R2.
  replace (IZR 5000000 / IZR 10000000) with (1 / 2) in R1 by lra.
  replace (IZR 7500000 / IZR 10000000) with (3 / 4) in R2 by lra.
  destruct (C60_vector [(0%nat, 1 / 2); (1%nat, 1)] [1 / 2; 1] false (3 / 4)) as [w [i [E [HL [_ [S [_ [B _]]]]]]]].
  - split; [repeat constructor; lra|]. simpl. rewrite R1, round7_1. reflexivity.
  - rewrite R2. simpl. lra.
  - simpl. lra.
  - exists w, i. rewrite R2 in B. repeat split; auto. lra.
Qed.
