(** Adding months to business dates: later, for every date. *)
From Coq Require Import Reals Lra Lia List Bool ZArith.
From Verif Require Import Num Py Spec MDates SDates MCurve MRateCurve SRateCurve LDates.
Import ListNotations.
Open Scope Z_scope.

Lemma days_shift y m d k : days_from_civil (y + k * 400) m d = days_from_civil y m d + k * 146097.
Proof.
  unfold days_from_civil. cbv zeta.
  assert (E : (if m <=? 2 then y + k * 400 - 1 else y + k * 400) = (if m <=? 2 then y - 1 else y) + k * 400)
    by (destruct (m <=? 2); ring).
  rewrite E. generalize (if m <=? 2 then y - 1 else y). intro y'.
  rewrite Z.div_add by lia.
  replace (y' + k * 400 - (y' / 400 + k) * 400) with (y' - y' / 400 * 400) by ring. ring.
Qed.
Lemma leap_shift y k : leap (y + k * 400) = leap y.
Proof.
  unfold leap. replace (y + k * 400) with (y + (k * 100) * 4) by ring. rewrite Z.mod_add by lia.
  replace (y + k * 100 * 4) with (y + (k * 4) * 100) by ring. rewrite Z.mod_add by lia.
  replace (y + k * 4 * 100) with (y + k * 400) by ring. now rewrite Z.mod_add by lia.
Qed.
(** a boolean property of finitely many numbers *)
Fixpoint all_from (n : nat) (p : Z -> bool) (z : Z) : bool :=
  match n with O => true | S n => p z && all_from n p (z + 1) end.
Lemma all_from_spec n p : forall z, all_from n p z = true -> forall x, z <= x < z + Z.of_nat n -> p x = true.
Proof.
  induction n; intros z H x Hx; [lia|]. cbn [all_from] in H. apply andb_true_iff in H. destruct H as [H1 H2].
  destruct (Z.eq_dec x z) as [->|N]; auto. apply (IHn (z + 1)); auto. lia.
Qed.
(** the first day of March based year [y] of a 400 year era *)
Definition year_start (y : Z) : Z := 365 * y + y / 4 - y / 100.
Definition year_of (doe : Z) : Z := (doe - doe / 1460 + doe / 36524 - doe / 146096) / 365.
Definition mp_of (doy : Z) : Z := (5 * doy + 2) / 153.
Definition month_of (doy : Z) : Z := if mp_of doy <? 10 then mp_of doy + 3 else mp_of doy - 9.
Definition day_of (doy : Z) : Z := doy - (153 * mp_of doy + 2) / 5 + 1.

Definition last_day (y : Z) : Z := if y =? 399 then 146096 else year_start (y + 1) - 1.
Definition year_ok (y : Z) : bool :=
  (year_of (year_start y) =? y) && (year_of (last_day y) =? y) && (year_start y <=? last_day y) &&
  (last_day y - year_start y <=? 365) && ((last_day y - year_start y <? 365) || leap (y + 1)).
Lemma year_ok_all y : 0 <= y <= 399 -> year_ok y = true.
Proof. intro H. apply (all_from_spec 400 year_ok 0); [vm_compute; reflexivity|lia]. Qed.

Definition doy_ok (d : Z) : bool :=
  (1 <=? month_of d) && (month_of d <=? 12) && (1 <=? day_of d) &&
  (day_of d <=? (if month_of d =? 2 then (if d =? 365 then 29 else 28) else month_len 0 (month_of d))) &&
  ((153 * (month_of d + (if 2 <? month_of d then -3 else 9)) + 2) / 5 + day_of d - 1 =? d) && (mp_of d <=? 11).
Lemma doy_ok_all d : 0 <= d <= 365 -> doy_ok d = true.
Proof. intro H. apply (all_from_spec 366 doy_ok 0); [vm_compute; reflexivity|lia]. Qed.

Lemma year_of_mono a b : 0 <= a -> a <= b -> b <= 146095 -> year_of a <= year_of b.
Proof.
  intros H1 H2 H3. unfold year_of. apply Z.div_le_mono; [lia|].
  rewrite (Z.div_small a 146096), (Z.div_small b 146096) by lia.
  pose proof (Z.div_le_mono a b 36524 ltac:(lia) H2).
  assert (b / 1460 <= a / 1460 + (b - a)).
  { cut (b / 1460 < a / 1460 + (b - a) + 1); [lia|]. apply Z.div_lt_upper_bound; [lia|].
    pose proof (Z.mod_pos_bound a 1460 ltac:(lia)). pose proof (Z.div_mod a 1460 ltac:(lia)). lia. }
  lia.
Qed.
Lemma find_year doe : 0 <= doe <= 146096 -> exists y, 0 <= y <= 399 /\ year_start y <= doe <= last_day y.
Proof.
  intro H.
  assert (G : forall n, (n <= 399)%nat -> doe < year_start (Z.of_nat n) ->
    exists y, 0 <= y <= 399 /\ year_start y <= doe <= last_day y).
  { induction n; intros Hn Hd; [cbn in Hd; lia|].
    destruct (Z_lt_le_dec doe (year_start (Z.of_nat n))) as [L|L]; [apply IHn; auto; lia|].
    exists (Z.of_nat n). split; [lia|]. split; auto. unfold last_day.
    destruct (Z.eqb_spec (Z.of_nat n) 399); [lia|]. replace (Z.of_nat n + 1) with (Z.of_nat (S n)) by lia. lia. }
  destruct (Z_lt_le_dec doe (year_start 399)) as [L|L].
  - apply (G 399%nat); auto.
  - exists 399. split; [lia|]. split; auto. cbn. lia.
Qed.
Lemma year_of_spec doe : 0 <= doe <= 146096 ->
  0 <= year_of doe <= 399 /\ 0 <= doe - year_start (year_of doe) <= 365 /\
  (doe - year_start (year_of doe) = 365 -> leap (year_of doe + 1) = true).
Proof.
  intro H. destruct (find_year doe H) as [y [By Hy]]. pose proof (year_ok_all y By) as C. unfold year_ok in C.
  rewrite !andb_true_iff, orb_true_iff, !Z.eqb_eq, !Z.leb_le, Z.ltb_lt in C.
  destruct C as [[[[C1 C2] C3] C4] C5].
  assert (E : year_of doe = y).
  { destruct (Z.eq_dec doe 146096) as [->|N].
    - assert (y = 399) as ->; [|reflexivity]. unfold last_day in Hy. destruct (Z.eqb_spec y 399); auto.
      assert (year_start (y + 1) <= year_start 399); [|cbn in *; lia].
      unfold year_start. pose proof (Z.div_le_mono (y + 1) 399 4). pose proof (Z.div_le_mono (y + 1) 399 100).
      pose proof (Z.div_le_upper_bound 399 100 3). 
      pose proof (Z.div_mod (y + 1) 100 ltac:(lia)). pose proof (Z.mod_pos_bound (y + 1) 100 ltac:(lia)).
      change (399 / 4) with 99 in *. change (399 / 100) with 3 in *. lia.
    - pose proof (year_of_mono (year_start y) doe). 
      assert (0 <= year_start y).
      { unfold year_start. pose proof (Z.div_pos y 4). pose proof (Z.div_le_upper_bound y 100 y). lia. }
      destruct (Z.eq_dec y 399) as [->|N'].
      + assert (year_of doe <= 399); [|lia]. unfold year_of. rewrite (Z.div_small doe 146096) by lia.
        cut ((doe - doe / 1460 + doe / 36524 - 0) / 365 < 400); [lia|]. apply Z.div_lt_upper_bound; [lia|].
        pose proof (Z.div_mod doe 1460 ltac:(lia)). pose proof (Z.mod_pos_bound doe 1460 ltac:(lia)).
        pose proof (Z.div_le_mono doe 146095 36524 ltac:(lia) ltac:(lia)). change (146095 / 36524) with 3 in *. lia.
      + pose proof (year_of_mono doe (last_day y)). unfold last_day in *. destruct (Z.eqb_spec y 399); [lia|].
        assert (year_start (y + 1) <= 146096); [|lia].
        assert (year_start (y + 1) <= year_start 399); [|cbn in *; lia].
        unfold year_start. pose proof (Z.div_le_mono (y + 1) 399 4).
        pose proof (Z.div_mod (y + 1) 100 ltac:(lia)). pose proof (Z.mod_pos_bound (y + 1) 100 ltac:(lia)).
        change (399 / 4) with 99 in *. change (399 / 100) with 3 in *. lia. }
  rewrite E. split; auto. split; [lia|]. intro E'. destruct C5 as [C5|C5]; auto. lia.
Qed.

Lemma civil_spec z : match civil_from_days z with (y, m, d) =>
  days_from_civil y m d = z /\ 1 <= m <= 12 /\ 1 <= d <= month_len y m end.
Proof.
  unfold civil_from_days. cbv zeta. set (z' := z + 719468). set (era := z' / 146097).
  assert (B : 0 <= z' - era * 146097 <= 146096).
  { unfold era. pose proof (Z.div_mod z' 146097 ltac:(lia)). pose proof (Z.mod_pos_bound z' 146097 ltac:(lia)). lia. }
  remember (z' - era * 146097) as doe eqn:Ed.
  destruct (year_of_spec doe B) as [Y1 [Y2 Y3]]. fold (year_of doe). set (yoe := year_of doe) in *.
  replace (365 * yoe + yoe / 4 - yoe / 100) with (year_start yoe) by reflexivity.
  set (doy := doe - year_start yoe) in *. fold (mp_of doy). fold (day_of doy). fold (month_of doy).
  pose proof (doy_ok_all doy Y2) as C. unfold doy_ok in C. rewrite !andb_true_iff, !Z.eqb_eq, !Z.leb_le in C.
  destruct C as [[[[[C1 C2] C3] C4] C5] C6]. set (m := month_of doy) in *. set (d := day_of doy) in *.
  split; [|split; [lia|split; [lia|]]].
  - unfold days_from_civil. cbv zeta.
    assert (E : (if m <=? 2 then yoe + era * 400 + (if m <=? 2 then 1 else 0) - 1 else yoe + era * 400 + (if m <=? 2 then 1 else 0))
                = yoe + era * 400) by (destruct (m <=? 2); lia).
    rewrite E. rewrite Z.div_add, (Z.div_small yoe) by lia.
    replace (yoe + era * 400 - (0 + era) * 400) with yoe by ring. rewrite C5.
    unfold doy, year_start. subst z'. lia.
  - destruct (Z.eqb_spec m 2) as [Em|Em].
    + rewrite Em in *. unfold month_len. cbn [Z.eqb Pos.eqb]. cbn [Z.leb Z.compare Pos.compare Pos.compare_cont].
      replace (yoe + era * 400 + 1) with (yoe + 1 + era * 400) by ring. rewrite leap_shift.
      destruct (Z.eqb_spec doy 365) as [E|E]; [rewrite (Y3 E); lia|]. destruct (leap (yoe + 1)); lia.
    + unfold month_len in *. destruct (Z.eqb_spec m 2); [lia|]. exact C4.
Qed.

(** the first day of the k-th month, counted from January of year 0 *)
Definition month_start (k : Z) : Z := days_from_civil (k / 12) (k mod 12 + 1) 1.
Definition month_size (k : Z) : Z := month_len (k / 12) (k mod 12 + 1).
Lemma month_size_pos k : 28 <= month_size k.
Proof. unfold month_size, month_len. repeat (destruct (_ : bool)); lia. Qed.
Lemma month_next k : month_start (k + 1) = month_start k + month_size k.
Proof.
  set (ok := fun k => month_start (k + 1) =? month_start k + month_size k).
  assert (E : k = k mod 4800 + k / 4800 * 4800) by (pose proof (Z.div_mod k 4800); lia).
  pose proof (Z.mod_pos_bound k 4800 ltac:(lia)) as B.
  assert (H : ok (k mod 4800) = true).
  { apply (all_from_spec (Z.to_nat 4800) ok 0); [vm_compute; reflexivity|rewrite Z2Nat.id; lia]. }
  apply Z.eqb_eq in H. rewrite E. generalize dependent (k mod 4800). intros r _ _ H. generalize (k / 4800). intro q.
  assert (S : forall x, month_start (x + q * 4800) = month_start x + q * 146097).
  { intro x. unfold month_start. replace (x + q * 4800) with (x + (q * 400) * 12) by ring.
    rewrite Z.div_add, Z.mod_add by lia. apply days_shift. }
  assert (S' : month_size (r + q * 4800) = month_size r).
  { unfold month_size. replace (r + q * 4800) with (r + (q * 400) * 12) by ring.
    rewrite Z.div_add, Z.mod_add by lia. unfold month_len. now rewrite leap_shift. }
  replace (r + q * 4800 + 1) with (r + 1 + q * 4800) by ring. rewrite !S, S'. lia.
Qed.
Lemma month_start_lt k n : 0 < n -> month_start k + month_size k <= month_start (k + n).
Proof.
  intro H. replace n with (Z.of_nat (Z.to_nat (n - 1)) + 1) by lia. generalize (Z.to_nat (n - 1)). clear n H. intro n.
  induction n.
  - replace (k + (Z.of_nat 0 + 1)) with (k + 1) by lia. rewrite month_next. lia.
  - replace (k + (Z.of_nat (S n) + 1)) with (k + (Z.of_nat n + 1) + 1) by lia. rewrite month_next.
    pose proof (month_size_pos (k + (Z.of_nat n + 1))). lia.
Qed.
Lemma days_linear y m d : days_from_civil y m d = days_from_civil y m 1 + (d - 1).
Proof. unfold days_from_civil. cbv zeta. ring. Qed.

(** adding months gives a later date *)
Lemma months_later z n : 0 < n -> z < add_months z n.
Proof.
  intro H. pose proof (civil_spec z) as C. unfold add_months in *.
  destruct (civil_from_days z) as [[y m] d]. cbv zeta.
  destruct C as [C1 [C2 C4]]. rewrite <- C1 at 1. rewrite (days_linear y m d), (days_linear _ _ (Z.min _ _)).
  pose proof (month_start_lt (y * 12 + (m - 1)) n H) as G. unfold month_start at 1, month_size at 1 in G.
  assert (E1 : (y * 12 + (m - 1)) / 12 = y) by (rewrite Z.div_add_l, Z.div_small; lia).
  assert (E2 : (y * 12 + (m - 1)) mod 12 = m - 1) by (rewrite Z.add_comm, Z.mod_add, Z.mod_small; lia).
  rewrite E1, E2 in G. replace (m - 1 + 1) with m in G by ring.
  pose proof (month_size_pos (y * 12 + (m - 1) + n)). unfold month_start, month_size in *. lia.
Qed.
Lemma plus_later z p : 0 <= bp_months p -> 0 <= bp_days p -> 0 < bp_months p \/ 0 < bp_days p -> z < bd_plus z p.
Proof.
  intros H1 H2 H3. unfold bd_plus. destruct (Z.eqb_spec (bp_months p) 0); [lia|].
  pose proof (months_later z (bp_months p) ltac:(lia)). lia.
Qed.

Lemma later_steps (p : bperiod) : (forall z, z < bd_plus z p) -> steps (DS:=DayDates (T:=R)) p.
Proof.
  intros H a. exists (BD (bd_plus (bd_day a) p) 0). split; [reflexivity|]. split.
  - apply Z.ltb_lt. apply H.
  - intros b E. apply Z.eqb_eq in E. exists (BD (bd_plus (bd_day b) p) 0). split; [reflexivity|].
    apply Z.eqb_eq. cbn. now rewrite E.
Qed.
Lemma tenor_steps t : steps (DS:=DayDates (T:=R)) (p_str t).
Proof.
  apply later_steps. intro z. apply plus_later; destruct t; cbn; lia.
Qed.
Lemma later_unbounded (p : bperiod) : (forall z, z < bd_plus z p) -> unbounded (DS:=DayDates (T:=R)) p.
Proof.
  intros H a b.
  assert (G : forall n a, exists x, add_n (DS:=DayDates (T:=R)) a p n = Some x /\ bd_day a + Z.of_nat n <= bd_day x).
  { induction n; intro a0.
    - exists a0. split; [reflexivity|lia].
    - destruct (IHn (BD (bd_plus (bd_day a0) p) 0)) as [x [E B]]. exists x. split.
      + cbn. exact E.
      + cbn in B. pose proof (H (bd_day a0)). lia. }
  destruct (G (Z.to_nat (bd_day b - bd_day a + 1)) a) as [x [E B]]. eexists. exists x. split; [exact E|].
  apply Z.ltb_lt. lia.
Qed.
Lemma tenor_unbounded t : unbounded (DS:=DayDates (T:=R)) (p_str t).
Proof.
  apply later_unbounded. intro z. apply plus_later; destruct t; cbn; lia.
Qed.
