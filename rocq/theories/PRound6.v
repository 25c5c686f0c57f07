(** Property C103: year fractions in double precision. *)
From Coq Require Import ZArith Lia List Bool Reals Lra Floats.SpecFloat.
From Flocq Require Import Core.
From Verif Require Import Num Py MDates MInterpolation MCurve MRateCurve MFloat SRound LRound LRound2 LRound4 LRound5 PRound5.
Import ListNotations.
Local Open Scope R_scope.

Lemma same_ok {A} (a b : A) (r : res A) : r = Ok a -> r = Ok b -> a = b.
Proof. intros -> H. congruence. Qed.

(** * calendar dates *)
Section C103.
  Context (lib : libm) (DC : DayCounts float64 bdate).
  #[local] Instance n64i : Num float64 := f64 lib.

  (** the year fraction of a curve between two calendar dates is a finite double and misses
      the days divided by 365.25 by at most one unit of rounding of itself; it is exact
      where the days are a multiple of 1461 *)
  Theorem C103_days : forall c a b, dc_count c = DcDefault -> (Z.abs (bd_day b - bd_day a) < 2 ^ 53)%Z ->
    exists t, dc_yf c a b = Ok t /\ is_double t /\ finite_float t /\
      Rabs (float_value t - years_between a b) <= rounding_unit * Rabs (years_between a b) /\
      (bd_day a = bd_day b -> float_value t = 0) /\
      (forall n, (bd_day b - bd_day a = 1461 * n)%Z -> float_value t = 4 * IZR n).
  Proof.
    intros c a b HC H. unfold dc_yf. rewrite HC. cbn [dc_apply d_yf DayDates].
    destruct (yf_days_float lib _ _ H) as (t & E & [D F] & V). exists t. split; [exact E|]. do 2 (split; auto).
    rewrite V. unfold years_between. fold year. split; [|split].
    - destruct (rnd_rel_int (bd_day b - bd_day a)) as (d & Hd & ->).
      replace (_ * (1 + d) - _) with (d * (IZR (bd_day b - bd_day a) / year)) by ring. rewrite Rabs_mult.
      apply Rmult_le_compat_r; auto using Rabs_pos.
    - intros ->. rewrite Z.sub_diag. unfold Rdiv. rewrite Rmult_0_l. apply rnd_0.
    - intros n Hn. rewrite Hn. replace (IZR (1461 * n) / year) with (IZR (4 * n)) by (rewrite !mult_IZR; unfold year; lra).
      destruct (ofZ_good (4 * n)) as [[D' _] <-]; [lia|]. rewrite rnd_value by auto. destruct (ofZ_good (4 * n)) as [_ ->]; [lia|].
      rewrite mult_IZR. lra.
  Qed.

  (** the later of two dates has the greater year fraction *)
  Theorem C103_order : forall c a b b' t t', dc_count c = DcDefault ->
    (Z.abs (bd_day b - bd_day a) <= 2 ^ 50)%Z -> (Z.abs (bd_day b' - bd_day a) <= 2 ^ 50)%Z ->
    dc_yf c a b = Ok t -> dc_yf c a b' = Ok t' ->
    (float_value t < float_value t' <-> (bd_day b < bd_day b')%Z) /\
    (float_value t = float_value t' <-> bd_day b = bd_day b').
  Proof.
    intros c a b b' t t' HC H H'. unfold dc_yf. rewrite HC. cbn [dc_apply d_yf DayDates].
    destruct (yf_days_float lib (bd_day a) (bd_day b)) as (s & E & _ & V); [lia|].
    destruct (yf_days_float lib (bd_day a) (bd_day b')) as (s' & E' & _ & V'); [lia|].
    intros Q Q'.
    rewrite (same_ok _ _ _ Q E) in *. clear Q.
    rewrite (same_ok _ _ _ Q' E') in *. clear Q'.
    rewrite V, V'. fold (time_of (bd_day b - bd_day a)). fold (time_of (bd_day b' - bd_day a)).
    assert (HU : IZR (2 ^ 50) * rounding_unit <= / 8).
    { unfold rounding_unit. change (powerRZ 2 (-53)) with (/ 2 ^ 53). simpl (IZR _). lra. }
    split; split.
    - intros L. apply (time_inv _ HU) in L; auto. lia.
    - intros L. apply (time_lt0 _ HU); auto. lia.
    - intros L. destruct (Z.lt_trichotomy (bd_day b) (bd_day b')) as [C|[C|C]]; auto.
      + pose proof (time_lt0 _ HU _ _ H H' ltac:(lia)). lra.
      + pose proof (time_lt0 _ HU _ _ H' H ltac:(lia)). lra.
    - intros ->. reflexivity.
  Qed.

  (** exchanging the two dates changes the sign *)
  Theorem C103_reverse : forall c a b t t', dc_count c = DcDefault -> (Z.abs (bd_day b - bd_day a) < 2 ^ 53)%Z ->
    dc_yf c a b = Ok t -> dc_yf c b a = Ok t' -> float_value t' = - float_value t.
  Proof.
    intros c a b t t' HC H. unfold dc_yf. rewrite HC. cbn [dc_apply d_yf DayDates].
    destruct (yf_days_float lib (bd_day a) (bd_day b)) as (s & E & _ & V); [lia|].
    destruct (yf_days_float lib (bd_day b) (bd_day a)) as (s' & E' & _ & V'); [lia|].
    intros Q Q'.
    rewrite (same_ok _ _ _ Q E) in *. clear Q.
    rewrite (same_ok _ _ _ Q' E') in *. clear Q'.
    rewrite V, V'. replace (IZR (bd_day a - bd_day b) / year) with (- (IZR (bd_day b - bd_day a) / year)) by (rewrite !minus_IZR; unfold Rdiv; ring).
    apply round_NE_opp.
  Qed.

  (** the year fractions of two successive periods add up to the one of the whole up to
      four units of rounding of the sum of their lengths *)
  Theorem C103_additive_error : forall c a b b' t t' t'', dc_count c = DcDefault ->
    (Z.abs (bd_day b - bd_day a) < 2 ^ 52)%Z -> (Z.abs (bd_day b' - bd_day b) < 2 ^ 52)%Z ->
    dc_yf c a b = Ok t -> dc_yf c b b' = Ok t' -> dc_yf c a b' = Ok t'' ->
    Rabs (float_value (nadd t t') - float_value t'') <=
      4 * rounding_unit * (Rabs (years_between a b) + Rabs (years_between b b')).
  Proof.
    intros c a b b' t t' t'' HC H H'. unfold dc_yf. rewrite HC. cbn [dc_apply d_yf DayDates].
    destruct (yf_days_float lib (bd_day a) (bd_day b)) as (s & E & G & V); [lia|].
    destruct (yf_days_float lib (bd_day b) (bd_day b')) as (s' & E' & G' & V'); [lia|].
    destruct (yf_days_float lib (bd_day a) (bd_day b')) as (s'' & E'' & G'' & V''); [lia|].
    intros Q Q' Q''.
    rewrite (same_ok _ _ _ Q E) in *. clear Q.
    rewrite (same_ok _ _ _ Q' E') in *. clear Q'.
    rewrite (same_ok _ _ _ Q'' E'') in *. clear Q''.
    destruct (rnd_rel_int (bd_day b - bd_day a)) as (d & Hd & Ed). destruct (rnd_rel_int (bd_day b' - bd_day b)) as (d' & Hd' & Ed').
    destruct (rnd_rel_int (bd_day b' - bd_day a)) as (d'' & Hd'' & Ed'').
    rewrite Ed in V. rewrite Ed' in V'. rewrite Ed'' in V''.
    assert (P : IZR (bd_day b' - bd_day a) / year = IZR (bd_day b - bd_day a) / year + IZR (bd_day b' - bd_day b) / year)
      by (rewrite !minus_IZR; unfold Rdiv; ring).
    rewrite P in V''. clear Ed Ed' Ed'' P.
    assert (B : forall z, (Z.abs z < 2 ^ 52)%Z -> Rabs (IZR z / year) <= powerRZ 2 52).
    { intros z Hz. unfold Rdiv. rewrite Rabs_mult, (Rabs_pos_eq (/ year)) by (left; apply Rinv_0_lt_compat; apply year_pos). unfold year.
      rewrite <- abs_IZR. replace (powerRZ 2 52) with (IZR (2 ^ 52)) by (simpl; lra).
      assert (IZR (Z.abs z) <= IZR (2 ^ 52)) by (apply IZR_le; lia). assert (0 <= IZR (Z.abs z)) by (apply IZR_le; lia). lra. }
    pose proof (B _ H) as B1. pose proof (B _ H') as B2. unfold years_between. fold year.
    set (x := IZR (bd_day b - bd_day a) / year) in *. set (y := IZR (bd_day b' - bd_day b) / year) in *.
    pose proof u_pos as U0. pose proof u_small as U1. cbn [nadd n64i f64].
    apply Rabs_le_inv in Hd, Hd', Hd''. pose proof (Rabs_pos x). pose proof (Rabs_pos y).
    assert (GA : good (SFadd 53 1024 s s')).
    { apply add_good; auto. apply Rle_trans with (powerRZ 2 54); [|apply small_pow; lia].
      rewrite V, V'. eapply Rle_trans; [apply Rabs_triang|]. rewrite !Rabs_mult, (Rabs_pos_eq (1 + d)), (Rabs_pos_eq (1 + d')) by lra.
      replace (powerRZ 2 54) with (4 * powerRZ 2 52) by (simpl; lra). nra. }
    destruct (add_error s s' (proj1 G) (proj1 G') (proj2 GA)) as (_ & _ & _ & g & Hg & ->). rewrite V, V', V''.
    apply Rabs_le_inv in Hg.
    replace ((x * (1 + d) + y * (1 + d')) * (1 + g) - (x + y) * (1 + d'')) with (x * (d + g + d * g - d'') + y * (d' + g + d' * g - d'')) by ring.
    eapply Rle_trans; [apply Rabs_triang|]. rewrite !Rabs_mult.
    assert (R1 : Rabs (d + g + d * g - d'') <= 4 * rounding_unit) by (apply Rabs_le; nra).
    assert (R2 : Rabs (d' + g + d' * g - d'') <= 4 * rounding_unit) by (apply Rabs_le; nra).
    nra.
  Qed.
End C103.
Print Assumptions C103_days.
Print Assumptions C103_order.
Print Assumptions C103_reverse.
Print Assumptions C103_additive_error.

(** the year fractions of one day and of the six days after it do not add up to the one of the week *)
Theorem C103_additive_refuted : forall lib, exists t t' t'',
  yf_days (N := f64 lib) 0 1 = Ok t /\ yf_days (N := f64 lib) 1 7 = Ok t' /\ yf_days (N := f64 lib) 0 7 = Ok t'' /\
  float_value t'' < float_value (nadd (Num := f64 lib) t t').
Proof.
  intros lib. exists (S754_finite false 6313054097778765 (-61)), (S754_finite false 4734790573334074 (-58)), (S754_finite false 5523922335556419 (-58)).
  split; [vm_compute; reflexivity|]. split; [vm_compute; reflexivity|]. split; [vm_compute; reflexivity|].
  assert (E : nadd (Num := f64 lib) (S754_finite false 6313054097778765 (-61)) (S754_finite false 4734790573334074 (-58)) = S754_finite false 5523922335556420 (-58))
    by (vm_compute; reflexivity).
  rewrite E. unfold float_value. simpl. lra.
Qed.
Print Assumptions C103_additive_refuted.

(** * float dates *)
Section Float.
  Context (lib : libm) (DC : DayCounts float64 float64).
  #[local] Instance n64j : Num float64 := f64 lib.

  (** the year fraction between two floats misses their difference by at most one unit of
      rounding of itself, has its sign, and is never less for the later of two dates *)
  Theorem C103_float : forall c (a b : float64), dc_count c = DcDefault -> is_double a -> is_double b ->
    finite_float a -> finite_float b ->
    Rabs (float_value b - float_value a) <= powerRZ 2 1023 ->
    exists t, dc_yf c a b = Ok t /\ is_double t /\ finite_float t /\
      Rabs (float_value t - (float_value b - float_value a)) <= rounding_unit * Rabs (float_value b - float_value a) /\
      (0 < float_value t <-> float_value a < float_value b) /\
      (float_value t = 0 <-> float_value a = float_value b).
  Proof.
    intros c a b HC Da Db Fa Fb H. unfold dc_yf. rewrite HC. cbn [dc_apply d_yf FloatDates]. unfold yf_float. cbn [nsub n64j f64].
    pose proof (sub_good b a (conj Db Fb) (conj Da Fa) H) as [D F]. eexists. split; [reflexivity|]. split; auto. split; auto.
    destruct (sub_error b a Db Da F) as (_ & d & Hd & ->). pose proof u_small. pose proof u_pos. set (x := float_value b - float_value a).
    split; [|apply Rabs_le_inv in Hd; unfold x; split; split; intros; nra].
    replace (x * (1 + d) - x) with (d * x) by ring. rewrite Rabs_mult. apply Rmult_le_compat_r; auto using Rabs_pos.
  Qed.

  Theorem C103_float_order : forall c (a b b' t t' : float64), dc_count c = DcDefault ->
    is_double a -> is_double b -> is_double b' ->
    dc_yf c a b = Ok t -> dc_yf c a b' = Ok t' -> finite_float t -> finite_float t' ->
    float_value b <= float_value b' -> float_value t <= float_value t'.
  Proof.
    intros c a b b' t t' HC Da Db Db'. unfold dc_yf. rewrite HC. cbn [dc_apply d_yf FloatDates]. unfold yf_float. cbn [nsub n64j f64].
    intros Q Q'.
    apply (f_equal (fun z => match z with Ok x => x | Err _ => t end)) in Q. cbv beta iota in Q. subst t.
    apply (f_equal (fun z => match z with Ok x => x | Err _ => t' end)) in Q'. cbv beta iota in Q'. subst t'.
    intros F F' L. destruct (sub_round b a Db Da F) as (_ & _ & _ & ->). destruct (sub_round b' a Db' Da F') as (_ & _ & _ & ->).
    apply rnd_le. lra.
  Qed.
End Float.
Print Assumptions C103_float.
Print Assumptions C103_float_order.

(** two different dates may have the same year fraction: from -2**53 to 1/4 and to 1/2 *)
Theorem C103_float_order_refuted : forall lib,
  let a := f64_ofZ (- 2 ^ 53) in let b := f64_ratio 1 4 in let b' := f64_ratio 1 2 in
  float_value b < float_value b' /\ d_yf (DateSys := FloatDates (N := f64 lib)) a b = d_yf (DateSys := FloatDates (N := f64 lib)) a b'.
Proof.
  intros lib. cbv zeta. split.
  - assert (E : f64_ratio 1 2 = S754_finite false 4503599627370496 (-53)) by (vm_compute; reflexivity). rewrite E.
    assert (E' : f64_ratio 1 4 = S754_finite false 4503599627370496 (-54)) by (vm_compute; reflexivity). rewrite E'.
    unfold float_value. simpl. lra.
  - vm_compute. reflexivity.
Qed.
Print Assumptions C103_float_order_refuted.

(** instances *)
#[local] Instance no_registry103 : DayCounts float64 bdate := [].
#[local] Instance no_registry103f : DayCounts float64 float64 := [].
Example C103_days_instance : forall lib,
  dc_yf (DS := DayDates (N := f64 lib)) (mkD linear_scheme None no_fn [BD 0 0] None DcDefault []) (BD 0 0) (BD 1461 0) = Ok (f64_ofZ 4).
Proof. intros lib. vm_compute. reflexivity. Qed.
Example C103_float_instance : forall lib,
  dc_yf (DS := FloatDates (N := f64 lib)) (mkD linear_scheme None no_fn [f64_zero] None DcDefault []) (f64_ofZ 1) (f64_ofZ 3) = Ok (f64_ofZ 2).
Proof. intros lib. vm_compute. reflexivity. Qed.
