(** Property C112: values across strikes, forwards, volatilities and expiries. *)
From Coq Require Import Reals ZArith List Bool Lra Lia Psatz.
From Coquelicot Require Import Coquelicot.
From Verif Require Import Num Py MDates MCurve MRateCurve MOption SDates SOption SNormal
  LBase LDates LOption LSeries LNormal LGauss LExpect LGreeks POption PNormal PExpect PGreeks.
Import ListNotations.
Open Scope R_scope.

(** the forward at expiry under the Bachelier, Black and displaced model *)
Definition forward_at (fm : formula R) (F v t z : R) : R :=
  match fm with
  | FNormal => normal_forward F v t z
  | FDisplaced a => displaced_forward a F v t z
  | _ => lognormal_forward F v t z
  end.
(** the markets those models can price: any numbers, positive numbers, numbers positive
    after the displacement *)
Definition priced (fm : formula R) (F K v t : R) : Prop :=
  0 < v /\ 0 < t /\
  match fm with
  | FNormal => True
  | FLogNormal => 0 < F /\ 0 < K
  | FDisplaced a => 0 < F + a /\ 0 < K + a
  | _ => False
  end.
(** the accuracy of a value *)
Definition tolerance (fm : formula R) (F K v t : R) : R :=
  75 / 10 ^ 9 * match fm with FNormal => Rabs (F - K) | FDisplaced a => F + K + 2 * a | _ => F + K end + v * sqrt t / 10 ^ 15.

Lemma expectation_lin g h e e' a b : expectation g e -> expectation h e' -> expectation (fun z => a * g z + b * h z) (a * e + b * e').
Proof.
  intros H H' eps He. set (q := Rabs a + Rabs b + 1). pose proof (Rabs_pos a) as PA. pose proof (Rabs_pos b) as PB.
  assert (Q : 0 < q) by (unfold q; lra). assert (Q2 : 0 < eps / q) by now apply Rdiv_lt_0_compat.
  destruct (H _ Q2) as [r Hr]. destruct (H' _ Q2) as [r' Hr']. exists (Rmax r r'). intros x y X Y.
  pose proof (Rmax_l r r'). pose proof (Rmax_r r r'). destruct (Hr x y ltac:(lra) ltac:(lra)) as [i [I J]]. destruct (Hr' x y ltac:(lra) ltac:(lra)) as [i' [I' J']].
  exists (a * i + b * i'). split.
  - apply (is_RInt_ext (fun z => plus (scal a (g z * density z)) (scal b (h z * density z)))).
    + intros z _. change (a * (g z * density z) + b * (h z * density z) = (a * g z + b * h z) * density z). ring.
    + apply (is_RInt_plus (V:=R_NormedModule)); apply (is_RInt_scal (V:=R_NormedModule)); assumption.
  - replace (a * i + b * i' - (a * e + b * e')) with (a * (i - e) + b * (i' - e')) by ring.
    eapply Rle_lt_trans; [apply Rabs_triang|]. rewrite !Rabs_mult.
    assert (E : eps = Rabs a * (eps / q) + Rabs b * (eps / q) + eps / q) by (unfold q in *; field; lra).
    assert (Rabs a * Rabs (i - e) <= Rabs a * (eps / q)) by (apply Rmult_le_compat_l; lra).
    assert (Rabs b * Rabs (i' - e') <= Rabs b * (eps / q)) by (apply Rmult_le_compat_l; lra). lra.
Qed.
Lemma expectation_le g h e e' : (forall z, g z <= h z) -> expectation g e -> expectation h e' -> e <= e'.
Proof.
  intros L H H'. destruct C110_expectation as [_ [POS _]].
  assert (0 <= (- 1) * e + 1 * e') by (refine (POS _ _ _ (expectation_lin g h e e' (-1) 1 H H')); intros z; specialize (L z); lra). lra.
Qed.

Lemma forward_mean fm F v t : 0 < t -> expectation (forward_at fm F v t) F.
Proof.
  intros Ht. destruct C110_expectation as (_ & POS & MEAN). destruct (MEAN F v t Ht) as [M1 M2].
  assert (LF : forall a, expectation (fun z => lognormal_forward a v t z) a) by (intros a; exact (proj2 (MEAN a v t Ht))). clear M2.
  destruct fm as [| | | | | |a|a| |]; cbn [forward_at]; try exact (LF F); [exact M1|].
  destruct (MEAN 1 0 t Ht) as [_ B].
  pose proof (expectation_lin _ _ _ _ 1 (- a) (LF (F + a)) B) as C. replace (1 * (F + a) + - a * 1) with F in C by ring.
  revert C. apply expectation_ext. intros z. unfold displaced_forward, lognormal_forward at 2.
  replace (0 * sqrt t * z - 0 ^ 2 * t / 2) with 0 by (cbn; field). rewrite exp_0. cbn [forward_at]. unfold displaced_forward. ring.
Qed.
Lemma forward_mono fm F F' v t z : F <= F' -> forward_at fm F v t z <= forward_at fm F' v t z.
Proof.
  intros L. assert (G : forall a b, a <= b -> lognormal_forward a v t z <= lognormal_forward b v t z).
  { intros a b AB. unfold lognormal_forward. apply Rmult_le_compat_r; [left; apply exp_pos|exact AB]. }
  destruct fm; cbn [forward_at]; auto; [unfold normal_forward; lra|unfold displaced_forward; specialize (G (F + displacement) (F' + displacement)); lra].
Qed.

Lemma max_convex w a b : 0 <= w <= 1 -> Rmax (w * a + (1 - w) * b) 0 <= w * Rmax a 0 + (1 - w) * Rmax b 0.
Proof.
  intros W. pose proof (Rmax_l a 0). pose proof (Rmax_l b 0). pose proof (Rmax_r a 0). pose proof (Rmax_r b 0).
  apply Rmax_lub; [apply Rplus_le_compat; apply Rmult_le_compat_l; lra|]. assert (0 <= w * Rmax a 0) by (apply Rmult_le_pos; lra). assert (0 <= (1 - w) * Rmax b 0) by (apply Rmult_le_pos; lra). lra.
Qed.
Lemma mix_tol w c1 c2 c3 e1 e2 e3 T1 T2 T3 : 0 <= w <= 1 -> Rabs (c1 - e1) <= T1 -> Rabs (c2 - e2) <= T2 -> Rabs (c3 - e3) <= T3 ->
  e2 <= w * e1 + (1 - w) * e3 -> c2 <= w * c1 + (1 - w) * c3 + (w * T1 + T2 + (1 - w) * T3).
Proof.
  intros W A1 A2 A3 E. pose proof (Rle_abs (c2 - e2)) as B2. pose proof (Rle_abs (- (c1 - e1))) as B1. rewrite Rabs_Ropp in B1.
  pose proof (Rle_abs (- (c3 - e3))) as B3. rewrite Rabs_Ropp in B3.
  assert (w * e1 <= w * (c1 + T1)) by (apply Rmult_le_compat_l; lra). assert ((1 - w) * e3 <= (1 - w) * (c3 + T3)) by (apply Rmult_le_compat_l; lra). lra.
Qed.

Section Smile.
  Context {D P : Type} (DS : DateSys R D P) (DC : DayCounts R D).
  Implicit Types (m : omodel R D P) (d : D).

  Lemma priced_value fuel flr m d strike F K v t : market fuel flr m d strike F K v t -> priced (om_formula m) F K v t ->
    exists c p ec ep, get_call_value fuel flr m d strike = Ok c /\ get_put_value fuel flr m d strike = Ok p /\
      expectation (fun z => call_payoff K (forward_at (om_formula m) F v t z)) ec /\
      expectation (fun z => put_payoff K (forward_at (om_formula m) F v t z)) ep /\
      Rabs (c - ec) <= tolerance (om_formula m) F K v t /\ Rabs (p - ep) <= tolerance (om_formula m) F K v t.
  Proof.
    intros M (Hv & Ht & OK). pose proof (vol_pos t v Ht Hv) as S. destruct (om_formula m) eqn:C; try contradiction.
    - destruct (C110_bachelier DS DC _ _ _ _ _ _ _ _ _ C M Hv Ht) as (c & p & ec & ep & X). exists c, p, ec, ep. exact X.
    - destruct OK as [HF HK]. destruct (C110_black DS DC _ _ _ _ _ _ _ _ _ C M HF HK Hv Ht) as (c & p & ec & ep & A & B & E1 & E2 & X & Y). exists c, p, ec, ep.
      unfold tolerance. repeat (split; [assumption|]). split; lra.
    - destruct OK as [HF HK]. destruct (C110_displaced DS DC _ _ _ _ _ _ _ _ _ _ C M HF HK Hv Ht) as (c & p & ec & ep & A & B & E1 & E2 & X & Y). exists c, p, ec, ep.
      unfold tolerance. repeat (split; [assumption|]). split; lra.
  Qed.
  Ltac tails := repeat match goal with H : Rabs ?x <= _ |- _ =>
    let A := fresh in let B := fresh in pose proof (Rle_abs x) as A; pose proof (Rle_abs (- x)) as B; rewrite (Rabs_Ropp x) in B;
    apply (Rle_trans _ _ _ A) in H as ?; apply (Rle_trans _ _ _ B) in H as ?; clear A B H end.

  (** a higher strike makes calls cheaper and puts dearer, by at most the difference of
      the strikes: up to the accuracy of the values *)
  Theorem C112_strikes : forall fuel flr m d strike fuel' flr' m' d' strike' F K K' v t,
    om_formula m' = om_formula m ->
    market fuel flr m d strike F K v t -> market fuel' flr' m' d' strike' F K' v t ->
    priced (om_formula m) F K v t -> priced (om_formula m) F K' v t -> K <= K' ->
    let tol := tolerance (om_formula m) F K v t + tolerance (om_formula m) F K' v t in
    exists c c' p p', get_call_value fuel flr m d strike = Ok c /\ get_call_value fuel' flr' m' d' strike' = Ok c' /\
      get_put_value fuel flr m d strike = Ok p /\ get_put_value fuel' flr' m' d' strike' = Ok p' /\
      - tol <= c - c' <= K' - K + tol /\ - tol <= p' - p <= K' - K + tol.
  Proof.
    intros fuel flr m d strike fuel' flr' m' d' strike' F K K' v t C M M' OK OK' L tol.
    destruct (priced_value _ _ _ _ _ _ _ _ _ M OK) as (c & p & ec & ep & A1 & A2 & X & Y & E1 & E2). rewrite <- C in OK'.
    destruct (priced_value _ _ _ _ _ _ _ _ _ M' OK') as (c' & p' & ec' & ep' & A1' & A2' & X' & Y' & E1' & E2'). rewrite C in *.
    exists c, c', p, p'. repeat (split; [assumption|]).
    pose proof (forward_mean (om_formula m) 1 0 1 ltac:(lra)) as ONE.
    assert (U : expectation (fun _ => 1) 1).
    { destruct C110_expectation as (_ & _ & MEAN). destruct (MEAN 1 0 1 ltac:(lra)) as [_ B]. revert B. apply expectation_ext. intros z.
      unfold lognormal_forward. replace (0 * sqrt 1 * z - 0 ^ 2 * 1 / 2) with 0 by (cbn; field). rewrite exp_0. ring. }
    assert (B1 : ec' <= ec).
    { refine (expectation_le _ _ _ _ _ X' X). intros z. unfold call_payoff, Rmax. do 2 destruct Rle_dec; lra. }
    assert (B2 : ec <= 1 * ec' + (K' - K) * 1).
    { refine (expectation_le _ _ _ _ _ X (expectation_lin _ _ _ _ 1 (K' - K) X' U)). intros z. cbv beta. unfold call_payoff, Rmax. do 2 destruct Rle_dec; lra. }
    assert (B3 : ep <= ep').
    { refine (expectation_le _ _ _ _ _ Y Y'). intros z. unfold put_payoff, Rmax. do 2 destruct Rle_dec; lra. }
    assert (B4 : ep' <= 1 * ep + (K' - K) * 1).
    { refine (expectation_le _ _ _ _ _ Y' (expectation_lin _ _ _ _ 1 (K' - K) Y U)). intros z. cbv beta. unfold put_payoff, Rmax. do 2 destruct Rle_dec; lra. }
    unfold tol. tails. lra.
  Qed.

  (** butterflies are worth nothing less than zero: values are convex in the strike *)
  Theorem C112_butterfly : forall fuel1 flr1 m1 d1 s1 fuel2 flr2 m2 d2 s2 fuel3 flr3 m3 d3 s3 F K1 K2 K3 v t w,
    om_formula m1 = om_formula m2 -> om_formula m3 = om_formula m2 ->
    market fuel1 flr1 m1 d1 s1 F K1 v t -> market fuel2 flr2 m2 d2 s2 F K2 v t -> market fuel3 flr3 m3 d3 s3 F K3 v t ->
    priced (om_formula m2) F K1 v t -> priced (om_formula m2) F K2 v t -> priced (om_formula m2) F K3 v t ->
    0 <= w <= 1 -> K2 = w * K1 + (1 - w) * K3 ->
    let tol := w * tolerance (om_formula m2) F K1 v t + tolerance (om_formula m2) F K2 v t + (1 - w) * tolerance (om_formula m2) F K3 v t in
    exists c1 c2 c3 p1 p2 p3, get_call_value fuel1 flr1 m1 d1 s1 = Ok c1 /\ get_call_value fuel2 flr2 m2 d2 s2 = Ok c2 /\
      get_call_value fuel3 flr3 m3 d3 s3 = Ok c3 /\ get_put_value fuel1 flr1 m1 d1 s1 = Ok p1 /\
      get_put_value fuel2 flr2 m2 d2 s2 = Ok p2 /\ get_put_value fuel3 flr3 m3 d3 s3 = Ok p3 /\
      c2 <= w * c1 + (1 - w) * c3 + tol /\ p2 <= w * p1 + (1 - w) * p3 + tol.
  Proof.
    intros fuel1 flr1 m1 d1 s1 fuel2 flr2 m2 d2 s2 fuel3 flr3 m3 d3 s3 F K1 K2 K3 v t w C1 C3 M1 M2 M3 OK1 OK2 OK3 W KE tol.
    rewrite <- C1 in OK1. rewrite <- C3 in OK3.
    destruct (priced_value _ _ _ _ _ _ _ _ _ M1 OK1) as (c1 & p1 & ec1 & ep1 & A1 & B1 & X1 & Y1 & E1 & G1).
    destruct (priced_value _ _ _ _ _ _ _ _ _ M2 OK2) as (c2 & p2 & ec2 & ep2 & A2 & B2 & X2 & Y2 & E2 & G2).
    destruct (priced_value _ _ _ _ _ _ _ _ _ M3 OK3) as (c3 & p3 & ec3 & ep3 & A3 & B3 & X3 & Y3 & E3 & G3).
    rewrite C1, C3 in *. exists c1, c2, c3, p1, p2, p3. repeat (split; [assumption|]).
    assert (CV : forall x, call_payoff K2 x <= w * call_payoff K1 x + (1 - w) * call_payoff K3 x).
    { intros x. subst K2. unfold call_payoff. eapply Rle_trans; [|now apply max_convex]. right. f_equal. ring. }
    assert (PV : forall x, put_payoff K2 x <= w * put_payoff K1 x + (1 - w) * put_payoff K3 x).
    { intros x. subst K2. unfold put_payoff. eapply Rle_trans; [|now apply max_convex]. right. f_equal. ring. }
    assert (Q1 : ec2 <= w * ec1 + (1 - w) * ec3) by (refine (expectation_le _ _ _ _ _ X2 (expectation_lin _ _ _ _ w (1 - w) X1 X3)); intros z; apply CV).
    assert (Q2 : ep2 <= w * ep1 + (1 - w) * ep3) by (refine (expectation_le _ _ _ _ _ Y2 (expectation_lin _ _ _ _ w (1 - w) Y1 Y3)); intros z; apply PV).
    unfold tol. clear CV PV X1 X2 X3 Y1 Y2 Y3 tol. set (T1 := tolerance _ F K1 v t) in *. set (T2 := tolerance _ F K2 v t) in *. set (T3 := tolerance _ F K3 v t) in *.
    split; eapply mix_tol; eassumption.
  Qed.

  (** a higher forward makes calls dearer and puts cheaper, by at most the difference of
      the forwards *)
  Theorem C112_forwards : forall fuel flr m d strike fuel' flr' m' d' strike' F F' K v t,
    om_formula m' = om_formula m ->
    market fuel flr m d strike F K v t -> market fuel' flr' m' d' strike' F' K v t ->
    priced (om_formula m) F K v t -> priced (om_formula m) F' K v t -> F <= F' ->
    let tol := tolerance (om_formula m) F K v t + tolerance (om_formula m) F' K v t in
    exists c c' p p', get_call_value fuel flr m d strike = Ok c /\ get_call_value fuel' flr' m' d' strike' = Ok c' /\
      get_put_value fuel flr m d strike = Ok p /\ get_put_value fuel' flr' m' d' strike' = Ok p' /\
      - tol <= c' - c <= F' - F + tol /\ - tol <= p - p' <= F' - F + tol.
  Proof.
    intros fuel flr m d strike fuel' flr' m' d' strike' F F' K v t C M M' OK OK' L tol. pose proof OK as (_ & Ht & _).
    destruct (priced_value _ _ _ _ _ _ _ _ _ M OK) as (c & p & ec & ep & A1 & A2 & X & Y & E1 & E2). rewrite <- C in OK'.
    destruct (priced_value _ _ _ _ _ _ _ _ _ M' OK') as (c' & p' & ec' & ep' & A1' & A2' & X' & Y' & E1' & E2'). rewrite C in *.
    exists c, c', p, p'. repeat (split; [assumption|]).
    pose proof (fun z => forward_mono (om_formula m) F F' v t z L) as FM.
    pose proof (expectation_lin _ _ _ _ (-1) 1 (forward_mean (om_formula m) F v t Ht) (forward_mean (om_formula m) F' v t Ht)) as DF. cbv beta in DF.
    assert (B1 : ec <= ec').
    { refine (expectation_le _ _ _ _ _ X X'). intros z. specialize (FM z). unfold call_payoff, Rmax. do 2 destruct Rle_dec; lra. }
    assert (B2 : ec' <= 1 * ec + 1 * (-1 * F + 1 * F')).
    { refine (expectation_le _ _ _ _ _ X' (expectation_lin _ _ _ _ 1 1 X DF)). intros z. specialize (FM z). cbv beta. unfold call_payoff, Rmax. do 2 destruct Rle_dec; lra. }
    assert (B3 : ep' <= ep).
    { refine (expectation_le _ _ _ _ _ Y' Y). intros z. specialize (FM z). unfold put_payoff, Rmax. do 2 destruct Rle_dec; lra. }
    assert (B4 : ep <= 1 * ep' + 1 * (-1 * F + 1 * F')).
    { refine (expectation_le _ _ _ _ _ Y (expectation_lin _ _ _ _ 1 1 Y' DF)). intros z. specialize (FM z). cbv beta. unfold put_payoff, Rmax. do 2 destruct Rle_dec; lra. }
    unfold tol. tails. lra.
  Qed.

  (** a higher volatility or a later expiry makes calls and puts dearer *)
  Lemma bach_grows N : normal_distribution N -> forall K F s s', 0 < s -> s < s' -> bach N K F s < bach N K F s'.
  Proof.
    intros HN K F s s' S L. destruct (mvt (bach N K F) (fun s => density ((F - K) / s)) s s' L) as [c [E Q]].
    - intros c Q. apply is_derive_Reals. apply bach_vega_s; [auto|lra].
    - pose proof (density_pos ((F - K) / c)). assert (0 < density ((F - K) / c) * (s' - s)) by (apply Rmult_lt_0_compat; lra). lra.
  Qed.
  Lemma blk_grows N : normal_distribution N -> forall K F s s', 0 < F -> 0 < K -> 0 < s -> s < s' -> blk N K F s < blk N K F s'.
  Proof.
    intros HN K F s s' HF HK S L. destruct (mvt (blk N K F) (fun s => F * density ((ln (F / K) + s * s / 2) / s)) s s' L) as [c [E Q]].
    - intros c Q. apply is_derive_Reals. apply blk_vega_s; auto; lra.
    - pose proof (density_pos ((ln (F / K) + c * c / 2) / c)).
      assert (0 < F * density ((ln (F / K) + c * c / 2) / c) * (s' - s)) by (apply Rmult_lt_0_compat; [apply Rmult_lt_0_compat|]; lra). lra.
  Qed.
  Lemma vanilla_closed N fm F K v t e : normal_distribution N -> priced fm F K v t ->
    expectation (fun z => call_payoff K (forward_at fm F v t z)) e ->
    e = match fm with FNormal => bach N K F (v * sqrt t) | FDisplaced a => blk N (K + a) (F + a) (v * sqrt t) | _ => blk N K F (v * sqrt t) end.
  Proof.
    intros HN (Hv & Ht & OK) H. pose proof (vol_pos t v Ht Hv) as S. destruct fm; try contradiction; cbn [forward_at] in H.
    - apply (expectation_unique _ _ _ H). unfold bach.
      apply (expectation_ext (fun z => Rmax ((F - K) + v * sqrt t * z) 0)); [|now apply bach_call].
      intros z. unfold call_payoff, normal_forward. f_equal. ring.
    - destruct OK. apply (expectation_unique _ _ _ H). unfold blk.
      apply (expectation_ext (fun z => Rmax (F * exp (v * sqrt t * z - v * sqrt t * (v * sqrt t) / 2) - K) 0)); [|now apply black_call_exp].
      intros z. unfold call_payoff, lognormal_forward. now rewrite sd_sq.
    - destruct OK. apply (expectation_unique _ _ _ H). unfold blk.
      apply (expectation_ext (fun z => Rmax ((F + displacement) * exp (v * sqrt t * z - v * sqrt t * (v * sqrt t) / 2) - (K + displacement)) 0)); [|now apply black_call_exp].
      intros z. unfold call_payoff, displaced_forward, lognormal_forward. rewrite sd_sq by auto. f_equal. ring.
  Qed.
  Theorem C112_variance : forall fuel flr m d strike fuel' flr' m' d' strike' F K v t v' t',
    om_formula m' = om_formula m ->
    market fuel flr m d strike F K v t -> market fuel' flr' m' d' strike' F K v' t' ->
    priced (om_formula m) F K v t -> priced (om_formula m) F K v' t' -> v ^ 2 * t <= v' ^ 2 * t' ->
    let tol := tolerance (om_formula m) F K v t + tolerance (om_formula m) F K v' t' in
    exists c c' p p', get_call_value fuel flr m d strike = Ok c /\ get_call_value fuel' flr' m' d' strike' = Ok c' /\
      get_put_value fuel flr m d strike = Ok p /\ get_put_value fuel' flr' m' d' strike' = Ok p' /\
      c <= c' + tol /\ p <= p' + tol.
  Proof.
    intros fuel flr m d strike fuel' flr' m' d' strike' F K v t v' t' C M M' OK OK' L tol. pose proof OK as (Hv & Ht & Q). pose proof OK' as (Hv' & Ht' & _).
    destruct (priced_value _ _ _ _ _ _ _ _ _ M OK) as (c & p & ec & ep & A1 & A2 & X & Y & E1 & E2). pose proof OK' as OK2. rewrite <- C in OK2.
    destruct (priced_value _ _ _ _ _ _ _ _ _ M' OK2) as (c' & p' & ec' & ep' & A1' & A2' & X' & Y' & E1' & E2'). rewrite C in *.
    exists c, c', p, p'. repeat (split; [assumption|]). destruct the_distribution as [N HN].
    pose proof (vanilla_closed N _ _ _ _ _ _ HN OK X) as V. pose proof (vanilla_closed N _ _ _ _ _ _ HN OK' X') as V'.
    pose proof (vol_pos t v Ht Hv) as S. pose proof (vol_pos t' v' Ht' Hv') as S'.
    assert (SL : v * sqrt t <= v' * sqrt t') by (rewrite <- !sd_sq in L by auto; nra).
    assert (B : ec <= ec').
    { destruct SL as [SL|SL]; [|rewrite V, V', SL; lra]. left. rewrite V, V'. destruct (om_formula m); try contradiction; cbn.
      - apply bach_grows; auto.
      - destruct Q. apply blk_grows; auto.
      - destruct Q. apply blk_grows; auto. }
    destruct (C51_parity DS DC _ _ _ _ _ _ _ _ _ M) as [PA _]. specialize (PA c p A1 A2).
    destruct (C51_parity DS DC _ _ _ _ _ _ _ _ _ M') as [PA' _]. specialize (PA' c' p' A1' A2').
    unfold tol. tails. lra.
  Qed.
End Smile.
Print Assumptions C112_strikes.
Print Assumptions C112_butterfly.
Print Assumptions C112_forwards.
Print Assumptions C112_variance.

(** * Without the tolerance the claims fail *)
Lemma Phi_continuous s : 0 < s -> forall eps, 0 < eps -> exists del, 0 < del /\ forall x, Rabs (x - s) < del -> Rabs (Phi x - Phi s) < eps.
Proof.
  intros S eps He.
  assert (DT : derivable_pt_lim (fun x => phi x * Pl (tt_ x)) s (cpi * (- s * exp (- half_sq s)) * Pl (tt_ s) + phi s * (Pl' (tt_ s) * (- asp * (tt_ s * tt_ s))))).
  { apply (derivable_pt_lim_mult phi (fun x => Pl (tt_ x))).
    - apply (derive_ext (fun x => cpi * exp (- half_sq x))); [intros; symmetry; apply phi_exp|].
      apply (derivable_pt_lim_scal (fun x => exp (- half_sq x))). apply exp_sq_deriv.
    - apply (derivable_pt_lim_comp tt_ Pl); [apply tt_deriv; lra|apply Pl_deriv]. }
  assert (CT : continuity_pt (fun x => phi x * Pl (tt_ x)) s) by (apply derivable_continuous_pt; eexists; exact DT).
  destruct (CT eps He) as [al [A1 A2]]. exists (Rmin al s). split; [apply Rmin_glb_lt; lra|]. intros x X.
  pose proof (Rmin_l al s). pose proof (Rmin_r al s). apply Rabs_def2 in X as X2. rewrite (Phi_nonneg x), (Phi_nonneg s), !as_tail_eq by lra.
  destruct (Req_dec x s) as [->|NE]; [replace (1 - phi s * Pl (tt_ s) - (1 - phi s * Pl (tt_ s))) with 0 by ring; rewrite Rabs_R0; auto|].
  replace (1 - phi x * Pl (tt_ x) - (1 - phi s * Pl (tt_ s))) with (- (phi x * Pl (tt_ x) - phi s * Pl (tt_ s))) by ring. rewrite Rabs_Ropp.
  apply (A2 x). split; [split; [exact I|intro EQ; now apply NE]|]. cbn. unfold R_dist. lra.
Qed.
(** in every Black market there are two strikes such that the call with the higher one has
    the higher value *)
Theorem C112_exact_refuted : forall {D P} (DS : DateSys R D P) (DC : DayCounts R D) fuel flr (m : omodel R D P) d F v t,
  om_formula m = FLogNormal -> (forall K, market fuel flr m d (Some K) F K v t) -> 0 < F -> 0 < v -> 0 < t ->
  exists K K' c c', 0 < K < K' /\ get_call_value fuel flr m d (Some K) = Ok c /\ get_call_value fuel flr m d (Some K') = Ok c' /\ c < c'.
Proof.
  intros D P DS DC fuel flr m d F v t C M HF Hv Ht. pose proof (vol_pos t v Ht Hv) as S. pose proof (sd_sq v t Ht) as SQ. set (s := v * sqrt t) in *.
  set (K := F * exp (- (s * s / 2))). assert (HK : 0 < K) by (apply Rmult_lt_0_compat; [auto|apply exp_pos]).
  destruct (Phi_continuous s S (K / F / 10 ^ 10)) as [del [D1 D2]].
  { apply Rdiv_lt_0_compat; [now apply Rdiv_lt_0_compat|lra]. }
  destruct (derivable_continuous_pt exp 0 (derivable_pt_exp 0) (1 / 10 ^ 10)) as [al [B1 B2]]; [lra|].
  set (e := Rmin (del / 2) (al / (2 * s))). assert (E0 : 0 < e). { apply Rmin_glb_lt; [lra|apply Rdiv_lt_0_compat; lra]. }
  assert (E1 : e < del) by (pose proof (Rmin_l (del / 2) (al / (2 * s))); unfold e; lra).
  assert (E2 : s * e < al).
  { pose proof (Rmin_r (del / 2) (al / (2 * s))). fold e in H. apply (Rmult_le_compat_l s) in H; [|lra]. replace (s * (al / (2 * s))) with (al / 2) in H by (field; lra). lra. }
  assert (SE : 0 < s * e) by (apply Rmult_lt_0_compat; auto).
  assert (EX : 1 < exp (s * e) < 1 + 1 / 10 ^ 10).
  { split; [rewrite <- exp_0; now apply exp_increasing|].
    specialize (B2 (s * e)). cbn in B2. unfold R_dist in B2. rewrite exp_0 in B2.
    assert (B3 : Rabs (exp (s * e) - 1) < 1 / 10 ^ 10). { apply B2. split; [split; [exact I|lra]|]. rewrite Rminus_0_r, Rabs_right; lra. }
    apply Rabs_def2 in B3. lra. }
  set (K' := K * exp (s * e)). assert (KL : K < K') by (unfold K'; nra).
  assert (VAL : forall k, 0 < k -> get_call_value fuel flr m d (Some k) = Ok (black_call t k F v)).
  { intros k Hk. destruct (value_live _ _ _ _ _ _ _ _ _ (M k)) as [V1 _]; try lra. rewrite V1, C. cbn [call_price].
    apply black_price_ok; auto; try lra. apply Rdiv_lt_0_compat; auto. }
  exists K, K', (black_call t K F v), (black_call t K' F v). split; [lra|]. split; [now apply VAL|]. split; [apply VAL; lra|].
  assert (L1 : ln (F / K) = s * s / 2).
  { unfold K. replace (F / (F * exp (- (s * s / 2)))) with (/ exp (- (s * s / 2))) by (field; split; [apply Rgt_not_eq, exp_pos|lra]).
    rewrite exp_Ropp, Rinv_inv. apply ln_exp. }
  assert (L2 : ln (F / K') = s * s / 2 - s * e).
  { unfold K'. replace (F / (K * exp (s * e))) with (F / K * exp (- (s * e))).
    - rewrite ln_mult, L1, ln_exp; [ring|now apply Rdiv_lt_0_compat|apply exp_pos].
    - rewrite exp_Ropp. field. split; [apply Rgt_not_eq, exp_pos|lra]. }
  assert (DX : d_black t K F v = s). { unfold d_black. fold s. rewrite L1, <- SQ. field. lra. }
  assert (DX' : d_black t K' F v = s - e). { unfold d_black. fold s. rewrite L2, <- SQ. field. lra. }
  unfold black_call. rewrite DX, DX'. fold s. replace (s - s) with 0 by ring. replace (s - e - s) with (- e) by ring.
  rewrite (Phi_nonneg 0), (Phi_neg (- e)), as_tail_zero, Ropp_involutive by lra.
  pose proof cpi_Pl_one as Z. pose proof (as_tail_half e ltac:(lra)) as TE. pose proof (as_tail_pos e ltac:(lra)) as TP.
  specialize (D2 (s - e)). replace (s - e - s) with (- e) in D2 by ring. rewrite Rabs_Ropp, Rabs_right in D2 by lra. specialize (D2 E1). apply Rabs_def2 in D2 as [_ D2].
  apply (Rmult_lt_compat_l F) in D2; auto. replace (F * - (K / F / 10 ^ 10)) with (- (K / 10 ^ 10)) in D2 by (field; lra).
  unfold K'. assert (exp (s * e) * as_tail e <= (1 + 1 / 10 ^ 10) * (1 / 2 - 4 / 10000000000)) by (apply Rmult_le_compat; lra).
  assert (K * (exp (s * e) * as_tail e) <= K * ((1 + 1 / 10 ^ 10) * (1 / 2 - 4 / 10000000000))) by (apply Rmult_le_compat_l; lra).
  assert (K * (1 - cpi * Pl 1) > K * (1/2 + 4 / 10000000000)) by (apply Rmult_lt_compat_l; lra). nra.
Qed.
Print Assumptions C112_exact_refuted.

Example C112_instance : exists c c' p p',
  get_call_value (DS:=FloatDates) (DC:=no_registry) 1 None (flat_model (FDisplaced (1/10)) 0 1 (1/5) false) 1 (Some (1/2)) = Ok c /\
  get_call_value (DS:=FloatDates) (DC:=no_registry) 1 None (flat_model (FDisplaced (1/10)) 0 1 (1/5) false) 1 (Some 2) = Ok c' /\
  get_put_value (DS:=FloatDates) (DC:=no_registry) 1 None (flat_model (FDisplaced (1/10)) 0 1 (1/5) false) 1 (Some (1/2)) = Ok p /\
  get_put_value (DS:=FloatDates) (DC:=no_registry) 1 None (flat_model (FDisplaced (1/10)) 0 1 (1/5) false) 1 (Some 2) = Ok p' /\
  - (1 / 10 ^ 6) <= c - c' <= 3/2 + 1 / 10 ^ 6 /\ - (1 / 10 ^ 6) <= p' - p <= 3/2 + 1 / 10 ^ 6.
Proof.
  assert (NF : 1 <> 0) by lra.
  pose proof (flat_market (FDisplaced (1/10)) 0 1 (1/5) false 1 (Some (1/2)) NF) as M. pose proof (flat_market (FDisplaced (1/10)) 0 1 (1/5) false 1 (Some 2) NF) as M'. cbv beta iota in M, M'.
  destruct (C112_strikes FloatDates no_registry _ _ _ _ _ _ _ _ _ _ _ _ _ _ _ eq_refl M M') as (c & c' & p & p' & A & B & E & G & X & Y).
  - cbn. repeat split; lra.
  - cbn. repeat split; lra.
  - lra.
  - exists c, c', p, p'. repeat (split; [assumption|]). cbn [om_formula flat_model tolerance] in X, Y.
    unfold tolerance in X, Y. replace (1 - 0) with 1 in X, Y by ring. rewrite sqrt_1 in X, Y. lra.
Qed.
(** the exact claims fail in a market one can set up *)
Example C112_exact_instance : exists K K' c c', 0 < K < K' /\
  get_call_value (DS:=FloatDates) (DC:=no_registry) 1 None (flat_model FLogNormal 0 1 (1/5) false) 1 (Some K) = Ok c /\
  get_call_value (DS:=FloatDates) (DC:=no_registry) 1 None (flat_model FLogNormal 0 1 (1/5) false) 1 (Some K') = Ok c' /\ c < c'.
Proof.
  apply (C112_exact_refuted FloatDates no_registry 1 None _ 1 1 (1/5) (1 - 0)); try lra; [reflexivity|].
  intros K. exact (flat_market FLogNormal 0 1 (1/5) false 1 (Some K) ltac:(lra)).
Qed.
