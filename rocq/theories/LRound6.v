(** Lemmas on rounding: interpolation of the logarithms of discount factors. *)
From Coq Require Import ZArith Lia List Bool Permutation Reals Lra Floats.SpecFloat.
From Flocq Require Import Core Relative Plus_error BinarySingleNaN.
From Verif Require Import Num Py MDates MInterpolation MCurve MRateCurve MOption MCashflow MBracket MPricer MFloat
  Spec SInterpolation SCurve SRound SRound2 LBase LSort LInterpolation LInterpolation2 LCurve LRound LRound2 LRound3 LRound4 LRound5 PRound PRound2 PRound4.
Import ListNotations.
Local Open Scope R_scope.

(** * changing signs *)
Lemma opp_opp (x : float64) : SFopp (SFopp x) = x.
Proof. destruct x as [[]|[]| |[] m e]; reflexivity. Qed.
Lemma round_aux_opp s m e l : SpecFloat.binary_round_aux 53 1024 (negb s) m e l = SFopp (SpecFloat.binary_round_aux 53 1024 s m e l).
Proof.
  unfold SpecFloat.binary_round_aux. destruct (shr_fexp 53 1024 m e l) as [mrs e1].
  destruct (shr_fexp 53 1024 (round_nearest_even (shr_m mrs) (loc_of_shr_record mrs)) e1 loc_Exact) as [mrs' e2].
  destruct (shr_m mrs'); try reflexivity. destruct (e2 <=? 1024 - 53)%Z; reflexivity.
Qed.
Lemma div_opp x y : SFdiv 53 1024 (SFopp x) y = SFopp (SFdiv 53 1024 x y).
Proof.
  destruct x as [s|s| |s m e], y as [s'|s'| |s' m' e']; cbn [SFopp SFdiv]; try reflexivity;
    try (rewrite negb_xorb_l; reflexivity); try (rewrite <- negb_xorb_l; reflexivity).
  destruct (SFdiv_core_binary 53 1024 (Z.pos m) e (Z.pos m') e') as [[mz ez] lz].
  rewrite <- negb_xorb_l. apply round_aux_opp.
Qed.
Lemma opp_good x : good x -> good (SFopp x) /\ v (SFopp x) = - v x.
Proof.
  intros [D F]. destruct x as [s|s| |s m e]; try contradiction; (split; [split; auto|]); cbn; try lra.
  destruct s; cbn; lra.
Qed.

(** * errors of the interpolation of given doubles *)
Lemma scheme_error lib xs ys M gap : double_data xs ys -> let N := f64 lib in
  (forall x, In x xs -> Rabs (v x) <= powerRZ 2 500) ->
  (forall y, In y ys -> Rabs (v y) <= M) -> M <= powerRZ 2 500 ->
  0 < gap -> (forall a ya b yb, consecutive (float_points xs ys) a ya b yb -> gap <= b - a) ->
  exists f, fn_new linear_scheme xs ys = Ok f /\
  forall x, good x -> exists y Y, fn_call f x = Ok (Some y) /\ good y /\
    piecewise_linear (float_points xs ys) (v x) Y /\
    Rabs (v y - Y) <= 15 * rounding_unit * M + 2 * tiny * (1 + / gap).
Proof.
  intros (Hx & Hy & HL & NE & ND) N BX BY BM G0 G1.
  destruct (scheme_float lib xs ys Hx Hy HL NE ND) as (c & E & C). exists c. split; [exact E|]. intros x Gx.
  destruct (C x Gx) as (y & Y & Ey & PL & R). exists y, Y. split; [exact Ey|].
  pose proof u_pos as U0. pose proof tiny_pos as T0. assert (IG : 0 < / gap) by now apply Rinv_0_lt_compat.
  rewrite Forall_forall in Hx, Hy. destruct R as [[I V]|(a & ya & b & yb & I1 & I2 & -> & -> & CC & XX)].
  - split; [now apply Hy|]. split; [exact PL|]. rewrite V, Rminus_diag_eq, Rabs_R0 by reflexivity.
    assert (0 <= M) by (eapply Rle_trans; [apply Rabs_pos|apply (BY y I)]).
    assert (0 <= rounding_unit * M) by (apply Rmult_le_pos; lra). assert (0 <= tiny * (1 + / gap)) by (apply Rmult_le_pos; lra). lra.
  - pose proof (in_combine_l _ _ _ _ I1) as Ia. pose proof (in_combine_r _ _ _ _ I1) as Iya.
    pose proof (in_combine_l _ _ _ _ I2) as Ib. pose proof (in_combine_r _ _ _ _ I2) as Iyb.
    assert (L : v a < v b) by apply CC.
    pose proof (BY _ Iya) as Ba. pose proof (BY _ Iyb) as Bb.
    destruct (float_chord_finite a ya b yb x) as [Fw [Dy Fy]]; auto; try (now apply Hx); try (now apply Hy); try lra.
    split; [split; auto|]. split; [exact PL|].
    eapply Rle_trans; [apply float_chord_error; auto; try (now apply Hx); try (now apply Hy); split; auto|].
    specialize (G1 _ _ _ _ CC). set (A := v a) in *. set (B := v b) in *. set (X := v x) in *.
    set (YA := v ya) in *. set (YB := v yb) in *.
    assert (LM : 0 <= (X - A) / (B - A) <= 1).
    { split; [apply Rmult_le_pos; [lra|apply Rlt_le, Rinv_0_lt_compat; lra]|].
      apply Rmult_le_reg_r with (B - A); [lra|]. unfold Rdiv. rewrite Rmult_assoc, Rinv_l; lra. }
    assert (K1 : Rabs ((YB - YA) * ((X - A) / (B - A))) <= 2 * M).
    { rewrite Rabs_mult, (Rabs_pos_eq ((X - A) / (B - A))) by lra. apply Rle_trans with (Rabs (YB - YA) * 1).
      - apply Rmult_le_compat_l; [apply Rabs_pos|lra].
      - rewrite Rmult_1_r. unfold Rminus. eapply Rle_trans; [apply Rabs_triang|]. rewrite Rabs_Ropp. lra. }
    assert (K2 : / (B - A) <= / gap) by (apply Rinv_le_contravar; lra).
    assert (rounding_unit * Rabs YA <= rounding_unit * M) by (apply Rmult_le_compat_l; lra).
    assert (7 * rounding_unit * Rabs ((YB - YA) * ((X - A) / (B - A))) <= 7 * rounding_unit * (2 * M)) by (apply Rmult_le_compat_l; lra).
    assert (2 * tiny * (1 + / (B - A)) <= 2 * tiny * (1 + / gap)) by (apply Rmult_le_compat_l; lra). lra.
Qed.

(** values off by at most k *)
Lemma pl_nodes ps qs k x y : 0 <= k -> Forall2 (fun p q => fst p = fst q /\ Rabs (snd p - snd q) <= k) ps qs ->
  piecewise_linear ps x y -> exists y', piecewise_linear qs x y' /\ Rabs (y - y') <= k.
Proof.
  intros K0 F PL.
  assert (L : forall a b, In (a, b) ps -> exists b', In (a, b') qs /\ Rabs (b - b') <= k).
  { intros a b I. clear PL. induction F as [|[p1 p2] [q1 q2] ps qs [E B] F IH]; [destruct I|]. cbn in E, B. destruct I as [I|I].
    - injection I as -> ->. subst q1. exists q2. split; [now left|auto].
    - destruct (IH I) as (b' & I' & B'). exists b'. split; [now right|auto]. }
  assert (R : forall a b, In (a, b) qs -> exists b', In (a, b') ps).
  { intros a b I. clear PL L. induction F as [|[p1 p2] [q1 q2] ps qs [E B] F IH]; [destruct I|]. cbn in E, B. destruct I as [I|I].
    - injection I as -> ->. subst p1. exists p2. now left.
    - destruct (IH I) as (b' & I'). exists b'. now right. }
  destruct PL as [(a & ya & b & yb & (I1 & I2 & Hlt & NB) & Hx & ->)|[(a & I & FI & LE)|(b & I & LA & LE)]].
  - destruct (L _ _ I1) as (ya' & J1 & B1). destruct (L _ _ I2) as (yb' & J2 & B2). exists (chord a ya' b yb' x). split.
    + left. exists a, ya', b, yb'. split; [|auto]. split; auto. split; auto. split; auto.
      intros c z J. destruct (R _ _ J) as (z' & J'). eauto.
    + unfold chord. set (w := (x - a) / (b - a)).
      assert (W : 0 <= w <= 1).
      { unfold w. split; [apply Rmult_le_pos; [lra|left; apply Rinv_0_lt_compat; lra]|].
        apply Rmult_le_reg_r with (b - a); [lra|]. unfold Rdiv. rewrite Rmult_assoc, Rinv_l by lra. lra. }
      apply Rabs_le_inv in B1. apply Rabs_le_inv in B2. apply Rabs_le. nra.
  - destruct (L _ _ I) as (y' & J & B). exists y'. split; auto. right; left. exists a. split; auto. split; auto.
    intros c z J'. destruct (R _ _ J') as (z' & J2). eauto.
  - destruct (L _ _ I) as (y' & J & B). exists y'. split; auto. right; right. exists b. split; auto. split; auto.
    intros c z J'. destruct (R _ _ J') as (z' & J2). eauto.
Qed.

(** * the constant interpolation of the negative data *)
Section Log.
  Context (lib : libm).
  #[local] Instance n64l : Num float64 := f64 lib.
  Definition neg (p : float64 * float64) := (fst p, SFopp (snd p)).

  Lemma insert_neg p l : good (fst p) -> Forall (fun q => good (fst q) /\ v (fst q) <> v (fst p)) l ->
    insert pair_ltb (neg p) (map neg l) = map neg (insert pair_ltb p l).
  Proof.
    intros Gp F. induction F as [|q l [Gq NE] F IH]; [reflexivity|]. cbn [map insert].
    assert (E : pair_ltb (neg q) (neg p) = pair_ltb q p).
    { unfold pair_ltb, neg. cbn [fst snd neqb nltb n64l f64]. rewrite eqb_value by auto.
      now rewrite (proj2 (Reqb_false _ _) NE). }
    rewrite E. destruct (pair_ltb q p); cbn [map]; [now rewrite IH|reflexivity].
  Qed.
  Lemma sort_neg l : Forall (fun q => good (fst q)) l -> NoDup (map (fun p => v (fst p)) l) ->
    sort pair_ltb (map neg l) = map neg (sort pair_ltb l).
  Proof.
    intros G ND. induction l as [|p l IH]; [reflexivity|]. inversion G as [|? ? Gp G']. inversion ND as [|? ? NI ND']. subst.
    cbn [map sort]. rewrite IH by auto. apply insert_neg; auto. apply Forall_forall. intros q I.
    assert (I' : In q l) by (eapply Permutation_in; [apply sort_perm|exact I]).
    rewrite Forall_forall in G'. split; [now apply G'|]. intros E. apply NI. rewrite <- E. now apply (in_map (fun p => v (fst p))).
  Qed.
  Lemma split_neg l : List.split (map neg l) = (fst (List.split l), map SFopp (snd (List.split l))).
  Proof. induction l as [|[a b] l IH]; [reflexivity|]. cbn. rewrite IH. destruct (List.split l). reflexivity. Qed.
  Lemma combine_neg xs : forall ys, combine xs (map SFopp ys) = map neg (combine xs ys).
  Proof. induction xs as [|x xs IH]; intros [|y ys]; cbn; auto. now rewrite IH. Qed.

  Lemma base_neg k k' xs ys z d z' d' : Forall good xs -> length xs = length ys -> NoDup (map v xs) -> ys <> [] ->
    i_xs (base_new k xs (map SFopp ys) z d) = i_xs (base_new k' xs ys z' d') /\
    i_ys (base_new k xs (map SFopp ys) z d) = map SFopp (i_ys (base_new k' xs ys z' d')).
  Proof.
    intros G HL ND NE. unfold base_new, update_lists. destruct ys as [|y ys]; [congruence|]. cbn [map].
    change (SFopp y :: map SFopp ys) with (map SFopp (y :: ys)). set (l := y :: ys) in *. unfold update_add. cbn [combine filter app].
    rewrite combine_neg, sort_neg.
    - rewrite split_neg. destruct (List.split (sort pair_ltb (combine xs l))). split; reflexivity.
    - apply Forall_forall. intros [a b] I. apply in_combine_l in I. rewrite Forall_forall in G. now apply G.
    - clear -HL ND. revert HL. generalize l. induction xs as [|x xs IH]; intros [|b k]; cbn; intros HL; try constructor; try discriminate.
      + inversion ND as [|? ? NI ND']. subst. intros I. apply NI. apply in_map_iff in I. destruct I as ([p q] & E & I).
        cbn in E. rewrite <- E. apply in_map. eapply in_combine_l; eauto.
      + inversion ND. apply IH; auto.
  Qed.
  Lemma call_left_neg xs ys x : call_left xs (map SFopp ys) x = rmap SFopp (call_left xs ys x).
  Proof. unfold call_left. destruct ys as [|y ys]; [reflexivity|]. cbn [map]. change (SFopp y :: map SFopp ys) with (map SFopp (y :: ys)). apply nth_res_map. Qed.

(** * the logarithmic scheme is the linear one of the logarithms over the times *)
  Definition rate_of (p : float64 * float64) : res float64 := l <- nlog (snd p) ;; ndiv l (fst p).
  Lemma rate_of_opp p : (l <- nlog (snd p) ;; ndiv (nopp l) (fst p)) = rmap SFopp (rate_of p).
  Proof.
    unfold rate_of. destruct (nlog (snd p)) as [l|]; [|reflexivity]. cbn [bind ndiv nopp n64l f64].
    destruct (SFeqb (fst p) f64_zero); [reflexivity|]. cbn [rmap bind]. now rewrite div_opp.
  Qed.
  Lemma mapM_opp l r : mapM rate_of l = Ok r -> mapM (fun p => l <- nlog (snd p) ;; ndiv (nopp l) (fst p)) l = Ok (map SFopp r).
  Proof.
    revert r. induction l as [|p l IH]; intros r H.
    - injection H as <-. reflexivity.
    - cbn [mapM] in *. rewrite rate_of_opp. destruct (rate_of p) as [y|]; [|discriminate]. cbn [bind rmap] in *.
      destruct (mapM rate_of l) as [ys|]; [|discriminate]. cbn [bind] in H. rewrite (IH ys eq_refl). cbn [bind].
      apply (f_equal (fun z => match z with Ok b => b | Err _ => r end)) in H. cbv beta iota in H. now subst r.
  Qed.
  Lemma log_scheme xs ys f : fn_new log_linear_rate_scheme xs ys = Ok f ->
    exists rs z, mapM rate_of (filter (fun p => ntruthy (fst p)) (combine xs ys)) = Ok rs /\ y_at_zero xs ys = Ok z /\
      all_positive ys = true /\
      f = FScheme (mkS (base_new Klogconstantrate (filter ntruthy xs) (map SFopp rs) z None)
                       (base_new Kloglinearrate (filter ntruthy xs) rs z None)
                       (base_new Klogconstantrate (filter ntruthy xs) (map SFopp rs) z None)).
  Proof.
    intros H. unfold fn_new, resolve, log_linear_rate_scheme, scheme_new in H.
    destruct (negb _); [discriminate|]. destruct (negb _); [discriminate|]. unfold interp_new in H.
    destruct (all_positive ys); [|discriminate]. destruct (y_at_zero xs ys) as [z|]; [|discriminate]. cbn [bind] in H.
    change (fun p => l <- nlog (snd p) ;; ndiv l (fst p)) with rate_of in H.
    destruct (mapM rate_of _) as [rs|] eqn:E; [|discriminate]. rewrite (mapM_opp _ _ E) in H. cbn [bind rmap] in H.
    exists rs, z. split; auto. split; auto. split; auto.
    apply (f_equal (fun z => match z with Ok b => b | Err _ => f end)) in H. cbv beta iota in H. now subst f.
  Qed.

  Lemma base_lists k k' xs ys z d z' d' : i_xs (base_new k xs ys z d) = i_xs (base_new k' xs ys z' d') /\
    i_ys (base_new k xs ys z d) = i_ys (base_new k' xs ys z' d').
  Proof. unfold base_new. destruct (update_lists _ _ _ _). auto. Qed.
  Lemma base_kind k xs ys z d : i_kind (base_new k xs ys z d) = k /\ i_zero (base_new k xs ys z d) = z.
  Proof. unfold base_new. destruct (update_lists _ _ _ _). auto. Qed.

  Lemma log_call zs rs z g x l : Forall good zs -> length zs = length rs -> NoDup (map v zs) -> rs <> [] ->
    fn_new linear_scheme zs rs = Ok g -> good x -> v x <> 0 -> fn_call g x = Ok (Some l) ->
    fn_call (FScheme (mkS (base_new Klogconstantrate zs (map SFopp rs) z None) (base_new Kloglinearrate zs rs z None)
                          (base_new Klogconstantrate zs (map SFopp rs) z None))) x = rmap Some (nexp (l * x)%num).
  Proof.
    intros G HL ND NE H Gx NX C. unfold fn_new, resolve, linear_scheme, scheme_new in H.
    destruct (negb _); [discriminate|]. destruct (negb _); [discriminate|]. cbn [interp_new bind rmap] in H.
    apply (f_equal (fun z => match z with Ok b => b | Err _ => g end)) in H. cbv beta iota in H. subst g.
    cbn [fn_call] in *. unfold scheme_call in *. cbn [s_left s_mid s_right] in *.
    destruct (base_neg Klogconstantrate Kconstant zs rs z None None None G HL ND NE) as [X1 X2].
    rewrite X1.
    assert (TX : ntruthy x = true).
    { unfold ntruthy. cbn [neqb n0 n64l f64]. now rewrite not_zero. }
    assert (LC : forall o, interp_call (base_new Kconstant zs rs None None) x = Ok (Some o) ->
       interp_call (base_new Klogconstantrate zs (map SFopp rs) z None) x = rmap Some (nexp (o * x)%num)).
    { intros o. unfold interp_call. rewrite !(proj1 (base_kind _ _ _ _ _)), X1, X2, TX. rewrite call_left_neg.
      destruct (call_left _ _ x) as [y|]; [|discriminate]. cbn [rmap bind]. intros Q.
      apply (f_equal (fun z => match z with Ok (Some b) => b | _ => o end)) in Q. cbv beta iota in Q. rewrite <- Q.
      cbn [nopp n64l f64]. now rewrite opp_opp. }
    destruct (nth_res _ 0) as [x0|]; [|discriminate]. cbn [bind] in *.
    destruct (x <? x0)%num; [now apply LC|]. destruct (last_res _) as [xn|]; [|discriminate]. cbn [bind] in *.
    destruct (xn <? x)%num; [now apply LC|]. unfold interp_call in *. rewrite (proj1 (base_kind _ _ _ _ _)), TX. rewrite (proj1 (base_kind _ _ _ _ _)) in C.
    destruct (base_lists Klinear Kloglinearrate zs rs None None z None) as [<- <-].
    destruct (call_linear _ _ x) as [y|]; [|discriminate]. cbn [rmap bind] in *.
    apply (f_equal (fun z => match z with Ok (Some b) => b | _ => l end)) in C. cbv beta iota in C. now rewrite <- C.
  Qed.
End Log.

(** * the values of curves of discount factors *)
Lemma factor_fun ps t e e' : distinct ps -> factor_value ps t e -> factor_value ps t e' -> e = e'.
Proof.
  intros D [(Z & I)|(N & z & PL & ->)] [(Z' & I')|(N' & z' & PL' & ->)]; try congruence.
  - unfold distinct in D. clear Z Z'. induction ps as [|[a b] ps IH]; [destruct I|]. inversion D as [|? ? NI D']. subst.
    destruct I as [I|I], I' as [I'|I'].
    + congruence.
    + injection I as -> ->. exfalso. apply NI. exact (in_map fst _ _ I').
    + injection I' as -> ->. exfalso. apply NI. exact (in_map fst _ _ I).
    + auto.
  - f_equal. f_equal. apply (pl_fun (transform (fun x y => ln y / x) (without_zero ps)) t); auto. unfold distinct, transform. rewrite map_map. cbn [fst].
    apply NoDup_filter_fst. exact D.
Qed.
Lemma factor_same ps qs t e : same_points ps qs -> factor_value ps t e -> factor_value qs t e.
Proof.
  intros S [(Z & I)|(N & z & PL & ->)]; [left; split; auto; now apply S|]. right. split; auto. exists z. split; auto.
  eapply pl_same; [|exact PL]. intros [a b]. unfold transform. rewrite !in_map_iff. split.
  - intros ([c d] & E & I). exists (c, d). split; auto. apply filter_In in I. apply filter_In. split; [apply S|]; apply I.
  - intros ([c d] & E & I). exists (c, d). split; auto. apply filter_In in I. apply filter_In. split; [apply S|]; apply I.
Qed.

(** the exponential of a double which is near q *)
Lemma exp_near lib eps z y q m : 0 <= eps -> exp_within lib eps -> good z -> -700 <= v z -> Rabs (v z - q) <= m ->
  nexp (Num := f64 lib) z = Ok y -> good y /\ Rabs (v y - exp q) <= exp q * ((1 + eps) * exp m - 1).
Proof.
  intros He A [Dz Fz] L B E. cbn [nexp f64] in E.
  assert (M0 : 0 <= m) by (eapply Rle_trans; [apply Rabs_pos|exact B]).
  assert (K : good y /\ Rabs (v y - exp (v z)) <= exp (v z) * (1 + eps - 1)).
  { destruct (SFeqb z f64_zero) eqn:Z.
    - apply (f_equal (fun z => match z with Ok b => b | Err _ => y end)) in E. cbv beta iota in E. rewrite <- E, one_value.
      split; [split; [apply one_double|apply one_finite]|].
      destruct z as [s|s| |s n e]; try discriminate Z; [|destruct s; discriminate Z..]. cbn [float_value]. rewrite exp_0.
      rewrite Rminus_diag_eq, Rabs_R0 by auto. lra.
    - destruct (A z y Dz Fz L E) as (Dy & Fy & K). split; [now split|]. lra. }
  destruct K as [Gy K]. split; auto. apply (two_errors (1 + eps) _ _ (exp (v z)) m); auto using exp_pos; [lra|].
  rewrite <- !exp_plus. apply Rabs_le_inv in B. split; apply exp_mono; lra.
Qed.

Lemma combine_vp xs : forall ys, combine (map v xs) (map v ys) = map (fun p => (v (fst p), v (snd p))) (combine xs ys).
Proof. induction xs as [|x xs IH]; intros [|y ys]; cbn; auto. now rewrite IH. Qed.
Lemma filter_combine_l {A B} (g : A -> bool) (xs : list A) : forall ys : list B, length xs = length ys ->
  map fst (filter (fun p => g (fst p)) (combine xs ys)) = filter g xs.
Proof.
  induction xs as [|x xs IH]; intros [|y ys] H; try discriminate; [reflexivity|]. cbn. destruct (g x); cbn; rewrite IH; auto.
Qed.
Lemma NoDup_map_filter {A B} (f : A -> B) g l : NoDup (map f l) -> NoDup (map f (filter g l)).
Proof.
  induction l as [|a l IH]; cbn; intros H; [constructor|]. inversion H as [|? ? NI ND]. subst. destruct (g a); cbn; auto.
  constructor; auto. intros I. apply NI. apply in_map_iff in I. destruct I as (b & E & I). apply filter_In in I. rewrite <- E. now apply in_map.
Qed.

Section Values.
  Context (lib : libm).
  #[local] Instance n64p : Num float64 := f64 lib.

  Lemma truthy_value x : good x -> (ntruthy x = true <-> v x <> 0).
  Proof.
    intros G. unfold ntruthy. cbn [neqb n0 n64p f64]. rewrite eqb_value by auto using zero_good.
    rewrite negb_true_iff. apply Reqb_false.
  Qed.
  Lemma positive_value ys : Forall good ys -> all_positive ys = true -> Forall (fun y => 0 < v y) ys.
  Proof.
    intros G H. unfold all_positive in H. rewrite forallb_forall in H. rewrite Forall_forall in *. intros y I. specialize (H y I).
    cbn [nltb n0 n64p f64] in H. rewrite ltb_value in H by auto using zero_good. now apply Rltb_true in H.
  Qed.

  Lemma rate_error eta M x y r : 0 <= eta -> log_within lib eta -> good x -> good y -> v x <> 0 -> 0 < v y ->
    Rabs (ln (v y) / v x) <= M -> (1 + eta) * M <= powerRZ 2 500 -> rate_of lib (x, y) = Ok r ->
    good r /\ Rabs (v r - ln (v y) / v x) <= (eta + rounding_unit * (1 + eta)) * M + tiny.
  Proof.
    intros E0 LW Gx [Dy Fy] NX PY BM B2 H. unfold rate_of in H. cbn [nlog ndiv f64 n64l snd fst] in H.
    destruct (lm_log lib y) as [l|] eqn:EL; [|discriminate]. cbn [bind] in H.
    rewrite not_zero in H by exact NX. apply (f_equal (fun z => match z with Ok b => b | Err _ => r end)) in H. cbv beta iota in H. subst r.
    destruct (LW y l Dy Fy PY EL) as (Dl & Fl & BL). set (L := ln (v y)) in *.
    assert (B1 : Rabs (v l / v x - L / v x) <= eta * M).
    { unfold Rdiv in *. rewrite <- Rmult_minus_distr_r, Rabs_mult. rewrite Rabs_mult in BM. pose proof (Rabs_pos (/ v x)).
      apply Rle_trans with (eta * Rabs L * Rabs (/ v x)); [apply Rmult_le_compat_r; auto|]. rewrite Rmult_assoc. now apply Rmult_le_compat_l. }
    assert (BQ : Rabs (v l / v x) <= (1 + eta) * M).
    { replace (v l / v x) with (L / v x + (v l / v x - L / v x)) by ring. eapply Rle_trans; [apply Rabs_triang|]. lra. }
    assert (GD : good (SFdiv 53 1024 l x)).
    { apply div_good; [split; auto|auto|auto|]. eapply Rle_trans; [exact BQ|]. eapply Rle_trans; [exact B2|]. apply small_pow. lia. }
    split; auto. destruct GD as [DD FD]. destruct Gx as [Dx Fx]. destruct (div_round l x Dl Dx Fx NX FD) as (_ & _ & EV).
    rewrite EV. destruct (rnd_error (v l / v x)) as (d & e & Hd & He & ->).
    replace (v l / v x * (1 + d) + e - L / v x) with (v l / v x * d + e + (v l / v x - L / v x)) by ring.
    eapply Rle_trans; [apply Rabs_triang|]. assert (Rabs (v l / v x * d + e) <= rounding_unit * (1 + eta) * M + tiny).
    { eapply Rle_trans; [apply Rabs_triang|]. rewrite Rabs_mult. apply Rplus_le_compat; auto.
      replace (rounding_unit * (1 + eta) * M) with ((1 + eta) * M * rounding_unit) by ring. apply Rmult_le_compat; auto using Rabs_pos. }
    lra.
  Qed.

  Lemma rates_error eta M ps rs : 0 <= eta -> log_within lib eta -> (1 + eta) * M <= powerRZ 2 500 ->
    Forall (fun p => good (fst p) /\ good (snd p) /\ v (fst p) <> 0 /\ 0 < v (snd p) /\ Rabs (ln (v (snd p)) / v (fst p)) <= M) ps ->
    mapM (rate_of lib) ps = Ok rs ->
    Forall good rs /\ length ps = length rs /\
    Forall2 (fun p q => fst p = fst q /\ Rabs (snd p - snd q) <= (eta + rounding_unit * (1 + eta)) * M + tiny)
      (float_points (map fst ps) rs) (map (fun p => (v (fst p), ln (v (snd p)) / v (fst p))) ps).
  Proof.
    intros E0 LW B2 F H. apply mapM_Forall2 in H. induction H as [|p r ps rs Hp H IH]; [repeat constructor|].
    inversion F as [|? ? (A1 & A2 & A3 & A4 & A5) F']. subst. destruct (IH F') as (I1 & I2 & I3). destruct p as [x y]. cbn [fst snd] in *.
    destruct (rate_error eta M x y r) as [R1 R2]; auto. split; [constructor; auto|]. split; [cbn; congruence|].
    unfold float_points in *. cbn [map combine fst snd]. constructor; auto.
  Qed.

  Lemma zero_call a b c z x : ntruthy x = false -> i_kind a = Klogconstantrate -> i_kind b = Kloglinearrate -> i_kind c = Klogconstantrate ->
    i_zero a = z -> i_zero b = z -> i_zero c = z -> forall r, fn_call (FScheme (mkS a b c)) x = Ok r -> r = z.
  Proof.
    intros T K1 K2 K3 Z1 Z2 Z3 r H. cbn [fn_call] in H. unfold scheme_call in H. cbn [s_left s_mid s_right] in H.
    unfold interp_call in H. rewrite K1, K2, K3, T, Z1, Z2, Z3 in H.
    destruct (nth_res _ _); [|discriminate]. cbn [bind] in H. destruct (x <? _)%num.
    - now apply (f_equal (fun y => match y with Ok b => b | Err _ => r end)) in H.
    - destruct (last_res _); [|discriminate]. cbn [bind] in H.
      destruct (_ <? x)%num; now apply (f_equal (fun y => match y with Ok b => b | Err _ => r end)) in H.
  Qed.
  Lemma zero_point xs ys y : Forall good xs -> length xs = length ys -> y_at_zero xs ys = Ok (Some y) ->
    exists x, In (x, y) (combine xs ys) /\ v x = 0.
  Proof.
    intros G HL H. unfold y_at_zero in H. destruct (filter (fun x => (x =? n0)%num) xs) as [|z l] eqn:EF; [discriminate|].
    assert (I : In z (filter (fun x => (x =? n0)%num) xs)) by (rewrite EF; now left). apply filter_In in I. destruct I as [I Z].
    rewrite Forall_forall in G. cbn [neqb n0 n64p f64] in Z. rewrite eqb_value in Z by auto using zero_good. apply Reqb_true in Z.
    change (v f64_zero) with 0 in Z.
    destruct (index_of neqb z xs) as [i|] eqn:EI; [|discriminate]. destruct (nth_res ys i) as [y'|] eqn:EN; [|discriminate].
    cbn [bind] in H. apply (f_equal (fun q => match q with Ok (Some b) => b | _ => y end)) in H. cbv beta iota in H. subst y'. clear EF.
    assert (Gz : good z) by auto. clear I.
    revert ys i HL EI EN G. induction xs as [|x xs IH]; intros ys i HL EI EN G; [discriminate|].
    destruct ys as [|w ys]; [discriminate|]. cbn [index_of] in EI.
    destruct (neqb x z) eqn:E.
    - injection EI as <-. unfold nth_res in EN. cbn in EN. apply (f_equal (fun q => match q with Ok b => b | _ => y end)) in EN. cbv beta iota in EN. subst w.
      exists x. split; [now left|]. cbn [neqb n64p f64] in E. rewrite eqb_value in E by (auto; apply G; now left). apply Reqb_true in E. congruence.
    - destruct (index_of neqb z xs) as [j|] eqn:EJ; [|discriminate]. injection EI as <-.
      destruct (IH ys j) as (x' & I' & V'); auto. { intros; apply G; now right. } exists x'. split; [now right|auto].
  Qed.

  Lemma log_factor eps eta M T gap xs ys f :
    0 <= eps -> exp_within lib eps -> 0 <= eta -> log_within lib eta -> 0 <= T -> double_data xs ys ->
    (forall x, In x xs -> Rabs (v x) <= powerRZ 2 500) -> (exists x, In x xs /\ v x <> 0) ->
    (forall x y, In (x, y) (float_points xs ys) -> x <> 0 -> Rabs (ln y / x) <= M) ->
    0 < gap -> (forall a b, In a xs -> In b xs -> v a < v b -> gap <= v b - v a) ->
    let kappa := (eta + rounding_unit * (1 + eta)) * M + tiny in M + kappa <= powerRZ 2 500 ->
    let delta := 15 * rounding_unit * (M + kappa) + 2 * tiny * (1 + / gap) + kappa in (M + delta) * T <= 600 ->
    fn_new log_linear_rate_scheme xs ys = Ok f ->
    forall x y, good x -> Rabs (v x) <= T -> fn_call f x = Ok (Some y) ->
    good y /\ exists e, factor_value (float_points xs ys) (v x) e /\ 0 < e /\
      Rabs (v y - e) <= e * ((1 + eps) * exp (rounding_unit * ((M + delta) * T) + tiny + delta * T) - 1).
  Proof.
    intros E0 EW H0 LW T0 (Hx & Hy & HL & NE & ND) BX (x1 & I1 & N1) BM G0 GG kappa BK delta BT HF x y Gx BTx C.
    pose proof u_pos as U0. pose proof tiny_pos as TP. assert (IG : 0 < / gap) by now apply Rinv_0_lt_compat.
    destruct (log_scheme lib xs ys f HF) as (rs & z & EM & EZ & AP & ->).
    change (n64l lib) with n64p in EM, EZ, AP, C. change (n64l lib) with n64p in HF. pose proof (positive_value ys Hy AP) as PY.
    set (qs := filter (fun p => ntruthy (fst p)) (combine xs ys)) in *.
    pose proof (filter_combine_l ntruthy xs ys HL) as FX. fold qs in FX.
    assert (FQ : Forall (fun p => good (fst p) /\ good (snd p) /\ v (fst p) <> 0 /\ 0 < v (snd p) /\ Rabs (ln (v (snd p)) / v (fst p)) <= M) qs).
    { apply Forall_forall. intros [a b] I. apply filter_In in I. destruct I as [I TR]. cbn [fst snd] in *.
      pose proof (in_combine_l _ _ _ _ I) as Ia. pose proof (in_combine_r _ _ _ _ I) as Ib. rewrite Forall_forall in *.
      assert (NZ : v a <> 0) by (apply truthy_value; [now apply Hx|auto]). split; [now apply Hx|]. split; [now apply Hy|]. split; auto. split; auto.
      apply BM; auto. unfold float_points. rewrite combine_vp. exact (in_map (fun p => (v (fst p), v (snd p))) _ _ I). }
    assert (QN : qs <> []).
    { intros EQ. assert (I : In x1 (filter ntruthy xs)).
      { apply filter_In. split; auto. apply truthy_value; auto. rewrite Forall_forall in Hx. now apply Hx. }
      rewrite <- FX, EQ in I. destruct I. }
    assert (M0 : 0 <= M).
    { destruct qs as [|p l]; [congruence|]. inversion FQ as [|? ? (_ & _ & _ & _ & B) _]. eapply Rle_trans; [apply Rabs_pos|exact B]. }
    assert (EM0 : 0 <= eta * M) by now apply Rmult_le_pos.
    assert (K0 : 0 <= kappa).
    { unfold kappa. apply Rplus_le_le_0_compat; [|lra]. apply Rmult_le_pos; [|lra]. assert (0 <= rounding_unit * (1 + eta)) by (apply Rmult_le_pos; lra). lra. }
    assert (B2 : (1 + eta) * M <= powerRZ 2 500).
    { assert (0 <= rounding_unit * (1 + eta) * M) by (apply Rmult_le_pos; [apply Rmult_le_pos|]; lra). unfold kappa in BK. lra. }
    destruct (rates_error eta M qs rs H0 LW B2 FQ EM) as (GR & LQ & F2). fold kappa in F2.
    assert (D0 : kappa <= delta).
    { unfold delta. assert (0 <= rounding_unit * (M + kappa)) by (apply Rmult_le_pos; lra). assert (0 <= tiny * (1 + / gap)) by (apply Rmult_le_pos; lra). lra. }
    assert (MT0 : 0 <= (M + delta) * T) by (apply Rmult_le_pos; lra). assert (DT0 : 0 <= delta * T) by (apply Rmult_le_pos; lra).
    assert (UM0 : 0 <= rounding_unit * ((M + delta) * T)) by (apply Rmult_le_pos; lra).
    destruct (Req_dec (v x) 0) as [VX|VX].
    - assert (TX : ntruthy x = false).
      { destruct (ntruthy x) eqn:Q; auto. apply truthy_value in Q; auto. contradiction. }
      apply zero_call with (z := z) in C; auto; try apply base_kind. subst z.
      destruct (zero_point xs ys y Hx HL EZ) as (x0 & I0 & V0).
      pose proof (in_combine_r _ _ _ _ I0) as Iy. rewrite Forall_forall in Hy, PY. split; [now apply Hy|]. exists (v y). split; [|split; [now apply PY|]].
      + left. split; auto. unfold float_points. rewrite combine_vp, <- V0. exact (in_map (fun p => (v (fst p), v (snd p))) _ _ I0).
      + rewrite Rminus_diag_eq, Rabs_R0 by reflexivity. pose proof (PY y Iy). apply Rmult_le_pos; [lra|].
        pose proof (exp_mono 0 (rounding_unit * ((M + delta) * T) + tiny + delta * T)) as X. rewrite exp_0 in X. specialize (X ltac:(lra)). nra.
    - assert (DD : double_data (map fst qs) rs).
      { unfold double_data. split; [|split; [|split; [|split]]]; auto.
        - rewrite FX. rewrite Forall_forall in *. intros a I. apply filter_In in I. now apply Hx.
        - now rewrite map_length.
        - destruct qs; [congruence|discriminate].
        - rewrite FX. now apply NoDup_map_filter. }
      assert (IQ : forall a, In a (map fst qs) -> In a xs) by (intros a; rewrite FX; intros I; now apply filter_In in I).
      assert (RB : forall r, In r rs -> Rabs (v r) <= M + kappa).
      { intros r I. clear -F2 FQ I LQ. unfold float_points in F2. revert rs LQ I F2. induction FQ as [|p qs (_ & _ & _ & _ & B) FQ IH]; intros [|r' rs] LQ I F2; try discriminate; [destruct I|].
        cbn [map combine] in F2. inversion F2 as [|? ? ? ? [_ Q] F2']. subst. cbn [fst snd] in Q. destruct I as [->|I].
        - replace (v r) with (ln (v (snd p)) / v (fst p) + (v r - ln (v (snd p)) / v (fst p))) by ring. eapply Rle_trans; [apply Rabs_triang|]. lra.
        - apply (IH rs); auto. }
      destruct (scheme_error lib (map fst qs) rs (M + kappa) gap DD) as (g & EG & CG); auto.
      { intros a ya b yb (A1 & A2 & L & _). unfold float_points in *. apply in_combine_l in A1. apply in_combine_l in A2.
        apply in_map_iff in A1. destruct A1 as (a' & <- & A1). apply in_map_iff in A2. destruct A2 as (b' & <- & A2). apply GG; auto. }
      destruct (CG x Gx) as (l & Y & EL & Gl & PL & BL).
      destruct DD as (D1 & D2 & D3 & D4 & D5).
      assert (RN : rs <> []) by (destruct rs, qs; try discriminate; congruence).
      rewrite <- FX in C. pose proof (log_call lib (map fst qs) rs z g x l D1 D3 D5 RN EG Gx VX EL) as LC.
      change (n64l lib) with n64p in LC. rewrite LC in C. cbn [nmul n64p f64] in C.
      destruct (nexp (SFmul 53 1024 l x)) as [y'|] eqn:EX; [|discriminate]. cbn [rmap bind] in C.
      apply (f_equal (fun q => match q with Ok (Some b) => b | _ => y end)) in C. cbv beta iota in C. subst y'.
      destruct (pl_nodes _ _ kappa (v x) Y K0 F2 PL) as (Z & PZ & BZ).
      assert (ZM : Rabs Z <= M).
      { apply (pl_bound _ _ _ M PZ). intros a b I. apply in_map_iff in I. destruct I as (p & E & I). injection E as <- <-.
        rewrite Forall_forall in FQ. now apply FQ. }
      assert (LZ : Rabs (v l - Z) <= delta).
      { replace (v l - Z) with ((v l - Y) + (Y - Z)) by ring. eapply Rle_trans; [apply Rabs_triang|]. unfold delta. lra. }
      assert (LM : Rabs (v l) <= M + delta).
      { replace (v l) with (Z + (v l - Z)) by ring. eapply Rle_trans; [apply Rabs_triang|]. lra. }
      assert (LX : Rabs (v l * v x) <= (M + delta) * T) by (rewrite Rabs_mult; apply Rmult_le_compat; auto using Rabs_pos).
      assert (GM : good (SFmul 53 1024 l x)).
      { apply mul_good; auto. assert (600 <= powerRZ 2 10) by (simpl; lra). assert (powerRZ 2 10 <= powerRZ 2 1023) by (apply small_pow; lia). lra. }
      destruct GM as [DM FM]. destruct (mul_error l x (proj1 Gl) (proj1 Gx) FM) as (_ & _ & _ & d & e & Hd & He & EV).
      set (m := rounding_unit * ((M + delta) * T) + tiny + delta * T) in *.
      assert (BZX : Rabs (v l * v x - Z * v x) <= delta * T).
      { rewrite <- Rmult_minus_distr_r, Rabs_mult. apply Rmult_le_compat; auto using Rabs_pos. }
      assert (BD : Rabs (v l * v x * d) <= rounding_unit * ((M + delta) * T)).
      { rewrite Rabs_mult, Rmult_comm. apply Rmult_le_compat; auto using Rabs_pos. }
      assert (BV : Rabs (v (SFmul 53 1024 l x) - Z * v x) <= m).
      { rewrite EV. replace (v l * v x * (1 + d) + e - Z * v x) with (v l * v x * d + e + (v l * v x - Z * v x)) by ring.
        eapply Rle_trans; [apply Rabs_triang|]. unfold m. apply Rplus_le_compat; auto. eapply Rle_trans; [apply Rabs_triang|]. lra. }
      assert (LO : -700 <= v (SFmul 53 1024 l x)).
      { rewrite EV. apply Rabs_le_inv in LX. apply Rabs_le_inv in BD. apply Rabs_le_inv in He. pose proof u_small. pose proof tiny_lt_u.
        assert (rounding_unit * ((M + delta) * T) <= / 1000 * 600) by (apply Rmult_le_compat; lra). lra. }
      destruct (exp_near lib eps (SFmul 53 1024 l x) y (Z * v x) m) as [Gy By]; auto; [split; auto|].
      split; auto. exists (exp (Z * v x)). split; [|split; [apply exp_pos|exact By]].
      right. split; auto. exists Z. split; auto.
      assert (EQP : map (fun p => (v (fst p), ln (v (snd p)) / v (fst p))) qs = transform (fun x y => ln y / x) (without_zero (float_points xs ys))); [|now rewrite <- EQP].
      unfold transform, float_points, qs. rewrite combine_vp. clear -Hx.
      revert ys. induction Hx as [|a xs Ga Hx IH]; intros [|b ys]; cbn [combine filter map without_zero]; auto.
      cbn [fst snd]. specialize (IH ys). unfold without_zero in IH. destruct (Req_EM_T (v a) 0) as [Q|Q].
      + assert (ntruthy a = false) as -> by (destruct (ntruthy a) eqn:W; auto; apply truthy_value in W; auto; contradiction). exact IH.
      + assert (ntruthy a = true) as -> by (apply truthy_value; auto). cbn [map fst snd]. f_equal. exact IH.
  Qed.
End Values.
