(** Curves of discount factors in double precision return.  Used for C105. *)
From Coq Require Import ZArith Lia List Bool Permutation Reals Lra Floats.SpecFloat.
From Flocq Require Import Core Relative Plus_error BinarySingleNaN.
From Verif Require Import Num Py MDates MInterpolation MCurve MRateCurve MOption MCashflow MBracket MPricer MFloat
  Spec SInterpolation SCurve SRound SRound2 SRound3 LBase LSort LInterpolation LInterpolation2 LCurve LRound LRound2 LRound3 LRound4 LRound5 LRound6 PRound PRound2 PRound4.
Import ListNotations.
Local Open Scope R_scope.

Section Returns.
  Context (lib : libm).
  #[local] Instance n64p : Num float64 := f64 lib.

  Lemma log_call_zero zs rs z g x l : Forall good zs -> length zs = length rs -> NoDup (map v zs) -> rs <> [] ->
    fn_new linear_scheme zs rs = Ok g -> ntruthy x = false -> fn_call g x = Ok (Some l) ->
    fn_call (FScheme (mkS (base_new Klogconstantrate zs (map SFopp rs) z None) (base_new Kloglinearrate zs rs z None)
                          (base_new Klogconstantrate zs (map SFopp rs) z None))) x = Ok z.
  Proof.
    intros G HL ND NE H TX C. unfold fn_new, resolve, linear_scheme, scheme_new in H.
    destruct (negb _); [discriminate|]. destruct (negb _); [discriminate|]. cbn [interp_new bind rmap] in H.
    apply (f_equal (fun z => match z with Ok b => b | Err _ => g end)) in H. cbv beta iota in H. subst g.
    cbn [fn_call] in *. unfold scheme_call in *. cbn [s_left s_mid s_right] in *.
    destruct (base_neg lib Klogconstantrate Kconstant zs rs z None None None G HL ND NE) as [X1 X2]. change (n64l lib) with n64p in X1, X2.
    rewrite X1.
    destruct (nth_res _ 0) as [x0|]; [|discriminate]. cbn [bind] in *.
    unfold interp_call. rewrite !(proj1 (base_kind lib _ _ _ _ _)), !(proj2 (base_kind lib _ _ _ _ _)), TX.
    destruct (x <? x0)%num; [reflexivity|]. destruct (last_res _) as [xn|]; [|discriminate]. cbn [bind] in *.
    destruct (xn <? x)%num; reflexivity.
  Qed.
  Lemma at_zero xs ys x : Forall good xs -> length xs = length ys -> In x xs -> v x = 0 -> forall z, y_at_zero xs ys = Ok z -> exists y, z = Some y.
  Proof.
    intros G HL I Z z E. unfold y_at_zero in E.
    destruct (filter (fun x => (x =? n0)%num) xs) as [|a l] eqn:EF.
    - exfalso. assert (J : In x (filter (fun x => (x =? n0)%num) xs)).
      { apply filter_In. split; auto. rewrite Forall_forall in G. cbn [neqb n0 n64p f64]. rewrite eqb_value by auto using zero_good. apply Reqb_true. exact Z. }
      rewrite EF in J. destruct J.
    - destruct (index_of neqb a xs); [|discriminate]. destruct (nth_res ys _) as [y|]; [|discriminate]. cbn [bind] in E.
      exists y. now apply (f_equal (fun q => match q with Ok b => b | _ => z end)) in E.
  Qed.

  Lemma factor_returns eta M T gap xs ys f :
    exp_returns lib -> 0 <= eta -> log_within lib eta -> 0 <= T -> double_data xs ys ->
    (forall x, In x xs -> Rabs (v x) <= powerRZ 2 500) -> (exists x, In x xs /\ v x <> 0) ->
    (forall x y, In (x, y) (float_points xs ys) -> x <> 0 -> Rabs (ln y / x) <= M) ->
    0 < gap -> (forall a b, In a xs -> In b xs -> v a < v b -> gap <= v b - v a) ->
    let kappa := (eta + rounding_unit * (1 + eta)) * M + tiny in M + kappa <= powerRZ 2 500 ->
    let delta := 15 * rounding_unit * (M + kappa) + 2 * tiny * (1 + / gap) + kappa in (M + delta) * T <= 600 ->
    fn_new log_linear_rate_scheme xs ys = Ok f ->
    forall x, good x -> Rabs (v x) <= T -> (v x = 0 -> exists x0, In x0 xs /\ v x0 = 0) -> exists y, fn_call f x = Ok (Some y).
  Proof.
    intros ER H0 LW T0 (Hx & Hy & HL & NE & ND) BX (x1 & I1 & N1) BM G0 GG kappa BK delta BT HF x Gx BTx AZ.
    pose proof u_pos as U0. pose proof tiny_pos as TP. assert (IG : 0 < / gap) by now apply Rinv_0_lt_compat.
    destruct (log_scheme lib xs ys f HF) as (rs & z & EM & EZ & AP & ->).
    change (n64l lib) with n64p in EM, EZ, AP |- *. change (n64l lib) with n64p in HF. pose proof (positive_value lib ys Hy AP) as PY.
    set (qs := filter (fun p => ntruthy (fst p)) (combine xs ys)) in *.
    pose proof (filter_combine_l ntruthy xs ys HL) as FX. fold qs in FX.
    assert (FQ : Forall (fun p => good (fst p) /\ good (snd p) /\ v (fst p) <> 0 /\ 0 < v (snd p) /\ Rabs (ln (v (snd p)) / v (fst p)) <= M) qs).
    { apply Forall_forall. intros [a b] I. apply filter_In in I. destruct I as [I TR]. cbn [fst snd] in *.
      pose proof (in_combine_l _ _ _ _ I) as Ia. pose proof (in_combine_r _ _ _ _ I) as Ib. rewrite Forall_forall in *.
      assert (NZ : v a <> 0) by (apply (truthy_value lib); [now apply Hx|exact TR]). split; [now apply Hx|]. split; [now apply Hy|]. split; auto. split; auto.
      apply BM; auto. unfold float_points. rewrite combine_vp. exact (in_map (fun p => (v (fst p), v (snd p))) _ _ I). }
    assert (QN : qs <> []).
    { intros EQ. assert (I : In x1 (filter ntruthy xs)).
      { apply filter_In. split; auto. apply (truthy_value lib); auto. rewrite Forall_forall in Hx. now apply Hx. }
      rewrite <- FX, EQ in I. destruct I. }
    assert (M0 : 0 <= M).
    { destruct qs as [|p l]; [congruence|]. inversion FQ as [|? ? (_ & _ & _ & _ & B) _]. eapply Rle_trans; [apply Rabs_pos|exact B]. }
    assert (EM0 : 0 <= eta * M) by now apply Rmult_le_pos.
    assert (K0 : 0 <= kappa).
    { unfold kappa. apply Rplus_le_le_0_compat; [|lra]. apply Rmult_le_pos; [|lra]. assert (0 <= rounding_unit * (1 + eta)) by (apply Rmult_le_pos; lra). lra. }
    assert (B2 : (1 + eta) * M <= powerRZ 2 500).
    { assert (0 <= rounding_unit * (1 + eta) * M) by (apply Rmult_le_pos; [apply Rmult_le_pos|]; lra). unfold kappa in BK. lra. }
    destruct (rates_error lib eta M qs rs H0 LW B2 FQ EM) as (GR & LQ & F2). fold kappa in F2.
    assert (D0 : kappa <= delta).
    { unfold delta. assert (0 <= rounding_unit * (M + kappa)) by (apply Rmult_le_pos; lra). assert (0 <= tiny * (1 + / gap)) by (apply Rmult_le_pos; lra). lra. }
    assert (MT0 : 0 <= (M + delta) * T) by (apply Rmult_le_pos; lra). assert (DT0 : 0 <= delta * T) by (apply Rmult_le_pos; lra).
    assert (UM0 : 0 <= rounding_unit * ((M + delta) * T)) by (apply Rmult_le_pos; lra).
    assert (DD : double_data (map fst qs) rs).
      { unfold double_data. split; [|split; [|split; [|split]]]; auto.
        - rewrite FX. rewrite Forall_forall in *. intros a I. apply filter_In in I. now apply Hx.
        - now rewrite map_length.
        - destruct qs; [congruence|discriminate].
        - rewrite FX. now apply NoDup_map_filter. }
      assert (IQ : forall a, In a (map fst qs) -> In a xs) by (intros a; rewrite FX; intros I; now apply filter_In in I).
      assert (RB : forall r, In r rs -> Rabs (v r) <= M + kappa).
      { intros r I. clear -F2 FQ I LQ. unfold float_points in F2. revert rs LQ I F2. induction FQ as [|p qs (_ & _ & _ & _ & B) FQ IH]; intros [|r' rs] LQ I F2; try discriminate; [destruct I|].
        cbn [map combine] in F2. inversion F2 as [|? ? ? ? [_ Q] F2']. subst. cbn [fst snd] in Q. destruct I as [->|I].
        - replace (v r) with (ln (v (snd p)) / v (fst p) + (v r - ln (v (snd p)) / v (fst p))) by ring. eapply Rle_trans; [apply Rabs_triang|]. lra.
        - apply (IH rs); auto. }
      destruct (scheme_error lib (map fst qs) rs (M + kappa) gap DD) as (g & EG & CG); auto.
      { intros a ya b yb (A1 & A2 & L & _). unfold float_points in *. apply in_combine_l in A1. apply in_combine_l in A2.
        apply in_map_iff in A1. destruct A1 as (a' & <- & A1). apply in_map_iff in A2. destruct A2 as (b' & <- & A2). apply GG; auto. }
      destruct (CG x Gx) as (l & Y & EL & Gl & PL & BL).
      destruct DD as (D1 & D2 & D3 & D4 & D5).
      assert (RN : rs <> []) by (destruct rs, qs; try discriminate; congruence).
    destruct (Req_dec (v x) 0) as [VX|VX].
    { assert (TX : ntruthy x = false).
      { destruct (ntruthy x) eqn:Q; auto. apply (truthy_value lib) in Q; auto. contradiction. }
      destruct (AZ VX) as (x0 & I0 & V0). destruct (at_zero xs ys x0 Hx HL I0 V0 z EZ) as (y & ->).
      exists y. rewrite <- FX. exact (log_call_zero (map fst qs) rs (Some y) g x l D1 D3 D5 RN EG TX EL). }
    rewrite <- FX. pose proof (log_call lib (map fst qs) rs z g x l D1 D3 D5 RN EG Gx VX EL) as LC.
    change (n64l lib) with n64p in LC. rewrite LC. cbn [nmul n64p f64].
      destruct (pl_nodes _ _ kappa (v x) Y K0 F2 PL) as (Z & PZ & BZ).
    assert (ZM : Rabs Z <= M).
    { apply (pl_bound _ _ _ M PZ). intros a b I. apply in_map_iff in I. destruct I as (p & E & I). injection E as <- <-.
      rewrite Forall_forall in FQ. now apply FQ. }
    assert (LZ : Rabs (v l - Z) <= delta).
    { replace (v l - Z) with ((v l - Y) + (Y - Z)) by ring. eapply Rle_trans; [apply Rabs_triang|]. unfold delta. lra. }
    assert (LM : Rabs (v l) <= M + delta).
    { replace (v l) with (Z + (v l - Z)) by ring. eapply Rle_trans; [apply Rabs_triang|]. lra. }
    assert (LX : Rabs (v l * v x) <= (M + delta) * T) by (rewrite Rabs_mult; apply Rmult_le_compat; auto using Rabs_pos).
    assert (GM : good (SFmul 53 1024 l x)).
    { apply mul_good; auto. assert (600 <= powerRZ 2 10) by (simpl; lra). assert (powerRZ 2 10 <= powerRZ 2 1023) by (apply small_pow; lia). lra. }
    assert (RG : -700 <= v (SFmul 53 1024 l x) <= 700).
    { destruct GM as [DM FM]. destruct (mul_error l x (proj1 Gl) (proj1 Gx) FM) as (_ & _ & _ & d & e & Hd & He & EV).
      assert (BD : Rabs (v l * v x * d) <= rounding_unit * ((M + delta) * T)).
      { rewrite Rabs_mult, Rmult_comm. apply Rmult_le_compat; auto using Rabs_pos. }
      rewrite EV. apply Rabs_le_inv in LX. apply Rabs_le_inv in BD. apply Rabs_le_inv in He. pose proof u_small. pose proof tiny_lt_u.
      assert (rounding_unit * ((M + delta) * T) <= / 1000 * 600) by (apply Rmult_le_compat; lra). lra. }
    destruct GM as [DM FM]. cbn [nexp n64p f64]. destruct (SFeqb (SFmul 53 1024 l x) f64_zero).
    - eexists; reflexivity.
    - destruct (ER _ DM FM RG) as [w W]. rewrite W. eexists; reflexivity.
  Qed.
End Returns.
