(** The error of the approximation of the normal distribution function.  Used for C109. *)
From Coq Require Import Reals Lra Lia List Bool ZArith Psatz.
From Verif Require Import SOption LOption LEnclose LSeries.
Import ListNotations.
Open Scope R_scope.

(** * The computation *)
(** 1/sqrt(2 pi) lies between these *)
Definition kappa_i : itv := In_ (39894228040143 * unit_z / 100000000000000) (cdiv (39894228040144 * unit_z) 100000000000000).
Definition cpi_i : itv := i_ratio 398942280401433 1000000000000000.
Definition pl_i : list itv :=
  [In_ 0 0; i_ratio 31938153 100000000; i_ratio (-356563782) 1000000000; i_ratio 1781477937 1000000000;
   i_ratio (-1821255978) 1000000000; i_ratio 1330274429 1000000000].
(** p times the relative error of the derivative, as polynomial in t = 1/(1 + p x) *)
Definition err_q : list Z :=
  let p2 := (2316419 * 2316419)%Z in
  [(319381530 - 231641900) * 10 ^ 14; (-356563782 - 319381530) * 10 ^ 14; (1781477937 + 356563782) * 10 ^ 14 + p2 * 319381530;
   (-1821255978 - 1781477937) * 10 ^ 14 + 2 * p2 * (-356563782); (1330274429 + 1821255978) * 10 ^ 14 + 3 * p2 * 1781477937;
   - 1330274429 * 10 ^ 14 + 4 * p2 * (-1821255978); 5 * p2 * 1330274429]%Z.
Definition err_i : list itv := map (fun z => i_ratio z (10 ^ 23)) err_q.

Section Cells.
  Variable M : Z.
  (** an upper bound for the error in the interval from i/M to (i+1)/M *)
  Definition cell (i : Z) : Z :=
    let m := (8 + Z.to_nat (3 * i * i / (4 * M * M)))%nat in
    let (e, h) := both m (2 * i + 1) (2 * M) in
    let (e0, _) := both m i M in
    let t := i_ratio (2 * M * 10 ^ 7) (2 * M * 10 ^ 7 + 2316419 * (2 * i + 1)) in
    let d := i_sub (i_sub (i_ratio 1 2) (i_mul cpi_i (i_mul e (i_eval pl_i t)))) (i_mul kappa_i h) in
    let w := cdiv (2316419 * unit_z) (10 ^ 7 * (2 * M)) in
    let r := i_eval (i_shift err_i t) (In_ (- w) w) in
    let d' := i_mul e0 (i_add (i_mul cpi_i (i_mul r (i_ratio (10 ^ 7) 2316419))) (i_sub cpi_i kappa_i)) in
    (i_mag d + cdiv (i_mag d') (2 * M))%Z.
  Fixpoint cells (n : nat) (i b : Z) : bool :=
    match n with O => true | S k => (cell i <? b)%Z && cells k (i + 1) b end.
End Cells.
Definition bound_z : Z := 75 * unit_z / 10 ^ 9.
(** the tail of the approximation from 6 on *)
Definition tail_i : itv := i_mul cpi_i (i_mul (fst (both 40 6 1)) (i_eval pl_i (i_ratio (10 ^ 7) (10 ^ 7 + 2316419 * 6)))).
Lemma cells_1 : cells 64 64 0 bound_z = true. Proof. vm_compute; reflexivity. Qed.
Lemma cells_2 : cells 16 36 16 bound_z = true. Proof. vm_compute; reflexivity. Qed.
Lemma cells_3 : cells 8 22 26 bound_z = true. Proof. vm_compute; reflexivity. Qed.
Lemma cells_4 : (cell 8 47 + i_mag tail_i <? bound_z)%Z = true. Proof. vm_compute; reflexivity. Qed.

(** the error at p/q *)
Definition gap_i (m : nat) (p q : Z) : itv :=
  let (e, h) := both m p q in
  i_sub (i_sub (i_ratio 1 2) (i_mul cpi_i (i_mul e (i_eval pl_i (i_ratio (q * 10 ^ 7) (q * 10 ^ 7 + 2316419 * p)))))) (i_mul kappa_i h).
Lemma gap_at_1 : (745 * unit_z / 10 ^ 10 <? lo (gap_i 10 717 1000))%Z = true. Proof. vm_compute; reflexivity. Qed.
Lemma gap_at_2 : (hi (gap_i 30 3013 1000) <? - (692 * unit_z / 10 ^ 10) - 1)%Z = true. Proof. vm_compute; reflexivity. Qed.

(** * Its meaning *)
Definition err_r : list R := map (fun z => IZR z / IZR (10 ^ 23)) err_q.
Definition pl_r : list R :=
  [0; IZR 31938153 / IZR 100000000; IZR (-356563782) / IZR 1000000000; IZR 1781477937 / IZR 1000000000;
   IZR (-1821255978) / IZR 1000000000; IZR 1330274429 / IZR 1000000000].
Lemma pl_enc : Forall2 enc pl_i pl_r.
Proof. unfold pl_i, pl_r. constructor; [apply enc_zero|]. repeat (constructor; [apply ratio_ok; reflexivity|]). constructor. Qed.
Lemma err_enc : Forall2 enc err_i err_r.
Proof. unfold err_i, err_r. induction err_q as [|z l IH]; cbn [map]; constructor; auto. apply ratio_ok. reflexivity. Qed.
Lemma pl_eval t : eval pl_r t = Pl t.
Proof. unfold pl_r, Pl, Q. cbn [eval]. field. Qed.
Lemma err_eval t : eval err_r t = (1 - t) * Q t + asp * asp * (t * t) * Pl' t - asp.
Proof.
  assert (E : err_q = [8773963000000000000000; -67594531200000000000000; 215517908350279097028330; -364099889231805403975404; 343830187521905219580971; -172117402232179355910632; 35689912592182658308345]%Z) by (vm_compute; reflexivity).
  assert (E2 : (10 ^ 23 = 100000000000000000000000)%Z) by (vm_compute; reflexivity).
  unfold err_r. rewrite E, E2. cbn [map eval]. unfold Q, Pl', asp.
  field.
Qed.

Definition err (t : R) : R := (1 - t) * Q t + asp * asp * (t * t) * Pl' t - asp.
Lemma asp_pos : 0 < asp. Proof. unfold asp. lra. Qed.
Lemma tt_den x : 0 <= x -> 1 <= 1 + asp * x. Proof. pose proof asp_pos. nra. Qed.
Lemma tt_deriv x : 0 <= x -> derivable_pt_lim tt_ x (- asp * (tt_ x * tt_ x)).
Proof.
  intros X. pose proof (tt_den x X) as P.
  assert (E : derivable_pt_lim (fun x => 1 / (1 + asp * x)) x ((0 * (1 + asp * x) - (0 + asp * 1) * 1) / Rsqr (1 + asp * x))).
  { apply (derivable_pt_lim_div (fun _ => 1) (fun x => 1 + asp * x)); [apply derivable_pt_lim_const| |lra].
    apply (derivable_pt_lim_plus (fun _ => 1) (fun x => asp * x)); [apply derivable_pt_lim_const|].
    apply (derivable_pt_lim_scal (fun x => x)). apply derivable_pt_lim_id. }
  replace (- asp * (tt_ x * tt_ x)) with ((0 * (1 + asp * x) - (0 + asp * 1) * 1) / Rsqr (1 + asp * x)); [exact E|].
  unfold tt_, Rsqr. field. lra.
Qed.
Lemma exp_sq_deriv x : derivable_pt_lim (fun x => exp (- half_sq x)) x (- x * exp (- half_sq x)).
Proof.
  replace (- x * exp (- half_sq x)) with (- exp (- half_sq x) * x) by ring.
  apply (derivable_pt_lim_comp half_sq (fun u => exp (- u))); [apply half_sq_deriv|apply exp_neg_deriv].
Qed.
Lemma phi_exp x : phi x = cpi * exp (- half_sq x).
Proof. unfold phi, cpi, half_sq. f_equal. f_equal. field. Qed.

Section Error.
  Variables (H : R -> R) (kappa : R).
  Hypothesis H0 : H 0 = 0.
  Hypothesis Hd : forall x, derivable_pt_lim H x (exp (- half_sq x)).
  Hypothesis Hk : enc kappa_i kappa.
  Definition gap (x : R) : R := 1/2 - as_tail x - kappa * H x.
  Definition gap' (x : R) : R := exp (- half_sq x) * (cpi * (err (tt_ x) / asp) + (cpi - kappa)).
  Lemma gap_deriv x : 0 <= x -> derivable_pt_lim gap x (gap' x).
  Proof.
    intros X.
    assert (E : derivable_pt_lim (fun x => (1/2 - (cpi * exp (- half_sq x)) * Pl (tt_ x)) - kappa * H x) x
      ((0 - ((cpi * (- x * exp (- half_sq x))) * Pl (tt_ x) + (cpi * exp (- half_sq x)) * (Pl' (tt_ x) * (- asp * (tt_ x * tt_ x)))))
        - kappa * exp (- half_sq x))).
    { apply (derivable_pt_lim_minus (fun x => 1/2 - (cpi * exp (- half_sq x)) * Pl (tt_ x)) (fun x => kappa * H x)).
      - apply (derivable_pt_lim_minus (fun _ => 1/2) (fun x => (cpi * exp (- half_sq x)) * Pl (tt_ x))); [apply derivable_pt_lim_const|].
        apply (derivable_pt_lim_mult (fun x => cpi * exp (- half_sq x)) (fun x => Pl (tt_ x))).
        + apply (derivable_pt_lim_scal (fun x => exp (- half_sq x))). apply exp_sq_deriv.
        + apply (derivable_pt_lim_comp tt_ Pl); [now apply tt_deriv|apply Pl_deriv].
      - apply (derivable_pt_lim_scal H). apply Hd. }
    apply (derive_ext (fun x => (1/2 - (cpi * exp (- half_sq x)) * Pl (tt_ x)) - kappa * H x)).
    - intros y. unfold gap. rewrite as_tail_eq, phi_exp. reflexivity.
    - replace (gap' x) with ((0 - ((cpi * (- x * exp (- half_sq x))) * Pl (tt_ x) + (cpi * exp (- half_sq x)) * (Pl' (tt_ x) * (- asp * (tt_ x * tt_ x)))))
        - kappa * exp (- half_sq x)); [exact E|].
      unfold gap', err. pose proof (x_tail x X) as XT. unfold hh in XT. pose proof asp_pos.
      replace ((1 - tt_ x) * Q (tt_ x)) with (asp * (x * Pl (tt_ x))) by (rewrite XT; field; lra). field. lra.
  Qed.

  Lemma tt_lipschitz x y : 0 <= x -> 0 <= y -> Rabs (tt_ x - tt_ y) <= asp * Rabs (x - y).
  Proof.
    intros X Y. pose proof (tt_den x X). pose proof (tt_den y Y). pose proof asp_pos.
    replace (tt_ x - tt_ y) with (asp * (y - x) * (tt_ x * tt_ y)) by (unfold tt_; field; lra).
    rewrite !Rabs_mult, (Rabs_right asp), (Rabs_minus_sym y x) by lra.
    pose proof (tt_pos x X). pose proof (tt_pos y Y). pose proof (tt_le x X). pose proof (tt_le y Y).
    rewrite (Rabs_right (tt_ x)), (Rabs_right (tt_ y)) by lra. pose proof (Rabs_pos (x - y)).
    assert (tt_ x * tt_ y <= 1) by nra. assert (0 <= asp * Rabs (x - y)) by (apply Rmult_le_pos; lra). nra.
  Qed.

  Lemma cpi_enc : enc cpi_i cpi.
  Proof. unfold cpi. apply (ratio_ok 398942280401433 1000000000000000). reflexivity. Qed.
  Lemma exp_sq_decr x y : 0 <= x -> x <= y -> exp (- half_sq y) <= exp (- half_sq x).
  Proof.
    intros X Y. assert (half_sq x <= half_sq y) by (unfold half_sq; nra).
    destruct (Req_dec (half_sq x) (half_sq y)) as [E|E]; [rewrite E; lra|]. left. apply exp_increasing. lra.
  Qed.

  Lemma cell_ok M i x : (0 < M)%Z -> (0 <= i)%Z -> IZR i / IZR M <= x <= IZR (i + 1) / IZR M -> Rabs (gap x) * unit_r <= IZR (cell M i).
  Proof.
    intros HM Hi HX. assert (PM : 0 < IZR M) by now apply (IZR_lt 0). assert (PI' : 0 <= IZR i) by now apply (IZR_le 0).
    unfold cell. set (m := (8 + Z.to_nat (3 * i * i / (4 * M * M)))%nat).
    pose proof (both_ok H H0 Hd m (2 * i + 1) (2 * M) ltac:(lia) ltac:(lia)) as [E1 E2].
    pose proof (both_ok H H0 Hd m i M ltac:(lia) ltac:(lia)) as [E0 _].
    destruct (both m (2 * i + 1) (2 * M)) as [e h]. destruct (both m i M) as [e0 h0]. cbn [fst snd] in *.
    set (c := IZR (2 * i + 1) / IZR (2 * M)) in *.
    assert (C : c = (IZR i + 1/2) / IZR M).
    { unfold c. rewrite plus_IZR, !mult_IZR. field. lra. }
    assert (LH : IZR (i + 1) / IZR M = IZR i / IZR M + / IZR M) by (rewrite plus_IZR; field; lra).
    assert (CI : c = IZR i / IZR M + / IZR M / 2) by (rewrite C; field; lra).
    assert (IM : 0 < / IZR M) by now apply Rinv_0_lt_compat. assert (I0 : 0 <= IZR i / IZR M) by (apply Rmult_le_pos; lra).
    set (t := i_ratio (2 * M * 10 ^ 7) (2 * M * 10 ^ 7 + 2316419 * (2 * i + 1))).
    assert (T : enc t (tt_ c)).
    { replace (tt_ c) with (IZR (2 * M * 10 ^ 7) / IZR (2 * M * 10 ^ 7 + 2316419 * (2 * i + 1))).
      - apply ratio_ok. lia.
      - rewrite C. unfold tt_, asp. rewrite plus_IZR, !mult_IZR, plus_IZR, mult_IZR. change (IZR (10 ^ 7)) with 10000000. field. split; nra. }
    assert (DC : enc (i_sub (i_sub (i_ratio 1 2) (i_mul cpi_i (i_mul e (i_eval pl_i t)))) (i_mul kappa_i h)) (gap c)).
    { unfold gap. rewrite as_tail_eq, phi_exp, Rmult_assoc, <- pl_eval. apply sub_ok; [apply sub_ok|].
      - apply (ratio_ok 1 2). reflexivity.
      - apply mul_ok; [apply cpi_enc|]. apply mul_ok; auto. apply eval_ok; [apply pl_enc|exact T].
      - now apply mul_ok. }
    apply mag_ok in DC. set (d := i_mag _) in DC |- *.
    set (w := cdiv (2316419 * unit_z) (10 ^ 7 * (2 * M))).
    set (r := i_eval (i_shift err_i t) (In_ (- w) w)).
    set (d' := i_mul e0 (i_add (i_mul cpi_i (i_mul r (i_ratio (10 ^ 7) 2316419))) (i_sub cpi_i kappa_i))).
    assert (B : forall y, IZR i / IZR M <= y <= IZR (i + 1) / IZR M -> Rabs (gap' y) * unit_r <= IZR (i_mag d')).
    { intros y Hy. assert (Y : 0 <= y) by lra.
      assert (EE : enc d' (exp (- half_sq (IZR i / IZR M)) * (cpi * (err (tt_ y) / asp) + (cpi - kappa)))).
      { apply mul_ok; [exact E0|]. apply add_ok; [|apply sub_ok; [apply cpi_enc|exact Hk]].
        apply mul_ok; [apply cpi_enc|]. unfold Rdiv. apply mul_ok.
        - unfold err. rewrite <- err_eval. replace (tt_ y) with (tt_ c + (tt_ y - tt_ c)) by ring. rewrite <- eval_shift.
          apply eval_ok; [apply shift_ok; [apply err_enc|exact T]|]. apply enc_sym. unfold w.
          eapply Rle_trans; [|apply cdiv_ge; lia]. rewrite !mult_IZR. fold unit_r. change (IZR (10 ^ 7)) with 10000000.
          pose proof unit_pos as U. pose proof (tt_lipschitz y c Y ltac:(rewrite CI; lra)) as TL.
          assert (Rabs (y - c) <= / IZR M / 2) by (apply Rabs_le; rewrite CI; lra).
          assert (Rabs (tt_ y - tt_ c) <= asp * (/ IZR M / 2)) by (pose proof asp_pos; nra).
          replace (2316419 * unit_r / (10000000 * (2 * IZR M))) with (asp * (/ IZR M / 2) * unit_r) by (unfold asp; field; lra). nra.
        - replace (/ asp) with (IZR (10 ^ 7) / IZR 2316419) by (unfold asp; change (IZR (10 ^ 7)) with 10000000; field). apply ratio_ok. reflexivity. }
      apply mag_ok in EE. eapply Rle_trans; [|exact EE]. apply Rmult_le_compat_r; [left; apply unit_pos|].
      unfold gap'. rewrite !Rabs_mult. apply Rmult_le_compat_r; [apply Rabs_pos|].
      rewrite !Rabs_right by (left; apply exp_pos). apply exp_sq_decr; lra. }
    assert (G : Rabs (gap x - gap c) * unit_r <= IZR (cdiv (i_mag d') (2 * M))).
    { assert (MV : exists y, IZR i / IZR M <= y <= IZR (i + 1) / IZR M /\ gap x - gap c = gap' y * (x - c)).
      { destruct (Rtotal_order x c) as [L|[L|L]].
        - destruct (mvt gap gap' x c L) as [y [Hy Iy]]; [intros z Hz; apply gap_deriv; lra|]. exists y. split; [lra|]. lra.
        - exists x. split; [lra|]. rewrite L. ring.
        - destruct (mvt gap gap' c x L) as [y [Hy Iy]]; [intros z Hz; apply gap_deriv; lra|]. exists y. split; [lra|]. lra. }
      destruct MV as [y [Iy Ey]]. rewrite Ey, Rabs_mult. specialize (B y Iy).
      eapply Rle_trans; [|apply cdiv_ge; lia]. rewrite mult_IZR.
      assert (Rabs (x - c) <= / IZR M / 2) by (apply Rabs_le; rewrite CI; lra).
      replace (IZR (i_mag d') / (2 * IZR M)) with (IZR (i_mag d') * (/ IZR M / 2)) by (field; lra).
      replace (Rabs (gap' y) * Rabs (x - c) * unit_r) with (Rabs (gap' y) * unit_r * Rabs (x - c)) by ring.
      apply Rmult_le_compat; auto; [|apply Rabs_pos]. apply Rmult_le_pos; [apply Rabs_pos|]. left. apply unit_pos. }
    rewrite plus_IZR. pose proof unit_pos as U.
    pose proof (Rabs_triang (gap c) (gap x - gap c)) as TR. replace (gap c + (gap x - gap c)) with (gap x) in TR by ring. nra.
  Qed.

  Lemma cells_ok M : (0 < M)%Z -> forall n i b x, (0 <= i)%Z -> cells M n i b = true ->
    IZR i / IZR M <= x < IZR (i + Z.of_nat n) / IZR M -> Rabs (gap x) * unit_r < IZR b.
  Proof.
    intros HM. assert (PM : 0 < IZR M) by now apply (IZR_lt 0). induction n as [|n IH]; intros i b x Hi E HX.
    - exfalso. change (Z.of_nat 0) with 0%Z in HX. rewrite Z.add_0_r in HX. lra.
    - cbn [cells] in E. apply andb_prop in E. destruct E as [E1 E2]. apply Z.ltb_lt in E1.
      destruct (Rle_dec x (IZR (i + 1) / IZR M)) as [L|L].
      + eapply Rle_lt_trans; [apply (cell_ok M i x HM Hi); lra|]. now apply IZR_lt.
      + apply (IH (i + 1)%Z); [lia|exact E2|]. replace (i + 1 + Z.of_nat n)%Z with (i + Z.of_nat (S n))%Z by lia. lra.
  Qed.

  Lemma gap_i_ok m p q : (0 <= p)%Z -> (0 < q)%Z -> enc (gap_i m p q) (gap (IZR p / IZR q)).
  Proof.
    intros Hp Hq. assert (Q' : 0 < IZR q) by now apply (IZR_lt 0). assert (P' : 0 <= IZR p) by now apply (IZR_le 0).
    pose proof (both_ok H H0 Hd m p q Hp Hq) as [E1 E2]. unfold gap_i. destruct (both m p q) as [e h]. cbn [fst snd] in *.
    unfold gap. rewrite as_tail_eq, phi_exp, Rmult_assoc, <- pl_eval. apply sub_ok; [apply sub_ok|].
    - apply (ratio_ok 1 2). reflexivity.
    - apply mul_ok; [apply cpi_enc|]. apply mul_ok; auto. apply eval_ok; [apply pl_enc|].
      replace (tt_ (IZR p / IZR q)) with (IZR (q * 10 ^ 7) / IZR (q * 10 ^ 7 + 2316419 * p)).
      + apply ratio_ok. lia.
      + unfold tt_, asp. rewrite plus_IZR, !mult_IZR. change (IZR (10 ^ 7)) with 10000000. field. split; nra.
    - now apply mul_ok.
  Qed.
  Lemma above i x a b : enc i x -> (0 < b)%Z -> (a * unit_z / b <? lo i)%Z = true -> IZR a / IZR b < x.
  Proof.
    intros [E _] Hb L. apply Z.ltb_lt in L. assert (PB : 0 < IZR b) by now apply (IZR_lt 0). pose proof unit_pos as U.
    assert (K : (a * unit_z < lo i * b)%Z).
    { pose proof (Z.mul_succ_div_gt (a * unit_z) b Hb). nia. }
    apply IZR_lt in K. rewrite !mult_IZR in K. fold unit_r in K.
    apply (Rmult_lt_reg_r (IZR b)); [auto|]. apply (Rmult_lt_reg_r unit_r); [auto|].
    replace (IZR a / IZR b * IZR b * unit_r) with (IZR a * unit_r) by (field; lra). nra.
  Qed.
  Lemma below i x a b : enc i x -> (0 < b)%Z -> (hi i <? - (a * unit_z / b) - 1)%Z = true -> x < - (IZR a / IZR b).
  Proof.
    intros [_ E] Hb L. apply Z.ltb_lt in L. assert (PB : 0 < IZR b) by now apply (IZR_lt 0). pose proof unit_pos as U.
    assert (K : (hi i * b < - (a * unit_z))%Z).
    { pose proof (Z.mul_succ_div_gt (a * unit_z) b Hb). nia. }
    apply IZR_lt in K. rewrite opp_IZR, !mult_IZR in K. fold unit_r in K.
    apply (Rmult_lt_reg_r (IZR b)); [auto|]. apply (Rmult_lt_reg_r unit_r); [auto|].
    replace (- (IZR a / IZR b) * IZR b * unit_r) with (- (IZR a * unit_r)) by (field; lra). nra.
  Qed.
  Lemma gap_sharp_1 : 745 / 10000000000 < gap (717 / 1000).
  Proof. apply (above (gap_i 10 717 1000)); [apply (gap_i_ok 10 717 1000); lia|lia|exact gap_at_1]. Qed.
  Lemma gap_sharp_2 : gap (3013 / 1000) < - (692 / 10000000000).
  Proof. apply (below (gap_i 30 3013 1000)); [apply (gap_i_ok 30 3013 1000); lia|lia|exact gap_at_2]. Qed.

  Hypothesis Hhalf : forall x, kappa * H x <= 1/2.
  Lemma tail_ok : Rabs (as_tail 6) * unit_r <= IZR (i_mag tail_i).
  Proof.
    apply mag_ok. rewrite as_tail_eq, phi_exp, Rmult_assoc, <- pl_eval. unfold tail_i. apply mul_ok; [apply cpi_enc|]. apply mul_ok.
    - pose proof (both_ok H H0 Hd 40 6 1 ltac:(lia) ltac:(lia)) as [E _]. replace (6 / 1) with 6 in E by field. exact E.
    - apply eval_ok; [apply pl_enc|]. replace (tt_ 6) with (IZR (10 ^ 7) / IZR (10 ^ 7 + 2316419 * 6)); [apply ratio_ok; reflexivity|].
      change (10 ^ 7)%Z with 10000000%Z. change (10000000 + 2316419 * 6)%Z with 23898514%Z. unfold tt_, asp. field.
  Qed.
  Lemma kappa_pos : 0 < kappa.
  Proof.
    pose proof unit_pos. destruct Hk as [K _]. assert (0 < IZR (lo kappa_i)) by (apply (IZR_lt 0); vm_compute; reflexivity). nra.
  Qed.
  Lemma H_incr x y : x <= y -> H x <= H y.
  Proof.
    intros [L|L]; [|rewrite L; lra]. destruct (mvt H (fun x => exp (- half_sq x)) x y L (fun c _ => Hd c)) as [c [E _]].
    pose proof (exp_pos (- half_sq c)). nra.
  Qed.
  Lemma bound_small : IZR bound_z <= 75 / 10 ^ 9 * unit_r.
  Proof.
    eapply Rle_trans; [apply div_le; reflexivity|]. rewrite mult_IZR. fold unit_r. change (10 ^ 9)%Z with 1000000000%Z. right. field.
  Qed.
  Lemma in_units x b : Rabs x * unit_r < IZR b -> IZR b <= 75 / 10 ^ 9 * unit_r -> Rabs x < 75 / 10 ^ 9.
  Proof. intros A B. apply (Rmult_lt_reg_r unit_r); [apply unit_pos|lra]. Qed.
  Lemma at_end g g6 t a b c : Rabs g6 * unit_r <= IZR a -> Rabs t * unit_r <= IZR b -> (a + b < c)%Z -> Rabs g <= Rabs g6 + Rabs t ->
    Rabs g * unit_r < IZR c.
  Proof. intros A B C G. apply IZR_lt in C. rewrite plus_IZR in C. pose proof unit_pos. nra. Qed.
  Lemma cell_6 : Rabs (gap 6) * unit_r <= IZR (cell 8 47).
  Proof.
    apply (cell_ok 8 47 6 ltac:(lia) ltac:(lia)). replace (IZR (47 + 1)) with 48 by (rewrite plus_IZR; lra). lra.
  Qed.
  Theorem gap_bound x : 0 <= x -> Rabs (gap x) < 75 / 10 ^ 9.
  Proof.
    intros X. apply (in_units (gap x) bound_z); [|apply bound_small].
    destruct (Rlt_dec x 1) as [L1|L1].
    { apply (cells_ok 64 ltac:(lia) 64 0 bound_z x ltac:(lia) cells_1). clear -X L1. change (0 + Z.of_nat 64)%Z with 64%Z. lra. }
    destruct (Rlt_dec x (52/16)) as [L2|L2].
    { apply (cells_ok 16 ltac:(lia) 36 16 bound_z x ltac:(lia) cells_2). clear -L1 L2. change (16 + Z.of_nat 36)%Z with 52%Z. lra. }
    destruct (Rlt_dec x 6) as [L3|L3].
    { apply (cells_ok 8 ltac:(lia) 22 26 bound_z x ltac:(lia) cells_3). clear -L2 L3. change (26 + Z.of_nat 22)%Z with 48%Z. lra. }
    apply (at_end (gap x) (gap 6) (as_tail 6) (cell 8 47) (i_mag tail_i) bound_z); [apply cell_6|apply tail_ok|apply Z.ltb_lt, cells_4|].
    pose proof (as_tail_pos x X). pose proof (as_tail_pos 6 ltac:(lra)).
    assert (as_tail x <= as_tail 6) by (destruct (Req_dec x 6) as [->|]; [lra|left; apply as_tail_decr; lra]).
    pose proof (H_incr 6 x ltac:(lra)). pose proof kappa_pos. pose proof (Hhalf x). assert (kappa * H 6 <= kappa * H x) by nra.
    rewrite (Rabs_right (as_tail 6)) by lra. pose proof (Rle_abs (gap 6)). unfold gap in *. apply Rabs_le. pose proof (Rabs_pos (1 / 2 - as_tail 6 - kappa * H 6)). lra.
  Qed.
End Error.
