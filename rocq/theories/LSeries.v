(** The alternating series of exp(-u) and of its integral, with enclosures.  Used for C109. *)
From Coq Require Import Reals Lra Lia List Bool ZArith.
From Verif Require Import LEnclose.
Import ListNotations.
Open Scope R_scope.

(** * The series *)
Fixpoint term (k : nat) (u : R) : R := match k with O => 1 | S j => - (term j u * u) / INR (S j) end.
Definition dterm (k : nat) (u : R) : R := match k with O => 0 | S j => - term j u end.
Fixpoint esum (n : nat) (u : R) : R := match n with O => 1 | S m => esum m u + term (S m) u end.
Definition gterm (k : nat) (u : R) : R := term k u / IZR (2 * Z.of_nat k + 1).
Fixpoint gsum (n : nat) (u : R) : R := match n with O => 1 | S m => gsum m u + gterm (S m) u end.

Lemma INR_S_pos n : 0 < INR (S n). Proof. apply lt_0_INR. lia. Qed.
Lemma dterm_u k u : u * dterm k u = INR k * term k u.
Proof.
  destruct k as [|k]; [cbn; lra|]. cbn [dterm term]. pose proof (INR_S_pos k). field. lra.
Qed.
Lemma term_deriv k u : derivable_pt_lim (term k) u (dterm k u).
Proof.
  induction k as [|k IH]; [apply derivable_pt_lim_const|]. pose proof (INR_S_pos k) as P.
  assert (E : derivable_pt_lim (mult_real_fct (- / INR (S k)) (mult_fct (term k) id)) u (- / INR (S k) * (dterm k u * id u + term k u * 1))).
  { apply derivable_pt_lim_scal. apply derivable_pt_lim_mult; [exact IH|apply derivable_pt_lim_id]. }
  replace (dterm (S k) u) with (- / INR (S k) * (dterm k u * id u + term k u * 1)).
  - intros eps He. destruct (E eps He) as [d Hd]. exists d. intros h Hh Hl. specialize (Hd h Hh Hl).
    unfold mult_real_fct, mult_fct, id in Hd. cbn [term].
    replace (- (term k (u + h) * (u + h)) / INR (S k)) with (- / INR (S k) * (term k (u + h) * (u + h))) by (field; lra).
    replace (- (term k u * u) / INR (S k)) with (- / INR (S k) * (term k u * u)) by (field; lra). exact Hd.
  - unfold id. rewrite (Rmult_comm (dterm k u)), dterm_u. cbn [dterm]. rewrite S_INR in *. field. lra.
Qed.
Lemma derive_ext f g x l : (forall y, f y = g y) -> derivable_pt_lim f x l -> derivable_pt_lim g x l.
Proof. intros H D eps He. destruct (D eps He) as [d Hd]. exists d. intros h Hh Hl. rewrite <- !H. auto. Qed.
Lemma esum_deriv n u : derivable_pt_lim (esum n) u (match n with O => 0 | S m => - esum m u end).
Proof.
  induction n as [|n IH]; [apply derivable_pt_lim_const|].
  replace (- esum n u) with ((match n with O => 0 | S m => - esum m u end) + dterm (S n) u) by (destruct n; [cbn; ring|cbn [esum dterm]; ring]).
  apply (derivable_pt_lim_plus (esum n) (term (S n))); [exact IH|apply term_deriv].
Qed.
Lemma term_0 k : term (S k) 0 = 0.
Proof. cbn [term]. field. apply Rgt_not_eq, INR_S_pos. Qed.
Lemma esum_0 n : esum n 0 = 1.
Proof. induction n as [|n IH]; [reflexivity|]. cbn [esum]. rewrite IH, term_0. lra. Qed.

(** a function which starts at zero and does not fall *)
Lemma rising_from_zero f f' : (forall x, 0 <= x -> derivable_pt_lim f x (f' x)) -> (forall x, 0 <= x -> 0 <= f' x) -> f 0 = 0 ->
  forall x, 0 <= x -> 0 <= f x.
Proof.
  intros D H Z x [Hx|<-]; [|lra].
  destruct (MVT_cor2 f f' 0 x Hx) as (c & E & B); [intros; apply D; lra|]. rewrite Z in E. pose proof (H c ltac:(lra)). nra.
Qed.
Lemma exp_neg_deriv u : derivable_pt_lim (fun u => exp (- u)) u (- exp (- u)).
Proof.
  replace (- exp (- u)) with (exp (- u) * -1) by ring.
  apply (derivable_pt_lim_comp (fun u => - u) exp).
  - apply (derivable_pt_lim_opp id u 1), derivable_pt_lim_id.
  - apply derivable_pt_lim_exp.
Qed.
Lemma exp_bounds n : forall u, 0 <= u -> esum (2 * n + 1) u <= exp (- u) <= esum (2 * n) u.
Proof.
  assert (UP : forall m, (forall u, 0 <= u -> exp (- u) <= esum m u) -> forall u, 0 <= u -> esum (S m) u <= exp (- u)).
  { intros m H u Hu. assert (G := rising_from_zero (fun u => exp (- u) - esum (S m) u) (fun u => - exp (- u) - - esum m u)).
    assert (0 <= exp (- u) - esum (S m) u); [|lra]. apply G; auto.
    - intros x _. apply (derivable_pt_lim_minus (fun u => exp (- u)) (esum (S m))); [apply exp_neg_deriv|apply (esum_deriv (S m))].
    - intros x Hx. specialize (H x Hx). lra.
    - rewrite esum_0, Ropp_0, exp_0. lra. }
  assert (DN : forall m, (forall u, 0 <= u -> esum m u <= exp (- u)) -> forall u, 0 <= u -> exp (- u) <= esum (S m) u).
  { intros m H u Hu. assert (G := rising_from_zero (fun u => esum (S m) u - exp (- u)) (fun u => - esum m u - - exp (- u))).
    assert (0 <= esum (S m) u - exp (- u)); [|lra]. apply G; auto.
    - intros x _. apply (derivable_pt_lim_minus (esum (S m)) (fun u => exp (- u))); [apply (esum_deriv (S m))|apply exp_neg_deriv].
    - intros x Hx. specialize (H x Hx). lra.
    - rewrite esum_0, Ropp_0, exp_0. lra. }
  assert (Z : forall u, 0 <= u -> exp (- u) <= esum 0 u).
  { intros u Hu. cbn [esum]. rewrite <- exp_0. destruct Hu as [Hu|<-]; [left; apply exp_increasing; lra|right; f_equal; lra]. }
  induction n as [|n IH].
  - intros u Hu. split; [apply (UP 0%nat); auto|now apply Z].
  - intros u Hu. replace (2 * S n)%nat with (S (2 * n + 1)) by lia. replace (S (2 * n + 1) + 1)%nat with (S (S (2 * n + 1))) by lia.
    assert (A := DN (2 * n + 1)%nat (fun u Hu => proj1 (IH u Hu))). split; [apply UP; auto|apply A; auto].
Qed.

(** * The integral of exp(-x^2/2) *)
Definition half_sq (x : R) : R := x * x / 2.
Lemma half_sq_deriv x : derivable_pt_lim half_sq x x.
Proof.
  replace x with (/ 2 * (1 * id x + id x * 1)) at 2 by (unfold id; field).
  apply (derive_ext (mult_real_fct (/ 2) (mult_fct id id))); [intros y; unfold mult_real_fct, mult_fct, id, half_sq; field|].
  apply derivable_pt_lim_scal, derivable_pt_lim_mult; apply derivable_pt_lim_id.
Qed.
Lemma IZR_odd k : IZR (2 * Z.of_nat k + 1) = 2 * INR k + 1.
Proof. rewrite plus_IZR, mult_IZR, <- INR_IZR_INZ. reflexivity. Qed.
Lemma gterm_deriv k x : derivable_pt_lim (fun x => x * gterm k (half_sq x)) x (term k (half_sq x)).
Proof.
  set (q := IZR (2 * Z.of_nat k + 1)). assert (Q : 0 < q) by (unfold q; rewrite IZR_odd; pose proof (pos_INR k); lra).
  replace (term k (half_sq x)) with (1 * (/ q * term k (half_sq x)) + id x * (/ q * (dterm k (half_sq x) * x))).
  - apply (derive_ext (mult_fct id (mult_real_fct (/ q) (comp (term k) half_sq)))).
    { intros y. unfold mult_fct, mult_real_fct, comp, id, gterm. fold q. field. lra. }
    apply (derivable_pt_lim_mult id (mult_real_fct (/ q) (comp (term k) half_sq))).
    + apply derivable_pt_lim_id.
    + apply derivable_pt_lim_scal. apply derivable_pt_lim_comp; [apply half_sq_deriv|apply term_deriv].
  - unfold id. replace (x * (/ q * (dterm k (half_sq x) * x))) with (/ q * (2 * (half_sq x * dterm k (half_sq x)))) by (generalize (dterm k (half_sq x)); intros d; unfold half_sq; field; lra).
    rewrite dterm_u. unfold q in *. rewrite IZR_odd in *. field. lra.
Qed.
Lemma gsum_deriv n x : derivable_pt_lim (fun x => x * gsum n (half_sq x)) x (esum n (half_sq x)).
Proof.
  induction n as [|n IH].
  - cbn [gsum esum]. apply (derive_ext id); [intros; unfold id; ring|apply derivable_pt_lim_id].
  - cbn [gsum esum]. apply (derive_ext (plus_fct (fun x => x * gsum n (half_sq x)) (fun x => x * gterm (S n) (half_sq x)))).
    + intros y. unfold plus_fct. ring.
    + apply derivable_pt_lim_plus; [exact IH|apply gterm_deriv].
Qed.
Lemma integral_bounds H : H 0 = 0 -> (forall x, derivable_pt_lim H x (exp (- half_sq x))) ->
  forall n x, 0 <= x -> x * gsum (2 * n + 1) (half_sq x) <= H x <= x * gsum (2 * n) (half_sq x).
Proof.
  intros Z D n x Hx. assert (P : forall y, 0 <= half_sq y) by (intros y; unfold half_sq; nra). split.
  - assert (0 <= H x - x * gsum (2 * n + 1) (half_sq x)); [|lra].
    apply (rising_from_zero (fun x => H x - x * gsum (2 * n + 1) (half_sq x)) (fun x => exp (- half_sq x) - esum (2 * n + 1) (half_sq x))); auto.
    + intros y _. apply (derivable_pt_lim_minus H (fun x => x * gsum (2 * n + 1) (half_sq x))); [apply D|apply gsum_deriv].
    + intros y _. pose proof (exp_bounds n (half_sq y) (P y)). lra.
    + rewrite Z. ring.
  - assert (0 <= x * gsum (2 * n) (half_sq x) - H x); [|lra].
    apply (rising_from_zero (fun x => x * gsum (2 * n) (half_sq x) - H x) (fun x => esum (2 * n) (half_sq x) - exp (- half_sq x))); auto.
    + intros y _. apply (derivable_pt_lim_minus (fun x => x * gsum (2 * n) (half_sq x)) H); [apply gsum_deriv|apply D].
    + intros y _. pose proof (exp_bounds n (half_sq y) (P y)). lra.
    + rewrite Z. ring.
Qed.

(** * Enclosures *)
Fixpoint loop (n : nat) (k : Z) (u t s1 s2 : itv) : itv * itv * itv :=
  match n with
  | O => (t, s1, s2)
  | S m => let t' := i_opp (i_divz (i_mul t u) k) in
           loop m (k + 1) u t' (i_add s1 t') (i_add s2 (i_divz t' (2 * k + 1)))
  end.
Lemma loop_ok u x : enc u x -> forall n j t s1 s2, enc t (term j x) -> enc s1 (esum j x) -> enc s2 (gsum j x) ->
  let '(t', a, b) := loop n (Z.of_nat j + 1) u t s1 s2 in
  enc t' (term (n + j) x) /\ enc a (esum (n + j) x) /\ enc b (gsum (n + j) x).
Proof.
  intros U. induction n as [|n IH]; intros j t s1 s2 H H1 H2; [cbn; auto|]. cbn [loop].
  assert (E : enc (i_opp (i_divz (i_mul t u) (Z.of_nat j + 1))) (term (S j) x)).
  { cbn [term]. replace (- (term j x * x) / INR (S j)) with (- (term j x * x / IZR (Z.of_nat j + 1))).
    - apply opp_ok, divz_ok; [lia|]. now apply mul_ok.
    - rewrite INR_IZR_INZ. replace (Z.of_nat (S j)) with (Z.of_nat j + 1)%Z by lia. unfold Rdiv. ring. }
  replace (S n + j)%nat with (n + S j)%nat by lia. replace (Z.of_nat j + 1 + 1)%Z with (Z.of_nat (S j) + 1)%Z by lia.
  apply IH; [exact E|cbn [esum]; now apply add_ok|].
  cbn [gsum]. apply add_ok; [exact H2|]. unfold gterm. replace (Z.of_nat (S j)) with (Z.of_nat j + 1)%Z by lia.
  apply divz_ok; [lia|exact E].
Qed.

(** exp(-x^2/2) and the integral at x = p/q, both by 2 m + 1 terms *)
Definition one_i : itv := In_ unit_z unit_z.
Lemma one_ok : enc one_i 1. Proof. unfold enc, one_i. cbn [lo hi]. fold unit_r. lra. Qed.
Definition both (m : nat) (p q : Z) : itv * itv :=
  let '(t, a, b) := loop (2 * m + 1) 1 (i_ratio (p * p) (2 * q * q)) one_i one_i one_i in
  let x := i_ratio p q in
  (i_hull a (i_sub a t), i_hull (i_mul x b) (i_mul x (i_sub b (i_divz t (2 * (2 * Z.of_nat m + 1) + 1))))).
Lemma both_ok H : H 0 = 0 -> (forall x, derivable_pt_lim H x (exp (- half_sq x))) ->
  forall m p q, (0 <= p)%Z -> (0 < q)%Z -> enc (fst (both m p q)) (exp (- half_sq (IZR p / IZR q))) /\ enc (snd (both m p q)) (H (IZR p / IZR q)).
Proof.
  intros Z D m p q Hp Hq. set (x := IZR p / IZR q).
  assert (Q : 0 < IZR q) by now apply (IZR_lt 0). assert (X : 0 <= x).
  { unfold x. apply Rmult_le_pos; [now apply (IZR_le 0)|left; now apply Rinv_0_lt_compat]. }
  assert (EX : enc (i_ratio p q) x) by now apply ratio_ok.
  assert (EU : enc (i_ratio (p * p) (2 * q * q)) (half_sq x)).
  { replace (half_sq x) with (IZR (p * p) / IZR (2 * q * q)) by (unfold half_sq, x; rewrite !mult_IZR; field; lra). apply ratio_ok. lia. }
  unfold both. pose proof (loop_ok _ _ EU (2 * m + 1) 0 one_i one_i one_i one_ok one_ok one_ok) as L.
  change (Z.of_nat 0 + 1)%Z with 1%Z in L. destruct (loop _ _ _ _ _ _) as [[t a] b]. destruct L as (L1 & L2 & L3).
  replace (2 * m + 1 + 0)%nat with (S (2 * m)) in * by lia. cbn [fst snd].
  assert (P : 0 <= half_sq x) by (unfold half_sq; nra).
  pose proof (exp_bounds m _ P) as B. pose proof (integral_bounds H Z D m x X) as G. replace (2 * m + 1)%nat with (S (2 * m)) in * by lia. split.
  - apply (hull_ok _ _ (esum (S (2 * m)) (half_sq x)) _ (esum (2 * m) (half_sq x))); auto.
    replace (esum (2 * m) (half_sq x)) with (esum (S (2 * m)) (half_sq x) - term (S (2 * m)) (half_sq x)) by (cbn [esum]; ring). now apply sub_ok.
  - apply (hull_ok _ _ (x * gsum (S (2 * m)) (half_sq x)) _ (x * gsum (2 * m) (half_sq x))); auto; [now apply mul_ok|].
    apply mul_ok; [exact EX|].
    replace (gsum (2 * m) (half_sq x)) with (gsum (S (2 * m)) (half_sq x) - gterm (S (2 * m)) (half_sq x)) by (cbn [gsum]; ring). apply sub_ok; [exact L3|].
    unfold gterm. replace (Z.of_nat (S (2 * m))) with (2 * Z.of_nat m + 1)%Z by lia. apply divz_ok; [lia|exact L1].
Qed.
