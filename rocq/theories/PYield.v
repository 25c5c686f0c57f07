(** Property C45: the yield to maturity. *)
From Coq Require Import Reals Lra Lia List Bool ZArith.
From Verif Require Import Num Py Spec MDates MCurve MRateCurve MOption MCashflow MBracket MPricer
  SDates SRateCurve SCashflow SPricer SBracket SYield LBase LSort LDates LDateCurve LCashflow LRateCurve LPricer
  LPricer2 LBracket LYield PBracket PCashflow.
Import ListNotations.
Open Scope R_scope.

Section Yield.
  Context {D P : Type} (DS : DateSys R D P) (DC : DayCounts R D) (tm : D -> R) (L : DateLaws DS tm).
  Context (count : dcspec R D) (tau : D -> D -> R) (A : additive (dc_apply count) tau).
  Implicit Types (h : heap R D P) (p : @product D) (v : D) (fl : list (D * R)) (y z : R).

  Lemma ytm_run : forall n flr h p v target precision a b origin tenor, exists c,
    flat_curve count v origin tenor c /\
    get_yield_to_maturity (S (S n)) flr p (Some v) target precision a b None origin count tenor h =
    let (r, s) := bracketing (S (S n)) (ytm_err (S (S n)) flr p v target) a b precision (h, c) in
    (amb <- r ;; Ok (snd (fst amb)), fst s).
  Proof.
    intros n flr h p v target precision a b origin tenor.
    destruct (flat_local (L:=L) count tau A v 0 tenor origin) as (c & E & _). exists c. split; [now exists 0|].
    unfold get_yield_to_maturity, bindS, ret, lift. change (@n0 R Rnum) with 0. now rewrite E.
  Qed.

  (** the result is nearer than half the precision to a yield that gives exactly the target
      value, whatever the signs of the flows; nothing is left changed *)
  Theorem C45_root : forall n flr h p v fl target precision a b origin tenor y h',
    product_flows (S (S n)) flr h v p fl ->
    get_yield_to_maturity (S (S n)) flr p (Some v) target precision a b None origin count tenor h = (Ok y, h') ->
    h' = h /\ inside a b y /\
    exists z, inside a b z /\ yield_value tau v fl z = target /\ Rabs (y - z) < precision / 2.
  Proof.
    intros n flr h p v fl target precision a b origin tenor y h' F H.
    destruct (ytm_run n flr h p v target precision a b origin tenor) as (c & FC & E). rewrite E in H. clear E.
    destruct (bracketing _ _ _ _ _ (h, c)) as [[[[a' m] b']|e] s] eqn:B; [|discriminate]. cbn [bind fst snd] in H.
    injection H as <- <-.
    pose proof (ytm_evaluates (L:=L) count tau A n flr p v target h fl a b origin tenor F) as EV.
    assert (J : (fun s => fst s = h /\ flat_curve count v origin tenor (snd s)) (h, c)) by (split; auto).
    destruct (C43_bracket _ _ _ _ _ _ _ _ _ _ _ _ _ EV J B) as (_ & _ & _ & M & Ia & Ib & [Hs _] & _).
    split; [exact Hs|]. split.
    { apply (inside_sub a b a' b'); auto. rewrite M. unfold inside, Rmin, Rmax. destruct (Rle_dec a' b'); lra. }
    assert (CO : forall x, inside a b x -> continuity_pt (fun y => yield_value tau v fl y - target) x).
    { intros x _. apply continuity_pt_minus; [apply yield_continuous|]. apply continuity_const. intros ? ?. reflexivity. }
    destruct (C43_root _ _ _ _ _ _ _ _ _ _ _ _ _ EV J CO B) as (x & Z & I & Q).
    exists x. split; [exact (inside_sub _ _ _ _ _ Ia Ib I)|]. split; [lra|].
    rewrite <- Rabs_Ropp. now replace (- (m - x)) with (x - m) by ring.
  Qed.

  (** non negative flows: with the result as yield the value differs by less than the
      precision from the target *)
  Theorem C45_reprices : forall n flr h p v fl target precision a b origin tenor y h',
    product_flows (S (S n)) flr h v p fl ->
    (forall d x, In (d, x) fl -> 0 <= x /\ 0 <= tau v d) ->
    get_yield_to_maturity (S (S n)) flr p (Some v) target precision a b None origin count tenor h = (Ok y, h') ->
    Rabs (yield_value tau v fl y - target) < precision.
  Proof.
    intros n flr h p v fl target precision a b origin tenor y h' F PO H.
    destruct (ytm_run n flr h p v target precision a b origin tenor) as (c & FC & E). rewrite E in H. clear E.
    destruct (bracketing _ _ _ _ _ (h, c)) as [[[[a' m] b']|e] s] eqn:B; [|discriminate]. cbn [bind fst snd] in H.
    injection H as <- <-.
    pose proof (ytm_evaluates (L:=L) count tau A n flr p v target h fl a b origin tenor F) as EV.
    assert (J : (fun s => fst s = h /\ flat_curve count v origin tenor (snd s)) (h, c)) by (split; auto).
    destruct (C43_values _ _ _ _ _ _ _ _ _ _ _ _ _ EV J B) as (_ & _ & Q). apply Q. right.
    intros x z _ _ LE. apply Rplus_le_compat_r. now apply yield_decreasing.
  Qed.

  (** ... if one of them is positive and later than v, the yield is unique *)
  Theorem C45_unique : forall n flr h p v fl target precision a b origin tenor y h',
    product_flows (S (S n)) flr h v p fl ->
    (forall d x, In (d, x) fl -> 0 <= x /\ 0 <= tau v d) ->
    (exists d x, In (d, x) fl /\ 0 < x /\ 0 < tau v d) ->
    get_yield_to_maturity (S (S n)) flr p (Some v) target precision a b None origin count tenor h = (Ok y, h') ->
    exists! z, yield_value tau v fl z = target /\ Rabs (y - z) < precision / 2.
  Proof.
    intros n flr h p v fl target precision a b origin tenor y h' F PO ST H.
    destruct (C45_root _ _ _ _ _ _ _ _ _ _ _ _ _ _ F H) as (_ & _ & z & _ & V & Q).
    exists z. split; [auto|]. intros x (Vx & _).
    destruct (Rtotal_order x z) as [LT|[E|GT]]; [|auto|].
    - pose proof (yield_strict tau v fl PO ST x z LT). lra.
    - pose proof (yield_strict tau v fl PO ST z x GT). lra.
  Qed.

  (** it returns whenever the target lies between the values at the bounds ... *)
  Theorem C45_returns : forall flr h p v fl target precision a b origin tenor k,
    (forall fuel, (k <= fuel)%nat -> product_flows fuel flr h v p fl) ->
    0 < precision ->
    (yield_value tau v fl a <= target <= yield_value tau v fl b \/
     yield_value tau v fl b <= target <= yield_value tau v fl a) ->
    exists n, forall fuel, (n <= fuel)%nat -> exists y,
      get_yield_to_maturity fuel flr p (Some v) target precision a b None origin count tenor h = (Ok y, h).
  Proof.
    intros flr h p v fl target precision a b origin tenor k F HP SC.
    set (Inv := fun s => fst s = h /\ flat_curve count v origin tenor (snd s)).
    destruct (uniform_search Inv (fun _ _ => True) (fun y => yield_value tau v fl y - target) a b precision) as (n & HN).
    { unfold sign_change. lra. }
    { exact HP. }
    { intros x _. apply continuity_pt_minus; [apply yield_continuous|]. apply continuity_const. intros ? ?. reflexivity. }
    exists (S (S (n + k))). intros fuel LE. destruct fuel as [|[|m]]; [lia|lia|].
    destruct (ytm_run m flr h p v target precision a b origin tenor) as (c & FC & E). rewrite E. clear E.
    assert (FF : product_flows (S (S m)) flr h v p fl) by (apply F; lia).
    pose proof (ytm_evaluates (L:=L) count tau A m flr p v target h fl a b origin tenor FF) as EV.
    destruct (HN (S (S m)) _ (h, c) ltac:(lia) EV) as (a' & y & b' & s & Q & [J _]); [split; auto|].
    exists y. rewrite Q. cbn [bind fst snd]. now rewrite J.
  Qed.

  (** ... and fails with AssertionError if it does not *)
  Theorem C45_out_of_bounds : forall n flr h p v fl target precision a b origin tenor,
    product_flows (S (S n)) flr h v p fl ->
    (target < yield_value tau v fl a /\ target < yield_value tau v fl b) \/
    (yield_value tau v fl a < target /\ yield_value tau v fl b < target) ->
    get_yield_to_maturity (S (S n)) flr p (Some v) target precision a b None origin count tenor h
      = (Err AssertionError, h).
  Proof.
    intros n flr h p v fl target precision a b origin tenor F O.
    destruct (ytm_run n flr h p v target precision a b origin tenor) as (c & FC & E). rewrite E. clear E.
    pose proof (ytm_evaluates (L:=L) count tau A n flr p v target h fl a b origin tenor F) as EV.
    destruct (no_sign_change _ _ precision (S n) _ _ a b (h, c) EV) as (s & Q & [J _]).
    - split; auto.
    - unfold sign_change. lra.
    - rewrite Q. cbn [bind]. now rewrite J.
  Qed.

  (** without valuation date: the origin of the list, which is its first payment date if no
      origin was given to it *)
  Theorem C45_default_date : forall fuel flr h i l o target precision a b spec origin tenor,
    nth_error (h_lists h) i = Some l -> cf_origin (hl_list l) = Some o ->
    get_yield_to_maturity fuel flr (PrList i) None target precision a b spec origin count tenor h =
    get_yield_to_maturity fuel flr (PrList i) (Some o) target precision a b spec origin count tenor h.
  Proof.
    intros fuel flr h i l o target precision a b spec origin tenor Hl HO.
    unfold get_yield_to_maturity, bindS, pr_origin, bindS, get_list, ret. rewrite (nth_res_some _ _ _ Hl). now rewrite HO.
  Qed.
End Yield.
Print Assumptions C45_root.
Print Assumptions C45_reprices.
Print Assumptions C45_unique.
Print Assumptions C45_returns.
Print Assumptions C45_out_of_bounds.
Print Assumptions C45_default_date.

(** instance: the flows 5 at 1 and 105 at 2 worth 100 at 0 *)
#[local] Instance no_counts {D} : DayCounts R D := [].
Example C45_example : exists l,
  fixed_new (DS := FloatDates (T:=R)) [1; 2] (Many [5; 105]) None = Ok l /\
  let h := mkH [] [] [mkHL l HNone] in
  exists n, forall fuel, (n <= fuel)%nat -> exists y,
    get_yield_to_maturity fuel None (PrList 0) (Some 0) 100 (1/1000) 0 1 None None DcDefault None h = (Ok y, h) /\
    Rabs (5 * exp (- y) + 105 * exp (- (2 * y)) - 100) < 1/1000 /\
    exists! z, 5 * exp (- z) + 105 * exp (- (2 * z)) = 100 /\ Rabs (y - z) < 1/2000.
Proof.
  assert (ND : NoDup (map (fun d : R => d) [1; 2])).
  { repeat constructor; cbn; intuition lra. }
  destruct (fixed_new (DS := FloatDates (T:=R)) [1; 2] (Many [5; 105]) None) as [l|] eqn:E; [|discriminate].
  exists l. split; auto. cbv zeta. set (h := mkH [] [] [mkHL l HNone]).
  assert (F : forall fuel, product_flows fuel None h 0 (PrList 0) [(1, 5); (2, 105)]).
  { intros fuel. exists l.
    destruct (C37_fixed FloatDates no_counts (fun d => d) float_laws fuel None [1; 2] [5; 105] None l E ND) as (_ & HD & Q & _).
    split; [|split].
    - unfold fixed_new in E. cbn [spread_arg] in E. destruct (cf_new_inv _ _ _ _ _ _ E) as [_ ->].
      eexists. exists LNone. split; [reflexivity|]. split; reflexivity.
    - unfold due. rewrite HD. cbn [map fst filter d_leb FloatDates nleb Rnum]. unfold Rleb.
      destruct (Rle_dec 0 1), (Rle_dec 0 2); try lra. reflexivity.
    - intros d a [I|[I|[]]]; injection I as <- <-.
      + apply (Q 0%nat 1 5 eq_refl eq_refl 1). apply (eqb_refl (L:=float_laws)).
      + apply (Q 1%nat 2 105 eq_refl eq_refl 2). apply (eqb_refl (L:=float_laws)). }
  assert (V : forall y, yield_value (fun a b : R => b - a) 0 [(1, 5); (2, 105)] y = 5 * exp (- y) + 105 * exp (- (2 * y))).
  { intros y. unfold yield_value. cbn [map Rsum fst snd].
    replace (y * (1 - 0)) with y by ring. replace (y * (2 - 0)) with (2 * y) by ring. ring. }
  assert (PO : forall d x, In (d, x) [(1, 5); (2, 105)] -> 0 <= x /\ 0 <= (fun a b : R => b - a) 0 d).
  { intros d x [I|[I|[]]]; injection I as <- <-; lra. }
  destruct (C45_returns FloatDates no_counts (fun d => d) float_laws DcDefault _ float_additive None h (PrList 0) 0
    [(1, 5); (2, 105)] 100 (1/1000) 0 1 None None 0%nat (fun fuel _ => F fuel) ltac:(lra)) as (n & HN).
  { right. rewrite !V. replace (- (2 * 0)) with 0 by ring. rewrite Ropp_0, exp_0. split; [|lra].
    assert (H1 : exp (Ropp 1) < 1). { apply Rlt_le_trans with (exp 0); [apply exp_increasing; lra|rewrite exp_0; lra]. }
    assert (H2 : exp (- (2 * 1)) < 1/3).
    { rewrite exp_Ropp. pose proof (exp_ineq1 (2 * 1) ltac:(lra)). unfold Rdiv. rewrite Rmult_1_l.
      apply Rinv_lt_contravar; [apply Rmult_lt_0_compat; [lra|apply exp_pos]|lra]. }
    lra. }
  exists (S (S n)). intros fuel LE. destruct (HN fuel ltac:(lia)) as (y & Hy). exists y. split; auto.
  destruct fuel as [|[|m]]; [lia|lia|]. split.
  - rewrite <- V. eapply (C45_reprices FloatDates no_counts (fun d => d) float_laws DcDefault _ float_additive); eauto.
  - assert (ST : exists d x, In (d, x) [(1, 5); (2, 105)] /\ 0 < x /\ 0 < (fun a b : R => b - a) 0 d).
    { exists 2, 105. split; [cbn; auto|]. lra. }
    destruct (C45_unique FloatDates no_counts (fun d => d) float_laws DcDefault _ float_additive _ _ _ _ _ _ _ _ _ _ _ _ _ _
      (F (S (S m))) PO ST Hy) as (z & [Hz1 Hz2] & U).
    exists z. rewrite V in Hz1. split; [split; [auto|lra]|]. intros x (Hx1 & Hx2). apply U. rewrite V. split; [auto|lra].
Qed.
