(** Property C89: the root search of the pricers in double precision. *)
From Coq Require Import ZArith Lia List Bool Floats.SpecFloat.
From Verif Require Import Num Py MDates MInterpolation MCurve MRateCurve MOption MCashflow MBracket MPricer MFloat SFloat LFloat.
Import ListNotations.

#[local] Instance no_registry64 {T D} : DayCounts T D := [].

(** what the search returns is reliable in double precision too: the computed distance of
    the bounds and that of their values are below the precision, and the values enclose
    zero *)
Theorem C89_result : forall (lib : libm) {St} (Inv : St -> Prop) fuel (f : float64 -> st St float64) F a b p s a' m b' s',
  computes Inv f F -> Inv s ->
  bracketing (N := f64 lib) fuel f a b p s = (Ok (a', m, b'), s') ->
  SFltb (nabs (N := f64 lib) (SFsub 53%Z 1024%Z b' a')) p = true /\ encloses lib F p a' b' /\
  m = SFadd 53%Z 1024%Z a' (SFmul 53%Z 1024%Z (SFsub 53%Z 1024%Z b' a') (f64_ratio 1 2)) /\ Inv s'.
Proof.
  intros lib St Inv fuel. induction fuel as [|n IH]; intros f F a b p s a' m b' s' C J H; [discriminate|].
  destruct (bracket_step (N := f64 lib) Inv n f F a b p s C J) as (s1 & J1 & E). cbv zeta in E. rewrite H in E. clear H.
  assert (NEG : forall G, encloses lib (fun x => SFopp (G x)) p a' b' -> encloses lib G p a' b').
  { intros G (lo & hi & Q & L1 & L2 & L3). exists (SFopp hi), (SFopp lo).
    split; [destruct Q as [[-> ->]|[-> ->]]; rewrite !SFopp_opp; auto|].
    rewrite SFleb_zero_l, SFleb_zero_r, SFsub_opp. auto. }
  destruct (nltb (F b) (F a)) eqn:SW; (destruct (negb _) eqn:SG in E; [discriminate|]);
    apply negb_false_iff, andb_true_iff in SG; (destruct (_ && _) eqn:PR in E;
      [injection E as -> -> -> ->; apply andb_true_iff in PR; destruct PR as [P1 P2], SG as [G1 G2];
       split; [exact P1|]; split; [|split; auto]; do 2 eexists; split; [|split; [exact G1|split; [exact G2|exact P2]]]; auto|]).
  - destruct (nltb _ _) in E; symmetry in E;
      destruct (IH _ _ _ _ _ _ _ _ _ _ (computes_neg Inv f F C) J1 E) as (Q1 & Q2 & Q3); split; auto.
  - destruct (nltb _ _) in E; symmetry in E; exact (IH _ _ _ _ _ _ _ _ _ _ C J1 E).
Qed.
Print Assumptions C89_result.

(** the search never ends once the bounds are neighbours, that is once their computed middle
    is the bound it would replace, while their values are further apart than the
    precision; for real numbers there are no neighbours *)
Theorem C89_neighbours : forall {T St} (N : Num T) (Inv : St -> Prop) (f : T -> st St T) F a b p,
  computes Inv f F ->
  (F b <? F a)%num = false -> (F a <=? n0)%num = true -> (n0 <=? F b)%num = true ->
  (nabs (b - a) <? p)%num = false \/ (nabs (F b - F a) <? p)%num = false ->
  (let m := a + (b - a) * n_ratio 1 2 in (F m <? n0) = true /\ m = a \/ (F m <? n0) = false /\ m = b)%num ->
  forall fuel s, Inv s -> exists s', bracketing fuel f a b p s = (Err OutOfFuel, s').
Proof.
  intros T St N Inv f F a b p C H1 H2 H3 H4 H5 fuel s J. apply (next_forever Inv f F p 0 a b a b C); auto.
  unfold next. rewrite H1, H2, H3. cbn [negb andb].
  assert (((nabs (b - a) <? p) && (nabs (F b - F a) <? p))%num = false) as ->.
  { destruct H4 as [-> | ->]; auto using andb_false_r. }
  cbn [negb]. cbv zeta in H5. destruct H5 as [[-> ->]|[-> ->]]; reflexivity.
Qed.
Print Assumptions C89_neighbours.

Lemma outcome {A S} (x : res A * S) r : fst x = r -> exists s, x = (r, s).
Proof. destruct x. cbn. intros ->. eauto. Qed.

(** * get_fair_rate *)
Section FairRate.
  Context (lib : libm).
  #[local] Instance n64 : Num float64 := f64 lib.

  (** RateCashFlowList([1], amount_list=n, origin=0, fixed_rate=c) and ZeroRateCurve([0], [0.0]):
      one coupon after one year, no interest *)
  Definition one_coupon (n c : float64) : @heap float64 float64 (fperiod float64) :=
    match ratelist_new [f64_ofZ 1] (One n) (Some (f64_ofZ 0)) DcDefault None None c FwNone,
          rc_new CZeroRate [f64_ofZ 0] [f64_zero] None None DcDefault None with
    | Ok l, Ok d => mkH [d] [] [mkHL l (HForward (fun _ => FwNone))]
    | _, _ => mkH [] [] []
    end.

  (** REFUTED that get_fair_rate finds a rate which exists: with notional 10^11 and present
      value 1.5 * 10^9 it never returns (in Python: RecursionError) for the default bounds
      -0.1 and 0.2 and the default precision 1e-7, although the rate 0.015 gives exactly
      this present value *)
  Theorem C89_fair_rate_refuted :
    (forall fuel, exists h,
       get_fair_rate fuel None (PrList 0) 0 None (f64_ofZ (15 * 10^8)) (f64_ratio 1 10000000)
         (f64_ratio (-1) 10) (f64_ratio 2 10) (one_coupon (f64_ofZ (10^11)) (f64_ratio 1 1000)) = (Err OutOfFuel, h)) /\
    forall fuel, (3 <= fuel)%nat -> exists h,
      get_present_value fuel None (PrList 0) 0 None (one_coupon (f64_ofZ (10^11)) (f64_ratio 15 1000)) =
        (Ok (f64_ofZ (15 * 10^8)), h).
  Proof.
    split.
    - set (n := f64_ofZ (10^11)). set (t := f64_ofZ (15 * 10^8)).
      intros fuel. destruct fuel as [|[|[|k]]]; [apply outcome; vm_compute; reflexivity..|].
      set (F := fun x => SFsub 53%Z 1024%Z (SFadd 53%Z 1024%Z f64_zero (SFmul 53%Z 1024%Z (f64_ofZ 1)
                  (SFmul 53%Z 1024%Z (SFmul 53%Z 1024%Z (SFadd 53%Z 1024%Z x f64_zero) (f64_ofZ 1)) n))) t).
      set (f := fair_err (DS:=FloatDates) (S (S (S k))) None 0 0 None t).
      assert (C : computes (fun h => exists c, h = one_coupon n c) f F).
      { intros x s [c ->]. exists (one_coupon n x). split; [|eauto]. exact (eq_refl (Ok (F x), one_coupon n x)). }
      destruct (next_forever (fun h => exists c, h = one_coupon n c) f F (f64_ratio 1 10000000) 60 (f64_ratio (-1) 10) (f64_ratio 2 10)
                  (S754_finite false 8646911284551351 (-59)) (S754_finite false 8646911284551352 (-59)) C) with (fuel := S (S (S k)))
                  (s := one_coupon n (f64_ratio 1 1000)) as (h & E); [vm_compute; reflexivity|vm_compute; reflexivity|eauto|].
      exists h. unfold get_fair_rate.
      change (bindS (get_list 0) ?k (one_coupon n (f64_ratio 1 1000))) with
        (k (mkHL (hl_list (nth 0 (h_lists (one_coupon n (f64_ratio 1 1000))) (mkHL (mkCF [] [] None LNone true) HNone))) (HForward (fun _ => FwNone))) (one_coupon n (f64_ratio 1 1000))).
      cbv beta. unfold bindS at 1. 
      match goal with |- context [lift ?m ?s] => change (lift m s) with (Ok (A:=option float64) (Some (f64_ratio 1 1000)), s) end.
      cbv iota beta. fold f. unfold bindS at 1. rewrite E. reflexivity.
    - intros fuel H. destruct fuel as [|[|[|k]]]; [lia..|]. apply outcome. vm_compute. reflexivity.
  Qed.
End FairRate.
Print Assumptions C89_fair_rate_refuted.

(** with a tenth of the notional the search returns, next to 0.015; a case for C89_result *)
Example C89_instance : forall lib, exists h,
  get_fair_rate (N := f64 lib) (DS := FloatDates (N := f64 lib)) 60 None (PrList 0) 0 None (f64_ofZ (15 * 10^7)) (f64_ratio 1 10000000)
    (f64_ratio (-1) 10) (f64_ratio 2 10) (one_coupon lib (f64_ofZ (10^10)) (f64_ratio 1 1000)) =
  (Ok (S754_finite false 8646911284551354 (-59)), h) /\
  f64_ratio 15 1000 = S754_finite false 8646911284551352 (-59).
Proof.
  intro lib. edestruct (outcome (get_fair_rate (N := f64 lib) (DS := FloatDates (N := f64 lib)) 60 None (PrList 0) 0 None (f64_ofZ (15 * 10^7))
    (f64_ratio 1 10000000) (f64_ratio (-1) 10) (f64_ratio 2 10) (one_coupon lib (f64_ofZ (10^10)) (f64_ratio 1 1000)))) as [h E];
    [vm_compute; reflexivity|]. exists h. split; [exact E|vm_compute; reflexivity].
Qed.
