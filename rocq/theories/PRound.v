(** Property C97: rounding errors of sums and of present values in double precision. *)
From Coq Require Import ZArith Lia List Bool Reals Lra Floats.SpecFloat.
From Verif Require Import Num Py MDates MInterpolation MCurve MRateCurve MOption MCashflow MBracket MPricer MFloat SRound LRound.
Import ListNotations.
Local Open Scope R_scope.

(** the sum of n doubles, if it does not overflow, misses the sum of their values by at most
    ((1 + 2^-53)^(n-1) - 1) times the sum of the absolute values *)
Theorem C97_sum : forall lib l,
  Forall is_double l -> finite_float (nsum (N := f64 lib) l) ->
  Rabs (float_value (nsum (N := f64 lib) l) - total (map float_value l)) <=
    ((1 + rounding_unit) ^ (length l - 1) - 1) * total_abs (map float_value l).
Proof. intros lib l H F. now apply (nsum_error lib). Qed.
Print Assumptions C97_sum.

(** for less than 2^52 numbers this is at most n 2^-52 times the sum of the absolute values *)
Theorem C97_size : forall n, INR n * rounding_unit <= / 2 ->
  (1 + rounding_unit) ^ n - 1 <= 2 * INR n * rounding_unit.
Proof. exact pow_u_linear. Qed.
Print Assumptions C97_size.

Section C97.
  Context (lib : libm) {D P : Type} (DS : DateSys float64 D P) (DC : DayCounts float64 D).
  #[local] Instance n64 : Num float64 := f64 lib.

  (** a present value that does not overflow: the discount factors and amounts used are those
      of the curve and of the list at the due dates, and what is returned misses the sum of
      their products by at most the given bound.  With n due dates each product is rounded
      once and the products are added by n - 1 rounded additions. *)
  Theorem C97_present_value : forall fuel flr h h' i k disc v x,
    nth_error (h_curves h) k = Some disc ->
    get_present_value fuel flr (PrList i) k (Some v) h = (Ok x, h') -> finite_float x ->
    exists c dfs amounts, seen_at h v i c /\
      Forall2 (fun d df => get_discount_factor fuel disc v d = Ok df)
              (filter (fun d => d_leb v d) (cf_domain c)) dfs /\
      Forall2 (fun d a => cf_get fuel flr c d = Ok a)
              (filter (fun d => d_leb v d) (cf_domain c)) amounts /\
      (Forall is_double dfs -> Forall is_double amounts ->
       Forall finite_float dfs /\ Forall finite_float amounts /\
       Rabs (float_value x - total (products dfs amounts)) <=
         ((1 + rounding_unit) ^ length dfs - 1) * total_abs (products dfs amounts) +
         INR (length dfs) * (1 + rounding_unit) ^ (length dfs - 1) * tiny).
  Proof.
    intros fuel flr h h' i k disc v x Hk H F. unfold get_present_value, bindS, get_curve in H.
    rewrite (proj2 (nth_res_Some _ _ _) Hk) in H.
    destruct (pv_list_parts _ _ _ _ _ _ _ _ H) as (_ & c & dfs & am & S1 & F1 & F2 & ->).
    exists c, dfs, am. do 3 (split; auto). intros D1 D2. apply dot_error; auto.
    apply Forall2_len in F1, F2. congruence.
  Qed.

  (** leg lists: the values of the legs, added *)
  Theorem C97_legs : forall fuel flr h h' legs dom o k v x,
    get_present_value fuel flr (PrLegs legs dom o) k (Some v) h = (Ok x, h') -> finite_float x ->
    exists ys, Forall2 (fun i y => get_present_value fuel flr (PrList i) k (Some v) h = (Ok y, h)) legs ys /\
      (Forall is_double ys -> Forall finite_float ys /\
       Rabs (float_value x - total (map float_value ys)) <=
         ((1 + rounding_unit) ^ (length ys - 1) - 1) * total_abs (map float_value ys)).
  Proof.
    intros fuel flr h h' legs dom o k v x H F. unfold get_present_value, bindS, get_curve in *.
    destruct (nth_res (h_curves h) k) as [disc|]; [|discriminate]. unfold pv_of, bindS in *.
    destruct (mapS _ legs h) as [[ys|] h1] eqn:E; [|discriminate]. unfold ret in H. injection H as <- <-.
    exists ys. split; [clear F|intro DL; destruct (nsum_error lib ys DL F) as (A & _ & B); auto].
    revert ys h1 E. induction legs as [|i legs IH]; cbn; intros ys h1 E; unfold ret, bindS in E.
    - injection E as <- <-. constructor.
    - destruct (pv_list fuel flr disc (Some v) i h) as [[y|] h2] eqn:E1; [|discriminate].
      destruct (pv_list_parts _ _ _ _ _ _ _ _ E1) as [-> _].
      destruct (mapS _ legs h) as [[zs|] h3] eqn:E2; [|discriminate]. injection E as <- <-. constructor; eauto.
  Qed.
End C97.
Print Assumptions C97_present_value.
Print Assumptions C97_legs.

(** FixedCashFlowList([1, 2, 3], [0.1, 0.2, 0.3], origin=0) and ZeroRateCurve([0], [0.0]): the
    present value at 0 is returned as 0.6000000000000001 *)
Section Case.
  Context (lib : libm).
  #[local] Instance n64' : Num float64 := f64 lib.
  #[local] Instance no_registry97 : DayCounts float64 float64 := [].
  Definition three_flows : @heap float64 float64 (fperiod float64) :=
    match fixed_new [f64_ofZ 1; f64_ofZ 2; f64_ofZ 3] (Many [f64_ratio 1 10; f64_ratio 2 10; f64_ratio 3 10]) (Some (f64_ofZ 0)),
          rc_new CZeroRate [f64_ofZ 0] [f64_zero] None None DcDefault None with
    | Ok l, Ok d => mkH [d] [] [mkHL l HNone]
    | _, _ => mkH [] [] []
    end.
  Example C97_instance :
    let x := S754_finite false 5404319552844596 (-53) in
    get_present_value 3 None (PrList 0) 0 (Some f64_zero) three_flows = (Ok x, three_flows) /\
    Forall is_double [f64_ratio 1 10; f64_ratio 2 10; f64_ratio 3 10] /\ finite_float x /\
    float_value x - total (map float_value [f64_ratio 1 10; f64_ratio 2 10; f64_ratio 3 10]) = 6 / 2 ^ 56.
  Proof.
    intro x. split; [vm_compute; reflexivity|]. split; [repeat constructor|]. split; [exact I|].
    change (map float_value _) with (map float_value [S754_finite false 7205759403792794 (-56); S754_finite false 7205759403792794 (-55); S754_finite false 5404319552844595 (-54)]).
    unfold x. cbn [map float_value total fold_right].
    change (powerRZ 2 (-53)) with (/ 2 ^ 53). change (powerRZ 2 (-54)) with (/ 2 ^ 54).
    change (powerRZ 2 (-55)) with (/ 2 ^ 55). change (powerRZ 2 (-56)) with (/ 2 ^ 56). lra.
  Qed.
End Case.
