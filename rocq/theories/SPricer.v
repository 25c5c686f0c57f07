(** Specification vocabulary of the pricer properties. *)
From Coq Require Import Reals List Bool ZArith.
From Verif Require Import Num Py Spec MDates MCurve MRateCurve MOption MCashflow MBracket MPricer.
Import ListNotations.
Open Scope R_scope.

Section S.
  Context {D P : Type} {DS : DateSys R D P} {DC : DayCounts R D}.

  (** list number i of the heap, as it is when it is valued at v: with the curves as they
      are now, its payoff model (if it has one) taken at valuation date v *)
  Definition seen (h : heap R D P) (v : D) (i : nat) (c : cflist R D P) : Prop :=
    exists l a, nth_error (h_lists h) i = Some l /\
      c = mkCF (cf_domain (hl_list l)) (cf_flows (hl_list l)) (cf_origin0 (hl_list l)) a
               (cf_rated (hl_list l)) /\
      match hl_attr l with
      | HNone => a = LNone
      | HForward s => a = LForward (s (h_curves h))
      | HModel j => exists m, nth_error (h_models h) j = Some m /\
                    a = LModel (PmModel (model_view h (mkHM (Some v) (hm_model m))))
      | HOther _ => False
      end.

  (** the payment dates at v or later *)
  Definition due (v : D) (c : cflist R D P) : list D := filter (fun d => d_leb v d) (cf_domain c).

  (** x is the discounted value of the flow at date d *)
  Definition discounted (fuel : nat) (flr : option R) (disc : rcurve R D P) (v : D)
             (c : cflist R D P) (d : D) (x : R) : Prop :=
    exists df a, get_discount_factor fuel disc v d = Ok df /\ cf_get fuel flr c d = Ok a /\
                 x = df * a.

  (** x is the sum of the discounted flows at v and later *)
  Definition worth (fuel : nat) (flr : option R) (disc : rcurve R D P) (v : D)
             (c : cflist R D P) (x : R) : Prop :=
    exists xs, Forall2 (discounted fuel flr disc v c) (due v c) xs /\ x = Rsum xs.

  (** the call returns x and leaves all objects as they were *)
  Definition returns {A} (m : st (heap R D P) A) (h : heap R D P) (x : A) : Prop := m h = (Ok x, h).
End S.

Section Shifted.
  Context {D P : Type} {DS : DateSys R D P} {DC : DayCounts R D}.

  (** h' is h with the curves ks shifted: each of them got a spread s with the values
      [x d], so it returns its value plus [x d] at every date d; nothing else differs *)
  Definition shifted_by (h : heap R D P) (ks : list nat) (x : D -> R) (h' : heap R D P) : Prop :=
    h_models h' = h_models h /\ h_lists h' = h_lists h /\
    (forall k, ~ In k ks -> nth_error (h_curves h') k = nth_error (h_curves h) k) /\
    (forall k c, In k ks -> nth_error (h_curves h) k = Some c ->
       exists s, nth_error (h_curves h') k = Some (mkR (rc_cls c) (rc_dc c) (rc_tenor0 c) (Some s)) /\
         (forall d, match s with inl e => dc_val e d | inr r => rc_call r d end = Ok (x d)) /\
         forall d y, rc_call c d = Ok y ->
           rc_call (mkR (rc_cls c) (rc_dc c) (rc_tenor0 c) (Some s)) d = Ok (y + x d)).
End Shifted.

(** the values of bucket j on n grid dates: x at its own date, zero at the others *)
Definition spike (x : R) (n j : nat) : list R := map (fun i => if Nat.eqb i j then x else 0) (seq 0 n).
