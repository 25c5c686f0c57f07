(** Specification vocabulary for casting rate curves. *)
From Coq Require Import Reals List.
From Verif Require Import Num Py Spec MDates MCurve MRateCurve SDates SRateCurve.
Import ListNotations.
Open Scope R_scope.

Section Spec.
  Context {D P : Type} {DS : DateSys R D P} {DC : DayCounts R D}.
  (** a curve with origin [o], year fraction [tau] and values on its domain, whose day
      count convention is the default one or given by name *)
  Record castable (src : rcurve R D P) (o : D) (tau : D -> D -> R) : Prop := {
    ca_origin : rc_origin src = Some o;
    ca_time : additive (rc_yf src) tau;
    ca_date : date_values src;
    ca_domain : rc_domain src <> [];
    ca_value : forall x, In x (rc_domain src) -> exists v, has_value src x v;
    ca_count : forall n f, dc_count (rc_dc src) <> DcFun n f
  }.
  (** the origin was given, or is not falsy *)
  Definition solid_origin (src : rcurve R D P) (o : D) : Prop :=
    dc_origin0 (rc_dc src) = Some o \/ d_truthy o = true.
  (** dates where a cast looks up the curve: its domain, one day after the origin and a
      period [p] after the end *)
  Definition looked_up (src : rcurve R D P) (o : D) (p : P) (x : D) : Prop :=
    In x (rc_domain src) \/ d_add o (p_str Tday) = Ok x \/ exists d, In d (rc_domain src) /\ d_add d p = Ok x.
  (** [c] measures time as [src] does *)
  Definition same_time (c src : rcurve R D P) : Prop :=
    rc_origin c = rc_origin src /\ forall a b, rc_yf c a b = rc_yf src a b.
  (** a lookup gives the same result for equal dates *)
  Definition by_date {A} (g : D -> A) : Prop := forall a b, d_eqb a b = true -> g a = g b.
  (** fewer than [fuel] steps back by the period [p] lead from [x] to the origin [o] or
      before it *)
  Definition back_to (p : P) (o x : D) (fuel : nat) : Prop :=
    exists (e : nat -> D) N, (N < fuel)%nat /\ e 0%nat = x /\ (forall i, (i < N)%nat -> d_sub (e i) p = Ok (e (S i))) /\
      d_ltb o (e N) = false.
End Spec.

