(** Model of /repo/dcf/curves/fx.py: FxForwardCurve and FxContainer.

    Currencies are natural numbers; the code compares them by [==] and [is] and needs
    nothing else (strings that are equal are taken to be identical objects).  Objects
    stored in the container are values here: every curve the code stores is a new object,
    so that changing one entry never changes another.  The attribute [fx_spot] set in 177
    and 179 is read nowhere and left out.  Not modelled: FxRate and the type
    checks with AssertionError (so [add] takes spots which are floats). *)
From Coq Require Import List Bool ZArith Arith.
From Verif Require Import Num Py MCompounding MInterpolation MDates MCurve MRateCurve.
Import ListNotations.

Section Fx.
  Context {T D P : Type} {N : Num T} {DS : DateSys T D P} {DC : DayCounts T D}.
  Open Scope num_scope.

  (** an FxForwardCurve: ForwardCurve attributes, [domestic_curve], [foreign_curve] *)
  Record fxcurve := mkFx { fx_fc : fcurve T D; fx_dom : rcurve T D P; fx_for : rcurve T D P }.

  (** fx.py:23-28; [yield_curve] keeps its default 0.0 (curve.py:586) *)
  Definition fx_new (domain : list D) (data : list T) (i : option ispec) (origin : option D)
             (count : dcspec T D) (dom for_ : rcurve T D P) : res fxcurve :=
    c <- fc_new domain data i origin count (YFloat n0) ;; Ok (mkFx c dom for_).

  (** fx.py:30-38 [get_forward_price], also [__call__] (curve.py:622-626) *)
  Definition fx_price (fuel : nat) (c : fxcurve) (value_date : D) : res T :=
    last <- last_res (dc_domain (fc_dc (fx_fc c))) ;;
    if d_leb value_date last then fc_price (fx_fc c) value_date
    else y <- fc_price (fx_fc c) last ;;
         d <- get_discount_factor fuel (fx_dom c) last value_date ;;
         f <- get_discount_factor fuel (fx_for c) last value_date ;;
         q <- ndiv y f ;;
         Ok (q * d).

  (** an FxContainer: [currency], [domestic_curve] and the dict in insertion order *)
  Definition ccy := nat.
  Definition pair_eqb (p q : ccy * ccy) : bool :=
    Nat.eqb (fst p) (fst q) && Nat.eqb (snd p) (snd q).
  Definition fxmap := list ((ccy * ccy) * fxcurve).
  Record fxcont := mkFC { fxc_cur : ccy; fxc_dom : rcurve T D P; fxc_map : fxmap }.

  (** [self[d, f]] for a pair, 115-119: AssertionError for a missing pair *)
  Definition fx_get (m : fxmap) (k : ccy * ccy) : res fxcurve :=
    match assoc pair_eqb k m with Some c => Ok c | None => Err AssertionError end.
  (** [self[d]] for a currency, 120-126 *)
  Definition fx_row (m : fxmap) (d : ccy) : list (ccy * fxcurve) :=
    map (fun e => (snd (fst e), snd e)) (filter (fun e => Nat.eqb (fst (fst e)) d) m).

  (** [FxForwardCurve([self.domestic_curve.origin], [spot], domestic_curve, foreign_curve)];
      an origin None has no year fraction: TypeError *)
  Definition fx_spot_curve (self_dom : rcurve T D P) (spot : T) (dom for_ : rcurve T D P) : res fxcurve :=
    match rc_origin self_dom with
    | Some o => fx_new [o] [spot] None None DcDefault dom for_
    | None => Err TypeError
    end.

  Definition set_for (c : rcurve T D P) (e : fxcurve) : fxcurve := mkFx (fx_fc e) (fx_dom e) c.
  Definition set_dom (c : rcurve T D P) (e : fxcurve) : fxcurve := mkFx (fx_fc e) c (fx_for e).
  (** [self[k].attr = ...] *)
  Definition fx_modify (m : fxmap) (k : ccy * ccy) (g : fxcurve -> fxcurve) : res fxmap :=
    e <- fx_get m k ;; Ok (assoc_set pair_eqb k (g e) m).

  (** 171-189: the body of the loop [for d, s in self], on (self, new) *)
  Definition add_step (fuel : nat) (cur : ccy) (self_dom : rcurve T D P) (f : ccy) (curve : rcurve T D P) (spot : T)
             (st : fxmap * fxmap) (key : ccy * ccy) : res (fxmap * fxmap) :=
    let (m, new) := st in
    let (d, s) := key in
    if Nat.eqb s cur && negb (Nat.eqb d f) then
      e <- fx_get m (d, s) ;;
      o <- match rc_origin self_dom with Some o => Ok o | None => Err TypeError end ;;
      v <- fx_price fuel e o ;;
      let tri := v * spot in
      match assoc pair_eqb (d, f) m with
      | Some _ =>
          m1 <- fx_modify m (d, f) (set_for curve) ;;
          m2 <- fx_modify m1 (f, d) (set_dom curve) ;;
          _ <- ndiv n1 tri ;;
          Ok (m2, new)
      | None =>
          a <- fx_spot_curve self_dom tri (fx_dom e) curve ;;
          inv <- ndiv n1 tri ;;
          b <- fx_spot_curve self_dom inv curve (fx_dom e) ;;
          Ok (m, assoc_set pair_eqb (f, d) b (assoc_set pair_eqb (d, f) a new))
      end
    else Ok (m, new).

  Fixpoint foldM {A B} (step : A -> B -> res A) (a : A) (l : list B) : res A :=
    match l with
    | [] => Ok a
    | x :: l' => a' <- step a x ;; foldM step a' l'
    end.

  (** [self.update(new)] 190 *)
  Definition fx_update (m new : fxmap) : fxmap :=
    fold_left (fun m e => assoc_set pair_eqb (fst e) (snd e) m) new m.

  (** 148-190 [add] *)
  Definition fx_add (fuel : nat) (c : fxcont) (f : ccy) (curve : rcurve T D P) (spot : T) : res fxcont :=
    let dom := fxc_dom c in
    a <- fx_spot_curve dom spot dom curve ;;
    let m1 := assoc_set pair_eqb (fxc_cur c, f) a (fxc_map c) in
    inv <- ndiv n1 spot ;;
    b <- fx_spot_curve dom inv dom curve ;;
    let m2 := assoc_set pair_eqb (f, fxc_cur c) b m1 in
    st <- foldM (add_step fuel (fxc_cur c) dom f curve spot) (m2, []) (map fst m2) ;;
    Ok (mkFC (fxc_cur c) dom (fx_update (fst st) (snd st))).

  (** 104-113 [__init__]; [fx_spot] has the default 1.0 (148) *)
  Definition fx_container (fuel : nat) (cur : ccy) (dom : rcurve T D P) : res fxcont :=
    fx_add fuel (mkFC cur dom []) cur dom n1.

  (** 128-139 [self[d, f] = value] for a pair of currencies and a curve *)
  Definition fx_set_pair (c : fxcont) (k : ccy * ccy) (e : fxcurve) : fxcont :=
    mkFC (fxc_cur c) (fxc_dom c) (assoc_set pair_eqb k e (fxc_map c)).
  (** 140-146 [self[f] = value] for a currency; [same] says whether the domestic curve of
      the value is the one of the container (curves compare by identity, which the model
      does not see) *)
  Definition fx_set_currency (fuel : nat) (c : fxcont) (f : ccy) (e : fxcurve) (same : bool) : res fxcont :=
    if same then
      o <- match rc_origin (fxc_dom c) with Some o => Ok o | None => Err TypeError end ;;
      x <- fx_price fuel e o ;;
      fx_add fuel c f (fx_for e) x
    else Err AssertionError.

  (** 192-195 [get_forward_price] *)
  Definition fx_forward (fuel : nat) (c : fxcont) (d f : ccy) (value_date : D) : res T :=
    e <- fx_get (fxc_map c) (d, f) ;; fx_price fuel e value_date.
End Fx.
Arguments fxcurve T D P : clear implicits.
Arguments fxcont T D P : clear implicits.
Arguments fx_forward {T D P N DS DC} fuel%nat c d%nat f%nat value_date.
