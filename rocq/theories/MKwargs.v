(** Model of the round trip through [kwargs], /repo/dcf/curves/curve.py:153-166.

    [c.kwargs] maps the names of the constructor's parameters to the attributes of the
    object with a leading underscore; [data] is [self(self.domain)]; an attribute with a
    [__name__] (a class or a function) is replaced by this name; None is left out, which
    gives the default of the parameter.  The attributes of a ForwardCurve are called
    [yield_curve] (618), [domestic_curve] and [foreign_curve] (fx.py:26-27), without
    underscore, so that these arguments are left out as well.  [__repr__] (331-339) shows
    the same arguments.  Below: [type(c)( **c.kwargs )]. *)
From Coq Require Import List Bool.
From Verif Require Import Num Py MInterpolation MDates MCurve MRateCurve MFx.
Import ListNotations.

Section Kwargs.
  Context {T D P : Type} {N : Num T} {DS : DateSys T D P} {DC : DayCounts T D}.

  (** a Curve, curve.py:180-252 *)
  Definition curve_rebuild (c : curve T) : res (curve T) :=
    data <- mapM (curve_val c) (c_domain c) ;;
    curve_new (interp_kwarg (c_interp c)) (c_domain c) data.

  (** a DateCurve, curve.py:366-436 *)
  Definition dc_rebuild (c : dcurve T D) : res (dcurve T D) :=
    data <- mapM (dc_val c) (dc_domain c) ;;
    dc_new (dc_dflt c) (dc_domain c) data (interp_kwarg (dc_interp c)) (dc_origin0 c)
           (dc_kwarg (dc_count c)).

  (** a ForwardCurve, curve.py:585-619, with the default 0.0 of [yield_curve] *)
  Definition fc_rebuild (c : fcurve T D) : res (fcurve T D) :=
    data <- mapM (fc_price c) (dc_domain (fc_dc c)) ;;
    fc_new (dc_domain (fc_dc c)) data (interp_kwarg (dc_interp (fc_dc c))) (dc_origin0 (fc_dc c))
           (dc_kwarg (dc_count (fc_dc c))) (YFloat n0).

  (** a RateCurve, curve.py:693-746; there is no argument for [spread] and [fixings] *)
  Definition rc_rebuild (c : rcurve T D P) : res (rcurve T D P) :=
    data <- mapM (rc_call c) (rc_domain c) ;;
    rc_new (rc_cls c) (rc_domain c) data (interp_kwarg (dc_interp (rc_dc c)))
           (dc_origin0 (rc_dc c)) (dc_kwarg (dc_count (rc_dc c))) (rc_tenor0 c).

  (** an FxForwardCurve, fx.py:21-28: [kwargs] looks for attributes with leading underscore
      and finds neither [domestic_curve] nor [foreign_curve]; they become None.  The result
      is the ForwardCurve part of the new curve *)
  Definition fx_rebuild (fuel : nat) (c : fxcurve T D P) : res (fcurve T D) :=
    let f := fx_fc c in
    data <- mapM (fx_price fuel c) (dc_domain (fc_dc f)) ;;
    fc_new (dc_domain (fc_dc f)) data (interp_kwarg (dc_interp (fc_dc f))) (dc_origin0 (fc_dc f))
           (dc_kwarg (dc_count (fc_dc f))) (YFloat n0).
  (** fx.py:30-38 with None for both curves: None has no attribute [get_discount_factor] *)
  Definition fx_rebuilt_price (f : fcurve T D) (value_date : D) : res T :=
    last <- last_res (dc_domain (fc_dc f)) ;;
    if d_leb value_date last then fc_price f value_date
    else y <- fc_price f last ;; Err AttributeError.
End Kwargs.
