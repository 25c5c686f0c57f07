(** Property C128, fits of forward curves to floating lists. *)
From Coq Require Import Reals Lra Lia List Bool ZArith Sorted.
From Verif Require Import Num Py Spec MDates MInterpolation MCurve MRateCurve MOption MCashflow MBracket MPricer
  SDates SInterpolation SCurve SRateCurve SCashflow SPricer SBracket SYield SFit SBootstrap LBase LSort LDates LInterpolation LCurve LCurve2
  LDateCurve LDateCurve2 LCashflow LRateCurve LRateCurve3 LCast LPricer LPricer2 LPricer3 LBracket LYield LFair LFit LMore LInterpolation2
  PBracket PCashflow PRateCurve2 PPricer PFit LBootstrap LFitForward PBootstrap PFitFail.
Import ListNotations.
Open Scope R_scope.

Section Forward.
  Context {D P : Type} (DS : DateSys R D P) (tm : D -> R) (DC : DayCounts R D) (L : DateLaws DS tm).
  Implicit Types (c : rcurve R D P) (h : heap R D P).

  (** A CashRateCurve gives the forward rate of a period at its start. So, on the payment dates
      as grid, the floating list which pays last at a grid date but the first does not depend
      on the curve value there, and the fit can only return if every target but the first two
      and the sum of these is met exactly: for prices which differ from those of the curve by
      any amount it raises, whatever the precision is *)
  Theorem C128_fixed_in_advance : forall count tau grid ys orig o og v tenor c kf kd disc df pc pt n flr h ps rates nss grid0 targets precision a b data h',
    additive (dc_apply count) tau -> monotone tau -> dc_kwarg count = count ->
    grid <> [] -> increasing (map tm grid) -> dom_origin orig grid = Some o ->
    (forall d, In d grid -> tm og <= tm d) -> (forall d, In d grid -> tm v <= tm d) -> length ys = length grid ->
    rc_new CCashRate grid ys None orig count tenor = Ok c -> nth_error (h_curves h) kf = Some c ->
    (forall d, In d (og :: grid) -> exists e, d_add d (rc_tenor c) = Ok e) ->
    kd <> kf -> nth_error (h_curves h) kd = Some disc -> (forall d, In d grid -> get_discount_factor (S n) disc v d = Ok (df d)) ->
    (forall a b, pay_count pc a b = Ok (pt a b)) ->
    length ps = length grid -> length rates = length grid -> length nss = length grid ->
    (forall j p rate ns, nth_error ps j = Some p -> nth_error rates j = Some rate -> nth_error nss j = Some ns ->
       floater h kf grid og pc p rate ns /\ length ns = S j) ->
    match grid0 with Some g => g | None => grid end = grid -> length (spread_arg targets (length ps)) = length ps ->
    get_curve_fit (S n) flr ps kd (Some v) (Some kf) grid0 targets precision a b h = (Ok data, h') ->
    let value j := value_on grid df (floats pt grid og (fun m => nth (pred m) data 0) (nth j rates 0) (nth j nss [])) in
    let target j := nth j (spread_arg targets (length ps)) 0 in
    h' = h /\ length data = length grid /\
    Rabs (value 0%nat - target 0%nat) < precision /\
    ((2 <= length grid)%nat -> value 0%nat + value 1%nat = target 0%nat + target 1%nat) /\
    forall j, (2 <= j)%nat -> (j < length grid)%nat -> value j = target j.
  Proof.
    intros count tau grid ys orig o og v tenor c kf kd disc df pc pt n flr h ps rates nss grid0 targets prec a b data h'
      A MO KW NE INC OG AG AV LY HN HK TE KD HD DF PC LP LR LN FL EG LT H. cbv zeta.
    pose proof (increasing_distinct _ INC) as ND.
    destruct (built_cash DS tm DC L count tau grid orig o og A MO NE INC OG AG ys tenor LY) as (c' & E & B & VC & V0). rewrite HN in E. injection E as <-.
    destruct B as (B1 & B2 & B3 & B4 & B5 & B6 & B7 & B8 & B9 & B10).
    assert (NS : rc_spread c = None) by assumption. assert (EC : dc_count (rc_dc c) = count) by assumption.
    assert (RD : rc_domain c = grid) by assumption.
    assert (PL : plain_cls (rc_cls c)) by (rewrite B1; exact I).
    assert (A' : additive (dc_apply (dc_kwarg (dc_count (rc_dc c)))) tau) by (rewrite EC, KW; exact A).
    assert (EG' : match grid0 with Some g => g | None => rc_domain c end = grid) by (now rewrite RD).
    set (FF := fun (xs : list R) m => nth (pred m) ys 0 + nth (pred m) xs 0).
    set (qs := fquotes grid og df pt rates nss FF). set (ts := spread_arg targets (length ps)) in *.
    assert (FW : forall xs s, length xs = length grid -> on_grid c grid xs = Ok s ->
         forall m x, (m < length grid)%nat -> nth_error (og :: grid) m = Some x ->
           forward_at (S n) (FwRate (mkR (rc_cls c) (rc_dc c) (rc_tenor0 c) (Some (inr s)))) x (FF xs m)).
    { intros xs s LX GR m x Lm Hx.
      destruct (built_cash DS tm DC L count tau grid orig o og A MO NE INC OG AG xs None LX) as (s' & E' & _ & W & W0).
      unfold on_grid in GR. assert (EO : dc_origin0 (rc_dc c) = orig) by assumption. rewrite B1, EO, EC, KW in GR. rewrite GR in E'. injection E' as <-.
      apply (cash_forward DS tm DC L); [exact B1|apply TE; eapply nth_error_In; eauto|]. unfold FF.
      apply (with_spread_call DS DC); auto; destruct m as [|m]; cbn [nth_error pred] in *; [injection Hx as <-; auto|auto|injection Hx as <-; auto|auto]. }
    assert (DEP : forall m xs zs, (m < length grid)%nat -> length xs = length grid -> length zs = length grid ->
      (forall k, (k <= pred m)%nat -> nth_error xs k = nth_error zs k) -> FF xs m = FF zs m).
    { intros m xs zs Lm LX LZ EN. unfold FF. f_equal. specialize (EN (pred m) (le_n _)).
      rewrite (nth_error_nth' xs 0), (nth_error_nth' zs 0) in EN by lia. congruence. }
    pose proof (fquotes_one_each tm grid og df pt rates nss FF INC) as ONE. fold qs in ONE.
    assert (LOC : Forall (local tm grid) qs).
    { apply (fquotes_local DS tm grid og kf kd df pc pt h ps rates nss FF INC KD LP LR LN FL). intros m xs zs Lm LX LZ EN. apply DEP; auto. intros k Lk. apply EN. lia. }
    pose proof (fquotes_priced DS tm DC L grid og v kf kd disc df pc pt (S n) flr h c ps rates nss FF INC AV HK KD HD DF PC LP LR LN FL FW) as PR. fold qs in PR.
    destruct (C50_cumulative DS tm DC L tau (S n) flr h c kf kd (Some v) (Some kf) grid0 grid targets ps qs prec a b data h'
      HK NS PL A' NE ND eq_refl EG' PR LOC H) as (EH & xs & s & LX & GR & LD & DA & _ & _ & TOT).
    assert (DN : forall us, length us = length grid ->
      (forall i d x y, nth_error grid i = Some d -> nth_error us i = Some x -> rc_call c d = Ok y -> nth_error data i = Some (y + x)) ->
      forall i, (i < length grid)%nat -> nth i data 0 = nth i ys 0 + nth i us 0).
    { intros us LU DU i Li. destruct (nth_lt_Some grid i Li) as (d & Hd). apply nth_error_nth. apply (DU i d); auto. apply nth_error_nth'. lia. }
    assert (VV : forall j, (j < length grid)%nat -> fvalue grid og df pt rates nss FF xs j =
      value_on grid df (floats pt grid og (fun m => nth (pred m) data 0) (nth j rates 0) (nth j nss []))).
    { intros j Lj. unfold fvalue. f_equal. unfold floats. apply map_ext_in. intros m Im. apply in_seq in Im.
      assert (LS : length (nth j nss []) = S j).
      { destruct (nth_lt_Some ps j) as (p & Hp); [lia|]. apply (FL j p (nth j rates 0) (nth j nss []) Hp); apply nth_error_nth'; lia. }
      unfold FF. now rewrite (DN xs LX DA (pred m)) by lia. }
    assert (TN : forall j, (j < length grid)%nat -> nth_error ts j = Some (nth j ts 0)) by (intros j Lj; apply nth_error_nth'; lia).
    (** the summed up errors at the grid dates but the first are zero *)
    assert (Z : forall i d, nth_error grid (S i) = Some d -> total_error qs ts xs d = 0).
    { intros i d Hd. destruct (C128_insensitive DS tm DC L tau (S n) flr h c kf kd (Some v) (Some kf) grid0 grid targets ps qs prec a b data h' (S i) d
        HK NS PL A' NE ND eq_refl EG' PR LOC Hd) as (us & s' & LU & _ & DU & T0); [|exact H|].
      - intros zs x LZ. fold ts. unfold total_error. f_equal. apply map_ext_in. intros [q t] Iq. apply filter_In in Iq. destruct Iq as [Iq Le].
        cbn [fst snd] in *. f_equal. apply in_combine_l in Iq. destruct (In_nth_error _ _ Iq) as [j Hj]. destruct (fquotes_nth grid og df pt rates nss FF j q Hj) as (e & He & ->). cbn [fst snd] in *.
        pose proof (grid_order tm grid INC (S i) j d e Hd He (leb_inv (L:=L) _ _ Le)) as Lj. assert (Lj' : (j < length grid)%nat) by (now apply nth_Some_lt in He).
        apply (fvalue_ext DS grid og kf kd df pc pt h ps rates nss FF KD LP LR LN FL); auto. intros m Lm.
        apply DEP; [lia|now rewrite set_nth_length|exact LZ|]. intros k Lk. apply set_nth_other. lia.
      - fold ts in T0. replace xs with us; [exact T0|]. apply (nth_ext _ _ 0 0); [lia|]. intros k Lk. rewrite LU in Lk.
        pose proof (DN xs LX DA k Lk). pose proof (DN us LU DU k Lk). lra. }
    split; [exact EH|]. split; [exact LD|].
    destruct (nth_lt_Some grid 0) as (d0 & H0); [destruct grid; [congruence|cbn; lia]|].
    pose proof (total_first (L:=L) grid qs ts xs d0 _ _ ONE H0 (fquotes_at grid og df pt rates nss FF 0 d0 H0) (TN 0%nat ltac:(now apply nth_Some_lt in H0))) as T0. cbn [snd] in T0.
    rewrite (VV 0%nat) in T0 by (now apply nth_Some_lt in H0). split; [|split].
    - rewrite <- T0. apply TOT. eapply nth_error_In; eauto.
    - intros L2. destruct (nth_lt_Some grid 1) as (d1 & H1); [lia|].
      pose proof (total_step (L:=L) grid qs ts xs 0 d1 d0 _ _ ONE H1 H0 (fquotes_at grid og df pt rates nss FF 1 d1 H1) (TN 1%nat ltac:(lia))) as T1. cbn [snd] in T1.
      rewrite (VV 1%nat ltac:(lia)), (Z 0%nat d1 H1), T0 in T1. lra.
    - intros j L2 Lj. destruct j as [|[|j]]; try lia. destruct (nth_lt_Some grid (S (S j)) Lj) as (d & Hd). destruct (nth_lt_Some grid (S j)) as (d' & Hd'); [lia|].
      pose proof (total_step (L:=L) grid qs ts xs (S j) d d' _ _ ONE Hd Hd' (fquotes_at grid og df pt rates nss FF _ d Hd) (TN _ Lj)) as T1. cbn [snd] in T1.
      rewrite (VV (S (S j)) Lj), (Z (S j) d Hd), (Z j d' Hd') in T1. lra.
  Qed.
End Forward.
Print Assumptions C128_fixed_in_advance.

Local Notation fl := (FloatDates (T:=R)).

(** two floating lists of notional 1000 discounted with zero rates of zero: if the second one is
    quoted by one more than its value on the rates the first one needs, the fit never returns,
    whatever the number of steps and the bounds are *)
Example C128_floaters : exists (h : heap R R (fperiod R)) disc c,
  nth_error (h_curves h) 0 = Some disc /\ nth_error (h_curves h) 1 = Some c /\
  rc_new (DS := fl) (DC := no_counts) CCashRate [1; 2] [1 / 100; 1 / 100] None (Some 0) DcDefault (Some (FP 1)) = Ok c /\
  floater (DS := fl) h 1 [1; 2] 0 DcDefault (PrList 0) 0 [1000] /\
  floater (DS := fl) h 1 [1; 2] 0 DcDefault (PrList 1) 0 [1000; 1000] /\
  forall n a b data h',
    get_curve_fit (DS := fl) (DC := no_counts) (S (S n)) None [PrList 0; PrList 1] 0 (Some 0) (Some 1%nat) None
      (Many [10; 21]) (1 / 1000) a b h <> (Ok data, h').
Proof.
  set (tau := fun a b : R => b - a).
  assert (A : additive (DS := fl) (dc_apply (DS := fl) (DC := no_counts) DcDefault) tau) by exact add_f.
  assert (INC : increasing (map (fun d : R => d) [1; 2])) by (cbn; repeat constructor; lra).
  assert (AF : forall d, In d [1; 2] -> 0 <= d) by (intros d [<-|[<-|[]]]; lra).
  assert (OG : dom_origin (Some 0) [1; 2] = Some 0) by reflexivity.
  destruct (built_curve (L:=float_laws) (DC := no_counts) DcDefault tau A tau_f_monotone [1; 2] [0; 0] (Some 0) 0 0
    ne_f INC OG AF eq_refl [0; 0] None eq_refl) as (disc & HD & B & V & V0 & _).
  destruct (built_cash fl (fun d => d) no_counts float_laws DcDefault tau [1; 2] (Some 0) 0 0 A tau_f_monotone ne_f INC OG AF
    [1 / 100; 1 / 100] (Some (FP 1)) eq_refl) as (c & HN & BC & _ & _).
  set (at_ := HForward (fun cs => match nth_error cs 1 with Some c => FwRate c | None => FwNone end) : hattr R R (fperiod R)).
  destruct (ratelist_new (DS := fl) (P := fperiod R) [1] (Many [1000]) (Some 0) DcDefault None None 0 (FwRate c)) as [l0|] eqn:E0; [|discriminate E0].
  destruct (ratelist_new (DS := fl) (P := fperiod R) [1; 2] (Many [1000; 1000]) (Some 0) DcDefault None None 0 (FwRate c)) as [l1|] eqn:E1; [|discriminate E1].
  set (h := mkH [disc; c] [] [mkHL l0 at_; mkHL l1 at_]).
  assert (F0 : floater (DS := fl) h 1 [1; 2] 0 DcDefault (PrList 0) 0 [1000]) by (exists 0%nat, l0, c; auto).
  assert (F1 : floater (DS := fl) h 1 [1; 2] 0 DcDefault (PrList 1) 0 [1000; 1000]) by (exists 1%nat, l1, c; auto).
  exists h, disc, c. repeat (split; [first [reflexivity|assumption]|]). intros n a b data h' H.
  assert (DF : forall d, In d [1; 2] -> get_discount_factor (DS := fl) (DC := no_counts) (S (S n)) disc 0 d = Ok 1).
  { destruct B as (B1 & B2 & B3 & B4 & B5 & B6 & B7 & B8 & B9 & B10). intros d Id.
    rewrite (curve_df (L:=float_laws) (DC := no_counts) tau [1; 2] [0; 0] 0 0 disc [0; 0] B1 B3 B10 B9); auto.
    - f_equal. unfold dfx, tau, zv. transitivity (exp 0); [f_equal|apply exp_0]. destruct (in_grid [1; 2] d Id) as (i & Hi & _).
      rewrite (zr_at (L:=float_laws) [1; 2] [0; 0] INC [0; 0] i d Hi). destruct i as [|[|i]]; cbn; [ring|ring|destruct i; discriminate].
    - rewrite V0. unfold zv. cbn [nth]. f_equal. ring.
    - intros x Ix. destruct (in_grid [1; 2] x Ix) as (i & Hi & _). rewrite (zr_at (L:=float_laws) [1; 2] [0; 0] INC [0; 0] i x Hi), (V i x Hi). f_equal.
      destruct i as [|[|i]]; cbn; [ring|ring|destruct i; discriminate]. }
  destruct (C128_fixed_in_advance fl (fun d => d) no_counts float_laws DcDefault tau [1; 2] [1 / 100; 1 / 100] (Some 0) 0 0 0 (Some (FP 1)) c 1 0 disc (fun _ => 1)
    DcDefault tau (S n) None h [PrList 0; PrList 1] [0; 0] [[1000]; [1000; 1000]] None (Many [10; 21]) (1 / 1000) a b data h'
    A tau_f_monotone eq_refl ne_f INC OG AF AF eq_refl HN eq_refl) as (_ & LD & Q0 & Q1 & _); auto; try reflexivity.
  - intros d _. assert (RT : rc_tenor0 c = Some (FP 1)) by (apply BC). unfold rc_tenor. rewrite RT. eexists. reflexivity.
  - intros [|[|j]] p rate ns Hp Hr Hn; [| |destruct j; discriminate]; injection Hp as <-; injection Hr as <-; injection Hn as <-; auto.
  - specialize (Q1 ltac:(cbn; lia)). destruct data as [|z [|z' [|]]]; try discriminate LD.
    unfold value_on, floats, tau in Q0, Q1. cbn in Q0, Q1. apply Rabs_def2 in Q0. lra.
Qed.
