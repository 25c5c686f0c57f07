(** Property C127, forward curves bootstrapped from floating lists. *)
From Coq Require Import Reals Lra Lia List Bool ZArith Sorted.
From Verif Require Import Num Py Spec MDates MInterpolation MCurve MRateCurve MOption MCashflow MBracket MPricer
  SDates SInterpolation SCurve SRateCurve SCashflow SPricer SBracket SYield SFit SBootstrap LBase LSort LDates LInterpolation LCurve LCurve2
  LDateCurve LDateCurve2 LCashflow LRateCurve LRateCurve3 LCast LPricer LPricer2 LPricer3 LBracket LYield LFair LFit LMore LInterpolation2
  PBracket PCashflow PRateCurve2 PPricer PFit LBootstrap LFitForward PBootstrap PFitFail.
Import ListNotations.
Open Scope R_scope.

Section Forward.
  Context {D P : Type} (DS : DateSys R D P) (tm : D -> R) (DC : DayCounts R D) (L : DateLaws DS tm).
  Implicit Types (c : rcurve R D P) (h : heap R D P).

  (** zero rates: the old ones plus the spread *)
  Definition added (ys xs : list R) : list R := map (fun yx => fst yx + snd yx) (combine ys xs).
  Lemma added_nth ys xs i : (i < length ys)%nat -> (i < length xs)%nat -> nth i (added ys xs) 0 = nth i ys 0 + nth i xs 0.
  Proof.
    intros L1 L2. unfold added. apply nth_error_nth. apply (map_nth_error (fun yx => fst yx + snd yx) i _ (d := (nth i ys 0, nth i xs 0))).
    apply combine_nth_both; now apply nth_error_nth'.
  Qed.

  (** the forward rate of a period as function of the zero rates *)
  Definition zforward (tau : D -> D -> R) (grid : list D) (og o : D) (zs : list R) (m : nat) : R :=
    (exp (nth m zs 0 * tau o (nth m grid og) - nth (pred m) zs 0 * tau o (nth m (og :: grid) og)) - 1) / tau (nth m (og :: grid) og) (nth m grid og).

  Lemma zero_quotes count tau grid ys orig o og v tenor c kf kd disc df pc pt n flr h ps rates nss :
    additive (dc_apply count) tau -> monotone tau -> dc_kwarg count = count ->
    grid <> [] -> increasing (map tm grid) -> dom_origin orig grid = Some o ->
    (forall d, In d grid -> tm og < tm d) -> (forall d, In d grid -> tm v <= tm d) -> length ys = length grid ->
    rc_new CZeroRate grid ys None orig count tenor = Ok c -> nth_error (h_curves h) kf = Some c ->
    (forall m s e, nth_error (og :: grid) m = Some s -> nth_error grid m = Some e -> exists e', d_add s (rc_tenor c) = Ok e' /\ d_eqb e' e = true) ->
    kd <> kf -> nth_error (h_curves h) kd = Some disc -> (forall d, In d grid -> get_discount_factor (S (S (S n))) disc v d = Ok (df d)) ->
    (forall a b, pay_count pc a b = Ok (pt a b)) ->
    length ps = length grid -> length rates = length grid -> length nss = length grid ->
    (forall j p rate ns, nth_error ps j = Some p -> nth_error rates j = Some rate -> nth_error nss j = Some ns ->
       floater h kf grid og pc p rate ns /\ length ns = S j) ->
    let FF := fun xs => zforward tau grid og o (added ys xs) in
    let qs := fquotes grid og df pt rates nss FF in
    one_each tm grid qs /\ Forall (local tm grid) qs /\
    Forall2 (fun p q => last_payment h p (fst q) /\ priced (S (S (S n))) flr h kd (Some v) kf c grid p (snd q)) ps qs /\
    (forall cs zs, rc_cls cs = CZeroRate -> rc_origin cs = Some o -> additive (rc_yf cs) tau -> date_values cs -> rc_tenor cs = rc_tenor c ->
      (forall i d, nth_error grid i = Some d -> rc_call cs d = Ok (nth i zs 0)) -> rc_call cs og = Ok (nth 0 zs 0) ->
      forall m x, (m < length grid)%nat -> nth_error (og :: grid) m = Some x -> forward_at (S (S (S n))) (FwRate cs) x (zforward tau grid og o zs m)) /\
    (forall xs s, length xs = length grid -> on_grid c grid xs = Ok s ->
         forall m x, (m < length grid)%nat -> nth_error (og :: grid) m = Some x ->
           forward_at (S (S (S n))) (FwRate (mkR (rc_cls c) (rc_dc c) (rc_tenor0 c) (Some (inr s)))) x (FF xs m)).
  Proof.
    intros A MO KW NE INC OG AG AV LY HN HK TE KD HD DF PC LP LR LN FL. cbv zeta.
    assert (AG' : forall d, In d grid -> tm og <= tm d) by (intros d Id; left; auto).
    destruct (built_curve (L:=L) count tau A MO grid ys orig o og NE INC OG AG' LY ys tenor LY) as (c1 & E & B & VC & V0 & _). rewrite HN in E. injection E as <-.
    destruct B as (B1 & B2 & B3 & B4 & B5 & B6 & B7 & B8 & B9 & B10).
    set (FZ := zforward tau grid og o) in *.
    assert (FZW : forall cs zs, rc_cls cs = CZeroRate -> rc_origin cs = Some o -> additive (rc_yf cs) tau -> date_values cs -> rc_tenor cs = rc_tenor c ->
      (forall i d, nth_error grid i = Some d -> rc_call cs d = Ok (nth i zs 0)) -> rc_call cs og = Ok (nth 0 zs 0) ->
      forall m x, (m < length grid)%nat -> nth_error (og :: grid) m = Some x -> forward_at (S (S (S n))) (FwRate cs) x (FZ zs m)).
    { intros cs zs K HO AC DV RT V1 V2 m x Lm Hx. destruct (nth_lt_Some grid m Lm) as (e & He). destruct (TE m x e Hx He) as (e' & E1 & E2).
      unfold FZ, zforward. rewrite (nth_error_nth _ _ og Hx), (nth_error_nth _ _ og He). apply (zero_forward DS tm DC L cs tau o n x e e'); auto.
      - now rewrite RT.
      - destruct m as [|m].
        + injection Hx as <-. pose proof (AG e (nth_error_In _ _ He)). lra.
        + cbn [nth_error] in Hx. intro Q. assert (S m <= m)%nat; [|lia]. apply (grid_order tm grid INC m (S m) x e); auto. lra.
      - destruct m as [|m]; [injection Hx as <-; exact V2|]. cbn [nth_error pred] in *. auto. }
    assert (AN : forall xs i, length xs = length grid -> (i < length grid)%nat -> nth i (added ys xs) 0 = nth i ys 0 + nth i xs 0).
    { intros xs i LX Li. apply added_nth; lia. }
    set (FF := fun xs => FZ (added ys xs)).
    assert (FW : forall xs s, length xs = length grid -> on_grid c grid xs = Ok s ->
         forall m x, (m < length grid)%nat -> nth_error (og :: grid) m = Some x ->
           forward_at (S (S (S n))) (FwRate (mkR (rc_cls c) (rc_dc c) (rc_tenor0 c) (Some (inr s)))) x (FF xs m)).
    { intros xs s LX GR. destruct (built_curve (L:=L) count tau A MO grid ys orig o og NE INC OG AG' LY xs None LX) as (s' & E' & BS & W & W0 & WS).
      unfold on_grid in GR. rewrite B1, B5, B6, KW in GR. rewrite GR in E'. injection E' as <-.
      destruct BS as (_ & _ & _ & _ & _ & _ & _ & _ & S9 & _).
      assert (CT : forall d, exists w, rc_call c d = Ok w).
      { destruct (built_curve (L:=L) count tau A MO grid ys orig o og NE INC OG AG' LY ys tenor LY) as (c2 & E2 & _ & _ & _ & W2). rewrite HN in E2. injection E2 as <-. exact W2. }
      assert (NP : (0 < length grid)%nat) by (destruct grid; [congruence|cbn; lia]).
      apply FZW; auto.
      - intros x y Exy. destruct (CT x) as (yx & Yx). destruct (WS x) as (zx & Zx).
        rewrite (with_spread_call DS DC c s x yx zx B8 Yx Zx). symmetry. apply (with_spread_call DS DC); auto.
        + rewrite <- (B9 x y Exy). exact Yx.
        + rewrite <- (S9 x y Exy). exact Zx.
      - intros i d Hi. rewrite AN by (auto; now apply nth_Some_lt in Hi). apply (with_spread_call DS DC); auto.
      - rewrite AN by auto. apply (with_spread_call DS DC); auto. }
    assert (DEP : forall m xs zs, (m < length grid)%nat -> length xs = length grid -> length zs = length grid ->
      (forall k, (k <= m)%nat -> nth_error xs k = nth_error zs k) -> FF xs m = FF zs m).
    { intros m xs zs Lm LX LZ EN. unfold FF, FZ, zforward.
      assert (Q : forall k, (k <= m)%nat -> nth k (added ys xs) 0 = nth k (added ys zs) 0).
      { intros k Lk. rewrite !AN by (auto; lia). f_equal. specialize (EN k Lk).
        rewrite (nth_error_nth' xs 0), (nth_error_nth' zs 0) in EN by lia. congruence. }
      rewrite (Q m), (Q (pred m)) by lia. reflexivity. }
    split; [now apply fquotes_one_each|]. split; [now apply (fquotes_local DS tm grid og kf kd df pc pt h ps rates nss FF INC KD LP LR LN FL)|].
    split; [now apply (fquotes_priced DS tm DC L grid og v kf kd disc df pc pt (S (S (S n))) flr h c ps rates nss FF)|]. split; [exact FZW|exact FW].
  Qed.

  (** A ZeroRateCurve, in contrast, can be fitted as forward curve to floating lists whose
      periods are its tenor: the curve rebuilt from the data gives every list its target up to
      twice the precision, the first one up to the precision *)
  Theorem C127_forward_curve : forall count tau grid ys orig o og v tenor c kf kd disc df pc pt n flr h ps rates nss grid0 targets precision a b data h',
    additive (dc_apply count) tau -> monotone tau -> dc_kwarg count = count ->
    grid <> [] -> increasing (map tm grid) -> dom_origin orig grid = Some o ->
    (forall d, In d grid -> tm og < tm d) -> (forall d, In d grid -> tm v <= tm d) -> length ys = length grid ->
    rc_new CZeroRate grid ys None orig count tenor = Ok c -> nth_error (h_curves h) kf = Some c ->
    (forall m s e, nth_error (og :: grid) m = Some s -> nth_error grid m = Some e -> exists e', d_add s (rc_tenor c) = Ok e' /\ d_eqb e' e = true) ->
    kd <> kf -> nth_error (h_curves h) kd = Some disc -> (forall d, In d grid -> get_discount_factor (S (S (S n))) disc v d = Ok (df d)) ->
    (forall a b, pay_count pc a b = Ok (pt a b)) ->
    length ps = length grid -> length rates = length grid -> length nss = length grid ->
    (forall j p rate ns, nth_error ps j = Some p -> nth_error rates j = Some rate -> nth_error nss j = Some ns ->
       floater h kf grid og pc p rate ns /\ length ns = S j) ->
    match grid0 with Some g => g | None => grid end = grid ->
    get_curve_fit (S (S (S n))) flr ps kd (Some v) (Some kf) grid0 targets precision a b h = (Ok data, h') ->
    h' = h /\ length data = length grid /\ exists c', rc_new CZeroRate grid data None orig count tenor = Ok c' /\
      forall j p t, nth_error ps j = Some p -> nth_error (spread_arg targets (length ps)) j = Some t ->
        exists w, returns (get_present_value (S (S (S n))) flr p kd (Some v)) (with_curve h kf c') w /\
          Rabs (w - t) < 2 * precision /\ (j = 0%nat -> Rabs (w - t) < precision).
  Proof.
    intros count tau grid ys orig o og v tenor c kf kd disc df pc pt n flr h ps rates nss grid0 targets prec a b data h'
      A MO KW NE INC OG AG AV LY HN HK TE KD HD DF PC LP LR LN FL EG H.
    pose proof (increasing_distinct _ INC) as ND.
    assert (AG' : forall d, In d grid -> tm og <= tm d) by (intros d Id; left; auto).
    destruct (built_curve (L:=L) count tau A MO grid ys orig o og NE INC OG AG' LY ys tenor LY) as (c1 & E & B & VC & V0 & _). rewrite HN in E. injection E as <-.
    destruct B as (B1 & B2 & B3 & B4 & B5 & B6 & B7 & B8 & B9 & B10).
    assert (PL : plain_cls (rc_cls c)) by (rewrite B1; exact I).
    assert (A' : additive (dc_apply (dc_kwarg (dc_count (rc_dc c)))) tau) by (rewrite B6, KW; exact A).
    assert (EG' : match grid0 with Some g => g | None => rc_domain c end = grid) by (now rewrite B2).
    set (FZ := zforward tau grid og o). set (FF := fun xs => FZ (added ys xs)). set (qs := fquotes grid og df pt rates nss FF).
    destruct (zero_quotes count tau grid ys orig o og v tenor c kf kd disc df pc pt n flr h ps rates nss
      A MO KW NE INC OG AG AV LY HN HK TE KD HD DF PC LP LR LN FL) as (ONE & LOC & PR & FZW & FW).
    fold FZ in FZW. change (one_each tm grid qs) in ONE. change (Forall (local tm grid) qs) in LOC.
    change (Forall2 (fun p q => last_payment h p (fst q) /\ priced (S (S (S n))) flr h kd (Some v) kf c grid p (snd q)) ps qs) in PR.
    destruct (C50_cumulative DS tm DC L tau (S (S (S n))) flr h c kf kd (Some v) (Some kf) grid0 grid targets ps qs prec a b data h'
      HK B8 PL A' NE ND eq_refl EG' PR LOC H) as (EH & _).
    destruct (C50_each DS tm DC L tau (S (S (S n))) flr h c kf kd (Some v) (Some kf) grid0 grid targets ps qs prec a b data h'
      HK B8 PL A' NE ND eq_refl EG' PR LOC ONE H) as (xs & s & LX & GR & LD & DA & PV).
    split; [exact EH|]. split; [exact LD|].
    assert (AD : added ys xs = data).
    { apply (nth_ext _ _ 0 0); [unfold added; rewrite map_length, combine_length; lia|]. intros i Li.
      unfold added in Li. rewrite map_length, combine_length in Li. rewrite added_nth by lia. symmetry.
      destruct (nth_lt_Some grid i) as (d & Hd); [lia|]. apply nth_error_nth. apply (DA i d); auto. apply nth_error_nth'. lia. }
    destruct (built_curve (L:=L) count tau A MO grid ys orig o og NE INC OG AG' LY data tenor LD) as (c' & E' & B' & V' & V0' & _).
    exists c'. split; [exact E'|]. intros j p t Hp Ht. destruct (PV j p t Hp Ht) as (w & RW & WE). exists w. split; [|exact WE].
    destruct B' as (D1 & D2 & D3 & D4 & D5 & D6 & D7 & D8 & D9 & D10).
    assert (Lj : (j < length grid)%nat) by (rewrite <- LP; now apply nth_Some_lt in Hp).
    destruct (FL j p (nth j rates 0) (nth j nss []) Hp) as [F1 F2]; [apply nth_error_nth'; lia..|].
    assert (R1 : returns (get_present_value (S (S (S n))) flr p kd (Some v)) (with_spread h kf c s)
      (value_on grid df (floats pt grid og (FZ data) (nth j rates 0) (nth j nss [])))).
    { rewrite <- AD. apply (floater_value DS tm DC L grid og v kf kd disc df pc pt _ flr h _ (mkR (rc_cls c) (rc_dc c) (rc_tenor0 c) (Some (inr s))) p _ _ (FF xs)); auto; try lia.
      - unfold with_spread. cbn [h_curves]. apply set_nth_nth. now apply nth_Some_lt in HK.
      - unfold with_spread. cbn [h_curves]. rewrite set_nth_other by auto. exact HD.
      - exact (FW xs s LX GR). }
    assert (R2 : returns (get_present_value (S (S (S n))) flr p kd (Some v)) (with_curve h kf c')
      (value_on grid df (floats pt grid og (FZ data) (nth j rates 0) (nth j nss [])))).
    { apply (floater_value DS tm DC L grid og v kf kd disc df pc pt _ flr h _ c' p _ _ (FZ data)); auto; try lia.
      - unfold with_curve. cbn [h_curves]. apply set_nth_nth. now apply nth_Some_lt in HK.
      - unfold with_curve. cbn [h_curves]. rewrite set_nth_other by auto. exact HD.
      - apply FZW; auto. unfold rc_tenor. now rewrite D7, B7, D1, B1. }
    unfold returns in RW, R1. rewrite RW in R1. injection R1 as ->. exact R2.
  Qed.
End Forward.
Print Assumptions C127_forward_curve.

Lemma exp_near (x y hi : R) : hi < 1 -> x <= hi -> y <= hi -> Rabs (exp x - exp y) <= / (1 - hi) * Rabs (x - y).
Proof.
  intros H. assert (G : forall u w, u <= w -> w <= hi -> 0 <= exp w - exp u <= / (1 - hi) * (w - u)).
  { intros u w U W. assert (exp w <= / (1 - hi)).
    { replace w with (- - w) by ring. rewrite exp_Ropp. apply Rinv_le_contravar; [lra|]. pose proof (exp_ineq1_le (- w)). lra. }
    replace u with (w + (u - w)) by ring. rewrite exp_plus. pose proof (exp_ineq1_le (u - w)). pose proof (exp_pos w).
    assert (exp (u - w) <= 1).
    { apply (Rle_trans _ (exp 0)); [|right; apply exp_0]. destruct U as [U| ->]; [left; apply exp_increasing; lra|right; f_equal; ring]. }
    replace (w - (w + (u - w))) with (w - u) by ring. split; nra. }
  intros X Y. destruct (Rle_dec x y) as [XY|XY].
  - destruct (G x y XY Y). rewrite (Rabs_minus_sym (exp x)), (Rabs_minus_sym x), !Rabs_pos_eq by lra. lra.
  - destruct (G y x) as (G1 & G2); [lra|lra|]. rewrite !Rabs_pos_eq by lra. lra.
Qed.

Local Notation fl := (FloatDates (T:=R)).

(** two floating lists of notional 1000 discounted with zero rates of zero: the fit of a forward
    curve of zero rates returns, and the curve rebuilt gives them their targets *)
Example C127_floaters : let p := exp (1 / 100) in let q := exp (3 / 100) in
  exists (h : heap R R (fperiod R)) disc c data c',
  nth_error (h_curves h) 0 = Some disc /\ nth_error (h_curves h) 1 = Some c /\
  rc_new (DS := fl) (DC := no_counts) CZeroRate [1; 2] [0; 0] None (Some 0) DcDefault (Some (FP 1)) = Ok c /\
  floater (DS := fl) h 1 [1; 2] 0 DcDefault (PrList 0) 0 [1000] /\
  floater (DS := fl) h 1 [1; 2] 0 DcDefault (PrList 1) 0 [1000; 1000] /\
  get_curve_fit (DS := fl) (DC := no_counts) 23 None [PrList 0; PrList 1] 0 (Some 0) (Some 1%nat) None
      (Many [1000 * (p - 1); 1000 * (p - 1) + 1000 * (q - 1)]) (1 / 1000) (- (1 / 10)) (2 / 10) h = (Ok data, h) /\
  rc_new (DS := fl) (DC := no_counts) CZeroRate [1; 2] data None (Some 0) DcDefault (Some (FP 1)) = Ok c' /\
  exists w, returns (get_present_value (DS := fl) (DC := no_counts) 23 None (PrList 1) 0 (Some 0)) (with_curve h 1 c') w /\
    Rabs (w - (1000 * (p - 1) + 1000 * (q - 1))) < 2 / 1000.
Proof.
  cbv zeta. set (p := exp (1 / 100)). set (q := exp (3 / 100)).
  set (tau := fun a b : R => b - a).
  assert (A : additive (DS := fl) (dc_apply (DS := fl) (DC := no_counts) DcDefault) tau) by exact add_f.
  assert (INC : increasing (map (fun d : R => d) [1; 2])) by (cbn; repeat constructor; lra).
  assert (AF : forall d, In d [1; 2] -> 0 <= d) by (intros d [<-|[<-|[]]]; lra).
  assert (AG : forall d, In d [1; 2] -> 0 < d) by (intros d [<-|[<-|[]]]; lra).
  assert (OG : dom_origin (Some 0) [1; 2] = Some 0) by reflexivity.
  destruct (built_curve (L:=float_laws) (DC := no_counts) DcDefault tau A tau_f_monotone [1; 2] [0; 0] (Some 0) 0 0
    ne_f INC OG AF eq_refl [0; 0] None eq_refl) as (disc & HD & B & V & V0 & _).
  destruct (built_curve (L:=float_laws) (DC := no_counts) DcDefault tau A tau_f_monotone [1; 2] [0; 0] (Some 0) 0 0
    ne_f INC OG AF eq_refl [0; 0] (Some (FP 1)) eq_refl) as (c & HN & BC & VC & _ & WC).
  destruct BC as (C1 & C2 & C3 & C4 & C5 & C6 & C7 & C8 & C9 & C10).
  set (at_ := HForward (fun cs => match nth_error cs 1 with Some c => FwRate c | None => FwNone end) : hattr R R (fperiod R)).
  destruct (ratelist_new (DS := fl) (P := fperiod R) [1] (Many [1000]) (Some 0) DcDefault None None 0 (FwRate c)) as [l0|] eqn:E0; [|discriminate E0].
  destruct (ratelist_new (DS := fl) (P := fperiod R) [1; 2] (Many [1000; 1000]) (Some 0) DcDefault None None 0 (FwRate c)) as [l1|] eqn:E1; [|discriminate E1].
  set (h := mkH [disc; c] [] [mkHL l0 at_; mkHL l1 at_]).
  assert (F0 : floater (DS := fl) h 1 [1; 2] 0 DcDefault (PrList 0) 0 [1000]) by (exists 0%nat, l0, c; auto).
  assert (F1 : floater (DS := fl) h 1 [1; 2] 0 DcDefault (PrList 1) 0 [1000; 1000]) by (exists 1%nat, l1, c; auto).
  set (targets := Many [1000 * (p - 1); 1000 * (p - 1) + 1000 * (q - 1)]).
  assert (DF : forall d, In d [1; 2] -> get_discount_factor (DS := fl) (DC := no_counts) 23 disc 0 d = Ok 1).
  { destruct B as (B1 & B2 & B3 & B4 & B5 & B6 & B7 & B8 & B9 & B10). intros d Id.
    rewrite (curve_df (L:=float_laws) (DC := no_counts) tau [1; 2] [0; 0] 0 0 disc [0; 0] B1 B3 B10 B9); auto.
    - f_equal. unfold dfx, tau, zv. transitivity (exp 0); [f_equal|apply exp_0]. destruct (in_grid [1; 2] d Id) as (i & Hi & _).
      rewrite (zr_at (L:=float_laws) [1; 2] [0; 0] INC [0; 0] i d Hi). destruct i as [|[|i]]; cbn; [ring|ring|destruct i; discriminate].
    - rewrite V0. unfold zv. cbn [nth]. f_equal. ring.
    - intros x Ix. destruct (in_grid [1; 2] x Ix) as (i & Hi & _). rewrite (zr_at (L:=float_laws) [1; 2] [0; 0] INC [0; 0] i x Hi), (V i x Hi). f_equal.
      destruct i as [|[|i]]; cbn; [ring|ring|destruct i; discriminate]. }
  assert (TE : forall m s e, nth_error (0 :: [1; 2]) m = Some s -> nth_error [1; 2] m = Some e ->
    exists e', d_add (DateSys := fl) s (rc_tenor (DS := fl) c) = Ok e' /\ d_eqb (DateSys := fl) e' e = true).
  { intros m s e Hs He. unfold rc_tenor. rewrite C7. exists (s + 1). split; [reflexivity|].
    cbn [d_eqb FloatDates]. rn. unfold Reqb.
    destruct m as [|[|m]]; cbn in Hs, He; [| |destruct m; discriminate]; injection Hs as <-; injection He as <-; destruct (Req_EM_T _ _); auto; lra. }
  assert (FL : forall j p rate ns, nth_error [PrList 0; PrList 1] j = Some p -> nth_error [0; 0] j = Some rate -> nth_error [[1000]; [1000; 1000]] j = Some ns ->
       floater (DS := fl) h 1 [1; 2] 0 DcDefault p rate ns /\ length ns = S j).
  { intros [|[|j]] p0 rate ns Hp Hr Hn; [| |destruct j; discriminate]; injection Hp as <-; injection Hr as <-; injection Hn as <-; auto. }
  destruct (zero_quotes fl (fun d => d) no_counts float_laws DcDefault tau [1; 2] [0; 0] (Some 0) 0 0 0 (Some (FP 1)) c 1 0 disc (fun _ => 1)
    DcDefault tau 20 None h [PrList 0; PrList 1] [0; 0] [[1000]; [1000; 1000]]
    A tau_f_monotone eq_refl ne_f INC OG AG AF eq_refl HN eq_refl TE) as (ONE & LOC & PR & _ & _); auto; try reflexivity.
  set (FF := fun xs => zforward tau [1; 2] 0 0 (added [0; 0] xs)) in *. set (qs := fquotes [1; 2] 0 (fun _ => 1) tau [0; 0] [[1000]; [1000; 1000]] FF) in *.
  assert (TE1 : forall x0 x1, total_error (DS := fl) qs (spread_arg targets 2) [x0; x1] 1 = 1000 * (exp x0 - p)).
  { intros x0 x1. rewrite (total_first (L:=float_laws) [1; 2] qs (spread_arg targets 2) [x0; x1] 1 _ (1000 * (p - 1)) ONE eq_refl (fquotes_at [1; 2] 0 (fun _ => 1) tau [0; 0] [[1000]; [1000; 1000]] FF 0 1 eq_refl) eq_refl).
    unfold fvalue, FF, zforward, added, value_on, floats, tau. cbn.
    replace ((0 + x0) * (1 - 0) - (0 + x0) * (0 - 0)) with x0 by ring. field. }
  assert (TE2 : forall x0 x1, total_error (DS := fl) qs (spread_arg targets 2) [x0; x1] 2 = 2000 * (exp x0 - p) + 1000 * (exp (2 * x1 - x0) - q)).
  { intros x0 x1. rewrite (total_step (L:=float_laws) [1; 2] qs (spread_arg targets 2) [x0; x1] 0 2 1 _ (1000 * (p - 1) + 1000 * (q - 1)) ONE eq_refl eq_refl (fquotes_at [1; 2] 0 (fun _ => 1) tau [0; 0] [[1000]; [1000; 1000]] FF 1 2 eq_refl) eq_refl).
    rewrite TE1. unfold fvalue, FF, zforward, added, value_on, floats, tau. cbn.
    replace ((0 + x0) * (1 - 0) - (0 + x0) * (0 - 0)) with x0 by ring. replace ((0 + x1) * (2 - 0) - (0 + x0) * (1 - 0)) with (2 * x1 - x0) by ring. field. }
  assert (PL : plain_cls (rc_cls c)) by (rewrite C1; exact I).
  assert (A' : additive (DS := fl) (dc_apply (DS := fl) (DC := no_counts) (dc_kwarg (dc_count (rc_dc c)))) tau) by (rewrite C6; exact A).
  destruct (zero_cast fl (fun d => d) no_counts float_laws DcDefault tau [1; 2] [0; 0] (Some 0) 0 0 (Some (FP 1)) c 21 None A tau_f_monotone eq_refl ne_f INC OG AF eq_refl HN) as (s0 & CA).
  assert (exists zs, mapM (rc_call (DS := fl) (DC := no_counts) c) [1; 2] = Ok zs) as (zs & MZ) by (apply mapM_total; intros; apply WC).
  assert (PB : 101 / 100 <= p <= 102 / 100).
  { unfold p. split; [pose proof (exp_ineq1_le (1 / 100)); lra|]. pose proof (exp_near (1 / 100) 0 (1 / 100) ltac:(lra) ltac:(lra) ltac:(lra)) as N.
    rewrite exp_0, (Rabs_pos_eq (1 / 100 - 0)) in N by lra. pose proof (Rle_abs (exp (1 / 100) - 1)). pose proof (Rle_abs (exp (3 / 100) - 1)). lra. }
  assert (QB : 103 / 100 <= q <= 104 / 100).
  { unfold q. split; [pose proof (exp_ineq1_le (3 / 100)); lra|]. pose proof (exp_near (3 / 100) 0 (3 / 100) ltac:(lra) ltac:(lra) ltac:(lra)) as N.
    rewrite exp_0, (Rabs_pos_eq (3 / 100 - 0)) in N by lra. pose proof (Rle_abs (exp (1 / 100) - 1)). pose proof (Rle_abs (exp (3 / 100) - 1)). lra. }
  destruct (C50_returns fl (fun d => d) no_counts float_laws tau 22 None h c 1 0 (Some 0) (Some 1%nat) None [1; 2] targets [PrList 0; PrList 1] qs (1 / 1000) (- (1 / 10)) (2 / 10) s0 zs 4000
    eq_refl C8 PL A' ne_f nd_f eq_refl C2 PR LOC CA MZ) as (data & RUN).
  { cbv zeta. intros i d xs Hi LX PREV. destruct xs as [|x0 [|x1 [|]]]; try discriminate LX.
    destruct i as [|[|i]]; cbn in Hi; [| |destruct i; discriminate]; injection Hi as <-; cbn [set_nth].
    - split.
      + left. rewrite !TE1. split.
        * assert (exp (- (1 / 10)) <= 1) by (apply (Rle_trans _ (exp 0)); [left; apply exp_increasing; lra|right; apply exp_0]). lra.
        * pose proof (exp_ineq1_le (2 / 10)). lra.
      + intros x y Ix Iy. rewrite !TE1. unfold inside in Ix, Iy. rewrite Rmin_left, Rmax_right in Ix, Iy by lra.
        replace (1000 * (exp x - p) - 1000 * (exp y - p)) with (1000 * (exp x - exp y)) by ring. rewrite Rabs_mult, (Rabs_pos_eq 1000) by lra.
        pose proof (exp_near x y (2 / 10) ltac:(lra) ltac:(lra) ltac:(lra)) as N. pose proof (Rabs_pos (x - y)). lra.
    - specialize (PREV 0%nat 1 ltac:(lia) eq_refl). rewrite TE1 in PREV. apply Rabs_def2 in PREV.
      assert (X0 : 0 < x0 < 3 / 100).
      { split; [apply exp_lt_inv; rewrite exp_0; lra|]. pose proof (exp_ineq1_le x0). lra. }
      split.
      + left. rewrite !TE2. split.
        * assert (exp (2 * - (1 / 10) - x0) <= 1) by (apply (Rle_trans _ (exp 0)); [left; apply exp_increasing; lra|right; apply exp_0]). lra.
        * pose proof (exp_ineq1_le (2 * (2 / 10) - x0)). lra.
      + intros x y Ix Iy. rewrite !TE2. unfold inside in Ix, Iy. rewrite Rmin_left, Rmax_right in Ix, Iy by lra.
        replace (2000 * (exp x0 - p) + 1000 * (exp (2 * x - x0) - q) - (2000 * (exp x0 - p) + 1000 * (exp (2 * y - x0) - q))) with (1000 * (exp (2 * x - x0) - exp (2 * y - x0))) by ring.
        rewrite Rabs_mult, (Rabs_pos_eq 1000) by lra.
        pose proof (exp_near (2 * x - x0) (2 * y - x0) (4 / 10) ltac:(lra) ltac:(lra) ltac:(lra)) as N.
        replace (2 * x - x0 - (2 * y - x0)) with (2 * (x - y)) in N by ring. rewrite Rabs_mult, (Rabs_pos_eq 2) in N by lra. pose proof (Rabs_pos (x - y)). lra. }
  { rewrite Rabs_pos_eq by lra. lra. }
  { rewrite Rabs_pos_eq by lra. lra. }
  destruct (C127_forward_curve fl (fun d => d) no_counts float_laws DcDefault tau [1; 2] [0; 0] (Some 0) 0 0 0 (Some (FP 1)) c 1 0 disc (fun _ => 1)
    DcDefault tau 20 None h [PrList 0; PrList 1] [0; 0] [[1000]; [1000; 1000]] None targets (1 / 1000) (- (1 / 10)) (2 / 10) data h
    A tau_f_monotone eq_refl ne_f INC OG AG AF eq_refl HN eq_refl TE) as (_ & LD & c' & HN' & PV); auto; try reflexivity.
  destruct (PV 1%nat (PrList 1) (1000 * (p - 1) + 1000 * (q - 1)) eq_refl eq_refl) as (w & RW & WE & _).
  exists h, disc, c, data, c'. repeat (split; [first [reflexivity|assumption]|]). exists w. split; [exact RW|]. lra.
Qed.
