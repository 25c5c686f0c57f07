(** Lemmas about short rate curves and hazard rate curves made of other curves. *)
From Coq Require Import Reals Lra Lia List Bool ZArith.
From Verif Require Import Num Py Spec SInterpolation SCurve SDates SRateCurve SCast LBase LCompounding MCompounding MInterpolation MDates
  MCurve MRateCurve LDates LFuel LCurve LDateCurve LInterpolation2 LRateCurve LRateCurve2 LRateCurve3 LRateCurve4 LCredit LCivil LCast LCast2.
Import ListNotations.
Open Scope R_scope.

Section Stored.
  Context {D P : Type} {DS : DateSys R D P} {tm : D -> R} {L : DateLaws DS tm} {DC : DayCounts R D}.
  Context (src : rcurve R D P) (o : D) (tau : D -> D -> R) (C : castable src o tau) (M : monotone tau).

  Lemma tau_le s a b : tm a <= tm b -> tau s a <= tau s b.
  Proof.
    intro H. pose proof (add_add _ _ (ca_time _ _ _ C) s a b) as Q. cut (0 <= tau a b); [lra|].
    destruct (Rle_lt_or_eq_dec _ _ H) as [W|W].
    - left. apply M. now apply ltb_t.
    - right. symmetry. apply (tau_eq (ca_time _ _ _ C)). now apply eqb_t.
  Qed.
  Lemma tau_le_inv s a b : tau s a <= tau s b -> tm a <= tm b.
  Proof.
    intro H. destruct (Rle_or_lt (tm a) (tm b)) as [W|W]; auto. exfalso.
    pose proof (add_add _ _ (ca_time _ _ _ C) s b a) as Q.
    assert (0 < tau b a) by (apply M; now apply ltb_t). lra.
  Qed.

  (** the values stored are held until the next date of the grid *)
  Lemma stored_left k fuel flr ds orig o' tenor c : k = CShortRate \/ k = CHazard -> NoDup (map tm ds) -> ds <> [] ->
    dom_origin (origin_or orig (dc_origin0 (rc_dc src))) ds = Some o' ->
    rc_cast_on fuel flr k ds src None orig DcDefault tenor = Ok c ->
    (forall p x, In p ds -> tm p <= tm x -> (forall d, In d ds -> tm d <= tm p \/ tm x < tm d) -> rc_call c x = rc_call c p) /\
    (forall f x, In f ds -> (forall d, In d ds -> tm f <= tm d) -> tm x <= tm f -> rc_call c x = rc_call c f).
  Proof.
    intros K ND NE HO H.
    assert (A : additive (dc_apply (dc_count (rc_dc src))) tau) by exact (ca_time _ _ _ C).
    unfold rc_cast_on in H. destruct (mapM (storage_value fuel flr k src) ds) as [ys|] eqn:EM; [|discriminate]. cbn [bind] in H.
    destruct (mapM (rc_call src) (rc_domain src)) as [rv|]; [|discriminate]. cbn [bind] in H.
    destruct (dc_new _ _ _ _ _ _) as [dc|] eqn:EN; [|discriminate]. cbn [bind] in H. inversion H; subst c. clear H.
    cbn [dc_or] in EN. rewrite (kwarg_count src o tau C) in EN.
    assert (HL : length ds = length ys) by (symmetry; now apply mapM_length in EM).
    apply (dstate_iff (L:=L) _ tau A _ _ _ _ _ o') in EN; auto.
    assert (CI : cls_interp k = SBase Kconstant) by (destruct K as [-> | ->]; reflexivity). rewrite CI in EN.
    assert (LT : length (map (tau o') ds) = length ys) by now rewrite map_length.
    assert (NT : NoDup (map (tau o') ds)) by now apply (times_nodup (L:=L) _ tau A).
    assert (NN : map (tau o') ds <> []) by (destruct ds; [congruence|discriminate]).
    assert (V : forall x, exists y, rc_call (mkR k dc tenor None) x = Ok y /\ left_value (times tau o' ds ys) (tau o' x) y).
    { intro x. destruct (constant_some (map (tau o') ds) ys (tau o' x) LT NT NN) as [f [y [Ef [Ey Q]]]].
      exists y. rewrite rc_call_plain. split; auto. apply dc_val_some.
      destruct (dstate_call (tm:=tm) _ tau A _ _ _ _ _ _ _ x EN) as [f' [Ef' ->]].
      unfold dc_spec, fn_new, resolve in Ef'. rewrite Ef in Ef'. cbn [rmap] in Ef'.
      inversion Ef'; subst f'. exact Ey. }
    assert (DT : distinct (times tau o' ds ys)) by (apply (times_distinct (L:=L) _ tau A); auto).
    assert (UQ : forall a y z, In (a, y) (times tau o' ds ys) -> In (a, z) (times tau o' ds ys) -> y = z).
    { intros a y z I1 I2. apply (LInterpolation.pairs_get_in _ _ _ DT) in I1. apply (LInterpolation.pairs_get_in _ _ _ DT) in I2. congruence. }
    assert (IN : forall a z, In (a, z) (times tau o' ds ys) -> exists x, In x ds /\ a = tau o' x).
    { intros a z I. unfold times in I. apply in_combine_l in I. apply in_map_iff in I. destruct I as [x [<- Ix]]. eauto. }
    assert (EX : forall x, In x ds -> exists y, In (tau o' x, y) (times tau o' ds ys)).
    { clear - HL. unfold times. revert ys HL. induction ds as [|a l IH]; intros [|y ys] HL x Ix; try discriminate HL; [destruct Ix|].
      destruct Ix as [->|Ix]; [exists y; left; reflexivity|]. assert (HL2 : length l = length ys) by (now inversion HL). destruct (IH ys HL2 x Ix) as [z Hz]. exists z. right. exact Hz. }
    split.
    - intros p x Ip Hp Hd.
      destruct (V x) as [y [-> Vx]], (V p) as [z [-> Vz]]. f_equal. destruct (EX p Ip) as [w Iw].
      assert (G : forall x0 y0, tm p <= tm x0 -> (forall d, In d ds -> tm d <= tm p \/ tm x0 < tm d) ->
               left_value (times tau o' ds ys) (tau o' x0) y0 -> y0 = w).
      { intros x0 y0 H1 H2 [[a [Ia [La Ga]]]|[Ga _]].
        - destruct (IN _ _ Ia) as [e [Ie ->]]. apply tau_le_inv in La. destruct (H2 e Ie) as [Q|Q]; [|lra].
          pose proof (Ga _ _ Iw (tau_le _ _ _ H1)) as Q'. apply (tau_le o') in Q.
          apply (UQ (tau o' p)); auto. replace (tau o' p) with (tau o' e) by lra. exact Ia.
        - specialize (Ga _ _ Iw). pose proof (tau_le o' _ _ H1). lra. }
      rewrite (G x y), (G p z); auto; [lra|]. intros d Id. destruct (Rle_or_lt (tm d) (tm p)); auto.
    - intros f x If Hf Hx.
      destruct (V x) as [y [-> Vx]], (V f) as [z [-> Vz]]. f_equal. destruct (EX f If) as [w Iw].
      assert (G : forall x0 y0, tm x0 <= tm f -> left_value (times tau o' ds ys) (tau o' x0) y0 -> y0 = w).
      { intros x0 y0 H1 [[a [Ia [La Ga]]]|[Ga [a [Ia Gb]]]].
        - destruct (IN _ _ Ia) as [e [Ie ->]]. apply tau_le_inv in La. specialize (Hf e Ie).
          apply (UQ (tau o' f)); auto.
          replace (tau o' f) with (tau o' e); auto. apply Rle_antisym; apply tau_le; lra.
        - destruct (IN _ _ Ia) as [e [Ie ->]]. specialize (Hf e Ie). specialize (Gb _ _ Iw). apply (tau_le o') in Hf.
          apply (UQ (tau o' f)); auto. replace (tau o' f) with (tau o' e) by lra. exact Ia. }
      rewrite (G x y), (G f z); auto; lra.
  Qed.
End Stored.

Section Neighbours.
  Context {D P : Type} {DS : DateSys R D P} {tm : D -> R} {L : DateLaws DS tm}.
  (** the dates of a grid around a date inside *)
  Lemma neighbours (l : list D) a b t : In a l -> In b l -> tm a <= tm t < tm b ->
    exists p q, In p l /\ In q l /\ tm p <= tm t < tm q /\ forall d, In d l -> tm d <= tm p \/ tm q <= tm d.
  Proof.
    intros Ia Ib [Ha Hb].
    destruct (d_max_ok (L:=L) (filter (fun d => d_leb d t) l)) as [p [_ [Ip Hp]]].
    { intro E. assert (I : In a (filter (fun d => d_leb d t) l)) by (apply filter_In; split; auto; now apply leb_t). rewrite E in I. destruct I. }
    destruct (d_min_ok (L:=L) (filter (fun d => d_ltb t d) l)) as [q [_ [Iq Hq]]].
    { intro E. assert (I : In b (filter (fun d => d_ltb t d) l)) by (apply filter_In; split; auto; now apply ltb_t). rewrite E in I. destruct I. }
    apply filter_In in Ip. destruct Ip as [Ip Lp]. apply leb_inv in Lp.
    apply filter_In in Iq. destruct Iq as [Iq Lq]. apply ltb_inv in Lq.
    exists p, q. split; auto. split; auto. split; [lra|]. intros d Id.
    destruct (Rle_or_lt (tm d) (tm t)) as [W|W].
    - left. apply Hp. apply filter_In. split; auto. now apply leb_t.
    - right. apply Hq. apply filter_In. split; auto. now apply ltb_t.
  Qed.
End Neighbours.

Section Kept.
  Context {D P : Type} {DS : DateSys R D P} {tm : D -> R} {L : DateLaws DS tm} {DC : DayCounts R D}.
  Context (c : rcurve R D P) (tau : D -> D -> R) (A : additive (rc_yf c) tau).

  (** a curve with the constant rate [(g q - g p) / tau p q] between neighbours of a grid [l] *)
  Lemma kept_factor (l : list D) (g : D -> R) : rc_cls c = CShortRate \/ rc_cls c = CHazard -> NoDup (map tm l) ->
    (forall p q x, In p l -> In q l -> tm p <= tm x < tm q -> (forall d, In d l -> tm d <= tm p \/ tm q <= tm d) ->
       rc_call c x = Ok ((g q - g p) / tau p q)) ->
    forall ds n b m, schedule (p_str Tday) ds n -> In (ds 0%nat) l -> In b l -> tm (ds n) = tm b ->
    (forall d, In d l -> tm (ds 0%nat) <= tm d <= tm b -> exists i, (i <= n)%nat /\ tm d = tm (ds i)) -> (n + 3 <= m)%nat ->
    factor m c (ds 0%nat) (ds n) = Ok (exp (- (g b - g (ds 0%nat)))).
  Proof.
    intros K ND V ds n b m Sc Ia Ib Eb AL Hm.
    assert (TM : forall i j, (i < j <= n)%nat -> tm (ds i) < tm (ds j)) by (apply (schedule_tm _ _ _ Sc)).
    set (v := fun i => value_of (rc_call c (ds i))).
    assert (NB : forall i, (i < n)%nat -> exists p q, In p l /\ In q l /\ tm p <= tm (ds i) < tm q /\ forall d, In d l -> tm d <= tm p \/ tm q <= tm d).
    { intros i Hi. apply (neighbours (L:=L) l (ds 0%nat) b); auto. rewrite <- Eb. split; [|apply TM; lia].
      destruct i; [lra|]. left. apply TM. lia. }
    assert (HV : forall i, (i < n)%nat -> has_value c (ds i) (v i)).
    { intros i Hi. unfold v. apply value_of_ok. destruct (NB i Hi) as (p & q & Ip & Iq & Hpq & Hd). rewrite (V p q (ds i)); eauto. }
    pose proof (daily_factor (L:=L) c tau A m n ds v 0 n K Sc HV ltac:(lia) Hm) as DF. cbn [Nat.add] in DF. rewrite DF.
    do 3 f_equal. clear DF.
    assert (TN : forall a b', tm a < tm b' -> tau a b' <> 0) by (intros a b' W; apply (tau_ne c tau A), eqb_f; lra).
    assert (INV : forall j, (j < n)%nat -> forall p q, In p l -> In q l -> tm p <= tm (ds j) < tm q -> (forall d, In d l -> tm d <= tm p \/ tm q <= tm d) ->
       sum_n (fun i => v i * tau (ds i) (ds (S i))) j = g p - g (ds 0%nat) + (g q - g p) / tau p q * tau p (ds j)).
    { induction j; intros Hj p q Ip Iq [Hp Hq] Hd.
      - assert (p = ds 0%nat) as ->.
        { apply (unique_date (tm:=tm) l); auto. destruct (Hd _ Ia); lra. }
        rewrite (tau_eq A (ds 0%nat) (ds 0%nat)) by apply eqb_refl. unfold sum_n. cbn. ring.
      - rewrite sum_n_last. destruct (NB j ltac:(lia)) as (p' & q' & Ip' & Iq' & Hpq' & Hd').
        rewrite (IHj ltac:(lia) p' q'); auto. unfold v. rewrite (V p' q' (ds j)); auto. cbn [value_of].
        pose proof (TM j (S j) ltac:(lia)) as LT.
        destruct (Rle_or_lt (tm q') (tm (ds (S j)))) as [W|W].
        + (* the next neighbour is reached *)
          assert (tm q' = tm (ds (S j))) as EQ.
          { destruct (AL q' Iq') as [i [Hi Ei]].
            { split; [|rewrite <- Eb; destruct (Rle_lt_or_eq_dec _ _ W); [|];
                       pose proof (TM (S j) n); destruct (Nat.eq_dec (S j) n); [subst n|specialize (H ltac:(lia))|subst n|specialize (H ltac:(lia))]; lra].
              destruct j; [lra|]. pose proof (TM 0%nat (S j) ltac:(lia)). lra. }
            destruct (Nat.lt_trichotomy i (S j)) as [Q|[Q|Q]]; [|congruence|].
            - exfalso. destruct (Nat.eq_dec i j) as [->|Q']; [lra|]. pose proof (TM i j ltac:(lia)). lra.
            - exfalso. pose proof (TM (S j) i ltac:(lia)). lra. }
          assert (p = q') as ->.
          { apply (unique_date (tm:=tm) l); auto. destruct (Hd q' Iq'); [|lra]. destruct (Hd' p Ip); lra. }
          rewrite (tau_eq A q' (ds (S j))) by (now apply eqb_t). rewrite Rmult_0_r.
          replace (tau p' q') with (tau p' (ds j) + tau (ds j) (ds (S j))).
          2:{ rewrite (add_add _ _ A p' (ds j) (ds (S j))).
              pose proof (add_add _ _ A p' (ds (S j)) q') as Q. rewrite (tau_eq A (ds (S j)) q') in Q by (apply eqb_t; lra). lra. }
          assert (NZ : tau p' (ds j) + tau (ds j) (ds (S j)) <> 0).
          { rewrite (add_add _ _ A p' (ds j) (ds (S j))). apply TN. lra. }
          field. exact NZ.
        + assert (p = p') as -> by (apply (unique_date (tm:=tm) l); auto; destruct (Hd p' Ip'), (Hd' p Ip); lra).
          assert (q = q') as -> by (apply (unique_date (tm:=tm) l); auto; destruct (Hd q' Iq'), (Hd' q Iq); lra).
          rewrite <- (add_add _ _ A p' (ds j) (ds (S j))). ring. }
    destruct n as [|n'].
    - assert (b = ds 0%nat) as -> by (apply (unique_date (tm:=tm) l); auto). unfold sum_n. cbn. ring.
    - rewrite sum_n_last. destruct (NB n' ltac:(lia)) as (p & q & Ip & Iq & [Hp Hq] & Hd).
      rewrite (INV n' ltac:(lia) p q); auto. unfold v. rewrite (V p q (ds n')); auto. cbn [value_of].
      pose proof (TM n' (S n') ltac:(lia)) as LT.
      assert (q = b) as ->.
      { apply (unique_date (tm:=tm) l); auto. destruct (Hd b Ib) as [W|W]; [lra|]. destruct (AL q Iq) as [i [Hi Ei]].
        { split; [|auto]. destruct n'; [lra|]. pose proof (TM 0%nat (S n') ltac:(lia)). lra. }
        destruct (Nat.eq_dec i (S n')) as [->|Q]; [lra|]. exfalso.
        destruct (Nat.eq_dec i n') as [->|Q']; [lra|]. pose proof (TM i n' ltac:(lia)). lra. }
      replace (tau p b) with (tau p (ds n') + tau (ds n') (ds (S n'))).
      2:{ rewrite (add_add _ _ A p (ds n') (ds (S n'))).
          pose proof (add_add _ _ A p (ds (S n')) b) as Q. rewrite (tau_eq A (ds (S n')) b) in Q by (now apply eqb_t). lra. }
      assert (NZ : tau p (ds n') + tau (ds n') (ds (S n')) <> 0).
      { rewrite (add_add _ _ A p (ds n') (ds (S n'))). apply TN. lra. }
      field. exact NZ.
  Qed.
End Kept.

Section CastKept.
  Context {D P : Type} {DS : DateSys R D P} {tm : D -> R} {L : DateLaws DS tm} {DC : DayCounts R D}.
  Context (src : rcurve R D P) (o : D) (tau : D -> D -> R) (C : castable src o tau) (M : monotone tau).

  Lemma stored_value k fuel flr ds o' tenor c : k = CShortRate \/ k = CHazard -> NoDup (map tm ds) -> ds <> [] ->
    dom_origin (dc_origin0 (rc_dc src)) ds = Some o' ->
    rc_cast_on fuel flr k ds src None None DcDefault tenor = Ok c ->
    built (dc_count (rc_dc src)) tau k ds (dc_origin0 (rc_dc src)) o' tenor c /\
    (forall x, In x ds -> rc_call c x = storage_value fuel flr k src x) /\
    (forall x, In x ds -> exists y, storage_value fuel flr k src x = Ok y).
  Proof.
    intros K ND NE HO H.
    assert (S : forall x, In x ds -> exists y, storage_value fuel flr k src x = Ok y).
    { unfold rc_cast_on in H. destruct (mapM (storage_value fuel flr k src) ds) as [ys|] eqn:EM; [|discriminate].
      apply (mapM_each _ _ _ EM). }
    destruct (stored_on (L:=L) src o tau C k fuel flr ds None o' tenor) as [c' [E [B V]]]; auto.
    { destruct K as [-> | ->]; unfold prob_cls; intuition discriminate. }
    { intros x Ix. destruct (S x Ix) as [y Ey]. exists y. split; auto. destruct K as [-> | ->]; unfold marginal_cls; intuition discriminate. }
    rewrite H in E. inversion E; subst c'. auto.
  Qed.

  (** factors between dates of the grid of [src] are kept, and [g] is any logarithm of them *)
  Lemma cast_kept k fuel flr ds o' tenor c (f : D -> R) n0 : k = CShortRate \/ k = CHazard ->
    ~ own_rate (rc_cls src) -> (forall x, storage_value fuel flr k src x = short_rate fuel src x) ->
    NoDup (map tm (rc_domain src)) -> NoDup (map tm ds) -> (forall x, In x (rc_domain src) -> In x ds) ->
    (forall d, In d ds -> In d (rc_domain src) \/ forall x, In x (rc_domain src) -> tm x < tm d) ->
    dom_origin (dc_origin0 (rc_dc src)) ds = Some o' ->
    rc_cast_on fuel flr k ds src None None DcDefault tenor = Ok c -> (n0 + 2 <= fuel)%nat ->
    (forall x, In x (rc_domain src) -> 0 < f x) ->
    (forall x y, In x (rc_domain src) -> In y (rc_domain src) -> tm x < tm y -> factor n0 src x y = Ok (f y / f x)) ->
    forall es n b m, schedule (p_str Tday) es n -> In (es 0%nat) (rc_domain src) -> In b (rc_domain src) -> tm (es n) = tm b ->
    (forall d, In d (rc_domain src) -> tm (es 0%nat) <= tm d <= tm b -> exists i, (i <= n)%nat /\ tm d = tm (es i)) -> (n + 3 <= m)%nat ->
    factor m c (es 0%nat) b = Ok (f b / f (es 0%nat)).
  Proof.
    intros K NO SV NDs ND SUB SUP HO H Hf PF HF es n b m Sc Ia Ib Eb AL Hm.
    assert (NE : ds <> []) by (intro E; specialize (SUB _ Ia); rewrite E in SUB; destruct SUB).
    destruct (stored_value k fuel flr ds o' tenor c K ND NE HO H) as [B [V _]].
    destruct (stored_left (L:=L) src o tau C M k fuel flr ds None o' tenor c K ND NE HO H) as [HLD _].
    destruct B as [B1 [B2 [B3 [B4 [B5 [B6 [B7 [B8 [B9 B10]]]]]]]]].
    rewrite <- (factor_end (L:=L) c tau B10 B9 (es n) b) by (now apply eqb_t).
    rewrite (kept_factor (L:=L) c tau B10 (rc_domain src) (fun x => - ln (f x))) with (b := b); auto.
    - f_equal. replace (- (- ln (f b) - - ln (f (es 0%nat)))) with (ln (f b) - ln (f (es 0%nat))) by ring.
      unfold Rminus. rewrite exp_plus, exp_Ropp, !exp_ln by auto. reflexivity.
    - rewrite B1. exact K.
    - intros p q x Ip Iq Hx Hd. rewrite (HLD p x); auto; [|lra|].
      + rewrite V, SV by auto. destruct fuel as [|fuel]; [lia|].
        rewrite (short_between (L:=L) src fuel p p q); auto; [|lra|lra].
        rewrite (rate_of_factor src tau (ca_time _ _ _ C) n0 fuel p q (f q / f p)); auto; try lia.
        * do 2 f_equal. unfold Rdiv at 1. rewrite ln_mult, ln_Rinv by (auto using Rinv_0_lt_compat). ring.
        * apply eqb_f. lra.
        * apply HF; auto; lra.
        * apply Rdiv_lt_0_compat; auto.
      + intros d Id. destruct (SUP d Id) as [J|J]; [destruct (Hd d J); auto; right; lra|]. right. specialize (J q Iq). lra.
  Qed.
End CastKept.
