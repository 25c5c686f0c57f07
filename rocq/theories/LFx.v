(** Lemmas about the fx container. *)
From Coq Require Import Reals Lra Lia List Arith Bool Sorted.
From Verif Require Import Num Py Spec SInterpolation SCurve SDates LBase LSort MInterpolation
  LInterpolation LInterpolation2 MDates MCurve LDates LCurve LCurve2 LDateCurve MRateCurve MFx SFx.
Import ListNotations.
Open Scope R_scope.

Ltac ifs := repeat match goal with |- context [if ?x then _ else _] => destruct x end.

Lemma pair_eqb_iff p q : pair_eqb p q = true <-> p = q.
Proof.
  destruct p as [a b], q as [c d]. unfold pair_eqb. simpl. rewrite andb_true_iff, !Nat.eqb_eq.
  split; [intros [-> ->]; auto | intro H; inversion H; auto].
Qed.
Lemma pair_eqb_false p q : pair_eqb p q = false <-> p <> q.
Proof. rewrite <- not_true_iff_false, pair_eqb_iff. tauto. Qed.
Lemma pair_eqb_refl p : pair_eqb p p = true. Proof. now apply pair_eqb_iff. Qed.

Lemma assoc_set_pair {V} (m : list ((ccy * ccy) * V)) k v q :
  assoc pair_eqb q (assoc_set pair_eqb k v m) = if pair_eqb k q then Some v else assoc pair_eqb q m.
Proof.
  induction m as [|[k' v'] m IH]; simpl; auto.
  destruct (pair_eqb k' k) eqn:E; simpl.
  - apply pair_eqb_iff in E; subst. now destruct (pair_eqb k q).
  - rewrite IH. destruct (pair_eqb k' q) eqn:F; auto. apply pair_eqb_iff in F; subst.
    destruct (pair_eqb k q) eqn:G; auto. apply pair_eqb_iff in G; subst. now rewrite pair_eqb_refl in E.
Qed.
Lemma assoc_key {V} (m : list ((ccy * ccy) * V)) q : In q (map fst m) <-> exists v, assoc pair_eqb q m = Some v.
Proof.
  induction m as [|[k v] m IH]; simpl.
  - split; [tauto | intros [v H]; discriminate].
  - destruct (pair_eqb k q) eqn:E.
    + apply pair_eqb_iff in E; subst. split; eauto.
    + apply pair_eqb_false in E. rewrite IH. split; [intros [H|H]; [contradiction|auto] | auto].
Qed.

Section Fx.
  Context {D P : Type} {DS : DateSys R D P} {DC : DayCounts R D} {tm : D -> R} {L : DateLaws DS tm}.
  Context (tau : D -> D -> R) (A : additive (dc_apply DcDefault) tau).
  Context (o : D) (fcd : fcurve R D).
  Notation rcu := (rcurve R D P).

  Definition spot_fc (s : R) : fcurve R D :=
    match fc_new [o] [s] None None DcDefault (YFloat 0) with Ok f => f | Err _ => fcd end.

  Lemma spot_fc_ok s : 0 < s -> fc_new [o] [s] None None DcDefault (YFloat 0) = Ok (spot_fc s) /\
    dc_domain (fc_dc (spot_fc s)) = [o] /\ fc_price (spot_fc s) o = Ok s.
  Proof.
    intro Hs. destruct (forward_ok DcDefault tau A [] o [] s None o (YFloat 0)) as [c [E [S [B _]]]]; auto.
    { simpl. constructor; [simpl; tauto | constructor]. }
    { simpl. intros y [<-|[]]; auto. }
    simpl app in *. unfold spot_fc. rewrite E. split; auto.
    destruct (dstate_origin _ _ _ _ _ _ _ _ _ S) as [_ [_ [HD _]]]. cbn [fc_dc]. split; auto.
    apply B; [lra|]. eapply (dstate_data DcDefault tau A); eauto.
    - apply log_adm.
      + apply (times_distinct DcDefault tau A); simpl; auto. constructor; [simpl; tauto | constructor].
      + apply times_positive; simpl; auto. intros y [<-|[]]; auto.
    - simpl. auto.
  Qed.

  Lemma fx_price_o fuel s (d f : rcu) : 0 < s -> fx_price fuel (mkFx (spot_fc s) d f) o = Ok s.
  Proof.
    intro Hs. destruct (spot_fc_ok s Hs) as [_ [HD HP]]. unfold fx_price. cbn [fx_fc]. rewrite HD. cbn [last_res bind].
    rewrite (leb_t o o) by lra. auto.
  Qed.
  Lemma fx_price_after fuel s (d f : rcu) x : 0 < s -> tm o < tm x ->
    fx_price fuel (mkFx (spot_fc s) d f) x =
    (p <- get_discount_factor fuel d o x ;; q <- get_discount_factor fuel f o x ;;
     z <- ndiv s q ;; Ok (z * p)).
  Proof.
    intros Hs Hx. destruct (spot_fc_ok s Hs) as [_ [HD HP]]. unfold fx_price. cbn [fx_fc fx_dom fx_for]. rewrite HD. cbn [last_res bind].
    rewrite (leb_f x o) by lra. rewrite HP. reflexivity.
  Qed.

  Context (base : ccy) (dom : rcu) (HO : rc_origin dom = Some o).

  Lemma spot_curve_ok s d f : 0 < s -> fx_spot_curve dom s d f = Ok (mkFx (spot_fc s) d f).
  Proof. intro Hs. unfold fx_spot_curve. rewrite HO. unfold fx_new. change (@n0 R Rnum) with 0. destruct (spot_fc_ok s Hs) as [-> _]. reflexivity. Qed.

  Definition paired (known : list ccy) (a b : ccy) : Prop := In a known /\ In b known /\ (a = b -> a = base).

  Record inv (m : fxmap) (known : list ccy) (cv : ccy -> rcu) (S : ccy -> ccy -> R) : Prop := {
    inv_base : In base known;
    inv_pos : forall a b, 0 < S a b;
    inv_in : forall a b, paired known a b ->
      assoc pair_eqb (a, b) m = Some (mkFx (spot_fc (S a b)) (cv a) (if Nat.eqb b base then cv a else cv b));
    inv_out : forall a b, ~ paired known a b -> assoc pair_eqb (a, b) m = None }.

  Section Add.
    Context (fuel : nat) (f : ccy) (curve : rcu) (spot : R) (NB : f <> base) (SP : 0 < spot).
    Context (m : fxmap (T:=R) (D:=D) (P:=P)) (known : list ccy) (cv : ccy -> rcu) (S : ccy -> ccy -> R) (I : inv m known cv S).

    Definition m2 := assoc_set pair_eqb (f, base) (mkFx (spot_fc (1 / spot)) dom curve)
       (assoc_set pair_eqb (base, f) (mkFx (spot_fc spot) dom curve) m).

    Definition hit (l : list (ccy * ccy)) (a : ccy) : bool := negb (Nat.eqb a f) && existsb (pair_eqb (a, base)) l.
    Definition fresh (a : ccy) : bool := match assoc pair_eqb (a, f) m2 with None => true | _ => false end.

    Definition self_at (l : list (ccy * ccy)) (a b : ccy) : option (fxcurve R D P) :=
      if Nat.eqb b f && hit l a then option_map (set_for curve) (assoc pair_eqb (a, b) m2)
      else if Nat.eqb a f && hit l b then option_map (set_dom curve) (assoc pair_eqb (a, b) m2)
      else assoc pair_eqb (a, b) m2.
    Definition new_at (l : list (ccy * ccy)) (a b : ccy) : option (fxcurve R D P) :=
      if Nat.eqb b f && hit l a && fresh a then Some (mkFx (spot_fc (S a base * spot)) (cv a) curve)
      else if Nat.eqb a f && hit l b && fresh b then Some (mkFx (spot_fc (1 / (S b base * spot))) curve (cv b))
      else None.

    Lemma m2_base d : d <> f -> In d known -> assoc pair_eqb (d, base) m2 = Some (mkFx (spot_fc (S d base)) (cv d) (cv d)).
    Proof.
      intros N K. unfold m2. rewrite !assoc_set_pair.
      replace (pair_eqb (f, base) (d, base)) with false by (symmetry; apply pair_eqb_false; congruence).
      replace (pair_eqb (base, f) (d, base)) with false by (symmetry; apply pair_eqb_false; congruence).
      rewrite (inv_in _ _ _ _ I) by (repeat split; auto; apply (inv_base _ _ _ _ I)). now rewrite Nat.eqb_refl.
    Qed.
    Lemma m2_key a b : (exists e, assoc pair_eqb (a, b) m2 = Some e) <-> (a = base /\ b = f) \/ (a = f /\ b = base) \/ paired known a b.
    Proof.
      unfold m2. rewrite !assoc_set_pair.
      destruct (pair_eqb (f, base) (a, b)) eqn:E1.
      { apply pair_eqb_iff in E1. inversion E1; subst. split; eauto. }
      destruct (pair_eqb (base, f) (a, b)) eqn:E2.
      { apply pair_eqb_iff in E2. inversion E2; subst. split; eauto. }
      apply pair_eqb_false in E1, E2. split.
      - intros [e H]. right; right.
        destruct (in_dec Nat.eq_dec a known); [|rewrite (inv_out _ _ _ _ I) in H by (unfold paired; tauto); discriminate].
        destruct (in_dec Nat.eq_dec b known); [|rewrite (inv_out _ _ _ _ I) in H by (unfold paired; tauto); discriminate].
        repeat split; auto. intros ->. destruct (Nat.eq_dec b base); auto.
        rewrite (inv_out _ _ _ _ I) in H by (unfold paired; tauto). discriminate.
      - intros [[-> ->]|[[-> ->]|H]]; try congruence. rewrite (inv_in _ _ _ _ I) by auto. eauto.
    Qed.
    Lemma m2_some a b : (a = base /\ b = f) \/ (a = f /\ b = base) \/ paired known a b -> exists e, assoc pair_eqb (a, b) m2 = Some e.
    Proof. apply m2_key. Qed.
    Lemma m2_none a b : assoc pair_eqb (a, b) m2 = None -> assoc pair_eqb (b, a) m2 = None.
    Proof.
      intro H. destruct (assoc pair_eqb (b, a) m2) eqn:E; auto.
      assert (X : exists e, assoc pair_eqb (b, a) m2 = Some e) by eauto. apply m2_key in X.
      assert (Y : exists e, assoc pair_eqb (a, b) m2 = Some e).
      { apply m2_key. unfold paired in *. destruct X as [[-> ->]|[[-> ->]|[X1 [X2 X3]]]]; auto.
        right; right. repeat split; auto. intro; subst; auto. }
      destruct Y as [e Y]. congruence.
    Qed.

    Lemma hit_cons l k a : hit (l ++ [k]) a = hit l a || (negb (Nat.eqb a f) && pair_eqb (a, base) k).
    Proof. unfold hit. rewrite existsb_app. simpl. rewrite orb_false_r. destruct (Nat.eqb a f), (existsb _ l); auto. Qed.

    Definition st_ok (l : list (ccy * ccy)) (st : fxmap (T:=R) (D:=D) (P:=P) * fxmap (T:=R) (D:=D) (P:=P)) : Prop :=
      (forall a b, assoc pair_eqb (a, b) (fst st) = self_at l a b) /\
      (forall a b, assoc pair_eqb (a, b) (snd st) = new_at l a b).

    Lemma self_at_none l a b : self_at l a b = None <-> assoc pair_eqb (a, b) m2 = None.
    Proof.
      unfold self_at. destruct (assoc pair_eqb (a, b) m2); simpl; ifs; split; intro; try discriminate; auto.
    Qed.

    Lemma step_ok l st k : st_ok l st -> (exists e, assoc pair_eqb k m2 = Some e) ->
      exists st', add_step fuel base dom f curve spot st k = Ok st' /\ st_ok (l ++ [k]) st'.
    Proof.
      destruct st as [m' new]. intros [H1 H2] HK. cbn [fst snd] in *. destruct k as [d s]. unfold add_step.
      destruct (Nat.eqb s base && negb (Nat.eqb d f)) eqn:C.
      2:{ eexists. split; [reflexivity|].
          assert (HH : forall a, hit (l ++ [(d, s)]) a = hit l a).
          { intro a. rewrite hit_cons. destruct (negb (Nat.eqb a f)) eqn:Na; simpl; [|now rewrite orb_false_r].
            destruct (pair_eqb (a, base) (d, s)) eqn:E; [|now rewrite orb_false_r].
            apply pair_eqb_iff in E. inversion E; subst. rewrite Nat.eqb_refl, Na in C. discriminate. }
          split; intros a b; cbn [fst snd]; [rewrite H1; unfold self_at | rewrite H2; unfold new_at]; now rewrite !HH. }
      apply andb_true_iff in C. destruct C as [C1 C2]. apply Nat.eqb_eq in C1. subst s.
      apply negb_true_iff in C2. pose proof C2 as C2'. apply Nat.eqb_neq in C2.
      assert (KD : In d known).
      { apply m2_key in HK. destruct HK as [[-> Hs]|[[-> Hs]|[K _]]]; auto; [congruence|congruence]. }
      assert (E0 : self_at l d base = Some (mkFx (spot_fc (S d base)) (cv d) (cv d))).
      { unfold self_at. replace (Nat.eqb base f) with false by (symmetry; apply Nat.eqb_neq; auto).
        rewrite C2'. simpl. now apply m2_base. }
      unfold fx_get at 1. rewrite H1, E0. cbn [bind]. rewrite HO. cbn [bind].
      pose proof (inv_pos _ _ _ _ I d base) as PD.
      rewrite fx_price_o by auto. cbn [bind]. rn. cbn zeta.
      assert (PT : 0 < S d base * spot) by now apply Rmult_lt_0_compat.
      assert (PT' : 0 < 1 / (S d base * spot)) by (apply Rdiv_lt_0_compat; lra).
      assert (HH : forall a, hit (l ++ [(d, base)]) a = hit l a || Nat.eqb a d).
      { intro a. rewrite hit_cons. unfold pair_eqb. simpl. rewrite Nat.eqb_refl, andb_true_r.
        destruct (Nat.eqb a d) eqn:E; [|now rewrite andb_false_r].
        apply Nat.eqb_eq in E; subst. now rewrite C2'. }
      rewrite H1. destruct (self_at l d f) as [e|] eqn:E1.
      - unfold fx_modify at 1. unfold fx_get. rewrite H1, E1. cbn [bind].
        unfold fx_modify, fx_get. rewrite assoc_set_pair.
        replace (pair_eqb (d, f) (f, d)) with false by (symmetry; apply pair_eqb_false; congruence).
        rewrite H1. destruct (self_at l f d) as [e'|] eqn:E2.
        2:{ exfalso. apply self_at_none in E2. apply m2_none in E2. apply (self_at_none l) in E2. congruence. }
        cbn [bind]. rewrite Rdivp_ok by lra. cbn [bind]. eexists. split; [reflexivity|].
        assert (FD : fresh d = false).
        { unfold fresh. destruct (assoc pair_eqb (d, f) m2) eqn:X; auto. apply (self_at_none l) in X. congruence. }
        split; intros a b; cbn [fst snd].
        + rewrite !assoc_set_pair, H1. unfold self_at in *. rewrite !HH, C2' in *. rewrite Nat.eqb_refl in *.
          replace (Nat.eqb f d) with false in E1, E2 by (symmetry; apply Nat.eqb_neq; auto).
          simpl in E1, E2.
          destruct (pair_eqb (f, d) (a, b)) eqn:F1.
          { apply pair_eqb_iff in F1. injection F1 as <- <-. rewrite C2', !Nat.eqb_refl. simpl.
            rewrite orb_true_r. destruct (hit l d); destruct (assoc pair_eqb (f, d) m2); inversion E2; reflexivity. }
          destruct (pair_eqb (d, f) (a, b)) eqn:F2.
          { apply pair_eqb_iff in F2. injection F2 as <- <-. rewrite !Nat.eqb_refl. simpl.
            rewrite orb_true_r. destruct (hit l d); destruct (assoc pair_eqb (d, f) m2); inversion E1; reflexivity. }
          apply pair_eqb_false in F1, F2.
          destruct (Nat.eqb b f) eqn:G1.
          * apply Nat.eqb_eq in G1; subst b. assert (Nat.eqb a d = false) as -> by (apply Nat.eqb_neq; congruence).
            rewrite orb_false_r. destruct (hit l a); auto. destruct (Nat.eqb a f) eqn:G2; auto. simpl.
            assert (Nat.eqb f d = false) as -> by (apply Nat.eqb_neq; congruence). now rewrite orb_false_r.
          * simpl. destruct (Nat.eqb a f) eqn:G2; auto. simpl. apply Nat.eqb_eq in G2; subst a.
            assert (Nat.eqb b d = false) as -> by (apply Nat.eqb_neq; congruence). now rewrite orb_false_r.
        + rewrite H2. unfold new_at. rewrite !HH.
          assert (Z : forall x, (hit l x || Nat.eqb x d) && fresh x = hit l x && fresh x).
          { intro x. destruct (Nat.eqb x d) eqn:X; [|now rewrite orb_false_r].
            apply Nat.eqb_eq in X; subst. rewrite FD. now rewrite !andb_false_r. }
          rewrite <- !andb_assoc, !Z. reflexivity.
      - assert (X1 : assoc pair_eqb (d, f) m2 = None) by now apply (self_at_none l).
        assert (X2 : assoc pair_eqb (f, d) m2 = None) by now apply m2_none.
        assert (FD : fresh d = true) by (unfold fresh; now rewrite X1).
        cbn [fx_dom]. rewrite spot_curve_ok by auto. cbn [bind]. rewrite Rdivp_ok by lra. cbn [bind].
        rewrite spot_curve_ok by auto. cbn [bind]. eexists. split; [reflexivity|].
        split; intros a b; cbn [fst snd].
        + rewrite H1. unfold self_at. rewrite !HH.
          destruct (Nat.eqb b f) eqn:G1; simpl.
          * apply Nat.eqb_eq in G1; subst b. destruct (Nat.eqb a d) eqn:G2; [|rewrite orb_false_r].
            { apply Nat.eqb_eq in G2; subst a. rewrite X1. simpl. ifs; auto. }
            destruct (hit l a); auto. destruct (Nat.eqb a f) eqn:G3; auto. simpl.
            assert (Nat.eqb f d = false) as -> by (apply Nat.eqb_neq; congruence). now rewrite orb_false_r.
          * destruct (Nat.eqb a f) eqn:G3; auto. simpl. apply Nat.eqb_eq in G3; subst a.
            destruct (Nat.eqb b d) eqn:G2; [|now rewrite orb_false_r].
            apply Nat.eqb_eq in G2; subst b. rewrite X2. simpl. ifs; auto.
        + rewrite !assoc_set_pair, H2. unfold new_at. rewrite !HH.
          destruct (pair_eqb (f, d) (a, b)) eqn:F1.
          { apply pair_eqb_iff in F1. injection F1 as <- <-. rewrite C2', !Nat.eqb_refl. simpl.
            rewrite orb_true_r, FD. reflexivity. }
          destruct (pair_eqb (d, f) (a, b)) eqn:F2.
          { apply pair_eqb_iff in F2. injection F2 as <- <-. rewrite !Nat.eqb_refl. simpl.
            rewrite orb_true_r, FD. reflexivity. }
          apply pair_eqb_false in F1, F2.
          destruct (Nat.eqb b f) eqn:G1; simpl.
          * apply Nat.eqb_eq in G1; subst b. assert (Nat.eqb a d = false) as -> by (apply Nat.eqb_neq; congruence).
            rewrite orb_false_r. destruct (hit l a && fresh a); auto. destruct (Nat.eqb a f) eqn:G2; auto. simpl.
            assert (Nat.eqb f d = false) as -> by (apply Nat.eqb_neq; congruence). now rewrite orb_false_r.
          * destruct (Nat.eqb a f) eqn:G2; auto. simpl. apply Nat.eqb_eq in G2; subst a.
            assert (Nat.eqb b d = false) as -> by (apply Nat.eqb_neq; congruence). now rewrite orb_false_r.
    Qed.

    Lemma fold_ok ks : forall l st, st_ok l st -> (forall k, In k ks -> exists e, assoc pair_eqb k m2 = Some e) ->
      exists st', foldM (add_step fuel base dom f curve spot) st ks = Ok st' /\ st_ok (l ++ ks) st'.
    Proof.
      induction ks as [|k ks IH]; intros l st H HK; cbn [foldM].
      - exists st. rewrite app_nil_r. auto.
      - destruct (step_ok l st k H) as [st1 [E1 H1]]; [apply HK; simpl; auto|]. rewrite E1. cbn [bind].
        destruct (IH (l ++ [k]) st1 H1) as [st2 [E2 H2']]; [intros; apply HK; simpl; auto|].
        exists st2. rewrite <- app_assoc in H2'. auto.
    Qed.

    Lemma update_at (new : list ((ccy * ccy) * fxcurve R D P)) : forall (m' : fxmap) q,
      NoDup (map fst new) ->
      assoc pair_eqb q (fx_update m' new) = match assoc pair_eqb q new with Some e => Some e | None => assoc pair_eqb q m' end.
    Proof.
      induction new as [|[k e] new IH]; intros m' q ND; simpl; auto.
      inversion ND; subst. unfold fx_update in *. simpl. rewrite IH by auto. rewrite assoc_set_pair.
      destruct (pair_eqb k q) eqn:E; auto. apply pair_eqb_iff in E. subst.
      destruct (assoc pair_eqb q new) eqn:F; auto. exfalso. apply H1. apply assoc_key. eauto.
    Qed.
    (** the keys of [new] are distinct *)
    Lemma set_nodup {V} k (v : V) (l : list ((ccy * ccy) * V)) : NoDup (map fst l) -> NoDup (map fst (assoc_set pair_eqb k v l)).
    Proof.
      induction l as [|[k' v'] l IH]; simpl; intro ND.
      - repeat constructor. simpl; tauto.
      - inversion ND; subst. destruct (pair_eqb k' k) eqn:E; simpl; constructor; auto.
        intro X. apply assoc_key in X. destruct X as [w X]. rewrite assoc_set_pair in X.
        destruct (pair_eqb k k') eqn:F.
        + apply pair_eqb_iff in F; subst. now rewrite pair_eqb_refl in E.
        + apply H1. apply assoc_key. eauto.
    Qed.
    Lemma fold_nodup ks : forall st st', foldM (add_step fuel base dom f curve spot) st ks = Ok st' ->
      NoDup (map fst (snd st)) -> NoDup (map fst (snd st')).
    Proof.
      induction ks as [|k ks IH]; intros st st' H ND; cbn [foldM] in H.
      - inversion H; subst; auto.
      - destruct (add_step fuel base dom f curve spot st k) as [st1|] eqn:E; [|discriminate]. cbn [bind] in H.
        apply (IH st1 st' H). destruct st as [m' new], k as [d s]. unfold add_step in E. cbn [snd] in ND.
        destruct (_ && _); [|inversion E; auto].
        destruct (fx_get m' (d, s)); [|discriminate]. cbn [bind] in E.
        rewrite HO in E. cbn [bind] in E. destruct (fx_price _ _ _); [|discriminate]. cbn [bind] in E. cbv zeta in E.
        destruct (assoc pair_eqb (d, f) m').
        + destruct (fx_modify m' _ _); [|discriminate]. cbn [bind] in E.
          destruct (fx_modify _ _ _); [|discriminate]. cbn [bind] in E.
          destruct (ndiv _ _); [|discriminate]. inversion E; auto.
        + destruct (fx_spot_curve _ _ _ _); [|discriminate]. cbn [bind] in E.
          destruct (ndiv _ _); [|discriminate]. cbn [bind] in E.
          destruct (fx_spot_curve _ _ _ _); [|discriminate]. inversion E; cbn [snd].
          now apply set_nodup, set_nodup.
    Qed.

    Definition isnew : bool := negb (existsb (Nat.eqb f) known).
    Definition cv' (x : ccy) : rcu := if Nat.eqb x f then curve else cv x.
    Definition S' (a b : ccy) : R :=
      if Nat.eqb b f then (if Nat.eqb a base then spot else if isnew then S a base * spot else S a b)
      else if Nat.eqb a f then (if Nat.eqb b base then 1 / spot else if isnew then 1 / (S b base * spot) else S a b)
      else S a b.

    Lemma isnew_iff : isnew = true <-> ~ In f known.
    Proof.
      unfold isnew. rewrite negb_true_iff. rewrite <- not_true_iff_false, existsb_exists.
      split; intros H X; apply H; [exists f; split; auto; apply Nat.eqb_refl|].
      destruct X as [x [X1 X2]]. apply Nat.eqb_eq in X2. now subst.
    Qed.
    Lemma isnew_false : isnew = false <-> In f known.
    Proof. rewrite <- not_true_iff_false, isnew_iff. destruct (in_dec Nat.eq_dec f known); tauto. Qed.

    Lemma add_ok : cv base = dom -> exists c', fx_add fuel (mkFC base dom m) f curve spot = Ok c' /\
      fxc_cur c' = base /\ fxc_dom c' = dom /\ inv (fxc_map c') (f :: known) cv' S'.
    Proof.
      intro CB. unfold fx_add. cbn [fxc_dom fxc_cur fxc_map].
      rewrite spot_curve_ok by auto. cbn [bind]. rn. rewrite Rdivp_ok by lra. cbn [bind].
      rewrite spot_curve_ok by (apply Rdiv_lt_0_compat; lra). cbn [bind]. cbv zeta. fold m2.
      destruct (fold_ok (map fst m2) [] (m2, [])) as [st [E [H1 H2]]].
      { split; intros a b; cbn [fst snd].
        - unfold self_at, hit. simpl. now rewrite !andb_false_r.
        - unfold new_at, hit. simpl. now rewrite !andb_false_r. }
      { intros k K. now apply assoc_key. }
      rewrite E. cbn [bind]. eexists. split; [reflexivity|]. cbn [fxc_cur fxc_dom fxc_map]. do 2 (split; auto).
      assert (ND : NoDup (map fst (snd st))).
      { eapply fold_nodup; [exact E|]. constructor. }
      simpl app in *.
      assert (HIT : forall a, hit (map fst m2) a = true <-> a <> f /\ In a known).
      { intro a. unfold hit. rewrite andb_true_iff, negb_true_iff, Nat.eqb_neq, existsb_exists. split.
        - intros [N [x [X1 X2]]]. split; auto. apply pair_eqb_iff in X2; subst x. apply assoc_key in X1.
          apply m2_key in X1. destruct X1 as [[_ X]|[[X _]|[X _]]]; auto; congruence.
        - intros [N K]. split; auto. exists (a, base). split; [|apply pair_eqb_refl].
          apply assoc_key. rewrite m2_base; eauto. }
      assert (FR : forall a, a <> f -> In a known -> a <> base -> fresh a = isnew).
      { intros a N K NB'. unfold fresh. destruct (assoc pair_eqb (a, f) m2) eqn:X.
        - assert (Y : exists e, assoc pair_eqb (a, f) m2 = Some e) by eauto. apply m2_key in Y.
          symmetry. apply isnew_false. destruct Y as [[-> _]|[[-> _]|[_ [Y _]]]]; auto; congruence.
        - symmetry. apply isnew_iff. intro K'. destruct (m2_some a f) as [e Y].
          + right; right. repeat split; auto. intro; congruence.
          + congruence. }
      assert (FB : fresh base = false).
      { unfold fresh. destruct (m2_some base f) as [e ->]; auto. }
      pose proof (inv_base _ _ _ _ I) as KB.
      constructor.
      - simpl; auto.
      - intros a b. unfold S'. pose proof (inv_pos _ _ _ _ I) as PS.
        assert (0 < S a base * spot) by (apply Rmult_lt_0_compat; auto).
        assert (0 < 1 / (S b base * spot)) by (apply Rdiv_lt_0_compat; [lra | apply Rmult_lt_0_compat; auto]).
        assert (0 < 1 / spot) by (apply Rdiv_lt_0_compat; lra).
        repeat match goal with |- context [if ?x then _ else _] => destruct x end; auto.
      - intros a b [K1 [K2 K3]]. rewrite update_at by auto. rewrite H1, H2. unfold new_at, self_at.
        assert (Nat.eqb f base = false) as FB' by now apply Nat.eqb_neq.
        assert (Nat.eqb base f = false) as FB'' by (apply Nat.eqb_neq; auto).
        unfold S', cv'. destruct (Nat.eqb b f) eqn:Eb.
        + apply Nat.eqb_eq in Eb; subst b. rewrite FB'.
          assert (Na : a <> f) by (intro; subst; apply NB, K3; auto). pose proof Na as Na'. apply Nat.eqb_neq in Na'. rewrite Na'.
          assert (Ka : In a known) by (destruct K1; congruence).
          assert (Ht : hit (map fst m2) a = true) by (apply HIT; auto). rewrite Ht. simpl.
          destruct (Nat.eqb a base) eqn:Ea.
          * apply Nat.eqb_eq in Ea; subst a. rewrite FB. unfold m2. rewrite !assoc_set_pair, pair_eqb_refl.
            replace (pair_eqb (f, base) (base, f)) with false by (symmetry; apply pair_eqb_false; congruence).
            cbn [option_map]. unfold set_for. cbn [fx_fc fx_dom]. now rewrite CB.
          * pose proof Ea as Ea'. apply Nat.eqb_neq in Ea'. rewrite FR by auto.
            destruct isnew eqn:N; auto. apply isnew_false in N.
            unfold m2. rewrite !assoc_set_pair.
            replace (pair_eqb (f, base) (a, f)) with false by (symmetry; apply pair_eqb_false; congruence).
            replace (pair_eqb (base, f) (a, f)) with false by (symmetry; apply pair_eqb_false; congruence).
            rewrite (inv_in _ _ _ _ I) by (repeat split; auto; congruence). rewrite FB'.
            cbn [option_map]. reflexivity.
        + simpl. pose proof Eb as Eb'. apply Nat.eqb_neq in Eb'.
          assert (Kb : In b known) by (destruct K2; congruence).
          destruct (Nat.eqb a f) eqn:Ea.
          * apply Nat.eqb_eq in Ea; subst a.
            assert (Ht : hit (map fst m2) b = true) by (apply HIT; auto). rewrite Ht. simpl.
            destruct (Nat.eqb b base) eqn:Bb.
            { apply Nat.eqb_eq in Bb; subst b. rewrite FB. unfold m2. rewrite !assoc_set_pair, pair_eqb_refl. reflexivity. }
            pose proof Bb as Bb'. apply Nat.eqb_neq in Bb'. rewrite FR by auto.
            destruct isnew eqn:N; auto. apply isnew_false in N.
            unfold m2. rewrite !assoc_set_pair.
            replace (pair_eqb (f, base) (f, b)) with false by (symmetry; apply pair_eqb_false; congruence).
            replace (pair_eqb (base, f) (f, b)) with false by (symmetry; apply pair_eqb_false; congruence).
            rewrite (inv_in _ _ _ _ I) by (repeat split; auto; congruence). rewrite Bb.
            cbn [option_map]. reflexivity.
          * simpl. pose proof Ea as Ea'. apply Nat.eqb_neq in Ea'.
            assert (Ka : In a known) by (destruct K1; congruence).
            unfold m2. rewrite !assoc_set_pair.
            replace (pair_eqb (f, base) (a, b)) with false by (symmetry; apply pair_eqb_false; congruence).
            replace (pair_eqb (base, f) (a, b)) with false by (symmetry; apply pair_eqb_false; congruence).
            apply (inv_in _ _ _ _ I). repeat split; auto.
      - intros a b NP. rewrite update_at by auto. rewrite H1, H2. unfold new_at.
        assert (X : self_at (map fst m2) a b = None).
        { apply self_at_none. destruct (assoc pair_eqb (a, b) m2) eqn:X; auto. exfalso.
          assert (Y : exists e, assoc pair_eqb (a, b) m2 = Some e) by eauto. apply m2_key in Y.
          apply NP. unfold paired. simpl. destruct Y as [[-> ->]|[[-> ->]|[Y1 [Y2 Y3]]]]; repeat split; auto; intro; congruence. }
        rewrite X.
        destruct (Nat.eqb b f && hit (map fst m2) a) eqn:E1; simpl.
        { exfalso. apply andb_true_iff in E1. destruct E1 as [E1 E2]. apply HIT in E2. apply Nat.eqb_eq in E1. subst.
          apply NP. unfold paired. simpl. repeat split; auto; try tauto; intro; subst; tauto. }
        destruct (Nat.eqb a f && hit (map fst m2) b) eqn:E2; simpl; auto.
        exfalso. apply andb_true_iff in E2. destruct E2 as [E2 E3]. apply HIT in E3. apply Nat.eqb_eq in E2. subst.
        apply NP. unfold paired. simpl. repeat split; auto; try tauto. intro; subst; tauto.
    Qed.
  End Add.

  Lemma init_ok fuel : exists c', fx_container fuel base dom = Ok c' /\ fxc_cur c' = base /\ fxc_dom c' = dom /\
    inv (fxc_map c') [base] (fun _ => dom) (fun _ _ => 1).
  Proof.
    unfold fx_container, fx_add. cbn [fxc_dom fxc_cur fxc_map]. rn. rewrite spot_curve_ok by lra. cbn [bind].
    rewrite Rdivp_ok by lra. cbn [bind]. replace (1 / 1) with 1 by lra. rewrite spot_curve_ok by lra. cbn [bind assoc_set].
    rewrite pair_eqb_refl. cbn [map foldM fst]. unfold add_step. rewrite Nat.eqb_refl. cbn [negb andb bind snd].
    eexists. split; [reflexivity|]. cbn [fxc_cur fxc_dom fxc_map]. do 2 (split; auto). unfold fx_update. cbn [fold_left fst snd].
    constructor.
    - simpl; auto.
    - intros; lra.
    - intros a b [[<-|[]] [[<-|[]] _]]. cbn [assoc]. rewrite pair_eqb_refl. now rewrite Nat.eqb_refl.
    - intros a b N. cbn [assoc]. destruct (pair_eqb (base, base) (a, b)) eqn:E; auto.
      apply pair_eqb_iff in E. inversion E; subst. exfalso. apply N. unfold paired. simpl. auto.
  Qed.
End Fx.

Section History.
  Context {D P : Type} {DS : DateSys R D P} {DC : DayCounts R D} {tm : D -> R} {L : DateLaws DS tm}.
  Context (tau : D -> D -> R) (A : additive (dc_apply DcDefault) tau).
  Context (o : D) (fcd : fcurve R D) (base : ccy) (dom : rcurve R D P) (HO : rc_origin dom = Some o) (fuel : nat).

  Lemma foldM_app {X Y} (g : X -> Y -> res X) l1 : forall l2 a, foldM g a (l1 ++ l2) = (a' <- foldM g a l1 ;; foldM g a' l2).
  Proof. induction l1 as [|x l1 IH]; intros l2 a; simpl; auto. destruct (g a x); simpl; auto. Qed.

  Lemma quoted_app qs q c : quoted (qs ++ [q]) c = if Nat.eqb (q_cur q) c then Some q else quoted (D:=D) (P:=P) qs c.
  Proof.
    induction qs as [|p qs IH]; simpl; auto. rewrite IH. now destruct (Nat.eqb (q_cur q) c).
  Qed.
  Lemma quoted_none (qs : list (quote D P)) c : quoted qs c = None <-> ~ In c (map q_cur qs).
  Proof.
    induction qs as [|q qs IH]; simpl; [tauto|]. destruct (quoted qs c) eqn:E.
    - split; [discriminate|]. intro H. exfalso. apply H. right.
      destruct (in_dec Nat.eq_dec c (map q_cur qs)); auto. apply IH in n. discriminate.
    - destruct (Nat.eqb (q_cur q) c) eqn:F.
      + apply Nat.eqb_eq in F. split; [discriminate|tauto].
      + apply Nat.eqb_neq in F. tauto.
  Qed.

  Definition known_of (qs : list (quote D P)) : list ccy := rev (map q_cur qs) ++ [base].

  Lemma known_in qs c : In c (known_of qs) <-> In c (currencies base qs).
  Proof. unfold known_of, currencies. rewrite in_app_iff, <- in_rev. simpl. tauto. Qed.

  Lemma history_ok (qs : list (quote D P)) : (forall q, In q qs -> q_cur q <> base /\ 0 < q_spot q) ->
    exists c cv S, fx_history fuel base dom qs = Ok c /\ fxc_cur c = base /\ fxc_dom c = dom /\
      inv o fcd base (fxc_map c) (known_of qs) cv S /\
      (forall x, cv x = curve_of base dom qs x) /\
      (forall x, S base x = spot_of base qs x) /\
      (forall a b, a <> b -> S a b * S b a = 1) /\
      (NoDup (map q_cur qs) -> forall a b, paired base (currencies base qs) a b ->
         S a b = spot_of base qs b / spot_of base qs a).
  Proof.
    induction qs as [|q qs IH] using rev_ind; intro HQ.
    - destruct (init_ok tau A o fcd base dom HO fuel) as [c [E [H1 [H2 I]]]].
      exists c, (fun _ => dom), (fun _ _ => 1). unfold fx_history. rewrite E. cbn [bind foldM].
      repeat split; auto.
      + exact (inv_base _ _ _ _ _ _ _ I).
      + exact (inv_pos _ _ _ _ _ _ _ I).
      + exact (inv_in _ _ _ _ _ _ _ I).
      + exact (inv_out _ _ _ _ _ _ _ I).
      + intro x. unfold curve_of. simpl. now destruct (Nat.eqb x base).
      + intro x. unfold spot_of. simpl. now destruct (Nat.eqb x base).
      + intros; lra.
      + intros _ a b [[<-|[]] [[<-|[]] _]]. unfold spot_of. rewrite Nat.eqb_refl. lra.
    - destruct IH as [c [cv [S [E [H1 [H2 [I [HC [HB [HR HN]]]]]]]]]]; [intros; apply HQ, in_or_app; auto|].
      destruct (HQ q) as [NB SP]; [apply in_or_app; simpl; auto|].
      destruct c as [cc cd cm]. cbn [fxc_cur fxc_dom fxc_map] in *. subst cc cd.
      assert (CB : cv base = dom) by (rewrite HC; unfold curve_of; now rewrite Nat.eqb_refl).
      destruct (add_ok tau A o fcd base dom HO fuel (q_cur q) (q_curve q) (q_spot q) NB SP cm _ cv S I CB) as [c' [E' [H1' [H2' I']]]].
      exists c', (cv' (q_cur q) (q_curve q) cv), (S' base (q_cur q) (q_spot q) (known_of qs) S).
      assert (NB1 : Nat.eqb (q_cur q) base = false) by now apply Nat.eqb_neq.
      assert (NB2 : Nat.eqb base (q_cur q) = false) by (apply Nat.eqb_neq; auto).
      pose proof (inv_pos _ _ _ _ _ _ _ I) as PS.
      split; [|do 2 (split; auto)].
      { unfold fx_history in *. destruct (fx_container fuel base dom); [|discriminate]. cbn [bind] in *.
        rewrite foldM_app, E. cbn [bind foldM]. rewrite E'. reflexivity. }
      split.
      { unfold known_of. rewrite map_app, rev_app_distr. exact I'. }
      assert (SQ : forall x, spot_of base (qs ++ [q]) x = if Nat.eqb (q_cur q) x then q_spot q else spot_of base qs x).
      { intro x. unfold spot_of. rewrite quoted_app. destruct (Nat.eqb (q_cur q) x) eqn:X; auto.
        apply Nat.eqb_eq in X; subst x. now rewrite NB1. }
      split; [|split; [|split]].
      + intro x. unfold cv', curve_of. rewrite quoted_app. rewrite (Nat.eqb_sym x (q_cur q)).
        destruct (Nat.eqb (q_cur q) x) eqn:X.
        * apply Nat.eqb_eq in X; subst x. now rewrite NB1.
        * rewrite HC. unfold curve_of. reflexivity.
      + intro x. unfold S'. rewrite SQ, Nat.eqb_refl, NB2, (Nat.eqb_sym x (q_cur q)).
        destruct (Nat.eqb (q_cur q) x) eqn:X; auto.
      + intros a b AB. unfold S'. pose proof (PS a base). pose proof (PS b base).
        assert (0 < S a base * q_spot q) by now apply Rmult_lt_0_compat.
        assert (0 < S b base * q_spot q) by now apply Rmult_lt_0_compat.
        destruct (Nat.eqb b (q_cur q)) eqn:Eb, (Nat.eqb a (q_cur q)) eqn:Ea.
        * apply Nat.eqb_eq in Ea, Eb. congruence.
        * destruct (Nat.eqb a base); [field; lra|]. destruct (isnew _ _); [field; lra|auto].
        * destruct (Nat.eqb b base); [field; lra|]. destruct (isnew _ _); [field; lra|auto].
        * auto.
      + intros ND a b [K1 [K2 K3]]. rewrite map_app in ND. apply NoDup_remove in ND. rewrite app_nil_r in ND.
        destruct ND as [ND NI]. specialize (HN ND). simpl in NI.
        assert (NW : isnew (q_cur q) (known_of qs) = true).
        { eapply isnew_iff; eauto. rewrite known_in. simpl. intuition. }
        assert (KK : forall x, In x (currencies base (qs ++ [q])) -> x <> q_cur q -> In x (currencies base qs)).
        { intros x X NX. unfold currencies in *. rewrite map_app in X. simpl in *. destruct X as [X|X]; auto.
          apply in_app_iff in X. simpl in X. destruct X as [X|[X|[]]]; auto. congruence. }
        assert (SB : spot_of base qs base = 1) by (unfold spot_of; now rewrite Nat.eqb_refl).
        assert (PSB : forall x, In x (currencies base qs) -> x <> base -> S x base = 1 / spot_of base qs x).
        { intros x X NX. rewrite HN, SB; auto. repeat split; simpl; auto; congruence. }
        assert (PSP : forall x, 0 < spot_of base qs x) by (intro x; rewrite <- HB; auto).
        unfold S'. rewrite !SQ, NW, !(Nat.eqb_sym (q_cur q)).
        destruct (Nat.eqb b (q_cur q)) eqn:Eb, (Nat.eqb a (q_cur q)) eqn:Ea.
        * apply Nat.eqb_eq in Ea, Eb. exfalso. apply NB. subst. auto.
        * apply Nat.eqb_eq in Eb. apply Nat.eqb_neq in Ea. subst b. pose proof (PSP a).
          destruct (Nat.eqb a base) eqn:Ab.
          { apply Nat.eqb_eq in Ab; subst a. rewrite SB. lra. }
          apply Nat.eqb_neq in Ab. rewrite PSB by auto. field. lra.
        * apply Nat.eqb_eq in Ea. apply Nat.eqb_neq in Eb. subst a. pose proof (PSP b).
          destruct (Nat.eqb b base) eqn:Bb.
          { apply Nat.eqb_eq in Bb; subst b. rewrite SB. lra. }
          apply Nat.eqb_neq in Bb. rewrite PSB by auto. field. lra.
        * apply Nat.eqb_neq in Ea, Eb. apply HN. repeat split; auto.
  Qed.
End History.
