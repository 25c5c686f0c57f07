(** Properties C07 - C13: interpolation (dcf/interpolation.py). *)
From Coq Require Import Reals Lra Lia List Bool Sorted Permutation.
From Verif Require Import Num Py Spec SInterpolation LBase LSort MInterpolation LInterpolation
  LInterpolation2.
Import ListNotations.
Open Scope R_scope.

(** the classes constructed from (x_list, y_list) *)
Definition two_argument_classes : list ikind :=
  [Kdefault; Kno; Kzero; Kleft; Kconstant; Kright; Knearest; Klinear;
   Kloglinear; Kloglinearrate; Klogconstantrate].

(** * C07 *)
Theorem C07_reproduces_points : forall (k : ikind) (xs ys : list R),
  In k two_argument_classes ->
  length xs = length ys -> NoDup xs ->
  (is_log k = true -> forall y, In y ys -> 0 < y) ->
  exists f, interp_new k xs ys = Ok f /\
    forall x y, In (x, y) (combine xs ys) -> interp_call f x = Ok (Some y).
Proof. exact reproduces_points. Qed.
Print Assumptions C07_reproduces_points.

(** the given order of the points does not matter: the same object results *)
Theorem C07_order_independent : forall (k : ikind) (xs ys xs' ys' : list R),
  length xs = length ys -> length xs' = length ys' -> NoDup xs ->
  Permutation (combine xs ys) (combine xs' ys') ->
  interp_new k xs ys = interp_new k xs' ys'.
Proof. exact new_perm. Qed.
Print Assumptions C07_order_independent.

Example C07_example : exists f, interp_new Kloglinear [3; 1; 2] [5; 6; 7] = Ok f /\
    forall x y, In (x, y) (combine [3; 1; 2] [5; 6; 7]) -> interp_call f x = Ok (Some y).
Proof.
  apply C07_reproduces_points; [simpl; tauto | reflexivity | | ].
  - repeat constructor; simpl; intuition lra.
  - intros _ y H. simpl in H. intuition lra.
Qed.

(** * C08 *)
Theorem C08_left : forall (k : ikind) (xs ys : list R),
  k = Kleft \/ k = Kconstant -> length xs = length ys -> NoDup xs -> xs <> [] ->
  exists f, interp_new k xs ys = Ok f /\
    forall x y, interp_call f x = Ok (Some y) <-> left_value (combine xs ys) x y.
Proof. exact left_correct. Qed.
Print Assumptions C08_left.

Theorem C08_right : forall (xs ys : list R),
  length xs = length ys -> NoDup xs -> xs <> [] ->
  exists f, interp_new Kright xs ys = Ok f /\
    forall x y, interp_call f x = Ok (Some y) <-> right_value (combine xs ys) x y.
Proof. exact right_correct. Qed.
Print Assumptions C08_right.

Theorem C08_nearest : forall (xs ys : list R),
  length xs = length ys -> NoDup xs -> xs <> [] ->
  exists f, interp_new Knearest xs ys = Ok f /\
    forall x y, interp_call f x = Ok (Some y) <-> nearest_value (combine xs ys) x y.
Proof. exact nearest_correct. Qed.
Print Assumptions C08_nearest.

(** a value exists at every x: the calls above never raise *)
Theorem C08_total : forall (k : ikind) (xs ys : list R),
  In k [Kleft; Kconstant; Kright; Knearest; Klinear] ->
  length xs = length ys -> NoDup xs -> xs <> [] ->
  exists f, interp_new k xs ys = Ok f /\ forall x, exists y, interp_call f x = Ok (Some y).
Proof. exact total_calls. Qed.
Print Assumptions C08_total.

(** off the data points [zero] gives 0 and [no] gives None; on them the data *)
Theorem C08_zero_no : forall (xs ys : list R),
  length xs = length ys -> NoDup xs ->
  exists fz fn, interp_new Kzero xs ys = Ok fz /\ interp_new Kno xs ys = Ok fn /\
    (forall x, ~ In x xs -> interp_call fz x = Ok (Some 0) /\ interp_call fn x = Ok None) /\
    (forall x y, In (x, y) (combine xs ys) ->
        interp_call fz x = Ok (Some y) /\ interp_call fn x = Ok (Some y)).
Proof. exact zero_no_correct. Qed.
Print Assumptions C08_zero_no.

(** without data the evaluation raises OverflowError *)
Theorem C08_empty : forall (k : ikind) (x : R),
  In k [Kleft; Kconstant; Kright; Knearest; Klinear; Kloglinear] ->
  exists f, interp_new k [] [] = Ok f /\ interp_call f x = Err OverflowError.
Proof. exact empty_calls. Qed.
Print Assumptions C08_empty.

Example C08_example : exists f, interp_new Kleft [3; 1] [5; 6] = Ok f /\
  interp_call f 2 = Ok (Some 6) /\ interp_call f 4 = Ok (Some 5) /\ interp_call f 0 = Ok (Some 6).
Proof.
  destruct (C08_left Kleft [3; 1] [5; 6]) as [f [E H]]; auto.
  - repeat constructor; simpl; intuition lra.
  - discriminate.
  - exists f. split; auto. repeat split; apply H.
    + left. exists 1. simpl. split; [auto|]. split; [lra|].
      intros b z [I|[I|[]]]; inversion I; subst; lra.
    + left. exists 3. simpl. split; [auto|]. split; [lra|].
      intros b z [I|[I|[]]]; inversion I; subst; lra.
    + right. simpl. split.
      * intros b z [I|[I|[]]]; inversion I; subst; lra.
      * exists 1. split; [auto|]. intros b z [I|[I|[]]]; inversion I; subst; lra.
Qed.

(** * C09 *)
Theorem C09_linear : forall (xs ys : list R),
  length xs = length ys -> NoDup xs -> xs <> [] ->
  exists f, interp_new Klinear xs ys = Ok f /\
    forall x y, interp_call f x = Ok (Some y) <-> linear_value (combine xs ys) x y.
Proof. exact linear_correct. Qed.
Print Assumptions C09_linear.

(** between consecutive points: the chord, hence between the neighbouring values *)
Theorem C09_between : forall (xs ys : list R) a ya b yb x,
  length xs = length ys -> NoDup xs ->
  consecutive (combine xs ys) a ya b yb -> a <= x <= b ->
  exists f y, interp_new Klinear xs ys = Ok f /\ interp_call f x = Ok (Some y) /\
    y = ya + (yb - ya) * ((x - a) / (b - a)) /\ Rmin ya yb <= y <= Rmax ya yb.
Proof. exact linear_between. Qed.
Print Assumptions C09_between.

(** outside the data the first and the last chord are continued *)
Theorem C09_outside : forall (xs ys : list R) a ya b yb x,
  length xs = length ys -> NoDup xs ->
  consecutive (combine xs ys) a ya b yb ->
  (is_first (combine xs ys) a /\ x <= a) \/ (is_last (combine xs ys) b /\ b <= x) ->
  exists f y, interp_new Klinear xs ys = Ok f /\ interp_call f x = Ok (Some y) /\
    y = ya + (yb - ya) * ((x - a) / (b - a)).
Proof. exact linear_outside. Qed.
Print Assumptions C09_outside.

(** data on one line: the line, for every x *)
Theorem C09_affine : forall (xs ys : list R) u v x,
  length xs = length ys -> NoDup xs -> (2 <= length xs)%nat ->
  (forall a z, In (a, z) (combine xs ys) -> z = u * a + v) ->
  exists f, interp_new Klinear xs ys = Ok f /\ interp_call f x = Ok (Some (u * x + v)).
Proof. exact linear_affine. Qed.
Print Assumptions C09_affine.

Theorem C09_single : forall a v x : R,
  exists f, interp_new Klinear [a] [v] = Ok f /\ interp_call f x = Ok (Some v).
Proof. intros. eexists. split; reflexivity. Qed.
Print Assumptions C09_single.

Example C09_example : exists f, interp_new Klinear [3; 1; 2] [7; 3; 5] = Ok f /\
  interp_call f 10 = Ok (Some (2 * 10 + 1)).
Proof.
  apply C09_affine; [reflexivity| | simpl; lia |].
  - repeat constructor; simpl; intuition lra.
  - simpl. intros a z H. repeat destruct H as [H|H]; inversion H; lra.
Qed.

(** * C10 *)
Theorem C10_positive : forall (k : ikind) (xs ys : list R) f x y,
  is_log k = true -> interp_new k xs ys = Ok f -> interp_call f x = Ok (Some y) -> 0 < y.
Proof. exact log_positive. Qed.
Print Assumptions C10_positive.

Theorem C10_nonpositive_data : forall (k : ikind) (xs ys : list R),
  is_log k = true -> (exists y, In y ys /\ y <= 0) -> interp_new k xs ys = Err ValueError.
Proof. exact log_nonpositive'. Qed.
Print Assumptions C10_nonpositive_data.

(** loglinear is geometric between consecutive points *)
Theorem C10_loglinear_between : forall (xs ys : list R) a ya b yb x,
  length xs = length ys -> NoDup xs -> (forall y, In y ys -> 0 < y) ->
  consecutive (combine xs ys) a ya b yb -> a <= x <= b ->
  exists f, interp_new Kloglinear xs ys = Ok f /\
    interp_call f x =
    Ok (Some (Rpower ya (1 - (x - a) / (b - a)) * Rpower yb ((x - a) / (b - a)))).
Proof. exact loglinear_between. Qed.
Print Assumptions C10_loglinear_between.

(** loglinear interpolates the logarithms linearly, everywhere *)
Theorem C10_loglinear : forall (xs ys : list R),
  length xs = length ys -> NoDup xs -> xs <> [] -> (forall y, In y ys -> 0 < y) ->
  exists f, interp_new Kloglinear xs ys = Ok f /\
    forall x, exists l, linear_value (transform (fun _ y => ln y) (combine xs ys)) x l /\
                        interp_call f x = Ok (Some (exp l)).
Proof. exact loglinear_correct. Qed.
Print Assumptions C10_loglinear.

(** loglinearrate interpolates the continuous rates -ln(y)/x linearly *)
Theorem C10_loglinearrate : forall (xs ys : list R) x,
  length xs = length ys -> NoDup xs -> (forall y, In y ys -> 0 < y) ->
  x <> 0 -> (exists a, In a xs /\ a <> 0) ->
  exists f r, interp_new Kloglinearrate xs ys = Ok f /\
    linear_value (transform (fun a y => - ln y / a) (without_zero (combine xs ys))) x r /\
    interp_call f x = Ok (Some (exp (- r * x))).
Proof. exact loglinearrate_correct. Qed.
Print Assumptions C10_loglinearrate.

(** logconstantrate keeps the continuous rate of the point to the left *)
Theorem C10_logconstantrate : forall (xs ys : list R) x,
  length xs = length ys -> NoDup xs -> (forall y, In y ys -> 0 < y) ->
  x <> 0 -> (exists a, In a xs /\ a <> 0) ->
  exists f r, interp_new Klogconstantrate xs ys = Ok f /\
    left_value (transform (fun a y => - ln y / a) (without_zero (combine xs ys))) x r /\
    interp_call f x = Ok (Some (exp (- r * x))).
Proof. exact logconstantrate_correct. Qed.
Print Assumptions C10_logconstantrate.

(** exponential data are reproduced *)
Theorem C10_exponential : forall (k : ikind) (xs : list R) r x,
  k = Kloglinearrate \/ k = Klogconstantrate \/ (k = Kloglinear /\ (2 <= length xs)%nat) ->
  NoDup xs -> x <> 0 -> (exists a, In a xs /\ a <> 0) ->
  exists f, interp_new k xs (map (fun a => exp (- r * a)) xs) = Ok f /\
            interp_call f x = Ok (Some (exp (- r * x))).
Proof. exact log_exponential. Qed.
Print Assumptions C10_exponential.

(** at x = 0 the rate based classes know nothing but the data point at 0: no limit
    value 1 is used and None is returned *)
Theorem C10_rate_at_zero : forall (k : ikind) (xs ys : list R),
  is_rate k = true -> length xs = length ys -> NoDup xs -> (forall y, In y ys -> 0 < y) ->
  exists f, interp_new k xs ys = Ok f /\
    (forall y, In (0, y) (combine xs ys) -> interp_call f 0 = Ok (Some y)) /\
    (~ In 0 xs -> interp_call f 0 = Ok None).
Proof. exact rate_at_zero. Qed.
Print Assumptions C10_rate_at_zero.

Example C10_example : exists f,
  interp_new Kloglinearrate [2; 1] (map (fun a => exp (- (1/10) * a)) [2; 1]) = Ok f /\
  interp_call f 5 = Ok (Some (exp (- (1/10) * 5))).
Proof.
  apply C10_exponential; auto; try lra.
  - repeat constructor; simpl; intuition lra.
  - exists 1. simpl. split; auto; lra.
Qed.

(** * C11: histories of updates *)
(** an update call is well formed when it deletes, or gives one value per distinct key *)
Definition wf_update (u : list R * list R) : Prop :=
  snd u = [] \/ (length (fst u) = length (snd u) /\ NoDup (fst u)).

Theorem C11_update_history : forall (k : ikind) (us : list (list R * list R)) z d,
  Forall wf_update us ->
  let it := fold_left (fun it u => interp_update it (fst u) (snd u)) us (mkI k [] [] z d) in
  let m := fold_left dict_update us dict_empty in
  i_kind it = k /\ increasing (i_xs it) /\ length (i_xs it) = length (i_ys it) /\
  forall x y, In (x, y) (combine (i_xs it) (i_ys it)) <-> m x = Some y.
Proof. exact update_history. Qed.
Print Assumptions C11_update_history.

(** a repeated key inside a single call is kept twice *)
Theorem C11_duplicate_keys_refuted : exists (xs ys : list R),
  length xs = length ys /\ ~ NoDup (fst (update_lists [] [] xs ys)).
Proof. exact update_duplicates. Qed.
Print Assumptions C11_duplicate_keys_refuted.

Example C11_example :
  Forall wf_update [([3; 1], [30; 10]); ([2; 3], [20; 33]); ([1], [])] /\
  fold_left dict_update [([3; 1], [30; 10]); ([2; 3], [20; 33]); ([1], [])] dict_empty 3 = Some 33 /\
  fold_left dict_update [([3; 1], [30; 10]); ([2; 3], [20; 33]); ([1], [])] dict_empty 1 = None.
Proof.
  split; [|split].
  - constructor; [right; split; [reflexivity|repeat constructor; simpl; intuition lra]|].
    constructor; [right; split; [reflexivity|repeat constructor; simpl; intuition lra]|].
    constructor; [left; reflexivity|constructor].
  - cbn. repeat (destruct (Req_EM_T _ _); try lra). reflexivity.
  - cbn. repeat (destruct (Req_EM_T _ _); try lra). reflexivity.
Qed.

(** * C12: schemes *)
(** guards of the constructor *)
Theorem C12_guards : forall (l m r : ikind) (xs ys : list R),
  (length xs <> length ys \/ ~ NoDup xs) -> scheme_new l m r xs ys = Err AssertionError.
Proof. exact scheme_guards. Qed.
Print Assumptions C12_guards.

(** dispatch: left part before the first, right part after the last data point *)
Theorem C12_dispatch : forall (l m r : ikind) (xs ys : list R) s,
  is_rate l = false -> is_rate r = false -> xs <> [] ->
  scheme_new l m r xs ys = Ok s ->
  exists il im ir, interp_new l xs ys = Ok il /\ interp_new m xs ys = Ok im /\
    interp_new r xs ys = Ok ir /\
    forall x,
      ((forall a, In a xs -> x < a) -> scheme_call s x = interp_call il x) /\
      ((forall a, In a xs -> a < x) -> scheme_call s x = interp_call ir x) /\
      ((exists a b, In a xs /\ In b xs /\ a <= x <= b) -> scheme_call s x = interp_call im x).
Proof. exact scheme_dispatch. Qed.
Print Assumptions C12_dispatch.

(** with a rate based left part the data point at 0 does not count *)
Theorem C12_dispatch_rate : forall (m : ikind) (xs ys : list R) s,
  (exists a, In a xs /\ a <> 0) ->
  scheme_new Klogconstantrate m Klogconstantrate xs ys = Ok s ->
  exists il im, interp_new Klogconstantrate xs ys = Ok il /\ interp_new m xs ys = Ok im /\
    forall x,
      ((forall a, In a xs -> a <> 0 -> x < a) -> scheme_call s x = interp_call il x) /\
      ((forall a, In a xs -> a <> 0 -> a < x) -> scheme_call s x = interp_call il x) /\
      ((exists a b, In a xs /\ In b xs /\ a <> 0 /\ b <> 0 /\ a <= x <= b) ->
         scheme_call s x = interp_call im x).
Proof. exact scheme_dispatch_rate. Qed.
Print Assumptions C12_dispatch_rate.

(** dispatch of any scheme: a part whose class works on rates does not count the data
    point at 0 *)
Theorem C12_dispatch_any : forall (l m r : ikind) (xs ys : list R) s,
  let counts k a := In a xs /\ (is_rate k = true -> a <> 0) in
  (exists a, counts l a) -> (exists a, counts r a) -> scheme_new l m r xs ys = Ok s ->
  exists il im ir, interp_new l xs ys = Ok il /\ interp_new m xs ys = Ok im /\ interp_new r xs ys = Ok ir /\
    forall x,
      ((forall a, counts l a -> x < a) -> scheme_call s x = interp_call il x) /\
      ((exists a, counts l a /\ a <= x) -> (forall a, counts r a -> a < x) -> scheme_call s x = interp_call ir x) /\
      ((exists a, counts l a /\ a <= x) -> (exists b, counts r b /\ x <= b) -> scheme_call s x = interp_call im x).
Proof.
  intros l m r xs ys s counts [a Ca] [b Cb] H. apply scheme_new_inv in H. destruct H as [HL [ND [El [Em Er]]]].
  exists (s_left s), (s_mid s), (s_right s). repeat (split; [assumption|]).
  destruct (new_xs _ _ _ _ El HL ND) as [_ [SL IL]]. destruct (new_xs _ _ _ _ Er HL ND) as [_ [SR IR]].
  intro x. destruct (scheme_call_cases s x) as [C1 [C2 C3]]; auto.
  { eapply in_nonempty. apply IL. exact Ca. }
  { eapply in_nonempty. apply IR. exact Cb. }
  split; [|split].
  - intro Q. apply C1. intros c I. apply Q, IL, I.
  - intros [c [Cc Lc]] Q. apply C2; [exists c; split; [now apply IL|exact Lc]|]. intros d I. apply Q, IR, I.
  - intros [c [Cc Lc]] [d [Cd Ld]]. apply C3; [exists c|exists d]; split; auto; [now apply IL|now apply IR].
Qed.
Print Assumptions C12_dispatch_any.

(** so the rate scheme does not use its middle part everywhere between the data points *)
Theorem C12_rate_scheme_refuted : exists (xs ys : list R) s im x,
  NoDup xs /\ scheme_new Klogconstantrate Kloglinearrate Klogconstantrate xs ys = Ok s /\
  interp_new Kloglinearrate xs ys = Ok im /\ (exists a b, In a xs /\ In b xs /\ a < x < b) /\
  scheme_call s x = Ok (Some (exp (- (1 / 2)))) /\ interp_call im x = Ok (Some (exp (- (1 / 4)))).
Proof.
  set (xs := [0; 1; 2]). set (ys := [1; exp (-1); exp (-4)]).
  assert (ND : NoDup xs) by (unfold xs; repeat constructor; simpl; intuition lra).
  assert (HL : length xs = length ys) by reflexivity.
  assert (PY : forall y, In y ys -> 0 < y) by (intros y [<-|[<-|[<-|[]]]]; [lra|apply exp_pos|apply exp_pos]).
  assert (NZ : exists a, In a xs /\ a <> 0) by (exists 1; split; [now right; left|lra]).
  destruct (C10_logconstantrate xs ys (1 / 2) HL ND PY ltac:(lra) NZ) as (fc & rc & Ec & Vc & Cc).
  destruct (C10_loglinearrate xs ys (1 / 2) HL ND PY ltac:(lra) NZ) as (fl & rl & El & Vl & Cl).
  pose proof (scheme_new_ok Klogconstantrate Kloglinearrate Klogconstantrate xs ys _ _ _ HL ND Ec El Ec) as ES.
  assert (PT : transform (fun a y => - ln y / a) (without_zero (combine xs ys)) = [(1, 1); (2, 2)]).
  { unfold xs, ys, transform, without_zero. cbn [combine filter fst]. destruct (Req_EM_T 0 0); [|lra]. destruct (Req_EM_T 1 0); [lra|]. destruct (Req_EM_T 2 0); [lra|].
    cbn [map fst snd]. rewrite !ln_exp. repeat f_equal; field. }
  rewrite PT in Vc, Vl.
  assert (rc = 1).
  { destruct Vc as [(a & [Q|[Q|[]]] & L & _) | (_ & a & [Q|[Q|[]]] & B)]; injection Q as <- <-; try lra.
    specialize (B 1 1 (or_introl eq_refl)). lra. }
  assert (rl = 1 / 2).
  { destruct Vl as [(a & _ & B) | (a & ya & b & yb & (Ia & Ib & L & _) & _ & _ & ->)].
    - pose proof (B 1 1 (or_introl eq_refl)). pose proof (B 2 2 (or_intror (or_introl eq_refl))). lra.
    - destruct Ia as [Q|[Q|[]]]; injection Q as <- <-; destruct Ib as [Q|[Q|[]]]; injection Q as <- <-; try lra. unfold chord. field. }
  subst rc rl. exists xs, ys. do 2 eexists. exists (1 / 2). split; [exact ND|]. split; [exact ES|]. split; [exact El|]. split; [exists 0, 1; repeat split; [now left|now right; left|lra|lra]|].
  split; [|rewrite Cl; do 3 f_equal; field].
  assert (CN : exists a, In a xs /\ (is_rate Klogconstantrate = true -> a <> 0)) by (exists 1; split; [now right; left|intros _; lra]).
  destruct (C12_dispatch_any _ _ _ _ _ _ CN CN ES) as (il & im & ir & E1 & _ & _ & DI).
  destruct (DI (1 / 2)) as (D1 & _ & _). rewrite D1.
  - rewrite Ec in E1. injection E1 as <-. rewrite Cc. do 3 f_equal. field.
  - intros a [[<-|[<-|[<-|[]]]] N]; try lra. exfalso. now apply N.
Qed.
Print Assumptions C12_rate_scheme_refuted.

(** the default linear_scheme: constant outside, chords inside, never outside the
    range of the data *)
Theorem C12_linear_scheme : forall (xs ys : list R) x,
  length xs = length ys -> NoDup xs -> xs <> [] ->
  exists s y, fn_new linear_scheme xs ys = Ok s /\ fn_call s x = Ok (Some y) /\
    ((forall a, In a xs -> x <= a) -> forall a, In a xs -> (forall b, In b xs -> a <= b) ->
        In (a, y) (combine xs ys)) /\
    ((forall a, In a xs -> a <= x) -> forall a, In a xs -> (forall b, In b xs -> b <= a) ->
        In (a, y) (combine xs ys)) /\
    ((exists a b, In a xs /\ In b xs /\ a <= x <= b) -> linear_value (combine xs ys) x y) /\
    (forall lo hi, (forall z, In z ys -> lo <= z <= hi) -> lo <= y <= hi).
Proof. exact linear_scheme_correct. Qed.
Print Assumptions C12_linear_scheme.

(** zero_linear_scheme is zero before the first point *)
Theorem C12_zero_linear_scheme : forall (xs ys : list R) x,
  length xs = length ys -> NoDup xs -> xs <> [] -> (forall a, In a xs -> x < a) ->
  exists s, fn_new zero_linear_scheme xs ys = Ok s /\ fn_call s x = Ok (Some 0).
Proof. exact zero_linear_scheme_correct. Qed.
Print Assumptions C12_zero_linear_scheme.

(** selection of the three parts by the [interpolation] argument *)
Theorem C12_selection : forall l m r a b c : ikind,
  scheme_select (l, m, r) [] = Ok (l, m, r) /\
  scheme_select (l, m, r) [a] = Ok (l, a, r) /\
  scheme_select (l, m, r) [a; b] = Ok (b, a, b) /\
  scheme_select (l, m, r) [a; b; c] = Ok (a, b, c) /\
  (forall arg, (3 < length arg)%nat -> scheme_select (l, m, r) arg = Err ValueError).
Proof.
  intros. repeat split. intros arg H. do 4 (destruct arg; [simpl in H; lia|]). reflexivity.
Qed.
Print Assumptions C12_selection.

Example C12_example : exists s y, fn_new linear_scheme [2; 1] [4; 3] = Ok s /\ fn_call s 7 = Ok (Some y) /\ y = 4.
Proof.
  destruct (C12_linear_scheme [2; 1] [4; 3] 7) as [s [y [H1 [H2 [_ [H3 _]]]]]]; auto.
  - repeat constructor; simpl; intuition lra.
  - discriminate.
  - exists s, y. split; auto. split; auto.
    assert (In (2, y) (combine [2; 1] [4; 3])) as I.
    { apply H3; simpl; intuition lra. }
    simpl in I. destruct I as [I|[I|[]]]; inversion I; lra.
Qed.

(** * C13: from_dict *)
Theorem C13_from_dict : forall (k : ikind) (ps : list (R * R)),
  is_log k = false -> NoDup (map fst ps) ->
  from_dict k ps = interp_new k (map fst ps) (map snd ps).
Proof. exact from_dict_correct. Qed.
Print Assumptions C13_from_dict.

(** for the log classes the constructor consumes the generator: the result is never
    usable *)
Theorem C13_from_dict_log_refuted : forall (k : ikind) (ps : list (R * R)) x,
  is_log k = true -> ps <> [] -> NoDup (map fst ps) -> ~ In 0 (map fst ps) ->
  (forall y, In y (map snd ps) -> 0 < y) -> x <> 0 ->
  exists f g y, interp_new k (map fst ps) (map snd ps) = Ok g /\ interp_call g x = Ok (Some y) /\
    from_dict k ps = Ok f /\ interp_call f x = Err OverflowError.
Proof. exact from_dict_log_broken. Qed.
Print Assumptions C13_from_dict_log_refuted.

Example C13_example :
  from_dict Klinear [(2, 5); (1, 4)] = interp_new Klinear [2; 1] [5; 4].
Proof.
  apply (C13_from_dict Klinear [(2, 5); (1, 4)]); auto.
  repeat constructor; simpl; intuition lra.
Qed.
