(** Property C03: the default day count (dcf/daycount.py). *)
From Coq Require Import Reals Lra Lia ZArith List Bool.
From Verif Require Import Num MDates SDates LBase LDates.
Open Scope R_scope.

(** values: days over 365.25, or the difference of two floats *)
Theorem C03_value_days : forall a b : bdate,
  d_yf (DateSys:=DayDates) a b = Ok (IZR (bd_day b - bd_day a) / (365 + 1 / 4)).
Proof. intros. change (yf_days (bd_day a) (bd_day b) = Ok (IZR (bd_day b - bd_day a) / (365 + 1 / 4))). rewrite yf_days_val. do 2 f_equal. lra. Qed.
Print Assumptions C03_value_days.

Theorem C03_value_float : forall a b : R, d_yf (DateSys:=FloatDates) a b = Ok (b - a).
Proof. reflexivity. Qed.
Print Assumptions C03_value_float.

(** both kinds of dates satisfy the laws of dates, so everything proved for dates in
    general holds for them *)
Theorem C03_laws_float : DateLaws (FloatDates (T:=R)) (fun d => d).
Proof. exact float_laws. Qed.
Print Assumptions C03_laws_float.

Theorem C03_laws_days : DateLaws (DayDates (T:=R)) (fun d => IZR (bd_day d) / (1461 / 4)).
Proof. exact day_laws. Qed.
Print Assumptions C03_laws_days.

(** additivity, antisymmetry and strict monotonicity in the end date *)
Theorem C03_day_count : forall {D P} (DS : DateSys R D P) (tm : D -> R),
  DateLaws DS tm ->
  forall a b c, exists ab bc ac ba,
    d_yf a b = Ok ab /\ d_yf b c = Ok bc /\ d_yf a c = Ok ac /\ d_yf b a = Ok ba /\
    ab + bc = ac /\ ba = - ab /\ d_yf a a = Ok 0 /\
    (ab < ac <-> d_ltb b c = true) /\ (ab = 0 <-> d_eqb a b = true).
Proof.
  intros D P DS tm L a b c. exists (tm b - tm a), (tm c - tm b), (tm c - tm a), (tm a - tm b).
  repeat split; try apply law_yf; try lra; auto.
  - rewrite law_yf. f_equal. lra.
  - intro. apply law_ltb. lra.
  - intro. apply law_ltb in H. lra.
  - intro. apply law_eqb. lra.
  - intro. apply law_eqb in H. lra.
Qed.
Print Assumptions C03_day_count.

Example C03_example : d_yf (DateSys:=DayDates) (BD 0 1) (BD 1461 2) = Ok (4 : R).
Proof. rewrite C03_value_days. cbn. f_equal. lra. Qed.
