(** Model of the grids of /repo/dcf/curves/plot.py, for curves over numbers (the branches for
    periods of businessdate, 32-34 and 81-83, and the drawing, 90-114, are not modelled). *)
From Coq Require Import List Bool ZArith Arith.
From Verif Require Import Num Py MDates MTable.
Import ListNotations.

Section Plot.
  Context {T : Type} {N : Num T}.
  Open Scope num_scope.

  (** [zip(domain[:-1], domain[1:])] *)
  Definition pairs (xs : list T) : list (T * T) := combine (removelast xs) (tl xs).

  (** plot.py:84-86: what the loop appends to the grid whose last entry is [last] *)
  Fixpoint grid_line (fuel : nat) (s stop last : T) : res (list T) :=
    match fuel with
    | O => Err OutOfFuel
    | S n => if last <? stop
             then l <- grid_line n s stop (last + s) ;; Ok (last + s :: l)
             else Ok []
    end.

  (** plot.py:72-86, the entries added for one pair of dates; [if step:] is false for 0 *)
  Definition grid_part (fuel : nat) (step : option T) (nums : T) (se : T * T) : res (list T) :=
    let (start, stop) := se in
    s <- match step with
         | Some s => if ntruthy s then Ok s else ndiv (stop - start) nums
         | None => ndiv (stop - start) nums
         end ;;
    l <- (if ntruthy s then grid_line fuel s stop start else Ok []) ;;
    Ok (start :: l).

  (** plot.py:69-87 [make_grid(curve, step, nums)]; [domain] is [curve.domain] *)
  Definition make_grid (fuel : nat) (domain : list T) (step : option T) (nums : T) : res (list T) :=
    ls <- mapM (grid_part fuel step nums) (pairs domain) ;;
    x <- last_res domain ;;
    Ok (concat ls ++ [x]).

  (** plot.py:47-60, the length of one list of ticks ([rt_line] is the same loop as in
      [rate_table] of curve.py) *)
  Definition pt_ticks (fuel : nat) (step : T) (se : T * T) : res nat :=
    let (s, e) := se in
    if s <? s + step then l <- rt_line fuel step e s ;; Ok (length l) else Ok 1%nat.

  (** plot.py:45-62 the default [y_grid] of the [rate_table] of plot.py; [min] of nothing is a
      ValueError *)
  Definition pt_ygrid (fuel : nat) (xs : list T) : res (list T) :=
    step <- match rt_diffs xs with
            | [] => Err ValueError
            | d :: ds => Ok (fold_left nmin ds d)
            end ;;
    ns <- mapM (pt_ticks fuel step) (pairs xs) ;;
    Ok (map (fun i => step * n_ofN i) (seq 0 (fold_left Nat.max ns 1%nat))).

  (** plot.py:38-66 [rate_table(curve, x_grid)]; the table itself, 63-66, is computed as in
      curve.py (MTable) *)
  Definition pt_table {V} (fuel : nat) (curve : T -> res V) (xs : list T)
    : res (list (fperiod T) * list (T * list V)) :=
    ys <- pt_ygrid fuel xs ;; rate_table curve xs (map FP ys).
End Plot.
