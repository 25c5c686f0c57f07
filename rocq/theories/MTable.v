(** Models of [rate_table] (/repo/dcf/curves/curve.py:24-99) and of
    /repo/dcf/ratingclass.py. *)
From Coq Require Import List Bool ZArith Arith.
From Verif Require Import Num Py MDates.
Import ListNotations.

(** * rate_table *)
Section Rows.
  Context {T D P V : Type} {N : Num T} {DS : DateSys T D P}.

  (** curve.py:77-80: the default vertical axis; an origin None cannot be added to *)
  Definition rt_xgrid (domain : list D) (origin : option D) : res (list D) :=
    match origin with
    | Some o => Ok (if mem d_eqb o domain then domain else o :: domain)
    | None => Err TypeError
    end.

  (** curve.py:97: the cells of one row *)
  Fixpoint rt_cells (curve : D -> res V) (x lst : D) (ys : list P) : res (list V) :=
    match ys with
    | [] => Ok []
    | y :: ys' =>
        d <- d_add x y ;;
        if d_ltb d lst then
          d' <- d_add x y ;;
          v <- curve d' ;;
          vs <- rt_cells curve x lst ys' ;;
          Ok (v :: vs)
        else rt_cells curve x lst ys'
    end.

  (** curve.py:94-97 for the grid from position i on *)
  Fixpoint rt_rows (curve : D -> res V) (ys : list P) (xs : list D) : res (list (D * list V)) :=
    match xs with
    | [] => Ok []
    | x :: xs' =>
        lst <- match xs' with
               | x' :: _ => Ok x'
               | [] => y <- last_res ys ;; a <- d_add x y ;; d_add a y
               end ;;
        vs <- rt_cells curve x lst ys ;;
        rows <- rt_rows curve ys xs' ;;
        Ok ((x, vs) :: rows)
    end.

  (** 91-99 with both grids given: the header and the rows *)
  Definition rate_table (curve : D -> res V) (xs : list D) (ys : list P) : res (list P * list (D * list V)) :=
    rows <- rt_rows curve ys xs ;; Ok (ys, rows).
End Rows.

Section Grid.
  Context {T : Type} {N : Num T}.
  Open Scope num_scope.

  (** curve.py:81-89, the default horizontal axis, for grids of numbers (periods of
      businessdate are not modelled).  [rt_line] is the loop 86-87. *)
  Fixpoint rt_line (fuel : nat) (step span last : T) : res (list T) :=
    match fuel with
    | O => Err OutOfFuel
    | S n => if last + step <? span
             then l <- rt_line n step span (last + step) ;; Ok (last :: l)
             else Ok [last]
    end.
  Fixpoint rt_lines (fuel : nat) (step : T) (diff : list T) : res (list T) :=
    match diff with
    | [] => Ok []
    | span :: diff' => l <- rt_line fuel step span step ;;
                       ls <- rt_lines fuel span diff' ;;
                       Ok (l ++ ls)
    end.
  Definition rt_diffs (xs : list T) : list T :=
    map (fun se => snd se - fst se) (combine (removelast xs) (tl xs)).
  Definition rt_ygrid (fuel : nat) (xs : list T) : res (list T) :=
    step <- nth_res (rt_diffs xs) 0 ;;
    ls <- rt_lines fuel step (rt_diffs xs) ;;
    Ok (sorted_set nltb neqb (step * n0 :: ls)).
End Grid.

(** * RatingClass *)
Section Rating.
  Context {T K : Type} {N : Num T} (keqb : K -> K -> bool).
  Open Scope num_scope.

  (** a master scale: keys and values in insertion order *)
  Definition mscale := list (K * T).

  (** ratingclass.py:39-46 *)
  Definition ms_values (x : T) (n : nat) : res (list T) :=
    mapM (fun i => l <- nlog x ;; l' <- nlog x ;;
                   q <- ndiv (l' * n_ofN i) (n_ofZ (Z.of_nat n - 1)) ;;
                   nexp (l - q)) (seq 0 n).
  Definition ms_fromkeys (ks : list K) (value : option T) : res mscale :=
    x <- match value with
         | Some v => Ok v
         | None => l <- nlog (n_ofZ 10) ;; nexp (nopp (n_ofZ (Z.of_nat (length ks) - 1)) * l)
         end ;;
    vs <- ms_values x (length ks) ;;
    Ok (dict_of keqb (combine ks vs)).

  (** 57-60 [items], 48-55 [keys], [values]: sorted by value *)
  Definition ms_items (m : mscale) : mscale := sort (fun a b => snd a <? snd b) m.
  Definition ms_keys (m : mscale) : list K := map fst (ms_items m).
  Definition ms_sorted (m : mscale) : list T := map snd (ms_items m).

  (** 88-106 [__init__] with a master scale (or None) and a key or a number: a key not
      in the scale is a TypeError *)
  Definition rating_value (m : mscale) (value : K + T) : res T :=
    match value with
    | inr v => Ok v
    | inl k => match assoc keqb k m with Some v => Ok v | None => Err TypeError end
    end.

  (** [min(l)] and [max(l)] of a non-empty list, ValueError if empty *)
  Definition n_min (l : list T) : res T :=
    match l with [] => Err ValueError | x :: l' => Ok (fold_left nmin l' x) end.
  Definition n_max (l : list T) : res T :=
    match l with [] => Err ValueError | x :: l' => Ok (fold_left nmax l' x) end.

  (** [[x < value for x in value_list].index(False)] *)
  Fixpoint first_not_below (v : T) (l : list T) : res nat :=
    match l with
    | [] => Err ValueError
    | x :: l' => if x <? v then rmap S (first_not_below v l') else Ok 0
    end.

  (** 130-165 [__iter__], [vector]; the index -1 of 155 is the last element *)
  Definition unit_clip (x : T) : T := nmax n0 (nmin (n_round7 x) n1).
  Definition rating_vector (sloppy : bool) (m : mscale) (val : T) : res (list T) :=
    match m with
    | [] => Ok []
    | _ =>
      let value := n_round7 val in
      let values := map n_round7 (ms_sorted m) in
      lo <- n_min values ;;
      hi <- n_max values ;;
      if negb ((lo <=? value) && (value <=? hi)) && negb sloppy then Err ValueError
      else if value <? lo then
        mapM (fun iv => if Nat.eqb (fst iv) 0 then q <- ndiv value (snd iv) ;; Ok (n_round7 q) else Ok n0)
             (combine (seq 0 (length values)) values)
      else if hi <? value then
        mapM (fun iv => if Nat.eqb (fst iv) (length values - 1) then q <- ndiv value (snd iv) ;; Ok (n_round7 q) else Ok n0)
             (combine (seq 0 (length values)) values)
      else
        ci <- first_not_below value values ;;
        cap <- nth_res values ci ;;
        floor <- match ci with O => last_res values | S j => nth_res values j end ;;
        alpha <- ndiv (value - cap) (floor - cap) ;;
        Ok (map (fun i => if match ci with O => false | S j => Nat.eqb i j end then unit_clip alpha
                          else if Nat.eqb i ci then unit_clip (n1 - alpha)
                          else n0)
                (seq 0 (length values)))
    end.

  (** 115-126 [__str__]: a key, or the pairs of a linear combination (the formatting is
      left out) *)
  Fixpoint first_match (v : T) (m : mscale) : option K :=
    match m with
    | [] => None
    | (k, x) :: m' => if n_round7 v =? n_round7 x then Some k else first_match v m'
    end.
  Definition rating_name (sloppy : bool) (m : mscale) (val : T) : res (K + list (K * T)) :=
    match first_match val m with
    | Some k => Ok (inl k)
    | None => ws <- rating_vector sloppy m val ;;
              Ok (inr (filter (fun kw => ntruthy (snd kw)) (combine (ms_keys m) ws)))
    end.
End Rating.
