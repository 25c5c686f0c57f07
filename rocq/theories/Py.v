(** Python builtins used by the modelled code, on lists. *)
From Coq Require Import List Bool ZArith Arith.
From Verif Require Import Num.
Import ListNotations.

(** [l[i]] with IndexError *)
Definition nth_res {A} (l : list A) (i : nat) : res A :=
  match nth_error l i with Some a => Ok a | None => Err IndexError end.

(** [l[-1]] *)
Fixpoint last_res {A} (l : list A) : res A :=
  match l with
  | [] => Err IndexError
  | [a] => Ok a
  | _ :: l' => last_res l'
  end.

(** [l[:-1]] is [removelast l]. *)

(** [x in l] for an equality test *)
Definition mem {A} (eqb : A -> A -> bool) (x : A) (l : list A) : bool :=
  existsb (fun y => eqb y x) l.

(** [l.index(x)]: first position, [None] stands for ValueError *)
Fixpoint index_of {A} (eqb : A -> A -> bool) (x : A) (l : list A) : option nat :=
  match l with
  | [] => None
  | y :: l' => if eqb y x then Some 0
               else option_map S (index_of eqb x l')
  end.

(** [l.pop(i)] *)
Fixpoint remove_nth {A} (i : nat) (l : list A) : list A :=
  match i, l with
  | _, [] => []
  | O, _ :: l' => l'
  | S j, x :: l' => x :: remove_nth j l'
  end.

(** [l[i] = v] *)
Fixpoint set_nth {A} (i : nat) (v : A) (l : list A) : list A :=
  match i, l with
  | _, [] => []
  | O, _ :: l' => v :: l'
  | S j, x :: l' => x :: set_nth j v l'
  end.

(** [sorted(l)] for a strict order test (stable insertion sort; Python's sort is a
    stable sort too, hence the results agree) *)
Fixpoint insert {A} (ltb : A -> A -> bool) (x : A) (l : list A) : list A :=
  match l with
  | [] => [x]
  | y :: l' => if ltb y x then y :: insert ltb x l' else x :: l
  end.

Fixpoint sort {A} (ltb : A -> A -> bool) (l : list A) : list A :=
  match l with
  | [] => []
  | x :: l' => insert ltb x (sort ltb l')
  end.

(** [set(l)] as a list without repetitions (order unspecified in Python; the code
    always sorts afterwards) *)
Fixpoint dedup {A} (eqb : A -> A -> bool) (l : list A) : list A :=
  match l with
  | [] => []
  | x :: l' => if mem eqb x l' then dedup eqb l' else x :: dedup eqb l'
  end.

(** [sorted(set(l))] *)
Definition sorted_set {A} (ltb eqb : A -> A -> bool) (l : list A) : list A :=
  sort ltb (dedup eqb l).

(** the loop of CPython's [bisect]: [go_right a] decides whether the insertion
    point lies to the right of element [a] *)
Fixpoint bisect_loop {A} (fuel : nat) (go_right : A -> bool) (dflt : A)
         (l : list A) (lo hi : nat) : nat :=
  match fuel with
  | O => lo
  | S f =>
      if lo <? hi then
        let mid := (lo + hi) / 2 in
        if go_right (nth mid l dflt) then bisect_loop f go_right dflt l (mid + 1) hi
        else bisect_loop f go_right dflt l lo mid
      else lo
  end.

Section Bisect.
  Context {T : Type} {N : Num T}.
  (** [bisect_left(l, x, lo, hi)]; the fuel [hi] is enough since the interval
      shrinks in every round *)
  Definition bisect_left (l : list T) (x : T) (lo hi : nat) : nat :=
    bisect_loop hi (fun a => nltb a x) n0 l lo hi.
  (** [bisect_right(l, x, lo, hi)] *)
  Definition bisect_right (l : list T) (x : T) (lo hi : nat) : nat :=
    bisect_loop hi (fun a => negb (nltb x a)) n0 l lo hi.
End Bisect.

(** lookup in an association list standing for a Python dict *)
Fixpoint assoc {K V} (eqb : K -> K -> bool) (k : K) (l : list (K * V)) : option V :=
  match l with
  | [] => None
  | (k', v) :: l' => if eqb k' k then Some v else assoc eqb k l'
  end.

(** [d[k] = v]: overwrite in place, append new keys at the end *)
Fixpoint assoc_set {K V} (eqb : K -> K -> bool) (k : K) (v : V) (l : list (K * V))
  : list (K * V) :=
  match l with
  | [] => [(k, v)]
  | (k', v') :: l' => if eqb k' k then (k', v) :: l' else (k', v') :: assoc_set eqb k v l'
  end.

(** [dict(pairs)]: later pairs overwrite the value, the first key object stays *)
Definition dict_of {K V} (eqb : K -> K -> bool) (l : list (K * V)) : list (K * V) :=
  fold_left (fun d kv => assoc_set eqb (fst kv) (snd kv) d) l [].
