(** What a reduction computes. *)
From Verif Require Import Base.
Open Scope Z_scope.

(** The numbers 0 .. n-1. *)
Definition range (n : nat) : list Z := map Z.of_nat (seq 0 n).
(** A dimension is reduced (true) or kept, and has a size.  The kept coordinates
    of an index. *)
Fixpoint in_kept (dims : list (bool * nat)) (o : list Z) : Prop :=
  match dims, o with
  | [], [] => True
  | (true, _) :: r, o => in_kept r o
  | (false, n) :: r, k :: o => 0 <= k < Z.of_nat n /\ in_kept r o
  | _, _ => False
  end.
(** All indices with the kept coordinates [o], in lexicographic order. *)
Fixpoint indices (dims : list (bool * nat)) (o : list Z) : list (list Z) :=
  match dims, o with
  | [], _ => [[]]
  | (true, n) :: r, o => flat_map (fun i => map (cons i) (indices r o)) (range n)
  | (false, _) :: r, k :: o => map (cons k) (indices r o)
  | (false, _) :: _, [] => []
  end.
(** The address of an element. *)
Fixpoint dot (strides ix : list Z) : Z :=
  match strides, ix with
  | s :: ss, i :: r => i * s + dot ss r
  | _, _ => 0
  end.
(** The strides of a destination for the kept dimensions: with keepdims the
    destination has all dimensions, otherwise only the kept ones. *)
Fixpoint kept_strides (keepdims : bool) (dims : list (bool * nat)) (ds : list Z) : list Z :=
  if keepdims then
    match dims, ds with
    | (true, _) :: r, _ :: ds => kept_strides keepdims r ds
    | (false, _) :: r, d :: ds => d :: kept_strides keepdims r ds
    | _, _ => []
    end
  else ds.
Definition kept_count (dims : list (bool * nat)) : nat := List.length (filter (fun d => negb (fst d)) dims).
(** Left fold of an operation that may fail. *)
Fixpoint ofold (op : Z -> Z -> outcome Z) (a : Z) (xs : list Z) : outcome Z :=
  match xs with
  | [] => Ok a
  | x :: r => do v <- op a x; ofold op v r
  end.
(** Every dimension but the innermost has elements if it is reduced; if it is
    kept, its destination stride is not 0, or it has one element and the innermost
    dimension, when it is the next one, is reduced. *)
Fixpoint regular (dims : list (bool * nat)) (ks : list Z) : Prop :=
  match dims with
  | [] => True
  | [_] => True
  | (true, n) :: r => n <> O /\ regular r ks
  | (false, n) :: r =>
      match ks with
      | d :: ks => (d <> 0 \/ n = 1%nat /\ ~ exists n', r = [(false, n')]) /\ regular r ks
      | [] => False
      end
  end.
(** No kept dimension of one element right before a kept innermost one. *)
Fixpoint no_unit_before_last (dims : list (bool * nat)) : Prop :=
  match dims with
  | [(false, n); (false, _)] => n <> 1%nat
  | _ :: r => no_unit_before_last r
  | [] => True
  end.
