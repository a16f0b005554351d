(* What permuting, reshaping, adding axes to and viewing an array mean. *)
From Coq Require Import Permutation.
From Verif Require Import Base IterSpec.
Local Open Scope Z_scope.

(* axes is a permutation of 0 .. n-1 *)
Definition permutation_of (n : nat) (axes : list Z) : Prop :=
  Permutation axes (map Z.of_nat (seq 0 n)).

(* Entry k of the result is entry axes[k]; entries after the axes stay. *)
Definition permuted {A} (axes : list Z) (l l' : list A) : Prop :=
  List.length l' = List.length l /\
  (forall k d, (k < List.length axes)%nat -> nth k l' d = nth (Z.to_nat (nth k axes 0)) l d) /\
  (forall k d, (List.length axes <= k)%nat -> nth k l' d = nth k l d).

(* No proper prefix of the axes is mapped into itself. *)
Definition irreducible (axes : list Z) : Prop :=
  forall k, (0 < k < List.length axes)%nat -> exists j, (j < k)%nat /\ Z.of_nat k <= nth j axes 0.

(* The addresses of the elements of a strided array, in row-major order. *)
Definition element_addresses (base : Z) (shape strides : list Z) : list Z :=
  map (address base strides) (row_major shape).

(* Element k in row-major order is k elements after the first. *)
Definition contiguous (base elsize : Z) (shape strides : list Z) : Prop :=
  forall k, (k < List.length (row_major shape))%nat ->
  nth k (element_addresses base shape strides) 0 = base + Z.of_nat k * elsize.

(* C order: each stride is the number of bytes below it, where it matters. *)
Fixpoint c_strides (elsize : Z) (shape strides : list Z) : Prop :=
  match shape, strides with
  | [], [] => True
  | n :: shape', s :: strides' =>
      (1 < n -> s = product shape' * elsize) /\ c_strides elsize shape' strides'
  | _, _ => False
  end.
