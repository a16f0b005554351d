(* What iterating over arrays, comparing them and broadcasting shapes mean. *)
From Verif Require Import Base.
Local Open Scope Z_scope.

(* the indices 0 .. n-1 *)
Definition upto (n : Z) : list Z := map Z.of_nat (seq 0 (Z.to_nat n)).

(* All multi-indices of a shape, the last dimension running fastest. *)
Fixpoint row_major (shape : list Z) : list (list Z) :=
  match shape with
  | [] => [[]]
  | n :: rest => flat_map (fun i => map (cons i) (row_major rest)) (upto n)
  end.

(* An index lies in a shape. *)
Definition in_shape (idx shape : list Z) : Prop := Forall2 (fun i n => 0 <= i < n) idx shape.

Definition product (shape : list Z) : Z := fold_right Z.mul 1 shape.

Fixpoint dot (idx strides : list Z) : Z :=
  match idx, strides with
  | i :: idx', s :: strides' => i * s + dot idx' strides'
  | _, _ => 0
  end.

(* Where the element at an index of a strided array is. *)
Definition address (base : Z) (strides idx : list Z) : Z := base + dot idx strides.

(* Broadcasting: the index of the operand's element which stands at an index
   of the result. Dimensions are aligned at the right; a dimension of extent 1
   has only the index 0. *)
Definition right_align (idx : list Z) (ndim : nat) : list Z :=
  skipn (List.length idx - ndim) idx.
Fixpoint squeeze (sizes idx : list Z) : list Z :=
  match sizes, idx with
  | n :: sizes', i :: idx' => (if n =? 1 then 0 else i) :: squeeze sizes' idx'
  | _, _ => []
  end.
Definition bindex (sizes idx : list Z) : list Z := squeeze sizes (right_align idx (List.length sizes)).

(* A shape the operands broadcast to: each extent of the result, seen from the
   right, is the only extent other than 1 among the operands, or 1. *)
Definition extent (shape : list Z) (k : nat) : Z := nth k (rev shape) 1.
Definition common_extent (extents : list Z) (n : Z) : Prop :=
  (In n extents \/ n = 1) /\ Forall (fun m => m = 1 \/ m = n) extents.
Definition broadcasts_to (shapes : list (list Z)) (result : list Z) : Prop :=
  Forall (fun s => (List.length s <= List.length result)%nat) shapes /\
  (exists s, (In s shapes \/ s = []) /\ List.length s = List.length result) /\
  forall k, common_extent (map (fun s => extent s k) shapes) (extent result k).

(* The same when an extent may be unknown (-1, a var dimension): a known
   extent other than 1 decides; without one the result is unknown if some
   operand is. *)
Definition merged_extent (extents : list Z) (n : Z) : Prop :=
  Forall (fun m => m = 1 \/ m = -1 \/ m = n) extents /\
  (n <> 1 -> In n extents) /\
  (n = 1 -> Forall (fun m => m = 1) extents).
