(* Index vectors and addresses. *)
From Verif Require Import Base.
Local Open Scope Z_scope.

(* all index vectors of a shape, in row-major order *)
Fixpoint indices (shape : list Z) : list (list Z) :=
  match shape with
  | [] => [[]]
  | n :: shape' => flat_map (fun k => map (cons (Z.of_nat k)) (indices shape')) (seq 0 (Z.to_nat n))
  end.

(* the displacement of an index vector *)
Fixpoint dot (idx strides : list Z) : Z :=
  match idx, strides with
  | i :: idx', s :: strides' => i * s + dot idx' strides'
  | _, _ => 0
  end.

(* an index vector cut into pieces of the given lengths *)
Fixpoint pieces {A} (lens : list nat) (l : list A) : list (list A) :=
  match lens with
  | [] => []
  | n :: lens' => firstn n l :: pieces lens' (skipn n l)
  end.

(* the k-th element of an operand that starts at p with stride s *)
Definition elt (p s : Z) (k : nat) : Z := p + Z.of_nat k * s.
