(* Layouts of strided arrays. *)
From Verif Require Import Base.
Local Open Scope Z_scope.

Fixpoint prodZ (l : list Z) : Z := match l with [] => 1 | x :: l' => x * prodZ l' end.

(* an index vector of an array of the given shape *)
Definition in_box (shape idx : list Z) : Prop := Forall2 (fun n i => 0 <= i < n) shape idx.

(* the displacement of an element *)
Fixpoint displacement (idx strides : list Z) : Z :=
  match idx, strides with
  | i :: idx', s :: strides' => i * s + displacement idx' strides'
  | _, _ => 0
  end.

(* The elements of an array occupy, each its own, the slots of a block of
   prodZ shape elements of el bytes. *)
Definition fills (shape strides : list Z) (el : Z) : Prop :=
  (forall idx, in_box shape idx -> exists q, 0 <= q < prodZ shape /\ displacement idx strides = q * el) /\
  (forall idx idx', in_box shape idx -> in_box shape idx' ->
     displacement idx strides = displacement idx' strides -> idx = idx').

(* strides from the outermost dimension: each is larger than all that follow,
   or not larger than any *)
Fixpoint decreasing (l : list Z) : Prop :=
  match l with [] => True | s :: l' => Forall (fun t => t < s) l' /\ decreasing l' end.
Fixpoint increasing (l : list Z) : Prop :=
  match l with [] => True | s :: l' => Forall (fun t => s <= t) l' /\ increasing l' end.
