(** What a categorical type is for: an enumeration of distinct categories. *)
From Verif Require Import Base CatModel.
From Coq Require Import Sorted.
Open Scope Z_scope.

(** A strict total order of the categories. *)
Definition strict_total (lt : Z -> Z -> bool) : Prop :=
  (forall x, lt x x = false) /\
  (forall x y z, lt x y = true -> lt y z = true -> lt x z = true) /\
  (forall x y, lt x y = true \/ x = y \/ lt y x = true).
Definition ascending (lt : Z -> Z -> bool) (l : list Z) : Prop := StronglySorted (fun a b => lt a b = true) l.

(** Kernels that do what the names of their variables say. *)
Definition working (lt : Z -> Z -> bool) : kernels := Kernels (Some lt) (Some (fun x => x)).

(** The ways to make a categorical type with the categories [cats]: through the
    order, if it worked, or as already sorted categories. *)
Inductive made (lt : Z -> Z -> bool) (cats : list Z) : cat -> Prop :=
| made_unsorted junk c : List.length junk = List.length cats -> construct (working lt) junk cats = Ok c -> made lt cats c
| made_presorted : ascending lt cats -> made lt cats (presorted cats).
(** Only the second works in the code. *)
Definition throws {A} (x : outcome A) : Prop := exists e, x = Throw e.
