(** The elements of nested containers, in order. *)
From Verif Require Import Base NestModel NestSpec.
Open Scope Z_scope.

Fixpoint leaves (x : nest) : list Z := match x with Leaf v => [v] | Node l => flat_map leaves l end.
(** The values of type T[n1][n2]...: a C array has at least one element. *)
Fixpoint is_array (dims : list Z) (x : nest) : Prop :=
  match dims with
  | [] => exists v, x = Leaf v
  | n :: r => exists l, x = Node l /\ Z.of_nat (List.length l) = n /\ 1 <= n /\ Forall (is_array r) l
  end.
