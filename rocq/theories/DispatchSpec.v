(** Specification vocabulary for C37-C39, C54, C55. *)
From Coq Require Import Relations.Relation_Operators Sorting.Permutation.
From Verif Require Import Base.

(** A graph on the vertices 0 .. n-1 given by successor lists. *)
Definition succ (edges : list (list nat)) (i j : nat) : Prop := exists js, nth_error edges i = Some js /\ In j js.
Definition graph (n : nat) (edges : list (list nat)) : Prop := List.length edges = n /\ forall i j, succ edges i j -> (j < n)%nat.
Definition acyclic (edges : list (list nat)) : Prop := forall i, ~ clos_trans nat (succ edges) i i.
(** [order] lists 0 .. n-1, each vertex before all its successors. *)
Definition topological (n : nat) (edges : list (list nat)) (order : list nat) : Prop :=
  Permutation order (seq 0 n) /\ forall i j, succ edges i j -> exists l1 l2 l3, order = l1 ++ i :: l2 ++ j :: l3.

Section Overloads.
Context {type T : Type} (matches : type -> type -> bool) (sig : T -> list type).
(** A pattern tuple accepts a tuple when each component matches. *)
Definition accepts (pat tps : list type) : Prop := Forall2 (fun p t => matches p t = true) pat tps.
(** [u] is strictly more specific than [v]. *)
Definition more_specific (u v : list type) : Prop := accepts v u /\ ~ accepts u v.
(** In each position one of the two patterns accepts the other. *)
Definition comparable (u v : list type) : Prop := Forall2 (fun p t => matches p t = true \/ matches t p = true) u v.
Definition unresolved (vs : list T) (u v : T) : Prop :=
  comparable (sig u) (sig v) /\ ~ accepts (sig u) (sig v) /\ ~ accepts (sig v) (sig u) /\
  ~ exists w, In w vs /\ accepts (sig u) (sig w) /\ accepts (sig v) (sig w).
(** Two different positions of the list hold [u] and [v]. *)
Definition two_of (vs : list T) (u v : T) : Prop := exists l1 l2 l3, vs = l1 ++ u :: l2 ++ v :: l3.
End Overloads.
