(** Orders, sorted arrays, selections. *)
From Verif Require Import Base.
Open Scope Z_scope.

(** Lexicographic order of sequences by a key. *)
Inductive lexico (key : Z -> Z) : list Z -> list Z -> Prop :=
| lex_nil b t : lexico key [] (b :: t)
| lex_head a b s t : key a < key b -> lexico key (a :: s) (b :: t)
| lex_tail a s t : lexico key s t -> lexico key (a :: s) (a :: t).

(** A strict weak order: asymmetric, and if x is before z then every y is after x
    or before z. *)
Definition weak_order (lt : Z -> Z -> bool) : Prop :=
  (forall x y, lt x y = true -> lt y x = false) /\
  (forall x y z, lt x z = true -> lt x y = true \/ lt y z = true).
(** Elements 0 .. n-1 are in order. *)
Definition in_order (lt : Z -> Z -> bool) (x : Z -> Z) (n : Z) : Prop :=
  forall i j, 0 <= i < j -> j < n -> lt (x j) (x i) = false.
Definition equivalent (lt : Z -> Z -> bool) (a b : Z) : Prop := lt a b = false /\ lt b a = false.

(** The elements of [ys] whose mask is set, in order. *)
Fixpoint selected {A} (mask : list bool) (ys : list A) : list A :=
  match mask, ys with
  | true :: bs, y :: r => y :: selected bs r
  | false :: bs, _ :: r => selected bs r
  | _, _ => []
  end.
(** The first [n] values of a function. *)
Definition tabulate {A} (n : nat) (f : Z -> A) : list A := map (fun i => f (Z.of_nat i)) (seq 0 n).

(** An index counted from the front, or from the back when negative. *)
Definition designates (ix n i : Z) : Prop := 0 <= i < n /\ (ix = i \/ ix = i - n).
