(** Nested lists, and what an array that holds one gives when it is read. *)
From Verif Require Import Base NestModel.
Open Scope Z_scope.

(** All elements are at depth [d]. *)
Fixpoint is_depth (d : nat) (x : nest) : Prop :=
  match d with
  | O => exists v, x = Leaf v
  | S d => exists l, x = Node l /\ Forall (is_depth d) l
  end.
(** The sizes of all the lists at a level; the whole is at level 0. *)
Fixpoint level (i : nat) (x : nest) : list Z :=
  match x with
  | Leaf _ => []
  | Node l => match i with O => [Z.of_nat (List.length l)] | S i => flat_map (level i) l end
  end.
(** Only lists of elements are empty. *)
Definition nonempty (d : nat) (x : nest) : Prop := forall i, (S i < d)%nat -> ~ In 0 (level i x).
(** All the lists at a level have one size. *)
Definition even (i : nat) (x : nest) : Prop := forall a b, In a (level i x) -> In b (level i x) -> a = b.
(** A dimension has the one size, or is -1 when the sizes differ. *)
Definition dim_of (ls : list Z) (n : Z) : Prop :=
  (ls <> [] /\ 0 <= n /\ Forall (eq n) ls) \/ (n = -1 /\ exists a b, In a ls /\ In b ls /\ a <> b).

(** The element at a list of indices. *)
Fixpoint value_at (x : nest) (path : list nat) : option Z :=
  match path with
  | [] => match x with Leaf v => Some v | Node _ => None end
  | i :: path => match x with Leaf _ => None | Node l => match nth_error l i with Some y => value_at y path | None => None end end
  end.
(** Reading an array: dimensions of a fixed size have their elements side by side,
    a var dimension has a pointer to them and their number. *)
Fixpoint read (es : Z) (t : ty) (m : mem) (b : nat) (off : Z) (path : list nat) : outcome Z :=
  match t, path with
  | Elem, [] => match cells m b off with Some (Val v) => Ok v | _ => UB end
  | Fixed n t, i :: path =>
      if Z.of_nat i <? n then read es t m b (off + Z.of_nat i * data_size es t) path else Throw "index out of bounds"
  | Var t, i :: path =>
      match cells m b off with
      | Some (Ref b' n) => if Z.of_nat i <? n then read es t m b' (Z.of_nat i * data_size es t) path else Throw "index out of bounds"
      | _ => UB
      end
  | _, _ => Throw "wrong number of indices"
  end.
Definition reads (es : Z) (t : ty) (m : mem) (x : nest) : Prop :=
  forall path, match value_at x path with
               | Some v => read es t m 0 0 path = Ok v
               | None => exists e, read es t m 0 0 path = Throw e
               end.
(** The type with the given dimensions: -1 is var. *)
Fixpoint dims (s : list Z) (t : ty) : Prop :=
  match s, t with
  | [], Elem => True
  | n :: s, Fixed n' t => n <> -1 /\ n' = n /\ dims s t
  | n :: s, Var t => n = -1 /\ dims s t
  | _, _ => False
  end.
