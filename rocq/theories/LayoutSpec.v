(** What C43, C57 and C58 mean, over unbounded integers. *)
From Verif Require Import Base LayoutModel.

Definition roundup (x a : Z) : Z := (x + a - 1) / a * a.
Fixpoint salign (t : lt) : Z :=
  match t with
  | Builtin _ a | Leaf _ a _ => a
  | VarDim _ | Pointer _ => 8
  | Option e | FixedDim _ e => salign e
  | Tuple l => fold_right (fun f m => Z.max (salign f) m) 1 l
  end.
(** The number of bytes the data needs: fields follow each other in order, each at the
    next multiple of its alignment, and the end is padded. *)
Fixpoint tsize (t : lt) : Z :=
  match t with
  | Builtin s _ | Leaf s _ _ => s
  | VarDim _ => 16
  | Pointer _ => 8
  | Option e => tsize e
  | FixedDim n e => n * tsize e
  | Tuple l => roundup (fold_left (fun s f => roundup s (salign f) + tsize f) l 0) (salign (Tuple l))
  end.
(** The number of bytes the arrmeta needs. *)
Fixpoint tmeta (t : lt) : Z :=
  match t with
  | Builtin _ _ | Leaf _ _ _ => 0
  | VarDim e => 24 + tmeta e
  | Pointer e => 16 + tmeta e
  | Option e => tmeta e
  | FixedDim _ e => 16 + tmeta e
  | Tuple l => fold_right (fun f m => 8 + tmeta f + m) 0 l
  end.
(** The types the library can make: small alignments that divide the size (checked by
    fixed_bytes_type.hpp:19-37; true of the others), no negative dimension. *)
Definition small_pow2 (a : Z) : Prop := a = 1 \/ a = 2 \/ a = 4 \/ a = 8 \/ a = 16.
Fixpoint wf (t : lt) : Prop :=
  match t with
  | Builtin s a => 0 <= s /\ small_pow2 a /\ s mod a = 0
  | Leaf s a d => 0 <= s /\ small_pow2 a /\ s mod a = 0 /\ (d = true -> 0 < s)
  | VarDim e | Pointer e | Option e => wf e
  | FixedDim n e => 0 <= n /\ wf e
  | Tuple l => fold_right (fun f P => wf f /\ P) True l
  end.
(** It fits the address space.  The library does not check this. *)
Definition fits (t : lt) : Prop := tsize t < 2 ^ 63 /\ tmeta t < 2 ^ 63.

(** Two paths that part ways: at the same place one takes [i], the other [j]. *)
Definition diverge (p q : list Z) : Prop := exists c i j p' q', i <> j /\ p = c ++ i :: p' /\ q = c ++ j :: q'.
Definition disjoint (a n b m : Z) : Prop := a + n <= b \/ b + m <= a.
(** No pointer to something with a destructor (C57). *)
Fixpoint no_pointer (t : lt) : Prop :=
  match t with
  | Pointer e => has_destructor e = false
  | Option e | FixedDim _ e => no_pointer e
  | Tuple l => fold_right (fun f P => no_pointer f /\ P) True l
  | _ => True
  end.

(** A value that must be destroyed (C57): a string, bytes or type value, or an option of one. *)
Fixpoint destructible (t : lt) : Prop :=
  match t with
  | Leaf _ _ d => d = true
  | Option e => destructible e
  | _ => False
  end.

(** The words of the arrmeta that hold block references (C58), 0 being a null reference. *)
Fixpoint held (m : mem) (t : lt) (a : Z) : list Z :=
  match t with
  | Builtin _ _ | Leaf _ _ _ => []
  | VarDim e => m a :: held m e (a + 24)
  | Pointer e => m a :: held m e (a + 16)
  | Option e => held m e a
  | FixedDim _ e => held m e (a + 16)
  | Tuple l => (fix go (l : list lt) (a : Z) : list Z := match l with [] => [] | f :: l => held m f a ++ go l (a + tmeta f) end) l (a + 8 * Z.of_nat (List.length l))
  end.
Definition blocks (m : mem) (t : lt) (a : Z) : list Z := filter (fun b => negb (b =? 0)) (held m t a).
Definition same_outside (m m' : mem) (a n : Z) : Prop := forall x, x < a \/ a + n <= x -> m' x = m x.
(** The blocks numbered from [n] to [k - 1]. *)
Definition interval (n k : Z) : list Z := map (fun i => n + Z.of_nat i) (seq 0 (Z.to_nat (k - n))).
(** Types with arrmeta that refers to memory blocks; those whose tuples have at most one such field. *)
Fixpoint has_ref (t : lt) : bool :=
  match t with
  | Builtin _ _ | Leaf _ _ _ => false
  | VarDim _ | Pointer _ => true
  | Option e | FixedDim _ e => has_ref e
  | Tuple l => existsb has_ref l
  end.
Fixpoint one_ref (t : lt) : Prop :=
  match t with
  | Builtin _ _ | Leaf _ _ _ => True
  | VarDim e | Pointer e | Option e | FixedDim _ e => one_ref e
  | Tuple l => fold_right (fun f P => one_ref f /\ P) True l /\ (List.length (filter has_ref l) <= 1)%nat
  end.
