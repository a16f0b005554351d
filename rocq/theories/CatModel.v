(** ndt::categorical_type, types/categorical_type.hpp and
    src/dynd/types/categorical_type.cpp.  A category is an element of one type,
    coded by an integer; two elements have the same code exactly when they are
    equal (not_equal is false).  The arrmeta of the elements is not modelled. *)
From Verif Require Import Base StridedModel SearchModel.
Open Scope Z_scope.

(** The functions called through the kernel builder [k]: the order (.cpp:158-159,
    389-390) and the assignment (.cpp:111-114, 318-321).  None is a null pointer. *)
Record kernels := Kernels { k_less : option (Z -> Z -> bool); k_copy : option (Z -> Z) }.
(** In the code nothing is ever put in [k], the calls are commented out; the
    storage of a kernel_builder is filled with zeros (storagebuf.hpp:32-33). *)
Definition code_kernels : kernels := Kernels None None.

(** .cpp:58-66 cmp, .cpp:35-41 sorter. *)
Definition less (K : kernels) (a b : Z) : outcome bool :=
  match k_less K with None => UB | Some f => Ok (f a b) end.
Definition copy (K : kernels) (a : Z) : outcome Z :=
  match k_copy K with None => UB | Some f => Ok (f a) end.

(** Element [i] of an array. *)
Definition elem {A} (l : list A) (i : nat) : outcome A :=
  match nth_error l i with Some x => Ok x | None => UB end.

(** std::set: the elements in order.  The red-black tree compares the new element
    with other elements than this, but with one at least if the set is not
    empty. *)
Fixpoint set_find (K : kernels) (v : Z) (u : list Z) : outcome bool :=
  match u with
  | [] => Ok false
  | x :: r =>
      do b <- less K x v;
      if b then set_find K v r else do c <- less K v x; Ok (negb c)
  end.
Fixpoint set_insert (K : kernels) (v : Z) (u : list Z) : outcome (list Z) :=
  match u with
  | [] => Ok [v]
  | x :: r =>
      do b <- less K x v;
      if b then do r' <- set_insert K v r; Ok (x :: r')
      else do c <- less K v x; if c then Ok (v :: u) else Ok u
  end.

(** .cpp:169-184, the loop over the categories. *)
Fixpoint fill_unique (K : kernels) (cats u : list Z) : outcome (list Z) :=
  match cats with
  | [] => Ok u
  | v :: r =>
      do found <- set_find K v u;
      if found then Throw "runtime_error: categories must be unique"
      else do u <- set_insert K v u; fill_unique K r u
  end.
(** .cpp:395-400, the same in factor_categorical, which keeps the first. *)
Fixpoint fill_factor (K : kernels) (values u : list Z) : outcome (list Z) :=
  match values with
  | [] => Ok u
  | v :: r =>
      do found <- set_find K v u;
      if found then fill_factor K r u
      else do u <- set_insert K v u; fill_factor K r u
  end.

(** .cpp:188-190, std::sort of the indices with sorter.  Simplified: an insertion
    sort; std::sort makes other comparisons, at least one if there are two. *)
Fixpoint insert_index (K : kernels) (cats : list Z) (i : nat) (l : list nat) : outcome (list nat) :=
  match l with
  | [] => Ok [i]
  | j :: r =>
      do a <- elem cats j;
      do b <- elem cats i;
      do c <- less K a b;
      if c then do r' <- insert_index K cats i r; Ok (j :: r') else Ok (i :: l)
  end.
Fixpoint sort_indices (K : kernels) (cats : list Z) (l : list nat) : outcome (list nat) :=
  match l with
  | [] => Ok []
  | i :: r => do r' <- sort_indices K cats r; insert_index K cats i r'
  end.

(** Store [v] at [i]. *)
Fixpoint put (l : list nat) (i v : nat) : outcome (list nat) :=
  match l, i with
  | [], _ => UB
  | _ :: r, O => Ok (v :: r)
  | x :: r, S i => do r' <- put r i v; Ok (x :: r')
  end.
(** .cpp:193-196. *)
Fixpoint invert (i2v : list nat) (k : nat) (v2i : list nat) : outcome (list nat) :=
  match i2v with
  | [] => Ok v2i
  | v :: r => do v2i <- put v2i v k; invert r (S k) v2i
  end.

(** .cpp:105-125, make_sorted_categories. *)
Fixpoint map_copy (K : kernels) (l : list Z) : outcome (list Z) :=
  match l with
  | [] => Ok []
  | x :: r => do y <- copy K x; do r' <- map_copy K r; Ok (y :: r')
  end.

(** The members (.hpp:25-33); the storage type by its number of bits. *)
Record cat := Cat { c_sorted : list Z; c_i2v : list nat; c_v2i : list nat; c_storage : Z }.
(** .cpp:201-208. *)
Definition storage_of (n : nat) : Z :=
  if Z.of_nat n <=? 256 then 8 else if Z.of_nat n <=? 65536 then 16 else 32.

(** .cpp:130-141, presorted. *)
Definition presorted (cats : list Z) : cat :=
  let n := List.length cats in Cat cats (seq 0 n) (seq 0 n) (storage_of n).
(** .cpp:142-209, not presorted; [junk] is what is in the memory of
    m_value_to_category_index. *)
Definition construct (K : kernels) (junk : list nat) (cats : list Z) : outcome cat :=
  let n := List.length cats in
  do u <- fill_unique K cats [];
  do i2v <- sort_indices K cats (seq 0 n);
  do v2i <- invert i2v 0 junk;
  do sorted <- map_copy K u;
  Ok (Cat sorted i2v v2i (storage_of n)).
(** .cpp:144-152: what the array is. *)
Inductive array_type := FixedOfScalar | FixedOfOther | OtherArray.
Definition make (K : kernels) (junk : list nat) (tp : array_type) (cats : list Z) : outcome cat :=
  match tp with
  | OtherArray => Throw "type_error: only from a fixed-dim array"
  | FixedOfOther => Throw "type_error: only from a 1-dimensional strided array"
  | FixedOfScalar => construct K junk cats
  end.
(** .cpp:376-406. *)
Definition factor (K : kernels) (values : list Z) : outcome cat :=
  do u <- fill_factor K values [];
  do sorted <- map_copy K u;
  Ok (presorted sorted).

(** .hpp:46-49. *)
Definition count (c : cat) : Z := Z.of_nat (List.length (c_sorted c)).
(** .hpp:66-74, get_category_data_from_value; [value] is a uint32_t. *)
Definition category_of_value (c : cat) (value : Z) : outcome Z :=
  let value := value mod 2 ^ 32 in
  if count c <=? value then Throw "runtime_error: category value is out of bounds"
  else do j <- elem (c_v2i c) (Z.to_nat value); elem (c_sorted c) j.
(** .cpp:264-284 and 286-308, get_value_from_category; [lt] is the kernel of
    total_order for the category type, and the category has that type. *)
Definition value_of_category (lt : Z -> Z -> bool) (c : cat) (x : Z) : outcome Z :=
  do i <- binary_search lt (array_mem (c_sorted c) x) 0 (count c) 1 (-1);
  if i <? 0 then Throw "runtime_error: Unrecognized category value"
  else do v <- elem (c_i2v c) (Z.to_nat i); Ok (Z.of_nat v mod 2 ^ 32).
(** .cpp:214-237, print_data: the category that is printed, or None for NA;
    [cell] is what is stored, below 2^storage. *)
Definition print_data (c : cat) (cell : Z) : outcome (option Z) :=
  if cell <? count c then do x <- category_of_value c cell; Ok (Some x) else Ok None.
(** .cpp:239-251, print_type: the categories printed between the brackets. *)
Fixpoint print_rest (c : cat) (i : Z) (n : nat) : outcome (list Z) :=
  match n with
  | O => Ok []
  | S n => do x <- category_of_value c i; do r <- print_rest c (i + 1) n; Ok (x :: r)
  end.
Definition print_type (c : cat) : outcome (list Z) :=
  do x <- category_of_value c 0;
  do r <- print_rest c 1 (Z.to_nat (count c - 1));
  Ok (x :: r).
(** .cpp:427-431, parse_type_args. *)
Definition parse_type (text : list Z) : outcome cat :=
  Throw "internal_parse_error: categorical type parsing is not implemented".
(** .cpp:310-326, get_categories. *)
Fixpoint get_from (K : kernels) (c : cat) (i : Z) (n : nat) : outcome (list Z) :=
  match n with
  | O => Ok []
  | S n => do x <- category_of_value c i; do y <- copy K x; do r <- get_from K c (i + 1) n; Ok (y :: r)
  end.
Definition get_categories (K : kernels) (c : cat) : outcome (list Z) := get_from K c 0 (Z.to_nat (count c)).

(** .cpp:342-355, operator==, both with categories of the same type; equals_exact
    (src/dynd/array.cpp:295-342) of one-dimensional arrays of one type: the size,
    then the elements. *)
Definition list_eqb {A} (eqb : A -> A -> bool) (l m : list A) : bool :=
  (List.length l =? List.length m)%nat && forallb (fun p => eqb (fst p) (snd p)) (combine l m).
Definition equal (c d : cat) : bool :=
  list_eqb Z.eqb (c_sorted c) (c_sorted d) && list_eqb Nat.eqb (c_i2v c) (c_i2v d) && list_eqb Nat.eqb (c_v2i c) (c_v2i d).
