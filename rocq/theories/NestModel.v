(** Arrays made from nested lists: nd::array from std::vector and
    std::initializer_list, of any depth: the type that is inferred
    (include/dynd/type.hpp) and the kernels that store the values
    (include/dynd/kernels/init_kernel.hpp).

    Elements are numbers of a builtin type of [es] bytes, [es] a parameter.
    Sizes are mathematical integers: what a list that exists takes does not
    overflow.  The address of the first element of an empty vector is taken by
    the code and is no access here. *)
From Verif Require Import Base.
Open Scope Z_scope.

(** Values: nested containers. *)
Inductive nest := Leaf (v : Z) | Node (l : list nest).
(** Which containers: std::vector, or std::initializer_list (buffer.hpp:76-96, to a
    depth of three; the templates do not depend on it). *)
Inductive kind := Vec | IList.

Definition len {A : Type} (l : list A) : Z := Z.of_nat (List.length l).

(** ** The shape and the type: type.hpp:991-1048, container_traits.  The first
    element is read whatever the size (1016-1017); the loop is 1019-1028. *)
Fixpoint merge (a b : list Z) : list Z :=
  match a, b with
  | x :: a, y :: b => (if x =? y then x else -1) :: merge a b
  | _, _ => []
  end.
Fixpoint shape_loop (f : nest -> outcome (list Z)) (r : list nest) (res : list Z) : outcome (list Z) :=
  match r with
  | [] => Ok res
  | y :: r => do s <- f y; shape_loop f r (merge res s)
  end.
Fixpoint shape (ndim : nat) (x : nest) {struct ndim} : outcome (list Z) :=
  match ndim, x with
  | S d, Node l =>
      match d with
      | O => Ok [len l]
      | S _ =>
          match l with
          | [] => UB
          | y :: r => do s <- shape d y; do s <- shape_loop (shape d) r s; Ok (len l :: s)
          end
      end
  | _, _ => Ok []
  end.
Inductive ty := Elem | Fixed (n : Z) (t : ty) | Var (t : ty).
(** 997-1011, 1040-1045: equivalent. *)
Fixpoint from_shape (s : list Z) : ty :=
  match s with
  | [] => Elem
  | n :: s => if n =? -1 then Var (from_shape s) else Fixed n (from_shape s)
  end.

Section Store.
Variable es : Z.

(** types/fixed_dim_type.cpp:17-23, get_default_data_size; sizeof of
    var_dim_type::data_type is 16 (var_dim_type.hpp:24-27). *)
Fixpoint data_size (t : ty) : Z :=
  match t with Elem => es | Fixed n t => n * data_size t | Var _ => 16 end.

(** ** Memory: blocks of bytes.  Block 0 is the data of the array, the others are
    made by memory_block::alloc.  A cell is a value of [es] bytes, or a
    var_dim_type::data_type. *)
Inductive cell := Val (v : Z) | Ref (b : nat) (n : Z).
Record mem := Mem { sizes : list Z; cells : nat -> Z -> option cell }.
Definition width (c : cell) : Z := match c with Val _ => es | Ref _ _ => 16 end.
Definition write (m : mem) (b : nat) (off : Z) (c : cell) : outcome mem :=
  match nth_error (sizes m) b with
  | Some n =>
      if (0 <=? off) && (off + width c <=? n) then
        Ok (Mem (sizes m) (fun b' o => if (b' =? b)%nat && (o =? off) then Some c else cells m b' o))
      else UB
  | None => UB
  end.
Definition alloc (m : mem) (n : Z) : mem * nat := (Mem (sizes m ++ [n]) (cells m), List.length (sizes m)).

(** ** init_kernel.hpp *)
Inductive kern := KElem | KFixed (size stride : Z) (child : kern) | KVar (child : kern).
(** The constructors: 167-170 for a fixed dimension (the metadata is what
    fixed_dim_type.cpp:239-250 writes), 219-222 for a var dimension; which of
    them: 243-297 for initializer lists, by the type only at the last depth;
    314-317 for vectors.  A fixed kernel on a var dimension takes the bits of the
    pointer to the memory block for the size: UB. *)
Fixpoint mk_kernel (kd : kind) (ndim : nat) (t : ty) : outcome kern :=
  match ndim with
  | O => Ok KElem
  | S d =>
      match t with
      | Fixed n t => do c <- mk_kernel kd d t; Ok (KFixed n (data_size t) c)
      | Var t =>
          match kd, d with
          | IList, O => do c <- mk_kernel kd d t; Ok (KVar c)
          | _, _ => UB
          end
      | Elem => Throw "runtime_error: unexpected type id"
      end
  end.
(** What the loops of 46-51, 183-188, 230-235 add to [data] after an element. *)
Definition advance (k : kern) (x : nest) : Z :=
  match k, x with
  | KElem, _ => es
  | KFixed _ stride _, Node l => len l * stride
  | KFixed _ _ _, Leaf _ => 0
  | KVar _, _ => 16
  end.
(** contiguous: [size] elements from [values]. *)
Fixpoint contiguous (single : mem -> nat -> Z -> nest -> outcome mem) (adv : nest -> Z) (size : nat) (values : list nest)
    (m : mem) (b : nat) (off : Z) : outcome mem :=
  match size with
  | O => Ok m
  | S size =>
      match values with
      | [] => UB
      | x :: values => do m <- single m b off x; contiguous single adv size values m b (off + adv x)
      end
  end.
(** single: 44, 181, 224-228.  A var dimension has elements for a child here, so
    its memory block gives [es] bytes for each. *)
Fixpoint single (k : kern) (m : mem) (b : nat) (off : Z) (x : nest) : outcome mem :=
  match k, x with
  | KElem, Leaf v => write m b off (Val v)
  | KFixed size _ child, Node l => contiguous (single child) (advance child) (Z.to_nat size) l m b off
  | KVar child, Node l =>
      let (m, b') := alloc m (len l * es) in
      do m <- write m b off (Ref b' (len l));
      contiguous (single child) (advance child) (List.length l) l m b' 0
  | _, _ => UB
  end.
(** ** include/dynd/buffer.hpp:23-27, 40-62, 69-95: the constructors. *)
Definition make_array (kd : kind) (ndim : nat) (x : nest) : outcome (ty * mem) :=
  do s <- shape ndim x;
  let t := from_shape s in
  do k <- mk_kernel kd ndim t;
  do m <- single k (Mem [data_size t] (fun _ _ => None)) 0 0 x;
  Ok (t, m).
End Store.
