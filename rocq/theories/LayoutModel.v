(** Model of the default memory layout of arrays: type::get_data_alignment,
    get_arrmeta_size and get_default_data_size, the default construction, copying and
    destruction of arrmeta, and data_destruct, for the concrete type constructors.

    Simplifications.  size_t and uintptr_t are 64 bits wide.  Arrmeta is a memory of
    eight-byte words, read and written at their first byte; a memory_block reference
    in it is the number of the block, 0 for none.  A tuple and a struct have the same
    layout code and are one constructor here.  Symbolic types have no layout. *)
From Verif Require Import Base.

(** Builtin types have their size and alignment from the tables of src/dynd/type.cpp:66-159.
    [Leaf] is a type without arrmeta of its own: string and bytes (16 bytes, alignment 8,
    destructor), type (8, 8, destructor), fixed_string, fixed_bytes, char, categorical
    (no destructor).  [VarDim e] is var * e, [FixedDim n e] is n * e. *)
Inductive lt :=
| Builtin (size al : Z)
| Leaf (size al : Z) (destr : bool)
| VarDim (e : lt)
| Pointer (e : lt)
| Option (e : lt)
| FixedDim (n : Z) (e : lt)
| Tuple (l : list lt).
Definition is_builtin (t : lt) : bool := match t with Builtin _ _ => true | _ => false end.

(** include/dynd/type.hpp:24-26 *)
Definition inc_to_alignment (offset alignment : Z) : Z := Z.land (u64 (offset + alignment - 1)) (u64 (- alignment)).

(** get_data_alignment: var_dim_type.hpp:30, pointer_type.hpp:38, option_type.hpp:79,
    fixed_dim_type.hpp:31 and the loop of tuple_type.hpp:109-121 (struct_type.hpp:65-77). *)
Fixpoint alignment (t : lt) : Z :=
  match t with
  | Builtin _ a | Leaf _ a _ => a
  | VarDim _ | Pointer _ => 8
  | Option e | FixedDim _ e => alignment e
  | Tuple l => fold_left (fun m f => if alignment f >? m then u8 (alignment f) else m) l 1
  end.
(** get_arrmeta_size: sizeof of the metadata structs plus the element's
    (base_dim_type.hpp:28, pointer_type.hpp:40, option_type.hpp:81, tuple_type.hpp:103-124). *)
Fixpoint arrmeta_size (t : lt) : Z :=
  match t with
  | Builtin _ _ | Leaf _ _ _ => 0
  | VarDim e => u64 (24 + arrmeta_size e)
  | Pointer e => u64 (arrmeta_size e + 16)
  | Option e => arrmeta_size e
  | FixedDim _ e => u64 (16 + arrmeta_size e)
  | Tuple l => fold_left (fun o f => u64 (o + arrmeta_size f)) l (u64 (Z.of_nat (List.length l) * 8))
  end.
(** m_arrmeta_offsets: tuple_type.hpp:103-122 *)
Fixpoint offsets_from (l : list lt) (o : Z) : list Z :=
  match l with [] => [] | f :: l => o :: offsets_from l (u64 (o + arrmeta_size f)) end.
Definition arrmeta_offsets (l : list lt) : list Z := offsets_from l (u64 (Z.of_nat (List.length l) * 8)).
(** get_default_data_size: base_type.cpp:124, var_dim_type.hpp:41, option_type.hpp:90,
    fixed_dim_type.cpp:17-23, tuple_type.cpp:47-63 (struct_type.cpp:58-74). *)
Fixpoint default_size (t : lt) : Z :=
  match t with
  | Builtin s _ | Leaf s _ _ => s
  | VarDim _ => 16
  | Pointer _ => 8
  | Option e => default_size e
  | FixedDim n e => u64 (u64 n * default_size e)
  | Tuple l => inc_to_alignment (fold_left (fun s f => u64 (inc_to_alignment s (alignment f) + default_size f)) l 0) (alignment (Tuple l))
  end.
(** fill_default_data_offsets: tuple_type.hpp:199-211 (struct_type.hpp:185-197).  [prev]
    is the field before, at [offs]. *)
Fixpoint data_offsets_from (prev : lt) (offs : Z) (l : list lt) : list Z :=
  match l with
  | [] => []
  | f :: l => let offs := inc_to_alignment (u64 (offs + default_size prev)) (alignment f) in offs :: data_offsets_from f offs l
  end.
Definition fill_default_data_offsets (l : list lt) : list Z :=
  match l with [] => [] | f :: l => 0 :: data_offsets_from f 0 l end.

(** Arrmeta memory. *)
Definition mem := Z -> Z.
Definition st (m : mem) (a v : Z) : mem := fun x => if x =? a then v else m x.
Fixpoint st_list (m : mem) (a : Z) (l : list Z) : mem :=
  match l with [] => m | v :: l => st_list (st m a v) (a + 8) l end.

(** The state of a construction: the memory, the number of the next memory block, how
    many more blocks can be allocated before bad_alloc ([None]: any number), and the
    blocks released so far.  [false] is an exception. *)
Record cstate := { am : mem; next : Z; budget : option nat; released : list Z }.
Definition wr (s : cstate) (a v : Z) : cstate := {| am := st (am s) a v; next := next s; budget := budget s; released := released s |}.
Definition alloc (s : cstate) (a : Z) : cstate * bool :=
  match budget s with
  | Some O => (s, false)
  | b => ({| am := st (am s) a (next s); next := next s + 1; budget := option_map Nat.pred b; released := released s |}, true)
  end.
(** A blockref's destructor; the word keeps its value (config.hpp:262-266). *)
Definition release (s : cstate) (a : Z) : cstate :=
  if am s a =? 0 then s else {| am := am s; next := next s; budget := budget s; released := released s ++ [am s a] |}.

(** arrmeta_destruct: var_dim_type.cpp:387-392, pointer_type.cpp:210-216,
    option_type.cpp:179-183, fixed_dim_type.cpp:288-292, tuple_type.cpp:319-326. *)
Fixpoint destruct (t : lt) (a : Z) (s : cstate) : cstate :=
  match t with
  | Builtin _ _ | Leaf _ _ _ => s
  | VarDim e => destruct e (a + 24) (release s a)
  | Pointer e => destruct e (a + 16) (release s a)
  | Option e => destruct e a s
  | FixedDim _ e => destruct e (a + 16) s
  | Tuple l =>
      (fix go (l : list lt) (offs : list Z) (s : cstate) : cstate :=
         match l, offs with
         | f :: l, o :: offs => go l offs (destruct f (a + o) s)
         | _, _ => s
         end) l (arrmeta_offsets l) s
  end.
(** arrmeta_default_construct with blockref_alloc: var_dim_type.cpp:310-332,
    pointer_type.cpp:172-182, option_type.cpp:154-158, fixed_dim_type.cpp:239-251,
    tuple_type.cpp:258-285 (struct_type.cpp:318-345).  When field [i] throws, the
    destructors of the fields before it run on the arrmeta of field [i], which is what
    the code does (tuple_type.cpp:278).  [done] are the fields before, latest first. *)
Definition cleanup (done : list lt) (a : Z) (s : cstate) : cstate := fold_left (fun s f => destruct f a s) (rev done) s.
Fixpoint construct (t : lt) (a : Z) (s : cstate) : cstate * bool :=
  match t with
  | Builtin _ _ | Leaf _ _ _ => (s, true)
  | VarDim e =>
      let s := wr (wr s (a + 8) (to_signed 64 (default_size e))) (a + 16) 0 in
      let (s, ok) := alloc s a in
      if ok then construct e (a + 24) s else (s, false)
  | Pointer e =>
      let (s, ok) := alloc s a in
      if ok then construct e (a + 16) s else (s, false)
  | Option e => construct e a s
  | FixedDim n e => construct e (a + 16) (wr (wr s a n) (a + 8) (to_signed 64 (default_size e)))
  | Tuple l =>
      (fix go (l : list lt) (offs : list Z) (done : list lt) (s : cstate) : cstate * bool :=
         match l, offs with
         | f :: l, o :: offs =>
             let (s, ok) := construct f (a + o) s in
             if ok then go l offs (f :: done) s else (cleanup done (a + o) s, false)
         | _, _ => (s, true)
         end) l (arrmeta_offsets l) [] {| am := st_list (am s) a (fill_default_data_offsets l); next := next s; budget := budget s; released := released s |}
  end.
(** arrmeta_copy_construct: var_dim_type.cpp:334-345, pointer_type.cpp:184-196,
    option_type.cpp:160-165, fixed_dim_type.cpp:253-262, tuple_type.cpp:287-303.  The
    result lists the blocks a reference was added to. *)
Definition copy_ref (m : mem) (dst src embedded : Z) : mem * list Z :=
  let b := if m src =? 0 then embedded else m src in (st m dst b, if b =? 0 then [] else [b]).
Fixpoint copy_words (m : mem) (dst src : Z) (n : nat) : mem :=
  match n with O => m | S n => copy_words (st m dst (m src)) (dst + 8) (src + 8) n end.
Fixpoint copy_construct (t : lt) (dst src embedded : Z) (m : mem) : mem * list Z :=
  match t with
  | Builtin _ _ | Leaf _ _ _ => (m, [])
  | VarDim e =>
      let m := st (st m (dst + 8) (m (src + 8))) (dst + 16) (m (src + 16)) in
      let (m, r) := copy_ref m dst src embedded in
      let (m, r') := copy_construct e (dst + 24) (src + 24) embedded m in (m, r ++ r')
  | Pointer e =>
      let (m, r) := copy_ref m dst src embedded in
      let (m, r') := copy_construct e (dst + 16) (src + 16) embedded (st m (dst + 8) (m (src + 8))) in (m, r ++ r')
  | Option e => copy_construct e dst src embedded m
  | FixedDim _ e => copy_construct e (dst + 16) (src + 16) embedded (st (st m dst (m src)) (dst + 8) (m (src + 8)))
  | Tuple l =>
      (fix go (l : list lt) (offs : list Z) (m : mem) (r : list Z) : mem * list Z :=
         match l, offs with
         | f :: l, o :: offs => let (m, r') := copy_construct f (dst + o) (src + o) embedded m in go l offs m (r ++ r')
         | _, _ => (m, r)
         end) l (arrmeta_offsets l) (copy_words m dst src (List.length l)) []
  end.

(** Getting at an element: fixed_dim_type::at_single (fixed_dim_type.cpp:144-157) with
    an index in range, field [i] of a tuple (foreach_leading, tuple_type.cpp:360-368);
    an option is looked through.  The type, arrmeta and data of the element. *)
Fixpoint at_path (m : mem) (t : lt) (a data : Z) (path : list Z) {struct t} : option (lt * Z * Z) :=
  match path with
  | [] => Some (t, a, data)
  | i :: path' =>
      match t with
      | Option e => at_path m e a data path
      | FixedDim n e => if (0 <=? i) && (i <? n) then at_path m e (a + 16) (data + i * m (a + 8)) path' else None
      | Tuple l =>
          (fix go (l : list lt) (offs : list Z) (k : Z) : option (lt * Z * Z) :=
             match l, offs with
             | f :: l, o :: offs => if k =? i then at_path m f (a + o) (data + m (a + 8 * k)) path' else go l offs (k + 1)
             | _, _ => None
             end) l (arrmeta_offsets l) 0
      | _ => None
      end
  end.

(** type_flag_destructor: string_type.hpp:86, bytes_type.hpp:27, type_type.cpp:15; inherited
    by fixed_dim (fixed_dim_type.hpp:35), option (option_type.hpp:80), tuple
    (tuple_type.hpp:118) and pointer (pointer_type.hpp:39), not by var_dim. *)
Fixpoint has_destructor (t : lt) : bool :=
  match t with
  | Builtin _ _ => false
  | Leaf _ _ d => d
  | VarDim _ => false
  | Pointer e | Option e | FixedDim _ e => has_destructor e
  | Tuple l => existsb has_destructor l
  end.
(** data_destruct and data_destruct_strided: the addresses of the values whose
    destructor runs.  string_type.cpp:121-133, bytes_type.cpp:94-104, type_type.cpp:36-44,
    option_type.cpp:192-198, fixed_dim_type.cpp:370-385, tuple_type.cpp:330-358 (the same
    in struct_type.cpp:392-420), base_type.cpp:157-168 for the types that do not override
    them (pointer_type among them).  Calling extended() of a builtin type is undefined. *)
Fixpoint cat (l : list (outcome (list Z))) : outcome (list Z) :=
  match l with [] => Ok [] | x :: l => do a <- x; do b <- cat l; Ok (a ++ b) end.
Definition CHUNK : nat := 128.  (* DYND_BUFFER_CHUNK_SIZE, config.hpp:33 *)
(** The chunks of [count] elements: the index and the number of elements of each. *)
Fixpoint chunks (fuel : nat) (i count : nat) : list (nat * nat) :=
  match fuel, count with
  | S fuel, S _ => let c := Nat.min count CHUNK in (i, c) :: chunks fuel (i + c) (count - c)
  | _, _ => []
  end.
Fixpoint destruct_strided (m : mem) (t : lt) (a data stride : Z) (count : nat) : outcome (list Z) :=
  match t with
  | Builtin _ _ => UB
  | Leaf _ _ true => Ok (map (fun i => data + Z.of_nat i * stride) (seq 0 count))
  | Leaf _ _ false => Throw "runtime_error"
  | VarDim _ => Throw "unreachable"
  | Pointer _ => Throw "runtime_error"
  | Option e => destruct_strided m e a data stride count
  | FixedDim n e => cat (map (fun i => destruct_strided m e (a + 16) (data + Z.of_nat i * stride) (m (a + 8)) (Z.to_nat n)) (seq 0 count))
  | Tuple l =>
      cat (map (fun ic : nat * nat =>
        (fix go (l : list lt) (offs : list Z) (k : Z) : outcome (list Z) :=
           match l, offs with
           | f :: l, o :: offs =>
               do x <- (if has_destructor f then destruct_strided m f (a + o) (data + Z.of_nat (fst ic) * stride + m (a + 8 * k)) stride (snd ic) else Ok []);
               do y <- go l offs (k + 1); Ok (x ++ y)
           | _, _ => Ok []
           end) l (arrmeta_offsets l) 0) (chunks count 0 count))
  end.
Fixpoint data_destruct (m : mem) (t : lt) (a data : Z) : outcome (list Z) :=
  match t with
  | Builtin _ _ => UB
  | Leaf _ _ true => Ok [data]
  | Leaf _ _ false => Throw "runtime_error"
  | VarDim _ => Throw "unreachable"
  | Pointer _ => Throw "runtime_error"
  | Option e => data_destruct m e a data
  | FixedDim n e => destruct_strided m e (a + 16) data (m (a + 8)) (Z.to_nat n)
  | Tuple l =>
      (fix go (l : list lt) (offs : list Z) (k : Z) : outcome (list Z) :=
         match l, offs with
         | f :: l, o :: offs =>
             do x <- (if has_destructor f then data_destruct m f (a + o) (data + m (a + 8 * k)) else Ok []);
             do y <- go l offs (k + 1); Ok (x ++ y)
         | _, _ => Ok []
         end) l (arrmeta_offsets l) 0
  end.

(** nd::make_buffer and nd::empty (buffer.hpp:243-257, 48-55): one allocation holding the
    48 bytes of buffer_memory_block, the arrmeta and the data.  The offset of the data
    and the number of bytes allocated. *)
Definition buffer_layout (t : lt) : Z * Z :=
  let off := inc_to_alignment (u64 (48 + arrmeta_size t)) (alignment t) in
  (off, u64 (48 + u64 (u64 (off + default_size t) - 48))).
(** ~buffer_memory_block, buffer_memory_block.hpp:70-92, of an array that owns its data. *)
Definition buffer_destroy (t : lt) (a data : Z) (s : cstate) : cstate * outcome (list Z) :=
  (destruct t a s, if has_destructor t then data_destruct (am s) t a data else Ok []).
