(** Model of src/dynd/type_registry.cpp: the table of type ids. *)
From Verif Require Import Base TypesModel.

(** An id_info, include/dynd/type_registry.hpp:42-73.  Types and functions are
    represented by their identity, [None] is the uninitialised type or the null
    function. *)
Record id_info := { name : string; base_id : Z; singleton : option Z; construct : option Z; parse_args : option Z }.
(** [default_parse_type_args], the function put in when no parser is given. *)
Definition default_parse : Z := -1.

(** The table is a std::vector; [gen] counts the reallocations, so that a pointer
    to an entry is (gen, index).  [cap] is the capacity. *)
Record registry := { infos : list id_info; cap : nat; gen : nat }.
Definition row (n : string) (b : Z) (s c p : bool) (k : Z) : id_info :=
  {| name := n; base_id := b; singleton := if s then Some k else None; construct := if c then Some k else None; parse_args := if p then Some k else None |}.
(** type_registry.cpp:35-96.  The distinct types and functions of the rows are
    numbered by the row. *)
Definition initial_infos : list id_info := [
  row "" 0 false false false 0;
  row "Any" 0 true false false 1; row "Scalar" 1 true false false 2; row "Bool" 2 true false false 3; row "bool" 3 true false false 4;
  row "Int" 2 true false false 5; row "int8" 5 true false false 6; row "int16" 5 true false false 7; row "int32" 5 true false false 8;
  row "int64" 5 true false false 9; row "int128" 5 true false false 10;
  row "UInt" 2 true false false 11; row "uint8" 11 true false false 12; row "uint16" 11 true false false 13; row "uint32" 11 true false false 14;
  row "uint64" 11 true false false 15; row "uint128" 11 true false false 16;
  row "Float" 2 true false false 17; row "float16" 17 true false false 18; row "float32" 17 true false false 19; row "float64" 17 true false false 20;
  row "float128" 17 true false false 21;
  row "Complex" 2 true false false 22; row "complex32" 22 true false false 23; row "complex64" 22 true false false 24;
  row "void" 2 true false false 25; row "Dim" 1 false true false 26;
  row "Bytes" 2 true false false 27; row "FixedBytes" 27 true false false 28; row "fixed_bytes" 28 false false true 29; row "bytes" 27 true false true 30;
  row "String" 2 true false false 31; row "FixedString" 31 true false false 32; row "fixed_string" 32 false false true 33;
  row "char" 31 true false true 34; row "string" 31 true false false 35;
  row "tuple" 2 false false false 36; row "struct" 2 false false false 37;
  row "Fixed" 26 false true false 38; row "fixed" 38 false false true 39; row "var" 26 false true false 40;
  row "Categorical" 2 true false false 41; row "categorical" 41 false false false 42;
  row "option" 1 false false true 43; row "pointer" 1 false false true 44; row "memory" 1 false false false 45;
  row "type" 2 true false false 46; row "array" 2 true false false 47; row "callable" 2 false false false 48;
  row "Expr" 1 false false false 49; row "adapt" 49 false false false 50; row "expr" 49 false false false 51;
  row "cuda_host" 45 false false true 52; row "cuda_device" 45 false false true 53; row "State" 1 false false false 54;
  row "" 1 false false false 55; row "" 1 false false false 56; row "" 1 false false false 57; row "" 1 false false false 58; row "" 1 false false false 59;
  row "" 1 false false false 60].
(** A vector made from an initialiser list has room for exactly its elements. *)
Definition initial : registry := {| infos := initial_infos; cap := List.length initial_infos; gen := 0 |}.

(** new_id, type_registry.cpp:128-136.  emplace_back reallocates (doubling) when the
    vector is full.  The enum type_id_t is taken to be a 32-bit unsigned integer, as
    the compilers make it; 2^32 ids are taken never to be reached. *)
Definition new_id (r : registry) (n : string) (base : Z) : registry * Z :=
  let len := List.length (infos r) in
  let e := {| name := n; base_id := base; singleton := None; construct := None; parse_args := None |} in
  let r' :=
    if Nat.ltb len (cap r) then {| infos := infos r ++ [e]; cap := cap r; gen := gen r |}
    else {| infos := infos r ++ [e]; cap := 2 * len; gen := S (gen r) |} in
  (r', Z.of_nat len).

(** lookup_id_by_name, type_registry.cpp:138-147: the id and a pointer to the entry,
    (generation, index), or null. *)
Fixpoint find_name (l : list id_info) (i : nat) (n : string) : option nat :=
  match l with
  | [] => None
  | e :: l => if String.eqb (name e) n then Some i else find_name l (S i) n
  end.
Definition lookup_id_by_name (r : registry) (n : string) : Z * option (nat * nat) :=
  match find_name (infos r) 0 n with
  | Some i => (Z.of_nat i, Some (gen r, i))
  | None => (0, None)
  end.
(** Reading through a pointer returned by a lookup: freed memory once the vector has
    moved. *)
Definition deref (r : registry) (p : nat * nat) : outcome id_info :=
  if Nat.eqb (fst p) (gen r) then match nth_error (infos r) (snd p) with Some e => Ok e | None => UB end else UB.

Definition set_nth (l : list id_info) (i : nat) (e : id_info) : list id_info := firstn i l ++ [e] ++ skipn (S i) l.
Definition is_some {A} (o : option A) : bool := match o with Some _ => true | None => false end.
(** register_known_type_id_constructor, type_registry.cpp:149-172: the new table and
    what the caller sees.  A negative id cannot be passed (the enum is unsigned). *)
Definition register_known (r : registry) (id : Z) (s c p : option Z) : registry * outcome unit :=
  if (id <? 0) || (id >=? Z.of_nat (List.length (infos r))) then (r, Throw "out_of_range") else
  match nth_error (infos r) (Z.to_nat id) with
  | None => (r, UB)
  | Some ii =>
      if is_some (singleton ii) || is_some (construct ii) || is_some (parse_args ii) then (r, Throw "runtime_error") else
      let put e := {| infos := set_nth (infos r) (Z.to_nat id) e; cap := cap r; gen := gen r |} in
      match c with
      | Some f => (put {| name := name ii; base_id := base_id ii; singleton := s; construct := Some f;
                          parse_args := match p with Some q => Some q | None => Some default_parse end |}, Ok tt)
      | None =>
          let r' := put {| name := name ii; base_id := base_id ii; singleton := s; construct := None; parse_args := parse_args ii |} in
          match p with
          | Some _ => (r', Throw "runtime_error")
          | None => (r', Ok tt)
          end
      end
  end.
(** type::get_base_id, src/dynd/type.cpp:847. *)
Definition get_base_id (r : registry) (id : Z) : outcome Z :=
  match nth_error (infos r) (Z.to_nat id) with Some e => if id <? 0 then UB else Ok (base_id e) | None => UB end.

(** A history of calls. *)
Inductive call := New (n : string) (base : Z) | Lookup (n : string) | Register (id : Z) (s c p : option Z).
Inductive answer := Id (id : Z) | Found (id : Z) (p : option (nat * nat)) | Done (o : outcome unit).
Definition step (r : registry) (c : call) : registry * answer :=
  match c with
  | New n b => let '(r', i) := new_id r n b in (r', Id i)
  | Lookup n => let '(i, p) := lookup_id_by_name r n in (r, Found i p)
  | Register id s c p => let '(r', o) := register_known r id s c p in (r', Done o)
  end.
Fixpoint run (r : registry) (h : list call) : registry * list answer :=
  match h with
  | [] => (r, [])
  | c :: h => let '(r', a) := step r c in let '(r'', l) := run r' h in (r'', a :: l)
  end.
