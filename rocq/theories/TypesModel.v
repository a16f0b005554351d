(** The builtin types and their tables. *)
From Verif Require Import Base.

(** The ids [is_builtin_type] accepts, include/dynd/types/type_id.hpp:176-207. *)
Inductive builtin :=
| uninitialized | bool_ | int8 | int16 | int32 | int64 | int128 | uint8 | uint16 | uint32 | uint64 | uint128
| float16 | float32 | float64 | float128 | complex_float32 | complex_float64 | void.
(** The base ids of the builtins, from the table src/dynd/type_registry.cpp:34-60. *)
Inductive kind := uninitialized_kind | bool_kind | int_kind | uint_kind | float_kind | complex_kind | scalar_kind.
Definition base_kind (b : builtin) : kind :=
  match b with
  | uninitialized => uninitialized_kind
  | bool_ => bool_kind
  | int8 | int16 | int32 | int64 | int128 => int_kind
  | uint8 | uint16 | uint32 | uint64 | uint128 => uint_kind
  | float16 | float32 | float64 | float128 => float_kind
  | complex_float32 | complex_float64 => complex_kind
  | void => scalar_kind
  end.
(** The position in enum type_id_t, type_id.hpp:19-60. *)
Definition id_of (b : builtin) : Z :=
  match b with
  | uninitialized => 0 | bool_ => 4 | int8 => 6 | int16 => 7 | int32 => 8 | int64 => 9 | int128 => 10
  | uint8 => 12 | uint16 => 13 | uint32 => 14 | uint64 => 15 | uint128 => 16
  | float16 => 18 | float32 => 19 | float64 => 20 | float128 => 21 | complex_float32 => 23 | complex_float64 => 24 | void => 25
  end.
Definition builtin_eqb (a b : builtin) : bool := id_of a =? id_of b.
(** type::get_data_size, src/dynd/type.cpp:111-154 (LP64). *)
Definition data_size (b : builtin) : Z :=
  match b with
  | uninitialized | void => 0
  | bool_ | int8 | uint8 => 1
  | int16 | uint16 | float16 => 2
  | int32 | uint32 | float32 => 4
  | int64 | uint64 | float64 | complex_float32 => 8
  | int128 | uint128 | float128 | complex_float64 => 16
  end.
(** type::get_data_alignment, src/dynd/type.cpp:66-109.  int128, uint128 and
    float128 are pairs of 64-bit words here; complex aligns like its parts. *)
Definition data_alignment (b : builtin) : Z :=
  match b with
  | uninitialized | void => 1
  | bool_ | int8 | uint8 => 1
  | int16 | uint16 | float16 => 2
  | int32 | uint32 | float32 | complex_float32 => 4
  | int64 | uint64 | float64 | int128 | uint128 | float128 | complex_float64 => 8
  end.
Definition all_builtins : list builtin :=
  [uninitialized; bool_; int8; int16; int32; int64; int128; uint8; uint16; uint32; uint64; uint128; float16; float32; float64; float128; complex_float32; complex_float64; void].
Lemma all_builtins_complete b : In b all_builtins.
Proof. destruct b; cbn [all_builtins In]; auto 20. Qed.
Lemma builtin_eqb_eq a b : builtin_eqb a b = true <-> a = b.
Proof. destruct a, b; vm_compute; split; congruence. Qed.
