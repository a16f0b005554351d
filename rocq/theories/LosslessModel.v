(** is_lossless_assignment: the question whether a destination type can hold
    every value of a source type.

    Not modelled: categorical types, the memory (CUDA) types and constructed
    type variables.  The types are those of MatchModel.  A comparison of
    extended() with this is a comparison of pointers: a function is called on
    the destination whenever that is not builtin, so the comparison succeeds
    exactly then; equal pointers are equal types, and type equality is
    reflexive, so the shortcuts for equal pointers add nothing. *)
From Verif Require Import Base TypesModel MatchModel.
Open Scope Z_scope.

(** src/dynd/type.cpp:853-967, both types builtin.  The kinds String and Bytes
    have no builtin member. *)
Definition lossless_builtin (dst src : builtin) : outcome bool :=
  match base_kind src, base_kind dst with
  | bool_kind, (bool_kind | int_kind | uint_kind | float_kind | complex_kind) => Ok true
  | int_kind, bool_kind => Ok false
  | int_kind, int_kind => Ok (data_size src <=? data_size dst)
  | int_kind, uint_kind => Ok false
  | int_kind, float_kind => Ok (data_size src <? data_size dst)
  | int_kind, complex_kind => Ok (2 * data_size src <? data_size dst)
  | uint_kind, bool_kind => Ok false
  | uint_kind, int_kind => Ok (data_size src <? data_size dst)
  | uint_kind, uint_kind => Ok (data_size src <=? data_size dst)
  | uint_kind, float_kind => Ok (data_size src <? data_size dst)
  | uint_kind, complex_kind => Ok (2 * data_size src <? data_size dst)
  | float_kind, (bool_kind | int_kind | uint_kind) => Ok false
  | float_kind, float_kind => Ok (data_size src <=? data_size dst)
  | float_kind, complex_kind => Ok (2 * data_size src <=? data_size dst)
  | complex_kind, (bool_kind | int_kind | uint_kind | float_kind) => Ok false
  | complex_kind, complex_kind => Ok (data_size src <=? data_size dst)
  | _, _ => Throw "unhandled built-in case"
  end.

(** src/dynd/type.cpp:975 with a builtin destination: the source's function,
    called with another destination than itself: option_type.cpp:135-141 and
    pointer_type.cpp:149-155 go on with their parts, base_type.cpp:119-122
    compares types of different ids, the others return false. *)
Fixpoint lossless_to_builtin (dst : builtin) (src : ty) : outcome bool :=
  match src with
  | TBuiltin b => lossless_builtin dst b
  | TOption t | TPointer t => lossless_to_builtin dst t
  | _ => Ok false
  end.

(** The base id is bytes_kind: the types bytes and FixedBytes,
    type_registry.cpp:64-66 (fixed_bytes lies below FixedBytes). *)
Definition base_is_bytes (t : ty) : bool :=
  match t with TLeaf (LBytes _) | TKind KFixedBytes => true | _ => false end.

(** dynd::is_lossless_assignment, src/dynd/type.cpp:853-977, and the functions
    of the types: option_type.cpp:135, pointer_type.cpp:149, bytes_type.cpp:71,
    fixed_bytes_type.cpp:39, string_type.cpp:98, fixed_string_type.cpp:112,
    char_type.cpp:52, fixed_dim_type.cpp:221, var_dim_type.cpp:287,
    tuple_type.cpp:233, struct_type.cpp:147, callable_type.cpp:131,
    typevar_type.cpp:40, typevar_dim_type.cpp:32, ellipsis_dim_type.cpp:35,
    any_kind_type.cpp:46, fixed_dim_kind_type.cpp:87, pow_dimsym_type.cpp:62,
    dim_fragment_type.cpp:182, fixed_bytes_kind_type.cpp:32,
    fixed_string_kind_type.cpp:32; the rest is base_type.cpp:119. *)
Fixpoint lossless (dst src : ty) {struct dst} : outcome bool :=
  match dst with
  | TBuiltin d => lossless_to_builtin d src
  | TOption t | TPointer t => lossless t src
  | TLeaf (LBytes _) => Ok (base_is_bytes src)
  | TLeaf (LFixedBytes n _) => Ok (match src with TLeaf (LFixedBytes m _) => n =? m | _ => false end)
  | TLeaf (LString | LFixedString _ _ | LChar _) => Ok false
  | TAny | TFixedDimKind _ | TPow _ _ _ | TDimFragment _ => Ok false
  | TKind (KFixedBytes | KFixedString) => Ok false
  | _ => Ok (ty_eqb dst src)
  end.
