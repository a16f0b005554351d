(** Model of src/dynd/type_promotion.cpp and of is_lossless_assignment
    (src/dynd/type.cpp:849-968). *)
From Verif Require Import Base TypesModel.

(** The types promotion looks at.  [Adapt v s] is an expression type with value type
    [v] and storage [s]; [Other n] is any other non-builtin type of a kind promotion
    does not mention. *)
Inductive ty :=
| B (b : builtin) | Str | FixedStr (n : Z) | Chr | Opt (t : ty) | Var (t : ty) | FixedDim (n : Z) (t : ty) | FixedKind (t : ty) | TypeTy
| Adapt (v s : ty) | Other (n : Z).

(** type::value_type, src/dynd/type.cpp:300-307. *)
Definition value_type (t : ty) : ty := match t with Adapt v _ => v | _ => t end.
(** The constructor of option_type, include/dynd/types/option_type.hpp:78-88. *)
Definition make_option (t : ty) : outcome ty := match t with Opt _ => Throw "type_error" | _ => Ok (Opt t) end.

Definition is_void (b : builtin) : bool := builtin_eqb b void.
Definition int_size : Z := 4.
Definition max_id (a b : builtin) : builtin := if id_of a <? id_of b then b else a.

(** type_promotion.cpp:45-173: the builtin half. *)
Definition promote_builtin (a b : builtin) : outcome builtin :=
  if is_void a then Ok b else
  match base_kind a with
  | bool_kind =>
      if is_void b then Ok a else
      match base_kind b with
      | bool_kind => Ok int32
      | int_kind | uint_kind => Ok (if data_size b >=? int_size then b else int32)
      | float_kind => Ok (if negb (builtin_eqb b float16) then b else float32)
      | _ => Ok b
      end
  | int_kind =>
      if is_void b then Ok a else
      match base_kind b with
      | bool_kind => Ok (if data_size a >=? int_size then a else int32)
      | int_kind => Ok (if (data_size a <? int_size) && (data_size b <? int_size) then int32 else if data_size a >=? data_size b then a else b)
      | uint_kind => Ok (if (data_size a <? int_size) && (data_size b <? int_size) then int32 else if data_size a >? data_size b then a else b)
      | float_kind => Ok (if negb (builtin_eqb b float16) then b else float32)
      | complex_kind => Ok b
      | _ => Throw "type_error"
      end
  | uint_kind =>
      if is_void b then Ok a else
      match base_kind b with
      | bool_kind => Ok (if data_size a >=? int_size then a else int32)
      | int_kind => Ok (if (data_size a <? int_size) && (data_size b <? int_size) then int32 else if data_size a >=? data_size b then a else b)
      | uint_kind => Ok (if (data_size a <? int_size) && (data_size b <? int_size) then int32 else if data_size a >=? data_size b then a else b)
      | float_kind => Ok (if negb (builtin_eqb b float16) then b else float32)
      | complex_kind => Ok b
      | _ => Throw "type_error"
      end
  | float_kind =>
      if is_void b then Ok a else
      match base_kind b with
      | bool_kind | int_kind | uint_kind => Ok a
      | float_kind => Ok (max_id (max_id a b) float32)
      | complex_kind => Ok (if builtin_eqb a float64 && builtin_eqb b complex_float32 then complex_float64 else b)
      | _ => Throw "type_error"
      end
  | complex_kind =>
      if is_void b then Ok a else
      match base_kind b with
      | bool_kind | int_kind | uint_kind | float_kind => Ok (if builtin_eqb a complex_float32 && builtin_eqb b float64 then complex_float64 else a)
      | complex_kind => Ok (if data_size a >=? data_size b then a else b)
      | _ => Throw "type_error"
      end
  | _ => Throw "type_error"
  end.

(** The base ids of the table, type_registry.cpp:58-90, as far as promotion asks. *)
Definition is_string_id (t : ty) : bool := match t with Str | FixedStr _ => true | _ => false end.
Definition base_is_string_kind (t : ty) : bool := match t with Str | Chr => true | _ => false end.
Definition base_is_dim_kind (t : ty) : bool := match t with Var _ | FixedKind _ => true | _ => false end.
Definition is_var (t : ty) : bool := match t with Var _ => true | _ => false end.
Definition element (t : ty) : outcome ty := match t with Var e | FixedKind e | FixedDim _ e => Ok e | _ => UB end.

(** promote_types_arithmetic, type_promotion.cpp:37-227.  The fuel bounds the
    recursion. *)
Definition as_builtin (t : ty) : option builtin := match t with B b => Some b | _ => None end.
Definition as_option (t : ty) : option ty := match t with Opt t => Some t | _ => None end.
Definition is_type_type (t : ty) : bool := match t with TypeTy => true | _ => false end.
Definition is_void_type (t : ty) : bool := match t with B b => is_void b | _ => false end.
Fixpoint promote (fuel : nat) (t0 t1 : ty) : outcome ty :=
  match fuel with
  | O => NoFuel
  | S fuel =>
      let v0 := value_type t0 in
      let v1 := value_type t1 in
      match as_builtin v0, as_builtin v1 with
      | Some a, Some b => do r <- promote_builtin a b; Ok (B r)
      | _, _ =>
          if is_string_id v0 && is_string_id v1 then Ok Str else
          match as_option v0, as_option v1 with
          | Some a, Some b => do r <- promote fuel a b; make_option r
          | Some a, None => do r <- promote fuel a v1; make_option r
          | None, Some b => do r <- promote fuel v0 b; make_option r
          | None, None =>
              if is_type_type v0 && base_is_string_kind v1 then Ok v0
              else if base_is_string_kind v0 && is_type_type v1 then Ok v1
              else if is_void_type v0 then Ok v1
              else if is_void_type v1 then Ok v0
              else if (is_var v0 && base_is_dim_kind v1) || (is_var v1 && base_is_dim_kind v0) then
                do e0 <- element v0; do e1 <- element v1; do r <- promote fuel e0 e1; Ok (Var r)
              else Throw "type_error"
          end
      end
  end.
Fixpoint size (t : ty) : nat :=
  match t with Opt t | Var t | FixedDim _ t | FixedKind t => S (size t) | Adapt v s => S (size v + size s) | _ => 1%nat end.
Definition promote_types_arithmetic (t0 t1 : ty) : outcome ty := promote (size t0 + size t1) t0 t1.

(** is_lossless_assignment on builtins, src/dynd/type.cpp:853-955. *)
Definition lossless_builtin (dst src : builtin) : outcome bool :=
  let sd := data_size dst in
  let ss := data_size src in
  match base_kind src, base_kind dst with
  | bool_kind, (bool_kind | int_kind | uint_kind | float_kind | complex_kind) => Ok true
  | int_kind, bool_kind => Ok false
  | int_kind, int_kind => Ok (sd >=? ss)
  | int_kind, uint_kind => Ok false
  | int_kind, float_kind => Ok (sd >? ss)
  | int_kind, complex_kind => Ok (sd >? 2 * ss)
  | uint_kind, bool_kind => Ok false
  | uint_kind, int_kind => Ok (sd >? ss)
  | uint_kind, uint_kind => Ok (sd >=? ss)
  | uint_kind, float_kind => Ok (sd >? ss)
  | uint_kind, complex_kind => Ok (sd >? 2 * ss)
  | float_kind, (bool_kind | int_kind | uint_kind) => Ok false
  | float_kind, float_kind => Ok (sd >=? ss)
  | float_kind, complex_kind => Ok (sd >=? 2 * ss)
  | complex_kind, (bool_kind | int_kind | uint_kind | float_kind) => Ok false
  | complex_kind, complex_kind => Ok (sd >=? ss)
  | _, _ => Throw "runtime_error"
  end.
(** type.cpp:958-967 with option_type::is_lossless_assignment,
    src/dynd/types/option_type.cpp:135-141; options of builtins only. *)
Inductive oty := Bare (b : builtin) | Optional (b : builtin).
Definition lossless (dst src : oty) : outcome bool :=
  match dst, src with
  | Bare d, Bare s => lossless_builtin d s
  | Optional d, Bare s => lossless_builtin d s
  | Bare d, Optional s => lossless_builtin d s
  | Optional d, Optional s => lossless_builtin d s
  end.
(** The compile-time trait is_lossless_assignable, type_id.hpp:311-373, for the
    arithmetic types. *)
Definition trait_lossless (dst src : builtin) : bool :=
  match base_kind dst, base_kind src with
  | float_kind, (int_kind | uint_kind) => true
  | complex_kind, bool_kind => true
  | complex_kind, (int_kind | uint_kind) => false
  | complex_kind, float_kind => data_size dst / 2 >? data_size src
  | int_kind, int_kind | uint_kind, uint_kind | float_kind, float_kind | complex_kind, complex_kind => data_size dst >? data_size src
  | _, _ => false
  end.
