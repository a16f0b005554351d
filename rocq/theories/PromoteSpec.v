(** Specification vocabulary for C40, C56: the values of the builtin types, and the
    documented promotion rules. *)
From Coq Require Import QArith.
From Verif Require Import Base TypesModel.
Open Scope Z_scope.

(** Real parts: finite numbers and the special floating point values. *)
Inductive rval := Num (q : Q) | Special (payload : Z).
(** Integer ranges and floating point formats (precision, least and greatest
    exponent of the unit in the last place). *)
Definition range (b : builtin) : option (Z * Z) :=
  match b with
  | bool_ => Some (0, 1)
  | int8 => Some (- 2 ^ 7, 2 ^ 7 - 1) | int16 => Some (- 2 ^ 15, 2 ^ 15 - 1) | int32 => Some (- 2 ^ 31, 2 ^ 31 - 1)
  | int64 => Some (- 2 ^ 63, 2 ^ 63 - 1) | int128 => Some (- 2 ^ 127, 2 ^ 127 - 1)
  | uint8 => Some (0, 2 ^ 8 - 1) | uint16 => Some (0, 2 ^ 16 - 1) | uint32 => Some (0, 2 ^ 32 - 1)
  | uint64 => Some (0, 2 ^ 64 - 1) | uint128 => Some (0, 2 ^ 128 - 1)
  | _ => None
  end.
Definition format (b : builtin) : option (Z * Z * Z) :=
  match b with
  | float16 => Some (11, -24, 5)
  | float32 | complex_float32 => Some (24, -149, 104)
  | float64 | complex_float64 => Some (53, -1074, 971)
  | float128 => Some (113, -16494, 16271)
  | _ => None
  end.
Definition in_range (lo hi : Z) (v : rval) : Prop := match v with Num q => exists z, lo <= z <= hi /\ (q == inject_Z z)%Q | Special _ => False end.
Definition in_format (p emin emax : Z) (v : rval) : Prop :=
  match v with Num q => exists m e, Z.abs m < 2 ^ p /\ emin <= e <= emax /\ (q == inject_Z m * Qpower 2 e)%Q | Special _ => True end.
Definition is_zero (v : rval) : Prop := match v with Num q => (q == 0)%Q | Special _ => False end.
(** [holds b re im]: a value of type [b] can be re + im i. *)
Definition holds (b : builtin) (re im : rval) : Prop :=
  match range b, format b with
  | Some (lo, hi), _ => in_range lo hi re /\ is_zero im
  | None, Some (p, emin, emax) => in_format p emin emax re /\ (match base_kind b with complex_kind => in_format p emin emax im | _ => is_zero im end)
  | None, None => False
  end.
Definition arithmetic (b : builtin) : Prop := b <> uninitialized /\ b <> void.

(** The rules of promotion between builtin types other than void: *)
Definition is_int (b : builtin) : Prop := In (base_kind b) [bool_kind; int_kind; uint_kind].
Definition max_size (a b : builtin) : Z := Z.max (data_size a) (data_size b).
(** integers: an integer of at least 32 bits and as wide as the wider operand; it is
    unsigned exactly when an operand at least that wide is; *)
Definition promoted_int (a b r : builtin) : Prop :=
  data_size r = Z.max 4 (max_size a b) /\ In (base_kind r) [int_kind; uint_kind] /\
  (base_kind r = uint_kind <-> (base_kind a = uint_kind /\ data_size a = data_size r) \/ (base_kind b = uint_kind /\ data_size b = data_size r)).
(** floats: the widest float operand, but at least float32; *)
Definition float_size (b : builtin) : Z := match base_kind b with float_kind => data_size b | _ => 0 end.
Definition promoted_float (a b r : builtin) : Prop := base_kind r = float_kind /\ data_size r = Z.max 4 (Z.max (float_size a) (float_size b)).
(** complex: double parts exactly when an operand is complex_float64 or float64. *)
Definition promoted_complex (a b r : builtin) : Prop := base_kind r = complex_kind /\ (r = complex_float64 <-> In complex_float64 [a; b] \/ In float64 [a; b]).
