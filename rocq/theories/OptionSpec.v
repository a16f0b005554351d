(** What a missing value is. *)
From Verif Require Import Base AssignModel OptionModel ParseIntSpec.
Open Scope Z_scope.

(** The value of a bit pattern of a binary floating point format: sign, exponent
    field, fraction. *)
Definition frac_bits (F : fsz) : Z := match F with S32 => 23 | S64 => 52 end.
Definition exp_bits (F : fsz) : Z := match F with S32 => 8 | S64 => 11 end.
Definition width (F : fsz) : Z := match F with S32 => 32 | S64 => 64 end.
Definition flt_of_bits (F : fsz) (w : Z) : flt :=
  let frac := w mod 2 ^ frac_bits F in
  let e := (w / 2 ^ frac_bits F) mod 2 ^ exp_bits F in
  let neg := 2 ^ (width F - 1) <=? w in
  if e =? 2 ^ exp_bits F - 1 then (if frac =? 0 then FInf neg else FNan)
  else if e =? 0 then FFin neg (frac * 2 ^ fq F)
  else FFin neg ((2 ^ frac_bits F + frac) * 2 ^ (fq F + e - 1)).

(** The number a word of an integer type denotes. *)
Definition int_of_bits (sgn : bool) (b w : Z) : Z :=
  if sgn then (if w <? 2 ^ (b - 1) then w else w - 2 ^ b) else w.
Definition word (b w : Z) : Prop := 0 <= w < 2 ^ b.

Definition int_width (b : Z) : Prop := b = 8 \/ b = 16 \/ b = 32 \/ b = 64 \/ b = 128.
(** The storage of a value type.  A string object is somewhere, and when it does
    not hold its bytes itself it has a buffer, which is also somewhere. *)
Definition stores_type (T : vty) (c : cell) : Prop :=
  match T, c with
  | OBool, CWord w => word 8 w
  | OInt b, CWord w | OUInt b, CWord w => int_width b /\ word b w
  | OFloat16, CWord w => word 16 w
  | OFlt F, CWord w => word (width F) w
  | OCplx F, CPair x y => word (width F) x /\ word (width F) y
  | OVoid, CVoid => True
  | OBytes, CStr t p s | OString, CStr t p s => 0 < t /\ (s < 0 -> 0 < p)
  | _, _ => False
  end.

(** The values reserved to mean missing: a bool that is neither false nor true,
    the smallest signed and the largest unsigned integer, every NaN, the complex
    number made of two NaNs with the payload of the R language, every void. *)
Definition na_nan (F : fsz) : Z := 2 ^ (width F - 1) - 2 ^ frac_bits F + 1954.
Definition missing (T : vty) (c : cell) : Prop :=
  match T, c with
  | OBool, CWord w => w <> 0 /\ w <> 1
  | OInt b, CWord w => int_of_bits true b w = - 2 ^ (b - 1)
  | OUInt b, CWord w => int_of_bits false b w = 2 ^ b - 1
  | OFlt F, CWord w => flt_of_bits F w = FNan
  | OCplx F, CPair x y => x = na_nan F /\ y = na_nan F
  | OVoid, _ => True
  | _, _ => False
  end.

(** The value types with a reserved value. *)
Definition has_reserved (T : vty) : Prop :=
  match T with
  | OBool | OFlt _ | OCplx _ | OVoid => True
  | OInt b => int_width b
  | OUInt b => b = 32
  | _ => False
  end.
Definition textual (T : vty) : Prop := T = OBytes \/ T = OString.
