(** Missing values: the option type, nd::assign_na, nd::is_na and the arithmetic
    on options.
    An element is its storage: one machine word (its bit pattern), two words
    (complex), nothing (void), or a string object - its address and its two
    words m_pointer and m_size (types/sso_bytestring.hpp:23-24). *)
From Verif Require Import Base ParseIntModel ScanModel AssignModel.
Open Scope Z_scope.

Inductive vty :=
| OBool | OInt (b : Z) | OUInt (b : Z) | OFloat16 | OFlt (F : fsz) | OCplx (F : fsz)
| OVoid | OBytes | OString.
Inductive cell := CWord (w : Z) | CPair (a b : Z) | CVoid | CStr (this mptr msize : Z).

(** types/option_type.hpp:12-21. *)
Definition na_bits (F : fsz) : Z :=
  match F with S32 => 0x7f8007a2 | S64 => 0x7ff00000000007a2 end.
Definition bool_na : Z := 2.

(** std::isnan on the bit pattern: all exponent bits set and a non-zero fraction. *)
Definition exp_mask (F : fsz) : Z := match F with S32 => 0x7f800000 | S64 => 0x7ff0000000000000 end.
Definition abs_mask (F : fsz) : Z := match F with S32 => 0x7fffffff | S64 => 0x7fffffffffffffff end.
Definition isnan_bits (F : fsz) (w : Z) : bool := exp_mask F <? Z.land w (abs_mask F).

(** sso_bytestring.hpp:28, 34-35, 46-47, 109-110, 202-203: the address begin()
    returns; 155-161: clear(). *)
Definition str_begin (this mptr msize : Z) : Z := if 0 <=? msize then this else mptr + 8.
Definition str_clear (this mptr msize : Z) : cell := CStr this 0 0.

(** The value types nd::is_na and nd::assign_na have a child for
    (src/dynd/option.cpp:27-31, 44-48); the option of another type finds none and
    multidispatch throws.  Simplification: the array children are left out. *)
Definition na_supported (T : vty) : bool :=
  match T with
  | OBool | OFlt _ | OCplx _ | OVoid | OBytes | OString => true
  | OInt b => (b =? 8) || (b =? 16) || (b =? 32) || (b =? 64) || (b =? 128)
  | OUInt b => b =? 32
  | OFloat16 => false
  end.

(** kernels/is_na_kernel.hpp:20-171, the single functions. *)
Definition is_na_kernel (T : vty) (c : cell) : outcome bool :=
  match T, c with
  | OBool, CWord w => Ok (1 <? w)
  | OInt b, CWord w => Ok (cast true b w =? tmin true b)
  | OUInt b, CWord w => Ok (w =? tmax false b)
  | OFlt F, CWord w => Ok (isnan_bits F w)
  | OCplx F, CPair x y => Ok ((x =? na_bits F) && (y =? na_bits F))
  | OVoid, _ => Ok true
  | OBytes, CStr t p s | OString, CStr t p s => Ok (str_begin t p s =? 0)
  | _, _ => UB
  end.
Definition is_na (T : vty) (c : cell) : outcome bool :=
  if na_supported T then is_na_kernel T c else Throw "no matching child".

(** kernels/assign_na_kernel.hpp:18-143, the single functions; the second
    argument is what was stored before. *)
Definition assign_na_kernel (T : vty) (c : cell) : outcome cell :=
  match T, c with
  | OBool, CWord _ => Ok (CWord bool_na)
  | OInt b, CWord _ => Ok (CWord (cast false b (tmin true b)))
  | OUInt b, CWord _ => Ok (CWord (tmax false b))
  | OFlt F, CWord _ => Ok (CWord (na_bits F))
  | OCplx F, CPair _ _ => Ok (CPair (na_bits F) (na_bits F))
  | OVoid, _ => Ok c
  | OBytes, CStr t p s | OString, CStr t p s => Ok (str_clear t p s)
  | _, _ => UB
  end.
Definition assign_na (T : vty) (c : cell) : outcome cell :=
  if na_supported T then assign_na_kernel T c else Throw "no matching child".

(** src/dynd/types/option_type.cpp:13-50: what is stored afterwards. *)
Definition assign_na_builtin (T : vty) (c : cell) : cell :=
  match T, c with
  | OBool, CWord _ => CWord 2
  | OInt b, CWord _ => CWord (cast false b (tmin true b))
  | OFlt F, CWord _ => CWord (na_bits F)
  | OCplx F, CPair _ _ => CPair (na_bits F) (na_bits F)
  | _, _ => c
  end.
(** 52-82. *)
Definition is_avail_builtin (T : vty) (c : cell) : bool :=
  match T, c with
  | OBool, CWord w => w <=? 1
  | OInt b, CWord w => negb (cast true b w =? tmin true b)
  | OUInt b, CWord w => if b =? 32 then negb (w =? tmax false 32) else false
  | OFlt F, CWord w => negb (isnan_bits F w)
  | OCplx F, CPair x y => negb (x =? na_bits F) || negb (y =? na_bits F)
  | _, _ => false
  end.
Definition is_builtin (T : vty) : bool := match T with OBytes | OString => false | _ => true end.
(** src/dynd/option.cpp:65-73, 75-87. *)
Definition old_assign_na (T : vty) (c : cell) : outcome cell :=
  if is_builtin T then Ok (assign_na_builtin T c) else assign_na T c.
Definition old_is_avail (T : vty) (c : cell) : outcome bool :=
  if is_builtin T then Ok (is_avail_builtin T c) else do r <- is_na T c; Ok (negb r).
(** nd::array::is_na, src/dynd/array.cpp:286-293, for an array of type option[T]. *)
Definition array_is_na (T : vty) (c : cell) : outcome bool :=
  do r <- old_is_avail T c; Ok (negb r).

(** src/dynd/option.cpp:89-109 with error checking.  [setv] stores the value of a
    text in an element whose type is a string, bytes, float or complex type, or a
    128 bit integer: these parsers are not modelled here. *)
Definition is_string_kind (T : vty) : bool := match T with OString => true | _ => false end.
Definition is_small_int (b : Z) : bool := (b =? 8) || (b =? 16) || (b =? 32) || (b =? 64).
Definition string_to_number_cell (T : vty) (setv : list Z -> cell -> outcome cell) (s : list Z) (c : cell) : outcome cell :=
  match T with
  | OInt b => if is_small_int b then do v <- string_to_number true b s; Ok (CWord (cast false b v)) else setv s c
  | OUInt b => if is_small_int b then do v <- string_to_number false b s; Ok (CWord (cast false b v)) else setv s c
  | _ => setv s c
  end.
Definition set_option_from_utf8_string (T : vty) (setv : list Z -> cell -> outcome cell) (s : list Z) (c : cell)
  : outcome cell :=
  if negb (is_string_kind T) && parse_na s then old_assign_na T c
  else match T with
       | OBool => do v <- parse_bool_checked s; Ok (CWord (if v then 1 else 0))
       | _ => string_to_number_cell T setv s c
       end.

(** Assigning a string to an option: callables/assign_callable.hpp:602-661 chooses
    the kernel by the value type, kernels/assignment_kernels.hpp:837-881 are the
    kernels. *)
Definition string_to_option (T : vty) (setv : list Z -> cell -> outcome cell) (s : list Z) (c : cell) : outcome cell :=
  if negb (na_supported T) then Throw "no matching child"
  else match T with
  | OBool => do v <- parse_bool_checked s; Ok (CWord (if v then 1 else 0))
  | OInt b => if is_small_int b then string_to_number_cell T setv s c else
              (* string_to_number knows the missing value of int128 as well *)
              if parse_na s then Ok (CWord (cast false b (tmin true b))) else setv s c
  | OFlt F => if parse_na s then Ok (CWord (na_bits F)) else setv s c
  | OString => setv s c
  | OUInt b => if parse_na s then assign_na T c else string_to_number_cell T setv s c
  | _ => if parse_na s then assign_na T c else setv s c
  end.

(** kernels/forward_na_kernel.hpp:18-32 with the children chosen in
    callables/forward_na_callable.hpp:24-75.  [o0] and [o1] tell which of the two
    arguments are options; [f] is the operation on the values; [TR] is the value
    type of the result, [r] what the result element holds before. *)
Definition forward_na (o0 o1 : bool) (T0 T1 TR : vty) (f : cell -> cell -> outcome cell) (x y r : cell) : outcome cell :=
  if (o0 && negb (na_supported T0)) || (o1 && negb (na_supported T1)) || negb (na_supported TR)
  then Throw "no matching child"
  else
    do n0 <- (if o0 then is_na T0 x else Ok false);
    if n0 then assign_na TR r
    else do n1 <- (if o1 then is_na T1 y else Ok false);
         if n1 then assign_na TR r else f x y.
