(** Model of src/dynd/float16.cpp: conversions between IEEE binary16 bit
    patterns and binary32/binary64 bit patterns.  The floating point argument
    or result is its bit pattern (the code itself goes through a union). *)
From Verif Require Import Base.

(** float16.cpp:18-139 — float_to_halfbits; [f] is the uint32 bit pattern.
    Intermediate values are small enough that the uint16_t/uint32_t wrap-around
    never happens except where [u16]/[u32] is written. *)
Definition round32 (f_sig : Z) : Z :=
  if negb (Z.land f_sig 0x3fff =? 0x1000) then f_sig + 0x1000 else f_sig.
Definition float_to_halfbits (f : Z) : outcome Z :=
  let h_sgn := Z.land f 0x80000000 / 2 ^ 16 in
  let f_exp := Z.land f 0x7f800000 in
  if 0x47800000 <=? f_exp then
    if f_exp =? 0x7f800000 then
      let f_sig := Z.land f 0x007fffff in
      if negb (f_sig =? 0) then
        let ret := u16 (0x7c00 + f_sig / 2 ^ 13) in
        let ret := if ret =? 0x7c00 then ret + 1 else ret in
        Ok (u16 (h_sgn + ret))
      else Ok (u16 (h_sgn + 0x7c00))
    else Ok (u16 (h_sgn + 0x7c00))
  else if f_exp <=? 0x38000000 then
    if f_exp <? 0x33000000 then
      if negb (Z.land f 0x7fffffff =? 0) then Throw "runtime_error" else Ok h_sgn
    else
      let e := f_exp / 2 ^ 23 in
      let f_sig := 0x00800000 + Z.land f 0x007fffff in
      if negb (Z.land f_sig (2 ^ (126 - e) - 1) =? 0) then Throw "runtime_error"
      else
        let f_sig := f_sig / 2 ^ (113 - e) in
        let f_sig := round32 f_sig in
        let h_sig := u16 (f_sig / 2 ^ 13) in
        Ok (u16 (h_sgn + h_sig))
  else
    let h_exp := u16 ((f_exp - 0x38000000) / 2 ^ 13) in
    let f_sig := round32 (Z.land f 0x007fffff) in
    let h_sig := u16 (f_sig / 2 ^ 13) in
    let h_sig := u16 (h_sig + h_exp) in
    if h_sig =? 0x7c00 then Throw "overflow_error" else Ok (u16 (h_sgn + h_sig)).

(** float16.cpp:141-269 — double_to_halfbits; [d] is the uint64 bit pattern. *)
Definition round64 (d_sig : Z) : Z :=
  if negb (Z.land d_sig 0x000007ffffffffff =? 0x0000020000000000) then d_sig + 0x0000020000000000 else d_sig.
Definition double_to_halfbits (d : Z) : outcome Z :=
  let h_sgn := Z.land d 0x8000000000000000 / 2 ^ 48 in
  let d_exp := Z.land d 0x7ff0000000000000 in
  if 0x40f0000000000000 <=? d_exp then
    if d_exp =? 0x7ff0000000000000 then
      let d_sig := Z.land d 0x000fffffffffffff in
      if negb (d_sig =? 0) then
        let ret := u16 (0x7c00 + d_sig / 2 ^ 42) in
        let ret := if ret =? 0x7c00 then ret + 1 else ret in
        Ok (u16 (h_sgn + ret))
      else Ok (u16 (h_sgn + 0x7c00))
    else Ok (u16 (h_sgn + 0x7c00))
  else if d_exp <=? 0x3f00000000000000 then
    if d_exp <? 0x3e60000000000000 then
      if negb (Z.land d 0x7fffffffffffffff =? 0) then Throw "runtime_error" else Ok h_sgn
    else
      let e := d_exp / 2 ^ 52 in
      let d_sig := 0x0010000000000000 + Z.land d 0x000fffffffffffff in
      if negb (Z.land d_sig (2 ^ (1051 - e) - 1) =? 0) then Throw "runtime_error"
      else
        let d_sig := d_sig / 2 ^ (1009 - e) in
        let d_sig := round64 d_sig in
        let h_sig := u16 (d_sig / 2 ^ 42) in
        Ok (u16 (h_sgn + h_sig))
  else
    let h_exp := u16 ((d_exp - 0x3f00000000000000) / 2 ^ 42) in
    let d_sig := round64 (Z.land d 0x000fffffffffffff) in
    let h_sig := u16 (d_sig / 2 ^ 42) in
    let h_sig := u16 (h_sig + h_exp) in
    if h_sig =? 0x7c00 then Throw "overflow_error" else Ok (u16 (h_sgn + h_sig)).

(** float16.cpp:283-289, 323-329 — the normalisation loop of a subnormal:
    [while ((h_sig & 0x0400) == 0) { h_sig <<= 1; h_exp++; }].  The significand
    has at most 10 bits, so 11 iterations suffice (proved: NoFuel is never
    returned). *)
Fixpoint norm_loop (fuel : nat) (h_sig h_exp : Z) : outcome (Z * Z) :=
  match fuel with
  | O => NoFuel
  | S fuel' =>
      if Z.land h_sig 0x0400 =? 0 then norm_loop fuel' (u16 (h_sig * 2)) (u16 (h_exp + 1))
      else Ok (h_sig, h_exp)
  end.

(** float16.cpp:271-309 — halfbits_to_float; result is the uint32 pattern. *)
Definition halfbits_to_float (h : Z) : outcome Z :=
  let h_exp := Z.land h 0x7c00 in
  let f_sgn := u32 (Z.land h 0x8000 * 2 ^ 16) in
  if h_exp =? 0 then
    let h_sig := Z.land h 0x03ff in
    if h_sig =? 0 then Ok f_sgn
    else
      do se <- norm_loop 11 (u16 (h_sig * 2)) h_exp;
      let '(h_sig, h_exp) := se in
      let f_exp := u32 ((127 - 15 - h_exp) * 2 ^ 23) in
      let f_sig := u32 (Z.land h_sig 0x03ff * 2 ^ 13) in
      Ok (u32 (f_sgn + f_exp + f_sig))
  else if h_exp =? 0x7c00 then Ok (u32 (f_sgn + 0x7f800000 + u32 (Z.land h 0x03ff * 2 ^ 13)))
  else Ok (u32 (f_sgn + u32 ((Z.land h 0x7fff + 0x1c000) * 2 ^ 13))).

(** float16.cpp:311-350 — halfbits_to_double. *)
Definition halfbits_to_double (h : Z) : outcome Z :=
  let h_exp := Z.land h 0x7c00 in
  let d_sgn := u64 (Z.land h 0x8000 * 2 ^ 48) in
  if h_exp =? 0 then
    let h_sig := Z.land h 0x03ff in
    if h_sig =? 0 then Ok d_sgn
    else
      do se <- norm_loop 11 (u16 (h_sig * 2)) h_exp;
      let '(h_sig, h_exp) := se in
      let d_exp := u64 ((0x03ff - 15 - h_exp) * 2 ^ 52) in
      let d_sig := u64 (Z.land h_sig 0x03ff * 2 ^ 42) in
      Ok (u64 (d_sgn + d_exp + d_sig))
  else if h_exp =? 0x7c00 then Ok (u64 (d_sgn + 0x7ff0000000000000 + u64 (Z.land h 0x03ff * 2 ^ 42)))
  else Ok (u64 (d_sgn + u64 ((Z.land h 0x7fff + 0xfc000) * 2 ^ 42))).
