(** Model of the integer parsers of include/dynd/parse_util.hpp.
    A text [begin,end) is the list of its bytes (0..255); C++ [char] is signed,
    but every comparison in this code is with an ASCII literal, so only the
    identity of the byte matters.  [W] is the width in bits of the destination
    type. *)
From Verif Require Import Base.

Definition is_digit (c : Z) : bool := (48 <=? c) && (c <=? 57).

(** parse_util.hpp:35-90 — is_overflow<DstType, SrcType>(src); the eight
    enable_if overloads.  [ds]/[ss]: is the type signed; [db]/[sb]: bits.
    [static_cast<SrcType>(max)] is a wrap to the source type. *)
Definition tmin (sgn : bool) (b : Z) : Z := if sgn then - 2 ^ (b - 1) else 0.
Definition tmax (sgn : bool) (b : Z) : Z := if sgn then 2 ^ (b - 1) - 1 else 2 ^ b - 1.
Definition cast (sgn : bool) (b x : Z) : Z :=
  let m := x mod 2 ^ b in if sgn && (2 ^ (b - 1) <=? m) then m - 2 ^ b else m.
Definition is_overflow (ds : bool) (db : Z) (ss : bool) (sb : Z) (src : Z) : bool :=
  match ds, ss with
  | true, true => if db <? sb then (src <? cast ss sb (tmin ds db)) || (cast ss sb (tmax ds db) <? src) else false
  | true, false => cast ss sb (tmax ds db) <? src
  | false, true => if db <? sb then (src <? 0) || (cast ss sb (tmax ds db) <? src) else src <? 0
  | false, false => if db <? sb then cast ss sb (tmax ds db) <? src else false
  end.

(** parse_util.hpp:964-975 — skipping zeros of the exponent / the fraction. *)
Fixpoint skip_zeros (s : list Z) : list Z :=
  match s with c :: s' => if c =? 48 then skip_zeros s' else s | [] => [] end.

(** parse_util.hpp:970-975 — at most two exponent digits; returns the exponent
    and the rest of the text. *)
Definition exp_digits (s : list Z) : Z * list Z :=
  match s with
  | c :: s' =>
      if is_digit c then
        match s' with
        | d :: s'' => if is_digit d then (10 * (c - 48) + (d - 48), s'') else (c - 48, s')
        | [] => (c - 48, s')
        end
      else (0, s)
  | [] => (0, s)
  end.

(** parse_util.hpp:980-990 — the exponent loop with its overflow test. *)
Fixpoint exp_loop (W : Z) (i : nat) (result prev_result : Z) : outcome Z :=
  match i with
  | O => Ok result
  | S i' =>
      let result := (result * 10) mod 2 ^ W in
      if result <? prev_result then Throw "out_of_range" else exp_loop W i' result result
  end.

(** parse_util.hpp:952-996 — the 'e' / 'E' branch; [s] starts after the 'e'.
    The caller throws invalid_argument when this branch does not return. *)
Definition exp_part (W result : Z) (s : list Z) : outcome Z :=
  let s := match s with c :: s' => if c =? 43 then s' else s | [] => s end in
  match s with
  | [] => Throw "invalid_argument"
  | _ =>
      let '(exponent, rest) := exp_digits (skip_zeros s) in
      match rest with
      | [] => exp_loop W (Z.to_nat exponent) result result
      | _ => Throw "invalid_argument"
      end
  end.

(** parse_util.hpp:925-1008 — parse<T>(begin, end) for unsigned T of width W,
    the loop.  [result * 10u + digit] is computed modulo 2^W (for the narrow
    types: in unsigned int, then truncated by the assignment). *)
Fixpoint parse_u_loop (W : Z) (result prev_result : Z) (s : list Z) : outcome Z :=
  match s with
  | [] => Ok result
  | c :: s' =>
      if is_digit c then
        let result := (result * 10 + (c - 48)) mod 2 ^ W in
        if result <? prev_result then Throw "out_of_range" else parse_u_loop W result result s'
      else if c =? 46 then
        match skip_zeros s' with [] => Ok result | _ => Throw "invalid_argument" end
      else if (c =? 101) || (c =? 69) then exp_part W result s'
      else Throw "invalid_argument"
  end.
Definition parse_u (W : Z) (s : list Z) : outcome Z :=
  match s with [] => Throw "invalid_argument" | _ => parse_u_loop W 0 0 s end.

(** parse_util.hpp:1015-1037 — parse<T>(begin, end) for signed T. *)
Definition strip_minus (s : list Z) : bool * list Z :=
  match s with c :: s' => if c =? 45 then (true, s') else (false, s) | [] => (false, []) end.
Definition parse_s (W : Z) (s : list Z) : outcome Z :=
  let '(negative, s) := strip_minus s in
  do value <- parse_u W s;
  if negative && (value =? cast false W (tmin true W)) then Ok (tmin true W)
  else if is_overflow true W false W value then Throw "overflow_error"
  else Ok (if negative then - cast true W value else cast true W value).

(** parse_util.hpp:741-783 — parse<T>(begin, end, nocheck) for unsigned T. *)
Fixpoint exp_loop_nocheck (W : Z) (i : nat) (result : Z) : Z :=
  match i with O => result | S i' => exp_loop_nocheck W i' ((result * 10) mod 2 ^ W) end.
Fixpoint parse_u_nocheck_loop (W : Z) (result : Z) (s : list Z) : Z :=
  match s with
  | [] => result
  | c :: s' =>
      if is_digit c then parse_u_nocheck_loop W ((result * 10 + (c - 48)) mod 2 ^ W) s'
      else if (c =? 101) || (c =? 69) then
        let s := match s' with c :: s'' => if c =? 43 then s'' else s' | [] => s' end in
        match s with
        | [] => result
        | _ => let '(exponent, rest) := exp_digits (skip_zeros s) in
               match rest with [] => exp_loop_nocheck W (Z.to_nat exponent) result | _ => result end
        end
      else result
  end.
Definition parse_u_nocheck (W : Z) (s : list Z) : Z := parse_u_nocheck_loop W 0 s.

(** parse_util.hpp:92-101 — overflow_check<T>::is_overflow, T signed of [W]
    bits.  For W = 64 the constant [-static_cast<int64_t>(min)] overflows; it
    is taken to be the wrapped value 2^63, as compilers fold it. *)
Definition overflow_check (W value : Z) (negative : bool) : bool :=
  if negative && (value =? u64 (- tmin true W)) then false
  else negb (Z.land value (u64 (Z.lnot (tmax true W))) =? 0).

(** parse_util.hpp:103-110 — assign_signed_int_value (with overflow = false on
    entry).  [None] is overflow = true.  The negation of an int64_t can
    overflow: UB. *)
Definition assign_signed (W uvalue : Z) (negative : bool) : outcome (option Z) :=
  if overflow_check W uvalue negative then Ok None
  else do v <- (if negative then neg64 (cast true 64 uvalue) else Ok (cast true 64 uvalue));
       Ok (Some (cast true W v)).

(** parse_util.cpp:426-448 — parse_na. *)
Definition parse_na (s : list Z) : bool :=
  match s with
  | [] => true
  | [a; b] => (a =? 78) && (b =? 65)
  | [a; b; c; d] =>
      (((a =? 78) || (a =? 110)) && ((b =? 85) || (b =? 117)) && ((c =? 76) || (c =? 108)) && ((d =? 76) || (d =? 108)))
      || ((a =? 78) && (b =? 111) && (c =? 110) && (d =? 101))
  | _ => false
  end.

(** parse_util.hpp:1196-1315 — string_to_number, error-checking modes, integer
    destinations of 8..64 bits ([sgn], [W]); returns the value stored. *)
Definition string_to_number (sgn : bool) (W : Z) (s : list Z) : outcome Z :=
  if parse_na s then
    if sgn then Ok (tmin true W) else Throw "type_error"
  else
    let '(negative, t) := strip_minus s in
    do uvalue <- parse_u 64 t;
    if sgn then
      do r <- assign_signed W uvalue negative;
      match r with Some v => Ok v | None => Throw "overflow_error" end
    else
      let negative := negative && negb (uvalue =? 0) in
      if negative || is_overflow false W false 64 uvalue then Throw "overflow_error"
      else Ok (cast false W uvalue).

(** parse_util.hpp:1316-1372 — string_to_number with assign_error_nocheck. *)
Definition string_to_number_nocheck (sgn : bool) (W : Z) (s : list Z) : outcome Z :=
  if parse_na s then
    if sgn then Ok (tmin true W) else Throw "type_error"
  else
    let '(negative, t) := strip_minus s in
    let uvalue := parse_u_nocheck 64 t in
    if sgn then
      do v <- (if negative then neg64 (cast true 64 uvalue) else Ok (cast true 64 uvalue));
      Ok (cast true W v)
    else Ok (cast false W (if negative then 0 else uvalue)).
