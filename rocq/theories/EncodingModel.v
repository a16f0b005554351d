(** Model of the code point encoders and decoders of
    [src/dynd/string_encodings.cpp] and of the parts of the bundled utf8-cpp
    library they call ([thirdparty/utf8/source/utf8/core.h], [checked.h]).

    A read buffer [\[it, end)] is the list of its bytes (each in 0..255), so a
    decoder maps the remaining bytes to (code point, remaining bytes) and
    reading through an exhausted list is [UB].  A write buffer is only its room
    [end - it] in bytes: an encoder returns the bytes written and the new room;
    writing with too little room is [UB].
    Simplifications: little-endian byte order; the [reinterpret_cast] loads and
    stores of uint16_t/uint32_t are assumed to be suitably aligned; [char] values
    are kept as 0..255 (the code always masks them before use, except
    [( *it) & 0x3f], which has the same value for a negative char). *)
From Verif Require Import Base.

(** string_encodings.hpp string_encoding_t. *)
Inductive enc := Ascii | Ucs2 | Utf8 | Utf16 | Utf32.
(** string_encodings.cpp:18-31 string_encoding_char_size_table. *)
Definition char_size (e : enc) : nat := match e with Ascii => 1 | Ucs2 => 2 | Utf8 => 1 | Utf16 => 2 | Utf32 => 4 end%nat.

(** string_encodings.cpp:35 ERROR_SUBSTITUTE_CODEPOINT. *)
Definition SUBST : Z := 63.

(** core.h:47-55 constants ([SURROGATE_OFFSET] is computed modulo 2^32). *)
Definition LEAD_OFFSET : Z := 0xd800 - Z.shiftr 0x10000 10.
Definition SURROGATE_OFFSET : Z := u32 (0x10000 - Z.shiftl 0xd800 10 - 0xdc00).
(** core.h:67-71. *)
Definition is_trail (b : Z) : bool := Z.shiftr (Z.land 0xff b) 6 =? 2.
(** core.h:73-77. *)
Definition is_lead_surrogate (cp : Z) : bool := (0xd800 <=? cp) && (cp <=? 0xdbff).
(** core.h:79-83. *)
Definition is_trail_surrogate (cp : Z) : bool := (0xdc00 <=? cp) && (cp <=? 0xdfff).
(** core.h:85-89. *)
Definition is_surrogate (cp : Z) : bool := (0xd800 <=? cp) && (cp <=? 0xdfff).
(** core.h:91-95. *)
Definition is_code_point_valid (cp : Z) : bool := (cp <=? 0x10ffff) && negb (is_surrogate cp).
(** core.h:97-111 (reads the lead byte). *)
Definition sequence_length (lead : Z) : Z :=
  if lead <? 0x80 then 1
  else if Z.shiftr lead 5 =? 0x6 then 2
  else if Z.shiftr lead 4 =? 0xe then 3
  else if Z.shiftr lead 3 =? 0x1e then 4
  else 0.
(** core.h:113-130. *)
Definition is_overlong_sequence (cp len : Z) : bool :=
  if cp <? 0x80 then negb (len =? 1)
  else if cp <? 0x800 then negb (len =? 2)
  else if cp <? 0x10000 then negb (len =? 3)
  else false.

(** core.h:132 enum utf_error. *)
Inductive utf_error := UTF8_OK | NOT_ENOUGH_ROOM | INVALID_LEAD | INCOMPLETE_SEQUENCE | OVERLONG_SEQUENCE | INVALID_CODE_POINT.

(** core.h:134-145 increase_safely: advance the iterator, then test the byte it
    points at.  (An empty buffer cannot occur: the caller has read a byte.) *)
Definition increase_safely (it : list Z) : utf_error * list Z :=
  match it with
  | [] => (NOT_ENOUGH_ROOM, [])
  | _ :: [] => (NOT_ENOUGH_ROOM, [])
  | _ :: b :: r => (if is_trail b then UTF8_OK else INCOMPLETE_SEQUENCE, b :: r)
  end.

Definition hd0 (l : list Z) : Z := match l with [] => 0 | b :: _ => b end.

(** core.h:149-159, 161-174, 176-194, 196-220: get_sequence_1..4; the result
    is the error code, the code point and the iterator, which stays where
    the function left it also on failure. *)
Definition get_sequence_1 (it : list Z) : utf_error * Z * list Z :=
  match it with [] => (NOT_ENOUGH_ROOM, 0, []) | b :: _ => (UTF8_OK, Z.land 0xff b, it) end.

Definition get_sequence_2 (it : list Z) : utf_error * Z * list Z :=
  match it with
  | [] => (NOT_ENOUGH_ROOM, 0, [])
  | b0 :: _ =>
      let cp := Z.land 0xff b0 in
      match increase_safely it with
      | (UTF8_OK, it1) => (UTF8_OK, Z.land (Z.shiftl cp 6) 0x7ff + Z.land (hd0 it1) 0x3f, it1)
      | (e, it1) => (e, cp, it1)
      end
  end.

Definition get_sequence_3 (it : list Z) : utf_error * Z * list Z :=
  match it with
  | [] => (NOT_ENOUGH_ROOM, 0, [])
  | b0 :: _ =>
      let cp := Z.land 0xff b0 in
      match increase_safely it with
      | (UTF8_OK, it1) =>
          let cp := Z.land (Z.shiftl cp 12) 0xffff + Z.land (Z.shiftl (Z.land 0xff (hd0 it1)) 6) 0xfff in
          match increase_safely it1 with
          | (UTF8_OK, it2) => (UTF8_OK, cp + Z.land (hd0 it2) 0x3f, it2)
          | (e, it2) => (e, cp, it2)
          end
      | (e, it1) => (e, cp, it1)
      end
  end.

Definition get_sequence_4 (it : list Z) : utf_error * Z * list Z :=
  match it with
  | [] => (NOT_ENOUGH_ROOM, 0, [])
  | b0 :: _ =>
      let cp := Z.land 0xff b0 in
      match increase_safely it with
      | (UTF8_OK, it1) =>
          let cp := Z.land (Z.shiftl cp 18) 0x1fffff + Z.land (Z.shiftl (Z.land 0xff (hd0 it1)) 12) 0x3ffff in
          match increase_safely it1 with
          | (UTF8_OK, it2) =>
              let cp := cp + Z.land (Z.shiftl (Z.land 0xff (hd0 it2)) 6) 0xfff in
              match increase_safely it2 with
              | (UTF8_OK, it3) => (UTF8_OK, cp + Z.land (hd0 it3) 0x3f, it3)
              | (e, it3) => (e, cp, it3)
              end
          | (e, it2) => (e, cp, it2)
          end
      | (e, it1) => (e, cp, it1)
      end
  end.

(** The [switch (length)] shared by core.h:234-247 and
    string_encodings.cpp:134-149 (lengths 1..4). *)
Definition get_sequence (len : Z) (it : list Z) : utf_error * Z * list Z :=
  if len =? 1 then get_sequence_1 it
  else if len =? 2 then get_sequence_2 it
  else if len =? 3 then get_sequence_3 it
  else get_sequence_4 it.

(** core.h:224-272 validate_next; on failure the iterator is restored and the
    caller's [code_point] is left alone. *)
Definition validate_next (it : list Z) : outcome (utf_error * Z * list Z) :=
  match it with
  | [] => UB
  | lead :: _ =>
      let len := sequence_length (Z.land 0xff lead) in
      if len =? 0 then Ok (INVALID_LEAD, 0, it)
      else
        match get_sequence len it with
        | (UTF8_OK, cp, it') =>
            if is_code_point_valid cp then
              if negb (is_overlong_sequence cp len) then Ok (UTF8_OK, cp, tl it')
              else Ok (OVERLONG_SEQUENCE, 0, it)
            else Ok (INVALID_CODE_POINT, 0, it)
        | (e, _, _) => Ok (e, 0, it)
        end
  end.

(** string_encodings.cpp:106-125. *)
Definition next_utf8 (it : list Z) : outcome (Z * list Z) :=
  do r <- validate_next it;
  match r with
  | (UTF8_OK, cp, it') => Ok (cp, it')
  | (NOT_ENOUGH_ROOM, _, _) => Throw "runtime_error"
  | (_, _, _) => Throw "string_encode_error"
  end.

(** string_encodings.cpp:127-169. *)
Definition noerror_next_utf8 (it : list Z) : outcome (Z * list Z) :=
  match it with
  | [] => UB
  | lead :: _ =>
      let len := sequence_length (Z.land 0xff lead) in
      if len =? 0 then Ok (SUBST, it)
      else
        match get_sequence len it with
        | (UTF8_OK, cp, it') =>
            if is_code_point_valid cp then
              if negb (is_overlong_sequence cp len) then Ok (cp, tl it') else Ok (SUBST, it')
            else Ok (SUBST, it')
        | (_, _, it') => Ok (SUBST, it')
        end
  end.

(** string_encodings.cpp:39-46, 48-52. *)
Definition next_ascii (it : list Z) : outcome (Z * list Z) :=
  match it with
  | [] => UB
  | b :: r => if negb (Z.land b 0x80 =? 0) then Throw "string_decode_error" else Ok (b, r)
  end.
Definition noerror_next_ascii (it : list Z) : outcome (Z * list Z) :=
  match it with
  | [] => UB
  | b :: r => Ok (if Z.land b 0x80 =? 0 then b else SUBST, r)
  end.

(** A uint16_t / uint32_t load (little endian). *)
Definition load16 (it : list Z) : outcome (Z * list Z) :=
  match it with b0 :: b1 :: r => Ok (b0 + 256 * b1, r) | _ => UB end.
Definition load32 (it : list Z) : outcome (Z * list Z) :=
  match it with
  | b0 :: b1 :: b2 :: b3 :: r => Ok (b0 + 256 * b1 + 65536 * b2 + 16777216 * b3, r)
  | _ => UB
  end.

(** string_encodings.cpp:70-77, 79-86. *)
Definition next_ucs2 (it : list Z) : outcome (Z * list Z) :=
  do (cp, r) <- load16 it;
  if is_surrogate cp then Throw "string_decode_error" else Ok (cp, r).
Definition noerror_next_ucs2 (it : list Z) : outcome (Z * list Z) :=
  do (cp, r) <- load16 it;
  if is_surrogate cp then Ok (SUBST, r) else Ok (cp, r).

(** string_encodings.cpp:213-234: the second unit is looked at only if
    [it + 4 <= end]. *)
Definition next_utf16 (it : list Z) : outcome (Z * list Z) :=
  do (cp, r) <- load16 it;
  if is_lead_surrogate cp then
    if 4 <=? Z.of_nat (List.length it) then
      do (trail, r2) <- load16 r;
      if is_trail_surrogate trail then Ok (u32 (u32 (Z.shiftl cp 10) + trail + SURROGATE_OFFSET), r2)
      else Throw "string_decode_error"
    else Throw "string_decode_error"
  else if is_trail_surrogate cp then Throw "string_decode_error"
  else Ok (cp, r).

(** string_encodings.cpp:236-257: here the test is [it <= end + 2] after the
    iterator was advanced, i.e. always true once the first load was in bounds
    ([it - end = - length r <= 2]). *)
Definition noerror_next_utf16 (it : list Z) : outcome (Z * list Z) :=
  do (cp, r) <- load16 it;
  if is_lead_surrogate cp then
    if - Z.of_nat (List.length r) <=? 2 then
      do (trail, r2) <- load16 r;
      if is_trail_surrogate trail then Ok (u32 (u32 (Z.shiftl cp 10) + trail + SURROGATE_OFFSET), r2)
      else Ok (SUBST, r2)
    else Ok (SUBST, r)
  else if is_trail_surrogate cp then Ok (SUBST, r)
  else Ok (cp, r).

(** string_encodings.cpp:295-302, 304-311. *)
Definition next_utf32 (it : list Z) : outcome (Z * list Z) :=
  do (cp, r) <- load32 it;
  if negb (is_code_point_valid cp) then Throw "string_decode_error" else Ok (cp, r).
Definition noerror_next_utf32 (it : list Z) : outcome (Z * list Z) :=
  do (cp, r) <- load32 it;
  if negb (is_code_point_valid cp) then Ok (SUBST, r) else Ok (cp, r).

(** string_encodings.cpp:328-344 get_next_unicode_codepoint_function; [nocheck]
    is [errmode == assign_error_nocheck]. *)
Definition next_fn (e : enc) (nocheck : bool) : list Z -> outcome (Z * list Z) :=
  match e with
  | Ascii => if negb nocheck then next_ascii else noerror_next_ascii
  | Ucs2 => if negb nocheck then next_ucs2 else noerror_next_ucs2
  | Utf8 => if negb nocheck then next_utf8 else noerror_next_utf8
  | Utf16 => if negb nocheck then next_utf16 else noerror_next_utf16
  | Utf32 => if negb nocheck then next_utf32 else noerror_next_utf32
  end.

(** A store of the given bytes into a buffer with [room] bytes left. *)
Definition store (bs : list Z) (room : Z) : outcome (list Z * Z) :=
  if Z.of_nat (List.length bs) <=? room then Ok (bs, room - Z.of_nat (List.length bs)) else UB.
Definition bytes16 (v : Z) : list Z := let v := u16 v in [v mod 256; v / 256].
Definition bytes32 (v : Z) : list Z := let v := u32 v in [v mod 256; (v / 256) mod 256; (v / 65536) mod 256; v / 16777216].

(** string_encodings.cpp:54-60, 62-68. *)
Definition append_ascii (cp room : Z) : outcome (list Z * Z) :=
  if negb (Z.land cp (u32 (Z.lnot 0x7f)) =? 0) then Throw "string_encode_error" else store [u8 cp] room.
Definition noerror_append_ascii (cp room : Z) : outcome (list Z * Z) :=
  let cp := if negb (Z.land cp (u32 (Z.lnot 0x7f)) =? 0) then SUBST else cp in store [u8 cp] room.

(** string_encodings.cpp:88-95, 97-104. *)
Definition append_ucs2 (cp room : Z) : outcome (list Z * Z) :=
  if negb (Z.land cp (u32 (Z.lnot 0xffff)) =? 0) || is_surrogate cp then Throw "string_encode_error"
  else store (bytes16 cp) room.
Definition noerror_append_ucs2 (cp room : Z) : outcome (list Z * Z) :=
  let cp := if negb (Z.land cp (u32 (Z.lnot 0xffff)) =? 0) || is_surrogate cp then SUBST else cp in
  store (bytes16 cp) room.

(** checked.h:69-92 utf8::append (into a buffer that is large enough). *)
Definition utf8_append (cp : Z) : outcome (list Z) :=
  if negb (is_code_point_valid cp) then Throw "invalid_code_point"
  else if cp <? 0x80 then Ok [u8 cp]
  else if cp <? 0x800 then
    Ok [u8 (Z.lor (Z.shiftr cp 6) 0xc0); u8 (Z.lor (Z.land cp 0x3f) 0x80)]
  else if cp <? 0x10000 then
    Ok [u8 (Z.lor (Z.shiftr cp 12) 0xe0); u8 (Z.lor (Z.land (Z.shiftr cp 6) 0x3f) 0x80);
        u8 (Z.lor (Z.land cp 0x3f) 0x80)]
  else
    Ok [u8 (Z.lor (Z.shiftr cp 18) 0xf0); u8 (Z.lor (Z.land (Z.shiftr cp 12) 0x3f) 0x80);
        u8 (Z.lor (Z.land (Z.shiftr cp 6) 0x3f) 0x80); u8 (Z.lor (Z.land cp 0x3f) 0x80)].

(** string_encodings.cpp:171-185, 187-203. *)
Definition append_utf8 (cp room : Z) : outcome (list Z * Z) :=
  if 6 <=? room then do bs <- utf8_append cp; store bs room
  else
    do bs <- utf8_append cp;
    if Z.of_nat (List.length bs) <=? room then store bs room else Throw "runtime_error".
Definition noerror_append_utf8 (cp room : Z) : outcome (list Z * Z) :=
  if 6 <=? room then do bs <- utf8_append cp; store bs room
  else
    do bs <- utf8_append cp;
    if Z.of_nat (List.length bs) <=? room then store bs room
    else store (repeat 0 (Z.to_nat room)) room.

(** string_encodings.cpp:259-273: writes the first unit, then tests
    [++it >= end]. *)
Definition append_utf16 (cp room : Z) : outcome (list Z * Z) :=
  if 0xffff <? cp then
    do (b1, room1) <- store (bytes16 (Z.shiftr cp 10 + LEAD_OFFSET)) room;
    if room1 <=? 0 then Throw "runtime_error"
    else
      do (b2, room2) <- store (bytes16 (Z.land cp 0x3ff + 0xdc00)) room1;
      Ok (b1 ++ b2, room2)
  else store (bytes16 cp) room.
(** string_encodings.cpp:275-293: tests [it + 1 < end] before writing. *)
Definition noerror_append_utf16 (cp room : Z) : outcome (list Z * Z) :=
  if 0xffff <? cp then
    if 2 <? room then
      do (b1, room1) <- store (bytes16 (Z.shiftr cp 10 + LEAD_OFFSET)) room;
      do (b2, room2) <- store (bytes16 (Z.land cp 0x3ff + 0xdc00)) room1;
      Ok (b1 ++ b2, room2)
    else store (repeat 0 (Z.to_nat room)) room
  else store (bytes16 cp) room.

(** string_encodings.cpp:313-318, 320-325. *)
Definition append_utf32 (cp room : Z) : outcome (list Z * Z) := store (bytes32 cp) room.
Definition noerror_append_utf32 (cp room : Z) : outcome (list Z * Z) := store (bytes32 cp) room.

(** string_encodings.cpp:346-362 get_append_unicode_codepoint_function. *)
Definition append_fn (e : enc) (nocheck : bool) : Z -> Z -> outcome (list Z * Z) :=
  match e with
  | Ascii => if negb nocheck then append_ascii else noerror_append_ascii
  | Ucs2 => if negb nocheck then append_ucs2 else noerror_append_ucs2
  | Utf8 => if negb nocheck then append_utf8 else noerror_append_utf8
  | Utf16 => if negb nocheck then append_utf16 else noerror_append_utf16
  | Utf32 => if negb nocheck then append_utf32 else noerror_append_utf32
  end.

(** string_encodings.cpp:205-211 string_append_utf8 (six-byte scratch buffer,
    [utf8_append] writes at most four). *)
Definition string_append_utf8 (cp : Z) (s : list Z) : outcome (list Z) :=
  do bs <- utf8_append cp; Ok (s ++ bs).

(** string_encodings.cpp:364-373 string_range_as_utf8_string_templ. *)
Fixpoint range_loop (fuel : nat) (next : list Z -> outcome (Z * list Z)) (it result : list Z) : outcome (list Z) :=
  match it with
  | [] => Ok result
  | _ :: _ =>
      match fuel with
      | O => NoFuel
      | S fuel =>
          do (cp, it') <- next it;
          do result' <- string_append_utf8 cp result;
          range_loop fuel next it' result'
      end
  end.

(** string_encodings.cpp:375-409 string_range_as_utf8_string. *)
Definition string_range_as_utf8_string (e : enc) (nocheck : bool) (buf : list Z) : outcome (list Z) :=
  match e with
  | Ascii | Utf8 => Ok buf
  | _ => range_loop (S (List.length buf)) (next_fn e nocheck) buf []
  end.
