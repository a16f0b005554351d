(** Specification for C09-C12, C46: the Unicode encoding forms, independent of
    the code (Unicode Standard 3.9, D76, D90-D92 and table 3-6). *)
From Verif Require Import Base EncodingModel.
(* only the enumeration [enc] of encodings and its unit sizes [char_size] are
   used from the model *)

(** Unicode scalar values. *)
Definition scalar (cp : Z) : Prop := 0 <= cp <= 0x10FFFF /\ ~ (0xD800 <= cp <= 0xDFFF).

Definition byte (b : Z) : Prop := 0 <= b < 256.

(** [utf8_of cp bs]: [bs] is the UTF-8 form of [cp]: the shortest of the four
    bit patterns 0xxxxxxx, 110xxxxx 10xxxxxx, ... *)
Inductive utf8_of : Z -> list Z -> Prop :=
| utf8_1 x : 0 <= x < 0x80 -> utf8_of x [x]
| utf8_2 a b : 0 <= a < 32 -> 0 <= b < 64 -> 0x80 <= 64 * a + b ->
    utf8_of (64 * a + b) [0xC0 + a; 0x80 + b]
| utf8_3 a b c : 0 <= a < 16 -> 0 <= b < 64 -> 0 <= c < 64 ->
    0x800 <= 4096 * a + 64 * b + c -> scalar (4096 * a + 64 * b + c) ->
    utf8_of (4096 * a + 64 * b + c) [0xE0 + a; 0x80 + b; 0x80 + c]
| utf8_4 a b c d : 0 <= a < 8 -> 0 <= b < 64 -> 0 <= c < 64 -> 0 <= d < 64 ->
    0x10000 <= 262144 * a + 4096 * b + 64 * c + d -> scalar (262144 * a + 4096 * b + 64 * c + d) ->
    utf8_of (262144 * a + 4096 * b + 64 * c + d) [0xF0 + a; 0x80 + b; 0x80 + c; 0x80 + d].

(** [word16 v bs], [word32 v bs]: little-endian machine words. *)
Definition word16 (v : Z) (bs : list Z) : Prop :=
  exists lo hi, byte lo /\ byte hi /\ v = lo + 256 * hi /\ bs = [lo; hi].
Definition word32 (v : Z) (bs : list Z) : Prop :=
  exists a b c d, byte a /\ byte b /\ byte c /\ byte d /\
    v = a + 256 * b + 65536 * c + 16777216 * d /\ bs = [a; b; c; d].

Inductive utf16_of : Z -> list Z -> Prop :=
| utf16_1 cp bs : scalar cp -> cp < 0x10000 -> word16 cp bs -> utf16_of cp bs
| utf16_2 h l b1 b2 : 0 <= h < 1024 -> 0 <= l < 1024 ->
    word16 (0xD800 + h) b1 -> word16 (0xDC00 + l) b2 ->
    utf16_of (0x10000 + 1024 * h + l) (b1 ++ b2).

(** The five encodings of libdynd, by name. *)
Inductive encodes_ascii : Z -> list Z -> Prop := asc cp : 0 <= cp < 128 -> encodes_ascii cp [cp].
Inductive encodes_ucs2 : Z -> list Z -> Prop :=
  ucs cp bs : scalar cp -> cp < 0x10000 -> word16 cp bs -> encodes_ucs2 cp bs.
Inductive encodes_utf32 : Z -> list Z -> Prop :=
  u32_ cp bs : scalar cp -> word32 cp bs -> encodes_utf32 cp bs.

(** The encoding of a text (a sequence of code points). *)
Inductive text (one : Z -> list Z -> Prop) : list Z -> list Z -> Prop :=
| text_nil : text one [] []
| text_cons cp bs cps rest : one cp bs -> text one cps rest -> text one (cp :: cps) (bs ++ rest).

(** The encodings of the specification, by the model's enumeration. *)
Definition encodes (e : enc) : Z -> list Z -> Prop :=
  match e with
  | Ascii => encodes_ascii
  | Ucs2 => encodes_ucs2
  | Utf8 => utf8_of
  | Utf16 => utf16_of
  | Utf32 => encodes_utf32
  end.

Definition bytes (l : list Z) : Prop := Forall byte l.


(** Whole code units only. *)
Definition whole (e : enc) (buf : list Z) : Prop := exists k, List.length buf = (k * char_size e)%nat.


(** The two inputs on which a no-error decoder misbehaves: a UTF-8 byte that
    cannot start a sequence, and a lead surrogate that is the last unit. *)
Definition bad_lead8 (buf : list Z) : Prop := 0x80 <= hd 0 buf < 0xC0 \/ 0xF8 <= hd 0 buf.
Definition dangling_lead16 (buf : list Z) : Prop := exists lo hi, buf = [lo; hi] /\ 0xD8 <= hi < 0xDC.


(** An encoder that had [room] bytes did not write outside them. *)
Definition fits (room : Z) (r : outcome (list Z * Z)) : Prop :=
  match r with
  | Ok (bs, room') => bs <> [] /\ 0 <= room' /\ Z.of_nat (List.length bs) + room' = room
  | Throw _ => True
  | _ => False
  end.
Definition starts_utf8 (buf : list Z) : Prop := exists cp bs rest, buf = bs ++ rest /\ utf8_of cp bs.

