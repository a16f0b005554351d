(** Fixed-size strings: ndt::fixed_string_type, ndt::char_type, and the kernels
    that assign between them and strings.  Bytes, buffers and the functions that
    encode and decode code points are those of EncodingModel.  A destination is
    the list of the bytes written, and the room after them; what is left in it by
    a call that throws is not modelled. *)
From Verif Require Import Base EncodingModel.
Open Scope Z_scope.

(** types/fixed_string_type.hpp:26-47: the data size in bytes. *)
Definition data_size (e : enc) (stringsize : nat) : nat := (stringsize * char_size e)%nat.

Definition zeros (n : Z) : list Z := repeat 0 (Z.to_nat n).

(** ** src/dynd/types/fixed_string_type.cpp:18-54, get_string_range: the bytes
    before the first unit that is zero. *)
Fixpoint range1 (data : list Z) : list Z :=
  match data with
  | [] => []
  | b :: r => if b =? 0 then [] else b :: range1 r
  end.
(** 32-39 and 42-49; a partial unit at the end is not looked at. *)
Fixpoint range2 (data : list Z) : list Z :=
  match data with
  | a :: b :: r => if a + 256 * b =? 0 then [] else a :: b :: range2 r
  | _ => []
  end.
Fixpoint range4 (data : list Z) : list Z :=
  match data with
  | a :: b :: c :: d :: r => if a + 256 * b + 65536 * c + 16777216 * d =? 0 then [] else a :: b :: c :: d :: range4 r
  | _ => []
  end.
Definition get_string_range (e : enc) (data : list Z) : list Z :=
  match char_size e with
  | 1%nat => range1 data
  | 2%nat => range2 data
  | _ => range4 data
  end.
(** src/dynd/types/base_string_type.cpp:13-19. *)
Definition get_utf8_string (e : enc) (nocheck : bool) (data : list Z) : outcome (list Z) :=
  string_range_as_utf8_string e nocheck (get_string_range e data).

(** ** The loops of fixed_string_type.cpp:65-68 and assignment_kernels.hpp:1382-1385,
    and, with [stop0], of assignment_kernels.hpp:1318-1328, which stops at U+0000:
    decode and encode while there is something to read and room to write.  The
    result is what is not read, what is written and the room left. *)
Fixpoint copy_loop (stop0 : bool) (next : list Z -> outcome (Z * list Z)) (app : Z -> Z -> outcome (list Z * Z))
    (fuel : nat) (src out : list Z) (room : Z) : outcome (list Z * list Z * Z) :=
  match src with
  | [] => Ok (src, out, room)
  | _ :: _ =>
      if 0 <? room then
        match fuel with
        | O => NoFuel
        | S fuel =>
            do (cp, src) <- next src;
            if stop0 && (cp =? 0) then Ok ([], out, room)
            else do (bs, room) <- app cp room; copy_loop stop0 next app fuel src (out ++ bs) room
        end
      else Ok (src, out, room)
  end.
(** 69-77, 1386-1394. *)
Definition finish (check : bool) (r : list Z * list Z * Z) : outcome (list Z) :=
  let '(src, out, room) := r in
  match src with
  | _ :: _ => if check then Throw "runtime_error: Input is too large" else Ok (out ++ zeros room)
  | [] => Ok (out ++ zeros room)
  end.
(** fixed_string_type.cpp:56-78, set_from_utf8_string, and
    assignment_kernels.hpp:1357-1396, from a string (in UTF-8) to a fixed string or
    a char (callables/assign_callable.hpp:242-270, 456-485): [size] bytes are
    written.  In the code the memset is in the branch where all was read; there is
    no room left in the other. *)
Definition set_from_utf8 (e : enc) (nocheck : bool) (size : Z) (src : list Z) : outcome (list Z) :=
  do r <- copy_loop false (next_fn Utf8 nocheck) (append_fn e nocheck) (S (Z.to_nat size)) src [] size;
  finish (negb nocheck) r.

(** ** assignment_kernels.hpp:1310-1340, from a fixed string to a fixed string. *)
Definition fixed_to_fixed (se de : enc) (nocheck : bool) (size : Z) (src : list Z) : outcome (list Z) :=
  do r <- copy_loop true (next_fn se nocheck) (append_fn de nocheck) (S (Z.to_nat size)) src [] size;
  finish (negb nocheck) r.

(** ** assignment_kernels.hpp:1020-1057, from a fixed string or a char to a string
    (in UTF-8).  [cap] is dst_end - dst_begin; the resize keeps what is there (C28:
    the value is on the heap, as it has more than 15 bytes). *)
Fixpoint grow_loop (next : list Z -> outcome (Z * list Z)) (app : Z -> Z -> outcome (list Z * Z))
    (fuel : nat) (src out : list Z) (cap : Z) : outcome (list Z) :=
  match src with
  | [] => Ok out
  | _ :: _ =>
      match fuel with
      | O => NoFuel
      | S fuel =>
          do (cp, src) <- next src;
          if cp =? 0 then Ok out
          else
            let cur := Z.of_nat (List.length out) in
            let cap := if 8 <=? cap - cur then cap else 2 * cap in
            do (bs, _) <- app cp (cap - cur);
            grow_loop next app fuel src (out ++ bs) cap
      end
  end.
Definition fixed_to_string (se : enc) (nocheck : bool) (fuel : nat) (src : list Z) : outcome (list Z) :=
  let n := Z.of_nat (List.length src) in
  grow_loop (next_fn se nocheck) (append_fn Utf8 nocheck) fuel src [] ((n / Z.of_nat (char_size se) + 16) * 1124 / 1024).

(** ** fixed_string_type.cpp:80-99, print_data: the code points handed to
    print_escaped_unicode_codepoint (C13). *)
Fixpoint print_loop (next : list Z -> outcome (Z * list Z)) (fuel : nat) (src : list Z) : outcome (list Z) :=
  match src with
  | [] => Ok []
  | _ :: _ =>
      match fuel with
      | O => NoFuel
      | S fuel =>
          do (cp, src) <- next src;
          if cp =? 0 then Ok [] else do r <- print_loop next fuel src; Ok (cp :: r)
      end
  end.
Definition print_data (e : enc) (fuel : nat) (data : list Z) : outcome (list Z) := print_loop (next_fn e true) fuel data.

(** ** Characters: types/char_type.hpp:25-44 (the constructor), char_type.cpp:25-35. *)
Definition char_encoding (e : enc) : outcome enc :=
  match e with
  | Ascii | Ucs2 | Utf32 => Ok e
  | _ => Throw "runtime_error: char type requires fixed-size encoding"
  end.
Definition get_code_point (e : enc) (data : list Z) : outcome Z :=
  do (cp, _) <- next_fn e true data; Ok cp.
Definition set_code_point (e : enc) (cp : Z) : outcome (list Z) :=
  do (bs, _) <- append_fn e true cp (Z.of_nat (char_size e)); Ok bs.
(** Assignments between characters and strings. *)
Definition string_to_char (e : enc) (nocheck : bool) (src : list Z) : outcome (list Z) :=
  set_from_utf8 e nocheck (Z.of_nat (char_size e)) src.
Definition char_to_string (e : enc) (nocheck : bool) (fuel : nat) (data : list Z) : outcome (list Z) :=
  fixed_to_string e nocheck fuel data.
