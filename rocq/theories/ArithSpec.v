(* Integer arithmetic on the built-in types, in the words of the C++ rules. *)
From Verif Require Import Base RangeSpec.
Local Open Scope Z_scope.

(* Operations on integers are done in one of four types, in this order; the
   operation on two operands takes the later of their types. Types narrower
   than 32 bits, and bool, count as the first. *)
Inductive optype := I32 | U32 | I64 | U64.
Definition op_rank (t : optype) : Z := match t with I32 => 0 | U32 => 1 | I64 => 2 | U64 => 3 end.
Definition op_later (a b : optype) : optype := if op_rank a <? op_rank b then b else a.
Definition op_of (signed : bool) (bits : Z) : optype :=
  if bits <? 32 then I32
  else if bits =? 32 then (if signed then I32 else U32)
  else (if signed then I64 else U64).
Definition op_signed (t : optype) : bool := match t with I32 | I64 => true | _ => false end.
Definition op_bits (t : optype) : Z := match t with I32 | U32 => 32 | _ => 64 end.

(* v is one of the values of the type *)
Definition op_holds (t : optype) (v : Z) : Prop := in_type (op_signed t) (op_bits t) v.

(* the value of the type that differs from v by a multiple of 2^bits *)
Definition op_wrap (t : optype) (v w : Z) : Prop :=
  op_holds t w /\ exists k, w = v + k * 2 ^ op_bits t.

(* truncating division *)
Definition is_quotient (a b q r : Z) : Prop :=
  a = q * b + r /\ Z.abs r < Z.abs b /\ (r = 0 \/ Z.sgn r = Z.sgn a).
