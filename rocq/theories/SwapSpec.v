(* What byte swapping should do. *)
From Verif Require Import Base.
Local Open Scope Z_scope.

(* the i-th byte of a value, from the least significant *)
Definition byte (i v : Z) : Z := (v / 256 ^ i) mod 256.
(* bytes at [a, a + n) and at [b, b + n) are different ones *)
Definition apart (a b n : Z) : Prop := a + n <= b \/ b + n <= a.
