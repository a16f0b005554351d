(** What 128-bit integers are: numbers modulo 2^128, and decimal numerals. *)
From Coq Require Import List ZArith.
Import ListNotations.
Open Scope Z_scope.

(** unsigned / signed value of a (high word, low word) pair *)
Definition uval (h l : Z) : Z := h * 2 ^ 64 + l.
Definition sval (h l : Z) : Z := if h <? 2 ^ 63 then uval h l else uval h l - 2 ^ 128.
(** two's complement reduction to [-2^127, 2^127) *)
Definition signed128 (x : Z) : Z := (x + 2 ^ 127) mod 2 ^ 128 - 2 ^ 127.

(** Value of a list of ASCII decimal digits, most significant first. *)
Fixpoint dec_value (acc : Z) (s : list Z) : Z :=
  match s with [] => acc | c :: s' => dec_value (10 * acc + (c - 48)) s' end.
(** [s] is the canonical decimal numeral of [n >= 0]: only digits, the right
    value, no leading zero unless it is exactly "0". *)
Definition is_decimal (n : Z) (s : list Z) : Prop :=
  Forall (fun c => 48 <= c <= 57) s /\ dec_value 0 s = n /\ s <> [] /\
  (hd 0 s = 48 -> s = [48]).
