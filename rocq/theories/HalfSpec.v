(** IEEE-754 bit patterns, described without real numbers: every finite value
    of a format is an integer multiple of the format's smallest positive value. *)
From Coq Require Import List ZArith.
Open Scope Z_scope.

(** A binary format: [mb] fraction bits, [eb] exponent bits. *)
Record format := mk_format { mb : Z; eb : Z }.
Definition binary16 := mk_format 10 5.
Definition binary32 := mk_format 23 8.
Definition binary64 := mk_format 52 11.

Definition sign (F : format) (x : Z) : Z := x / 2 ^ (mb F + eb F).
Definition expo (F : format) (x : Z) : Z := (x / 2 ^ mb F) mod 2 ^ eb F.
Definition frac (F : format) (x : Z) : Z := x mod 2 ^ mb F.
Definition is_pattern (F : format) (x : Z) : Prop := 0 <= x < 2 ^ (1 + mb F + eb F).
Definition is_nan (F : format) (x : Z) : Prop := expo F x = 2 ^ eb F - 1 /\ frac F x <> 0.
Definition is_inf (F : format) (x : Z) : Prop := expo F x = 2 ^ eb F - 1 /\ frac F x = 0.
Definition is_finite (F : format) (x : Z) : Prop := expo F x <> 2 ^ eb F - 1.

(** Magnitude of a finite pattern, in units of the smallest positive value of
    the format (2^-24, 2^-149, 2^-1074). *)
Definition mag (F : format) (x : Z) : Z :=
  if expo F x =? 0 then frac F x else (2 ^ mb F + frac F x) * 2 ^ (expo F x - 1).
(** How many source units make one binary16 unit. *)
Definition unit32 : Z := 2 ^ 125.
Definition unit64 : Z := 2 ^ 1050.

(** [m] (a non-negative finite binary16 pattern, i.e. m < 0x7c00) is the
    binary16 magnitude nearest to [v] source units, ties to even. *)
Definition nearest_even (unit v m : Z) : Prop :=
  0 <= m < 0x7c00 /\
  forall m', 0 <= m' < 0x7c00 ->
    Z.abs (v - mag binary16 m * unit) <= Z.abs (v - mag binary16 m' * unit) /\
    (Z.abs (v - mag binary16 m * unit) = Z.abs (v - mag binary16 m' * unit) -> m' = m \/ Z.even m = true).

(** The complete description of a narrowing conversion's result [res] for the
    source pattern [x]. *)
Definition narrowing_ok {outcome : Type} (ok : Z -> outcome) (throw_under throw_over : outcome)
    (F : format) (unit : Z) (x : Z) (res : outcome) : Prop :=
  let sgn := sign F x * 0x8000 in
  let v := mag F x in
  (is_nan F x -> exists h, res = ok h /\ is_nan binary16 h /\ sign binary16 h = sign F x) /\
  (is_inf F x -> res = ok (sgn + 0x7c00)) /\
  (is_finite F x -> 65536 * 2 ^ 24 * unit <= v -> res = ok (sgn + 0x7c00)) /\
  (is_finite F x -> 65520 * 2 ^ 24 * unit <= v < 65536 * 2 ^ 24 * unit -> res = throw_over) /\
  (is_finite F x -> 2 ^ 10 * unit <= v < 65520 * 2 ^ 24 * unit ->
     exists m, res = ok (sgn + m) /\ nearest_even unit v m) /\
  (is_finite F x -> v < 2 ^ 10 * unit -> v mod unit <> 0 -> res = throw_under) /\
  (is_finite F x -> v < 2 ^ 10 * unit -> v mod unit = 0 ->
     exists m, res = ok (sgn + m) /\ 0 <= m < 0x7c00 /\ mag binary16 m * unit = v).
