(* nd::old_range and nd::old_linspace on the built-in types.
   Models src/dynd/array_range.cpp. Only the integer types of up to 64 bits and
   the argument checks of old_linspace are modelled; the floating-point
   formulas and int128 are not. *)
From Verif Require Import Base.
Local Open Scope Z_scope.

(* An integer type: signed or unsigned, with a width (8, 16, 32 or 64). *)
Record ity := ITy { i_signed : bool; i_bits : Z }.

Definition imin (t : ity) : Z := if i_signed t then - 2 ^ (i_bits t - 1) else 0.
Definition imax (t : ity) : Z := if i_signed t then 2 ^ (i_bits t - 1) - 1 else 2 ^ i_bits t - 1.

(* static_cast<T>(v) *)
Definition cast (t : ity) (v : Z) : Z :=
  let u := v mod 2 ^ i_bits t in
  if i_signed t && (2 ^ (i_bits t - 1) <=? u) then u - 2 ^ i_bits t else u.

(* (intptr_t)v for a value v of type t: only uint64_t values change *)
Definition to_ssize (v : Z) : Z := cast (ITy true 64) v.

(* ((intptr_t)hi - (intptr_t)lo + (intptr_t)step - 1) / (intptr_t)step *)
Definition count_formula (hi lo step : Z) : outcome Z :=
  do d <- sub64 (to_ssize hi) (to_ssize lo);
  do e <- add64 d (to_ssize step);
  do f <- sub64 e 1;
  if to_ssize step =? 0 then UB else div64 f (to_ssize step).

(* -step of type T: int arithmetic below 32 bits and then a conversion back;
   overflow in int and int64_t is undefined *)
Definition neg_t (t : ity) (v : Z) : outcome Z :=
  if i_bits t <? 32 then Ok (cast t (- v))
  else if v =? imin t then UB else Ok (- v).

(* array_range.cpp:46-86: range_counter for signed and unsigned integers *)
Definition range_count (t : ity) (begin end_ step : Z) : outcome Z :=
  if 0 <? step then
    if end_ <=? begin then Ok 0 else count_formula end_ begin step
  else if i_signed t && (step <? 0) then
    if begin <=? end_ then Ok 0
    else do s <- neg_t t step; count_formula begin end_ s
  else Throw "nd::range cannot have a zero-sized step".

(* array_range.cpp:18-29: begin + i * step. The operation is in int64_t (UB on
   overflow), or in uint64_t (wraps) for uint64_t. *)
Definition range_value (t : ity) (begin step i : Z) : outcome Z :=
  if (i_bits t =? 64) && negb (i_signed t) then Ok (cast t (begin + i * step))
  else do m <- mul64 i step; do v <- add64 begin m; Ok (cast t v).

Fixpoint range_values (t : ity) (begin step : Z) (i : Z) (n : nat) : outcome (list Z) :=
  match n with
  | O => Ok []
  | Datatypes.S n' =>
      do v <- range_value t begin step i;
      do vs <- range_values t begin step (i + 1) n';
      Ok (v :: vs)
  end.

(* array_range.cpp:113-148: old_range. nd::empty with a negative size
   (array.hpp:578-580) makes a var dimension without elements: None. *)
Definition old_range (t : ity) (begin end_ step : Z) : outcome (option (list Z)) :=
  do n <- range_count t begin end_ step;
  if n <? 0 then Ok None
  else do vs <- range_values t begin step 0 (Z.to_nat n); Ok (Some vs).
