(** Specification of decimal integer texts. *)
From Coq Require Import List ZArith Bool.
Import ListNotations.
Open Scope Z_scope.

Definition digit (c : Z) : Prop := 48 <= c <= 57.
(** Value of a digit string. *)
Definition dec (ds : list Z) : Z := fold_left (fun a c => 10 * a + (c - 48)) ds 0.

(** [number s n]: [s] is a (possibly empty) digit string followed by nothing, by
    '.' and zeros, or by 'e'/'E', an optional '+' and an exponent below 100;
    it is not empty, and denotes [n]. *)
Inductive number : list Z -> Z -> Prop :=
| num_plain ds : Forall digit ds -> ds <> [] -> number ds (dec ds)
| num_frac ds zs : Forall digit ds -> Forall (eq 48) zs -> number (ds ++ 46 :: zs) (dec ds)
| num_exp ds e es : Forall digit ds -> e = 101 \/ e = 69 ->
    Forall digit es -> es <> [] -> dec es < 100 -> number (ds ++ e :: es) (dec ds * 10 ^ dec es)
| num_exp_plus ds e es : Forall digit ds -> e = 101 \/ e = 69 ->
    Forall digit es -> es <> [] -> dec es < 100 -> number (ds ++ e :: 43 :: es) (dec ds * 10 ^ dec es).

(** Range of an integer type. *)
Definition in_range (sgn : bool) (bits v : Z) : Prop :=
  if sgn then - 2 ^ (bits - 1) <= v < 2 ^ (bits - 1) else 0 <= v < 2 ^ bits.

(** The tokens that mean "missing": "", "NA", "null" in any case, "None". *)
Definition lower (c : Z) : Z := if (65 <=? c) && (c <=? 90) then c + 32 else c.
Definition na_token (s : list Z) : Prop :=
  s = [] \/ s = [78; 65] \/ map lower s = [110; 117; 108; 108] \/ s = [78; 111; 110; 101].
