(** What numeric values are, independently of the casts.  Only the names of the
    types, values and error modes are taken from AssignModel. *)
From Verif Require Import Base AssignModel.
Open Scope Z_scope.

(** 1, counted in units of 2^-1074, the smallest positive double. *)
Definition unit1 : Z := 2 ^ 1074.

(** An extended real number: NaN, an infinity, or a multiple of 2^-1074. *)
Inductive xnum := NaN | Inf (neg : bool) | Num (z : Z).
(** The number a floating point value stands for; both zeros stand for 0. *)
Definition num_of (x : flt) : xnum :=
  match x with
  | FNan => NaN
  | FInf s => Inf s
  | FFin s n => Num (if s then - n else n)
  end.
(** Real and imaginary part of a value of any type. *)
Definition denote (v : nval) : xnum * xnum :=
  match v with
  | VBool b => (Num (if b then unit1 else 0), Num 0)
  | VInt z => (Num (z * unit1), Num 0)
  | VFlt x => (num_of x, Num 0)
  | VCplx x y => (num_of x, num_of y)
  end.

(** Magnitudes of binary32 / binary64: m * 2^e with m < 2^24, -149 <= e <= 104,
    respectively m < 2^53, -1074 <= e <= 971. *)
Definition magnitude (F : fsz) (n : Z) : Prop :=
  match F with
  | S32 => exists m e, n = m * 2 ^ (e + 1074) /\ 0 <= m < 2 ^ 24 /\ -149 <= e <= 104
  | S64 => exists m e, n = m * 2 ^ (e + 1074) /\ 0 <= m < 2 ^ 53 /\ -1074 <= e <= 971
  end.
Definition is_flt (F : fsz) (x : flt) : Prop := match x with FFin _ n => magnitude F n | _ => True end.
Definition in_int (sgn : bool) (b z : Z) : Prop :=
  if sgn then - 2 ^ (b - 1) <= z <= 2 ^ (b - 1) - 1 else 0 <= z <= 2 ^ b - 1.
(** The types of the dispatch table and the values of each. *)
Definition is_type (t : nty) : Prop :=
  match t with TInt _ b => b = 8 \/ b = 16 \/ b = 32 \/ b = 64 | _ => True end.
Definition of_type (t : nty) (v : nval) : Prop :=
  match t, v with
  | TBool, VBool _ => True
  | TInt s b, VInt z => in_int s b z
  | TFlt F, VFlt x => is_flt F x
  | TCplx F, VCplx x y => is_flt F x /\ is_flt F y
  | _, _ => False
  end.
(** A value of the type stands for these numbers. *)
Definition representable (t : nty) (n : xnum * xnum) : Prop := exists v, of_type t v /\ denote v = n.
Definition finite (n : xnum * xnum) : Prop := exists a b, n = (Num a, Num b).

(** Error modes, from the weakest to the strictest. *)
Definition rank (m : emode) : nat := match m with nocheck => 0 | overflow => 1 | fractional => 2 | inexact => 3 end.

(** The largest finite value, and where rounding to nearest goes to infinity. *)
Definition biggest (F : fsz) : Z :=
  match F with S32 => (2 ^ 24 - 1) * 2 ^ (104 + 1074) | S64 => (2 ^ 53 - 1) * 2 ^ (971 + 1074) end.
Definition too_big (F : fsz) : Z :=
  match F with S32 => (2 ^ 25 - 1) * 2 ^ (103 + 1074) | S64 => (2 ^ 54 - 1) * 2 ^ (970 + 1074) end.
(** [n] written with an even significand. *)
Definition even_sig (F : fsz) (n : Z) : Prop :=
  match F with
  | S32 => exists m e, n = m * 2 ^ (e + 1074) /\ -149 <= e /\ (2 ^ 23 <= m \/ e = -149) /\ m < 2 ^ 24 /\ Z.even m = true
  | S64 => exists m e, n = m * 2 ^ (e + 1074) /\ -1074 <= e /\ (2 ^ 52 <= m \/ e = -1074) /\ m < 2 ^ 53 /\ Z.even m = true
  end.
(** IEEE 754 conversion of the real number [v] (in units) to nearest, ties to even. *)
Definition nearest (F : fsz) (v : Z) (r : flt) : Prop :=
  is_flt F r /\
  match r with
  | FNan => False
  | FInf s => too_big F <= Z.abs v /\ s = (v <? 0)
  | FFin s n =>
      Z.abs v < too_big F /\
      forall (s' : bool) (n' : Z), magnitude F n' ->
        let a := if s then - n else n in
        let a' := if s' then - n' else n' in
        Z.abs (v - a) <= Z.abs (v - a') /\
        (Z.abs (v - a) = Z.abs (v - a') -> a' = a \/ even_sig F n)
  end.
