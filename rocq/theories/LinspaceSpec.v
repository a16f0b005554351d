(** Floating-point numbers and evenly spaced values. *)
From Coq Require Import Reals.
From Flocq Require Import Core.
From Verif Require Import Base.
Open Scope R_scope.

(** The finite values of float32 and float64. *)
Definition is_float32 (x : R) : Prop :=
  exists m e : Z, (Z.abs m < 2 ^ 24)%Z /\ (-149 <= e <= 104)%Z /\ x = IZR m * bpow radix2 e.
Definition is_float64 (x : R) : Prop :=
  exists m e : Z, (Z.abs m < 2 ^ 53)%Z /\ (-1074 <= e <= 971)%Z /\ x = IZR m * bpow radix2 e.
(** [v i] for 0 <= i <= n goes from [a] to [b] without ever going back. *)
Definition goes (a b : R) (n : Z) (v : Z -> R) : Prop :=
  v 0%Z = a /\ v n = b /\
  (forall i j, (0 <= i <= j)%Z -> (j <= n)%Z -> (a <= b -> v i <= v j) /\ (b <= a -> v j <= v i)).
