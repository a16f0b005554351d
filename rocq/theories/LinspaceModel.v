(** nd::old_linspace (src/dynd/array_range.cpp:150-249).

    A finite floating-point number is the real number it stands for; the sign of zero
    is not kept.  An operation rounds the exact result to nearest even; [None] is an
    overflow to infinity, and what is computed from it is not modelled: the result is
    [None].  The compiler is taken not to contract the products and the sum. *)
From Coq Require Import Reals.
From Flocq Require Import Core.
From Verif Require Import Base.
Open Scope Z_scope.

Definition f64 : Z -> Z := FLT_exp (-1074) 53.
Definition f32 : Z -> Z := FLT_exp (-149) 24.
Definition rounded (fexp : Z -> Z) (emax : Z) (x : R) : option R :=
  let r := round radix2 fexp ZnearestE x in
  if Rlt_bool (Rabs r) (bpow radix2 emax) then Some r else None.
Definition d64 : R -> option R := rounded f64 1024.
Definition d32 : R -> option R := rounded f32 128.
Definition obind {A B : Type} (x : option A) (f : A -> option B) : option B := match x with Some v => f v | None => None end.

(** 163: the element [i] of [count], in double.  The same for each component of a
    complex number: 184-187 with the operators of complex.hpp:68-73, 93-98, 365-368,
    407-410. *)
Definition elem64 (start stop : R) (count i : Z) : option R :=
  obind (d64 (IZR (count - i - 1))) (fun l =>
  obind (d64 (l * start)) (fun l =>
  obind (d64 (IZR i)) (fun r =>
  obind (d64 (r * stop)) (fun r =>
  obind (d64 (l + r)) (fun s =>
  obind (d64 (IZR (count - 1))) (fun n =>
  d64 (s / n))))))).
(** 154-155 (172-175 for complex): computed in double and then converted. *)
Definition elem32 (start stop : R) (count i : Z) : option R := obind (elem64 start stop count i) d32.

(** 212-249.  [start] and [stop] have one component, or two when the type is complex. *)
Inductive dtype := Float32 | Float64 | Complex32 | Complex64 | OtherType.
Definition components (f : R -> R -> Z -> Z -> option R) (start stop : list R) (count i : Z) : list (option R) :=
  map (fun p => f (fst p) (snd p) count i) (combine start stop).
Definition fill (f : R -> R -> Z -> Z -> option R) (start stop : list R) (count : Z) : list (list (option R)) :=
  map (fun i => components f start stop count (Z.of_nat i)) (seq 0 (Z.to_nat count)).
Definition linspace (dt : dtype) (start stop : list R) (count : Z) : outcome (list (list (option R))) :=
  if count <? 2 then Throw "runtime_error: linspace needs a count of at least 2"
  else match dt with
       | Float32 | Complex32 => Ok (fill elem32 start stop count)
       | Float64 | Complex64 => Ok (fill elem64 start stop count)
       | OtherType => Throw "runtime_error: dynd linspace doesn't support type"
       end.
