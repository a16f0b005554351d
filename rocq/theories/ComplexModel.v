(** dynd::complex<double> (include/dynd/complex.hpp).

    As in LinspaceModel.v a finite number is the real number it stands for, an
    operation rounds to nearest even, and [None] is a result that is not finite: an
    overflow, or a division by zero.  What is computed from it is [None]. *)
From Coq Require Import Reals.
From Flocq Require Import Core.
From Verif Require Import Base LinspaceModel.
Open Scope R_scope.

Definition fadd (x y : R) : option R := d64 (x + y).
Definition fsub (x y : R) : option R := d64 (x - y).
Definition fmul (x y : R) : option R := d64 (x * y).
Definition fdiv (x y : R) : option R := if Req_bool y 0 then None else d64 (x / y).

Record complex := C { re : R; im : R }.

(** complex.hpp:81-87, and 387-389 by it. *)
Definition div (x y : complex) : option complex :=
  obind (fmul (re y) (re y)) (fun p => obind (fmul (im y) (im y)) (fun q => obind (fadd p q) (fun denom =>
  obind (fmul (re x) (re y)) (fun p => obind (fmul (im x) (im y)) (fun q => obind (fadd p q) (fun r => obind (fdiv r denom) (fun r =>
  obind (fmul (re y) (im x)) (fun p => obind (fmul (re x) (im y)) (fun q => obind (fsub p q) (fun i => obind (fdiv i denom) (fun i =>
  Some (C r i)))))))))))).

(** 74-79 and 89-94: *= and /= by a number, which is taken by reference: it can be a
    member of the complex number itself. *)
Inductive scalar := Other (v : R) | Real | Imag.
Definition value (z : complex) (s : scalar) : R := match s with Other v => v | Real => re z | Imag => im z end.
Definition scale_assign (op : R -> R -> option R) (z : complex) (s : scalar) : option complex :=
  obind (op (re z) (value z s)) (fun r => let z := C r (im z) in
  obind (op (im z) (value z s)) (fun i => let z := C (re z) i in Some z)).
Definition mul_assign : complex -> scalar -> option complex := scale_assign fmul.
Definition div_assign : complex -> scalar -> option complex := scale_assign fdiv.

(** 221-231: == of complex numbers and with a number, and 250-258: != of complex numbers and with a
    number. *)
Definition eq_complex (x y : complex) : bool := Req_bool (re x) (re y) && Req_bool (im x) (im y).
Definition eq_number (x : complex) (y : R) : bool := Req_bool (re x) y && Req_bool (im x) 0.
Definition ne_complex (x y : complex) : bool := negb (eq_complex x y).
Definition ne_number (x : complex) (y : R) : bool := Req_bool (re x) y && Req_bool (im x) 0.

(** 42-47, 55-60, 68-72: +=, -= and *= of complex numbers; 275-278, 312-315 and 349-352 are by them. *)
Definition add (x y : complex) : option complex :=
  obind (fadd (re x) (re y)) (fun r => obind (fadd (im x) (im y)) (fun i => Some (C r i))).
Definition sub (x y : complex) : option complex :=
  obind (fsub (re x) (re y)) (fun r => obind (fsub (im x) (im y)) (fun i => Some (C r i))).
Definition mul (x y : complex) : option complex :=
  obind (fmul (re x) (re y)) (fun p => obind (fmul (im x) (im y)) (fun q => obind (fsub p q) (fun r =>
  obind (fmul (re x) (im y)) (fun p => obind (fmul (re y) (im x)) (fun q => obind (fadd p q) (fun i =>
  Some (C r i))))))).
(** With a number on the right: 49-53, 62-66 and 74-79, by which 286-289, 323-326 and 360-363 are. *)
Definition add_number (x : complex) (s : R) : option complex := obind (fadd (re x) s) (fun r => Some (C r (im x))).
Definition sub_number (x : complex) (s : R) : option complex := obind (fsub (re x) s) (fun r => Some (C r (im x))).
Definition mul_number (x : complex) (s : R) : option complex := mul_assign x (Other s).
(** With a number on the left: + (299-302), - (336-339), * (373-376) and / (402-406). *)
Definition number_add (s : R) (y : complex) : option complex := obind (fadd s (re y)) (fun r => Some (C r (im y))).
Definition number_sub (s : R) (y : complex) : option complex := obind (fsub s (re y)) (fun r => Some (C r (- im y))).
Definition number_mul (s : R) (y : complex) : option complex :=
  obind (fmul s (re y)) (fun r => obind (fmul s (im y)) (fun i => Some (C r i))).
Definition number_div (s : R) (y : complex) : option complex :=
  obind (fmul (re y) (re y)) (fun p => obind (fmul (im y) (im y)) (fun q => obind (fadd p q) (fun denom =>
  obind (fmul s (re y)) (fun r => obind (fdiv r denom) (fun r =>
  obind (fmul (- s) (im y)) (fun i => obind (fdiv i denom) (fun i => Some (C r i)))))))).
(** 265-268: the negative, and 426-429: the conjugate. *)
Definition neg (x : complex) : complex := C (- re x) (- im x).
Definition conj_ (x : complex) : complex := C (re x) (- im x).
