(** Numeric assignment: the casts of include/dynd/assignment.hpp and the kernel
    table of include/dynd/kernels/assignment_kernels.hpp that maps (destination
    type, source type, error mode) to one of them. *)
From Verif Require Import Base ParseIntModel.
Open Scope Z_scope.

(** ** float and double
    Every finite float and double is an integer multiple of 2^-1074, the
    smallest positive double: a finite value is a sign and a magnitude counted
    in that unit.  A format has precision [fp]; the exponents of the spacing of
    its smallest and of its largest values, relative to the unit, are [fq] and
    [fe].  Simplification: NaN payloads and the sign of a NaN are not kept. *)
Inductive fsz := S32 | S64.
Inductive flt := FNan | FInf (neg : bool) | FFin (neg : bool) (mag : Z).
Definition fp (F : fsz) : Z := match F with S32 => 24 | S64 => 53 end.
Definition fq (F : fsz) : Z := match F with S32 => 925 | S64 => 0 end.
Definition fe (F : fsz) : Z := match F with S32 => 1178 | S64 => 2045 end.
(** The number 1, in units of 2^-1074. *)
Definition one : Z := 2 ^ 1074.
(** std::numeric_limits<T>::max(), in units. *)
Definition fmax (F : fsz) : Z := (2 ^ fp F - 1) * 2 ^ fe F.
Definition fval (neg : bool) (n : Z) : Z := if neg then - n else n.

(** The processor's conversion to a binary format (assignment.hpp relies on it
    in each static_cast): round to nearest, ties to even; too large a value
    becomes an infinity.  C++ leaves the latter undefined; this is what IEEE 754
    hardware does. *)
Definition rne (n k : Z) : Z :=
  let q := n / 2 ^ k in
  let r := n mod 2 ^ k in
  if 2 * r <? 2 ^ k then q
  else if 2 ^ k <? 2 * r then q + 1
  else if Z.even q then q else q + 1.
Definition ulpe (F : fsz) (n : Z) : Z := Z.max (fq F) (Z.log2 n - fp F + 1).
Definition rmag (F : fsz) (n : Z) : Z := rne n (ulpe F n) * 2 ^ ulpe F n.
Definition fround (F : fsz) (neg : bool) (n : Z) : flt :=
  if fmax F <? rmag F n then FInf neg else FFin neg (rmag F n).

(** static_cast between floating point types. *)
Definition f2f (F : fsz) (x : flt) : flt :=
  match x with FNan => FNan | FInf s => FInf s | FFin s n => fround F s n end.
(** static_cast from an integer. *)
Definition i2f (F : fsz) (z : Z) : flt := fround F (z <? 0) (Z.abs z * one).
(** static_cast to an integer type: truncation; undefined when the truncated
    value does not fit, and for NaN and the infinities. *)
Definition f2i (sgn : bool) (b : Z) (x : flt) : outcome Z :=
  match x with
  | FFin s n => let t := Z.quot (fval s n) one in
                if (tmin sgn b <=? t) && (t <=? tmax sgn b) then Ok t else UB
  | _ => UB
  end.
(** The comparisons < and == of floating point numbers. *)
Definition flt_lt (x y : flt) : bool :=
  match x, y with
  | FNan, _ | _, FNan => false
  | FFin s n, FFin t m => fval s n <? fval t m
  | FInf s, FInf t => s && negb t
  | FInf s, FFin _ _ => s
  | FFin _ _, FInf t => negb t
  end.
Definition flt_eq (x y : flt) : bool :=
  match x, y with
  | FNan, _ | _, FNan => false
  | FFin s n, FFin t m => fval s n =? fval t m
  | FInf s, FInf t => Bool.eqb s t
  | _, _ => false
  end.
Definition isfinite (x : flt) : bool := match x with FFin _ _ => true | _ => false end.
(** floor(); the value of the result is what matters, not the sign of a zero. *)
Definition ffloor (x : flt) : flt :=
  match x with
  | FFin s n => let v := fval s n / one * one in FFin (v <? 0) (Z.abs v)
  | _ => x
  end.
Definition fneg (x : flt) : flt :=
  match x with FNan => FNan | FInf s => FInf (negb s) | FFin s n => FFin (negb s) n end.
Definition flimit (F : fsz) : flt := FFin false (fmax F).
Definition fzero : flt := FFin false 0.

(** ** The numeric types of src/dynd/assignment.cpp:30-32
    Simplification: int128 and uint128 are class types with their own
    conversion operators and are left out, so [b] is 8, 16, 32 or 64. *)
Inductive nty := TBool | TInt (sgn : bool) (b : Z) | TFlt (F : fsz) | TCplx (F : fsz).
Inductive nval := VBool (b : bool) | VInt (z : Z) | VFlt (x : flt) | VCplx (re im : flt).
(** config.hpp:770-782 (assign_error_default is resolved to nocheck by
    callables/assign_callable.hpp:32-35). *)
Inductive emode := nocheck | overflow | fractional | inexact.

(** ** The casts.  Exceptions are named by their C++ class. *)

(** assignment_kernels.hpp:91-107 (static_cast), 109-147 (complex to real or
    integer: the real part), 149-161, 223-235 (integer to complex), 185-196
    (anything to bool). A value that is not of the source type cannot occur: UB. *)
Definition bool_z (b : bool) : Z := if b then 1 else 0.
Definition flt_nz (x : flt) : bool := negb (flt_eq x fzero).
Definition nocheck_cast (dst : nty) (v : nval) : outcome nval :=
  match dst, v with
  | TBool, VBool b => Ok (VBool b)
  | TBool, VInt z => Ok (VBool (negb (z =? 0)))
  | TBool, VFlt x => Ok (VBool (flt_nz x))
  | TBool, VCplx x y => Ok (VBool (flt_nz x || flt_nz y))
  | TInt s b, VBool c => Ok (VInt (cast s b (bool_z c)))
  | TInt s b, VInt z => Ok (VInt (cast s b z))
  | TInt s b, VFlt x => do z <- f2i s b x; Ok (VInt z)
  | TInt s b, VCplx x _ => do z <- f2i s b x; Ok (VInt z)
  | TFlt F, VBool c => Ok (VFlt (i2f F (bool_z c)))
  | TFlt F, VInt z => Ok (VFlt (i2f F z))
  | TFlt F, VFlt x => Ok (VFlt (f2f F x))
  | TFlt F, VCplx x _ => Ok (VFlt (f2f F x))
  | TCplx F, VBool c => Ok (VCplx (i2f F (bool_z c)) fzero)
  | TCplx F, VInt z => Ok (VCplx (i2f F z) fzero)
  | TCplx F, VFlt x => Ok (VCplx (f2f F x) fzero)
  | TCplx F, VCplx x y => Ok (VCplx (f2f F x) (f2f F y))
  end.

(** assignment.hpp:344-357 — anything to bool1, in all the checked modes. *)
Definition overflow_bool (v : nval) : outcome nval :=
  let is k := match v with
              | VBool b => Bool.eqb b k
              | VInt z => z =? bool_z k
              | VFlt x => flt_eq x (i2f S64 (bool_z k))
              | VCplx x y => flt_eq x (i2f S64 (bool_z k)) && flt_eq y fzero
              end in
  if is false then Ok (VBool false)
  else if is true then Ok (VBool true)
  else Throw "overflow_error".

(** assignment.hpp:359-417 — integer to integer; the four overloads are the
    same text. *)
Definition overflow_i2i (ds : bool) (db : Z) (ss : bool) (sb : Z) (z : Z) : outcome Z :=
  if is_overflow ds db ss sb z then Throw "overflow_error" else Ok (cast ds db z).

(** assignment.hpp:243-257, 282-296 — floating point [F] to integer. The limits
    of the destination are converted to [F] for the comparison. *)
Definition f2i_out (F : fsz) (sgn : bool) (b : Z) (x : flt) : bool :=
  (if sgn then flt_lt x (i2f F (tmin sgn b)) else flt_lt x fzero)
  || flt_lt (i2f F (tmax sgn b)) x.
Definition overflow_f2i (F : fsz) (sgn : bool) (b : Z) (x : flt) : outcome Z :=
  if f2i_out F sgn b x then Throw "overflow_error" else f2i sgn b x.
(** assignment.hpp:507-527, 558-579 — the same with a check of the fraction. *)
Definition fractional_f2i (F : fsz) (sgn : bool) (b : Z) (x : flt) : outcome Z :=
  if f2i_out F sgn b x then Throw "overflow_error"
  else if negb (flt_eq (ffloor x) x) then Throw "runtime_error"
  else f2i sgn b x.
(** assignment.hpp:259-280, 298-317, 529-556, 581-608 — from complex. *)
Definition overflow_c2i (F : fsz) (sgn : bool) (b : Z) (x y : flt) : outcome Z :=
  if flt_nz y then Throw "runtime_error" else overflow_f2i F sgn b x.
Definition fractional_c2i (F : fsz) (sgn : bool) (b : Z) (x y : flt) : outcome Z :=
  if flt_nz y then Throw "runtime_error" else fractional_f2i F sgn b x.

(** The range check shared by the floating point casts, without and with the
    test of isfinite. *)
Definition f_out (F : fsz) (x : flt) : bool := flt_lt x (fneg (flimit F)) || flt_lt (flimit F) x.
(** assignment.hpp:319-342 — real to real, overflow. *)
Definition overflow_f2f (F : fsz) (x : flt) : outcome flt :=
  if isfinite x && f_out F x then Throw "overflow_error" else Ok (f2f F x).
(** assignment.hpp:69-107 — real to real, inexact (the range error is a
    std::runtime_error here). *)
Definition check_f2f (F : fsz) (x : flt) : outcome flt :=
  if isfinite x && f_out F x then Throw "runtime_error"
  else let res := f2f F x in
       if negb (flt_eq res x) then Throw "runtime_error" else Ok res.
(** assignment.hpp:419-451 — complex to real, overflow. *)
Definition overflow_c2f (F : fsz) (x y : flt) : outcome flt :=
  if flt_nz y then Throw "runtime_error"
  else if f_out F x then Throw "overflow_error" else Ok (f2f F x).
(** assignment.hpp:109-148 — complex<double> to float, inexact. *)
Definition check_c2f (x y : flt) : outcome flt :=
  if flt_nz y then Throw "runtime_error"
  else if f_out S32 x then Throw "overflow_error"
  else let res := f2f S32 x in
       if negb (flt_eq res x) then Throw "runtime_error" else Ok res.
(** assignment.hpp:453-479 — real to complex, overflow (the imaginary part of
    the result is 0). *)
Definition overflow_f2c (F : fsz) (x : flt) : outcome (flt * flt) :=
  if isfinite x && f_out F x then Throw "overflow_error" else Ok (f2f F x, fzero).
(** assignment.hpp:150-183 — real to complex, inexact. *)
Definition check_f2c (F : fsz) (x : flt) : outcome (flt * flt) :=
  if isfinite x && f_out F x then Throw "overflow_error"
  else let d := f2f F x in
       if negb (flt_eq d x) then Throw "runtime_error" else Ok (d, fzero).
(** assignment.hpp:481-505 — complex<double> to complex<float>, overflow. *)
Definition overflow_c2c (x y : flt) : outcome (flt * flt) :=
  if f_out S32 x || f_out S32 y then Throw "overflow_error" else Ok (f2f S32 x, f2f S32 y).
(** assignment.hpp:185-225 — complex<double> to complex<float>, inexact. *)
Definition check_c2c (x y : flt) : outcome (flt * flt) :=
  if f_out S32 x || f_out S32 y then Throw "overflow_error"
  else let dx := f2f S32 x in let dy := f2f S32 y in
       if negb (flt_eq dx x) || negb (flt_eq dy y) then Throw "runtime_error" else Ok (dx, dy).
(** assignment.hpp:23-67, 227-241 — integer to real and to complex, inexact:
    convert, convert back, compare. *)
Definition check_i2f (F : fsz) (sgn : bool) (b : Z) (z : Z) : outcome flt :=
  let d := i2f F z in
  do back <- f2i sgn b d;
  if negb (back =? z) then Throw "runtime_error" else Ok d.

(** ** The kernel table, assignment_kernels.hpp:91-742
    [assign m dst src v]: assign the value [v] of type [src] to a [dst]. *)
Definition v_int (o : outcome Z) : outcome nval := do z <- o; Ok (VInt z).
Definition v_flt (o : outcome flt) : outcome nval := do x <- o; Ok (VFlt x).
Definition v_cplx (o : outcome (flt * flt)) : outcome nval := do p <- o; Ok (VCplx (fst p) (snd p)).
Definition fsz_widens (src dst : fsz) : bool := match src, dst with S64, S32 => false | _, _ => true end.

Definition assign (m : emode) (dst src : nty) (v : nval) : outcome nval :=
  match m with
  | nocheck => nocheck_cast dst v
  | _ =>
    match dst, src, v with
    (* 477-519: bool *)
    | TBool, TBool, _ => nocheck_cast dst v
    | TBool, _, _ => overflow_bool v
    | _, TBool, _ => nocheck_cast dst v
    (* 521-615: integer to integer, the three checked modes alike *)
    | TInt ds db, TInt ss sb, VInt z => v_int (overflow_i2i ds db ss sb z)
    (* 259-367: floating point and complex to integer *)
    | TInt ds db, TFlt F, VFlt x =>
        v_int (match m with overflow => overflow_f2i F ds db x | _ => fractional_f2i F ds db x end)
    | TInt ds db, TCplx F, VCplx x y =>
        v_int (match m with overflow => overflow_c2i F ds db x y | _ => fractional_c2i F ds db x y end)
    (* 198-221, 617-640: integer to floating point *)
    | TFlt F, TInt ss sb, VInt z =>
        match m with inexact => v_flt (check_i2f F ss sb z) | _ => nocheck_cast dst v end
    (* 369-475: real to real *)
    | TFlt F, TFlt G, VFlt x =>
        if fsz_widens G F then nocheck_cast dst v
        else v_flt (match m with inexact => check_f2f F x | _ => overflow_f2f F x end)
    (* 655-685: complex to real *)
    | TFlt F, TCplx G, VCplx x y =>
        v_flt (match m, F, G with inexact, S32, S64 => check_c2f x y | _, _, _ => overflow_c2f F x y end)
    (* 163-183, 237-257, 642-653: integer to complex *)
    | TCplx F, TInt ss sb, VInt z =>
        match m with
        | inexact => v_cplx (do d <- check_i2f F ss sb z; Ok (d, fzero))
        | _ => nocheck_cast dst v
        end
    (* 687-712: real to complex *)
    | TCplx F, TFlt G, VFlt x =>
        v_cplx (match m with inexact => check_f2c F x | _ => overflow_f2c F x end)
    (* 382-445, 714-742: complex to complex *)
    | TCplx F, TCplx G, VCplx x y =>
        if fsz_widens G F then nocheck_cast dst v
        else v_cplx (match m with inexact => check_c2c x y | _ => overflow_c2c x y end)
    | _, _, _ => UB
    end
  end.
