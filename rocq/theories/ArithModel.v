(* The element kernels of the arithmetic, bitwise, logical and comparison
   callables on bool and the integer types of up to 64 bits (LP64, C++14).
   Models include/dynd/kernels/arithmetic.hpp, the comparison kernels,
   include/dynd/kernels/compound_add_kernel.hpp and compound_div_kernel.hpp,
   and the operators of include/dynd/bool1.hpp. Not modelled: int128, uint128,
   the floating-point and complex types, strings, and how the callables choose
   a kernel (that is DispatchModel.v). *)
From Verif Require Import Base RangeModel.
Local Open Scope Z_scope.

(* include/dynd/bool1.hpp:14-22: bool1 holds 0 or 1, here the unsigned type of
   one bit. It converts to bool and then, by integral promotion, to int. *)
Definition bool1_t : ity := ITy false 1.
Definition is_bool (t : ity) : bool := i_bits t =? 1.

(* C++14 [conv.prom]: everything narrower than int becomes int *)
Definition promote (t : ity) : ity := if i_bits t <? 32 then ITy true 32 else t.

(* C++14 [expr]/11, the usual arithmetic conversions on two integer types *)
Definition common (ta tb : ity) : ity :=
  let a := promote ta in
  let b := promote tb in
  if Bool.eqb (i_signed a) (i_signed b) then (if i_bits a <? i_bits b then b else a)
  else
    let s := if i_signed a then a else b in
    let u := if i_signed a then b else a in
    if i_bits u <? i_bits s then s else u.

(* a value computed in type c: overflow is undefined for a signed type and
   wraps for an unsigned one *)
Definition compute (c : ity) (v : Z) : outcome Z :=
  if i_signed c then (if (imin c <=? v) && (v <=? imax c) then Ok v else UB)
  else Ok (cast c v).

(* kernels/arithmetic.hpp:109-117: inline_add, inline_subtract, inline_multiply;
   bool1.hpp:66-70 gives the same int results on two bool1 values *)
Inductive aop := Add | Sub | Mul.
Definition aop_exact (o : aop) (x y : Z) : Z :=
  match o with Add => x + y | Sub => x - y | Mul => x * y end.
Definition arith (o : aop) (ta tb : ity) (a b : Z) : outcome Z :=
  let c := common ta tb in
  compute c (aop_exact o (cast c a) (cast c b)).

(* config.hpp:690-747: bool1 is neither signed nor unsigned for dynd *)
Definition is_signed_integral (t : ity) : bool := negb (is_bool t) && i_signed t.
Definition is_unsigned_integral (t : ity) : bool := negb (is_bool t) && negb (i_signed t).

(* kernels/arithmetic.hpp:161-167; the last test is on the first argument type *)
Definition needs_zero_check (ta tb : ity) : bool :=
  (is_bool ta || is_signed_integral ta || is_unsigned_integral ta) &&
  (is_bool tb || is_signed_integral tb || is_unsigned_integral ta).

(* the built-in / and %: undefined on a zero divisor, and when the quotient
   does not fit *)
Inductive dop := Div | Mod.
Definition builtin_div (o : dop) (ta tb : ity) (a b : Z) : outcome Z :=
  let c := common ta tb in
  let x := cast c a in
  let y := cast c b in
  if y =? 0 then UB
  else if i_signed c && (x =? imin c) && (y =? -1) then UB
  else Ok (match o with Div => Z.quot x y | Mod => Z.rem x y end).

(* kernels/arithmetic.hpp:169-194: inline_divide and inline_mod *)
Definition divide (o : dop) (ta tb : ity) (a b : Z) : outcome Z :=
  if needs_zero_check ta tb && (b =? 0) then Throw "Integer division or modulo by zero."
  else builtin_div o ta tb a b.

(* kernels/arithmetic.hpp:118-129: inline_bitwise_and, _or and _xor *)
Inductive bop := BAnd | BOr | BXor.
Definition bitwise (o : bop) (ta tb : ity) (a b : Z) : outcome Z :=
  let c := common ta tb in
  let x := cast c a in
  let y := cast c b in
  Ok (match o with BAnd => Z.land x y | BOr => Z.lor x y | BXor => Z.lxor x y end).

(* kernels/arithmetic.hpp:130: inline_left_shift. C++14 [expr.shift]: the type
   is that of the promoted left operand; a count that is negative or not less
   than the width is undefined, and so is a negative left operand or a result
   that does not fit the unsigned type of the same width. *)
Definition left_shift (ta tb : ity) (a b : Z) : outcome Z :=
  let c := promote ta in
  if (b <? 0) || (i_bits c <=? b) then UB
  else if i_signed c then
    if (a <? 0) || (2 ^ i_bits c <=? a * 2 ^ b) then UB else Ok (cast c (a * 2 ^ b))
  else Ok (cast c (a * 2 ^ b)).

(* kernels/arithmetic.hpp:131: inline_right_shift; on a negative value every
   supported compiler shifts in copies of the sign bit *)
Definition right_shift (ta tb : ity) (a b : Z) : outcome Z :=
  let c := promote ta in
  if (b <? 0) || (i_bits c <=? b) then UB else Ok (Z.shiftr a b).

(* kernels/arithmetic.hpp:94-105: the unary operators. bool1.hpp:29-35: on
   bool1 unary plus and minus are the identity and ~ is the negation, all of
   them of type bool1. *)
Definition unary_type (t : ity) : ity := if is_bool t then bool1_t else promote t.
Definition plus (t : ity) (a : Z) : outcome Z := Ok a.
Definition minus (t : ity) (a : Z) : outcome Z :=
  if is_bool t then Ok a else compute (promote t) (- a).
Definition bitwise_not (t : ity) (a : Z) : outcome Z :=
  if is_bool t then Ok (if a =? 0 then 1 else 0) else Ok (cast (promote t) (Z.lnot a)).
Definition truth (a : Z) : bool := negb (a =? 0).
Definition logical_not (t : ity) (a : Z) : bool := a =? 0.

(* kernels/arithmetic.hpp:121-126,134-141; bool1.hpp:37-39 *)
Inductive lop := LAnd | LOr | LXor.
Definition logical (o : lop) (ta tb : ity) (a b : Z) : bool :=
  match o with
  | LAnd => if truth a then truth b else false
  | LOr => if truth a then true else truth b
  | LXor => xorb (truth a) (truth b)
  end.

(* kernels/less_kernel.hpp:13-29, less_equal_kernel.hpp, equal_kernel.hpp:13-30,
   not_equal_kernel.hpp, greater_kernel.hpp, greater_equal_kernel.hpp: the same
   types are compared directly, others in std::common_type, which is the type
   of the usual arithmetic conversions *)
Inductive cop := Lt | Le | Eq | Ne | Ge | Gt.
Definition cmp_exact (o : cop) (x y : Z) : bool :=
  match o with
  | Lt => x <? y | Le => x <=? y | Eq => x =? y
  | Ne => negb (x =? y) | Ge => y <=? x | Gt => y <? x
  end.
Definition same_type (ta tb : ity) : bool :=
  Bool.eqb (i_signed ta) (i_signed tb) && (i_bits ta =? i_bits tb).
Definition compare (o : cop) (ta tb : ity) (a b : Z) : bool :=
  if same_type ta tb then cmp_exact o a b
  else let c := common ta tb in cmp_exact o (cast c a) (cast c b).

(* kernels/equal_kernel.hpp:32-71 and not_equal_kernel.hpp: tuples. The field
   kernels are run in order; a field is a kernel with its two source values,
   and the result counts how many kernels ran. *)
Definition field := (ity * ity * Z * Z)%type.
Fixpoint tuple_equal (ran : nat) (fs : list field) : bool * nat :=
  match fs with
  | [] => (true, ran)
  | (ta, tb, a, b) :: fs' =>
      if negb (compare Eq ta tb a b) then (false, Datatypes.S ran)
      else tuple_equal (Datatypes.S ran) fs'
  end.
Fixpoint tuple_not_equal (ran : nat) (fs : list field) : bool * nat :=
  match fs with
  | [] => (false, ran)
  | (ta, tb, a, b) :: fs' =>
      if compare Ne ta tb a b then (true, Datatypes.S ran)
      else tuple_not_equal (Datatypes.S ran) fs'
  end.

(* kernels/compound_add_kernel.hpp:18-63 and compound_div_kernel.hpp:18-63:
   dst OP= src and dst = static_cast<dst_type>(dst OP src) are the same on
   integers *)
Definition compound_add (td ts : ity) (d s : Z) : outcome Z :=
  do r <- arith Add td ts d s; Ok (cast td r).
Definition compound_div (td ts : ity) (d s : Z) : outcome Z :=
  do r <- builtin_div Div td ts d s; Ok (cast td r).

(* compound_add_kernel.hpp:30-37, the strided loop with a destination stride of
   zero: the elements are added into the one destination *)
Fixpoint compound_sum (td ts : ity) (d : Z) (l : list Z) : outcome Z :=
  match l with
  | [] => Ok d
  | s :: l' => do d' <- compound_add td ts d s; compound_sum td ts d' l'
  end.
