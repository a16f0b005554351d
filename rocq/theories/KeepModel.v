(* empty_like and eval: the layout of a new array follows the source; the axis
   order classification; substitute_shape. *)
From Verif Require Import Base ShapeToolsModel.
Local Open Scope Z_scope.

(* ------------------------------------------------------------ the source *)

(* The dimensions of the source array: fixed dimensions with their stride, var
   dimensions and pointers; any scalar at the end. *)
Inductive sty := SScalar | SFixed (stride : Z) (t : sty) | SVar (t : sty) | SPtr (t : sty).

(* base_dim_type.hpp and pointer_type.cpp:18: get_ndim *)
Fixpoint sndim (t : sty) : nat :=
  match t with
  | SScalar => 0
  | SFixed _ t' | SVar t' => Datatypes.S (sndim t')
  | SPtr t' => sndim t'
  end.

Inductive aoc := ANone | AC | AF | ANeither.
Definition c_or_neither (a : aoc) : aoc := match a with ANone | AC => AC | _ => ANeither end.
Definition f_or_neither (a : aoc) : aoc := match a with ANone | AF => AF | _ => ANeither end.

(* fixed_dim_type.cpp:205-219, var_dim_type.cpp:277-285, pointer_type.cpp:140-147,
   base_type.cpp:114-117: classify_axis_order;
   shape_tools.cpp:473-523: classify_strided_axis_order. The recursive call
   passes the stride of the outer dimension on. *)
Fixpoint classify (t : sty) {struct t} : outcome aoc :=
  match t with
  | SScalar => Ok ANone
  | SFixed s e =>
      if (0 <? sndim e)%nat then
        if s =? 0 then classify e else classify_strided e (Z.abs s)
      else Ok ANone
  | SVar e => if (1 <? sndim e)%nat then do a <- classify e; Ok (c_or_neither a) else Ok AC
  | SPtr e => if (1 <? sndim e)%nat then classify e else Ok ANone
  end
with classify_strided (t : sty) (current : Z) {struct t} : outcome aoc :=
  match t with
  | SScalar => Throw "runtime_error"
  | SFixed s e =>
      if Z.abs s =? 0 then
        if (0 <? sndim e)%nat then classify_strided e current else Ok ANone
      else
        do a <- (if (0 <? sndim e)%nat then classify_strided e current else Ok ANone);
        if Z.abs s <? current then Ok (c_or_neither a) else Ok (f_or_neither a)
  | SVar e => do a <- (if (1 <? sndim e)%nat then do a <- classify e; Ok (c_or_neither a) else Ok AC); Ok (c_or_neither a)
  | SPtr e => do a <- (if (1 <? sndim e)%nat then classify e else Ok ANone); Ok (c_or_neither a)
  end.

(* ------------------------------------------- the layout of a new array *)

(* fixed_dim_type.cpp:239-250: arrmeta_default_construct; the stride is the
   default data size of the element, the product of the sizes below. *)
Fixpoint default_strides (sizes : list Z) (el : Z) : list Z :=
  match sizes with
  | [] => []
  | _ :: sizes' => fold_right Z.mul el sizes' :: default_strides sizes' el
  end.

(* fixed_dim_type.cpp:430-463: the strides of the source, as long as its
   dimensions are fixed. Result: the strides read, the type where the loop
   stopped, whether a dimension that is not fixed ended it, and c_order. *)
Fixpoint read_strides (n : nat) (t : sty) (previous : Z) (c_order : bool) : list Z * sty * bool * bool :=
  match n with
  | O => ([], t, false, c_order)
  | Datatypes.S n' =>
      match t with
      | SFixed s e =>
          let c := if s =? 0 then c_order else if negb (previous =? 0) && (previous <? s) then false else c_order in
          let p := if s =? 0 then previous else s in
          match read_strides n' e p c with (l, last, broke, c') => (s :: l, last, broke, c') end
      | _ => ([], t, true, c_order)
      end
  end.

(* fixed_dim_type.cpp:471-480: do { stride = md[i].stride; } while (stride == 0
   && i >= 0): i does not change in the loop *)
Fixpoint find_stride (fuel : nat) (md_stride : Z) : outcome Z :=
  match fuel with
  | O => NoFuel
  | Datatypes.S fuel' => if md_stride =? 0 then find_stride fuel' md_stride else Ok md_stride
  end.
Definition start_stride (fuel : nat) (strides : list Z) (n : nat) : outcome Z :=
  let s := nth (n - 1) strides 0 in
  if s =? 0 then find_stride fuel (nth (n - 2) strides 0) else Ok s.

(* fixed_dim_type.cpp:481-488 and 507-511: strides along a list of axes *)
Fixpoint assign_strides (axes : list nat) (sizes : list Z) (stride : Z) (out : list Z) : list Z :=
  match axes with
  | [] => out
  | a :: axes' =>
      let n := nth a sizes 0 in
      assign_strides axes' sizes (stride * n) (update a (if 1 <? n then stride else 0) out)
  end.

(* fixed_dim_type.cpp:397-514: reorder_default_constructed_strides; sizes and
   strides: the fixed dimensions of the result. The arithmetic on strides is
   that of an allocation that exists and is not taken modulo 2^64. A value read
   before it is written is undefined. *)
Fixpoint reorder (fuel : nat) (sort : (nat -> nat -> bool) -> list nat -> list nat)
  (sizes strides : list Z) (src : sty) {struct strides} : outcome (list Z) :=
  match strides with
  | [] | [_] => Ok strides
  | s0 :: strides' =>
      let n := List.length strides in
      if (sndim src <? n)%nat then
        do r <- reorder fuel sort (tl sizes) strides' src; Ok (s0 :: r)
      else
        match read_strides n src 0 true with
        | (l, last, broke, c_order) =>
            let np := if broke then Datatypes.S (List.length l) else n in
            do st1 <-
              (if c_order then Ok strides
               else if broke then UB
               else do s <- start_stride fuel strides n;
                    Ok (assign_strides (strides_to_axis_perm sort l) sizes s strides));
            if (np <? n)%nat then
              match last with
              | SScalar => Ok st1
              | _ =>
                  do a <- classify last;
                  match a with
                  | AF =>
                      do s <- start_stride fuel st1 n;
                      Ok (assign_strides (seq np (n - np)) sizes s st1)
                  | _ => Ok st1
                  end
              end
            else Ok st1
        end
  end.

(* array.cpp:795-832: empty_like of an array with the given shape; array.cpp:226-259:
   eval and eval_copy. The new array has fixed dimensions only. *)
Definition new_like (fuel : nat) (sort : (nat -> nat -> bool) -> list nat -> list nat)
  (shape : list Z) (el : Z) (src : sty) : outcome (list Z) :=
  reorder fuel sort shape (default_strides shape el) src.

(* ------------------------------------------------------ substitute_shape *)

(* a pattern type: dimensions over a scalar; PBad: any other dimension type,
   such as a typevar or an ellipsis *)
Inductive pdim := PKind | PFixed (n : Z) | PVar | PBad.

(* substitute_shape.cpp:38-87: the visitor at depth i; the scalar below is
   kept. The flag that tells whether something changed only decides whether an
   equal type is rebuilt, and is left out. The shape array is read without
   a check. *)
Fixpoint substitute_visit (p : list pdim) (ndim i : nat) (shape : list Z) : outcome (list pdim) :=
  match p with
  | [] => Ok []
  | d :: p' =>
      match nth_error shape i with
      | None => UB
      | Some n =>
          do sub <- (if (Datatypes.S i <? ndim)%nat then substitute_visit p' ndim (Datatypes.S i) shape else Ok p');
          match d with
          | PKind => if 0 <=? n then Ok (PFixed n :: sub) else Throw "type_error"
          | PFixed m => if (n <? 0) || (n =? m) then Ok (PFixed m :: sub) else Throw "type_error"
          | PVar => Ok (PVar :: sub)
          | PBad => Throw "type_error"
          end
      end
  end.
(* substitute_shape.cpp:90-103 *)
Definition substitute_shape (p : list pdim) (shape : list Z) : outcome (list pdim) :=
  if (List.length p <? List.length shape)%nat then Throw "type_error"
  else substitute_visit p (List.length shape) 0 shape.
