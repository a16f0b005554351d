(** Reductions (nd::functional::reduction, nd::sum, nd::min, nd::max, nd::all) of
    one array of fixed dimensions.  The memory is that of StridedModel: one cell
    holds one element.  var dimensions, and reductions of two arrays, are left
    out. *)
From Verif Require Import Base ParseIntModel StridedModel.
Open Scope Z_scope.

Section Kernels.
(** The child: [op] of the accumulated value and an element
    (kernels/sum_kernel.hpp:16-18, min_kernel.hpp:18-22, all_kernel.hpp:14-17).
    The identity: the value constant_kernel (kernels/constant_kernel.hpp:14-33) or
    limits::max_kernel (kernels/limits/max_kernel.hpp:14-18) stores. *)
Variable op : Z -> Z -> outcome Z.
Variable ident : Z.
Definition acc_single (m : mem) (dst src : Z) : outcome mem :=
  do a <- ld m dst; do x <- ld m src; do v <- op a x; st m dst v.
(** kernels/sum_kernel.hpp:20-28: the strided form. *)
Fixpoint acc_strided (m : mem) (dst ds src ss : Z) (count : nat) : outcome mem :=
  match count with
  | O => Ok m
  | S n => do m <- acc_single m dst src; acc_strided m (dst + ds) ds (src + ss) ss n
  end.
Fixpoint init_strided (m : mem) (dst ds : Z) (count : nat) : outcome mem :=
  match count with
  | O => Ok m
  | S n => do m <- st m dst ident; init_strided m (dst + ds) ds n
  end.

(** kernels/reduction_kernel_prefix.hpp:12-49: a reduction kernel has a first call,
    single or strided, and a strided followup call. *)
Record rk := RK {
  single_first : mem -> Z -> Z -> outcome mem;
  strided_first : mem -> Z -> Z -> Z -> Z -> nat -> outcome mem;
  strided_followup : mem -> Z -> Z -> Z -> Z -> nat -> outcome mem
}.
(** A loop for (i = 0; i != count; ++i) that advances dst and src by their strides. *)
Fixpoint loop (body : mem -> Z -> Z -> outcome mem) (m : mem) (dst ds src ss : Z) (count : nat) : outcome mem :=
  match count with
  | O => Ok m
  | S n => do m <- body m dst src; loop body m (dst + ds) ds (src + ss) ss n
  end.
(** A loop for (size_t i = 1; i != count; ++i): with count = 0 it runs 2^64 - 1
    times, far beyond the memory of the array. *)
Definition loop1 (body : mem -> Z -> Z -> outcome mem) (m : mem) (dst ds src ss : Z) (count : nat) : outcome mem :=
  match count with O => UB | S n => loop body m dst ds src ss n end.

(** kernels/reduction_kernel.hpp:204-318, the innermost dimension, reduced.
    callables/base_reduction_callable.hpp:113-121: size_first is the size and
    src_stride_first is 0. *)
Definition inner_reduce (size : nat) (stride : Z) : rk :=
  let all m dst src := acc_strided m dst 0 src stride size in
  RK (fun m dst src => do m <- st m dst ident; all m dst src)
     (fun m dst ds src ss count =>
        if ds =? 0 then
          do m <- st m dst ident;
          do m <- all m dst src;
          loop1 all m dst ds src ss count
        else loop (fun m dst src => do m <- st m dst ident; all m dst src) m dst ds src ss count)
     (fun m dst ds src ss count => loop all m dst ds src ss count).
(** 517-622, the innermost dimension, kept; [dstride] is the destination's stride. *)
Definition inner_keep (size : nat) (dstride stride : Z) : rk :=
  let all m dst src := acc_strided m dst dstride src stride size in
  let both m dst src := do m <- init_strided m dst dstride size; all m dst src in
  RK both
     (fun m dst ds src ss count =>
        if ds =? 0 then
          do m <- init_strided m dst dstride size;
          loop1 all m dst 0 src ss count
        else loop both m dst ds src ss count)
     (fun m dst ds src ss count => loop all m dst ds src ss count).
(** 108-190, an outer dimension, reduced. *)
Definition outer_reduce (size : nat) (stride : Z) (child : rk) : rk :=
  let one m dst src :=
    do m <- single_first child m dst src;
    if (1 <? size)%nat then strided_followup child m dst 0 (src + stride) stride (size - 1) else Ok m in
  let more m dst src := strided_followup child m dst 0 src stride size in
  RK one
     (fun m dst ds src ss count =>
        if ds =? 0 then
          do m <- one m dst src;
          loop1 more m dst 0 (src + ss) ss count
        else loop one m dst ds src ss count)
     (fun m dst ds src ss count => loop more m dst ds src ss count).
(** 415-499, an outer dimension, kept. *)
Definition outer_keep (size : nat) (dstride stride : Z) (child : rk) : rk :=
  let one m dst src := strided_first child m dst dstride src stride size in
  let more m dst src := strided_followup child m dst dstride src stride size in
  RK one
     (fun m dst ds src ss count =>
        if ds =? 0 then
          do m <- one m dst src;
          loop more m (dst + ds) ds (src + ss) ss (count - 1)
        else loop one m dst ds src ss count)
     (fun m dst ds src ss count => loop more m dst ds src ss count).

(** callables/base_reduction_callable.hpp:96-178: building the kernel.  A dimension
    of the source is reduced or kept, and has a size and a stride; [dst_arrmeta]
    are the strides of the destination's dimensions.  Only with keepdims are the
    children given the rest of them. *)
Record axis := AX { a_reduce : bool; a_size : nat; a_stride : Z }.
Definition stride_at (dst_arrmeta : list Z) : outcome Z :=
  match dst_arrmeta with d :: _ => Ok d | [] => UB end.
Fixpoint build (keepdims : bool) (axes : list axis) (dst_arrmeta : list Z) : outcome rk :=
  match axes with
  | [] => UB
  | [a] =>
      if a_reduce a then Ok (inner_reduce (a_size a) (a_stride a))
      else do d <- stride_at dst_arrmeta; Ok (inner_keep (a_size a) d (a_stride a))
  | a :: rest =>
      do child <- build keepdims rest (if keepdims then tl dst_arrmeta else dst_arrmeta);
      if a_reduce a then Ok (outer_reduce (a_size a) (a_stride a) child)
      else do d <- stride_at dst_arrmeta; Ok (outer_keep (a_size a) d (a_stride a) child)
  end.
(** Calling it: kernel_request_call and kernel_request_single both make the first
    single call (reduction_kernel.hpp:35-46).  A scalar: 322-332. *)
Definition reduce_call (keepdims : bool) (axes : list axis) (dst_arrmeta : list Z) (m : mem) (dst src : Z) : outcome mem :=
  match axes with
  | [] => do m <- st m dst ident; acc_single m dst src
  | _ => do k <- build keepdims axes dst_arrmeta; single_first k m dst src
  end.
End Kernels.

(** callables/base_reduction_callable.hpp:48-54 and reduction_callable.hpp:33-40:
    which dimensions are reduced; [axes] is the keyword argument, None when it is
    missing. *)
Definition reduced_axis (axes : option (list Z)) (k : Z) : bool :=
  match axes with None => true | Some l => existsb (Z.eqb k) l end.
Fixpoint axes_from (axes : option (list Z)) (k : Z) (dims : list (nat * Z)) : list axis :=
  match dims with
  | [] => []
  | (n, s) :: r => AX (reduced_axis axes k) n s :: axes_from axes (k + 1) r
  end.
(** 80-89: the shape of the result. *)
Fixpoint result_shape (keepdims : bool) (axes : list axis) : list nat :=
  match axes with
  | [] => []
  | a :: r =>
      if a_reduce a then (if keepdims then 1%nat :: result_shape keepdims r else result_shape keepdims r)
      else a_size a :: result_shape keepdims r
  end.
(** types/fixed_dim_type.cpp, arrmeta_default_construct: the strides of a new
    array in C order, 0 for a dimension of one element or none; one cell is one
    element. *)
Fixpoint new_strides (shape : list nat) : list Z * Z :=
  match shape with
  | [] => ([], 1)
  | n :: r => let '(ss, size) := new_strides r in ((if (1 <? n)%nat then size else 0) :: ss, Z.of_nat n * size)
  end.

(** ** The children and identities of the predefined reductions
    sum: sum.cpp:24-33, int8_t .. uint64_t; the addition is done in int for the
    narrow types and its result is converted back; overflow of int32 and int64 is
    undefined. *)
Definition sum_op (sgn : bool) (b : Z) (a x : Z) : outcome Z :=
  if sgn && (32 <=? b) then (if (tmin sgn b <=? a + x) && (a + x <=? tmax sgn b) then Ok (a + x) else UB)
  else Ok (cast sgn b (a + x)).
Definition sum_ident : Z := 0.
(** kernels/min_kernel.hpp, kernels/max_kernel.hpp; statistics.cpp:34-59. *)
Definition min_op (a x : Z) : outcome Z := Ok (if x <? a then x else a).
Definition min_ident (sgn : bool) (b : Z) : Z := tmax sgn b.
Definition max_op (a x : Z) : outcome Z := Ok (if a <? x then x else a).
Definition max_ident (sgn : bool) (b : Z) : Z := tmin sgn b.
(** kernels/all_kernel.hpp:14-17; logic.cpp:13. *)
Definition all_op (a x : Z) : outcome Z := Ok (if (negb (a =? 0)) && (negb (x =? 0)) then 1 else 0).
Definition all_ident : Z := 1.
