(* Kernels that combine other kernels: compose, constant, compound, outer,
   neighborhood and convert. Child kernels work on one element at a time (the
   default strided loop of base_strided_kernel.hpp:57-67). Memory maps the
   address of an element to its value; elements at different addresses do not
   overlap. *)
From Verif Require Import Base.
Local Open Scope Z_scope.

Definition mem := Z -> Z.
Definition store (m : mem) (a v : Z) : mem := fun x => if x =? a then v else m x.

(* config.hpp:33 *)
Definition chunk_max : nat := 128.

(* base_strided_kernel.hpp:57-67 with a child that reads the sources and writes
   the destination: advance the pointers by the strides after each call *)
Fixpoint advance (srcs strides : list Z) : list Z :=
  match srcs, strides with
  | s :: srcs', d :: strides' => (s + d) :: advance srcs' strides'
  | _, _ => srcs
  end.
Fixpoint strided (op : list Z -> Z) (n : nat) (m : mem) (dst dst_stride : Z) (srcs strides : list Z) : mem :=
  match n with
  | O => m
  | Datatypes.S n' =>
      strided op n' (store m dst (op (map m srcs))) (dst + dst_stride) dst_stride (advance srcs strides) strides
  end.

(* one argument, one result *)
Definition unary (f : Z -> Z) (l : list Z) : Z := match l with x :: _ => f x | [] => 0 end.

(* compose_kernel.hpp:44-59: single, with a temporary element at buf *)
Definition compose_single (f g : Z -> Z) (buf : Z) (m : mem) (dst src : Z) : mem :=
  strided (unary g) 1 (strided (unary f) 1 m buf 0 [src] [0]) dst 0 [buf] [0].

(* compose_kernel.hpp:75-89: the loop over chunks. chunk is the size of the
   previous one. Resetting the buffer only concerns types with block references
   and is left out. *)
Fixpoint compose_loop (fuel : nat) (f g : Z -> Z) (buf bs : Z) (m : mem) (dst ds src ss : Z) (chunk count : nat)
  : outcome mem :=
  match count with
  | O => Ok m
  | _ =>
      match fuel with
      | O => NoFuel
      | Datatypes.S fuel' =>
          let src' := src + Z.of_nat chunk * ss in
          let dst' := dst + Z.of_nat chunk * ds in
          let chunk' := Nat.min count chunk_max in
          let m1 := strided (unary f) chunk' m buf bs [src'] [ss] in
          let m2 := strided (unary g) chunk' m1 dst' ds [buf] [bs] in
          compose_loop fuel' f g buf bs m2 dst' ds src' ss chunk' (count - chunk')
      end
  end.

(* compose_kernel.hpp:61-90: strided *)
Definition compose_strided (f g : Z -> Z) (buf bs : Z) (m : mem) (dst ds src ss : Z) (count : nat) : outcome mem :=
  let chunk := Nat.min count chunk_max in
  let m1 := strided (unary f) chunk m buf bs [src] [ss] in
  let m2 := strided (unary g) chunk m1 dst ds [buf] [bs] in
  compose_loop count f g buf bs m2 dst ds src ss chunk (count - chunk).

(* constant_kernel.hpp:25-33: the child assigns from data with a stride of zero *)
Definition constant_strided (data : Z) (m : mem) (dst ds : Z) (count : nat) : mem :=
  strided (unary (fun x => x)) count m dst ds [data] [0].

(* compound_kernel.hpp:16-36: left_compound_kernel *)
Definition left_compound (op : Z -> Z -> Z) (m : mem) (dst ds src ss : Z) (count : nat) : mem :=
  strided (fun l => op (nth 0 l 0) (nth 1 l 0)) count m dst ds [dst; src] [ds; ss].
(* compound_kernel.hpp:38-60: right_compound_kernel *)
Definition right_compound (op : Z -> Z -> Z) (m : mem) (dst ds src ss : Z) (count : nat) : mem :=
  strided (fun l => op (nth 0 l 0) (nth 1 l 0)) count m dst ds [src; dst] [ss; ds].

(* ------------------------------------------------------------------ outer *)

(* outer_callable.hpp:24-66 and outer_entry_callable.hpp:52-66: which argument
   each nested kernel walks, and the dimensions of the result. args gives the
   remaining dimensions of each argument. *)
Fixpoint skip_scalars (i : nat) (rest : list (list Z)) : nat :=
  match rest with
  | [] :: rest' => skip_scalars (Datatypes.S i) rest'
  | _ => i
  end.
Definition set_nth {A} (i : nat) (x : A) (l : list A) : list A := firstn i l ++ x :: skipn (Datatypes.S i) l.

Fixpoint outer_resolve (fuel : nat) (i : nat) (args : list (list Z)) : outcome (list nat * list Z) :=
  match fuel with
  | O => NoFuel
  | Datatypes.S fuel' =>
      match nth_error args i with
      | Some (n :: rest) =>
          let args' := set_nth i rest args in
          let i' := skip_scalars i (skipn i args') in
          if (i' <? List.length args)%nat then
            do r <- outer_resolve fuel' i' args'; Ok (i :: fst r, n :: snd r)
          else Ok ([i], [n])
      | _ => UB
      end
  end.

(* outer_entry_callable.hpp:32-45: m_children has four entries *)
Definition outer_entry (args : list (list Z)) : outcome (list nat * list Z) :=
  let i := skip_scalars 0 args in
  if (i <? List.length args)%nat then
    if (4 <=? List.length args)%nat then UB
    else outer_resolve (Datatypes.S (List.length (List.concat args))) i args
  else Ok ([], []).

(* outer_kernel.hpp:16-39: each kernel runs its child strided over the
   dimension; only the pointer of its own argument moves. The calls of the
   innermost child, in order: destination and source addresses. loops gives the
   argument and its stride, dst the size and stride of the result dimension. *)
Fixpoint bump (j : nat) (st : Z) (srcs : list Z) : list Z :=
  match srcs, j with
  | [], _ => []
  | s :: srcs', O => (s + st) :: srcs'
  | s :: srcs', Datatypes.S j' => s :: bump j' st srcs'
  end.
Fixpoint outer_run (loops : list (nat * Z)) (dims : list (Z * Z)) (dst : Z) (srcs : list Z) : list (Z * list Z) :=
  match loops, dims with
  | (j, st) :: loops', (n, ds) :: dims' =>
      (fix go (k : nat) (dst : Z) (srcs : list Z) : list (Z * list Z) :=
         match k with
         | O => []
         | Datatypes.S k' => outer_run loops' dims' dst srcs ++ go k' (dst + ds) (bump j st srcs)
         end) (Z.to_nat n) dst srcs
  | _, _ => [(dst, srcs)]
  end.

(* ----------------------------------------------------------- neighborhood *)

(* neighborhood.hpp:16-37: one level; neighborhood_callable.hpp:108-165 builds
   the levels (that instantiation is commented out in this version). n and ss:
   size and stride of the source, size: extent of the window. *)
Record level := Level { lv_ds : Z; lv_n : Z; lv_ss : Z; lv_size : Z; lv_off : Z }.
Definition count0 (l : level) : Z := Z.min 0 (lv_n l + lv_off l).
Definition count1 (l : level) : Z := Z.min (lv_n l + lv_off l) (lv_n l - lv_size l + 1).
Definition count2 (l : level) : Z := lv_n l + lv_off l.

(* neighborhood.hpp:39-81: three while loops. The innermost kernels are the
   boundary child (true) or the child (false), and above them both are the next
   level; each call is recorded with the two addresses. *)
Definition event := (bool * Z * Z)%type.
Fixpoint nb_while (k : nat) (ds ss : Z) (next : Z -> Z -> list event) (dst src : Z) : list event * (Z * Z) :=
  match k with
  | O => ([], (dst, src))
  | Datatypes.S k' =>
      let r := nb_while k' ds ss next (dst + ds) (src + ss) in (next dst src ++ fst r, snd r)
  end.
Fixpoint nb_run (ls : list level) (flag : bool) (dst src : Z) : list event :=
  match ls with
  | [] => [(flag, dst, src)]
  | l :: ls' =>
      let src0 := src + lv_off l * lv_ss l in
      let i := lv_off l in
      let a := nb_while (Z.to_nat (count0 l - i)) (lv_ds l) (lv_ss l) (nb_run ls' true) dst src0 in
      let i := Z.max i (count0 l) in
      let b := nb_while (Z.to_nat (count1 l - i)) (lv_ds l) (lv_ss l) (nb_run ls' flag) (fst (snd a)) (snd (snd a)) in
      let i := Z.max i (count1 l) in
      let c := nb_while (Z.to_nat (count2 l - i)) (lv_ds l) (lv_ss l) (nb_run ls' true) (fst (snd b)) (snd (snd b)) in
      fst a ++ fst b ++ fst c
  end.

(* ---------------------------------------------------------------- convert *)

(* convert_kernel.hpp:121-211: an argument with its pointer and stride, and,
   when it needs conversion, the function, the buffer and the buffer stride.
   (convert_callable.hpp:31-72, which instantiates this kernel, is commented
   out in this version.) *)
Record carg := CArg { c_src : Z; c_stride : Z; c_conv : option ((Z -> Z) * Z * Z) }.
Definition fill_buffers (chunk : nat) (m : mem) (args : list carg) : mem :=
  fold_left (fun m a => match c_conv a with
    | Some (f, buf, bs) => strided (unary f) chunk m buf bs [c_src a] [c_stride a]
    | None => m end) args m.
Definition buf_stride (a : carg) : Z := match c_conv a with Some (_, _, bs) => bs | None => c_stride a end.
Definition buf_start (a : carg) : Z := match c_conv a with Some (_, buf, _) => buf | None => c_src a end.

(* convert_kernel.hpp:187-208: the chunk loop. The destination and the sources
   of the conversions are not advanced; only the pointers of arguments without
   a buffer are. *)
Fixpoint convert_loop (fuel : nat) (op : list Z -> Z) (m : mem) (dst ds : Z) (args : list carg) (buf_src : list Z)
  (count : nat) : outcome mem :=
  match count with
  | O => Ok m
  | _ =>
      match fuel with
      | O => NoFuel
      | Datatypes.S fuel' =>
          let chunk := Nat.min count chunk_max in
          let m1 := fill_buffers chunk m args in
          let m2 := strided op chunk m1 dst ds buf_src (map buf_stride args) in
          let m3 := fill_buffers chunk m2 args in
          let buf_src' := map (fun p => match c_conv (fst p) with
            | Some _ => snd p | None => snd p + Z.of_nat chunk * buf_stride (fst p) end) (combine args buf_src) in
          convert_loop fuel' op m3 dst ds args buf_src' (count - chunk)
      end
  end.
Definition convert_strided (op : list Z -> Z) (m : mem) (dst ds : Z) (args : list carg) (count : nat) : outcome mem :=
  convert_loop count op m dst ds args (map buf_start args) count.
