(** Kernels applied along a dimension: base_strided_kernel.hpp,
    compose_kernel.hpp, convert_kernel.hpp and the two option kernels of
    assignment_kernels.hpp.

    Memory is a partial map from addresses to elements: one cell holds one
    element (simplification: elements are never accessed partially, and every
    element is coded as an integer); reading or writing a cell that is not
    allocated is undefined behaviour.  Addresses, strides and offsets are
    unbounded integers. *)
From Verif Require Import Base.
Open Scope Z_scope.

Definition mem := Z -> option Z.
Definition ld (m : mem) (a : Z) : outcome Z := match m a with Some v => Ok v | None => UB end.
Definition upd (m : mem) (a v : Z) : mem := fun b => if b =? a then Some v else m b.
Definition st (m : mem) (a v : Z) : outcome mem :=
  match m a with Some _ => Ok (upd m a v) | None => UB end.

(** A kernel's single function and its strided function. *)
Definition single_t := mem -> Z -> list Z -> outcome mem.
Definition strided_t := mem -> Z -> Z -> list Z -> list Z -> nat -> outcome mem.

(** base_strided_kernel.hpp:58-68, 79-86: call single, then advance dst and
    every src pointer by its stride. *)
Definition advance (srcs ss : list Z) : list Z := map (fun p => fst p + snd p) (combine srcs ss).
Fixpoint base_strided (k : single_t) (m : mem) (dst ds : Z) (srcs ss : list Z) (count : nat) : outcome mem :=
  match count with
  | O => Ok m
  | S n => do m1 <- k m dst srcs; base_strided k m1 (dst + ds) ds (advance srcs ss) ss n
  end.

(** A kernel computing one element from the elements its src pointers point to
    (the form of every builtin arithmetic, comparison and assignment kernel). *)
Fixpoint loads (m : mem) (srcs : list Z) : outcome (list Z) :=
  match srcs with
  | [] => Ok []
  | a :: r => do v <- ld m a; do vs <- loads m r; Ok (v :: vs)
  end.
Definition leaf (f : list Z -> outcome Z) : single_t :=
  fun m dst srcs => do vs <- loads m srcs; do v <- f vs; st m dst v.
Definition leaf1 (f : Z -> outcome Z) : single_t :=
  leaf (fun vs => match vs with v :: _ => f v | [] => UB end).
Definition leafs (f : Z -> outcome Z) : strided_t := base_strided (leaf1 f).

(** A temporary buffer of [k] elements (nd::empty, new char[], a local array):
    cells that were not allocated before, with arbitrary contents. *)
Definition in_buf (buf bs : Z) (k : nat) (a : Z) : bool :=
  existsb (fun i => a =? buf + Z.of_nat i * bs) (seq 0 k).
Definition alloc_buf (m : mem) (buf bs : Z) (k : nat) (junk : Z -> Z) : mem :=
  fun a => if in_buf buf bs k a then Some (junk a) else m a.
Definition free_buf (m : mem) (buf bs : Z) (k : nat) : mem :=
  fun a => if in_buf buf bs k a then None else m a.

(** compose_kernel.hpp:59-90; [K] is DYND_BUFFER_CHUNK_SIZE (config.hpp:33).
    reset_strided_buffer_array (convert_kernel.hpp:21-35) only concerns element
    types that own memory and is left out.  [fuel] bounds the number of chunks. *)
Fixpoint compose_loop (K : nat) (first second : strided_t) (buf bs : Z)
    (fuel : nat) (m : mem) (dst ds src0 ss : Z) (chunk count : nat) : outcome mem :=
  match count, fuel with
  | O, _ => Ok m
  | _, O => NoFuel
  | _, S fuel =>
      let src0 := src0 + Z.of_nat chunk * ss in
      let dst := dst + Z.of_nat chunk * ds in
      let chunk := Nat.min count K in
      do m <- first m buf bs [src0] [ss] chunk;
      do m <- second m dst ds [buf] [bs] chunk;
      compose_loop K first second buf bs fuel m dst ds src0 ss chunk (count - chunk)
  end.
Definition compose_strided (K : nat) (first second : strided_t) (buf bs : Z) (junk : Z -> Z)
    (m : mem) (dst ds : Z) (srcs ss : list Z) (count : nat) : outcome mem :=
  match srcs, ss with
  | src0 :: _, s0 :: _ =>
      let m := alloc_buf m buf bs K junk in
      let chunk := Nat.min count K in
      do m <- first m buf bs [src0] [s0] chunk;
      do m <- second m dst ds [buf] [bs] chunk;
      do m <- compose_loop K first second buf bs (count - chunk) m dst ds src0 s0 chunk (count - chunk);
      Ok (free_buf m buf bs K)
  | _, _ => UB
  end.

(** convert_kernel.hpp:164-204.  An argument that needs conversion has a buffer
    (address, stride) and a conversion kernel, here one that converts element by
    element.  The buffers are allocated when the kernel is made, so they are part
    of the memory here. *)
Record cbuf := CB { cb_addr : Z; cb_stride : Z; cb_conv : Z -> outcome Z }.
Fixpoint buf_srcs (bufs : list (option cbuf)) (srcs : list Z) : list Z :=
  match bufs, srcs with
  | Some b :: bs, _ :: ss => cb_addr b :: buf_srcs bs ss
  | None :: bs, s :: ss => s :: buf_srcs bs ss
  | _, _ => []
  end.
Fixpoint buf_strides (bufs : list (option cbuf)) (ss : list Z) : list Z :=
  match bufs, ss with
  | Some b :: bs, _ :: r => cb_stride b :: buf_strides bs r
  | None :: bs, s :: r => s :: buf_strides bs r
  | _, _ => []
  end.
(** 184-191: fill the buffers from src, which is never advanced. *)
Fixpoint fill_bufs (m : mem) (bufs : list (option cbuf)) (srcs ss : list Z) (chunk : nat) : outcome mem :=
  match bufs, srcs, ss with
  | Some b :: bs, s :: r, t :: u =>
      do m <- leafs (cb_conv b) m (cb_addr b) (cb_stride b) [s] [t] chunk; fill_bufs m bs r u chunk
  | None :: bs, _ :: r, _ :: u => fill_bufs m bs r u chunk
  | _, _, _ => Ok m
  end.
(** 193-203: fill the buffers again, advance the pointers of the others. *)
Fixpoint adv_bufs (bufs : list (option cbuf)) (bsrc bstr : list Z) (chunk : nat) : list Z :=
  match bufs, bsrc, bstr with
  | Some _ :: bs, a :: r, _ :: u => a :: adv_bufs bs r u chunk
  | None :: bs, a :: r, t :: u => a + Z.of_nat chunk * t :: adv_bufs bs r u chunk
  | _, _, _ => []
  end.
Fixpoint convert_loop (K : nat) (child : strided_t) (bufs : list (option cbuf)) (fuel : nat)
    (m : mem) (dst ds : Z) (srcs ss bsrc bstr : list Z) (count : nat) : outcome mem :=
  match count, fuel with
  | O, _ => Ok m
  | _, O => NoFuel
  | _, S fuel =>
      let chunk := Nat.min count K in
      do m <- fill_bufs m bufs srcs ss chunk;
      do m <- child m dst ds bsrc bstr chunk;
      do m <- fill_bufs m bufs srcs ss chunk;
      convert_loop K child bufs fuel m dst ds srcs ss (adv_bufs bufs bsrc bstr chunk) bstr (count - chunk)
  end.
Definition convert_strided (K : nat) (child : strided_t) (bufs : list (option cbuf)) : strided_t :=
  fun m dst ds srcs ss count =>
    convert_loop K child bufs count m dst ds srcs ss (buf_srcs bufs srcs) (buf_strides bufs ss) count.

(** convert_kernel.hpp:146-162, one element: convert the arguments, then apply
    the child [f]. *)
Fixpoint conv_all (bufs : list (option cbuf)) (xs : list Z) : outcome (list Z) :=
  match bufs, xs with
  | Some b :: bs, x :: r => do y <- cb_conv b x; do ys <- conv_all bs r; Ok (y :: ys)
  | None :: bs, x :: r => do ys <- conv_all bs r; Ok (x :: ys)
  | _, _ => Ok []
  end.
Definition convert_single (f : list Z -> outcome Z) (bufs : list (option cbuf)) (xs : list Z) : outcome Z :=
  do ys <- conv_all bufs xs; f ys.

(** assignment_kernels.hpp:915-937, option to value: [na] is the is_na kernel of
    the source, [g] the value assignment. [mis] is the array [missing]. *)
Fixpoint any_missing (m : mem) (mis : Z) (n : nat) : outcome bool :=
  match n with
  | O => Ok false
  | S n => do v <- ld m mis; if v =? 0 then any_missing m (mis + 1) n else Ok true
  end.
Fixpoint o2v_loop (K : nat) (is_na assign : strided_t) (mis : Z) (fuel : nat)
    (m : mem) (dst ds src ss : Z) (count : nat) : outcome mem :=
  match count, fuel with
  | O, _ => Ok m
  | _, O => NoFuel
  | _, S fuel =>
      let chunk := Nat.min count K in
      do m <- is_na m mis 1 [src] [ss] chunk;
      do b <- any_missing m mis chunk;
      if (b : bool) then Throw "overflow_error"
      else do m <- assign m dst ds [src] [ss] chunk;
           o2v_loop K is_na assign mis fuel m (dst + Z.of_nat chunk * ds) ds (src + Z.of_nat chunk * ss) ss (count - chunk)
  end.
Definition o2v_strided (K : nat) (is_na assign : strided_t) (mis : Z) (junk : Z -> Z) : strided_t :=
  fun m dst ds srcs ss count =>
    match srcs, ss with
    | src :: _, s :: _ =>
        do m <- o2v_loop K is_na assign mis count (alloc_buf m mis 1 K junk) dst ds src s count;
        Ok (free_buf m mis 1 K)
    | _, _ => UB
    end.
(** assignment_kernels.hpp:900-913 *)
Definition o2v_single (na : Z -> bool) (g : Z -> outcome Z) (x : Z) : outcome Z :=
  if na x then Throw "overflow_error" else g x.
(** The is_na kernel of the source: stores 1 or 0. *)
Definition na_flag (na : Z -> bool) (x : Z) : outcome Z := Ok (if na x then 1 else 0).

(** assignment_kernels.hpp:764-784, option to option, one element; [nav] is what
    the assign_na kernel stores. *)
Definition o2o_single (na : Z -> bool) (g : Z -> outcome Z) (nav : Z) (x : Z) : outcome Z :=
  if na x then Ok nav else g x.
(** memchr *)
Fixpoint memchr (m : mem) (p c : Z) (n : nat) : outcome (option Z) :=
  match n with
  | O => Ok None
  | S n => do v <- ld m p; if v =? c then Ok (Some p) else memchr m (p + 1) c n
  end.
(** assignment_kernels.hpp:785-834.  The pointer array [src] has one element: the
    state keeps how far [src] has been moved, and reading src[0] after it has
    moved is undefined.  The result is (memory, dst, position of src). *)
Definition na_fill (nav : Z) : strided_t := base_strided (fun m dst _ => st m dst nav).
Fixpoint o2o_runs (assign : strided_t) (nav : Z) (fuel : nat)
    (m : mem) (mp : Z) (dst ds cur ss sp : Z) (chunk : nat) : outcome (mem * Z * Z) :=
  match fuel with
  | O => NoFuel
  | S fuel =>
      (* 803-817: a run of available values *)
      do r <- memchr m mp 1 chunk;
      match r with
      | None => do m <- assign m dst ds [cur] [ss] chunk;
                Ok (m, dst + Z.of_nat chunk * ds, sp + Z.of_nat chunk * ss)
      | Some q =>
          let seg := Z.to_nat (q - mp) in
          do m <- (if mp <? q then assign m dst ds [cur] [ss] seg else Ok m);
          let dst := dst + Z.of_nat seg * ds in
          let cur := cur + Z.of_nat seg * ss in
          let chunk := (chunk - seg)%nat in
          (* 818-832: a run of missing values *)
          do r <- memchr m q 0 chunk;
          match r with
          | None => do m <- na_fill nav m dst ds [] [] chunk; Ok (m, dst + Z.of_nat chunk * ds, sp)
          | Some q2 =>
              let seg := Z.to_nat (q2 - q) in
              do m <- (if q <? q2 then na_fill nav m dst ds [] [] seg else Ok m);
              let dst := dst + Z.of_nat seg * ds in
              let cur := cur + Z.of_nat seg * ss in
              let chunk := (chunk - seg)%nat in
              if (chunk =? 0)%nat then Ok (m, dst, sp)
              else o2o_runs assign nav fuel m q2 dst ds cur ss sp chunk
          end
      end
  end.
Fixpoint o2o_loop (K : nat) (is_na assign : strided_t) (nav mis : Z) (fuel : nat)
    (m : mem) (dst ds src ss sp : Z) (count : nat) : outcome mem :=
  match count, fuel with
  | O, _ => Ok m
  | _, O => NoFuel
  | _, S fuel =>
      let chunk := Nat.min count K in
      if negb (sp =? 0) then UB
      else
        do m <- is_na m mis 1 [src] [ss] chunk;
        do r <- o2o_runs assign nav chunk m mis dst ds src ss sp chunk;
        match r with (m, dst, sp) => o2o_loop K is_na assign nav mis fuel m dst ds src ss sp (count - chunk) end
  end.
Definition o2o_strided (K : nat) (is_na assign : strided_t) (nav mis : Z) (junk : Z -> Z) : strided_t :=
  fun m dst ds srcs ss count =>
    match srcs, ss with
    | src :: _, s :: _ =>
        do m <- o2o_loop K is_na assign nav mis count (alloc_buf m mis 1 K junk) dst ds src s 0 count;
        Ok (free_buf m mis 1 K)
    | _, _ => UB
    end.
