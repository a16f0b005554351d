(* storagebuf: the memory that kernels and call graphs are built in; how they
   are destroyed. *)
From Verif Require Import Base.
Local Open Scope Z_scope.

(* storagebuf.hpp:107-109 and callables/call.hpp:15: aligned_size *)
Definition aligned_size (size : Z) : Z := Z.land (u64 (size + 7)) (Z.lnot 7).

(* storagebuf.hpp:17-31: m_data as a function from offsets to bytes, None for
   NULL. b_copied is not in the code: the number of bytes that growing has copied. *)
Record buf := Buf { b_data : option (Z -> Z); b_capacity : Z; b_size : Z; b_copied : Z }.
(* storagebuf.hpp:33-35: the constructor, with 16 * 8 bytes of static data *)
Definition empty_buf : buf := Buf (Some (fun _ => 0)) 128 0 0.

(* storagebuf.hpp:53-72: reserve. fresh is what the memory that was allocated
   contains, None when the allocation fails. The copy or realloc keeps the old
   bytes; the rest is set to zero. Result: the buffer, and whether bad_alloc was
   thrown (destroy of the derived class, which comes before, is in the functions
   below). m_capacity * 3 does not overflow for a capacity that is in memory. *)
Definition grown (b : buf) (requested : Z) : Z :=
  let g := b_capacity b * 3 / 2 in if requested <? g then g else requested.
Definition reserve (b : buf) (requested : Z) (fresh : option (Z -> Z)) : buf * bool :=
  if b_capacity b <? requested then
    let cap := grown b requested in
    match fresh, b_data b with
    | Some junk, Some old =>
        let new := fun a => if a <? b_capacity b then old a else junk a in
        (Buf (Some (fun a => if (b_capacity b <=? a) && (a <? b_capacity b + (cap - b_capacity b)) then 0 else new a))
           cap (b_size b) (b_copied b + b_capacity b), false)
    | _, _ => (Buf None (b_capacity b) (b_size b) (b_copied b), true)
    end
  else (b, false).

Definition write (m : Z -> Z) (off : Z) (bytes : list Z) : Z -> Z :=
  fun a => if (off <=? a) && (a <? off + Z.of_nat (List.length bytes)) then nth (Z.to_nat (a - off)) bytes 0 else m a.

(* storagebuf.hpp:114-123: emplace_back of an object of the given bytes; its
   size is their number (padding is bytes too) *)
Definition emplace_back (b : buf) (bytes : list Z) (fresh : option (Z -> Z)) : buf * bool :=
  let offset := b_size b in
  let r := reserve (Buf (b_data b) (b_capacity b) (b_size b + aligned_size (Z.of_nat (List.length bytes))) (b_copied b))
             (b_size b + aligned_size (Z.of_nat (List.length bytes))) fresh in
  if snd r then r
  else (Buf (option_map (fun m => write m offset bytes) (b_data (fst r))) (b_capacity (fst r)) (b_size (fst r)) (b_copied (fst r)), false).

(* a sequence of emplacements, all of whose allocations succeed *)
Fixpoint build (items : list (list Z * (Z -> Z))) (b : buf) : buf :=
  match items with
  | [] => b
  | (bytes, junk) :: items' => build items' (fst (emplace_back b bytes (Some junk)))
  end.

(* ---------------------------------------------------------------- kernels *)
(* What happens to one kernel: its size, whether its destructor destroys the
   kernel that follows it (get_child), whether memory can be had if the buffer has
   to grow, whether its constructor returns. *)
Record kernel := Kernel { k_id : nat; k_size : Z; k_child : bool; k_alloc : bool; k_ctor : bool }.
(* The kernels whose destructor has been set, with their offset; everywhere else
   the buffer is zero (C127), so that the destructor read there is NULL. *)
Definition slots := list (Z * kernel).
Fixpoint find_at {X} (o : Z) (l : list (Z * X)) : option X :=
  match l with [] => None | (x, k) :: l' => if x =? o then Some k else find_at o l' end.

(* kernel_prefix.hpp:78-82 with base_kernel.hpp:91 and the destructors of kernels
   that have a child (for example elwise_kernel.hpp:43): the kernels destroyed.
   The destructor is in the first 8 bytes, which may be past the end. *)
Fixpoint destroy_at (fuel : nat) (cap : Z) (l : slots) (o : Z) : outcome (list nat) :=
  match fuel with
  | O => NoFuel
  | S fuel' =>
      if cap <? o + 8 then UB
      else
        match find_at o l with
        | None => Ok []
        | Some k =>
            if k_child k then
              do r <- destroy_at fuel' cap l (o + aligned_size (k_size k)); Ok (k_id k :: r)
            else Ok [k_id k]
        end
  end.

(* kernel_builder.hpp:41-46 and base_kernel.hpp:66-84: kernels are emplaced one
   after the other, the first exception stops it; then the builder is destroyed
   (kernel_builder.cpp:10-15), in reserve already when an allocation fails
   (storagebuf.hpp:63-66). The memory of the buffer itself is not followed. *)
Fixpoint construct (ks : list kernel) (cap size : Z) (l : slots) (made : list nat) : outcome (list nat * list nat) :=
  match ks with
  | [] => do d <- destroy_at (S (List.length l)) cap l 0; Ok (made, d)
  | k :: ks' =>
      let size' := size + aligned_size (k_size k) in
      if (cap <? size') && negb (k_alloc k) then
        do d <- destroy_at (S (List.length l)) cap l 0; Ok (made, d)
      else
        let cap' := if cap <? size' then grown (Buf None cap size' 0) size' else cap in
        if k_ctor k then construct ks' cap' size' ((size, k) :: l) (made ++ [k_id k])%list
        else do d <- destroy_at (S (List.length l)) cap' l 0; Ok (made, d)
  end.

(* ---------------------------------------------------------------- call graphs *)
(* call_graph.hpp:16-41, call.hpp:24-54: a node is a header of 24 bytes (destroy,
   instantiate, data_size) and a closure; the header is written before the closure
   is constructed. *)
Record node := Node { n_id : nat; n_size : Z; n_alloc : bool; n_ctor : bool }.
Definition node_size (n : node) : Z := aligned_size 24 + aligned_size (n_size n).

(* call_graph.hpp:20-27: the destructor; null: m_data is NULL *)
Fixpoint destroy_graph (fuel : nat) (null : bool) (l : list (Z * node)) (size o : Z) : outcome (list nat) :=
  match fuel with
  | O => NoFuel
  | S fuel' =>
      if o =? size then Ok []
      else if null then UB
      else
        match find_at o l with
        | None => UB
        | Some n => do r <- destroy_graph fuel' null l size (o + node_size n); Ok (n_id n :: r)
        end
  end.

(* emplace_back of closures until one throws, then the destructor *)
Fixpoint graph (ns : list node) (cap size : Z) (l : list (Z * node)) (made : list nat) : outcome (list nat * list nat) :=
  match ns with
  | [] => do d <- destroy_graph (S (List.length l)) false l size 0; Ok (made, d)
  | n :: ns' =>
      let size' := size + node_size n in
      if (cap <? size') && negb (n_alloc n) then
        do d <- destroy_graph (S (List.length l)) true l size' 0; Ok (made, d)
      else
        let cap' := if cap <? size' then grown (Buf None cap size' 0) size' else cap in
        let l' := (size, n) :: l in
        if n_ctor n then graph ns' cap' size' l' (made ++ [n_id n])%list
        else do d <- destroy_graph (S (List.length l')) false l' size' 0; Ok (made, d)
  end.
