(** Model of src/dynd/shape_tools.cpp (shapes and strides). *)
From Verif Require Import Base.

(** shape_tools.cpp:15-31 — shape_can_broadcast.  The (ndim, pointer) pairs
    are lists; the loop over i is the structural recursion of [sc_loop]. *)
Fixpoint sc_loop (dst src : list Z) : bool :=
  match src, dst with
  | [], _ => true
  | s :: src', d :: dst' =>
      if negb (s =? 1) && negb (s =? d) then false else sc_loop dst' src'
  | _ :: _, [] => false (* unreachable: dst has been aligned to src's length *)
  end.
Definition shape_can_broadcast (dst src : list Z) : bool :=
  if (List.length src <=? List.length dst)%nat
  then sc_loop (skipn (List.length dst - List.length src) dst) src
  else false.

(** shape_tools.cpp:33 — intptr_abs.  [-x] overflows for INT64_MIN; the
    theorems assume strides differ from INT64_MIN, for which this is [Z.abs]. *)
Definition intptr_abs (x : Z) : Z := if 0 <=? x then x else - x.

(** Reading [strides[i]] (the theorems show every index is in range). *)
Definition at_ (l : list Z) (i : nat) : Z := nth i l 0.

(** shape_tools.cpp:35-45 — abs_intptr_compare::operator() *)
Definition abs_less (strides : list Z) (i j : nat) : bool :=
  intptr_abs (at_ strides i) <? intptr_abs (at_ strides j).

(** shape_tools.cpp:104-107 and 203-206: the reversal permutation. *)
Definition reversal (ndim : nat) : list nat := rev (seq 0 ndim).

(** shape_tools.cpp:49-114 — strides_to_axis_perm.  [std::sort] is the
    parameter [sort : comparator -> list -> list]; it is external code and the
    theorems assume only its documented contract. *)
Definition strides_to_axis_perm
    (sort : (nat -> nat -> bool) -> list nat -> list nat)
    (strides : list Z) : list nat :=
  match List.length strides with
  | 0%nat => []
  | 1%nat => [0%nat]
  | 2%nat =>
      if intptr_abs (at_ strides 1) <=? intptr_abs (at_ strides 0)
      then [1%nat; 0%nat] else [0%nat; 1%nat]
  | 3%nat =>
      let a0 := intptr_abs (at_ strides 0) in
      let a1 := intptr_abs (at_ strides 1) in
      let a2 := intptr_abs (at_ strides 2) in
      if a1 <=? a0 then
        if a2 <=? a1 then [2%nat; 1%nat; 0%nat]
        else if a2 <=? a0 then [1%nat; 2%nat; 0%nat]
        else [1%nat; 0%nat; 2%nat]
      else
        if a2 <=? a1 then
          if a2 <=? a0 then [2%nat; 0%nat; 1%nat] else [0%nat; 2%nat; 1%nat]
        else [0%nat; 1%nat; 2%nat]
  | n => sort (abs_less strides) (reversal n)
  end.

(** Array store [l[i] = v]. *)
Fixpoint update {A} (i : nat) (v : A) (l : list A) : list A :=
  match l, i with
  | [], _ => []
  | _ :: l', O => v :: l'
  | x :: l', S i' => x :: update i' v l'
  end.

(** shape_tools.cpp:116-126 — axis_perm_to_strides.  [out] is the caller's
    output array; [elsize *= dim_size] is signed arithmetic. *)
Fixpoint axis_perm_to_strides (perm : list nat) (shape : list Z) (elsize : Z)
    (out : list Z) : outcome (list Z) :=
  match perm with
  | [] => Ok out
  | i_perm :: perm' =>
      let dim_size := at_ shape i_perm in
      let out1 := update i_perm (if 1 <? dim_size then elsize else 0) out in
      let out2 := update i_perm dim_size out1 in
      do e <- mul64 elsize dim_size;
      axis_perm_to_strides perm' shape e out2
  end.

(** shape_tools.cpp:128-156 — compare_strides; returns (ambiguous, lessthan).
    The caller passes lessthan = false (lines 173, 215). *)
Fixpoint compare_strides_loop (ops : list (list Z)) (i j : nat)
    (ambiguous lessthan : bool) : bool * bool :=
  match ops with
  | [] => (ambiguous, lessthan)
  | st :: ops' =>
      let si := at_ st i in
      let sj := at_ st j in
      if negb (si =? 0) && negb (sj =? 0) then
        if intptr_abs si <=? intptr_abs sj then (false, true)
        else if ambiguous then compare_strides_loop ops' i j false false
        else compare_strides_loop ops' i j ambiguous lessthan
      else compare_strides_loop ops' i j ambiguous lessthan
  end.
Definition compare_strides (ops : list (list Z)) (i j : nat) : bool * bool :=
  compare_strides_loop ops i j true false.

(** shape_tools.cpp:214-232 — the scan for the insertion position: i1 runs from
    [i1n - 1] down to 0. *)
Fixpoint find_ipos (ops : list (list Z)) (perm : list nat) (x : nat)
    (i1n : nat) (ipos : nat) : nat :=
  match i1n with
  | O => ipos
  | S i1 =>
      let '(ambiguous, lessthan) := compare_strides ops (nth i1 perm 0%nat) x in
      if negb ambiguous then
        if negb lessthan then find_ipos ops perm x i1 i1 else ipos
      else find_ipos ops perm x i1 ipos
  end.

(** shape_tools.cpp:234-240 — shift perm[ipos..i0) up by one, then store x.
    The in-place shifting loop is written as its effect on the whole list. *)
Definition insert_at (perm : list nat) (i0 ipos : nat) (x : nat) : list nat :=
  if (ipos =? i0)%nat then perm
  else firstn ipos perm ++ [x] ++ firstn (i0 - ipos) (skipn ipos perm) ++ skipn (S i0) perm.

(** shape_tools.cpp:209-241 — the insertion sort, i0 = 1 .. ndim-1. *)
Definition ms_step (ops : list (list Z)) (perm : list nat) (i0 : nat) : list nat :=
  let x := nth i0 perm 0%nat in
  insert_at perm i0 (find_ipos ops perm x i0 i0) x.

(** shape_tools.cpp:158-245 — multistrides_to_axis_perm. *)
Definition multistrides_to_axis_perm (ndim : nat) (ops : list (list Z)) : list nat :=
  match ndim with
  | 0%nat => []
  | 1%nat => [0%nat]
  | 2%nat =>
      let '(ambiguous, lessthan) := compare_strides ops 0 1 in
      if ambiguous || negb lessthan then [1%nat; 0%nat] else [0%nat; 1%nat]
  | _ => fold_left (ms_step ops) (seq 1 (ndim - 1)) (reversal ndim)
  end.

(** shape_tools.cpp:247-266 — print_shape is modelled in PrintShape (text). *)
