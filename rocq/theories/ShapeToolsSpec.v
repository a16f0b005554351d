(** Independent vocabulary for shapes, strides and axis permutations. *)
From Coq Require Import List ZArith Sorting.Permutation Sorting.Sorted.
Import ListNotations.
Open Scope Z_scope.

(** [src] broadcasts to [dst]: aligned on the right, every source extent is 1
    or equal to the destination extent. *)
Definition broadcasts (dst src : list Z) : Prop :=
  exists lead aligned, dst = lead ++ aligned /\
    Forall2 (fun s d => s = 1 \/ s = d) src aligned.

(** [p] is a permutation of the axes 0..n-1. *)
Definition axis_permutation (n : nat) (p : list nat) : Prop := Permutation p (seq 0 n).

(** [p] visits the axes in non-decreasing [w]. *)
Definition sorted_by (w : nat -> Z) (p : list nat) : Prop :=
  StronglySorted (fun i j => w i <= w j) p.

Definition abs_stride (strides : list Z) (i : nat) : Z := Z.abs (nth i strides 0).

(** strictly C-ordered strides: |s_0| > |s_1| > ... *)
Definition c_ordered (strides : list Z) : Prop :=
  forall i j, (i < j < length strides)%nat -> abs_stride strides j < abs_stride strides i.

(** C-ordered apart from broadcast (zero-stride) axes. *)
Definition c_ordered_bc (strides : list Z) : Prop :=
  forall i j, (i < j < length strides)%nat ->
    nth i strides 0 = 0 \/ nth j strides 0 = 0 \/ abs_stride strides j < abs_stride strides i.

(** The contract of [std::sort] on a list with a strict weak order: the result
    is a permutation of the input in which no later element is less than an
    earlier one.  Nothing is said about ties. *)
Definition strict_weak_order {A} (lt : A -> A -> bool) : Prop :=
  (forall x, lt x x = false) /\
  (forall x y z, lt x y = true -> lt y z = true -> lt x z = true) /\
  (forall x y z, lt x y = false -> lt y x = false -> lt y z = false -> lt z y = false ->
                 lt x z = false /\ lt z x = false).
Definition std_sort_contract (sort : (nat -> nat -> bool) -> list nat -> list nat) : Prop :=
  forall lt l, strict_weak_order lt ->
    Permutation (sort lt l) l /\
    StronglySorted (fun x y => lt y x = false) (sort lt l).

(** Strides of a packed array whose axes are stored in the order [perm]
    (fastest first): axis perm[k] has stride elsize * prod_{m<k} shape[perm[m]],
    0 for extents <= 1. *)
Fixpoint prod (l : list Z) : Z := match l with [] => 1 | x :: l' => x * prod l' end.
Definition packed_strides (perm : list nat) (shape : list Z) (elsize : Z) (out : list Z) : Prop :=
  length out = length shape /\
  forall k, (k < length perm)%nat ->
    let ax := nth k perm 0%nat in
    nth ax out 0 = if 1 <? nth ax shape 0
                   then elsize * prod (map (fun a => nth a shape 0) (firstn k perm)) else 0.

(** The operands agree on the order of the axes: one weight [w] explains every
    comparison of two nonzero strides, and every pair of axes can be compared. *)
Definition agree (ops : list (list Z)) (w : nat -> Z) (n : nat) : Prop :=
  (forall st i j, In st ops -> (i < n)%nat -> (j < n)%nat -> nth i st 0 <> 0 -> nth j st 0 <> 0 ->
     (abs_stride st i <= abs_stride st j <-> w i <= w j)) /\
  (forall i j, (i < n)%nat -> (j < n)%nat -> i <> j -> exists st, In st ops /\ nth i st 0 <> 0 /\ nth j st 0 <> 0).

