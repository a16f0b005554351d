(** What indexing and slicing are supposed to mean: Python's indices and
    slices, as plain mathematics.  Does not mention the model. *)
From Coq Require Import List ZArith Sorted.
Import ListNotations.
Open Scope Z_scope.

(** The positions visited by a strided view: [size] elements, the first at
    position [start], consecutive ones [stride] apart. *)
Definition positions (start stride size : Z) : list Z :=
  map (fun i => start + Z.of_nat i * stride) (seq 0 (Z.to_nat size)).

(** [l] is, in increasing order, the set { s + j*step | j >= 0, s + j*step < e }. *)
Definition is_upward_slice (s e step : Z) (l : list Z) : Prop :=
  StronglySorted Z.lt l /\
  forall x, In x l <-> exists j, 0 <= j /\ x = s + j * step /\ x < e.

(** [l] is, in decreasing order, the set { s + j*step | j >= 0, s + j*step > e }. *)
Definition is_downward_slice (s e step : Z) (l : list Z) : Prop :=
  StronglySorted Z.gt l /\
  forall x, In x l <-> exists j, 0 <= j /\ x = s + j * step /\ e < x.

Definition in_bounds (n : Z) (l : list Z) : Prop := forall x, In x l -> 0 <= x < n.

(** A bound counted from the end when negative. *)
Definition from_end (n b : Z) : Z := if b <? 0 then b + n else b.

(** The sentinels of the library's [irange()]: "from the beginning", "to the end". *)
Definition SLICE_BEGIN : Z := - 2 ^ 63.
Definition SLICE_END : Z := 2 ^ 63 - 1.

(** When a slice with a positive step is rejected. *)
Definition pos_throws (n s f : Z) : Prop := (0 <= s /\ n <= s) \/ f < - n.

(** When a slice with a negative step is rejected. *)
Definition neg_throws (n s f : Z) : Prop :=
  (s <> SLICE_BEGIN /\ ((0 <= s /\ n <= s) \/ s < - n)) \/
  (f <> SLICE_END /\ 0 <= f /\ n <= f).
(** First position and (exclusive) last position of a slice with a negative step. *)
Definition neg_lo (n s : Z) : Z := if s =? SLICE_BEGIN then n - 1 else from_end n s.
Definition neg_hi (n f : Z) : Z := if f =? SLICE_END then -1 else Z.max (-1) (from_end n f).
