(** What indexing an array is supposed to mean (C59). *)
From Verif Require Import Base LinearIndexModel LinearIndexSpec LayoutModel LayoutSpec.

(** Item [i] of an array, ragged array, tuple or struct, looked at through pointers: its
    type, arrmeta and data.  [m] is the arrmeta memory, [dm] the data memory. *)
Fixpoint dim_of (m dm : mem) (t : lt) (a d : Z) : option Z :=
  match t with
  | FixedDim n _ => Some n
  | VarDim _ => Some (dm (d + 8))
  | Tuple l => Some (Z.of_nat (List.length l))
  | Pointer e => dim_of m dm e (a + 16) (dm d + m (a + 8))
  | _ => None
  end.
Fixpoint item (m dm : mem) (t : lt) (a d i : Z) : option (lt * Z * Z) :=
  match t with
  | FixedDim n e => if (0 <=? i) && (i <? n) then Some (e, a + 16, d + i * m (a + 8)) else None
  | VarDim e => if (0 <=? i) && (i <? dm (d + 8)) then Some (e, a + 24, dm d + m (a + 16) + i * m (a + 8)) else None
  | Tuple l =>
      if 0 <=? i then
        match nth_error l (Z.to_nat i), nth_error (arrmeta_offsets l) (Z.to_nat i) with
        | Some f, Some o => Some (f, a + o, d + m (a + 8 * i))
        | _, _ => None
        end
      else None
  | Pointer e => item m dm e (a + 16) (dm d + m (a + 8)) i
  | _ => None
  end.
(** The value a path of item numbers leads to, with pointers followed: its type and address. *)
Fixpoint target (m dm : mem) (t : lt) (a d : Z) : lt * Z :=
  match t with Pointer e => target m dm e (a + 16) (dm d + m (a + 8)) | _ => (t, d) end.
Fixpoint value (m dm : mem) (t : lt) (a d : Z) (p : list Z) : option (lt * Z) :=
  match p with
  | [] => Some (target m dm t a d)
  | i :: p => match item m dm t a d i with Some (e, a, d) => value m dm e a d p | None => None end
  end.

(** A plain index, and position [j] of a slice, of [n] items. *)
Definition at_index (s n i : Z) : Prop := i = from_end n s /\ 0 <= i < n.
Definition in_slice (r : irange) (n j i : Z) : Prop :=
  0 <= j /\
  ((0 < r_step r /\ i = Z.max 0 (from_end n (r_start r)) + j * r_step r /\ i < Z.min n (from_end n (r_finish r))) \/
   (r_step r < 0 /\ i = neg_lo n (r_start r) + j * r_step r /\ neg_hi n (r_finish r) < i)).
(** [selects ... idx p' p]: indexing with [idx] puts at [p'] what is at [p]. *)
Inductive selects (m dm : mem) : lt -> Z -> Z -> list irange -> list Z -> list Z -> Prop :=
| sel_done t a d p : selects m dm t a d [] p p
| sel_index t a d r idx n i e b c p' p : dim_of m dm t a d = Some n -> r_step r = 0 -> at_index (r_start r) n i -> item m dm t a d i = Some (e, b, c) ->
    selects m dm e b c idx p' p -> selects m dm t a d (r :: idx) p' (i :: p)
| sel_slice t a d r idx n j i e b c p' p : dim_of m dm t a d = Some n -> r_step r <> 0 -> in_slice r n j i -> item m dm t a d i = Some (e, b, c) ->
    selects m dm e b c idx p' p -> selects m dm t a d (r :: idx) (j :: p') (i :: p).
Definition slices (idx : list irange) : nat := List.length (filter (fun r => negb (r_step r =? 0)) idx).

(** Indices made of 64-bit numbers, and data whose words are sizes and addresses. *)
Definition idx64 (r : irange) : Prop := s64 (r_start r) /\ s64 (r_finish r) /\ s64 (r_step r).
Definition good_data (dm : mem) : Prop := forall x, 0 <= dm x < 2 ^ 63.
Fixpoint dims64 (t : lt) : Prop :=
  match t with
  | FixedDim n e => 0 <= n < 2 ^ 63 /\ dims64 e
  | VarDim e | Pointer e | Option e => dims64 e
  | Tuple l => Z.of_nat (List.length l) < 2 ^ 63 /\ fold_right (fun f P => dims64 f /\ P) True l
  | _ => True
  end.
(** Where the library gets it right: a ragged dimension is indexed only while every
    dimension before it is (and no pointer), and a slice of a tuple is followed only by
    full slices. *)
Definition full (r : irange) : Prop := r_start r = SLICE_BEGIN /\ r_finish r = SLICE_END /\ r_step r = 1.
Fixpoint supported (idx : list irange) : lt -> bool -> Prop :=
  match idx with
  | [] => fun _ _ => True
  | r :: idx' =>
      fix go (t : lt) (lead : bool) : Prop :=
        match t with
        | FixedDim n e => supported idx' e (if r_step r =? 0 then lead else false)
        | VarDim e => if r_step r =? 0 then lead = true /\ supported idx' e true else supported idx' e false
        | Pointer e => go e false
        | Tuple l =>
            if r_step r =? 0 then forall i f, at_index (r_start r) (Z.of_nat (List.length l)) i -> nth_error l (Z.to_nat i) = Some f -> supported idx' f lead
            else Forall full idx' /\ forall f, In f l -> supported idx' f false
        | _ => True
        end
  end.

(** The array (rt, out, d') is a view of what [idx] selects from (t, a, d): every selected
    element is found at the position it should have, at the address it had, and
    there is nothing else in the view. *)
Definition view_of (idx : list irange) (m dm : mem) (t : lt) (a d : Z) (m' : mem) (rt : lt) (out d' : Z) : Prop :=
  (forall p' p, selects m dm t a d idx p' p -> value m' dm rt out d' p' = value m dm t a d p) /\
  (forall p' v, (slices idx <= List.length p')%nat -> value m' dm rt out d' p' = Some v -> exists p, selects m dm t a d idx p' p).
