(** What element-wise application of a scalar function to arrays means.  Only
    the memory, the outcomes and the dimension lists come from the model. *)
From Verif Require Import Base StridedModel ElwiseModel.
From Verif Require Export ShapeToolsSpec.
Open Scope Z_scope.

(** The shape the arguments have together: it has as many dimensions as the
    longest of them, each argument broadcasts to it (aligned on the right, every
    extent 1 or equal), and an extent other than 1 is that of some argument. *)
Definition common_shape (args : list (list Z)) (shape : list Z) : Prop :=
  (shape = [] \/ exists a, In a args /\ List.length a = List.length shape) /\
  Forall (broadcasts shape) args /\
  (forall k n, nth_error (rev shape) k = Some n -> n <> 1 -> exists a, In a args /\ nth_error (rev a) k = Some n).

(** A type with fixed dimensions only. *)
Definition fixed (shape : list Z) : ty := map DF shape.

(** The indices of an array, in row-major order. *)
Fixpoint indices (shape : list Z) : list (list Z) :=
  match shape with
  | [] => [[]]
  | n :: r => flat_map (fun i => map (cons (Z.of_nat i)) (indices r)) (seq 0 (Z.to_nat n))
  end.
(** The address of the element at index [idx]. *)
Fixpoint at_ (base : Z) (strides idx : list Z) : Z :=
  match strides, idx with
  | s :: r, i :: idx => at_ (base + i * s) r idx
  | _, _ => base
  end.
(** The index of an argument of shape [a] that goes with index [idx] of the
    result: aligned on the right, and 0 where the argument has extent 1. *)
Definition arg_index (a idx : list Z) : list Z :=
  map (fun p => if fst p =? 1 then 0 else snd p) (combine a (skipn (List.length idx - List.length a) idx)).

(** Storing [f x] for one pair (address, arguments) after the other. *)
Fixpoint stores (f : list Z -> outcome Z) (m : mem) (l : list (Z * list Z)) : outcome mem :=
  match l with
  | [] => Ok m
  | (d, x) :: r => do v <- f x; do m <- st m d v; stores f m r
  end.

(** After the call: [v idx] is in element [idx] of the output, and no other
    cell has changed. *)
Definition stored_nd (m m' : mem) (dp : Z) (dstr shape : list Z) (v : list Z -> Z) : Prop :=
  (forall idx, In idx (indices shape) -> m' (at_ dp dstr idx) = Some (v idx)) /\
  (forall a, (forall idx, In idx (indices shape) -> a <> at_ dp dstr idx) -> m' a = m a).
(** [f] applied to [x idx] for every index: all results are stored, or, if [f]
    throws for some, the exception for the first such index is the outcome. *)
Definition applied_nd (f : list Z -> outcome Z) (m : mem) (dp : Z) (dstr shape : list Z) (x : list Z -> list Z) (o : outcome mem) : Prop :=
  (forall v, (forall idx, In idx (indices shape) -> f (x idx) = Ok (v idx)) -> exists m', o = Ok m' /\ stored_nd m m' dp dstr shape v) /\
  (forall l1 idx l2 e, indices shape = l1 ++ idx :: l2 -> (forall i, In i l1 -> exists v, f (x i) = Ok v) -> f (x idx) = Throw e -> o = Throw e).

(** The output: allocated cells, a different one for every index, none of them
    among the cells [ro] the arguments are read from. *)
Definition output_ok (ro m : mem) (dp : Z) (dstr shape : list Z) : Prop :=
  List.length dstr = List.length shape /\
  (forall idx, In idx (indices shape) -> m (at_ dp dstr idx) <> None /\ ro (at_ dp dstr idx) = None) /\
  (forall i j, In i (indices shape) -> In j (indices shape) -> at_ dp dstr i = at_ dp dstr j -> i = j).
(** [ro] is a part of memory [m]. *)
Definition part_of (ro m : mem) : Prop := forall a v, ro a = Some v -> m a = Some v.

(** Arrmeta of fixed dimensions: extent and stride of each. *)
Fixpoint meta (shape strides : list Z) : list Z :=
  match shape, strides with n :: r, s :: t => n :: s :: meta r t | _, _ => [] end.

(** Arguments with var dimensions.  The element of an argument for index [idx]
    of a result of shape [shape]: a var dimension is a pointer and a size. *)
Fixpoint locate (ro : mem) (t : ty) (shape mt : list Z) (p : Z) (idx : list Z) {struct shape} : Z :=
  match shape, idx with
  | n :: shape', i :: idx' =>
      if (List.length t <? List.length shape)%nat then locate ro t shape' mt p idx'
      else match t, mt with
           | DF k :: t', _ :: s :: mt' => locate ro t' shape' mt' (p + (if k =? 1 then 0 else i * s)) idx'
           | DV :: t', _ :: s :: o :: mt' =>
               match ro p, ro (p + 1) with
               | Some b, Some k => locate ro t' shape' mt' (b + o + (if k =? 1 then 0 else i * s)) idx'
               | _, _ => p
               end
           | _, _ => p
           end
  | _, _ => p
  end.
(** Every dimension of the argument, also every var dimension met in its data,
    has extent 1 or the extent of the result there. *)
Fixpoint conforms (ro : mem) (t : ty) (shape mt : list Z) (p : Z) {struct shape} : Prop :=
  match shape with
  | [] => t = []
  | n :: shape' =>
      if (List.length t <? List.length shape)%nat then conforms ro t shape' mt p
      else match t, mt with
           | DF k :: t', _ :: s :: mt' =>
               (k = 1 \/ k = n) /\ forall i, 0 <= i < n -> conforms ro t' shape' mt' (p + (if k =? 1 then 0 else i * s))
           | DV :: t', _ :: s :: o :: mt' =>
               exists b k, ro p = Some b /\ ro (p + 1) = Some k /\ (k = 1 \/ k = n) /\
                 forall i, 0 <= i < n -> conforms ro t' shape' mt' (b + o + (if k =? 1 then 0 else i * s))
           | _, _ => False
           end
  end.

(** An argument with fixed dimensions: extents, strides, address. *)
Record fixed_arg := FA { fa_shape : list Z; fa_str : list Z; fa_base : Z }.
Definition arg_ok (a : fixed_arg) : Prop :=
  List.length (fa_str a) = List.length (fa_shape a) /\ Forall (fun n => 0 <= n) (fa_shape a).
(** Its element for index [idx] of the result. *)
Definition arg_elem (a : fixed_arg) (idx : list Z) : Z := at_ (fa_base a) (fa_str a) (arg_index (fa_shape a) idx).
(** Dimensions of extent 1 come after all others. *)
Definition ones_inner (shape : list Z) : Prop := forall l1 l2, shape = l1 ++ 1 :: l2 -> Forall (eq 1) l2.

(** The strides the code uses: a dimension of extent 1 gets 0, and the other
    dimensions get the strides of the first, second, ... dimension. *)
Fixpoint eff_strides (shape str : list Z) : list Z :=
  match shape with
  | [] => []
  | k :: a => if k =? 1 then 0 :: eff_strides a str else match str with s :: r => s :: eff_strides a r | [] => [] end
  end.

(** Mixed arguments at one dimension, where [nd] dimensions remain: an argument
    with fewer dimensions does not start with a var dimension, and if some
    argument has a var dimension here, then the fixed dimensions here are of
    extent 1 or have only dimensions of extent 1 below them. *)
Fixpoint supported (nd : nat) (args : list ty) : Prop :=
  match nd with
  | O => True
  | S nd' =>
      (forall t, In t args -> (List.length t <= nd)%nat /\
         ((List.length t < nd)%nat -> forall t', t <> DV :: t') /\
         (forall n t' u', (List.length t = nd) -> t = DF n :: t' -> In (DV :: u') args -> n = 1 \/ Forall (eq (DF 1)) t')) /\
      supported nd' (map (fun t => if (List.length t <? nd)%nat then t else tl t) args)
  end.

(** An argument of any dimensions: type, arrmeta (two words for a fixed
    dimension, three for a var dimension), address. *)
Record any_arg := AA { aa_ty : ty; aa_meta : list Z; aa_base : Z }.
Fixpoint meta_words (t : ty) : nat :=
  match t with [] => 0 | DF _ :: r => 2 + meta_words r | DV :: r => 3 + meta_words r end%nat.
Definition ones_last (t : ty) : Prop := forall l1 l2, t = l1 ++ DF 1 :: l2 -> Forall (eq (DF 1)) l2.

(** Operands of a kernel with a var destination: a var dimension, whose pointer
    and size are in memory at [p], with stride [s] and offset [o], or [z]
    elements at [p] with stride [s]. *)
Inductive operand := OVar (p s o : Z) | OFix (p s z : Z).
Definition o_size (ro : mem) (x : operand) (z : Z) : Prop :=
  match x with OVar p _ _ => ro p <> None /\ ro (p + 1) = Some z | OFix _ _ k => k = z end.
(** Element [i] of the operand, of size [z]. *)
Definition o_elem (ro : mem) (x : operand) (z i : Z) : Z :=
  let j := if z =? 1 then 0 else i in
  match x with
  | OVar p s o => match ro p with Some b => b + o + j * s | None => 0 end
  | OFix p s _ => p + j * s
  end.
(** The size the operands have together. *)
Definition common_size (zs : list Z) (n : Z) : Prop :=
  (forall z, In z zs -> z = 1 \/ z = n) /\ (n = 1 \/ In n zs).
(** How the operands are passed to the kernel. *)
Definition o_ptr (x : operand) : Z := match x with OVar p _ _ => p | OFix p _ _ => p end.
Definition o_stride (x : operand) : Z := match x with OVar _ s _ => s | OFix _ s _ => s end.
Definition o_off (x : operand) : Z := match x with OVar _ _ o => o | OFix _ _ _ => 0 end.
Definition o_fixed_size (x : operand) : Z := match x with OVar _ _ _ => 0 | OFix _ _ z => z end.
Definition o_var (x : operand) : bool := match x with OVar _ _ _ => true | OFix _ _ _ => false end.
(** [x i] is the tuple of the operands' elements [i]. *)
Definition o_values (ro : mem) (ops : list operand) (zs : list Z) (n : Z) (x : Z -> list Z) : Prop :=
  forall i, 0 <= i < n -> map (fun q => ro (o_elem ro (fst q) (snd q) i)) (combine ops zs) = map Some (x i).
