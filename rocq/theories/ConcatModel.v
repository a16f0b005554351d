(** nd::concatenate (src/dynd/array.cpp:834-848).

    An array of one dimension is its number of dimensions, its dtype and its
    elements, which are numbers; the memory of the result is a list of elements, and
    an access outside it is undefined.  Elements of the same type are copied as they
    are. *)
From Verif Require Import Base LinearIndexModel.
Open Scope Z_scope.

Definition len {A : Type} (l : list A) : Z := Z.of_nat (List.length l).
Record array := Arr { ndim : Z; dtype : Z; elements : list Z }.

Definition store (m : list Z) (pos v : Z) : outcome (list Z) :=
  if (0 <=? pos) && (pos <? len m) then Ok (firstn (Z.to_nat pos) m ++ v :: skipn (S (Z.to_nat pos)) m) else UB.
Fixpoint copy (m : list Z) (pos stride : Z) (src : list Z) : outcome (list Z) :=
  match src with
  | [] => Ok m
  | v :: src => do m <- store m pos v; copy m (pos + stride) stride src
  end.
(** array.hpp:166 with types/fixed_dim_type.cpp:128-132, and assign of one dimension:
    the sizes must be the same, or the source have one element (C101). *)
Definition assign_range (m : list Z) (r : irange) (src : list Z) : outcome (list Z) :=
  do l <- apply_single_linear_index r (len m);
  if len src =? o_size l then copy m (o_start l) (o_stride l) src
  else match src with
       | [v] => copy m (o_start l) (o_stride l) (repeat v (Z.to_nat (o_size l)))
       | _ => Throw "broadcast_error"
       end.
(** [junk]: what is in the memory of nd::empty. *)
Definition concatenate (junk : Z -> Z) (x y : array) : outcome (list Z) :=
  if negb (ndim x =? 1) || negb (ndim y =? 1) then Throw "runtime_error: TODO: nd::concatenate is WIP"
  else if negb (dtype x =? dtype y) then Throw "runtime_error: dtypes must be the same for concatenate"
  else
    do n <- add64 (len (elements x)) (len (elements y));
    let m := map (fun i => junk (Z.of_nat i)) (seq 0 (Z.to_nat n)) in
    do m <- assign_range m (mk_irange 0 (len (elements x)) 1) (elements x);
    assign_range m (mk_irange (len (elements x)) (len m) 1) (elements y).
