(* Views of an array: axis permutation, reshaping, new axes and nd::view.
   Models nd::array::permute, rotate, transpose, new_axis, nd::reshape and
   make_strided_array_from_data of src/dynd/array.cpp, is_valid_perm of
   include/dynd/shape_tools.hpp, with_new_axis of src/dynd/type.cpp and
   src/dynd/view.cpp.
   An array is its data pointer, its dimensions with their arrmeta (see
   IterModel.dim) and its dtype. Element types with child types (struct,
   tuple, option, pointer), memory types, ownership and flags are not
   modelled. Reading or writing outside the arrmeta of an array, and calling a
   virtual function of a builtin type, is UB. Exception messages are short
   tags. *)
From Verif Require Import Base IterModel.
Local Open Scope Z_scope.

(* A dtype without child types: its type id, whether it is builtin, is_pod(),
   get_data_size(), get_data_alignment() and whether get_arrmeta_size() > 0. *)
Record dtp := Dtp { t_id : Z; t_builtin : bool; t_pod : bool; t_size : Z; t_align : Z; t_meta : bool }.

Record arr := Arr { a_data : Z; a_dims : list dim; a_dtype : dtp }.

(* ---- permute --------------------------------------------------------- *)

(* shape_tools.hpp:151-165: the loop over perm with the flags array *)
Fixpoint ivp_loop (size : Z) (perm : list Z) (flags : list Z) : bool :=
  match perm with
  | [] => true
  | v :: rest =>
      if (0 <=? v) && (v <? size) && negb (existsb (Z.eqb v) flags)
      then ivp_loop size rest (v :: flags)
      else false
  end.
Definition is_valid_perm (perm : list Z) : bool := ivp_loop (Z.of_nat (List.length perm)) perm [].

Definition axis (axes : list Z) (i : nat) : Z := nth i axes 0.

(* array.cpp:461-467: the smallest interval of mutually permuted axes.
   fuel is the number of axes left. *)
Fixpoint closure_loop (axes : list Z) (fuel : nat) (loop_i : nat) (max_i : Z) : Z :=
  match fuel with
  | O => max_i
  | Datatypes.S f =>
      if (Z.of_nat loop_i <=? max_i) && (loop_i <? List.length axes)%nat
      then closure_loop axes f (Datatypes.S loop_i) (if axis axes loop_i >? max_i then axis axes loop_i else max_i)
      else max_i
  end.
Definition closure (axes : list Z) (i : nat) : nat :=
  Z.to_nat (closure_loop axes (List.length axes) (Datatypes.S i) (axis axes i)).

(* base_dim_type.hpp:29, type.hpp:463-469: get_strided_ndim, the number of
   leading fixed dimensions *)
Fixpoint strided_ndim (ds : list dim) : nat :=
  match ds with DF _ _ :: rest => Datatypes.S (strided_ndim rest) | _ => O end.

(* array.cpp:487-497: shape and arrmeta of the interval, permuted. *)
Definition apply_block (ds : list dim) (axes : list Z) (i n : nat) : list dim :=
  map (fun k => nth (Z.to_nat (axis axes (i + k) - Z.of_nat i)) ds DV) (seq 0 n).

(* array.cpp:442-501 (permute_type_dims) for the type made of the dimensions
   ds, with pdd->i = i. Together with the arrmeta it transforms.
   - get_base_id() of a fixed_dim is fixed_dim_kind_id (type_registry.cpp:75),
     so ++pdd->i happens on var dimensions only (var: type_registry.cpp:76).
   - transform_child_types of a dimension calls back on the element type
     (fixed_dim_type.cpp:56-67, var_dim_type.cpp:41-52); on a builtin dtype
     extended() is not an object (UB), any other dtype is returned unchanged
     (base_type.cpp:36-41).
   - array.cpp:479-485: with axes left after the interval the code transforms
     the children of tp, not of subtp, and makes tp again the element type.
     The type it returns has more dimensions than the array has arrmeta, which
     arrmeta_copy_construct (fixed_dim_type.cpp:252-261) then reads: UB, unless
     the call threw. *)
Fixpoint permute_type_dims (ds : list dim) (builtin : bool) (axes : list Z) (i : nat) {struct ds}
  : outcome (list dim) :=
  let ndim := List.length axes in
  if axis axes i =? Z.of_nat i then
    if (i =? ndim - 1)%nat then Ok ds
    else match ds with
         | [] => if builtin then UB else Ok []
         | d :: rest =>
             let i' := match d with DV => Datatypes.S i | DF _ _ => i end in
             do rest' <- permute_type_dims rest builtin axes i';
             Ok (d :: rest')
         end
  else
    let max_i := closure axes i in
    let n := (max_i - i + 1)%nat in
    if (strided_ndim ds <? n)%nat then Throw "Cannot permute non-strided dimensions"
    else if (max_i <? ndim - 1)%nat then
      match ds with
      | [] => UB
      | _ :: rest => do _ <- permute_type_dims rest builtin axes (max_i + 1); UB
      end
    else Ok (apply_block ds axes i n ++ skipn n ds).

(* array.cpp:503-537. With ndim = 0, pdd->axes[0] is read from an array
   without entries; a result type which is builtin has no extended(). *)
Definition permute (a : arr) (axes : list Z) : outcome arr :=
  if (List.length (a_dims a) <? List.length axes)%nat then Throw "Too many dimensions provided"
  else if negb (is_valid_perm axes) then Throw "Invalid permutation"
  else match axes with
       | [] => UB
       | _ => do ds <- permute_type_dims (a_dims a) (t_builtin (a_dtype a)) axes 0;
              Ok (Arr (a_data a) ds (a_dtype a))
       end.

(* array.cpp:539-569. A negative argument makes the loops write before the
   start of axes, or allocates a negative number of axes. *)
Definition rotate (a : arr) (to from : Z) : outcome arr :=
  if from =? to then Ok a
  else if (from <? 0) || (to <? 0) then UB
  else if from <? to then
    permute a (map Z.of_nat (seq 0 (Z.to_nat from))
               ++ map (fun i => Z.of_nat i + 1) (seq (Z.to_nat from) (Z.to_nat (to - from)))
               ++ [from])
  else
    permute a (map Z.of_nat (seq 0 (Z.to_nat to))
               ++ [from]
               ++ map (fun i => Z.of_nat i - 1) (seq (Z.to_nat to + 1) (Z.to_nat (from - to)))).

(* array.cpp:571-579 *)
Definition transpose (a : arr) : outcome arr :=
  let ndim := List.length (a_dims a) in
  permute a (map (fun i => Z.of_nat (ndim - i - 1)) (seq 0 ndim)).

(* ---- new_axis -------------------------------------------------------- *)

(* type.cpp:542-550: the dimensions pow adds to those of the element type;
   the exponent is a size_t, so a negative new_ndim recurses without end *)
Definition pow_dims (new_ndim : Z) : outcome (list dim) :=
  if new_ndim <? 0 then UB else Ok (repeat (DF 1 0) (Z.to_nat new_ndim)).

(* type.cpp:309-319 (with_new_axis) and array.cpp:625-651. An i which is not
   the position of a dimension makes get_type_at_dimension throw. *)
Definition new_axis (a : arr) (i new_ndim : Z) : outcome arr :=
  if (i <? 0) || (Z.of_nat (List.length (a_dims a)) <? i) then Throw "too many indices"
  else
    do mid <- pow_dims new_ndim;
    Ok (Arr (a_data a) (firstn (Z.to_nat i) (a_dims a) ++ mid ++ skipn (Z.to_nat i) (a_dims a)) (a_dtype a)).

(* ---- reshape --------------------------------------------------------- *)

(* array.cpp:856-863: the product of the extents, in intptr_t arithmetic *)
Definition total (shape : list Z) : outcome Z :=
  fold_left (fun acc n => do x <- acc; mul64 x n) shape (Ok 1).

(* array.cpp:873-877: the strides, the last dimension first *)
Fixpoint reshape_strides (shape : list Z) (elsize : Z) : outcome (list Z) :=
  match shape with
  | [] => UB                        (* strides[-1] is written *)
  | [_] => Ok [elsize]
  | _ :: ((n :: _) as rest) =>
      do ss <- reshape_strides rest elsize;
      do s <- mul64 n (hd 0 ss);
      Ok (s :: ss)
  end.

(* array.cpp:38-66 (make_strided_array_from_data with a NULL
   out_uniform_arrmeta). A negative extent makes a var dimension
   (type.cpp:508-524) whose arrmeta is then filled with a size where it keeps a
   pointer to a memory block. *)
Definition make_strided (dt : dtp) (shape strides : list Z) (data : Z) : outcome arr :=
  if t_meta dt then Throw "Cannot make a strided array"
  else if existsb (fun n => n <? 0) shape then UB
  else Ok (Arr data (map (fun p => DF (fst p) (if 1 <? fst p then snd p else 0)) (combine shape strides)) dt).

(* array.cpp:850-887, for an array with fixed dimensions only (get_shape of a
   var dimension looks at the data) *)
Definition reshape (a : arr) (shape : list Z) : outcome arr :=
  do old_size <- total (shape_of (a_dims a));
  do size <- total shape;
  if old_size =? size then
    do strides <- reshape_strides shape (t_size (a_dtype a));
    make_strided (a_dtype a) shape strides (a_data a)
  else Throw "cannot reshape to a different total number of elements".

(* ---- view ------------------------------------------------------------ *)

(* A type to view as: the sizes of its fixed dimensions (None: var) and its
   dtype. Symbolic types are not modelled. *)
Record vtype := VType { v_dims : list (option Z); v_dtype : dtp }.

(* tp == view_tp on the modelled types: equal sizes and the same dtype *)
Definition dtp_eqb (a b : dtp) : bool :=
  (t_id a =? t_id b) && Bool.eqb (t_builtin a) (t_builtin b) && Bool.eqb (t_pod a) (t_pod b)
  && (t_size a =? t_size b) && (t_align a =? t_align b) && Bool.eqb (t_meta a) (t_meta b).
Definition dsize_of (d : dim) : option Z := match d with DF n _ => Some n | DV => None end.
Fixpoint odims_eqb (a b : list (option Z)) : bool :=
  match a, b with
  | [], [] => true
  | Some x :: a', Some y :: b' => (x =? y) && odims_eqb a' b'
  | None :: a', None :: b' => odims_eqb a' b'
  | _, _ => false
  end.
Definition same_type (ds : list dim) (dt : dtp) (v : vtype) : bool :=
  odims_eqb (map dsize_of ds) (v_dims v) && dtp_eqb dt (v_dtype v).

(* view.cpp:33-77. The result is the arrmeta of the view. A var dimension is
   not POD (base_dim_type flags), so below it only equal types match. *)
Fixpoint try_view (ds : list dim) (dt : dtp) (vds : list (option Z)) (vdt : dtp) : option (list dim) :=
  match ds with
  | DF n s :: rest =>
      match vds with
      | Some m :: vrest =>
          if n =? m then
            match try_view rest dt vrest vdt with
            | Some r => Some (DF n s :: r)
            | None => None
            end
          else None
      | _ => None
      end
  | DV :: _ => if same_type ds dt (VType vds vdt) then Some ds else None
  | [] =>
      match vds with
      | [] =>
          if dtp_eqb dt vdt then Some []
          else if t_pod dt && t_pod vdt && (t_size dt =? t_size vdt) && (t_align vdt <=? t_align dt)
               then Some [] else None
      | _ => None
      end
  end.

(* the id of bytes: include/dynd/types/type_id.hpp:64 *)
Definition bytes_id : Z := 30.

(* What a var dimension stores: var_dim_type::data_type and metadata_type.
   The array's outermost var dimension has its data at a_data. *)
Record vardata := VarData { vd_begin : Z; vd_size : Z; vd_offset : Z; vd_stride : Z }.

(* view.cpp:354-396 (view_concrete) and 398-429 (old_view). lead is what the
   outermost var dimension holds (unused if there is none). view_as_bytes
   throws (view.cpp:229-230), a view of raw bytes is the null array: Ok None. *)
Definition view_array (a : arr) (lead : vardata) (v : vtype) : outcome (option arr) :=
  if same_type (a_dims a) (a_dtype a) v then Ok (Some a)
  else if (match v_dims v with [] => true | _ => false end) && (t_id (v_dtype v) =? bytes_id)
  then Throw "not implemented"
  else if (match a_dims a with [] => true | _ => false end) && (t_id (a_dtype a) =? bytes_id)
  then Ok None
  else if negb (List.length (a_dims a) =? List.length (v_dims v))%nat then Throw "Unable to view"
  else match a_dims a, v_dims v with
       | DV :: rest, Some n :: vrest =>
           if vd_size lead =? n then
             match try_view rest (a_dtype a) vrest (v_dtype v) with
             | Some r => Ok (Some (Arr (vd_begin lead + vd_offset lead) (DF n (vd_stride lead) :: r) (v_dtype v)))
             | None => Throw "Unable to view"
             end
           else Throw "Unable to view"
       | _, _ =>
           match try_view (a_dims a) (a_dtype a) (v_dims v) (v_dtype v) with
           | Some r => Ok (Some (Arr (a_data a) r (v_dtype v)))
           | None => Throw "Unable to view"
           end
       end.
