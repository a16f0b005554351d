(* Array iteration, exact comparison and shape broadcasting.
   Models include/dynd/array_iter.hpp, the iterdata of
   src/dynd/types/fixed_dim_type.cpp:318-368 and src/dynd/type.cpp:41-62, and
   nd::array::equals_exact, broadcast_input_shapes, broadcast_to_shape and
   incremental_broadcast of src/dynd/array.cpp.
   Addresses are unbounded integers: whether an address may be read is a
   matter of the theorems, not of the model.  Exception messages are short
   tags. *)
From Verif Require Import Base ShapeToolsModel.
Local Open Scope Z_scope.

(* A dimension of an array type together with its arrmeta: a fixed dimension
   has a size and a stride (fixed_dim_type_arrmeta, types/fixed_dim_type.hpp),
   a var dimension has neither in its type. *)
Inductive dim := DF (n s : Z) | DV.

(* An operand of an iteration: get_type() split into dimensions (outermost
   first) and dtype, whether the dtype is builtin, and cdata(). *)
Record oper := Oper { op_dims : list dim; op_builtin : bool; op_dtype : nat; op_base : Z }.

(* fixed_dim_type.cpp:174-192, var_dim_type.cpp:237-263: get_shape with a NULL
   data pointer, as array_iter calls it *)
Definition dsize (d : dim) : Z := match d with DF n _ => n | DV => -1 end.
Definition shape_of (ds : list dim) : list Z := map dsize ds.

(* One entry of the iterdata memory: fixed_dim_type_iterdata
   (types/fixed_dim_type.hpp) or iterdata_broadcasting_terminator
   (types/base_type.hpp). The data pointer is None until reset has stored it. *)
Inductive idata := IFixed (data : option Z) (stride : Z) | ITerm (data : option Z).

(* fixed_dim_type.cpp:318-328 (iterdata_incr) and type.cpp:41-46 (the
   broadcasting terminator).  The innermost entry is first in memory. *)
Fixpoint incr (level : nat) (ids : list idata) {struct ids} : outcome (Z * list idata) :=
  match ids with
  | [] => UB
  | ITerm None :: _ => UB
  | ITerm (Some d) :: _ => Ok (d, ids)
  | IFixed od s :: rest =>
      match level with
      | O => match od with
             | Some d => Ok (d + s, IFixed (Some (d + s)) s :: rest)
             | None => UB
             end
      | Datatypes.S l =>
          do p <- incr l rest;
          let '(d, rest') := p in
          Ok (d, IFixed (Some d) s :: rest')
      end
  end.

(* fixed_dim_type.cpp:330-339 (iterdata_reset), type.cpp:57-61 *)
Fixpoint reset (data : Z) (ndim : Z) (ids : list idata) : outcome (Z * list idata) :=
  match ids with
  | [] => UB
  | ITerm _ :: rest => Ok (data, ITerm (Some data) :: rest)
  | IFixed _ s :: rest =>
      if ndim =? 1 then Ok (data, IFixed (Some data) s :: rest)
      else do p <- reset data (ndim - 1) rest;
           let '(d, rest') := p in
           Ok (d, IFixed (Some d) s :: rest')
  end.

(* fixed_dim_type.cpp:341-361 (iterdata_construct); var_dim_type.cpp:422-431
   throws, and so does base_type.cpp:170-182 for any other type.  The calls of
   get_iterdata_size before it throw in the same cases. *)
Fixpoint construct (ndim : nat) (ds : list dim) {struct ds} : outcome (list idata) :=
  match ds with
  | DF _ s :: rest =>
      match ndim with
      | Datatypes.S (Datatypes.S k) =>
          do inner <- construct (Datatypes.S k) rest;
          Ok (inner ++ [IFixed None s])
      | _ => Ok [IFixed None s]
      end
  | DV :: _ => Throw "TODO: implement var_dim_type::iterdata_construct"
  | [] => Throw "not uniformly iterable"
  end.

(* the type iterdata_construct stores in out_uniform_tp (fixed_dim_type.cpp:352):
   the element type below the last iterated dimension *)
Definition utype := (list dim * nat)%type.

(* type.hpp:626-643 (broadcasted_iterdata_construct): a builtin type gets only
   the terminator, and its out_uniform_tp is not stored (None) *)
Definition bconstruct (o : oper) : outcome (list idata * option utype) :=
  match op_dims o with
  | [] => if op_builtin o then Ok ([ITerm None], None)
          else Throw "not uniformly iterable"
  | ds => do ids <- construct (List.length ds) ds;
          Ok (ids ++ [ITerm None], Some ([], op_dtype o))
  end.

(* An operand inside an iterator: its iterdata, its data() and its
   get_uniform_dtype(). *)
Record cursor := Cursor { c_ids : list idata; c_data : Z; c_utp : option utype }.

(* array_iter: m_itersize, m_iterindex and m_itershape (here both with the
   innermost dimension first) and the operands *)
Record iter := Iter { it_size : Z; it_idx : list Z; it_shape : list Z; it_ops : list cursor }.

(* array_iter.hpp:54-56: the product of the extents, in intptr_t arithmetic *)
Definition itersize (shape : list Z) : outcome Z :=
  fold_left (fun acc n => do a <- acc; mul64 a n) shape (Ok 1).

(* array_iter.hpp:82-97 (the loop of next()): which level to increment, and
   the new index; None when every dimension wrapped around *)
Fixpoint carry (idx shape : list Z) : option nat * list Z :=
  match idx, shape with
  | i :: idx', n :: shape' =>
      if i + 1 =? n
      then let '(r, idx'') := carry idx' shape' in
           (option_map Datatypes.S r, 0 :: idx'')
      else (Some O, (i + 1) :: idx')
  | _, _ => (None, idx)
  end.

Fixpoint incr_all (level : nat) (ops : list cursor) : outcome (list cursor) :=
  match ops with
  | [] => Ok []
  | c :: rest =>
      do p <- incr level (c_ids c);
      let '(d, ids) := p in
      do rest' <- incr_all level rest;
      Ok (Cursor ids d (c_utp c) :: rest')
  end.

(* array_iter.hpp:79-99, 151-171, 282-303, 399-420 *)
Definition next (it : iter) : outcome (bool * iter) :=
  let '(r, idx) := carry (it_idx it) (it_shape it) in
  match r with
  | None => Ok (false, Iter (it_size it) idx (it_shape it) (it_ops it))
  | Some l =>
      do ops <- incr_all l (it_ops it);
      Ok (true, Iter (it_size it) idx (it_shape it) ops)
  end.

(* array_iter.hpp:77 *)
Definition empty (it : iter) : bool := it_size it =? 0.

Definition zeros (n : nat) : list Z := repeat 0 n.

(* array_iter.hpp:36-66 and 113-143 (the forms with one operand). nd is the
   argument ndim of the read-only form, 0 for all the dimensions. *)
Definition init1 (o : oper) (nd : nat) : outcome iter :=
  let k := if (nd =? 0)%nat then List.length (op_dims o) else nd in
  match k with
  | O => Ok (Iter 1 [] [] [Cursor [] (op_base o) (Some ([], op_dtype o))])
  | _ =>
      do ids <- construct k (op_dims o);
      do p <- reset (op_base o) (Z.of_nat k) ids;
      let '(d, ids') := p in
      let shape := firstn k (shape_of (op_dims o)) in
      do n <- itersize shape;
      Ok (Iter n (zeros k) (rev shape)
            [Cursor ids' d (Some (skipn k (op_dims o), op_dtype o))])
  end.

(* construct and reset the broadcast iterdata of one operand
   (array_iter.hpp:238-248, 370-381) *)
Definition bcursor (ndim : nat) (o : oper) : outcome cursor :=
  do p <- bconstruct o;
  let '(ids, u) := p in
  do q <- reset (op_base o) (Z.of_nat ndim) ids;
  let '(d, ids') := q in
  Ok (Cursor ids' d u).

(* array_iter.hpp:205-265 (one written operand, one read operand) *)
Definition init11 (dst src : oper) : outcome iter :=
  let shape := shape_of (op_dims dst) in
  let k := List.length (op_dims dst) in
  if negb (shape_can_broadcast shape (shape_of (op_dims src)))
  then Throw "broadcast_error"
  else match k with
  | O => Ok (Iter 1 [] [] [Cursor [] (op_base dst) (Some ([], op_dtype dst));
                           Cursor [] (op_base src) (Some ([], op_dtype src))])
  | _ =>
      do ids <- construct k (op_dims dst);
      do p <- reset (op_base dst) (Z.of_nat k) ids;
      let '(d, ids') := p in
      do c <- bcursor k src;
      do n <- itersize shape;
      Ok (Iter n (zeros k) (rev shape) [Cursor ids' d (Some ([], op_dtype dst)); c])
  end.

(* array.cpp:1013-1036: one step of the loop over the dimensions of an
   operand: shape[k] and the operand's size there give the new shape[k] *)
Definition bc_step (ishape size : Z) : outcome Z :=
  if ishape =? 1 then Ok size
  else if size <? 0 then
    (if 0 <? ishape then Ok (- ishape) else Ok (-1))
  else if 0 <=? ishape then
    (if negb (size =? 1) && negb (ishape =? size) then Throw "broadcast_error"
     else Ok ishape)
  else
    (if (ishape =? -1) && (0 <? size) then Ok (- size)
     else if (1 <? size) && negb (ishape =? - size) then Throw "broadcast_error"
     else Ok ishape).

Fixpoint bc_dims (shape sizes : list Z) : outcome (list Z) :=
  match shape, sizes with
  | n :: shape', m :: sizes' =>
      do k <- bc_step n m;
      do r <- bc_dims shape' sizes';
      Ok (k :: r)
  | _, _ => Ok shape
  end.

(* the dimensions before dimdelta are left alone *)
Definition bc_operand (shape sizes : list Z) : outcome (list Z) :=
  let d := (List.length shape - List.length sizes)%nat in
  do r <- bc_dims (skipn d shape) sizes;
  Ok (firstn d shape ++ r).

Fixpoint bc_operands (shape : list Z) (shapes : list (list Z)) : outcome (list Z) :=
  match shapes with
  | [] => Ok shape
  | s :: rest => do shape' <- bc_operand shape s; bc_operands shape' rest
  end.

(* array.cpp:985-1045 (the shape; the axis permutation, always the reversal,
   is not used by its only caller) *)
Definition broadcast_input_shapes (shapes : list (list Z)) : outcome (list Z) :=
  let undim := fold_left (fun u s => Nat.max u (List.length s)) shapes O in
  bc_operands (repeat 1 undim) shapes.

(* array_iter.hpp:356-391 (two read operands).  The shapes given to
   broadcast_input_shapes are those of nd::array::get_shape, which looks into
   the data: for arrays of fixed dimensions they are the sizes; the iterdata
   of any var dimension throws, so the sizes found in the data do not matter
   beyond that. *)
Definition init02 (a b : oper) : outcome iter :=
  do shape <- broadcast_input_shapes [shape_of (op_dims a); shape_of (op_dims b)];
  let k := List.length shape in
  match k with
  | O => Ok (Iter 1 [] [] [Cursor [] (op_base a) (Some ([], op_dtype a));
                           Cursor [] (op_base b) (Some ([], op_dtype b))])
  | _ =>
      do ca <- bcursor k a;
      do cb <- bcursor k b;
      do n <- itersize shape;
      Ok (Iter n (zeros k) (rev shape) [ca; cb])
  end.

(* The loop every user of an iterator writes (array.cpp:321-336):
     if (!iter.empty()) do { ... } while (iter.next());
   It gives the index() and the data() pointers at each turn. *)
Fixpoint turns (fuel : nat) (it : iter) : outcome (list (list Z * list Z)) :=
  match fuel with
  | O => NoFuel
  | Datatypes.S f =>
      do p <- next it;
      let '(more, it') := p in
      let here := (rev (it_idx it), map c_data (it_ops it)) in
      if more then do rest <- turns f it'; Ok (here :: rest)
      else Ok [here]
  end.
Definition visits (fuel : nat) (it : iter) : outcome (list (list Z * list Z)) :=
  if empty it then Ok [] else turns fuel it.

(* array.cpp:1047-1080 *)
Fixpoint bts_dims (dst src strides : list Z) : outcome (list Z) :=
  match dst, src, strides with
  | d :: dst', n :: src', s :: strides' =>
      if n =? 1 then do r <- bts_dims dst' src' strides'; Ok (0 :: r)
      else if n =? d then do r <- bts_dims dst' src' strides'; Ok (s :: r)
      else Throw "broadcast_error"
  | _, _, _ => Ok []
  end.
Definition broadcast_to_shape (dst src strides : list Z) : outcome (list Z) :=
  if (List.length dst <? List.length src)%nat then Throw "broadcast_error"
  else let d := (List.length dst - List.length src)%nat in
       do r <- bts_dims (skipn d dst) src strides;
       Ok (zeros d ++ r).

(* array.cpp:1082-1102 *)
Fixpoint ib_dims (out shape : list Z) : outcome (list Z) :=
  match out, shape with
  | o :: out', n :: shape' =>
      do r <- (if negb (n =? 1) then
                 if n =? -1 then Ok (if o =? 1 then -1 else o)
                 else if (o =? 1) || (o =? -1) then Ok n
                 else if negb (n =? o) then Throw "broadcast_error" else Ok o
               else Ok o);
      do rest <- ib_dims out' shape';
      Ok (r :: rest)
  | _, _ => Ok out
  end.
Definition incremental_broadcast (out shape : list Z) : outcome (list Z) :=
  if (List.length out <? List.length shape)%nat then Throw "broadcast_error"
  else let d := (List.length out - List.length shape)%nat in
       do r <- ib_dims (skipn d out) shape;
       Ok (firstn d out ++ r).

(* ---- equals_exact ---- *)

(* An array for equals_exact: which memory block it is (get()), its operand
   view, the shape nd::array::get_shape finds by looking into the data, and,
   when the outermost dimension is var, the size, the stride and the address
   of its first element (var_dim data_type and metadata_type). *)
Record arr := Arr { a_block : nat; a_op : oper; a_shape : list Z;
                    a_vsize : Z; a_vstride : Z; a_vbegin : Z }.

(* type equality: dimensions by kind and size (fixed_dim_type.cpp:233-237,
   var_dim_type operator==), then the dtype; strides are not part of the type *)
Definition dim_eqb (x y : dim) : bool :=
  match x, y with
  | DF n _, DF m _ => n =? m
  | DV, DV => true
  | _, _ => false
  end.
Fixpoint dims_eqb (xs ys : list dim) : bool :=
  match xs, ys with
  | [], [] => true
  | x :: xs', y :: ys' => dim_eqb x y && dims_eqb xs' ys'
  | _, _ => false
  end.
Definition type_eqb (a b : oper) : bool :=
  dims_eqb (op_dims a) (op_dims b) && (op_dtype a =? op_dtype b)%nat.

Fixpoint list_eqb (xs ys : list Z) : bool :=
  match xs, ys with
  | [], [] => true
  | x :: xs', y :: ys' => (x =? y) && list_eqb xs' ys'
  | _, _ => false
  end.

(* view.cpp:354-396 (view_concrete) for a leading var dimension seen as a
   fixed dimension of size n over the same element type: a new array over the
   elements, or type_error *)
Definition view_fixed (n : Z) (fresh : nat) (a : arr) : outcome arr :=
  if a_vsize a =? n
  then Ok (Arr fresh
             (Oper (DF n (a_vstride a) :: tl (op_dims (a_op a)))
                   (op_builtin (a_op a)) (op_dtype (a_op a)) (a_vbegin a))
             (n :: shape_of (tl (op_dims (a_op a)))) 0 0 0)
  else Throw "type_error".

Section Equals.
  (* nd::not_equal on the elements at two addresses: the kernel call of
     array.cpp:327-331, and operator== of array.cpp:301 for scalars *)
  Variable ne : Z -> Z -> outcome bool.
  Variable eq : Z -> Z -> outcome bool.

  Fixpoint compare (vs : list (list Z * list Z)) : outcome bool :=
    match vs with
    | [] => Ok true
    | (_, ads) :: rest =>
        do b <- ne (nth 0 ads 0) (nth 1 ads 0);
        if b then Ok false else compare rest
    end.

  (* array.cpp:307-341 *)
  Definition equals_dims (fuel : nat) (a b : arr) : outcome bool :=
    match op_dims (a_op a) with
    | [DF 0 _] => Ok true
    | _ =>
      if negb (list_eqb (a_shape a) (a_shape b)) then Ok false
      else match init02 (a_op a) (a_op b) with
           | Ok it => do vs <- visits fuel it; compare vs
           | Throw m => if String.eqb m "broadcast_error" then Ok false else Throw m
           | UB => UB
           | NoFuel => NoFuel
           end
    end.

  (* array.cpp:295-342.  The two views of a var array are new arrays, so
     their memory blocks differ; their types are equal. *)
  Definition equals_exact (fuel : nat) (a b : arr) : outcome bool :=
    if (a_block a =? a_block b)%nat then Ok true
    else if negb (type_eqb (a_op a) (a_op b)) then Ok false
    else match op_dims (a_op a) with
    | [] => eq (op_base (a_op a)) (op_base (a_op b))
    | DV :: _ =>
        do va <- view_fixed (a_vsize a) (a_block a) a;
        do vb <- view_fixed (a_vsize a) (a_block b) b;
        equals_dims fuel va vb
    | _ => equals_dims fuel a b
    end.
End Equals.
