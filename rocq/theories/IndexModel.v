(** Model of indexing an array: nd::array::at_array and the two apply_linear_index
    functions of the concrete types, on top of the layout model.

    Simplifications.  The block that owns the data of the result is not followed.  Address
    arithmetic is that of unbounded integers.  Tuple stands for struct too (the same
    code, struct_type.cpp:193-280). *)
From Verif Require Import Base LinearIndexModel LayoutModel.

(** irange.hpp:68-72 *)
Definition is_nop (r : irange) : bool := (r_start r =? INT64_MIN) && (r_finish r =? INT64_MAX) && (r_step r =? 1).

Definition too_many {A} : outcome A := Throw "too_many_indices".
Fixpoint seq_out {A} (l : list (outcome A)) : outcome (list A) :=
  match l with [] => Ok [] | x :: l => do a <- x; do b <- seq_out l; Ok (a :: b) end.
(** The type of the result: type.cpp:217-228, base_type.cpp:56-65 (Builtin, Leaf, Option),
    fixed_dim_type.cpp:73-89, tuple_type.cpp:102-130, var_dim_type.cpp:58-112 (its special
    cases for one index are instances of the general ones), pointer_type.cpp:59-71. *)
Fixpoint index_type (idx : list irange) : lt -> bool -> outcome lt :=
  match idx with
  | [] => fun t _ => Ok t
  | r :: idx' =>
      fix go (t : lt) (lead : bool) : outcome lt :=
        match t with
        | Builtin _ _ | Leaf _ _ _ | Option _ => too_many
        | FixedDim n e =>
            do s <- apply_single_linear_index r n;
            if o_remove s then index_type idx' e lead
            else do e' <- index_type idx' e false; Ok (FixedDim (o_size s) e')
        | Tuple l =>
            do s <- apply_single_linear_index r (Z.of_nat (List.length l));
            if o_remove s then index_type idx' (nth (Z.to_nat (o_start s)) l (Builtin 0 1)) lead
            else do l' <- seq_out (map (fun i => index_type idx' (nth (Z.to_nat (o_start s + Z.of_nat i * o_stride s)) l (Builtin 0 1)) false) (seq 0 (Z.to_nat (o_size s)))); Ok (Tuple l')
        | VarDim e =>
            if r_step r =? 0 then
              if lead then index_type idx' e true else do e' <- index_type idx' e false; Ok (Pointer e')
            else if is_nop r then do e' <- index_type idx' e false; Ok (VarDim e')
            else Throw "runtime_error"
        | Pointer e => do e' <- go e lead; Ok (Pointer e')
        end
  end.

(** No more indices: the arrmeta is copied, but a pointer copies its own words and goes on
    to its target (base_type.cpp:67-83, pointer_type.cpp:73-92). *)
Fixpoint index0 (t : lt) (a out emb : Z) (m : mem) : mem :=
  match t with
  | Pointer e =>
      let m := st (st m out (m a)) (out + 8) (m (a + 8)) in
      if is_builtin e then m else index0 e (a + 16) (out + 16) emb m
  | _ => fst (copy_construct t out a emb m)
  end.
(** The arrmeta of the result at [out], the offset to add to its data and, when
    [lead] holds the data pointer of a leading dimension, its new value.  [m] is the
    memory of arrmeta, [dm] that of data.  The result type is cast without a check:
    undefined when it is of another kind.
    fixed_dim_type.cpp:91-142, tuple_type.cpp:132-185 (which goes on with the type of the
    result's field), var_dim_type.cpp:114-200, pointer_type.cpp:73-92. *)
Definition iout := (mem * Z * option Z)%type.
Fixpoint index_meta (dm : mem) (idx : list irange) : lt -> Z -> lt -> Z -> Z -> option Z -> mem -> outcome iout :=
  match idx with
  | [] => fun t a _ out emb lead m => Ok (index0 t a out emb m, 0, lead)
  | r :: idx' =>
      fix go (t : lt) (a : Z) (rt : lt) (out emb : Z) (lead : option Z) (m : mem) : outcome iout :=
        match t with
        | Builtin _ _ => UB
        | Leaf _ _ _ | Option _ => too_many
        | FixedDim n e =>
            do s <- apply_single_linear_index r n;
            let off := m (a + 8) * o_start s in
            if o_remove s then
              if is_builtin e then Ok (m, off, lead)
              else match lead with
                   | Some data => index_meta dm idx' e (a + 16) rt out emb (Some (data + off)) m
                   | None => do x <- index_meta dm idx' e (a + 16) rt out emb None m; Ok (fst (fst x), off + snd (fst x), None)
                   end
            else
              let m := st (st m (out + 8) (m (a + 8) * o_stride s)) out (o_size s) in
              if is_builtin e then Ok (m, off, lead)
              else match rt with
                   | FixedDim _ re => do x <- index_meta dm idx' e (a + 16) re (out + 16) emb None m; Ok (fst (fst x), off + snd (fst x), lead)
                   | _ => UB
                   end
        | Tuple l =>
            do s <- apply_single_linear_index r (Z.of_nat (List.length l));
            if o_remove s then
              let k := Z.to_nat (o_start s) in
              let f := nth k l (Builtin 0 1) in
              let off := m (a + 8 * o_start s) in
              if is_builtin f then Ok (m, off, lead)
              else match lead with
                   | Some data => index_meta dm idx' f (a + nth k (arrmeta_offsets l) 0) rt out emb (Some (data + off)) m
                   | None => do x <- index_meta dm idx' f (a + nth k (arrmeta_offsets l) 0) rt out emb None m; Ok (fst (fst x), off + snd (fst x), None)
                   end
            else
              match rt with
              | Tuple rl =>
                  do m <- fold_left (fun (om : outcome mem) (i : nat) =>
                    do m <- om;
                    let k := o_start s + Z.of_nat i * o_stride s in
                    let m := st m (out + 8 * Z.of_nat i) (m (a + 8 * k)) in
                    let ft := nth i rl (Builtin 0 1) in
                    if is_builtin ft then Ok m
                    else do x <- index_meta dm idx' ft (a + nth (Z.to_nat k) (arrmeta_offsets l) 0) ft (out + nth i (arrmeta_offsets rl) 0) emb None m;
                         Ok (st (fst (fst x)) (out + 8 * Z.of_nat i) (fst (fst x) (out + 8 * Z.of_nat i) + snd (fst x)))) (seq 0 (Z.to_nat (o_size s))) (Ok m);
                  Ok (m, 0, lead)
              | _ => UB
              end
        | VarDim e =>
            let keep (m : mem) :=
              let m := st (st (st m out (if m a =? 0 then emb else m a)) (out + 8) (m (a + 8))) (out + 16) (m (a + 16)) in
              if is_builtin e then Ok (m, 0, lead)
              else match rt with
                   | VarDim re => do x <- index_meta dm idx' e (a + 24) re (out + 24) emb None m;
                                  Ok (st (fst (fst x)) (out + 16) (fst (fst x) (out + 16) + snd (fst x)), 0, lead)
                   | _ => UB
                   end in
            match lead with
            | Some data =>
                do s <- apply_single_linear_index r (dm (data + 8));
                if o_remove s then
                  let data := dm data + m (a + 16) + o_start s * m (a + 8) in
                  if is_builtin e then Ok (m, 0, Some data) else index_meta dm idx' e (a + 24) rt out emb (Some data) m
                else if is_nop r then keep m else Throw "runtime_error"
            | None =>
                if r_step r =? 0 then
                  let m := st (st m out (if m a =? 0 then emb else m a)) (out + 8) (r_start r * m (a + 8)) in
                  if is_builtin e then Ok (m, 0, None)
                  else match rt with
                       | Pointer re => do x <- index_meta dm idx' e (a + 24) re (out + 16) emb None m;
                                       Ok (st (fst (fst x)) (out + 8) (fst (fst x) (out + 8) + snd (fst x)), 0, None)
                       | _ => UB
                       end
                else if is_nop r then keep m else Throw "runtime_error"
            end
        | Pointer e =>
            let m := st (st m out (m a)) (out + 8) (m (a + 8)) in
            if is_builtin e then Ok (m, 0, lead)
            else match rt with
                 | Pointer re => do x <- go e (a + 16) re (out + 16) emb None m;
                                 Ok (st (fst (fst x)) (out + 8) (fst (fst x) (out + 8) + snd (fst x)), 0, lead)
                 | _ => UB
                 end
        end
  end.

(** nd::array::at_array, array.cpp:127-150: the type, the arrmeta (at [out]) and the data
    pointer of the result.  Its arrmeta is then copied to a second array, whose layout
    is the subject of C58. *)
Definition at_array (dm : mem) (idx : list irange) (t : lt) (a data out emb : Z) (lead : bool) (m : mem) : outcome (lt * mem * Z) :=
  do rt <- index_type idx t lead;
  do x <- index_meta dm idx t a rt out emb (if lead then Some data else None) m;
  Ok (rt, fst (fst x), match snd x with Some d => d | None => data end + snd (fst x)).
