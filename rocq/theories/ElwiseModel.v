(** Element-wise application with broadcasting: elwise_entry_callable.hpp,
    elwise_dispatch_callable.hpp, base_elwise_callable.hpp, elwise_callable.hpp
    and elwise_kernel.hpp.

    Simplifications: the lifted function takes and returns scalars (child
    argument types of ndim 0), the argument types are fixed_dim and var_dim over
    scalars, and the state argument variant (state_traits) is left out.  Memory
    is that of StridedModel; arrmeta is a list of words. *)
From Verif Require Import Base StridedModel.
Open Scope Z_scope.

Inductive dim := DF (n : Z) | DV.
(** The dimensions of a type, outermost first, above its scalar. *)
Definition ty := list dim.
(** fixed_dim_type.cpp get_dim_size; var_dim_type.cpp:229-236 without data. *)
Definition dim_size (d : dim) : Z := match d with DF n => n | DV => -1 end.
Definition is_var (t : ty) : bool := match t with DV :: _ => true | _ => false end.
Definition is_fixed (t : ty) : bool := match t with DF _ :: _ => true | _ => false end.

(** The destination type: [None] is the variadic Dims... * R of the signature. *)
Definition variadic (dst : option ty) : bool := match dst with None => true | Some _ => false end.

(** elwise_entry_callable.hpp:38-58: how many dimensions are lifted. *)
Definition entry_ndim (ignore : bool) (dst : option ty) (args : list ty) : outcome nat :=
  let nd := fold_left (fun n t => if (n <? List.length t)%nat then List.length t else n) args 0%nat in
  match dst with
  | Some d => if ignore then Ok nd
              else if (nd <? List.length d)%nat then Ok (List.length d)
              else if (List.length d <? nd)%nat then Throw "broadcast_error" else Ok nd
  | None => Ok nd
  end.

(** elwise_dispatch_callable.hpp:43-87: which kernel handles the outermost
    dimension.  The remaining error (line 89) needs another kind of dimension. *)
Inductive nkind := FF | FV | VF.
Definition classify (ignore : bool) (dst : option ty) (args : list ty) : nkind :=
  let all_strided := forallb (fun t => negb (is_var t)) args in
  let var_broadcast := negb all_strided &&
    forallb (fun t => is_var t || match t with DF n :: _ => n =? 1 | _ => false end) args in
  let dvar := match dst with Some d => is_var d | None => false end in
  let dfix := match dst with Some d => is_fixed d | None => false end in
  if (variadic dst || (dfix || ignore)) && all_strided then FF
  else if (variadic dst || dvar) && (var_broadcast || all_strided) then VF
  else FV.

Record node := Node { n_kind : nkind; n_ignore : bool; n_bc : list bool; n_var : list bool }.

(** base_elwise_callable.hpp:56-71 for one argument, at [nd] remaining dimensions. *)
Definition arg_lead (nd : nat) (t : ty) : bool := (List.length t <? nd)%nat.
Definition arg_size (nd : nat) (t : ty) : Z :=
  if arg_lead nd t then 1 else match t with d :: _ => dim_size d | [] => 1 end.
Definition arg_bc (nd : nat) (t : ty) : bool := arg_lead nd t || (arg_size nd t =? 1).
Definition arg_elt (nd : nat) (t : ty) : ty := if arg_lead nd t then t else tl t.

(** base_elwise_callable.hpp:77-93 *)
Fixpoint first_size (nd : nat) (args : list ty) : Z :=
  match args with
  | [] => 1
  | t :: r => if negb (arg_bc nd t) && negb (arg_size nd t =? -1) then arg_size nd t else first_size nd r
  end.
Definition res_size (ignore : bool) (nd : nat) (dst : option ty) (args : list ty) : Z :=
  if ignore then 1
  else match dst with
       | None => first_size nd args
       | Some (d :: _) => dim_size d
       | Some [] => 1
       end.
Definition res_elt (ignore : bool) (dst : option ty) : option ty :=
  if ignore then dst else match dst with None => None | Some d => Some (tl d) end.
(** base_elwise_callable.hpp:95-104 *)
Definition size_clash (nd : nat) (r : Z) (t : ty) : bool :=
  negb (arg_bc nd t) && negb (arg_size nd t =? -1) && negb (r =? -1) && negb (r =? arg_size nd t) && negb (arg_size nd t =? 1).
(** elwise_callable.hpp:92-94, 142-148, 156-158: with_return_type *)
Definition ret_dim (k : nkind) (r : Z) : dim :=
  match k with FF => DF r | FV => if r =? 1 then DV else DF r | VF => DV end.

(** base_elwise_callable.hpp:44-121 through the dispatch of every level; the
    innermost call resolves the child, which returns its scalar type. *)
Fixpoint resolve (ignore : bool) (nd : nat) (dst : option ty) (args : list ty) : outcome (list node * ty) :=
  match nd with
  | O => Ok ([], [])
  | S nd' =>
      let k := classify ignore dst args in
      let r := res_size ignore nd dst args in
      if negb ignore && existsb (size_clash nd r) args then Throw "broadcast error 1"
      else
        do p <- resolve ignore nd' (res_elt ignore dst) (map (arg_elt nd) args);
        Ok (Node k ignore (map (arg_bc nd) args) (map is_var args) :: fst p,
            if ignore then snd p else ret_dim k r :: snd p)
  end.
Definition elwise_resolve (ignore : bool) (dst : option ty) (args : list ty) : outcome (list node * ty) :=
  do nd <- entry_ndim ignore dst args; resolve ignore nd dst args.

(** Kernels.  [KVF]'s first word is the destination memory block. *)
Inductive kern :=
| KLeaf
| KFF (size ds : Z) (ss : list Z) (c : kern)
| KFV (size ds : Z) (ss so : list Z) (isv : list bool) (c : kern)
| KVF (blk ds doff : Z) (ss so sz : list Z) (isv : list bool) (c : kern).

(** A pointer to arrmeta, [None] when it was never set.  size_stride_t is
    {dim_size, stride}, var_dim_type::metadata_type {blockref, stride, offset}. *)
Definition ameta := option (list Z).
Definition word (m : ameta) (k : nat) : outcome Z :=
  match m with Some l => match nth_error l k with Some w => Ok w | None => UB end | None => UB end.
Definition skip (m : ameta) (k : nat) : ameta := match m with Some l => Some (skipn k l) | None => None end.

(** elwise_callable.hpp:74-84 *)
Fixpoint inst_ff (bc : list bool) (sms : list ameta) : outcome (list Z * list ameta) :=
  match bc, sms with
  | true :: bc, sm :: r => do p <- inst_ff bc r; Ok (0 :: fst p, sm :: snd p)
  | false :: bc, sm :: r => do s <- word sm 1; do p <- inst_ff bc r; Ok (s :: fst p, skip sm 2 :: snd p)
  | _, _ => Ok ([], [])
  end.
(** elwise_callable.hpp:112-133; stride, offset, child arrmeta.  A fixed argument
    advances by the size of the var_dim arrmeta (line 130). *)
Fixpoint inst_fv (bc var : list bool) (sms : list ameta) : outcome (list Z * list Z * list ameta) :=
  match bc, var, sms with
  | b :: bc, v :: var, sm :: r =>
      do q <- (if (v : bool) then do s <- word sm 1; do o <- word sm 2; Ok (s, o, skip sm 3)
               else if (b : bool) then Ok (0, 0, sm)
               else do s <- word sm 1; Ok (s, 0, skip sm 3));
      do p <- inst_fv bc var r;
      Ok (fst (fst q) :: fst (fst p), snd (fst q) :: snd (fst p), snd q :: snd p)
  | _, _, _ => Ok ([], [], [])
  end.
(** elwise_callable.hpp:172-196; stride, offset, size, child arrmeta.  The size
    of a var argument is not set (it is not read either; 0 here); the child
    arrmeta of a fixed argument is not set. *)
Fixpoint inst_vf (bc var : list bool) (sms : list ameta) : outcome (list Z * list Z * list Z * list ameta) :=
  match bc, var, sms with
  | b :: bc, v :: var, sm :: r =>
      do q <- (if (v : bool) then do s <- word sm 1; do o <- word sm 2; Ok (s, o, 0, skip sm 3)
               else if (b : bool) then Ok (0, 0, 1, sm)
               else do s <- word sm 1; do n <- word sm 0; Ok (s, 0, n, None));
      do p <- inst_vf bc var r;
      match q, p with (s, o, n, c), (ls, lo, ln, lc) => Ok (s :: ls, o :: lo, n :: ln, c :: lc) end
  | _, _, _ => Ok ([], [], [], [])
  end.

(** elwise_callable.hpp:49-90, 103-140, 160-205 *)
Fixpoint instantiate (nodes : list node) (dm : ameta) (sms : list ameta) : outcome kern :=
  match nodes with
  | [] => Ok KLeaf
  | nd :: rest =>
      match n_kind nd with
      | FF =>
          do size <- (if n_ignore nd then word (hd None sms) 0 else word dm 0);
          do ds <- (if n_ignore nd then Ok 0 else word dm 1);
          do p <- inst_ff (n_bc nd) sms;
          do c <- instantiate rest (if n_ignore nd then dm else skip dm 2) (snd p);
          Ok (KFF size ds (fst p) c)
      | FV =>
          do size <- word dm 0;
          do ds <- word dm 1;
          do p <- inst_fv (n_bc nd) (n_var nd) sms;
          do c <- instantiate rest (skip dm 2) (snd p);
          Ok (KFV size ds (fst (fst p)) (snd (fst p)) (n_var nd) c)
      | VF =>
          do blk <- word dm 0; do ds <- word dm 1; do doff <- word dm 2;
          do p <- inst_vf (n_bc nd) (n_var nd) sms;
          match p with
          | (ls, lo, ln, lc) => do c <- instantiate rest (skip dm 3) lc; Ok (KVF blk ds doff ls lo ln (n_var nd) c)
          end
      end
  end.

Section Run.
  (** The lifted function, and the allocation function of memory blocks: memory
      block, count. *)
  Variable f : list Z -> outcome Z.
  Variable alloc : mem -> Z -> Z -> outcome (mem * Z).

  (** elwise_kernel.hpp:110-130: source pointer and stride of each argument for
      a dimension of [n] elements.  var_dim data is {begin, size}. *)
  Fixpoint fv_srcs (m : mem) (n : Z) (ss so : list Z) (isv : list bool) (srcs : list Z) : outcome (list Z * list Z) :=
    match ss, so, isv, srcs with
    | s :: ss, o :: so, v :: isv, p :: srcs =>
        do q <- (if (v : bool) then
                   do b <- ld m p; do sz <- ld m (p + 1);
                   if sz =? 1 then Ok (b + o, 0)
                   else if sz =? n then Ok (b + o, s)
                   else Throw "broadcast_error"
                 else Ok (p, s));
        do r <- fv_srcs m n ss so isv srcs;
        Ok (fst q :: fst r, snd q :: snd r)
    | _, _, _, _ => Ok ([], [])
    end.

  (** elwise_kernel.hpp:223-246: sources for an allocated var destination. *)
  Fixpoint vf_into (m : mem) (n : Z) (ss so sz : list Z) (isv : list bool) (srcs : list Z) : outcome (list Z * list Z) :=
    match ss, so, sz, isv, srcs with
    | s :: ss, o :: so, z :: sz, v :: isv, p :: srcs =>
        do q <- (if (v : bool) then
                   do b <- ld m p; do k <- ld m (p + 1);
                   if k =? 1 then Ok (b + o, 0)
                   else if k =? n then Ok (b + o, s)
                   else Throw "broadcast_error"
                 else if z =? 1 then Ok (p, 0)
                 else if z =? n then Ok (p, s)
                 else Throw "broadcast_error");
        do r <- vf_into m n ss so sz isv srcs;
        Ok (fst q :: fst r, snd q :: snd r)
    | _, _, _, _, _ => Ok ([], [])
    end.
  (** elwise_kernel.hpp:251-279: sources for a destination to be allocated; [n]
      is the dimension size so far, also returned. *)
  Fixpoint vf_fresh (m : mem) (n : Z) (ss so sz : list Z) (isv : list bool) (srcs : list Z) : outcome (Z * list Z * list Z) :=
    match ss, so, sz, isv, srcs with
    | s :: ss, o :: so, z :: sz, v :: isv, p :: srcs =>
        do q <- (if (v : bool) then
                   do b <- ld m p; do k <- ld m (p + 1);
                   if k =? 1 then Ok (n, b + o, 0)
                   else if n =? 1 then Ok (k, b + o, s)
                   else if k =? n then Ok (n, b + o, s)
                   else Throw "broadcast_error"
                 else if z =? 1 then Ok (n, p, 0)
                 else if z =? n then Ok (n, p, s)
                 else if n =? 1 then Ok (z, p, s)
                 else Throw "broadcast_error");
        match q with
        | (n, p', s') => do r <- vf_fresh m n ss so sz isv srcs;
                         match r with (n, ps, sts) => Ok (n, p' :: ps, s' :: sts) end
        end
    | _, _, _, _, _ => Ok (n, [], [])
    end.

  (** elwise_kernel.hpp:41-46, 105-131, 207-291, and 62-66, 160-167, 324-356 for
      N = 0; the strided function of every one of these kernels is the loop of
      base_strided_kernel (68-77, 133-143, 169-175, 293-303 repeat it).  A negative count would be a huge one. *)
  Fixpoint single (k : kern) : single_t :=
    match k with
    | KLeaf => leaf f
    | KFF size ds ss c => fun m dst srcs => base_strided (single c) m dst ds srcs ss (Z.to_nat size)
    | KFV size ds ss so isv c => fun m dst srcs =>
        do p <- fv_srcs m size ss so isv srcs;
        base_strided (single c) m dst ds (fst p) (snd p) (Z.to_nat size)
    | KVF blk ds doff ss so sz isv c => fun m dst srcs =>
        do b <- ld m dst;
        if negb (b =? 0) then
          do n <- ld m (dst + 1);
          do p <- vf_into m n ss so sz isv srcs;
          base_strided (single c) m (b + doff) (if n <=? 1 then 0 else ds) (fst p) (snd p) (Z.to_nat n)
        else if negb (doff =? 0) then Throw "Cannot assign to an uninitialized dynd var_dim which has a non-zero offset"
        else
          do p <- vf_fresh m 1 ss so sz isv srcs;
          match p with
          | (n, ps, sts) =>
              do q <- alloc m blk n;
              match q with
              | (m, b) =>
                  do m <- st m dst b;
                  do m <- st m (dst + 1) n;
                  base_strided (single c) m b (if n <=? 1 then 0 else ds) ps sts (Z.to_nat n)
              end
          end
    end.
End Run.

(** The whole call: resolve, instantiate, run (base_callable.cpp:52-64). *)
Definition elwise_call (f : list Z -> outcome Z) (alloc : mem -> Z -> Z -> outcome (mem * Z)) (ignore : bool)
    (dst : option ty) (args : list ty) (dm : list Z) (sms : list (list Z)) (m : mem) (dp : Z) (sps : list Z) : outcome mem :=
  do p <- elwise_resolve ignore dst args;
  do k <- instantiate (fst p) (Some dm) (map Some sms);
  single f alloc k m dp sps.
