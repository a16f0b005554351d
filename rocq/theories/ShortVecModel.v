(* shortvector and multi_shortvector: vectors for shapes and strides that keep
   up to staticN elements in the object itself. *)
From Verif Require Import Base.
Local Open Scope Z_scope.

(* An element of memory: a value, or not written yet. *)
Definition cell := option Z.

(* shortvector.hpp:26-27: m_data is the address of the m_shortdata of some
   object (its own, or for a moment in swap another's) or of a block that new[]
   gave. m_shortdata has staticN elements; staticN is the parameter N below. *)
Inductive ptr := Short (o : nat) | Heap (a : nat).
Record obj := mkobj { data : ptr; short : list cell }.
(* The objects that exist, by name, and the blocks that new[] has given, in
   order; None is a block that was deleted. *)
Record st := mkst { objs : nat -> option obj; heap : list (option (list cell)) }.

Definition upd {A} (f : nat -> A) (i : nat) (v : A) : nat -> A :=
  fun j => if Nat.eqb j i then v else f j.
Fixpoint setn {A} (l : list A) (k : nat) (v : A) {struct l} : list A :=
  match l, k with
  | [], _ => []
  | _ :: l', O => v :: l'
  | x :: l', S k' => x :: setn l' k' v
  end.

Definition get_obj (s : st) (i : nat) : outcome obj :=
  match objs s i with Some o => Ok o | None => UB end.
Definition put_obj (s : st) (i : nat) (o : obj) : st := mkst (upd (objs s) i (Some o)) (heap s).
Definition set_data (s : st) (i : nat) (p : ptr) : outcome st :=
  do o <- get_obj s i; Ok (put_obj s i (mkobj p (short o))).
Definition set_short (s : st) (i : nat) (l : list cell) : outcome st :=
  do o <- get_obj s i; Ok (put_obj s i (mkobj (data o) l)).

(* the memory at an address; UB for a deleted block or an object that is gone *)
Definition block (s : st) (p : ptr) : outcome (list cell) :=
  match p with
  | Short o => do ob <- get_obj s o; Ok (short ob)
  | Heap a => match nth_error (heap s) a with Some (Some l) => Ok l | _ => UB end
  end.
Definition set_block (s : st) (p : ptr) (l : list cell) : outcome st :=
  match p with
  | Short o => set_short s o l
  | Heap a => Ok (mkst (objs s) (setn (heap s) a (Some l)))
  end.
(* memcpy of the first n elements to the block at dst; UB out of either block *)
Definition memcpy_list (s : st) (dst : ptr) (l : list cell) (n : nat) : outcome st :=
  do old <- block s dst;
  if ((n <=? List.length l) && (n <=? List.length old))%nat
  then set_block s dst (firstn n l ++ skipn n old)%list else UB.
Definition memcpy (s : st) (dst src : ptr) (n : nat) : outcome st :=
  do l <- block s src; memcpy_list s dst l n.

Definition ptr_is_short (p : ptr) (i : nat) : bool :=
  match p with Short o => Nat.eqb o i | Heap _ => false end.
(* delete[]: UB if the block was deleted before, or was not from new[] *)
Definition delete_ (s : st) (p : ptr) : outcome st :=
  match p with
  | Short _ => UB
  | Heap a => match nth_error (heap s) a with
              | Some (Some _) => Ok (mkst (objs s) (setn (heap s) a None))
              | _ => UB
              end
  end.
(* new T[n]: elements not written *)
Definition new_ (s : st) (n : nat) : st * ptr :=
  (mkst (objs s) (heap s ++ [Some (repeat None n)])%list, Heap (List.length (heap s))).

(* What a call does: it returns, it returns an element, or it throws bad_alloc. *)
Inductive event := Done | Val (v : Z) | Thrown.

(* The operations of a program on vectors. ok: whether the allocator has memory
   when it is asked. *)
Inductive op :=
| Ctor (i : nat)                                   (* shortvector() *)
| CtorSize (i n : nat) (ok : bool)                 (* shortvector(size) *)
| CtorCopy (i n j : nat) (ok : bool)               (* shortvector(size, rhs) *)
| CtorData (i n : nat) (l : list Z) (ok : bool)    (* shortvector(size, data) *)
| MoveCtor (i j : nat)
| MoveAssign (i j : nat)
| Init (i n : nat) (ok : bool)                     (* init(size) *)
| InitData (i n : nat) (l : list Z) (ok : bool)    (* init(size, data) *)
| InitFrom (i n j : nat) (ok : bool)               (* init(size, v.get()) *)
| Swap (i j : nat)
| Set_ (i k : nat) (v : Z)                         (* operator[] *)
| Get (i k : nat)
| Dtor (i : nat).

(* An object is made where none is. *)
Definition fresh (s : st) (i : nat) : outcome unit :=
  match objs s i with None => Ok tt | Some _ => UB end.

(* shortvector.hpp:56-73: the constructors with a size: short data not
   written, memory from new[] for more than staticN. On bad_alloc the object is
   not made. *)
Definition construct (N : nat) (s : st) (i n : nat) (ok : bool) : outcome (st * bool) :=
  do _ <- fresh s i;
  if (n <=? N)%nat then Ok (put_obj s i (mkobj (Short i) (repeat None N)), true)
  else if ok then let (s1, p) := new_ s n in Ok (put_obj s1 i (mkobj p (repeat None N)), true)
  else Ok (s, false).
(* the data is copied once the memory is there *)
Definition then_copy (r : st * bool) (f : st -> outcome st) : outcome (st * event) :=
  if snd r then (do s <- f (fst r); Ok (s, Done)) else Ok (fst r, Thrown).

(* shortvector.hpp:39-48: init. On bad_alloc m_data keeps the deleted pointer. *)
Definition init (N : nat) (s : st) (i n : nat) (ok : bool) : outcome (st * bool) :=
  do o <- get_obj s i;
  do s1 <- (if ptr_is_short (data o) i then Ok s else delete_ s (data o));
  if (n <=? N)%nat then (do s2 <- set_data s1 i (Short i); Ok (s2, true))
  else if ok then let (s2, p) := new_ s1 n in (do s3 <- set_data s2 i p; Ok (s3, true))
  else Ok (s1, false).

(* shortvector.hpp:77-85, 94-102: the part that move constructor and move assignment
   have in common *)
Definition move_from (N : nat) (s : st) (i j : nat) : outcome st :=
  do r <- get_obj s j;
  if ptr_is_short (data r) j then
    (do s1 <- memcpy s (Short i) (Short j) N; set_data s1 i (Short i))
  else
    (do s1 <- set_data s i (data r); set_data s1 j (Short j)).

(* shortvector.hpp:114-137: swap *)
Definition swap (N : nat) (s : st) (i j : nat) : outcome st :=
  do oi <- get_obj s i;
  do oj <- get_obj s j;
  do s1 <- set_data s i (data oj);
  do s2 <- set_data s1 j (data oi);
  do o1 <- get_obj s2 i;
  do o2 <- get_obj s2 j;
  if ptr_is_short (data o1) j then
    do s3 <- set_data s2 i (Short i);
    do o2' <- get_obj s3 j;
    if ptr_is_short (data o2') i then
      do s4 <- set_data s3 j (Short j);
      do tmp <- block s4 (Short i);
      do s5 <- memcpy s4 (Short i) (Short j) N;
      memcpy_list s5 (Short j) tmp N
    else memcpy s3 (Short i) (Short j) N
  else if ptr_is_short (data o2) i then
    do s3 <- set_data s2 j (Short j);
    memcpy s3 (Short j) (Short i) N
  else Ok s2.

(* shortvector.hpp:108-112: the destructor *)
Definition dtor (s : st) (i : nat) : outcome st :=
  do o <- get_obj s i;
  do s1 <- (if ptr_is_short (data o) i then Ok s else delete_ s (data o));
  Ok (mkst (upd (objs s1) i None) (heap s1)).

(* One operation. Reading an element that nothing has written is UB. *)
Definition step (N : nat) (s : st) (o : op) : outcome (st * event) :=
  match o with
  | Ctor i => (* shortvector.hpp:34-36 *)
      do _ <- fresh s i; Ok (put_obj s i (mkobj (Short i) (repeat None N)), Done)
  | CtorSize i n ok => do r <- construct N s i n ok; then_copy r (fun s1 => Ok s1)
  | CtorCopy i n j ok => (* 62-66 *)
      do r <- construct N s i n ok;
      then_copy r (fun s1 => do o <- get_obj s1 i; do p <- get_obj s1 j; memcpy s1 (data o) (data p) n)
  | CtorData i n l ok => (* 69-73 *)
      do r <- construct N s i n ok;
      then_copy r (fun s1 => do o <- get_obj s1 i; memcpy_list s1 (data o) (map Some l) n)
  | MoveCtor i j => (* 76-86: the short data of the new object is not written *)
      do _ <- fresh s i;
      do s1 <- move_from N (put_obj s i (mkobj (Short i) (repeat None N))) i j; Ok (s1, Done)
  | MoveAssign i j => (* 89-105 *)
      if Nat.eqb i j then (do _ <- get_obj s i; Ok (s, Done)) else
      do o <- get_obj s i;
      do s1 <- (if ptr_is_short (data o) i then Ok s else delete_ s (data o));
      do s2 <- move_from N s1 i j; Ok (s2, Done)
  | Init i n ok => do r <- init N s i n ok; then_copy r (fun s1 => Ok s1)
  | InitData i n l ok => (* 50-53 *)
      do r <- init N s i n ok;
      then_copy r (fun s1 => do o <- get_obj s1 i; memcpy_list s1 (data o) (map Some l) n)
  | InitFrom i n j ok => (* 50-53 with a pointer that get() of vector j gave before the call *)
      do p <- get_obj s j;
      do r <- init N s i n ok;
      then_copy r (fun s1 => do o <- get_obj s1 i; memcpy s1 (data o) (data p) n)
  | Swap i j => do s1 <- swap N s i j; Ok (s1, Done)
  | Set_ i k v => (* 153-155 *)
      do o <- get_obj s i;
      do b <- block s (data o);
      if (k <? List.length b)%nat then (do s1 <- set_block s (data o) (setn b k (Some v)); Ok (s1, Done)) else UB
  | Get i k => (* 149-151 *)
      do o <- get_obj s i;
      do b <- block s (data o);
      match nth_error b k with Some (Some v) => Ok (s, Val v) | _ => UB end
  | Dtor i => do s1 <- dtor s i; Ok (s1, Done)
  end.

Definition no_objects : st := mkst (fun _ => None) [].
Fixpoint run (N : nat) (ops : list op) (s : st) {struct ops} : outcome (st * list event) :=
  match ops with
  | [] => Ok (s, [])
  | o :: ops' =>
      do r <- step N s o;
      do r' <- run N ops' (fst r);
      Ok (fst r', snd r :: snd r')
  end.

(* ---------------------------------------------------------- multi_shortvector *)
(* shortvector.hpp:175-177. m_shortvectors[i] is static_base + i*n or the block's
   base + i*n. m_alloc is m_alloc_data, None for NULL. The sizes are ints; M and
   staticN are positive ints with staticN * M an int. *)
Definition is_s32 (z : Z) : bool := (-2147483648 <=? z) && (z <? 2147483648).
Definition chk32 (z : Z) : outcome Z := if is_s32 z then Ok z else UB.

Inductive where_ := Static | Alloc (a : nat).
Record mst := mkm {
  m_rows : list (where_ * Z);            (* m_shortvectors: block and offset *)
  m_static : list cell;                  (* m_static_data *)
  m_alloc : option nat;                  (* m_alloc_data *)
  m_heap : list (option (list cell))     (* blocks from new[] *)
}.

(* i*n for all i < M, in int arithmetic *)
Fixpoint offsets (M : nat) (n : Z) {struct M} : outcome (list Z) :=
  match M with
  | O => Ok []
  | S M' => do l <- offsets M' n; do x <- chk32 (Z.of_nat M' * n); Ok (l ++ [x])%list
  end.

(* shortvector.hpp:179-195: internal_init. A negative n is not more than staticN;
   the addresses before m_static_data are then UB (for M > 1) unless M = 1. A size
   that new[] cannot give throws (ok = false). *)
Definition internal_init (N M : nat) (s : mst) (n : Z) (ok : bool) : outcome (mst * bool) :=
  if n <=? Z.of_nat N then
    let n' := if n =? 0 then 1 else n in
    do os <- offsets M n';
    if forallb (fun x => (0 <=? x) && (x <=? Z.of_nat (N * M))) os
    then Ok (mkm (map (fun x => (Static, x)) os) (m_static s) (m_alloc s) (m_heap s), true)
    else UB
  else
    do len <- chk32 (n * Z.of_nat M);
    if ok then
      let a := List.length (m_heap s) in
      do os <- offsets M n;
      Ok (mkm (map (fun x => (Alloc a, x)) os) (m_static s) (Some a)
           (m_heap s ++ [Some (repeat None (Z.to_nat len))])%list, true)
    else Ok (s, false).

Definition m_delete (s : mst) : outcome mst :=
  match m_alloc s with
  | None => Ok s
  | Some a => match nth_error (m_heap s) a with
              | Some (Some _) => Ok (mkm (m_rows s) (m_static s) (m_alloc s) (setn (m_heap s) a None))
              | _ => UB
              end
  end.

Inductive mop := MInit (n : Z) (ok : bool) | MSet (i j : nat) (v : Z) | MGet (i j : nat).

Definition m_block (s : mst) (w : where_) : outcome (list cell) :=
  match w with
  | Static => Ok (m_static s)
  | Alloc a => match nth_error (m_heap s) a with Some (Some l) => Ok l | _ => UB end
  end.
Definition m_set_block (s : mst) (w : where_) (l : list cell) : mst :=
  match w with
  | Static => mkm (m_rows s) l (m_alloc s) (m_heap s)
  | Alloc a => mkm (m_rows s) (m_static s) (m_alloc s) (setn (m_heap s) a (Some l))
  end.
(* m_shortvectors[i][j] *)
Definition m_place (s : mst) (i j : nat) : outcome (where_ * nat * list cell) :=
  match nth_error (m_rows s) i with
  | Some (w, off) => do b <- m_block s w;
      let k := Z.to_nat off in
      if (k + j <? List.length b)%nat then Ok (w, (k + j)%nat, b) else UB
  | None => UB
  end.

(* shortvector.hpp:214-219 (init) and 237-243 (get(i, j)) *)
Definition mstep (N M : nat) (s : mst) (o : mop) : outcome (mst * event) :=
  match o with
  | MInit n ok =>
      do s1 <- m_delete s;
      do r <- internal_init N M s1 n ok;
      Ok (fst r, if snd r then Done else Thrown)
  | MSet i j v =>
      do p <- m_place s i j;
      let '(w, k, b) := p in Ok (m_set_block s w (setn b k (Some v)), Done)
  | MGet i j =>
      do p <- m_place s i j;
      let '(w, k, b) := p in
      match nth_error b k with Some (Some v) => Ok (s, Val v) | _ => UB end
  end.
(* shortvector.hpp:200-202: the default constructor; m_shortvectors not written *)
Definition m_empty (N M : nat) : mst := mkm [] (repeat None (N * M)) None [].
(* a whole life: operations, then ~multi_shortvector (209-212) *)
Fixpoint mrun (N M : nat) (ops : list mop) (s : mst) {struct ops} : outcome (mst * list event) :=
  match ops with
  | [] => do s1 <- m_delete s; Ok (s1, [])
  | o :: ops' =>
      do r <- mstep N M s o;
      do r' <- mrun N M ops' (fst r);
      Ok (fst r', snd r :: snd r')
  end.
