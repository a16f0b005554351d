(** Searching, sorting and taking: nd::binary_search, nd::take, where, the
    iterators nd::sort hands to std::sort, and the order of strings.  The memory
    is that of StridedModel: one cell holds one element. *)
From Verif Require Import Base ParseIntModel StridedModel.
Open Scope Z_scope.

(** ** Strings
    types/string_type.hpp:45-59 (<, <=, >=, >) and
    kernels/total_order_kernel.hpp:35-41: std::lexicographical_compare on char,
    which is signed on x86.  A string is the list of its bytes. *)
Definition schar (b : Z) : Z := if b <? 128 then b else b - 256.
Fixpoint lex_compare (s t : list Z) : bool :=
  match s, t with
  | _, [] => false
  | [], _ :: _ => true
  | a :: s', b :: t' =>
      if schar a <? schar b then true else if schar b <? schar a then false else lex_compare s' t'
  end.
Definition str_lt (s t : list Z) : bool := lex_compare s t.
Definition str_le (s t : list Z) : bool := negb (lex_compare t s).
Definition str_ge (s t : list Z) : bool := negb (lex_compare s t).
Definition str_gt (s t : list Z) : bool := lex_compare t s.
(** types/sso_bytestring.hpp:209-212. *)
Fixpoint memcmp_eq (s t : list Z) : bool :=
  match s, t with
  | a :: s', b :: t' => (a =? b) && memcmp_eq s' t'
  | _, _ => true
  end.
Definition str_eq (s t : list Z) : bool := (List.length s =? List.length t)%nat && memcmp_eq s t.

(** ** kernels/binary_search_kernel.hpp:20-53
    [lt] is the child, total_order of two elements; the element searched for is
    at [val]. *)
Fixpoint bsearch_loop (lt : Z -> Z -> bool) (m : mem) (src0 stride val : Z) (fuel : nat) (first last : Z) : outcome Z :=
  if first <? last then
    match fuel with
    | O => NoFuel
    | S fuel =>
        do d <- sub64 last first;
        do h <- div64 d 2;
        do trial <- add64 first h;
        let trial_data := src0 + trial * stride in
        do v <- ld m val;
        do x <- ld m trial_data;
        if lt v x then bsearch_loop lt m src0 stride val fuel first trial
        else if lt x v then do f <- add64 trial 1; bsearch_loop lt m src0 stride val fuel f last
        else Ok trial
    end
  else Ok (-1).
Definition binary_search (lt : Z -> Z -> bool) (m : mem) (src0 size stride val : Z) : outcome Z :=
  bsearch_loop lt m src0 stride val (Z.to_nat size) 0 size.
(** callables/binary_search_callable.hpp:37-40: the child compares two elements of
    the array's type, whatever the type of the second argument; its first bytes
    are taken for an element.  Here the array is int32, the argument int64,
    little endian; [xs] are the elements. *)
Definition array_mem (xs : list Z) (val : Z) : mem :=
  fun a => if a =? -1 then Some val else if 0 <=? a then nth_error xs (Z.to_nat a) else None.
Definition binary_search_int32 (xs : list Z) (v : Z) : outcome Z :=
  binary_search Z.ltb (array_mem xs (cast true 32 v)) 0 (Z.of_nat (List.length xs)) 1 (-1).

(** ** kernels/take_kernel.hpp:15-57, masked take
    The two inner loops (31-32, 35-36). *)
Fixpoint run_false (m : mem) (src0 ss mask ms : Z) (fuel : nat) (i n : Z) : outcome (Z * Z * Z) :=
  if i <? n then
    match fuel with
    | O => NoFuel
    | S fuel =>
        do b <- ld m mask;
        if b =? 0 then run_false m (src0 + ss) ss (mask + ms) ms fuel (i + 1) n else Ok (src0, mask, i)
    end
  else Ok (src0, mask, i).
Fixpoint run_true (m : mem) (mask ms : Z) (fuel : nat) (i n : Z) : outcome (Z * Z) :=
  if i <? n then
    match fuel with
    | O => NoFuel
    | S fuel =>
        do b <- ld m mask;
        if b =? 0 then Ok (mask, i) else run_true m (mask + ms) ms fuel (i + 1) n
    end
  else Ok (mask, i).
(** 29-45; [k] is the child, the strided element assignment. *)
Fixpoint masked_loop (k : strided_t) (m : mem) (dst ds src0 ss mask ms : Z) (fuel : nat) (i n count : Z) : outcome (mem * Z) :=
  if i <? n then
    match fuel with
    | O => NoFuel
    | S fuel =>
        do t <- run_false m src0 ss mask ms (Z.to_nat (n - i)) i n;
        let '(src0, mask, i) := t in
        let i_saved := i in
        do t <- run_true m mask ms (Z.to_nat (n - i)) i n;
        let '(mask, i) := t in
        if i_saved <? i then
          let run := i - i_saved in
          do m <- k m dst ds [src0] [ss] (Z.to_nat run);
          masked_loop k m (dst + run * ds) ds (src0 + run * ss) ss mask ms fuel i n (count + run)
        else masked_loop k m dst ds src0 ss mask ms fuel i n count
    end
  else Ok (m, count).
(** The kernel: 18-56.  [begin] is what alloc(dim_size) returns, [junk] what is in
    that memory; resize to a smaller size keeps the address
    (memblock/pod_memory_block.hpp, C29).  The result is the memory, and the size
    stored in the var element, whose begin is [begin]. *)
Definition masked_take (k : strided_t) (m : mem) (begin ds : Z) (junk : Z -> Z) (src0 ss mask ms n : Z) : outcome (mem * Z) :=
  do r <- masked_loop k (alloc_buf m begin ds (Z.to_nat n) junk) begin ds src0 ss mask ms (Z.to_nat n) 0 n 0;
  let '(m', count) := r in
  Ok ((fun a => if in_buf begin ds (Z.to_nat n) a && negb (in_buf begin ds (Z.to_nat count) a) then None else m' a), count).
(** callables/take_dispatch_callable.hpp:45-54. *)
Definition masked_take_call (k : strided_t) (m : mem) (begin ds : Z) (junk : Z -> Z) (src0 ss n mask ms nmask : Z) : outcome (mem * Z) :=
  if n =? nmask then masked_take k m begin ds junk src0 ss mask ms n else Throw "invalid_argument".

(** ** shape_tools.hpp:108-145, apply_single_index. *)
Definition apply_single_index (i0 n : Z) : outcome Z :=
  if 0 <=? i0 then (if i0 <? n then Ok i0 else Throw "index_out_of_bounds")
  else do nn <- neg64 n;
       if nn <=? i0 then add64 i0 n else Throw "index_out_of_bounds".
(** kernels/take_kernel.hpp:63-88, indexed take; [k] assigns one element. *)
Fixpoint indexed_loop (k : single_t) (m : mem) (dst ds src0 ss n index is_ : Z) (count : nat) : outcome mem :=
  match count with
  | O => Ok m
  | S c =>
      do ix <- ld m index;
      do ix <- apply_single_index ix n;
      do m <- k m dst [src0 + ix * ss];
      indexed_loop k m (dst + ds) ds src0 ss n (index + is_) is_ c
  end.

(** ** The call graph of nd::take with integer indices
    A call graph is a list of nodes; building a kernel runs the first node, which
    may ask for the next ones as its children (callables/call_graph.hpp).
    indexed_take_callable::resolve (callables/take_dispatch_callable.hpp:74-144)
    appends the element assignment before itself. *)
Inductive node := NAssign | NIndexedTake.
Definition take_resolve_order : list node := [NAssign; NIndexedTake].
(** The single function of the kernel built from a call graph. *)
Definition build (k : single_t) (ds ss n is_ : Z) (count : nat) (g : list node) : single_t :=
  match g with
  | NIndexedTake :: NAssign :: _ =>
      fun m dst srcs => match srcs with
                        | [src0; index] => indexed_loop k m dst ds src0 ss n index is_ count
                        | _ => UB
                        end
  | NAssign :: _ => fun m dst srcs => k m dst (firstn 1 srcs)
  | _ => fun _ _ _ => UB
  end.
Definition take_indices (k : single_t) (ds ss n is_ : Z) (count : nat) : single_t :=
  build k ds ss n is_ count take_resolve_order.

(** ** kernels/where_kernel.hpp:24-46, called for the indices 0, 1, ... of a
    dimension of [n] elements.  The var element is (contents, size), its block has
    room for the length of the contents; [capacity] is the kernel's member.  alloc
    gives a block of that many elements, resize one that starts with the old
    contents. *)
Definition grow (cells : list Z) (cap : nat) : list Z := firstn cap cells ++ repeat 0 (cap - List.length cells).
Fixpoint set_nth (cells : list Z) (i : nat) (v : Z) : outcome (list Z) :=
  match cells, i with
  | [], _ => UB
  | _ :: r, O => Ok (v :: r)
  | c :: r, S i => do r <- set_nth r i v; Ok (c :: r)
  end.
Definition where_single (child : Z -> outcome bool) (i : Z) (st : list Z * nat * nat) : outcome (list Z * nat * nat) :=
  let '(cells, size, capacity) := st in
  do b <- child i;
  if b then
    let '(cells, capacity) :=
      if (size =? 0)%nat then (repeat 0 1, 1%nat)
      else if (size =? capacity)%nat then (grow cells (size + 1), (size + 1)%nat)
      else (cells, capacity) in
    let size := (size + 1)%nat in
    do cells <- set_nth cells (size - 1) i;
    Ok (cells, size, capacity)
  else Ok (cells, size, capacity).
Fixpoint where_loop (child : Z -> outcome bool) (n : nat) (i : Z) (st : list Z * nat * nat) : outcome (list Z * nat * nat) :=
  match n with
  | O => Ok st
  | S n => do st <- where_single child i st; where_loop child n (i + 1) st
  end.

(** ** bytes.hpp:104-203, strided_iterator: an address, an element size and a stride. *)
Record siter := SI { si_data : Z; si_size : Z; si_stride : Z }.
Definition si_inc (a : siter) : siter := SI (si_data a + si_stride a) (si_size a) (si_stride a).
Definition si_dec (a : siter) : siter := SI (si_data a - si_stride a) (si_size a) (si_stride a).
Definition si_add (a : siter) (i : Z) : siter := SI (si_data a + i * si_stride a) (si_size a) (si_stride a).
Definition si_sub (a : siter) (i : Z) : siter := SI (si_data a - i * si_stride a) (si_size a) (si_stride a).
Definition si_lt (a b : siter) : bool := si_data a <? si_data b.
Definition si_le (a b : siter) : bool := si_data a <=? si_data b.
Definition si_eq (a b : siter) : bool := si_data a =? si_data b.
Definition si_diff (a b : siter) : outcome Z :=
  if si_stride a =? 0 then UB else Ok (Z.quot (si_data a - si_data b) (si_stride a)).
(** 186-192: assignment does not copy the stride. *)
Definition si_assign (a b : siter) : siter := SI (si_data b) (si_size b) (si_stride a).
(** kernels/sort_kernel.hpp:29-30: the range of an array of [n] elements. *)
Definition sort_begin (src0 size stride : Z) : siter := SI src0 size stride.
Definition sort_end (src0 size stride n : Z) : siter := SI (src0 + n * stride) size stride.
