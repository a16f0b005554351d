(** Model of [include/dynd/types/sso_bytestring.hpp], the value class behind
    [dynd::string] (NulPadding = 1) and [dynd::bytes] (NulPadding = 0), and of
    the operators of [bytes.hpp] / [types/string_type.hpp] built on it.

    The program state: the named live objects, each its 16 bytes (little endian
    [m_pointer], then [m_size]), and the heap, a map from addresses to the bytes
    of the allocated buffers.  [new char\[n\]] takes the address and the initial
    bytes of the buffer from the environment ([choice]) and throws bad_alloc when
    the environment offers none or an address that is in use.  All throws happen
    before the object is written. *)
From Verif Require Import Base.

Definition len {A} (l : list A) : Z := Z.of_nat (List.length l).
Definition obj := list Z.
Record st := mkst { vals : nat -> option obj; heap : Z -> option (list Z) }.
Definition upd {A} (f : nat -> A) (i : nat) (v : A) : nat -> A := fun j => if Nat.eqb j i then v else f j.
Definition updz {A} (f : Z -> A) (a : Z) (v : A) : Z -> A := fun b => if b =? a then v else f b.
Definition set_val (s : st) (i : nat) (o : option obj) : st := mkst (upd (vals s) i o) (heap s).

(** Little-endian words. *)
Fixpoint of_le (l : list Z) : Z := match l with [] => 0 | b :: l => b + 256 * of_le l end.
Fixpoint to_le (n : nat) (x : Z) : list Z := match n with O => [] | S n => x mod 256 :: to_le n (x / 256) end.
Definition usize (o : obj) : Z := of_le (skipn 8 o).
Definition m_size (o : obj) : Z := to_signed 64 (usize o).
Definition m_pointer (o : obj) : Z := of_le (firstn 8 o).
Definition set_m_size (o : obj) (v : Z) : obj := firstn 8 o ++ to_le 8 (u64 v).
Definition set_m_pointer (o : obj) (a : Z) : obj := to_le 8 (u64 a) ++ skipn 8 o.

Section Bytestring.
Variable NP : Z.   (** the template parameter NulPadding *)

(** sso_bytestring.hpp:27, 30, 34, 44, 51. *)
Definition is_sso (o : obj) : bool := 0 <=? m_size o.
Definition sso_size (o : obj) : Z := usize o / 2 ^ 56.
Definition sso_capacity : Z := 15 - NP.
Definition heap_size (o : obj) : Z := u64 (- m_size o - 1).
Definition heap_capacity (h : Z -> option (list Z)) (o : obj) : outcome Z :=
  match h (m_pointer o) with Some b => if 8 <=? len b then Ok (of_le (firstn 8 b)) else UB | None => UB end.
(** sso_bytestring.hpp:101, 104. *)
Definition size (o : obj) : Z := if is_sso o then sso_size o else heap_size o.
Definition capacity (h : Z -> option (list Z)) (o : obj) : outcome Z := if is_sso o then Ok sso_capacity else heap_capacity h o.

(** Where a pointer to bytes points: outside, into an object ([sso_data()]), or
    behind the capacity word of a heap buffer ([heap_data()]). *)
Inductive src := Ext (d : list Z) | Inl (i : nat) | Hp (a : Z).
(** sso_bytestring.hpp:106-107 data(). *)
Definition data_ptr (i : nat) (o : obj) : src := if is_sso o then Inl i else Hp (m_pointer o).
Definition rd (s : st) (p : src) (n : Z) : outcome (list Z) :=
  let from l := if (0 <=? n) && (n <=? len l) then Ok (firstn (Z.to_nat n) l) else UB in
  match p with
  | Ext d => from d
  | Inl i => match vals s i with Some o => from o | None => UB end
  | Hp a => match heap s a with Some b => from (skipn 8 b) | None => UB end
  end.
(** Overwrite part of a byte list. *)
Definition splice (l : list Z) (k : Z) (d : list Z) : outcome (list Z) :=
  if (0 <=? k) && (k + len d <=? len l) then Ok (firstn (Z.to_nat k) l ++ d ++ skipn (Z.to_nat (k + len d)) l) else UB.
(** memcpy / store of [d] at [data() + k]. *)
Definition wr (s : st) (i : nat) (k : Z) (d : list Z) : outcome st :=
  match vals s i with
  | None => UB
  | Some o =>
      if is_sso o then do o' <- splice o k d; Ok (set_val s i (Some o'))
      else match heap s (m_pointer o) with
           | Some b => do b' <- splice b (8 + k) d; Ok (mkst (vals s) (updz (heap s) (m_pointer o) (Some b')))
           | None => UB
           end
  end.

(** The environment's choice for one allocation, and the bytes it leaves in a
    fresh buffer of [n] bytes. *)
Definition choices := option (Z * (nat -> Z)).
Definition fresh (g : nat -> Z) (n : Z) : list Z := map (fun k => g k mod 256) (seq 0 (Z.to_nat n)).
(** new char\[size + sizeof(size_t) + NulPadding\] (the sum wraps). *)
Definition alloc (s : st) (choice : choices) (n : Z) : outcome (Z * list Z) :=
  match choice with
  | Some (a, g) => if (0 <? a) && (a <? 2 ^ 64) && (u64 (n + 8 + NP) <? 2 ^ 63) then
                match heap s a with None => Ok (a, fresh g (u64 (n + 8 + NP))) | Some _ => Throw "bad_alloc" end
              else Throw "bad_alloc"
  | None => Throw "bad_alloc"
  end.
(** delete\[\] heap_buffer(). *)
Definition del (s : st) (a : Z) : outcome st :=
  match heap s a with Some _ => Ok (mkst (vals s) (updz (heap s) a None)) | None => UB end.

(** sso_bytestring.hpp:36-41.  [memcpy] of an object onto itself is taken as a
    no-op. *)
Definition sso_assign (s : st) (i : nat) (p : src) (n : Z) : outcome st :=
  match vals s i with
  | None => UB
  | Some o =>
      let o1 := set_m_size o (n * 2 ^ 56) in
      let s1 := set_val s i (Some o1) in
      do d <- rd s1 p n;
      do o2 <- splice o1 0 d;
      do o3 <- splice o2 n (repeat 0 (Z.to_nat (15 - n)));
      Ok (set_val s1 i (Some o3))
  end.
(** sso_bytestring.hpp:56-65. *)
Definition NUL : list Z := if NP =? 0 then [] else [0].
Definition heap_assign (s : st) (choice : choices) (i : nat) (p : src) (n : Z) : outcome st :=
  match vals s i with
  | None => UB
  | Some o =>
      do (a, b0) <- alloc s choice n;
      do d <- rd s p n;
      do b1 <- splice b0 0 (to_le 8 n);
      do b2 <- splice b1 8 d;
      do b3 <- splice b2 (8 + n) NUL;
      Ok (mkst (upd (vals s) i (Some (set_m_size (set_m_pointer o a) (u64 (- n - 1))))) (updz (heap s) a (Some b3)))
  end.

(** sso_bytestring.hpp:69, 71-77, 79-84, 86-92, 94-98. *)
Definition blank : obj := repeat 0 16.
Definition construct (s : st) (choice : choices) (i : nat) (p : src) (n : Z) : outcome st :=
  let s := set_val s i (Some blank) in
  if n <=? sso_capacity then sso_assign s i p n else heap_assign s choice i p n.
Definition destroy (s : st) (i : nat) : outcome st :=
  match vals s i with
  | None => UB
  | Some o => if is_sso o then Ok (set_val s i None) else do s' <- del s (m_pointer o); Ok (set_val s' i None)
  end.
(** sso_bytestring.hpp:110-129. *)
Definition assign (s : st) (choice : choices) (i : nat) (p : src) (n : Z) : outcome st :=
  match vals s i with
  | None => UB
  | Some o =>
      if is_sso o then
        if n <=? sso_capacity then sso_assign s i p n else heap_assign s choice i p n
      else
        do c <- capacity (heap s) o;
        if n <=? c then
          do d <- rd s p n;
          do s1 <- wr s i 0 d;
          do s2 <- wr s1 i n NUL;
          match vals s2 i with Some o2 => Ok (set_val s2 i (Some (set_m_size o2 (u64 (- n - 1))))) | None => UB end
        else
          do s1 <- heap_assign s choice i p n;
          del s1 (m_pointer o)
  end.
(** sso_bytestring.hpp:136-145: move assignment from [j]. *)
Definition move_assign (s : st) (i j : nat) : outcome st :=
  match vals s i with
  | None => UB
  | Some o =>
      do s1 <- (if is_sso o then Ok s else del s (m_pointer o));
      match vals s1 j with
      | None => UB
      | Some r => let s2 := set_val s1 i (Some r) in Ok (set_val s2 j (Some blank))
      end
  end.
(** sso_bytestring.hpp:153-159. *)
Definition clear (s : st) (i : nat) : outcome st :=
  match vals s i with
  | None => UB
  | Some o => do s1 <- (if is_sso o then Ok s else del s (m_pointer o)); Ok (set_val s1 i (Some blank))
  end.
(** sso_bytestring.hpp:162-174. *)
Definition reserve (s : st) (choice : choices) (i : nat) (n : Z) : outcome st :=
  match vals s i with
  | None => UB
  | Some o =>
      do c <- capacity (heap s) o;
      if c <? n then
        do (a, b0) <- alloc s choice n;
        do b1 <- splice b0 0 (to_le 8 n);
        do d <- rd s (data_ptr i o) (size o + NP);
        do b2 <- splice b1 8 d;
        let s1 := mkst (vals s) (updz (heap s) a (Some b2)) in
        do s2 <- (if is_sso o then Ok s1 else del s1 (m_pointer o));
        Ok (set_val s2 i (Some (set_m_pointer (set_m_size o (u64 (- size o - 1))) a)))
      else Ok s
  end.
(** sso_bytestring.hpp:177. *)
Definition reserve_grow (s : st) (choice : choices) (i : nat) (n : Z) : outcome st :=
  match vals s i with
  | None => UB
  | Some o => do c <- capacity (heap s) o; reserve s choice i (Z.max n (u64 (c * 3) / 2))
  end.
(** sso_bytestring.hpp:180-192, after the reserve. *)
Definition set_size (s : st) (i : nat) (n : Z) : outcome st :=
  match vals s i with
  | None => UB
  | Some o =>
      if is_sso o then
        let o1 := set_m_size o (Z.lor (usize o) (u64 (n * 2 ^ 56))) in
        do o2 <- splice o1 n (repeat 0 (Z.to_nat (15 - n)));
        Ok (set_val s i (Some o2))
      else
        let s1 := set_val s i (Some (set_m_size o (u64 (- n - 1)))) in
        wr s1 i n NUL
  end.
Definition resize (s : st) (choice : choices) (i : nat) (n : Z) : outcome st :=
  do s1 <- reserve s choice i n; set_size s1 i n.
(** sso_bytestring.hpp:195-200.  The second reserve never allocates. *)
Definition resize_grow (s : st) (choice : choices) (i : nat) (n : Z) : outcome st :=
  do s1 <- reserve_grow s choice i n; resize s1 None i n.
(** sso_bytestring.hpp:147-151. *)
Definition append (s : st) (choice : choices) (i : nat) (p : src) (n : Z) : outcome st :=
  match vals s i with
  | None => UB
  | Some o =>
      do s1 <- resize_grow s choice i (u64 (size o + n));
      do d <- rd s1 p n;
      wr s1 i (size o) d
  end.
(** bytes.hpp:54-60, string_type.hpp:61-67 operator+, into a new object. *)
Definition plus (s : st) (choice : choices) (k i j : nat) : outcome st :=
  match vals s i, vals s j with
  | Some oi, Some oj =>
      do s1 <- resize (set_val s k (Some blank)) choice k (u64 (size oi + size oj));
      do d1 <- rd s1 (data_ptr i oi) (size oi);
      do s2 <- wr s1 k 0 d1;
      do d2 <- rd s2 (data_ptr j oj) (size oj);
      wr s2 k (size oi) d2
  | _, _ => UB
  end.
(** sso_bytestring.hpp:209-212. *)
Definition equal (s : st) (i j : nat) : outcome bool :=
  match vals s i, vals s j with
  | Some oi, Some oj =>
      if size oi =? size oj then
        do a <- rd s (data_ptr i oi) (size oi); do b <- rd s (data_ptr j oj) (size oi);
        Ok (if list_eq_dec Z.eq_dec a b then true else false)
      else Ok false
  | _, _ => UB
  end.
(** std::lexicographical_compare over [char], which is signed on the supported
    platforms. *)
Fixpoint lex_less (a b : list Z) : bool :=
  match a, b with
  | _, [] => false
  | [], _ :: _ => true
  | x :: a, y :: b =>
      if to_signed 8 x <? to_signed 8 y then true else if to_signed 8 y <? to_signed 8 x then false else lex_less a b
  end.
(** string_type.hpp:45-59 operator<, <=, >=, >. *)
Definition range (s : st) (i : nat) : outcome (list Z) :=
  match vals s i with Some o => rd s (data_ptr i o) (size o) | None => UB end.
Definition less (s : st) (i j : nat) : outcome bool := do a <- range s i; do b <- range s j; Ok (lex_less a b).
Definition less_eq (s : st) (i j : nat) : outcome bool := do b <- range s j; do a <- range s i; Ok (negb (lex_less b a)).
Definition greater_eq (s : st) (i j : nat) : outcome bool := do a <- range s i; do b <- range s j; Ok (negb (lex_less a b)).
Definition greater (s : st) (i j : nat) : outcome bool := do b <- range s j; do a <- range s i; Ok (lex_less b a).

(** The operations a program can perform on named values. *)
Inductive op :=
| ODefault (i : nat) | OBytes (i : nat) (d : list Z) | OCopy (i j : nat) | OMoveCons (i j : nat)
| OAssign (i : nat) (d : list Z) | OAssignVal (i j : nat) | OMove (i j : nat)
| OAppend (i : nat) (d : list Z) | OAppendVal (i j : nat) | OClear (i : nat)
| OReserve (i : nat) (n : Z) | OReserveGrow (i : nat) (n : Z) | OResize (i : nat) (n : Z) | OResizeGrow (i : nat) (n : Z)
| OWrite (i : nat) (k : Z) (d : list Z) | OPlus (k i j : nat) | ODestroy (i : nat).

Definition of_val (s : st) (j : nat) (f : src -> Z -> outcome st) : outcome st :=
  match vals s j with Some o => f (data_ptr j o) (size o) | None => UB end.
Definition step (s : st) (o : op) (choice : choices) : outcome st :=
  match o with
  | ODefault i => Ok (set_val s i (Some blank))
  | OBytes i d => construct s choice i (Ext d) (len d)
  | OCopy i j => of_val s j (construct s choice i)
  | OMoveCons i j => move_assign (set_val s i (Some blank)) i j
  | OAssign i d => assign s choice i (Ext d) (len d)
  | OAssignVal i j => of_val s j (assign s choice i)
  | OMove i j => move_assign s i j
  | OAppend i d => append s choice i (Ext d) (len d)
  | OAppendVal i j => of_val s j (append s choice i)
  | OClear i => clear s i
  | OReserve i n => reserve s choice i n
  | OReserveGrow i n => reserve_grow s choice i n
  | OResize i n => resize s choice i n
  | OResizeGrow i n => resize_grow s choice i n
  | OWrite i k d => match vals s i with Some o => if k + len d <=? size o then wr s i k d else UB | None => UB end
  | OPlus k i j => plus s choice k i j
  | ODestroy i => destroy s i
  end.
(** What the program reads back with size() and data(). *)
Definition contents (s : st) (i : nat) : option (outcome (list Z)) :=
  match vals s i with Some o => Some (rd s (data_ptr i o) (size o)) | None => None end.
End Bytestring.
