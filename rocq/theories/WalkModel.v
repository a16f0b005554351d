(** dynd::begin<N>, dynd::end<N> and dynd::iterator<ContainerType, N>
    (include/dynd/iterator.hpp:11-163; const_iterator, 165-293, has the same code):
    one iterator over the elements of nested containers.

    Two kinds of containers are modelled: C arrays, whose iterators are addresses in
    one piece of memory, and std::vector, whose iterators are a vector and an index.
    The elements are numbers. *)
From Verif Require Import Base NestModel.
Open Scope Z_scope.

(** ** C arrays T[n1][n2]...: an address counts elements.  An address one past the
    end of an array may be formed, and taken for the address of an array that would
    begin there (81-82), which accesses no memory. *)
Fixpoint elems (dims : list Z) : Z := match dims with [] => 1 | n :: r => n * elems r end.
(** The members m_current and m_end of each level, the outermost first. *)
Definition levels : Type := list (Z * Z).
(** 26-29, 57-69: the first element of each level is the front of the next. *)
Fixpoint a_begin (dims : list Z) (a : Z) : levels :=
  match dims with [] => [] | n :: r => (a, a + n * elems r) :: a_begin r a end.
(** 31, 71-78: the last one, std::prev(end), is the back of the next. *)
Fixpoint a_end (dims : list Z) (a : Z) : levels :=
  match dims with [] => [] | n :: r => (a + n * elems r, a + n * elems r) :: a_end r (a + n * elems r - elems r) end.
(** 38-43 for the innermost level, 85-95 for the others. *)
Fixpoint a_incr (dims : list Z) (it : levels) : levels :=
  match dims, it with
  | n :: r, (c, e) :: inner =>
      match r with
      | [] => (c + 1, e) :: inner
      | n' :: r' =>
          match a_incr r inner with
          | (ci, ei) :: inner' =>
              if ci =? ei then (c + elems r, e) :: (c + elems r, c + elems r + n' * elems r') :: inner'
              else (c, e) :: (ci, ei) :: inner'
          | [] => []
          end
      end
  | _, _ => []
  end.
(** 59-62, 107-115: m_current of all levels. *)
Fixpoint a_eq (x y : levels) : bool :=
  match x, y with
  | (c, _) :: x, (c', _) :: y => (c =? c') && a_eq x y
  | [], [] => true
  | _, _ => false
  end.
(** 52. *)
Fixpoint a_deref (mem : list Z) (it : levels) : outcome Z :=
  match it with
  | [] => UB
  | (c, _) :: it =>
      match it with
      | [] => if c <? 0 then UB else match nth_error mem (Z.to_nat c) with Some v => Ok v | None => UB end
      | _ :: _ => a_deref mem it
      end
  end.
(** The loop of a caller: for (it = begin<N>(c); it != end<N>(c); ++it) out.push_back( *it). *)
Fixpoint a_loop (fuel : nat) (dims : list Z) (mem : list Z) (it last : levels) (out : list Z) : outcome (list Z) :=
  match fuel with
  | O => NoFuel
  | S fuel =>
      if a_eq it last then Ok out
      else do v <- a_deref mem it; a_loop fuel dims mem (a_incr dims it) last (out ++ [v])
  end.
Definition a_walk (fuel : nat) (dims : list Z) (mem : list Z) (a : Z) : outcome (list Z) :=
  a_loop fuel dims mem (a_begin dims a) (a_end dims a) [].

(** ** Vectors: m_current of each level is an index into a vector, whose end is
    m_end. *)
Definition vlevels : Type := list (list nest * nat).
(** 26-29, 57-69: *begin of a vector with no elements is undefined. *)
Fixpoint v_begin (n : nat) (x : nest) : outcome vlevels :=
  match n, x with
  | S n, Node l =>
      match n with
      | O => Ok [(l, 0%nat)]
      | S _ => match l with y :: _ => do i <- v_begin n y; Ok ((l, 0%nat) :: i) | [] => UB end
      end
  | _, _ => UB
  end.
(** 31, 71-78. *)
Fixpoint v_end (n : nat) (x : nest) : outcome vlevels :=
  match n, x with
  | S n, Node l =>
      match n with
      | O => Ok [(l, List.length l)]
      | S _ =>
          match nth_error l (List.length l - 1) with
          | Some y => do i <- v_end n y; Ok ((l, List.length l) :: i)
          | None => UB
          end
      end
  | _, _ => UB
  end.
(** 38-43, 85-95. *)
Fixpoint v_incr (it : vlevels) : outcome vlevels :=
  match it with
  | [] => UB
  | (l, i) :: inner =>
      match inner with
      | [] => if (i <? List.length l)%nat then Ok [(l, S i)] else UB
      | _ :: _ =>
          do inner' <- v_incr inner;
          match inner' with
          | (li, ii) :: rest =>
              if (ii =? List.length li)%nat then
                match nth_error l (S i) with
                | Some (Node l') => Ok ((l, S i) :: (l', 0%nat) :: rest)
                | _ => UB
                end
              else Ok ((l, i) :: inner')
          | [] => UB
          end
      end
  end.
(** 59-62, 107-115: the levels are compared from the outermost, the next only when
    this one is the same. *)
Fixpoint v_eq (x y : vlevels) : bool :=
  match x, y with
  | (_, c) :: x, (_, c') :: y => (c =? c')%nat && v_eq x y
  | [], [] => true
  | _, _ => false
  end.
(** 52. *)
Fixpoint v_deref (it : vlevels) : outcome Z :=
  match it with
  | [] => UB
  | (l, i) :: it =>
      match it with
      | [] => match nth_error l i with Some (Leaf v) => Ok v | _ => UB end
      | _ :: _ => v_deref it
      end
  end.
Fixpoint v_loop (fuel : nat) (it last : vlevels) (out : list Z) : outcome (list Z) :=
  match fuel with
  | O => NoFuel
  | S fuel =>
      if v_eq it last then Ok out
      else do v <- v_deref it; do it <- v_incr it; v_loop fuel it last (out ++ [v])
  end.
Definition v_walk (fuel : nat) (n : nat) (x : nest) : outcome (list Z) :=
  do b <- v_begin n x; do e <- v_end n x; v_loop fuel b e [].
(** [k] times ++ on begin<N>(x). *)
Fixpoint v_nth (k : nat) (n : nat) (x : nest) : outcome vlevels :=
  match k with O => v_begin n x | S k => do it <- v_nth k n x; v_incr it end.
