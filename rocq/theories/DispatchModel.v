(** Model of [include/dynd/dispatcher.hpp]: topological sort and multiple
    dispatch. *)
From Verif Require Import Base.

Fixpoint upd {A} (l : list A) (i : nat) (f : A -> A) : list A :=
  match l, i with
  | [], _ => []
  | x :: l, O => f x :: l
  | x :: l, S i => x :: upd l i f
  end.

(** topological_sort_marker, dispatcher.hpp:61-72. *)
Inductive mark := Unmarked | Temporary | Marked.

Section Sort.
Context {V : Type}.
Variable vertices : list V.
Variable edges : list (list nat).

(** What the recursion changes: the markers, the output range and [res], kept as
    an index into the output ([res_begin] is index 0). *)
Record tstate := mkts { marks : list mark; out : list V; pos : nat }.
Definition set_mark (s : tstate) (i : nat) (m : mark) : tstate := mkts (upd (marks s) i (fun _ => m)) (out s) (pos s).
(** dispatcher.hpp:87-90: [*res = vertices[i]; if (res != res_begin) --res]. *)
Definition emit (s : tstate) (i : nat) : tstate * outcome unit :=
  match nth_error vertices i with
  | None => (s, UB)
  | Some v => if (pos s <? List.length (out s))%nat
              then (mkts (marks s) (upd (out s) (pos s) (fun _ => v)) (if (pos s =? 0)%nat then pos s else (pos s - 1)%nat), Ok tt)
              else (s, UB)
  end.

(** topological_sort_visit, dispatcher.hpp:74-92.  The state survives a throw.  The
    fuel bounds the depth of the recursion. *)
Fixpoint visit (fuel : nat) (i : nat) (s : tstate) {struct fuel} : tstate * outcome unit :=
  match fuel with
  | O => (s, NoFuel)
  | S fuel =>
      match nth_error (marks s) i with
      | None => (s, UB)
      | Some Temporary => (s, Throw "not a dag")
      | Some Marked => (s, Ok tt)
      | Some Unmarked =>
          match nth_error edges i with
          | None => (s, UB)
          | Some js =>
              let fix go (js : list nat) (s : tstate) : tstate * outcome unit :=
                match js with
                | [] => (s, Ok tt)
                | j :: js => match visit fuel j s with (s, Ok _) => go js s | r => r end
                end in
              match go js (set_mark s i Temporary) with
              | (s, Ok _) => emit (set_mark s i Marked) i
              | r => r
              end
          end
      end
  end.
(** topological_sort, dispatcher.hpp:96-107, into the range [res].  For an empty
    range [res += size - 1] leaves the range. *)
Fixpoint visit_all (fuel : nat) (is : list nat) (s : tstate) : tstate * outcome unit :=
  match is with
  | [] => (s, Ok tt)
  | i :: is => match visit fuel i s with (s, Ok _) => visit_all fuel is s | r => r end
  end.
Definition topological_sort (res : list V) : list V * outcome unit :=
  match List.length vertices with
  | O => (res, UB)
  | S m => let (s, r) := visit_all (S (S m)) (seq 0 (S m)) (mkts (repeat Unmarked (S m)) res m) in (out s, r)
  end.
End Sort.
Arguments mkts {V}.

Section Dispatch.
(** [ndt::type] and [type::match]; the callables and the types m_dispatch selects
    from a signature (dispatcher.hpp:15, 18-26: N of them). *)
Context {type : Type}.
Variable matches : type -> type -> bool.
Context {T : Type}.
Variable sig : T -> list type.

(** dispatcher.hpp:32-41. *)
Fixpoint consistent (l r : list type) : bool :=
  match l, r with
  | x :: l, y :: r => if negb (matches x y) && negb (matches y x) then false else consistent l r
  | _, _ => true
  end.
(** dispatcher.hpp:43-52. *)
Fixpoint supercedes (l r : list type) : bool :=
  match l, r with
  | x :: l, y :: r => if negb (matches y x) then false else supercedes l r
  | _, _ => true
  end.
(** dispatcher.hpp:54-57. *)
Definition ambiguous (l r : list type) : bool := consistent l r && negb (supercedes l r || supercedes r l).
(** dispatcher.hpp:304-313. *)
Definition edge (u v : list type) : bool := if supercedes u v then (if supercedes v u then false else true) else false.

(** m_children; None is a null callable. *)
Definition children := list (option T).
(** [f_i->get_ret_type()] ... of the callable at index [i]. *)
Definition sig_at (vs : children) (i : nat) : outcome (list type) :=
  match nth_error vs i with Some (Some t) => Ok (sig t) | _ => UB end.
(** dispatcher.hpp:198-206. *)
Fixpoint resolved (vs : children) (ks : list nat) (ti tj : list type) (ok : bool) : outcome bool :=
  match ks with
  | [] => Ok ok
  | k :: ks => do tk <- sig_at vs k; resolved vs ks ti tj (if supercedes tk ti && supercedes tk tj then true else ok)
  end.
(** dispatcher.hpp:191-224. *)
Fixpoint loop_j (vs : children) (js : list nat) (i : nat) (ti : list type) (es : list (list nat)) : outcome (list (list nat)) :=
  match js with
  | [] => Ok es
  | j :: js =>
      do tj <- sig_at vs j;
      do ok <- (if ambiguous ti tj then resolved vs (seq 0 (List.length vs)) ti tj false else Ok true);
      if ok then
        loop_j vs js i ti (if edge ti tj then upd es i (fun l => l ++ [j]) else if edge tj ti then upd es j (fun l => l ++ [i]) else es)
      else Throw "ambiguous"
  end.
(** dispatcher.hpp:186-225. *)
Fixpoint loop_i (vs : children) (is : list nat) (es : list (list nat)) : outcome (list (list nat)) :=
  match is with
  | [] => Ok es
  | i :: is =>
      do ti <- sig_at vs i;
      do es <- loop_j vs (seq (S i) (List.length vs - S i)) i ti es;
      loop_i vs is es
  end.
(** std::vector::resize: new elements are null callables. *)
Definition resize (ch : children) (n : nat) : children := firstn n ch ++ repeat None (n - List.length ch).
(** dispatcher::assign, dispatcher.hpp:181-230: the new m_children, also after a
    throw, and how the call ended. *)
Definition assign (ch vs : children) : children * outcome unit :=
  let ch1 := resize ch (List.length vs) in
  match loop_i vs (seq 0 (List.length vs)) (repeat [] (List.length vs)) with
  | Ok es => topological_sort vs es ch1
  | Throw e => (ch1, Throw e)
  | UB => (ch1, UB)
  | NoFuel => (ch1, NoFuel)
  end.
(** dispatcher.hpp:172-177: the constructor; 233-239: insert. *)
Definition construct (vs : list T) : children * outcome unit := assign [] (map Some vs).
Definition insert (ch : children) (vs : list T) : children * outcome unit := assign ch (ch ++ map Some vs).
(** dispatcher::operator(), dispatcher.hpp:253-289, for arguments whose dispatched
    types are [tps]. *)
Fixpoint call (ch : children) (tps : list type) : outcome T :=
  match ch with
  | [] => Throw "out_of_range"
  | None :: _ => UB
  | Some t :: ch => if supercedes tps (sig t) then Ok t else call ch tps
  end.
End Dispatch.
