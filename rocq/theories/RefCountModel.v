(** Model of intrusive_ptr (include/dynd/config.hpp:234-333) and of the atomic
    counts behind it (base_memory_block.hpp:73-81, buffer_memory_block.hpp:125-134,
    base_type.hpp:493-510, base_callable.hpp:132-140), for any number of threads.

    Threads interleave at the accesses to shared memory: each atomic increment and
    decrement of a count, each deletion and each read or write of a smart pointer is
    one step.  The atomics are std::atomic_long with the default (sequentially
    consistent) order.  Builtin types, whose pointers are small numbers that are
    never counted, behave as null pointers and are represented by them. *)
From Verif Require Import Base.

(** A smart pointer variable.  [owned] is bookkeeping that no step reads: it is false
    while an assignment has released the old value and not stored the new one. *)
Record cell := { ptr : option nat; owned : bool }.
(** A counted object with the smart pointers it holds as members.  The members are
    set when it is constructed and released by its destructor (external_memory_block,
    include/dynd/memblock/external_memory_block.hpp:20-27, calls its free function
    there).  [frees] counts the runs of the destructor. *)
Record obj := { cnt : Z; alive : bool; fields : list (option nat); frees : nat }.

(** Where a pointer is read from: a variable, or member [i] of the object a variable
    points to, as in x->get_element_type(). *)
Inductive source := SVar (x : nat) | SField (x i : nat).
(** The operations of the class. *)
Inductive op :=
| New (v : nat) (fs : list nat)   (** v(new T(move(fs)...), false), or with add_ref for a count starting at 0 *)
| Copy (v : nat) (s : source)     (** copy construction, 252-256 *)
| MoveC (v x : nat)               (** move construction, 259 *)
| Assign (v : nat) (s : source)   (** copy assignment, 277-288 *)
| AssignRaw (v : nat) (s : source) (** assignment from a raw pointer, 301-312 *)
| MoveA (v x : nat)               (** move assignment, 291-298 *)
| Swap (v x : nat)                (** 328-332 *)
| Destroy (v : nat)               (** destructor, 262-266; the variable can then be constructed anew *)
| Use (x : nat).                  (** *x, 274-276 *)

(** What a thread still has to do of its operation. *)
Inductive micro :=
| MRetain (o : nat) | MRelease (o : nat) | MDelete (o : nat)
| MNew (v : nat) (fs : list nat) | MCopy (v : nat) (s : source) | MMoveC (v x : nat)
| MAssign1 (v : nat) (s : source) | MAssign2 (v : nat) (s : source)
| MRaw1 (v : nat) (s : source) | MRaw2 (v : nat) (p : option nat)
| MMoveA1 (v x : nat) | MMoveA2 (v x : nat) | MSwap (v x : nat) | MDestroy (v : nat) | MUse (x : nat).
Definition first_step (p : op) : micro :=
  match p with
  | New v fs => MNew v fs | Copy v s => MCopy v s | MoveC v x => MMoveC v x | Assign v s => MAssign1 v s | AssignRaw v s => MRaw1 v s
  | MoveA v x => MMoveA1 v x | Swap v x => MSwap v x | Destroy v => MDestroy v | Use x => MUse x
  end.

Record state := { vars : list cell; heap : list obj; thr : list (option (op * list micro)) }.

Fixpoint upd {A} (l : list A) (i : nat) (x : A) : list A :=
  match l, i with
  | [], _ => []
  | _ :: l, O => x :: l
  | a :: l, S i => a :: upd l i x
  end.
Definition getv (s : state) (v : nat) : option nat := match nth_error (vars s) v with Some c => ptr c | None => None end.
Definition setv (l : list cell) (v : nat) (p : option nat) : list cell := upd l v {| ptr := p; owned := true |}.
Definition limbo (l : list cell) (v : nat) : list cell :=
  match nth_error l v with Some c => upd l v {| ptr := ptr c; owned := false |} | None => l end.
(** Reading a source.  A member of a deleted object is freed memory. *)
Definition read (s : state) (r : source) : outcome (option nat) :=
  match r with
  | SVar x => Ok (getv s x)
  | SField x i =>
      match getv s x with
      | None => UB
      | Some o =>
          match nth_error (heap s) o with
          | Some b => if alive b then match nth_error (fields b) i with Some p => Ok p | None => UB end else UB
          | None => UB
          end
      end
  end.
Definition release (p : option nat) : list micro := match p with Some o => [MRelease o] | None => [] end.
Definition retain (p : option nat) : list micro := match p with Some o => [MRetain o] | None => [] end.
(** An access to a counted object: undefined once it is deleted. *)
Definition at_obj (h : list obj) (o : nat) (f : obj -> list obj * list micro) : outcome (list obj * list micro) :=
  match nth_error h o with Some b => if alive b then Ok (f b) else UB | None => UB end.

(** One step of a thread: the new variables, the new heap and what it has to do
    before the rest of its operation. *)
Definition exec_micro (s : state) (m : micro) : outcome (list cell * list obj * list micro) :=
  match m with
  (* ++ptr->m_use_count *)
  | MRetain o => do r <- at_obj (heap s) o (fun b => (upd (heap s) o {| cnt := cnt b + 1; alive := true; fields := fields b; frees := frees b |}, [])); Ok (vars s, fst r, snd r)
  (* if (--ptr->m_use_count == 0) { delete ptr; } *)
  | MRelease o => do r <- at_obj (heap s) o (fun b => (upd (heap s) o {| cnt := cnt b - 1; alive := true; fields := fields b; frees := frees b |}, if cnt b - 1 =? 0 then [MDelete o] else [])); Ok (vars s, fst r, snd r)
  (* the destructor and the members' destructors *)
  | MDelete o => do r <- at_obj (heap s) o (fun b => (upd (heap s) o {| cnt := cnt b; alive := false; fields := fields b; frees := S (frees b) |}, flat_map release (fields b))); Ok (vars s, fst r, snd r)
  (* the object comes into being with one reference, held by v; the count of a
     callable is 0 for an instant in which nobody else knows the object *)
  | MNew v fs =>
      let fresh := {| cnt := 1; alive := true; fields := map (getv s) fs; frees := 0 |} in
      Ok (setv (fold_left (fun l x => setv l x None) fs (vars s)) v (Some (List.length (heap s))), heap s ++ [fresh], [])
  | MCopy v r => do p <- read s r; Ok (setv (vars s) v p, heap s, retain p)
  | MMoveC v x => Ok (setv (setv (vars s) v (getv s x)) x None, heap s, [])
  | MAssign1 v r => Ok (limbo (vars s) v, heap s, release (getv s v) ++ [MAssign2 v r])
  | MAssign2 v r => do p <- read s r; Ok (setv (vars s) v p, heap s, retain p)
  | MRaw1 v r => do p <- read s r; Ok (limbo (vars s) v, heap s, release (getv s v) ++ [MRaw2 v p])
  | MRaw2 v p => Ok (setv (vars s) v p, heap s, retain p)
  | MMoveA1 v x => Ok (limbo (vars s) v, heap s, release (getv s v) ++ [MMoveA2 v x])
  | MMoveA2 v x => Ok (setv (setv (vars s) v (getv s x)) x None, heap s, [])
  | MSwap v x => Ok (setv (setv (vars s) v (getv s x)) x (getv s v), heap s, [])
  | MDestroy v => Ok (setv (vars s) v None, heap s, release (getv s v))
  | MUse x => match getv s x with Some o => do r <- at_obj (heap s) o (fun _ => (heap s, [])); Ok (vars s, fst r, snd r) | None => UB end
  end.
(** Thread [t] makes a step; an operation with nothing left to do ends. *)
Definition exec (s : state) (t : nat) : outcome state :=
  match nth_error (thr s) t with
  | Some (Some (p, m :: k)) => do r <- exec_micro s m; Ok {| vars := fst (fst r); heap := snd (fst r); thr := upd (thr s) t (Some (p, snd r ++ k)) |}
  | Some (Some (p, [])) => Ok {| vars := vars s; heap := heap s; thr := upd (thr s) t None |}
  | _ => UB
  end.
Definition start (s : state) (t : nat) (p : op) : state := {| vars := vars s; heap := heap s; thr := upd (thr s) t (Some (p, [first_step p])) |}.

(** operator== and operator!= of two smart pointers, config.hpp:336-350. *)
Definition op_eq (p q : option nat) : bool := match p, q with Some a, Some b => Nat.eqb a b | None, None => true | _, _ => false end.
Definition op_ne (p q : option nat) : bool := op_eq p q.
