(** The programs C42 speaks about, and what it says of them. *)
From Verif Require Import Base RefCountModel.

(** The variables an operation writes and reads. *)
Definition src_var (r : source) : nat := match r with SVar x => x | SField x _ => x end.
Definition writes (p : op) : list nat :=
  match p with
  | New v fs => v :: fs | Copy v _ | Assign v _ | AssignRaw v _ | Destroy v => [v]
  | MoveC v x | MoveA v x | Swap v x => [v; x] | Use _ => []
  end.
Definition reads (p : op) : list nat :=
  match p with Copy _ s | Assign _ s | AssignRaw _ s => [src_var s] | Use x => [x] | _ => [] end.
(** No data race: what one thread writes during an operation, no other thread reads
    or writes meanwhile.  Many threads may copy from one variable at once. *)
Definition compatible (p q : op) : Prop :=
  (forall v, In v (writes p) -> ~ In v (writes q) /\ ~ In v (reads q)) /\ (forall v, In v (reads p) -> ~ In v (writes q)).
(** A constructed variable is new (null), members exist, pointers that are
    dereferenced are not null. *)
Definition null (s : state) (v : nat) : Prop := getv s v = None.
Definition source_ok (s : state) (r : source) : Prop :=
  match r with
  | SVar x => (x < List.length (vars s))%nat
  | SField x i => exists o b, getv s x = Some o /\ nth_error (heap s) o = Some b /\ (i < List.length (fields b))%nat
  end.
Definition pre (s : state) (p : op) : Prop :=
  match p with
  | New v fs => null s v /\ NoDup (v :: fs)
  | Copy v r => null s v /\ source_ok s r /\ src_var r <> v
  | MoveC v x => null s v /\ x <> v
  | Assign v r | AssignRaw v r => source_ok s r
  | Use x => getv s x <> None
  | _ => True
  end /\ forall v, In v (writes p ++ reads p) -> (v < List.length (vars s))%nat.
(** No assignment of a variable to itself or to a member of the object it holds. *)
Definition alias_free (p : op) : Prop := match p with Assign v r | AssignRaw v r => src_var r <> v | _ => True end.

Definition initial (n t : nat) : state := {| vars := repeat {| ptr := None; owned := true |} n; heap := []; thr := repeat None t |}.
(** All states of all interleavings of all programs of [t] threads over [n]
    variables. *)
Inductive reachable (n t : nat) : state -> Prop :=
| reach_initial : reachable n t (initial n t)
| reach_start s i p : reachable n t s -> nth_error (thr s) i = Some None -> pre s p -> alias_free p ->
    (forall j q k, nth_error (thr s) j = Some (Some (q, k)) -> compatible p q) -> reachable n t (start s i p)
| reach_exec s i s' : reachable n t s -> exec s i = Ok s' -> reachable n t s'.

Definition quiet (s : state) : Prop := forall i x, nth_error (thr s) i = Some x -> x = None.
Definition is_alive (s : state) (o : nat) : Prop := exists b, nth_error (heap s) o = Some b /\ alive b = true.
(** The program can get at [o]: a variable holds it, or a member of an object the
    program can get at does. *)
Inductive held (s : state) : nat -> Prop :=
| held_var v c o : nth_error (vars s) v = Some c -> owned c = true -> ptr c = Some o -> held s o
| held_field o b i o' : held s o -> nth_error (heap s) o = Some b -> nth_error (fields b) i = Some (Some o') -> held s o'.
(** The number of references to [o]: variables, and members of live objects. *)
Definition points (o : nat) (p : option nat) : nat := match p with Some q => if Nat.eqb q o then 1%nat else 0%nat | None => 0%nat end.
Definition sum (l : list nat) : nat := fold_right Nat.add 0%nat l.
Definition var_refs (s : state) (o : nat) : nat := sum (map (fun c => points o (ptr c)) (vars s)).
Definition field_refs (s : state) (o : nat) : nat := sum (map (fun b => if alive b then sum (map (points o) (fields b)) else 0%nat) (heap s)).

(** What an operation does to the variables it names. *)
Definition source_value (s : state) (r : source) (q : option nat) : Prop :=
  match r with
  | SVar x => getv s x = q
  | SField x i => exists o b, getv s x = Some o /\ nth_error (heap s) o = Some b /\ nth_error (fields b) i = Some q
  end.
Definition effect (s : state) (p : op) (s' : state) : Prop :=
  match p with
  | New v fs => exists o b, getv s' v = Some o /\ nth_error (heap s) o = None /\ nth_error (heap s') o = Some b /\ fields b = map (getv s) fs /\ forall x, In x fs -> getv s' x = None
  | Copy v r | Assign v r | AssignRaw v r => source_value s r (getv s' v) /\ getv s' (src_var r) = getv s (src_var r)
  | MoveC v x => getv s' v = getv s x /\ getv s' x = None
  | MoveA v x => (v <> x -> getv s' v = getv s x) /\ getv s' x = None
  | Swap v x => getv s' v = getv s x /\ getv s' x = getv s v
  | Destroy v => getv s' v = None
  | Use x => getv s' x = getv s x
  end.
(** From [s] to [s'] while thread [i] is busy with one operation; the others may step
    and start operations that do not race with the ones under way. *)
Inductive during (i : nat) : state -> state -> Prop :=
| during_here s : during i s s
| during_exec s s1 j s2 : during i s s1 -> nth_error (thr s1) i <> Some None -> exec s1 j = Ok s2 -> during i s s2
| during_start s s1 j p : during i s s1 -> nth_error (thr s1) i <> Some None -> nth_error (thr s1) j = Some None -> pre s1 p -> alias_free p ->
    (forall l q k, nth_error (thr s1) l = Some (Some (q, k)) -> compatible p q) -> during i s (start s1 j p).
