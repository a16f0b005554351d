(** Specification for C27, C28: values are byte sequences. *)
From Coq Require Import List ZArith.
From Verif Require Import Base SsoModel.
Import ListNotations.
Open Scope Z_scope.

Definition isbyte (b : Z) : Prop := 0 <= b < 256.
(** Named byte sequences ([None]: no such value). *)
Definition abs := nat -> option (list Z).
Definition put (a : abs) (i : nat) (v : option (list Z)) (a' : abs) : Prop := forall j, a' j = if Nat.eqb j i then v else a j.
(** What each operation does to them. *)
Definition spec_step (a : abs) (o : op) (a' : abs) : Prop :=
  match o with
  | ODefault i => put a i (Some []) a'
  | OBytes i d | OAssign i d => put a i (Some d) a'
  | OCopy i j | OAssignVal i j => put a i (a j) a'
  | OMoveCons i j | OMove i j => exists b, put a i (a j) b /\ put b j (Some []) a'
  | OAppend i d => exists c, a i = Some c /\ put a i (Some (c ++ d)) a'
  | OAppendVal i j => exists c d, a i = Some c /\ a j = Some d /\ put a i (Some (c ++ d)) a'
  | OClear i => put a i (Some []) a'
  | OReserve i _ | OReserveGrow i _ => forall j, a' j = a j
  | OResize i n | OResizeGrow i n => exists c fill, a i = Some c /\ Z.of_nat (List.length (firstn (Z.to_nat n) c ++ fill)) = n /\
      (Z.of_nat (List.length c) >= n -> fill = []) /\ put a i (Some (firstn (Z.to_nat n) c ++ fill)) a'
  | OWrite i k d => exists u v w, a i = Some (u ++ v ++ w) /\ Z.of_nat (List.length u) = k /\ List.length v = List.length d /\ put a i (Some (u ++ d ++ w)) a'
  | OPlus k i j => exists c d, a i = Some c /\ a j = Some d /\ put a k (Some (c ++ d)) a'
  | ODestroy i => put a i None a'
  end.

(** Programs use live names, construct new ones, pass bytes and sizes that fit
    in memory, and stay inside the value when writing through data(). *)
Definition legal (a : abs) (o : op) : Prop :=
  let live i := a i <> None in
  let new i := a i = None in
  let sz i := match a i with Some c => Z.of_nat (List.length c) | None => 0 end in
  let okb d := Forall isbyte d /\ Z.of_nat (List.length d) < 2 ^ 61 in
  match o with
  | ODefault i => new i
  | OBytes i d => new i /\ okb d
  | OCopy i j => new i /\ live j /\ sz j < 2 ^ 61
  | OMoveCons i j => new i /\ live j
  | OAssign i d => live i /\ okb d
  | OAssignVal i j => live i /\ live j /\ sz j < 2 ^ 61
  | OMove i j => live i /\ live j
  | OAppend i d => live i /\ okb d /\ sz i < 2 ^ 61
  | OAppendVal i j => live i /\ live j /\ sz i < 2 ^ 61 /\ sz j < 2 ^ 61
  | OClear i | ODestroy i => live i
  | OReserve i n | OReserveGrow i n | OResize i n | OResizeGrow i n => live i /\ 0 <= n < 2 ^ 61
  | OWrite i k d => live i /\ okb d /\ 0 <= k /\ k + Z.of_nat (List.length d) <= sz i
  | OPlus k i j => new k /\ live i /\ live j /\ sz i < 2 ^ 61 /\ sz j < 2 ^ 61
  end.
(** The uses the code gets wrong: assigning an inline value of more than eight
    bytes to itself, appending a value to itself, and resizing an inline value to
    a size that does not contain the bits of the old one. *)
Definition avoids (NP : Z) (inline : nat -> Prop) (a : abs) (o : op) : Prop :=
  match o with
  | OAssignVal i j => i = j -> inline i -> match a i with Some c => (List.length c <= 8)%nat | None => True end
  | OAppendVal i j => i <> j
  | OResize i n => inline i -> n <= 15 - NP -> match a i with Some c => Z.lor (Z.of_nat (List.length c)) n = n | None => True end
  | _ => True
  end.

(** A value kept in the 16 bytes of the object. *)
Definition inline (s : st) (i : nat) : Prop := exists o, vals s i = Some o /\ is_sso o = true.
(** What a program sees: the bytes of each value. *)
Definition describes (s : st) (a : abs) : Prop := forall i, contents s i = option_map Ok (a i).
(** The two uses that break the storage itself: appending a value to itself, and
    (NUL-padded) the inline resizes after which the size reads 15. *)
Definition storage_ok (NP : Z) (inline : nat -> Prop) (a : abs) (o : op) : Prop :=
  match o with
  | OAppendVal i j => i <> j
  | OResize i n => inline i -> n <= 15 - NP -> match a i with Some c => Z.lor (Z.of_nat (List.length c)) n <= 15 - NP | None => True end
  | _ => True
  end.
(** The states after any history of operations without those two uses. *)
Inductive reachable (NP : Z) : st -> Prop :=
| reach_start : reachable NP (mkst (fun _ => None) (fun _ => None))
| reach_step s a o choice s' : reachable NP s -> describes s a -> legal a o -> storage_ok NP (inline s) a o -> step NP s o choice = Ok s' -> reachable NP s'.
(** The environment has memory for one more buffer. *)
Definition memory_left (NP : Z) (s : st) (choice : choices) : Prop :=
  (exists ad g, choice = Some (ad, g) /\ 0 < ad < 2 ^ 64 /\ heap s ad = None) /\ forall i o, vals s i = Some o -> match capacity NP (heap s) o with Ok k => k < 2 ^ 61 | _ => True end.

(** Lexicographic order of sequences under an order of their elements. *)
Inductive lexico (lt : Z -> Z -> Prop) : list Z -> list Z -> Prop :=
| lex_nil y b : lexico lt [] (y :: b)
| lex_here x y a b : lt x y -> lexico lt (x :: a) (y :: b)
| lex_next x a b : lexico lt a b -> lexico lt (x :: a) (x :: b).
