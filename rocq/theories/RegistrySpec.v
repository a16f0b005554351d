(** What the registry promises, in terms of the history of calls alone. *)
From Verif Require Import Base RegistryModel.

(** The names and bases of all ids, in order: the predefined ones and then those of
    the new_id calls. *)
Fixpoint registered (h : list call) : list (string * Z) :=
  match h with
  | [] => []
  | New n b :: h => (n, b) :: registered h
  | _ :: h => registered h
  end.
Definition predefined : list (string * Z) := map (fun e => (name e, base_id e)) initial_infos.
Definition known (h : list call) : list (string * Z) := predefined ++ registered h.
(** [i] is the least id of the name. *)
Definition least_id (l : list (string * Z)) (n : string) (i : nat) : Prop :=
  (exists b, nth_error l i = Some (n, b)) /\ forall j b, (j < i)%nat -> nth_error l j <> Some (n, b).
Definition unknown (l : list (string * Z)) (n : string) : Prop := forall j b, nth_error l j <> Some (n, b).
(** The ids given out by new_id. *)
Fixpoint issued (l : list answer) : list Z :=
  match l with [] => [] | Id i :: l => i :: issued l | _ :: l => issued l end.
(** The type construction of an id, as the datashape parser uses it. *)
Definition construction (r : registry) (id : Z) : option (option Z * option Z * option Z) :=
  match nth_error (infos r) (Z.to_nat id) with
  | Some e => Some (singleton e, construct e, parse_args e)
  | None => None
  end.
(** Going from an id to its base, and on, ends at the uninitialised id. *)
Inductive rooted (r : registry) : Z -> Prop :=
| rooted_0 : rooted r 0
| rooted_step i b : 0 < i -> get_base_id r i = Ok b -> rooted r b -> rooted r i.
(** All bases were ids when they were given. *)
Fixpoint bases_valid (k : Z) (h : list call) : Prop :=
  match h with
  | [] => True
  | New _ b :: h => 0 <= b < k /\ bases_valid (k + 1) h
  | _ :: h => bases_valid k h
  end.
