(* What a call should bind. *)
From Verif Require Import Base.
Local Open Scope string_scope.

(* the value of a keyword in the list that was passed *)
Fixpoint passed {A} (name : string) (kw : list (string * A)) : option A :=
  match kw with
  | [] => None
  | (n, a) :: kw' => if n =? name then Some a else passed name kw'
  end.
