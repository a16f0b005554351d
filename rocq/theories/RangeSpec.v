(* The arithmetic progression a range stands for. *)
From Verif Require Import Base.
Local Open Scope Z_scope.

(* the values of type: width and signedness *)
Definition in_type (signed : bool) (bits v : Z) : Prop :=
  if signed then - 2 ^ (bits - 1) <= v < 2 ^ (bits - 1) else 0 <= v < 2 ^ bits.

(* begin, begin + step, ... up to but not including (or passing) end *)
Definition before (step v end_ : Z) : Prop := if 0 <? step then v < end_ else v > end_.
Definition is_range (begin end_ step : Z) (l : list Z) : Prop :=
  (forall k, (k < List.length l)%nat -> nth k l 0 = begin + Z.of_nat k * step /\ before step (nth k l 0) end_) /\
  ~ before step (begin + Z.of_nat (List.length l) * step) end_.
