(* How objects should lie in a buffer. *)
From Verif Require Import Base.
Local Open Scope Z_scope.

(* the next multiple of eight *)
Definition round8 (n : Z) : Z := (n + 7) / 8 * 8.
(* an object followed by zeros up to the next multiple of eight *)
Definition padded (bytes : list Z) : list Z :=
  (bytes ++ repeat 0 (Z.to_nat (round8 (Z.of_nat (List.length bytes))) - List.length bytes))%list.
Definition layout (items : list (list Z)) : list Z := flat_map padded items.
