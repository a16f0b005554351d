(** Specification for C21-C26: substrings. *)
From Coq Require Import List ZArith.
Import ListNotations.
Open Scope Z_scope.

(** [p] occurs in [h] at byte offset [k]. *)
Definition occurs_at (h p : list Z) (k : Z) : Prop := exists a b, h = a ++ p ++ b /\ k = Z.of_nat (List.length a).

(** Scanning left to right: the text before the first occurrence of [p] in
    [a ++ p ++ s] is [a]. *)
Definition first_occurrence (p a s : list Z) : Prop := forall k, occurs_at (a ++ p ++ s) p k -> Z.of_nat (List.length a) <= k.

(** The number of non-overlapping occurrences, left to right. *)
Inductive counts (p : list Z) : list Z -> Z -> Prop :=
| ct_none s : (forall k, ~ occurs_at s p k) -> counts p s 0
| ct_hit a s c : first_occurrence p a s -> counts p s c -> counts p (a ++ p ++ s) (c + 1).

(** Replacing every one of them. *)
Inductive replaced (old new : list Z) : list Z -> list Z -> Prop :=
| rp_none s : (forall k, ~ occurs_at s old k) -> replaced old new s s
| rp_hit a s t : first_occurrence old a s -> replaced old new s t -> replaced old new (a ++ old ++ s) (a ++ new ++ t).

(** The pieces between them. *)
Inductive pieces (p : list Z) : list Z -> list (list Z) -> Prop :=
| pc_none s : (forall k, ~ occurs_at s p k) -> pieces p s [s]
| pc_hit a s ps : first_occurrence p a s -> pieces p s ps -> pieces p (a ++ p ++ s) (a :: ps).

(** Joining with a separator. *)
Fixpoint join (p : list Z) (ps : list (list Z)) : list Z :=
  match ps with
  | [] => []
  | [x] => x
  | x :: ps => x ++ p ++ join p ps
  end.

(** The needles for which the search loop does not jump over occurrences: those
    of at most two bytes and those whose last two bytes are equal. *)
Definition steady (p : list Z) : Prop :=
  (List.length p <= 2)%nat \/ exists a x, p = a ++ [x; x].

(** The one-byte needles and haystacks for which the long-haystack search reads
    beyond the end of the haystack if it is not stopped at a match. *)
Definition reads_beyond (h p : list Z) : Prop :=
  List.length p = 1%nat /\ (10 < List.length h)%nat /\ (exists k, occurs_at h p k) /\ ~ occurs_at h p (Z.of_nat (List.length h) - 1).
