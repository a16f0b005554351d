(** C21-C26: substring search and what is built on it. *)
From Verif Require Import Base StrSearchModel StrSearchSpec StrSearchProofs StrSearchProofs2.

(** C21: find gives the smallest offset, -1 when there is none (the result is a
    valid offset exactly when there is an occurrence); contains agrees. *)
Theorem C21_find h n : n <> [] -> exists r, string_find h n = Ok r /\
  ((r = -1 /\ forall k, ~ occurs_at h n k) \/ (occurs_at h n r /\ forall k, occurs_at h n k -> r <= k)).
Proof. intros N. apply find_spec. destruct n; [congruence|]. unfold size. cbn [List.length]. lia. Qed.
Theorem C21_contains h n : n <> [] -> exists b, string_contains h n = Ok b /\ (b = true <-> exists k, occurs_at h n k).
Proof. intros N. apply contains_spec. destruct n; [congruence|]. unfold size. cbn [List.length]. lia. Qed.
Theorem C21_empty_needle h : string_find h [] = Ok (-1) /\ string_contains h [] = Ok false.
Proof. apply (count_nil h). Qed.
Print Assumptions C21_find.
Print Assumptions C21_contains.
Example C21_ex : string_find [97;98;97;98;97;99;97;98] [97;98;97;99] = Ok 2 /\ string_find [97;98;97;98;97;99;97;98] [98;98] = Ok (-1)
  /\ string_find (repeat 97 12 ++ [98]) [98] = Ok 12.
Proof. repeat split; reflexivity. Qed.

(** C22: reverse find: right for needles of two or more bytes; a one-byte needle
    is never found in a haystack of two or more bytes. *)
Theorem C22_rfind_partial h n : (2 <= List.length n)%nat -> exists r, string_rfind h n = Ok r /\
  ((r = -1 /\ forall k, ~ occurs_at h n k) \/ (occurs_at h n r /\ forall k, occurs_at h n k -> k <= r)).
Proof. intros L. apply rfind_spec. unfold size. lia. Qed.
Theorem C22_one_byte_one_byte x c : string_rfind [x] [c] = Ok (if x =? c then 0 else -1).
Proof. apply rfind_1_1. Qed.
Theorem C22_one_byte_refuted h c : (2 <= List.length h)%nat -> Z.of_nat (List.length h) < 2 ^ 63 -> string_rfind h [c] = Ok (-1).
Proof. apply rfind_1. Qed.
Theorem C22_empty h c : string_rfind h [] = Ok (-1) /\ string_rfind [] [c] = Ok (-1).
Proof. apply rfind_empty. Qed.
Print Assumptions C22_rfind_partial.
Example C22_ex : string_rfind [97;98;97;98;97;99] [97;98] = Ok 2 /\ string_rfind [97;97] [97] = Ok (-1) /\ occurs_at [97;97] [97] 1.
Proof. split; [reflexivity|split; [reflexivity|]]. exists [97], []. auto. Qed.

(** C23: counting.  Exact when the needle has at most two bytes or its last two
    bytes are equal, never too many; every other needle is counted once in the
    haystack that is the needle twice; a one-byte needle in more than ten bytes
    runs past the end of the haystack. *)
Theorem C23_count_partial h n : n <> [] -> ~ reads_beyond h n ->
  exists c, string_count h n = Ok c /\ (steady n -> counts n h c) /\ (forall c', counts n h c' -> c <= c').
Proof. intros N R. apply count_spec; auto. destruct n; [congruence|]. unfold size. cbn [List.length]. lia. Qed.
Theorem C23_count_empty_needle h : string_count h [] = Ok 0.
Proof. apply (count_nil h). Qed.
Theorem C23_adjacent_refuted n : ~ steady n -> string_count (n ++ n) n = Ok 1 /\ counts n (n ++ n) 2.
Proof. apply count_twice. Qed.
Theorem C23_overrun_refuted h n : reads_beyond h n -> string_count h n = UB.
Proof. intros R. apply count_spec; auto. destruct R as (E & _). unfold size. lia. Qed.
Theorem C23_spec_deterministic n h c c' : counts n h c -> counts n h c' -> c = c'.
Proof. intros A B. exact (counts_det n h c A c' B). Qed.
Print Assumptions C23_count_partial.
Print Assumptions C23_adjacent_refuted.
Print Assumptions C23_overrun_refuted.
Lemma not_steady_abc : ~ steady [97;98;99].
Proof.
  intros [L|(a & x & E)]; [cbn in L; lia|]. destruct a as [|a1 [|a2 [|a3 a]]]; cbn [app] in E; [discriminate E|injection E; intros; lia|discriminate E|].
  apply (f_equal (@List.length Z)) in E. cbn [List.length] in E. rewrite app_length in E. cbn [List.length] in E. lia.
Qed.
Lemma reads_beyond_ex : reads_beyond (repeat 97 11 ++ [98; 99]) [98].
Proof.
  split; [reflexivity|split; [cbn; lia|split]].
  - exists 11, (repeat 97 11), [99]. auto.
  - intros O. apply occurs1 in O. discriminate.
Qed.
Example C23_ex : string_count [97;98;99;97;98;99] [97;98;99] = Ok 1 /\ string_count [97;97;98;97;98] [97;98] = Ok 2.
Proof. split; reflexivity. Qed.

(** C24: replacing.  Without an overrun the result has old replaced at the
    positions found (src = join old ps, dst = join new ps), inside dst; it is the
    specified result for the steady needles. *)
Theorem C24_replace_partial junk src old new : old <> [] -> ~ (reads_beyond src old /\ List.length new <> 1%nat) ->
  (exists ps, src = join old ps /\ string_replace junk src old new = Ok (join new ps)) /\
  (steady old -> exists d, string_replace junk src old new = Ok d /\ replaced old new src d).
Proof.
  intros N R. assert (Hm : 1 <= size old) by (destruct old; [congruence|]; unfold size; cbn [List.length]; lia).
  assert (R' : ~ (reads_beyond src old /\ size new <> 1)) by (unfold size; intros (A & B); apply R; split; auto; lia).
  split; [now apply replace_safe|]. intros S. now apply replace_spec.
Qed.
Theorem C24_empty_old junk src new : string_replace junk src [] new = Ok src.
Proof. reflexivity. Qed.
Theorem C24_overrun_refuted junk src old new : reads_beyond src old -> List.length new <> 1%nat -> string_replace junk src old new = UB.
Proof. intros R N. apply replace_beyond; auto. unfold size. lia. Qed.
Theorem C24_adjacent_refuted : string_replace 0 [97;98;99;97;98;99] [97;98;99] [120;121;122] = Ok [120;121;122;97;98;99]
  /\ replaced [97;98;99] [120;121;122] [97;98;99;97;98;99] [120;121;122;120;121;122].
Proof.
  split; [reflexivity|].
  apply (rp_hit [97;98;99] [120;121;122] [] [97;98;99] [120;121;122]); [intros k O; apply occurs_range in O; cbn [List.length]; lia|].
  apply (rp_hit [97;98;99] [120;121;122] [] [] []); [intros k O; apply occurs_range in O; cbn [List.length]; lia|].
  constructor. intros k O. apply occurs_range in O. change (size []) with 0 in O. change (size [97;98;99]) with 3 in O. lia.
Qed.
Theorem C24_spec_deterministic old new s t t' : replaced old new s t -> replaced old new s t' -> t = t'.
Proof. intros A B. exact (replaced_det old new s t A t' B). Qed.
Print Assumptions C24_replace_partial.
Print Assumptions C24_overrun_refuted.
Example C24_ex : string_replace 0 [97;98;99;98;98;98] [98;98] [120;121;122] = Ok [97;98;99;120;121;122;98]
  /\ string_replace 0 [97;98;97] [97;98] [] = Ok [97] /\ string_replace 0 [97;98;97] [97] [122] = Ok [122;98;122].
Proof. repeat split; reflexivity. Qed.

(** C25: splitting. *)
Theorem C25_split_partial h n : n <> [] -> ~ reads_beyond h n ->
  exists ps, string_split h n = Ok ps /\ join n ps = h /\ (steady n -> pieces n h ps).
Proof. intros N R. apply split_spec; auto. destruct n; [congruence|]. unfold size. cbn [List.length]. lia. Qed.
Theorem C25_empty_needle h : string_split h [] = Ok [h].
Proof. unfold string_split. destruct (count_nil h) as (E & _). rewrite E. reflexivity. Qed.
Theorem C25_overrun_refuted h n : reads_beyond h n -> string_split h n = UB.
Proof. intros R. apply split_spec; auto. destruct R as (E & _). unfold size. lia. Qed.
Theorem C25_spec_deterministic n h ps ps' : pieces n h ps -> pieces n h ps' -> ps = ps'.
Proof. intros A B. exact (pieces_det n h ps A ps' B). Qed.
Print Assumptions C25_split_partial.
Print Assumptions C25_overrun_refuted.
Example C25_ex : string_split [97;44;44;98;99;44] [44] = Ok [[97];[];[98;99];[]] /\ string_split [97;98;99] [44] = Ok [[97;98;99]].
Proof. split; reflexivity. Qed.

(** C26 *)
Theorem C26_startswith s q : string_startswith s q = true <-> exists b, s = q ++ b.
Proof. apply startswith_spec. Qed.
Theorem C26_endswith s q : string_endswith s q = true <-> exists b, s = b ++ q.
Proof. apply endswith_spec. Qed.
Theorem C26_concat junk ss : string_concat junk ss = Ok (List.concat ss).
Proof. apply concat_spec. Qed.
Print Assumptions C26_startswith.
Print Assumptions C26_endswith.
Print Assumptions C26_concat.
Example C26_ex : string_startswith [1;2;3] [1;2] = true /\ string_endswith [1;2;3] [1;2] = false /\ string_concat 0 [[1];[];[2;3]] = Ok [1;2;3].
Proof. repeat split; reflexivity. Qed.
