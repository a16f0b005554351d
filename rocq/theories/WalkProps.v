(** C155, C156: iterating over nested containers. *)
From Verif Require Import Base NestModel NestSpec WalkModel WalkSpec WalkProofs.
Open Scope Z_scope.

(** ** C155: the loop from begin<N> to end<N> over a C array of N dimensions reads all
    its elements once, in order, stops, and reads nothing else, wherever the array
    is in memory. *)
Theorem C155_array : forall dims x pre post, dims <> [] -> is_array dims x ->
  forall fuel, (List.length (leaves x) < fuel)%nat ->
  a_walk fuel dims (pre ++ leaves x ++ post) (len pre) = Ok (leaves x).
Proof.
  intros dims x pre post N A fuel FU. destruct (array_leaves dims x A) as (F & L). pose proof (elems_pos dims F) as P.
  unfold a_walk. rewrite begin_at by exact F.
  refine (loop_at dims pre (leaves x) post N F (eq_sym L) (leaves x) [] fuel eq_refl _ FU).
  intros E. rewrite E in L. cbn in L. lia.
Qed.

(** ** C156: the same for vectors of vectors, to any depth. *)
Definition C156 : Prop := forall d x, (1 <= d)%nat -> is_depth d x ->
  exists fuel, v_walk fuel d x = Ok (leaves x).

(** Refuted with two levels. *)
Theorem C156_vectors_refuted : ~ C156.
Proof.
  intros H. destruct (H 2%nat (Node [row [1]]) ltac:(lia)) as (fuel & E).
  - eexists. split; [reflexivity|]. repeat constructor. exists [Leaf 1]. split; [reflexivity|]. repeat constructor. exists 1. reflexivity.
  - destruct fuel as [|[|fuel]]; discriminate.
Qed.
(** With two levels or more no loop ever ends: not for any vectors. *)
Theorem C156_never : forall d x fuel r, (2 <= d)%nat -> v_walk fuel d x <> Ok r.
Proof.
  intros [|[|d]] x fuel r D; try lia. unfold v_walk. destruct x as [v|l]; [discriminate|]. rewrite v_begin_node, v_end_node.
  destruct l as [|y l]; [discriminate|]. set (l0 := y :: l).
  destruct (v_begin (S d) y) as [b| | |] eqn:B; cbn [bind]; try discriminate. destruct (v_begin_some _ _ _ B) as (q & i & ->).
  destruct (nth_error l0 (List.length l0 - 1)) as [z|]; cbn [bind]; try discriminate.
  destruct (v_end (S d) z) as [e| | |]; cbn [bind]; try discriminate.
  apply (loop_never l0); [exists 0%nat, q, i; split; [reflexivity|unfold l0; cbn; lia]|exists e; reflexivity].
Qed.
(** With one level it ends. *)
Theorem C156_one_partial : forall l fuel, (List.length l < fuel)%nat -> v_walk fuel 1 (row l) = Ok (leaves (row l)).
Proof.
  intros l fuel F. unfold v_walk, row. cbn [v_begin v_end bind]. rewrite map_length. pose proof (loop_one l [] [] fuel F) as H. cbn [app List.length] in H.
  rewrite H. fold (row l). rewrite leaves_row. reflexivity.
Qed.
(** With two levels and no empty vector, every element is reached by as many ++ as
    there are elements before it, and the ++ on the last one is undefined: it reads
    past the end of the outer vector. *)
Theorem C156_two_partial : forall x, is_depth 2 x -> ~ In 0 (level 0 x) -> ~ In 0 (level 1 x) ->
  (forall k v, nth_error (leaves x) k = Some v -> exists it, v_nth k 2 x = Ok it /\ v_deref it = Ok v) /\
  v_nth (List.length (leaves x)) 2 x = UB.
Proof.
  intros x D Z0 Z1. destruct (depth2_rows x D) as (rows & ->). rewrite leaves_rows.
  assert (NE : rows <> []) by (intros ->; apply Z0; left; reflexivity).
  assert (F : Forall (fun r => r <> []) rows).
  { apply Forall_forall. intros r I ->. apply Z1. cbn [level]. apply in_flat_map. exists (row []). split; [apply (in_map row); exact I|left; reflexivity]. }
  split; [|exact (last_two rows NE F)]. intros k v K. assert (KL : (k < List.length (List.concat rows))%nat) by (apply nth_error_Some; congruence).
  destruct (nth_two rows NE F k KL) as (r1 & p & w & q & r2 & E & KE & N). eexists. split; [exact N|]. rewrite deref_two.
  rewrite E in K. rewrite concat_app in K. cbn [List.concat] in K. rewrite nth_error_app2 in K by lia.
  replace (k - List.length (List.concat r1))%nat with (List.length p) in K by lia. rewrite <- app_assoc in K. cbn [app] in K. rewrite nth_mid in K. congruence.
Qed.

Print Assumptions C155_array. Print Assumptions C156_vectors_refuted. Print Assumptions C156_never. Print Assumptions C156_one_partial. Print Assumptions C156_two_partial.

(** ** Cases *)
Example case_array : is_array [2; 3] (Node [row [1; 2; 3]; row [4; 5; 6]]) /\
  a_walk 7 [2; 3] [9; 1; 2; 3; 4; 5; 6; 9] 1 = Ok [1; 2; 3; 4; 5; 6].
Proof.
  split; [|reflexivity]. cbn [is_array]. eexists. split; [reflexivity|]. split; [reflexivity|]. split; [lia|]. repeat constructor; eexists; (split; [reflexivity|]); (split; [reflexivity|]); (split; [lia|]); repeat constructor; eexists; reflexivity.
Qed.
Example case_array3 : a_walk 9 [2; 2; 2] [1; 2; 3; 4; 5; 6; 7; 8] 0 = Ok [1; 2; 3; 4; 5; 6; 7; 8].
Proof. reflexivity. Qed.
Definition Rows : nest := Node [row [1; 2]; row [3]].
Example case_vectors : is_depth 2 Rows /\ ~ In 0 (level 0 Rows) /\ ~ In 0 (level 1 Rows).
Proof.
  split; [|split; cbn; intuition discriminate]. eexists. split; [reflexivity|]. repeat constructor; eexists; (split; [reflexivity|]); repeat constructor; eexists; reflexivity.
Qed.
(** Three levels: undefined already at the end of the first matrix. *)
Example case_three : v_nth 2 3 (Node [Node [row [1; 2]]; Node [row [3]]]) = UB /\ v_walk 9 3 (Node [Node [row [1; 2]]; Node [row [3]]]) = UB.
Proof. split; reflexivity. Qed.
Example case_empty_row : exists it, v_nth 1 2 (Node [row [1]; row []; row [2]]) = Ok it /\ v_deref it = UB.
Proof. eexists. split; reflexivity. Qed.
