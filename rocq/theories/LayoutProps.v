(** C43, C57, C58: the default memory layout of arrays. *)
From Coq Require Import Permutation.
From Verif Require Import Base LayoutModel LayoutSpec LayoutProofs LayoutProofs2 LayoutProofs3 LayoutProofs4 LayoutProofs5.
Open Scope Z_scope.

Lemma fits_w t : tmeta t < 2 ^ 63 -> tmeta t < W.
Proof. intros H. change (2 ^ 63) with 9223372036854775808 in H. lia. Qed.

(** C43.  After a successful default construction of the arrmeta of [t] at [a], every
    element of the array, reached by indexing in any way from the data at [d], lies
    within the [get_default_data_size] bytes at [d] and is aligned for its type; its
    arrmeta lies within the [get_arrmeta_size] bytes at [a]. *)
Theorem C43_inside_and_aligned t a d s s' p u a' d' :
  wf t -> fits t -> 0 < next s -> construct t a s = (s', true) -> at_path (am s') t a d p = Some (u, a', d') ->
  d <= d' /\ d' + default_size u <= d + default_size t /\
  (d mod alignment t = 0 -> d' mod alignment u = 0) /\
  a <= a' /\ a' + arrmeta_size u <= a + arrmeta_size t.
Proof.
  intros H (B & BM) N C E. pose proof (fits_w t BM) as BW. destruct (construct_ok t a s s' BW N C) as (L & _). destruct (at_path_place _ t a d p u a' d' H B BW L E) as ([Wu p1 p2 p3 p4 p5 p6] & _).
  pose proof (tsize_pos u Wu). pose proof (tmeta_pos u). assert (M : tmeta u < 2 ^ 63) by lia. rewrite (size_spec u), (size_spec t), (align_spec t), (align_spec u), (arrmeta_spec t), (arrmeta_spec u); auto; try lia; try (apply fits_w; auto).
Qed.
(** Elements reached by index paths that part ways do not overlap. *)
Theorem C43_disjoint t a d s s' p q u v a1 a2 d1 d2 :
  wf t -> fits t -> 0 < next s -> construct t a s = (s', true) -> diverge p q ->
  at_path (am s') t a d p = Some (u, a1, d1) -> at_path (am s') t a d q = Some (v, a2, d2) ->
  disjoint d1 (default_size u) d2 (default_size v).
Proof.
  intros H (B & BM) N C D E1 E2. pose proof (fits_w t BM) as BW. destruct (construct_ok t a s s' BW N C) as (L & _).
  destruct (at_path_place _ t a d p _ _ _ H B BW L E1) as ([W1 _ p1 _ _ _ _] & _). destruct (at_path_place _ t a d q _ _ _ H B BW L E2) as ([W2 _ p2 _ _ _ _] & _).
  pose proof (at_path_diverge _ t a d p q u v a1 a2 d1 d2 H B BW L D E1 E2) as R.
  destruct (at_path_place _ t a d p _ _ _ H B BW L E1) as ([_ l1 _ _ _ _ _] & _). destruct (at_path_place _ t a d q _ _ _ H B BW L E2) as ([_ l2 _ _ _ _ _] & _).
  rewrite (size_spec u), (size_spec v); auto; lia.
Qed.
(** The size of a type is a multiple of its alignment, so arrays of it are aligned. *)
Theorem C43_size_multiple_of_alignment t : wf t -> tsize t < 2 ^ 63 -> default_size t = tsize t /\ 0 < alignment t /\ default_size t mod alignment t = 0.
Proof.
  intros H B. pose proof (small_pos _ (salign_small t H)). rewrite (size_spec t), (align_spec t) by (auto; lia). split; [reflexivity|]. split; [lia|]. apply tsize_aligned; auto.
Qed.
(** The construction writes only its own arrmeta. *)
Theorem C43_construct_frame t a s s' : fits t -> 0 < next s -> construct t a s = (s', true) -> same_outside (am s) (am s') a (arrmeta_size t).
Proof. intros (B & BM) N C. pose proof (fits_w t BM) as BW. rewrite arrmeta_spec by auto. destruct (construct_ok t a s s' BW N C) as (_ & F & _). exact F. Qed.
(** nd::empty: when the block is at a multiple of 16, every element of the array lies in
    the allocation, after the arrmeta, and is aligned. *)
Theorem C43_buffer t base s s' p u a' d' :
  wf t -> tsize t + tmeta t < 2 ^ 62 -> base mod 16 = 0 -> 0 < next s -> construct t (base + 48) s = (s', true) ->
  at_path (am s') t (base + 48) (base + fst (buffer_layout t)) p = Some (u, a', d') ->
  base + 48 <= a' /\ a' + arrmeta_size u <= base + 48 + arrmeta_size t /\
  base + 48 + arrmeta_size t <= d' /\ d' + default_size u <= base + snd (buffer_layout t) /\ d' mod alignment u = 0.
Proof.
  intros H B BA N C E. pose proof (tsize_pos t H) as T. pose proof (tmeta_pos t) as M. pose proof (salign_small t H) as S. assert (SP : 0 < salign t) by (pose proof (small_pos _ S); lia).
  assert (F : fits t) by (split; change (2 ^ 63) with 9223372036854775808; change (2 ^ 62) with 4611686018427387904 in B; lia).
  change (2 ^ 62) with 4611686018427387904 in B.
  pose proof (roundup_spec (48 + tmeta t) (salign t) SP) as R. assert (S16 : salign t <= 16) by (unfold small_pow2 in S; lia).
  assert (OFF : fst (buffer_layout t) = roundup (48 + tmeta t) (salign t)).
  { unfold buffer_layout. cbn [fst]. rewrite arrmeta_spec, align_spec by (auto; lia). rewrite u64_id by lia. rewrite inc_spec by auto. apply u64_id. lia. }
  assert (TOT : snd (buffer_layout t) = roundup (48 + tmeta t) (salign t) + tsize t).
  { change (snd (buffer_layout t)) with (u64 (48 + u64 (u64 (fst (buffer_layout t) + default_size t) - 48))). rewrite OFF, size_spec by (auto; lia). set (o := roundup _ _) in *. rewrite (u64_id (o + tsize t)) by lia. rewrite (u64_id (o + tsize t - 48)) by lia. rewrite u64_id by lia. lia. }
  destruct (C43_inside_and_aligned t (base + 48) _ s s' p u a' d' H F N C E) as (K1 & K2 & K3 & K4 & K5). rewrite (size_spec t) in K2 by (auto; lia). rewrite (arrmeta_spec t) in * by lia. rewrite OFF in *. rewrite TOT.
  split; [lia|]. split; [lia|]. split; [lia|]. split; [lia|]. apply K3. rewrite (align_spec t) by auto. rewrite Z.add_mod by lia. rewrite (mod_trans base (salign t) 16); auto; try lia.
  - destruct R as (_ & R2). rewrite R2. reflexivity.
  - apply small_divide; auto. unfold small_pow2. tauto.
Qed.

(** The library does not check that the size fits: the size of 2^61 * float64 is
    computed as 0 bytes, and element 1 lies outside of them. *)
Definition huge : lt := FixedDim (2 ^ 61) (Builtin 8 8).
Definition start : cstate := {| am := fun _ => 0; next := 1; budget := None; released := [] |}.
Theorem C43_overflow_refuted :
  wf huge /\ default_size huge = 0 /\ at_path (am (fst (construct huge 48 start))) huge 48 64 [1] = Some (Builtin 8 8, 64, 72) /\ snd (construct huge 48 start) = true /\ snd (buffer_layout huge) = 64.
Proof.
  split; [split; [cbn; lia|]; split; [lia|]; split; [right; right; right; left; reflexivity|reflexivity]|]. split; [reflexivity|]. split; [vm_compute; reflexivity|]. split; vm_compute; reflexivity.
Qed.
(** A struct of an int8, three strings and a ragged array. *)
Definition sample : lt := Tuple [Builtin 1 1; FixedDim 3 (Leaf 16 8 true); VarDim (Tuple [Builtin 4 4; Builtin 2 2])].
Example C43_example : wf sample /\ fits sample /\ default_size sample = 72 /\ alignment sample = 8 /\ arrmeta_size sample = 80 /\
  at_path (am (fst (construct sample 48 start))) sample 48 128 [1; 2] = Some (Leaf 16 8 true, 88, 168) /\ snd (construct sample 48 start) = true /\ diverge [1; 2] [1; 0].
Proof.
  split; [cbn; repeat split; try lia; unfold small_pow2; tauto|]. split; [split; vm_compute; reflexivity|]. repeat (split; [vm_compute; reflexivity|]). exists [1], 2, 0, [], []. repeat split; discriminate.
Qed.

(** C57.  Destroying the data of an array runs the destructor of every string, bytes and
    type value in it exactly once, and of nothing else. *)
Theorem C57_destroys_each_value_once_partial t a d s s' :
  wf t -> fits t -> no_pointer t -> has_destructor t = true -> 0 < next s -> construct t a s = (s', true) ->
  exists destroyed, data_destruct (am s') t a d = Ok destroyed /\ NoDup destroyed /\
    forall x, In x destroyed <-> exists p u a', at_path (am s') t a d p = Some (u, a', x) /\ destructible u.
Proof.
  intros H (B & BM) NP HD N C. pose proof (fits_w t BM) as BW. destruct (construct_ok t a s s' BW N C) as (L & _). destruct (data_destruct_ok (am s') t a d NP HD) as (r & E & P). exists r. split; [exact E|]. split.
  - eapply Permutation_NoDup; [apply Permutation_sym; exact P|]. apply elems_nodup; auto.
  - intros x. rewrite <- elems_path. split; intros I; [exact (Permutation_in _ P I)|exact (Permutation_in _ (Permutation_sym P) I)].
Qed.
(** Types that are not flagged as having a destructor hold no such value. *)
Theorem C57_no_destructor_no_values m t a d : has_destructor t = false -> forall p u a' x, at_path m t a d p = Some (u, a', x) -> ~ destructible u.
Proof.
  intros H p u a' x E D. assert (I : In x (elems m t a d)) by (apply elems_path; eauto). rewrite no_destructor_elems in I by auto. destruct I.
Qed.
(** pointer_type takes over the flag but has no data_destruct: destroying the array
    throws out of a destructor. *)
Theorem C57_pointer_refuted : has_destructor (Pointer (Leaf 16 8 true)) = true /\ data_destruct (am (fst (construct (Pointer (Leaf 16 8 true)) 48 start))) (Pointer (Leaf 16 8 true)) 48 64 = Throw "runtime_error".
Proof. split; reflexivity. Qed.
(** 300 structs of two strings, which the library destroys in three chunks. *)
Definition pairs : lt := FixedDim 300 (Tuple [Leaf 16 8 true; Builtin 4 4; Option (Leaf 16 8 true)]).
Example C57_example : wf pairs /\ fits pairs /\ no_pointer pairs /\ has_destructor pairs = true /\ snd (construct pairs 48 start) = true /\
  exists r, data_destruct (am (fst (construct pairs 48 start))) pairs 48 128 = Ok r /\ List.length r = 600%nat.
Proof.
  split; [cbn; repeat split; try lia; unfold small_pow2; tauto|]. split; [split; vm_compute; reflexivity|]. split; [cbn; tauto|]. split; [reflexivity|]. split; [vm_compute; reflexivity|].
  remember (data_destruct (am (fst (construct pairs 48 start))) pairs 48 128) as r eqn:E. vm_compute in E. destruct r as [r| | |]; try discriminate. exists r. split; [reflexivity|]. injection E as ->. reflexivity.
Qed.

(** C58.  Destroying arrmeta after a successful construction releases exactly the blocks
    it allocated, once each. *)
Lemma interval_nodup n k : NoDup (interval n k).
Proof. unfold interval. apply FinFun.Injective_map_NoDup; [intros x y; lia|apply seq_NoDup]. Qed.
Theorem C58_construct_then_destruct t a s s' s2 :
  fits t -> 0 < next s -> construct t a s = (s', true) -> (forall x, a <= x < a + arrmeta_size t -> am s2 x = am s' x) ->
  released s' = released s /\ released (destruct t a s2) = released s2 ++ interval (next s) (next s') /\ NoDup (interval (next s) (next s')) /\ am (destruct t a s2) = am s2.
Proof.
  intros (B & BM) N C A. pose proof (fits_w t BM) as BW. rewrite arrmeta_spec in A by auto. destruct (construct_ok t a s s' BW N C) as (_ & _ & _ & R & Q). rewrite destruct_log. unfold log. cbn [released am].
  rewrite (refs_ext (am s') (am s2) t a BW A), Q. repeat split; auto. apply interval_nodup.
Qed.
(** A copy refers to the same elements and holds the same blocks (the embedded one in
    place of null), retains each of them once, leaves the source and everything else
    alone, and destroying it releases exactly what it retained. *)
Theorem C58_copy t dst src emb m m' r :
  fits t -> disjoint dst (arrmeta_size t) src (arrmeta_size t) -> copy_construct t dst src emb m = (m', r) ->
  same_outside m m' dst (arrmeta_size t) /\
  (forall d p, at_path m' t dst d p = option_map (fun x => (fst (fst x), snd (fst x) + (dst - src), snd x)) (at_path m t src d p)) /\
  held m' t dst = map (fun b => if b =? 0 then emb else b) (held m t src) /\
  r = blocks m' t dst /\
  forall s2, am s2 = m' -> released (destruct t dst s2) = released s2 ++ r.
Proof.
  intros (B & BM) D E. pose proof (fits_w t BM) as BW. rewrite arrmeta_spec in * by auto. destruct (copy_ok emb t dst src m BW D) as (C1 & C2 & C3 & C4). rewrite E in *. cbn [fst snd] in *.
  split; [exact C1|]. split; [exact C4|]. split; [exact C3|]. split; [rewrite C2; apply refs_blocks; auto|]. intros s2 <-. rewrite destruct_log, C2. reflexivity.
Qed.
(** When a construction into zeroed arrmeta runs out of memory, destroying what it left
    behind releases exactly the blocks it had allocated, for types whose tuples have at
    most one field that refers to memory blocks. *)
Theorem C58_failed_construction_partial t a s s' :
  fits t -> one_ref t -> 0 < next s -> (forall x, a <= x < a + arrmeta_size t -> am s x = 0) -> construct t a s = (s', false) ->
  released s' = released s /\ released (destruct t a s') = released s ++ interval (next s) (next s').
Proof.
  intros (B & BM) O N Z0 C. pose proof (fits_w t BM) as BW. rewrite arrmeta_spec in Z0 by auto. destruct (construct_fail_ok t a s s' O BW N Z0 C) as (_ & _ & R & Q). split; [exact R|]. rewrite destruct_log. unfold log. cbn [released]. rewrite R, Q. reflexivity.
Qed.
(** With two such fields the cleanup of the first runs on the arrmeta of the second: its
    block is released twice. *)
Definition ragged2 : lt := Tuple [VarDim (Builtin 4 4); VarDim (VarDim (Builtin 4 4))].
Definition scarce : cstate := {| am := fun _ => 0; next := 1; budget := Some 2%nat; released := [] |}.
Theorem C58_failed_construction_refuted : exists s', construct ragged2 48 scarce = (s', false) /\ next s' = 3 /\ released s' = [2] /\ released (destruct ragged2 48 s') = [2; 1; 2].
Proof.
  exists (fst (construct ragged2 48 scarce)). split; [|vm_compute; repeat split; reflexivity].
  assert (E : snd (construct ragged2 48 scarce) = false) by (vm_compute; reflexivity). destruct (construct ragged2 48 scarce) as (s', b). cbn [fst snd] in *. subst. reflexivity.
Qed.
Example C58_example : fits sample /\ released (destruct sample 48 (fst (construct sample 48 start))) = [1] /\
  snd (copy_construct sample 1048 48 7 (am (fst (construct sample 48 start)))) = [1] /\ disjoint 1048 (arrmeta_size sample) 48 (arrmeta_size sample) /\
  one_ref (VarDim (Tuple [Builtin 4 4; VarDim (Pointer (Builtin 4 4))])) /\ snd (construct (VarDim (Tuple [Builtin 4 4; VarDim (Pointer (Builtin 4 4))])) 48 scarce) = false.
Proof.
  split; [split; vm_compute; reflexivity|]. split; [vm_compute; reflexivity|]. split; [vm_compute; reflexivity|]. split; [right; vm_compute; discriminate|]. split; [cbn; repeat split; auto|vm_compute; reflexivity].
Qed.

Print Assumptions C43_inside_and_aligned.
Print Assumptions C43_disjoint.
Print Assumptions C43_size_multiple_of_alignment.
Print Assumptions C43_construct_frame.
Print Assumptions C43_buffer.
Print Assumptions C57_destroys_each_value_once_partial.
Print Assumptions C57_no_destructor_no_values.
Print Assumptions C58_construct_then_destruct.
Print Assumptions C58_copy.
Print Assumptions C58_failed_construction_partial.
