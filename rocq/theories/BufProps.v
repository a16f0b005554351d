(* C127: objects in a storage buffer; C128: what is destroyed. *)
From Verif Require Import Base BufModel BufSpec BufProofs.
Local Open Scope Z_scope.

(* ---------------------------------------------------------------- C127 *)
(* Any number of objects of any sizes, whatever the memory that is allocated
   contains: the buffer is the objects, each padded to a multiple of eight bytes,
   and then zeros to its end. *)
Theorem C127_layout items : Forall (fun it => Z.of_nat (List.length (fst it)) + 7 < 2 ^ 64) items ->
  let b := build items empty_buf in
  b_size b = Z.of_nat (List.length (layout (map fst items))) /\ b_size b <= b_capacity b /\
  exists m, b_data b = Some m /\ forall a, 0 <= a < b_capacity b -> m a = nth (Z.to_nat a) (layout (map fst items)) 0.
Proof.
  intros F b; destruct (holds_build items F empty_buf [] holds_empty) as (H1 & H2 & _ & _ & _ & H3); auto.
Qed.
Print Assumptions C127_layout.

Lemma round8_mod n : round8 n mod 8 = 0.
Proof. apply Z.mod_mul; lia. Qed.
Lemma layout_mod l : Z.of_nat (List.length (layout l)) mod 8 = 0.
Proof.
  induction l as [ | x l IH ]; cbn [layout flat_map]; auto; rewrite app_length, Nat2Z.inj_add, padded_length.
  rewrite Z.add_mod, round8_mod by lia; fold (layout l); rewrite IH; reflexivity.
Qed.

(* Each object is at an offset that is a multiple of eight, after the ones before
   it, and still has the bytes it was made of. *)
Theorem C127_object before bytes junk after :
  Forall (fun it => Z.of_nat (List.length (fst it)) + 7 < 2 ^ 64) (before ++ (bytes, junk) :: after) ->
  let b := build (before ++ (bytes, junk) :: after) empty_buf in
  let off := Z.of_nat (List.length (layout (map fst before))) in
  off mod 8 = 0 /\ off = b_size (build before empty_buf) /\
  off + Z.of_nat (List.length bytes) <= b_size b /\
  exists m, b_data b = Some m /\
    forall i, 0 <= i < Z.of_nat (List.length bytes) -> m (off + i) = nth (Z.to_nat i) bytes 0.
Proof.
  intros F b off; destruct (C127_layout _ F) as (SZ & LE & m & D & M); fold b in SZ, LE, D, M.
  destruct (C127_layout before (proj1 (proj1 (Forall_app _ _ _) F))) as (SZ0 & _).
  rewrite map_app, layout_app in SZ, M; cbn [map fst layout flat_map] in SZ, M.
  rewrite !app_length, !Nat2Z.inj_add, padded_length in SZ; pose proof (round8_bounds (Z.of_nat (List.length bytes))).
  split; [ apply layout_mod | split; [ auto | split; [ lia | ] ] ].
  exists m; split; auto; intros i I; rewrite M by lia.
  rewrite app_nth2 by lia; unfold padded; rewrite <- app_assoc, app_nth1 by lia; f_equal; lia.
Qed.
Print Assumptions C127_object.

(* The space that is left is zero; not more than half of the buffer is spare, and
   growing has copied at most three times as much as the buffer holds. *)
Theorem C127_spare items : Forall (fun it => Z.of_nat (List.length (fst it)) + 7 < 2 ^ 64) items ->
  let b := build items empty_buf in
  (exists m, b_data b = Some m /\ forall a, b_size b <= a < b_capacity b -> m a = 0) /\
  b_capacity b <= Z.max 128 (3 * b_size b / 2) /\ b_copied b <= 3 * b_capacity b.
Proof.
  intros F b; destruct (holds_build items F empty_buf [] holds_empty) as (H1 & H2 & H3 & H4 & H5 & m & D & M); fold b in H1, H2, H3, H4, H5, D, M.
  split; [ | lia ]; exists m; split; auto; intros a A; rewrite M by lia; apply nth_overflow; lia.
Qed.
Print Assumptions C127_spare.

Example C127_example :
  let b := build [([1; 2; 3], fun _ => 77); (repeat 5 120, fun _ => 88); ([6], fun _ => 99); (repeat 9 60, fun a => a)] empty_buf in
  b_size b = 200 /\ b_capacity b = 288 /\ b_copied b = 320 /\
  match b_data b with Some m => map m [0; 2; 3; 7; 8; 127; 128; 129; 136; 195; 196; 200; 287] = [1; 3; 0; 0; 5; 5; 6; 0; 9; 9; 0; 0; 0] | None => False end.
Proof. vm_compute; auto. Qed.

(* ---------------------------------------------------------------- C128 *)
(* Kernels, each with its child after it, with any constructor or allocation
   failing: when the destruction stays inside the buffer, it destroys the kernels
   that were constructed, once each. *)
Theorem C128_kernels_partial ks made destroyed : Forall prefixed ks -> chain ks ->
  construct ks 128 0 [] [] = Ok (made, destroyed) -> destroyed = made.
Proof.
  intros F C E; destruct (construct_spec ks [] 128 F C ltac:(cbn; lia)) as (m & r & cap & _ & _ & _ & X).
  cbn [app total placed rev map] in X; rewrite X in E.
  destruct (forallb k_child m && (cap <? total ksz m + 8)); [ discriminate | congruence ].
Qed.
Print Assumptions C128_kernels_partial.

(* When all of them are constructed, and the last one has no child, that is so. *)
Theorem C128_kernels_complete ks k : Forall prefixed (ks ++ [k]) -> chain (ks ++ [k]) -> k_child k = false ->
  Forall (fun k => k_alloc k = true /\ k_ctor k = true) (ks ++ [k]) ->
  construct (ks ++ [k]) 128 0 [] [] = Ok (map k_id (ks ++ [k]), map k_id (ks ++ [k])).
Proof.
  intros F C L A; destruct (construct_spec (ks ++ [k]) [] 128 F C ltac:(cbn; lia)) as (m & r & cap & E & _ & R & X).
  rewrite (R A), app_nil_r in E; subst m; cbn [app total placed rev map] in X; rewrite X.
  rewrite forallb_app; cbn [forallb]; rewrite L, !andb_false_r; reflexivity.
Qed.
Print Assumptions C128_kernels_complete.

(* In all cases: the kernels made are the first ones, and the destruction leaves
   the buffer exactly when the last of them has a child and fewer than eight bytes
   are left for the destructor of the child that is not there. *)
Theorem C128_kernels_exact ks : Forall prefixed ks -> chain ks -> exists made rest cap,
  ks = (made ++ rest)%list /\ total ksz made <= cap /\
  (Forall (fun k => k_alloc k = true /\ k_ctor k = true) ks -> rest = []) /\
  construct ks 128 0 [] [] =
    if forallb k_child made && (cap <? total ksz made + 8) then UB else Ok (map k_id made, map k_id made).
Proof.
  intros F C; destruct (construct_spec ks [] 128 F C ltac:(cbn; lia)) as (m & r & cap & E & T & R & X).
  exists m, r, cap; auto.
Qed.
Print Assumptions C128_kernels_exact.

(* Two kernels of 64 bytes, for example an operation on four arrays with two
   dimensions (elwise_kernel.hpp:27-38), and an exception before the third one is
   made: the destructors read past the end of the buffer. *)
Theorem C128_kernels_refuted : exists ks, Forall prefixed ks /\ chain ks /\
  Forall (fun k => k_alloc k = true /\ k_ctor k = true) ks /\ construct ks 128 0 [] [] = UB.
Proof.
  exists [Kernel 0 64 true true true; Kernel 1 64 true true true].
  repeat split; repeat constructor; cbn; try lia.
Qed.
Print Assumptions C128_kernels_refuted.

Example C128_example :
  construct [Kernel 0 40 true true true; Kernel 1 50 true true true; Kernel 2 16 false true false] 128 0 [] [] = Ok ([0; 1], [0; 1])%nat /\
  construct [Kernel 0 40 true true true; Kernel 1 50 true true true; Kernel 2 16 false true true] 128 0 [] [] = Ok ([0; 1; 2], [0; 1; 2])%nat /\
  construct [Kernel 0 40 true true true; Kernel 1 50 true true true; Kernel 2 56 false false true] 128 0 [] [] = Ok ([0; 1], [0; 1])%nat.
Proof. vm_compute; auto. Qed.

(* Call graphs: when nothing fails, every closure is destroyed once. *)
Theorem C128_graph_partial ns : Forall small ns -> Forall (fun n => n_alloc n = true /\ n_ctor n = true) ns ->
  graph ns 128 0 [] [] = Ok (map n_id ns, map n_id ns).
Proof.
  intros F A; destruct (graph_spec ns [] 128 F) as (made & rest & E & R & X); cbn [total placed rev map app] in X.
  rewrite (R A), app_nil_r in E; subst made.
  destruct X as [ (_ & n & r & Q & _) | [ (X & _) | (n & r & Q & _) ] ]; auto; rewrite (R A) in Q; discriminate.
Qed.
Print Assumptions C128_graph_partial.

(* In all cases: an allocation that fails ends in the null pointer being read; a
   closure whose constructor throws is destroyed although it does not exist. *)
Theorem C128_graph_exact ns : Forall small ns -> exists made rest, ns = (made ++ rest)%list /\
  ((graph ns 128 0 [] [] = UB /\ exists n rest', rest = n :: rest' /\ n_alloc n = false) \/
   (graph ns 128 0 [] [] = Ok (map n_id made, map n_id made) /\ rest = []) \/
   (exists n rest', rest = n :: rest' /\ n_ctor n = false /\
      graph ns 128 0 [] [] = Ok (map n_id made, map n_id made ++ [n_id n])))%list.
Proof. intros F; destruct (graph_spec ns [] 128 F) as (made & rest & E & _ & X); exists made, rest; auto. Qed.
Print Assumptions C128_graph_exact.

Theorem C128_graph_refuted : 
  (exists ns made destroyed, Forall small ns /\ graph ns 128 0 [] [] = Ok (made, destroyed) /\ destroyed <> made) /\
  (exists ns, Forall small ns /\ Forall (fun n => n_ctor n = true) ns /\ graph ns 128 0 [] [] = UB).
Proof.
  split.
  - exists [Node 0 8 true true; Node 1 8 true false], [0%nat], [0; 1]%nat.
    repeat split; try discriminate; repeat constructor; cbn; lia.
  - exists [Node 0 100 true true; Node 1 8 false true]; repeat split; repeat constructor; cbn; lia.
Qed.
Print Assumptions C128_graph_refuted.
