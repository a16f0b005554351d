(** C159: concatenate. *)
From Verif Require Import Base LinearIndexModel ConcatModel ConcatProofs.
Open Scope Z_scope.

(** The concatenation of two arrays of one dimension and the same type has the
    elements of the one and then those of the other. *)
Definition C159 : Prop := forall junk dt x y, len x + len y < 2 ^ 63 ->
  concatenate junk (Arr 1 dt x) (Arr 1 dt y) = Ok (x ++ y)%list.

Lemma concat_run : forall junk dt x y, len x + len y < 2 ^ 63 ->
  concatenate junk (Arr 1 dt x) (Arr 1 dt y) =
  (let m := map (fun i => junk (Z.of_nat i)) (seq 0 (List.length x + List.length y)) in
   do m <- assign_range m (mk_irange 0 (len x) 1) x; assign_range m (mk_irange (len x) (len m) 1) y).
Proof.
  intros junk dt x y B. unfold concatenate. cbn [ndim dtype elements]. rewrite !Z.eqb_refl. cbn [negb orb].
  unfold add64, chk64. destruct (is_s64 (len x + len y)) eqn:I;
    [|exfalso; unfold is_s64, INT64_MIN, INT64_MAX in I; unfold len in *; apply andb_false_iff in I as [I|I]; apply Z.leb_gt in I; lia].
  cbn [bind]. replace (Z.to_nat (len x + len y)) with (List.length x + List.length y)%nat by (unfold len; lia). reflexivity.
Qed.
(** Refuted: nothing can be appended by an empty array. *)
Theorem C159_empty_refuted : ~ C159.
Proof. intros H. specialize (H (fun _ => 0) 0 [1; 2] [] ltac:(reflexivity)). discriminate. Qed.
(** It holds whenever the second array is not empty. *)
Theorem C159_concat_partial : forall junk dt x y, len x + len y < 2 ^ 63 -> y <> [] ->
  concatenate junk (Arr 1 dt x) (Arr 1 dt y) = Ok (x ++ y)%list.
Proof.
  intros junk dt x y B NE. rewrite concat_run by exact B. cbv zeta.
  rewrite seq_app, map_app. set (m1 := map (fun i => junk (Z.of_nat i)) (seq 0 (List.length x))). set (m2 := map (fun i => junk (Z.of_nat i)) (seq (0 + List.length x) (List.length y))).
  assert (L1 : List.length m1 = List.length x) by (unfold m1; rewrite map_length, seq_length; reflexivity).
  assert (L2 : List.length m2 = List.length y) by (unfold m2; rewrite map_length, seq_length; reflexivity).
  pose proof (assign_mid [] m1 m2 x) as A1. cbn [app] in A1. change (len []) with 0 in A1. rewrite Z.add_0_l in A1.
  rewrite A1; [|right; intros E; rewrite E in L2; destruct y; [congruence|discriminate]|exact L1|rewrite len_app; unfold len in *; lia]. cbn [bind].
  pose proof (assign_mid x m2 [] y) as A2. rewrite !app_nil_r in A2. rewrite len_app. replace (len m2) with (len y) by (unfold len; lia).
  apply A2; [left; intros E; rewrite E in L2; destruct y; [congruence|discriminate]|exact L2|rewrite len_app; unfold len in *; lia].
Qed.
(** Exactly then: with an empty second array it always throws. *)
Theorem C159_empty_throws : forall junk dt x, len x < 2 ^ 63 ->
  concatenate junk (Arr 1 dt x) (Arr 1 dt []) = Throw "irange_out_of_bounds".
Proof.
  intros junk dt x B. rewrite concat_run by (unfold len in *; cbn; lia). cbv zeta. rewrite Nat.add_0_r. cbn [List.length]. rewrite ?Nat.add_0_r.
  set (m := map (fun i => junk (Z.of_nat i)) (seq 0 (List.length x))). assert (L : List.length m = List.length x) by (unfold m; rewrite map_length, seq_length; reflexivity).
  destruct x as [|v x].
  - reflexivity.
  - pose proof (assign_mid [] m [] (v :: x)) as A1. cbn [app] in A1. rewrite app_nil_r in A1. change (len []) with 0 in A1. rewrite Z.add_0_l in A1.
    rewrite A1; [|left; intros E; rewrite E in L; discriminate|exact L|unfold len in *; rewrite L; exact B]. cbn [bind]. rewrite app_nil_r.
    unfold assign_range. rewrite range_out; [reflexivity|]. unfold len. lia.
Qed.
(** Other dimensions or types are refused. *)
Theorem C159_refused : forall junk x y, ndim x <> 1 \/ ndim y <> 1 \/ dtype x <> dtype y -> exists e, concatenate junk x y = Throw e.
Proof.
  intros junk x y H. unfold concatenate. destruct (Z.eqb_spec (ndim x) 1), (Z.eqb_spec (ndim y) 1); cbn [negb orb]; try (eexists; reflexivity).
  destruct (Z.eqb_spec (dtype x) (dtype y)); cbn [negb]; [lia|eexists; reflexivity].
Qed.

Print Assumptions C159_empty_refuted. Print Assumptions C159_concat_partial. Print Assumptions C159_empty_throws. Print Assumptions C159_refused.

Example case_concat : concatenate (fun i => i + 100) (Arr 1 7 [1; 2]) (Arr 1 7 [3]) = Ok [1; 2; 3].
Proof. reflexivity. Qed.
Example case_first_empty : concatenate (fun i => i + 100) (Arr 1 7 []) (Arr 1 7 [3]) = Ok [3].
Proof. reflexivity. Qed.
