(* C104-C108: axis permutation, rotate and transpose, reshape, new_axis, view. *)
From Coq Require Import Permutation.
From Verif Require Import Base IterModel IterSpec IterProofs ViewsModel ViewsSpec ViewsProofs ViewsProofs2.
Local Open Scope Z_scope.

(* Some arrays for the examples: C order, int64. *)
Definition int64_t : dtp := Dtp 9 true true 8 8 false.
Definition string_t : dtp := Dtp 35 false false 16 8 false.
Definition arr23 (t : dtp) : arr := Arr 1000 [DF 2 24; DF 3 8] t.
Definition arr234 (t : dtp) : arr := Arr 1000 [DF 2 96; DF 3 32; DF 4 8] t.

(* ================= C104: permuting axes ================= *)

(* The check accepts exactly the permutations of 0 .. ndim-1. *)
Theorem C104_valid_perm axes :
  is_valid_perm axes = true <-> permutation_of (List.length axes) axes.
Proof. exact (is_valid_perm_spec axes). Qed.
Print Assumptions C104_valid_perm.

(* Axes which are not a permutation, or too many of them, are refused, and
   nothing else is, for an array of fixed dimensions. *)
Theorem C104_refused_exactly a axes :
  fixed_dims (a_dims a) -> axes <> [] ->
  ((exists e, permute a axes = Throw e) <->
   (List.length (a_dims a) < List.length axes)%nat \/ ~ permutation_of (List.length axes) axes).
Proof.
  intros F NE.
  assert (L0 : (0 < List.length axes)%nat) by (destruct axes; [ contradiction | cbn; lia ]).
  destruct (Nat.lt_ge_cases (List.length (a_dims a)) (List.length axes)) as [L | L].
  - split; [ intros _; left; exact L | intros _ ].
    unfold permute; rewrite (proj2 (Nat.ltb_lt _ _) L); eexists; reflexivity.
  - destruct (is_valid_perm axes) eqn:V.
    + pose proof (proj1 (is_valid_perm_spec axes) V) as P.
      split; [ intros [e E]; exfalso | intros [H | H]; [ lia | contradiction ] ].
      unfold permute in E; rewrite (proj2 (Nat.ltb_ge _ _) L), V in E; cbn [negb] in E.
      destruct axes as [ | a0 axes ]; [ contradiction | ].
      destruct (ptd_no_throw (a_dims a) (t_builtin (a_dtype a)) (a0 :: axes) 0 P ltac:(cbn; lia) ltac:(intros j Hj; lia) F
                  ltac:(cbn [List.length] in *; lia)) as [ [r Hr] | Hr ]; rewrite Hr in E; discriminate.
    + split; [ intros _; right; intros P; apply is_valid_perm_spec in P; congruence | intros _ ].
      unfold permute; rewrite (proj2 (Nat.ltb_ge _ _) L), V; eexists; reflexivity.
Qed.
Print Assumptions C104_refused_exactly.

(* On fixed dimensions with a builtin dtype: permute returns exactly when no
   proper prefix of the axes is mapped into itself, and then dimension k of the
   result is dimension axes[k]. In every other case the behaviour is
   undefined. *)
Theorem C104_permute_exact_partial a axes :
  fixed_dims (a_dims a) -> t_builtin (a_dtype a) = true ->
  (0 < List.length axes <= List.length (a_dims a))%nat ->
  permutation_of (List.length axes) axes ->
  (irreducible axes ->
     exists r, permute a axes = Ok r /\ a_data r = a_data a /\ a_dtype r = a_dtype a /\
               permuted axes (a_dims a) (a_dims r)) /\
  (~ irreducible axes -> permute a axes = UB).
Proof.
  intros F B L P; destruct (permute_fixed a axes F L P) as [H1 H2]; split; [ exact H1 | ].
  intros N; rewrite (H2 N), B; reflexivity.
Qed.
Print Assumptions C104_permute_exact_partial.

(* The same for any dtype (without child types). *)
Theorem C104_permute_irreducible_partial a axes :
  fixed_dims (a_dims a) -> (0 < List.length axes <= List.length (a_dims a))%nat ->
  permutation_of (List.length axes) axes -> irreducible axes ->
  exists r, permute a axes = Ok r /\ a_data r = a_data a /\ a_dtype r = a_dtype a /\
            permuted axes (a_dims a) (a_dims r).
Proof. intros F L P I; exact (proj1 (permute_fixed a axes F L P) I). Qed.
Print Assumptions C104_permute_irreducible_partial.

(* Such a result is a view of the same elements: the element at the permuted
   index is the element at the index. *)
Theorem C104_permuted_elements a r axes idx idx' :
  fixed_dims (a_dims a) -> permutation_of (List.length axes) axes ->
  (List.length axes <= List.length (a_dims a))%nat ->
  permuted axes (a_dims a) (a_dims r) -> a_data r = a_data a ->
  List.length idx = List.length (a_dims a) -> permuted axes idx idx' ->
  (in_shape idx (shape_of (a_dims a)) <-> in_shape idx' (shape_of (a_dims r))) /\
  address (a_data r) (strides_of (a_dims r)) idx' = address (a_data a) (strides_of (a_dims a)) idx.
Proof.
  intros F P L H D LI HI; split.
  - apply (permuted_in_shape axes); try assumption; [ lia | ].
    unfold shape_of; apply permuted_map; assumption.
  - unfold address; rewrite D; f_equal; apply (permuted_dot axes); try assumption; [ lia | | ].
    + unfold strides_of; rewrite map_length; lia.
    + unfold strides_of; apply permuted_map; assumption.
Qed.
Print Assumptions C104_permuted_elements.

(* var dimensions may come first if they keep their place and the fixed
   dimensions after them are permuted as one block. *)
Theorem C104_after_var_dims_partial a k ds axes :
  a_dims a = repeat DV k ++ ds -> (k < List.length axes <= k + strided_ndim ds)%nat ->
  permutation_of (List.length axes) axes ->
  (forall j, (j < k)%nat -> nth j axes 0 = Z.of_nat j) ->
  (forall m, (k < m < List.length axes)%nat -> exists j, (k <= j < m)%nat /\ Z.of_nat m <= nth j axes 0) ->
  exists r, permute a axes = Ok r /\ a_data r = a_data a /\ a_dtype r = a_dtype a /\
            permuted axes (a_dims a) (a_dims r).
Proof.
  intros E L P S I; unfold permute; rewrite E, app_length, repeat_length.
  pose proof (strided_le ds).
  destruct (Nat.ltb_spec (k + List.length ds) (List.length axes)) as [X | _]; [ lia | ].
  rewrite (proj2 (is_valid_perm_spec axes) P); cbn [negb].
  assert (HP : forall (x : outcome arr), match axes with [] => UB | _ :: _ => x end = x)
    by (intros x; destruct axes; [ cbn in L; lia | reflexivity ]).
  rewrite HP; clear HP.
  change O with (List.length (@nil dim)) at 1; rewrite (ptd_vars k [] ds); cbn [List.length Nat.add]; try lia.
  2: { intros j Hj; apply S; exact Hj. }
  assert (C : closed axes k) by (intros j Hj; unfold axis; rewrite S by exact Hj; lia).
  destruct (Z.eq_dec (axis axes k) (Z.of_nat k)) as [EK | NK].
  - assert (LK : List.length axes = (k + 1)%nat).
    { destruct (Nat.eq_dec (List.length axes) (k + 1)) as [ | X ]; [ assumption | exfalso ].
      destruct (I (k + 1)%nat ltac:(lia)) as (j & J1 & J2); replace j with k in J2 by lia; unfold axis in EK; lia. }
    rewrite ptd_last by (try assumption; lia); cbn [bind].
    eexists; split; [ reflexivity | ]; cbn [a_data a_dtype a_dims]; split; [ reflexivity | split; [ reflexivity | ] ].
    apply permuted_refl; intros j Hj; destruct (Nat.eq_dec j k) as [ -> | ]; [ exact EK | apply S; lia ].
  - pose proof (closed_rest axes k k P ltac:(lia) C ltac:(lia)).
    destruct (ptd_block (repeat DV k) ds (t_builtin (a_dtype a)) axes k) as (r & -> & Hp);
      try assumption; try lia; try (apply repeat_length).
    + apply closure_full; try assumption; lia.
    + cbn [bind]; eexists; split; [ reflexivity | ]; cbn [a_data a_dtype a_dims].
      split; [ reflexivity | split; [ reflexivity | exact Hp ] ].
Qed.
Print Assumptions C104_after_var_dims_partial.

(* The claim itself, that every permutation of the axes of an array of fixed
   dimensions is carried out, fails three ways: the identity and [0 2 1] on
   integers, [1 0 2] (undefined behaviour), and [0 2 1] on strings, where the
   array comes back as it was. *)
Theorem C104_permute_refuted :
  permute (arr23 int64_t) [0; 1] = UB /\
  permute (arr234 int64_t) [0; 2; 1] = UB /\
  permute (arr234 int64_t) [1; 0; 2] = UB /\
  permute (arr234 string_t) [0; 2; 1] = Ok (arr234 string_t) /\
  ~ permuted [0; 2; 1] (a_dims (arr234 string_t)) (a_dims (arr234 string_t)).
Proof.
  repeat split; try reflexivity.
  intros (_ & H & _); specialize (H 1%nat DV ltac:(cbn; lia)); cbn in H; discriminate.
Qed.
Print Assumptions C104_permute_refuted.

(* With a var dimension below a fixed one, the wrong dimensions are permuted:
   swapping axes 1 and 2 of fixed * var * fixed * fixed swaps axes 2 and 3. *)
Theorem C104_wrong_axes_refuted :
  permute (Arr 1000 [DF 2 16; DV; DF 3 32; DF 4 8] int64_t) [0; 2; 1] =
  Ok (Arr 1000 [DF 2 16; DV; DF 4 8; DF 3 32] int64_t).
Proof. reflexivity. Qed.
Print Assumptions C104_wrong_axes_refuted.

Example C104_example :
  permute (arr234 int64_t) [2; 0; 1] = Ok (Arr 1000 [DF 4 8; DF 2 96; DF 3 32] int64_t) /\
  irreducible [2; 0; 1] /\ permutation_of 3 [2; 0; 1] /\ fixed_dims (a_dims (arr234 int64_t)).
Proof.
  split; [ reflexivity | split; [ | split ] ].
  - intros k Hk; exists O; split; [ lia | cbn [nth List.length] in *; lia ].
  - apply (is_valid_perm_spec [2; 0; 1]); reflexivity.
  - repeat constructor; lia.
Qed.
Example C104_var_example :
  permute (Arr 1000 [DV; DF 3 32; DF 4 8] int64_t) [0; 2; 1] = Ok (Arr 1000 [DV; DF 4 8; DF 3 32] int64_t).
Proof. reflexivity. Qed.

(* ================= C105: rotate and transpose ================= *)

(* transpose reverses the dimensions of every array of one or more fixed
   dimensions, and the element at the reversed index is the same. *)
Theorem C105_transpose_partial a :
  fixed_dims (a_dims a) -> a_dims a <> [] ->
  transpose a = Ok (Arr (a_data a) (rev (a_dims a)) (a_dtype a)) /\
  forall idx, List.length idx = List.length (a_dims a) ->
  address (a_data a) (strides_of (rev (a_dims a))) (rev idx) = address (a_data a) (strides_of (a_dims a)) idx.
Proof.
  intros F NE; split.
  - unfold transpose; fold (rev_axes (List.length (a_dims a))).
    destruct (C104_permute_irreducible_partial a (rev_axes (List.length (a_dims a))) F) as (r & -> & R1 & R2 & R3).
    + rewrite rev_axes_length; destruct (a_dims a); [ contradiction | cbn; lia ].
    + apply rev_axes_perm.
    + apply rev_axes_irreducible.
    + f_equal; rewrite (permuted_unique _ _ _ _ (permuted_rev (a_dims a)) R3), <- R1, <- R2; destruct r; reflexivity.
  - intros idx L; unfold address, strides_of; rewrite map_rev, dot_rev by (rewrite map_length; exact L); reflexivity.
Qed.
Print Assumptions C105_transpose_partial.

(* A scalar cannot be transposed: an axis is read which is not there. *)
Theorem C105_transpose_scalar_refuted base t : transpose (Arr base [] t) = UB.
Proof. reflexivity. Qed.
Print Assumptions C105_transpose_scalar_refuted.

(* The dimension at from moved to position to, the others keeping their
   order. *)
Definition moved {A} (to from : nat) (l l' : list A) : Prop :=
  exists a x b c d, l = a ++ x :: b /\ List.length a = from /\ a ++ b = c ++ d /\ List.length c = to /\ l' = c ++ x :: d.

Lemma nth_cut {A} (a b : list A) x k d :
  nth k (a ++ x :: b) d =
  if (k =? List.length a)%nat then x else if (k <? List.length a)%nat then nth k (a ++ b) d else nth (k - 1) (a ++ b) d.
Proof.
  destruct (Nat.eqb_spec k (List.length a)) as [ -> | N ].
  - rewrite app_nth2, Nat.sub_diag by lia; reflexivity.
  - destruct (Nat.ltb_spec k (List.length a)) as [L | L].
    + rewrite !app_nth1 by exact L; reflexivity.
    + rewrite !app_nth2 by lia; replace (k - List.length a)%nat with (Datatypes.S (k - 1 - List.length a)) by lia; reflexivity.
Qed.

Lemma moved_permuted {A} (l : list A) to from :
  to <> from -> (to < List.length l)%nat -> (from < List.length l)%nat ->
  exists l', moved to from l l' /\ permuted (rot_axes to from) l l'.
Proof.
  intros N Ht Hf.
  destruct l as [ | x0 l0 ] eqn:EL; [ cbn in Hf; lia | rewrite <- EL in * ].
  destruct (nth_split l x0 Hf) as (a & b & E & La).
  set (x := nth from l x0) in *.
  assert (LL : List.length l = (List.length a + Datatypes.S (List.length b))%nat) by (rewrite E, app_length; reflexivity).
  set (c := firstn to (a ++ b)); set (d := skipn to (a ++ b)).
  assert (Lc : List.length c = to) by (unfold c; rewrite firstn_length, app_length; lia).
  assert (CD : a ++ b = c ++ d) by (unfold c, d; rewrite firstn_skipn; reflexivity).
  exists (c ++ x :: d); split.
  - exists a, x, b, c, d; repeat split; assumption.
  - assert (LD : List.length (c ++ x :: d) = List.length l).
    { rewrite app_length; cbn [List.length]; apply (f_equal (@List.length A)) in CD; rewrite !app_length in CD; lia. }
    split; [ exact LD | split ]; rewrite rot_axes_length by exact N; intros k dd Hk.
    + fold (axis (rot_axes to from) k); rewrite axis_rot by assumption; rewrite Nat2Z.id.
      rewrite E, !nth_cut, Lc, La, <- CD.
      assert (RS : ((k = to /\ rot_at to from k = from) \/
                   (from <= k < to /\ rot_at to from k = k + 1) \/
                   (to < k <= from /\ rot_at to from k = k - 1) \/
                   (k < to /\ k < from /\ rot_at to from k = k))%nat) by (rot_cases; lia).
      set (r := rot_at to from k) in *; clearbody r.
      destruct (Nat.eqb_spec k to); destruct (Nat.ltb_spec k to); destruct (Nat.eqb_spec r from);
        destruct (Nat.ltb_spec r from); try lia; try reflexivity; f_equal; lia.
    + rewrite E, !nth_cut, Lc, La, <- CD.
      destruct (Nat.eqb_spec k to); [ lia | ]; destruct (Nat.ltb_spec k to); [ lia | ].
      destruct (Nat.eqb_spec k from); [ lia | ]; destruct (Nat.ltb_spec k from); [ lia | reflexivity ].
Qed.

(* rotate on fixed dimensions with a builtin dtype: exact for all positions.
   It moves the dimension when one of the positions is the first one; when
   neither is, and they differ, the behaviour is undefined. *)
Theorem C105_rotate_exact_partial a to from :
  fixed_dims (a_dims a) -> t_builtin (a_dtype a) = true ->
  (to = from -> rotate a (Z.of_nat to) (Z.of_nat from) = Ok a) /\
  (to <> from -> (to < List.length (a_dims a))%nat -> (from < List.length (a_dims a))%nat ->
   (Nat.min to from = O ->
    exists r, rotate a (Z.of_nat to) (Z.of_nat from) = Ok r /\ a_data r = a_data a /\ a_dtype r = a_dtype a /\
              moved to from (a_dims a) (a_dims r)) /\
   (Nat.min to from <> O -> rotate a (Z.of_nat to) (Z.of_nat from) = UB)) /\
  (to <> from -> (List.length (a_dims a) <= Nat.max to from)%nat ->
   exists e, rotate a (Z.of_nat to) (Z.of_nat from) = Throw e).
Proof.
  intros F B; split; [ intros ->; unfold rotate; rewrite Z.eqb_refl; reflexivity | split ].
  - intros N Ht Hf; rewrite rotate_axes by exact N.
    destruct (C104_permute_exact_partial a (rot_axes to from) F B) as [H1 H2].
    { rewrite rot_axes_length by exact N; lia. }
    { apply rot_axes_perm; exact N. }
    split.
    + intros M; destruct (H1 (proj2 (rot_axes_irreducible to from N) M)) as (r & R1 & R2 & R3 & R4).
      exists r; split; [ exact R1 | split; [ exact R2 | split; [ exact R3 | ] ] ].
      destruct (moved_permuted (a_dims a) to from N Ht Hf) as (l' & M1 & M2).
      rewrite (permuted_unique _ _ _ _ R4 M2); exact M1.
    + intros M; apply H2; intros I; apply M, rot_axes_irreducible; assumption.
  - intros N L; rewrite rotate_axes by exact N; unfold permute.
    rewrite rot_axes_length by exact N.
    destruct (Nat.ltb_spec (List.length (a_dims a)) (Nat.max to from + 1)) as [_ | X]; [ eexists; reflexivity | lia ].
Qed.
Print Assumptions C105_rotate_exact_partial.

Theorem C105_rotate_refuted :
  rotate (arr234 int64_t) 2 1 = UB /\ rotate (arr234 string_t) 2 1 = Ok (arr234 string_t).
Proof. split; reflexivity. Qed.
Print Assumptions C105_rotate_refuted.

Example C105_example :
  transpose (arr23 int64_t) = Ok (Arr 1000 [DF 3 8; DF 2 24] int64_t) /\
  rotate (arr234 int64_t) 2 0 = Ok (Arr 1000 [DF 3 32; DF 4 8; DF 2 96] int64_t) /\
  rotate (arr234 int64_t) 0 2 = Ok (Arr 1000 [DF 4 8; DF 2 96; DF 3 32] int64_t).
Proof. repeat split; reflexivity. Qed.

(* ================= C106: reshape ================= *)

(* Whatever reshape returns has the shape asked for and as many elements, and
   reads the memory after the data pointer without gaps. *)
Theorem C106_reshape_result a shape r :
  reshape a shape = Ok r ->
  shape_of (a_dims r) = shape /\ product shape = product (shape_of (a_dims a)) /\
  a_data r = a_data a /\ a_dtype r = a_dtype a /\
  contiguous (a_data r) (t_size (a_dtype r)) shape (strides_of (a_dims r)).
Proof.
  intros H; destruct (reshape_ok a shape r H) as (H1 & H2 & H3 & H4 & H5 & H6 & H7).
  repeat split; try assumption.
  apply contiguous_run; rewrite H7, H1, H2; f_equal; pose proof (row_major_length shape H6); lia.
Qed.
Print Assumptions C106_reshape_result.

(* So element k (in row-major order) of the result is element k of the array
   exactly when the array itself is contiguous. *)
Theorem C106_reshape_exact_partial a shape r :
  fixed_dims (a_dims a) -> reshape a shape = Ok r ->
  (element_addresses (a_data r) shape (strides_of (a_dims r)) =
   element_addresses (a_data a) (shape_of (a_dims a)) (strides_of (a_dims a)) <->
   contiguous (a_data a) (t_size (a_dtype a)) (shape_of (a_dims a)) (strides_of (a_dims a))).
Proof.
  intros F H; destruct (reshape_ok a shape r H) as (H1 & H2 & H3 & H4 & H5 & H6 & H7).
  rewrite H7, contiguous_run.
  pose proof (row_major_length _ (shape_of_nonneg _ F)) as L.
  replace (Z.to_nat (product shape)) with (List.length (row_major (shape_of (a_dims a)))) by lia.
  split; intros E; symmetry; exact E.
Qed.
Print Assumptions C106_reshape_exact_partial.

(* An array in C order, with any strides in dimensions of size 0 or 1, is. *)
Theorem C106_c_order_contiguous a :
  fixed_dims (a_dims a) -> c_strides (t_size (a_dtype a)) (shape_of (a_dims a)) (strides_of (a_dims a)) ->
  contiguous (a_data a) (t_size (a_dtype a)) (shape_of (a_dims a)) (strides_of (a_dims a)).
Proof.
  intros F C; apply contiguous_run; rewrite (packed_addresses _ _ _ _ (shape_of_nonneg _ F) C); f_equal.
  pose proof (row_major_length _ (shape_of_nonneg _ F)); lia.
Qed.
Print Assumptions C106_c_order_contiguous.

(* When it succeeds: a shape of one or more non-negative extents whose
   partial products and strides can be represented, the same number of
   elements, and a dtype without arrmeta. *)
Theorem C106_reshape_succeeds a shape :
  shape <> [] -> Forall (fun n => 0 <= n) shape -> t_meta (a_dtype a) = false ->
  product (shape_of (a_dims a)) = product shape ->
  (forall j, s64 (product (firstn j (shape_of (a_dims a))))) -> (forall j, s64 (product (firstn j shape))) ->
  (forall j, s64 (product (skipn j shape) * t_size (a_dtype a))) ->
  exists r, reshape a shape = Ok r.
Proof.
  intros NE F M E S1 S2 S3; unfold reshape.
  change (total (shape_of (a_dims a))) with (itersize (shape_of (a_dims a))).
  change (total shape) with (itersize shape).
  rewrite (itersize_ok _ S1), (itersize_ok _ S2); cbn [bind]; rewrite E, Z.eqb_refl.
  assert (G : exists ss, reshape_strides shape (t_size (a_dtype a)) = Ok ss).
  { clear - NE S3; induction shape as [ | n shape IH ]; [ contradiction | ].
    destruct shape as [ | m shape ]; [ eexists; reflexivity | ].
    destruct IH as [ss Hss]; [ discriminate | intros j; exact (S3 (Datatypes.S j)) | ].
    change (reshape_strides (n :: m :: shape) (t_size (a_dtype a))) with
      (do ss <- reshape_strides (m :: shape) (t_size (a_dtype a)); do s <- mul64 m (hd 0 ss); Ok (s :: ss)).
    rewrite Hss; cbn [bind]; destruct (reshape_strides_hd m shape _ ss Hss) as (ss' & -> & _); cbn [hd].
    rewrite mul64_ok; [ eexists; reflexivity | ].
    specialize (S3 1%nat); cbn [skipn product fold_right] in S3; fold (product shape) in S3; rewrite Z.mul_assoc; exact S3. }
  destruct G as [ss ->]; cbn [bind]; unfold make_strided; rewrite M, (proj2 (existsb_neg shape) F).
  eexists; reflexivity.
Qed.
Print Assumptions C106_reshape_succeeds.

(* A different number of elements is refused. *)
Theorem C106_size_mismatch a shape o n :
  total (shape_of (a_dims a)) = Ok o -> total shape = Ok n -> o <> n -> exists e, reshape a shape = Throw e.
Proof.
  intros H1 H2 N; unfold reshape; rewrite H1, H2; cbn [bind]; rewrite (proj2 (Z.eqb_neq o n) N); eexists; reflexivity.
Qed.
Print Assumptions C106_size_mismatch.

(* The claim fails for the transpose of an array (the elements come out in
   memory order), for a reversed array (memory outside the array is read), for
   a scalar shape and for two negative extents. *)
Theorem C106_reshape_refuted :
  let t := Arr 1000 [DF 3 8; DF 2 24] int64_t in
  let v := Arr 1024 [DF 4 (-8)] int64_t in
  (exists r, transpose (arr23 int64_t) = Ok t /\ reshape t [6] = Ok r /\
     element_addresses (a_data t) [3; 2] [8; 24] = [1000; 1024; 1008; 1032; 1016; 1040] /\
     element_addresses (a_data r) [6] (strides_of (a_dims r)) = [1000; 1008; 1016; 1024; 1032; 1040]) /\
  (exists r, reshape v [2; 2] = Ok r /\
     element_addresses (a_data v) [4] [-8] = [1024; 1016; 1008; 1000] /\
     element_addresses (a_data r) [2; 2] (strides_of (a_dims r)) = [1024; 1032; 1040; 1048]) /\
  reshape (Arr 1000 [DF 1 8] int64_t) [] = UB /\
  reshape (Arr 1000 [DF 6 8] int64_t) [-2; -3] = UB.
Proof.
  cbv zeta; split; [ | split; [ | split; reflexivity ] ].
  - exists (Arr 1000 [DF 6 8] int64_t); repeat split; reflexivity.
  - exists (Arr 1024 [DF 2 16; DF 2 8] int64_t); repeat split; reflexivity.
Qed.
Print Assumptions C106_reshape_refuted.

Example C106_example :
  reshape (arr234 int64_t) [6; 4] = Ok (Arr 1000 [DF 6 32; DF 4 8] int64_t) /\
  c_strides 8 (shape_of (a_dims (arr234 int64_t))) (strides_of (a_dims (arr234 int64_t))).
Proof. split; [ reflexivity | cbn; repeat split; lia ]. Qed.

(* ================= C107: new_axis ================= *)

(* new_ndim dimensions of size 1 are inserted before dimension i, for every
   array (with var dimensions or not), and each element keeps its address. *)
Theorem C107_new_axis a i new_ndim :
  0 <= i <= Z.of_nat (List.length (a_dims a)) -> 0 <= new_ndim ->
  exists r, new_axis a i new_ndim = Ok r /\ a_data r = a_data a /\ a_dtype r = a_dtype a /\
    shape_of (a_dims r) =
      firstn (Z.to_nat i) (shape_of (a_dims a)) ++ repeat 1 (Z.to_nat new_ndim) ++ skipn (Z.to_nat i) (shape_of (a_dims a)) /\
    (forall before after, List.length before = Z.to_nat i ->
       address (a_data r) (strides_of (a_dims r)) (before ++ repeat 0 (Z.to_nat new_ndim) ++ after) =
       address (a_data a) (strides_of (a_dims a)) (before ++ after)).
Proof.
  intros Hi Hn; unfold new_axis, pow_dims.
  destruct (Z.ltb_spec i 0); [ lia | ]; destruct (Z.ltb_spec (Z.of_nat (List.length (a_dims a))) i); [ lia | cbn [orb] ].
  destruct (Z.ltb_spec new_ndim 0); [ lia | cbn [bind] ].
  eexists; split; [ reflexivity | ]; cbn [a_data a_dtype a_dims].
  split; [ reflexivity | split; [ reflexivity | split ] ].
  - unfold shape_of; rewrite !map_app, firstn_map, skipn_map; do 2 f_equal.
    induction (Z.to_nat new_ndim) as [ | m IH ]; cbn [repeat map dsize]; [ reflexivity | f_equal; exact IH ].
  - intros before after L; unfold address; f_equal.
    rewrite <- (firstn_skipn (Z.to_nat i) (a_dims a)) at 3.
    unfold strides_of; rewrite !map_app.
    replace (map _ (repeat (DF 1 0) (Z.to_nat new_ndim))) with (repeat 0 (Z.to_nat new_ndim))
      by (induction (Z.to_nat new_ndim) as [ | m IH ]; cbn [repeat map]; [ reflexivity | f_equal; exact IH ]).
    apply dot_new_axis; rewrite map_length, firstn_length; lia.
Qed.
Print Assumptions C107_new_axis.

(* A position outside the dimensions is refused; a negative count is not. *)
Theorem C107_bad_position a i new_ndim :
  i < 0 \/ Z.of_nat (List.length (a_dims a)) < i -> exists e, new_axis a i new_ndim = Throw e.
Proof.
  intros H; unfold new_axis; destruct (Z.ltb_spec i 0); [ eexists; reflexivity | ].
  destruct (Z.ltb_spec (Z.of_nat (List.length (a_dims a))) i); [ eexists; reflexivity | lia ].
Qed.
Print Assumptions C107_bad_position.

Theorem C107_negative_count_refuted a i n :
  0 <= i <= Z.of_nat (List.length (a_dims a)) -> n < 0 -> new_axis a i n = UB.
Proof.
  intros Hi Hn; unfold new_axis, pow_dims.
  destruct (Z.ltb_spec i 0); [ lia | ]; destruct (Z.ltb_spec (Z.of_nat (List.length (a_dims a))) i); [ lia | cbn [orb] ].
  destruct (Z.ltb_spec n 0); [ reflexivity | lia ].
Qed.
Print Assumptions C107_negative_count_refuted.

(* Adding the axes at once or one after the other is the same. *)
Theorem C107_new_axis_adds a i m n r :
  0 <= i <= Z.of_nat (List.length (a_dims a)) -> 0 <= m -> 0 <= n ->
  new_axis a i m = Ok r -> new_axis r i n = new_axis a i (m + n).
Proof.
  intros Hi Hm Hn; unfold new_axis, pow_dims.
  destruct (Z.ltb_spec i 0); [ lia | ]; destruct (Z.ltb_spec (Z.of_nat (List.length (a_dims a))) i); [ lia | cbn [orb] ].
  destruct (Z.ltb_spec m 0); [ lia | cbn [bind] ].
  intros H2; injection H2 as <-; cbn [a_dims a_data a_dtype].
  destruct (Z.ltb_spec n 0); [ lia | ]; destruct (Z.ltb_spec (m + n) 0); [ lia | cbn [bind] ].
  rewrite !app_length, repeat_length, firstn_length, skipn_length.
  match goal with |- context [Z.of_nat ?x <? i] => destruct (Z.ltb_spec (Z.of_nat x) i); [ lia | ] end.
  rewrite (firstn_app (Z.to_nat i)), (skipn_app (Z.to_nat i)), firstn_firstn, firstn_length.
  replace (Z.to_nat i - Nat.min (Z.to_nat i) (List.length (a_dims a)))%nat with O by lia.
  rewrite Nat.min_id, (skipn_all2 (firstn (Z.to_nat i) (a_dims a))) by (rewrite firstn_length; lia); cbn [firstn skipn app].
  rewrite app_nil_r; do 3 f_equal.
  rewrite app_assoc; f_equal; rewrite <- repeat_app; f_equal; lia.
Qed.
Print Assumptions C107_new_axis_adds.

Example C107_example :
  new_axis (arr23 int64_t) 1 2 = Ok (Arr 1000 [DF 2 24; DF 1 0; DF 1 0; DF 3 8] int64_t).
Proof. reflexivity. Qed.

(* ================= C108: view ================= *)

(* A view of fixed dimensions: the same elements at the same addresses, under
   the type asked for; the dtype is the same or a POD type of the same size
   which needs no more alignment, so every element stays aligned. *)
Theorem C108_view_sound a lead v r :
  fixed_dims (a_dims a) -> view_array a lead v = Ok (Some r) ->
  a_dtype r = v_dtype v /\ map (fun n => Some n) (shape_of (a_dims r)) = v_dims v /\
  a_data r = a_data a /\ a_dims r = a_dims a /\
  (t_size (a_dtype r) = t_size (a_dtype a)) /\
  (a_dtype r = a_dtype a \/ t_pod (a_dtype r) = true /\ t_pod (a_dtype a) = true) /\
  (forall addr, (exists k, t_align (a_dtype a) = t_align (v_dtype v) * k) ->
     (t_align (a_dtype a) | addr) -> (t_align (a_dtype r) | addr)).
Proof.
  intros F; unfold view_array.
  assert (SM : forall ds, fixed_dims ds -> map dsize_of ds = map (fun n => Some n) (shape_of ds)).
  { clear; intros ds F; unfold shape_of; rewrite map_map; apply map_ext_in; intros d Hd.
    destruct d; [ reflexivity | ]; unfold fixed_dims in F; rewrite Forall_forall in F; destruct (F _ Hd). }
  destruct (same_type (a_dims a) (a_dtype a) v) eqn:ES.
  - intros H; injection H as <-; unfold same_type in ES; apply andb_prop in ES as [E1 E2].
    apply odims_eqb_eq in E1; apply dtp_eqb_eq in E2.
    rewrite <- SM by exact F; repeat split; try assumption; [ left; reflexivity | intros addr _ X; exact X ].
  - clear ES; destruct (_ && (t_id (v_dtype v) =? bytes_id)); [ discriminate | ].
    destruct (_ && (t_id (a_dtype a) =? bytes_id)); [ discriminate | ].
    destruct (negb _); [ discriminate | ].
    assert (G : match try_view (a_dims a) (a_dtype a) (v_dims v) (v_dtype v) with
                | Some r0 => Ok (Some (Arr (a_data a) r0 (v_dtype v)))
                | None => Throw "Unable to view" end = Ok (Some r) ->
      a_dtype r = v_dtype v /\ map (fun n => Some n) (shape_of (a_dims r)) = v_dims v /\
      a_data r = a_data a /\ a_dims r = a_dims a /\
      (t_size (a_dtype r) = t_size (a_dtype a)) /\
      (a_dtype r = a_dtype a \/ t_pod (a_dtype r) = true /\ t_pod (a_dtype a) = true) /\
      (forall addr, (exists k, t_align (a_dtype a) = t_align (v_dtype v) * k) ->
         (t_align (a_dtype a) | addr) -> (t_align (a_dtype r) | addr))).
    { destruct (try_view _ _ _ _) as [ r0 | ] eqn:ET; [ | discriminate ].
      intros H; injection H as <-; destruct (try_view_ok _ _ _ _ _ ET) as (-> & E & V & _).
      cbn [a_dtype a_dims a_data]; rewrite <- SM by exact F; repeat split; try assumption.
      - destruct V as [ -> | (_ & _ & V & _) ]; [ reflexivity | congruence ].
      - destruct V as [ -> | (V1 & V2 & _) ]; [ left; reflexivity | right; split; assumption ].
      - intros addr [k K] [q ->]; exists (q * k); rewrite K; ring. }
    destruct (a_dims a) as [ | [n s | ] ds ] eqn:ED; [ exact G | exact G | ].
    inversion F; contradiction.
Qed.
Print Assumptions C108_view_sound.

(* An array whose outermost dimension is var can be viewed with a fixed
   dimension of the size it happens to have: the elements are those of the var
   dimension. *)
Theorem C108_var_view_sound base rest dt lead v n vrest r :
  v_dims v = Some n :: vrest -> view_array (Arr base (DV :: rest) dt) lead v = Ok (Some r) ->
  vd_size lead = n /\ a_dims r = DF (vd_size lead) (vd_stride lead) :: rest /\ a_dtype r = v_dtype v /\
  map dsize_of (a_dims r) = v_dims v /\
  (forall i, a_data r + i * vd_stride lead = vd_begin lead + vd_offset lead + i * vd_stride lead).
Proof.
  intros E; unfold view_array; cbn [a_dims a_dtype]; rewrite E.
  assert (ES : same_type (DV :: rest) dt v = false).
  { unfold same_type; rewrite E; reflexivity. }
  rewrite ES; cbn [andb].
  destruct (negb _); [ discriminate | ].
  destruct (Z.eqb_spec (vd_size lead) n) as [ <- | ]; [ | discriminate ].
  destruct (try_view rest dt vrest (v_dtype v)) as [ r0 | ] eqn:ET; [ | discriminate ].
  intros H; injection H as <-; destruct (try_view_ok _ _ _ _ _ ET) as (-> & <- & _ & _).
  cbn [a_dims a_dtype a_data map dsize_of]; repeat split.
Qed.
Print Assumptions C108_var_view_sound.

(* Which views of fixed dimensions there are: the same shape, and the same
   dtype or a POD dtype of the same size and no larger alignment. *)
Theorem C108_view_exact_partial a lead v :
  fixed_dims (a_dims a) ->
  ~ (v_dims v = [] /\ t_id (v_dtype v) = bytes_id) -> ~ (a_dims a = [] /\ t_id (a_dtype a) = bytes_id) ->
  ((exists r, view_array a lead v = Ok (Some r)) <->
   map (fun n => Some n) (shape_of (a_dims a)) = v_dims v /\
   (a_dtype a = v_dtype v \/
    t_pod (a_dtype a) = true /\ t_pod (v_dtype v) = true /\ t_size (a_dtype a) = t_size (v_dtype v) /\
    t_align (v_dtype v) <= t_align (a_dtype a))).
Proof.
  intros F NB NA.
  assert (SM : map dsize_of (a_dims a) = map (fun n => Some n) (shape_of (a_dims a))).
  { clear - F; unfold shape_of; rewrite map_map; apply map_ext_in; intros d Hd.
    destruct d; [ reflexivity | ]; unfold fixed_dims in F; rewrite Forall_forall in F; destruct (F _ Hd). }
  assert (ND : ~ In DV (a_dims a)).
  { intros X; unfold fixed_dims in F; rewrite Forall_forall in F; exact (F _ X). }
  rewrite <- SM; unfold view_array; split.
  - destruct (same_type (a_dims a) (a_dtype a) v) eqn:ES.
    + intros _; unfold same_type in ES; apply andb_prop in ES as [E1 E2].
      apply odims_eqb_eq in E1; apply dtp_eqb_eq in E2; split; [ exact E1 | left; exact E2 ].
    + destruct (_ && (t_id (v_dtype v) =? bytes_id)); [ intros [r H]; discriminate | ].
      destruct (_ && (t_id (a_dtype a) =? bytes_id)); [ intros [r H]; discriminate | ].
      destruct (negb _); [ intros [r H]; discriminate | ].
      assert (G : (exists r, match try_view (a_dims a) (a_dtype a) (v_dims v) (v_dtype v) with
                  | Some r0 => Ok (Some (Arr (a_data a) r0 (v_dtype v)))
                  | None => Throw "Unable to view" end = Ok (Some r)) ->
        map dsize_of (a_dims a) = v_dims v /\ viewable (a_dtype a) (v_dtype v)).
      { intros [r H]; destruct (try_view _ _ _ _) as [ r0 | ] eqn:ET; [ | discriminate ].
        destruct (try_view_ok _ _ _ _ _ ET) as (_ & E & V & _); split; assumption. }
      destruct (a_dims a) as [ | [n s | ] ds ] eqn:ED; [ exact G | exact G | ].
      exfalso; apply ND; left; reflexivity.
  - intros [E V].
    destruct (same_type (a_dims a) (a_dtype a) v); [ eexists; reflexivity | ].
    assert (B1 : (match v_dims v with [] => true | _ => false end) && (t_id (v_dtype v) =? bytes_id) = false).
    { destruct (v_dims v); [ | reflexivity ]; destruct (Z.eqb_spec (t_id (v_dtype v)) bytes_id); [ | reflexivity ].
      exfalso; apply NB; split; [ reflexivity | assumption ]. }
    assert (B2 : (match a_dims a with [] => true | _ => false end) && (t_id (a_dtype a) =? bytes_id) = false).
    { destruct (a_dims a); [ | reflexivity ]; destruct (Z.eqb_spec (t_id (a_dtype a)) bytes_id); [ | reflexivity ].
      exfalso; apply NA; split; [ reflexivity | assumption ]. }
    rewrite B1, B2, <- E, map_length, Nat.eqb_refl; cbn [negb].
    rewrite (try_view_complete (a_dims a) (a_dtype a) (map dsize_of (a_dims a)) (v_dtype v) eq_refl V)
      by (intros X; contradiction).
    destruct (a_dims a) as [ | [n s | ] ds ]; [ eexists; reflexivity | eexists; reflexivity | ].
    exfalso; apply ND; left; reflexivity.
Qed.
Print Assumptions C108_view_exact_partial.

(* A request either gives a view or is refused - except that viewing raw bytes
   as anything else returns the null array. *)
Theorem C108_bytes_view_refuted :
  view_array (Arr 1000 [] (Dtp bytes_id false false 16 8 false)) (VarData 0 0 0 0) (VType [] int64_t) = Ok None.
Proof. reflexivity. Qed.
Print Assumptions C108_bytes_view_refuted.

Theorem C108_null_only_for_bytes a lead v :
  view_array a lead v = Ok None -> a_dims a = [] /\ t_id (a_dtype a) = bytes_id.
Proof.
  unfold view_array; destruct (same_type (a_dims a) (a_dtype a) v); [ discriminate | ].
  destruct (_ && (t_id (v_dtype v) =? bytes_id)); [ discriminate | ].
  destruct (a_dims a) as [ | d ds ]; cbn [andb].
  - destruct (Z.eqb_spec (t_id (a_dtype a)) bytes_id); [ intros _; split; [ reflexivity | assumption ] | ].
    destruct (negb _); [ discriminate | ].
    destruct (try_view [] (a_dtype a) (v_dims v) (v_dtype v)); discriminate.
  - destruct (negb _); [ discriminate | ].
    destruct d as [n s | ]; [ destruct (try_view _ _ _ _); discriminate | ].
    destruct (v_dims v) as [ | [m | ] vds ]; try (destruct (try_view _ _ _ _); discriminate).
    destruct (vd_size lead =? m); [ | discriminate ].
    destruct (try_view _ _ _ _); discriminate.
Qed.
Print Assumptions C108_null_only_for_bytes.

Definition float64_t : dtp := Dtp 20 true true 8 8 false.
Example C108_example :
  view_array (arr23 int64_t) (VarData 0 0 0 0) (VType [Some 2; Some 3] float64_t) =
  Ok (Some (Arr 1000 [DF 2 24; DF 3 8] float64_t)) /\
  view_array (Arr 1000 [DV; DF 3 8] int64_t) (VarData 5000 2 0 24) (VType [Some 2; Some 3] float64_t) =
  Ok (Some (Arr 5000 [DF 2 24; DF 3 8] float64_t)).
Proof. split; reflexivity. Qed.
