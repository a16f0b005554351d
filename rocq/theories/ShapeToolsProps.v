(** C05-C08: shapes, strides, axis permutations. *)
From Coq Require Import Permutation Sorted.
From Verif Require Import Base ShapeToolsModel ShapeToolsSpec ShapeToolsProofs.

(** C05 *)
Theorem C05_broadcast : forall dst src,
  shape_can_broadcast dst src = true <-> broadcasts dst src.
Proof. exact shape_can_broadcast_spec. Qed.
Print Assumptions C05_broadcast.
Theorem C05_broadcast_preorder :
  (forall s, shape_can_broadcast s s = true) /\
  (forall a b c, shape_can_broadcast a b = true -> shape_can_broadcast b c = true ->
                 shape_can_broadcast a c = true).
Proof.
  exact (conj (fun s => proj2 (shape_can_broadcast_spec s s) (broadcasts_refl s))
    (fun a b c H1 H2 => proj2 (shape_can_broadcast_spec a c)
       (broadcasts_trans a b c (proj1 (shape_can_broadcast_spec a b) H1)
                               (proj1 (shape_can_broadcast_spec b c) H2)))).
Qed.
Print Assumptions C05_broadcast_preorder.
Example C05_cases :
  shape_can_broadcast [5; 3; 4] [1; 4] = true /\ shape_can_broadcast [5; 3; 4] [5; 1] = false /\
  shape_can_broadcast [3] [1; 3] = false.
Proof. repeat split. Qed.

(** C06: for every implementation of std::sort meeting its contract. *)
Theorem C06_axis_perm : forall sort strides,
  std_sort_contract sort ->
  axis_permutation (List.length strides) (strides_to_axis_perm sort strides) /\
  sorted_by (abs_stride strides) (strides_to_axis_perm sort strides).
Proof.
  exact (fun sort st H => conj (strides_to_axis_perm_perm sort st H) (strides_to_axis_perm_sorted sort st H)).
Qed.
Print Assumptions C06_axis_perm.
Theorem C06_c_order_is_reversal : forall sort strides,
  std_sort_contract sort -> c_ordered strides ->
  strides_to_axis_perm sort strides = rev (seq 0 (List.length strides)).
Proof. exact strides_to_axis_perm_c_order. Qed.
Print Assumptions C06_c_order_is_reversal.
Theorem C06_c_order_ties_low_rank : forall sort strides,
  (List.length strides <= 3)%nat ->
  (forall i j, (i < j < List.length strides)%nat -> abs_stride strides j <= abs_stride strides i) ->
  strides_to_axis_perm sort strides = rev (seq 0 (List.length strides)).
Proof. exact strides_to_axis_perm_c_order_ties. Qed.
Print Assumptions C06_c_order_ties_low_rank.

(** The sort contract is satisfiable: an insertion sort meets it. *)
Fixpoint ins (lt : nat -> nat -> bool) (x : nat) (l : list nat) : list nat :=
  match l with [] => [x] | y :: l' => if lt y x then y :: ins lt x l' else x :: l end.
Fixpoint isort (lt : nat -> nat -> bool) (l : list nat) : list nat :=
  match l with [] => [] | x :: l' => ins lt x (isort lt l') end.
Example C06_sort_exists : std_sort_contract isort.
Proof.
  intros lt l [Hirr [Htr Hinc]].
  assert (Hasym : forall x y, lt x y = true -> lt y x = false).
  { intros x y H. destruct (lt y x) eqn:E; auto. specialize (Htr _ _ _ H E). rewrite Hirr in Htr. discriminate. }
  assert (Hneg : forall x y z, lt y x = false -> lt z y = false -> lt z x = false).
  { intros x y z H1 H2. destruct (lt z x) eqn:E; auto.
    destruct (lt x y) eqn:Exy; [rewrite (Htr _ _ _ E Exy) in H2; discriminate|].
    destruct (lt y z) eqn:Eyz; [rewrite (Htr _ _ _ Eyz E) in H1; discriminate|].
    destruct (Hinc x y z) as [_ H]; auto. congruence. }
  assert (P : forall x l, Permutation (ins lt x l) (x :: l)).
  { intros x; induction l0 as [|y l' IH]; cbn; auto. destruct (lt y x); auto.
    rewrite IH. apply perm_swap. }
  split.
  - induction l as [|x l IH]; cbn; auto. now rewrite P, IH.
  - induction l as [|x l IH]; cbn; [constructor|].
    revert IH; generalize (isort lt l) as m; induction m as [|y m IHm]; cbn; intros HS; [repeat constructor|].
    apply StronglySorted_inv in HS as [HS HF]. destruct (lt y x) eqn:E.
    + constructor; auto. rewrite (P x m). constructor; auto.
    + constructor; [constructor; auto|]. constructor; auto.
      eapply Forall_impl; [|exact HF]. intros z Hz; cbn in Hz. exact (Hneg x y z E Hz).
Qed.
Example C06_case : strides_to_axis_perm isort [-24; 8; 240; 2; 0] = [4; 3; 1; 0; 2]%nat.
Proof. reflexivity. Qed.

(** C07 is violated: after computing the stride the code overwrites it with the
    extent (shape_tools.cpp:122-123). *)
Theorem C07_refuted : exists perm shape elsize out res,
  Permutation perm (seq 0 (List.length shape)) /\ List.length out = List.length shape /\
  axis_perm_to_strides perm shape elsize out = Ok res /\
  ~ packed_strides perm shape elsize res.
Proof.
  exists [1%nat; 0%nat], [3; 4], 8, [0; 0], [3; 4]; repeat split.
  - apply perm_swap.
  - intros [_ H]. specialize (H 0%nat ltac:(cbn; lia)). cbn in H. discriminate.
Qed.
Print Assumptions C07_refuted.
(** What it does instead, for every input: it stores the extents. *)
Theorem C07_actual_behaviour : forall perm shape elsize out res,
  (forall a, In a perm -> (a < List.length out)%nat) ->
  axis_perm_to_strides perm shape elsize out = Ok res ->
  List.length res = List.length out /\
  forall a, nth a res 0 = if in_dec Nat.eq_dec a perm then nth a shape 0 else nth a out 0.
Proof. exact axis_perm_to_strides_stores_shape. Qed.
Print Assumptions C07_actual_behaviour.

(** C08 *)
Theorem C08_permutation : forall ndim ops,
  axis_permutation ndim (multistrides_to_axis_perm ndim ops).
Proof. exact multistrides_perm. Qed.
Print Assumptions C08_permutation.
Theorem C08_agreeing_operands_sorted : forall ops w n, agree ops w n ->
  sorted_by w (multistrides_to_axis_perm n ops).
Proof. exact multistrides_sorted. Qed.
Print Assumptions C08_agreeing_operands_sorted.
Theorem C08_one_operand_sorted : forall strides,
  (forall i, (i < List.length strides)%nat -> nth i strides 0 <> 0) ->
  sorted_by (abs_stride strides) (multistrides_to_axis_perm (List.length strides) [strides]).
Proof. exact (fun st H => multistrides_sorted _ _ _ (agree_single st H)). Qed.
Print Assumptions C08_one_operand_sorted.
Theorem C08_c_order_is_reversal : forall n ops,
  (forall st, In st ops -> List.length st = n /\ c_ordered_bc st) ->
  multistrides_to_axis_perm n ops = rev (seq 0 n).
Proof. exact multistrides_c_order. Qed.
Print Assumptions C08_c_order_is_reversal.
Example C08_cases :
  multistrides_to_axis_perm 4 [[1; 2; 4; 8]; [0; 0; 4; 0]] = [0; 1; 2; 3]%nat /\
  multistrides_to_axis_perm 3 [[24; 0; 8]; [0; 16; 8]] = [2; 1; 0]%nat.
Proof. repeat split. Qed.
Example C08_agree_case : agree [[1; 2; 4]; [0; 20; 40]] (fun i => Z.of_nat i) 3.
Proof.
  split.
  - intros st i j [<-|[<-|[]]] Hi Hj; unfold abs_stride;
      destruct i as [|[|[|i]]]; destruct j as [|[|[|j]]]; cbn; lia.
  - intros i j Hi Hj _. exists [1; 2; 4].
    destruct i as [|[|[|i]]]; destruct j as [|[|[|j]]]; cbn; try lia; repeat split; auto; lia.
Qed.
