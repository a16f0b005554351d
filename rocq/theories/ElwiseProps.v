(** C72-C75: element-wise application of a scalar function to arrays. *)
From Verif Require Import Base StridedModel ElwiseModel ElwiseSpec ElwiseProofs ElwiseProofs2 ElwiseProofs3 ElwiseProofs4 ElwiseProofs5.
Open Scope Z_scope.

(** Evaluates a call on types with symbolic extents. *)
Ltac ev :=
  unfold elwise_resolve, entry_ndim;
  repeat (progress (cbn -[Z.eqb]; unfold res_size, size_clash, classify, arg_bc, arg_size, arg_lead, arg_elt, res_elt;
    repeat match goal with H : (?x =? ?y) = _ |- context [?x =? ?y] => rewrite H end;
    rewrite ?Z.eqb_refl; change (-1 =? 1) with false; change (1 =? -1) with false)).

(** C72: the shape of the result.  Without a destination, for any number of
    arguments with fixed dimensions, the result has the common shape of the
    arguments, or an exception is thrown and they have none. *)
Theorem C72_common_shape : forall args, Forall (Forall (fun n => 0 <= n)) args ->
  (exists nodes shape, elwise_resolve false None (map fixed args) = Ok (nodes, fixed shape) /\
     Forall (fun n => 0 <= n) shape /\ common_shape args shape) \/
  (elwise_resolve false None (map fixed args) = Throw "broadcast error 1" /\ forall shape, ~ Forall (broadcasts shape) args).
Proof. exact resolve_variadic. Qed.
Print Assumptions C72_common_shape.
(** With a destination, the call is accepted exactly if every argument
    broadcasts to it. *)
Theorem C72_given_shape : forall d args, Forall (fun n => 0 <= n) d -> Forall (Forall (fun n => 0 <= n)) args ->
  (exists nodes, elwise_resolve false (Some (fixed d)) (map fixed args) = Ok (nodes, fixed d) /\ Forall (broadcasts d) args) \/
  (exists e, elwise_resolve false (Some (fixed d)) (map fixed args) = Throw e /\ ~ Forall (broadcasts d) args).
Proof. exact resolve_given. Qed.
Print Assumptions C72_given_shape.

(** C73: the elements, for fixed dimensions: every element of the result is the
    function of the arguments' elements at the same index, if in no argument a
    dimension of extent 1 has a longer one below it. *)
Theorem C73_fixed_partial : forall f al dst shape dstr args m ro dp x nodes,
  Forall (fun a => arg_ok a /\ ones_inner (fa_shape a)) args -> Forall (fun n => 0 <= n) shape -> (dst = None \/ dst = Some (fixed shape)) ->
  elwise_resolve false dst (map (fun a => fixed (fa_shape a)) args) = Ok (nodes, fixed shape) ->
  part_of ro m -> output_ok ro m dp dstr shape ->
  (forall idx, In idx (indices shape) -> map (fun a => ro (arg_elem a idx)) args = map Some (x idx)) ->
  applied_nd f m dp dstr shape x
    (elwise_call f al false dst (map (fun a => fixed (fa_shape a)) args) (meta shape dstr) (map (fun a => meta (fa_shape a) (fa_str a)) args) m dp (map fa_base args)).
Proof.
  intros f al dst shape dstr args m ro dp x nodes OK NS DD E Pm OO X. eapply fixed_exact; try eassumption.
  - eapply Forall_impl; [|exact OK]. intros a (A & _). exact A.
  - intros idx I. rewrite <- (X idx I). apply map_ext_in. intros a Ia. rewrite Forall_forall in OK. destruct (OK a Ia) as ((L & _) & O).
    unfold arg_elem. rewrite eff_inner by assumption. reflexivity.
Qed.
Print Assumptions C73_fixed_partial.
(** In general the strides are those of [eff_strides] ... *)
Theorem C73_exact : forall f al dst shape dstr args m ro dp x nodes,
  Forall arg_ok args -> Forall (fun n => 0 <= n) shape -> (dst = None \/ dst = Some (fixed shape)) ->
  elwise_resolve false dst (map (fun a => fixed (fa_shape a)) args) = Ok (nodes, fixed shape) ->
  part_of ro m -> output_ok ro m dp dstr shape ->
  (forall idx, In idx (indices shape) ->
     map (fun a => ro (at_ (fa_base a) (eff_strides (fa_shape a) (fa_str a)) (arg_index (fa_shape a) idx))) args = map Some (x idx)) ->
  applied_nd f m dp dstr shape x
    (elwise_call f al false dst (map (fun a => fixed (fa_shape a)) args) (meta shape dstr) (map (fun a => meta (fa_shape a) (fa_str a)) args) m dp (map fa_base args)).
Proof. exact fixed_exact. Qed.
Print Assumptions C73_exact.
(** ... so a function of one argument of shape [1; n] reads with the stride of
    the outer dimension. *)
Theorem C73_outer_one_refuted : forall f al n s0 s1 p dstr m ro dp x, 0 <= n -> n <> 1 ->
  part_of ro m -> output_ok ro m dp dstr [1; n] -> (forall j, 0 <= j < n -> ro (p + j * s0) = Some (x j)) ->
  applied_nd f m dp dstr [1; n] (fun idx => [x (nth 1 idx 0)])
    (elwise_call f al false None [[DF 1; DF n]] (meta [1; n] dstr) [[1; s0; n; s1]] m dp [p]).
Proof.
  intros f al n s0 s1 p dstr m ro dp x N0 N1 Pm OO X.
  assert (K : (n =? 1) = false) by (apply Z.eqb_neq; exact N1). assert (K' : (n =? -1) = false) by (apply Z.eqb_neq; lia).
  eapply (fixed_exact f al None [1; n] dstr [FA [1; n] [s0; s1] p] m ro dp).
  - repeat constructor; cbn; lia.
  - repeat constructor; lia.
  - left. reflexivity.
  - ev. reflexivity.
  - exact Pm.
  - exact OO.
  - intros idx I. destruct idx as [|i [|j [|? ?]]]; try (apply indices_length in I; discriminate). apply in_indices_cons in I. destruct I as (_ & I).
    apply in_single in I. cbn -[Z.eqb]. rewrite K. change (1 =? 1) with true. cbn -[Z.mul]. replace (p + 0 * 0 + j * s0) with (p + j * s0) by lia. rewrite (X j I). reflexivity.
Qed.
Print Assumptions C73_outer_one_refuted.

(** C74: arguments with var dimensions and a result of fixed dimensions: right
    for the supported combinations of types ... *)
Theorem C74_var_partial : forall f al dst shape dstr args m ro dp x nodes rt,
  dst = None /\ rt = fixed shape \/ dst = Some (fixed shape) ->
  elwise_resolve false dst (map aa_ty args) = Ok (nodes, rt) ->
  supported (List.length shape) (map aa_ty args) ->
  Forall (fun a => ones_last (aa_ty a) /\ List.length (aa_meta a) = meta_words (aa_ty a)) args ->
  part_of ro m -> output_ok ro m dp dstr shape ->
  Forall (fun a => conforms ro (aa_ty a) shape (aa_meta a) (aa_base a)) args ->
  (forall idx, In idx (indices shape) -> map (fun a => ro (locate ro (aa_ty a) shape (aa_meta a) (aa_base a) idx)) args = map Some (x idx)) ->
  applied_nd f m dp dstr shape x
    (elwise_call f al false dst (map aa_ty args) (meta shape dstr) (map aa_meta args) m dp (map aa_base args)).
Proof. exact any_arrays. Qed.
Print Assumptions C74_var_partial.
(** A var dimension whose size is neither 1 nor that of the result is an error,
    at every level. *)
Theorem C74_mismatch : forall f al ro m n ds ops zs c dst, part_of ro m -> Forall2 (o_size ro) ops zs ->
  (exists x z, In (x, z) (combine ops zs) /\ o_var x = true /\ z <> 1 /\ z <> n) ->
  single f al (KFV n ds (map o_stride ops) (map o_off ops) (map o_var ops) c) m dst (map o_ptr ops) = Throw "broadcast_error".
Proof. exact fv_throw. Qed.
Print Assumptions C74_mismatch.
(** ... and not for others.  A var array and a scalar: the result type is a var
    dimension but the kernel is that of a fixed one, which takes the address of
    the result's memory block for the number of elements. *)
Theorem C74_scalar_refuted : forall blk ds off b0 s0 o0,
  exists nodes, elwise_resolve false None [[DV]; []] = Ok (nodes, [DV]) /\
    instantiate nodes (Some [blk; ds; off]) [Some [b0; s0; o0]; Some []] = Ok (KFV blk ds [s0; 0] [o0; 0] [true; false] KLeaf).
Proof. intros. eexists. split; reflexivity. Qed.
Print Assumptions C74_scalar_refuted.
(** A var array of fewer dimensions: the kernel takes its dimension for the
    outer one too, and reads behind its arrmeta. *)
Theorem C74_fewer_dims_refuted : forall n k dm b0 s0 o0 n0 t0 n1 t1, 2 <= n -> 2 <= k -> (4 <= List.length dm)%nat ->
  exists nodes, elwise_resolve false None [[DF n; DF k]; [DV]] = Ok (nodes, [DF n; DF k]) /\
    instantiate nodes (Some dm) [Some [n0; t0; n1; t1]; Some [b0; s0; o0]] = UB.
Proof.
  intros n k dm b0 s0 o0 n0 t0 n1 t1 N K L. destruct dm as [|d0 [|d1 [|d2 [|d3 dm]]]]; cbn in L; try lia.
  assert (A1 : (n =? 1) = false) by (apply Z.eqb_neq; lia). assert (A2 : (n =? -1) = false) by (apply Z.eqb_neq; lia).
  assert (B1 : (k =? 1) = false) by (apply Z.eqb_neq; lia). assert (B2 : (k =? -1) = false) by (apply Z.eqb_neq; lia).
  ev. eexists. split; [reflexivity|]. ev. reflexivity.
Qed.
Print Assumptions C74_fewer_dims_refuted.
(** A fixed dimension beside a var dimension: the kernel steps over three words
    of its arrmeta instead of two, and reads behind its end. *)
Theorem C74_beside_var_refuted : forall n k dm b0 s0 o0 k0 u0 t0 t1, 2 <= n -> 2 <= k -> (4 <= List.length dm)%nat ->
  exists nodes, elwise_resolve false None [[DF n; DF k]; [DV; DF k]] = Ok (nodes, [DF n; DF k]) /\
    instantiate nodes (Some dm) [Some [n; t0; k; t1]; Some [b0; s0; o0; k0; u0]] = UB.
Proof.
  intros n k dm b0 s0 o0 k0 u0 t0 t1 N K L. destruct dm as [|d0 [|d1 [|d2 [|d3 dm]]]]; cbn in L; try lia.
  assert (A1 : (n =? 1) = false) by (apply Z.eqb_neq; lia). assert (A2 : (n =? -1) = false) by (apply Z.eqb_neq; lia).
  assert (B1 : (k =? 1) = false) by (apply Z.eqb_neq; lia). assert (B2 : (k =? -1) = false) by (apply Z.eqb_neq; lia).
  ev. eexists. split; [reflexivity|]. ev. reflexivity.
Qed.
Print Assumptions C74_beside_var_refuted.

(** C75: a var destination, one dimension.  If it has data, the operands
    broadcast to its size ... *)
Theorem C75_allocated : forall f al ro m blk ds doff ops zs dst b n x,
  part_of ro m -> Forall2 (o_size ro) ops zs -> m dst = Some b -> b <> 0 -> m (dst + 1) = Some n ->
  (forall z, In z zs -> z = 1 \/ z = n) -> o_values ro ops zs n x -> output_ok ro m (b + doff) [ds] [n] ->
  applied_nd f m (b + doff) [ds] [n] (fun idx => x (hd 0 idx))
    (single f al (KVF blk ds doff (map o_stride ops) (map o_off ops) (map o_fixed_size ops) (map o_var ops) KLeaf) m dst (map o_ptr ops)).
Proof. intros. eapply var_allocated; eassumption. Qed.
Print Assumptions C75_allocated.
Theorem C75_allocated_error : forall f al ro m blk ds doff ops zs dst b n,
  part_of ro m -> Forall2 (o_size ro) ops zs -> m dst = Some b -> b <> 0 -> m (dst + 1) = Some n ->
  (exists z, In z zs /\ z <> 1 /\ z <> n) ->
  single f al (KVF blk ds doff (map o_stride ops) (map o_off ops) (map o_fixed_size ops) (map o_var ops) KLeaf) m dst (map o_ptr ops) = Throw "broadcast_error".
Proof. intros. eapply var_allocated_throw; eassumption. Qed.
Print Assumptions C75_allocated_error.
(** ... and if not, it is allocated with the common size of the operands. *)
Theorem C75_fresh : forall f al ro m blk ds ops zs dst n m1 b x,
  part_of ro m -> Forall2 (o_size ro) ops zs -> m dst = Some 0 -> m (dst + 1) <> None -> ro dst = None -> ro (dst + 1) = None ->
  common_size zs n -> al m blk n = Ok (m1, b) -> part_of m m1 -> output_ok ro m1 b [ds] [n] ->
  (forall i, 0 <= i < n -> b + i * ds <> dst /\ b + i * ds <> dst + 1) -> o_values ro ops zs n x ->
  exists m2, m2 dst = Some b /\ m2 (dst + 1) = Some n /\ (forall a, a <> dst -> a <> dst + 1 -> m2 a = m1 a) /\
    applied_nd f m2 b [ds] [n] (fun idx => x (hd 0 idx))
      (single f al (KVF blk ds 0 (map o_stride ops) (map o_off ops) (map o_fixed_size ops) (map o_var ops) KLeaf) m dst (map o_ptr ops)).
Proof. intros. eapply var_fresh; eassumption. Qed.
Print Assumptions C75_fresh.
Theorem C75_fresh_error : forall f al ro m blk ds ops zs dst,
  part_of ro m -> Forall2 (o_size ro) ops zs -> m dst = Some 0 -> (forall n, ~ common_size zs n) ->
  single f al (KVF blk ds 0 (map o_stride ops) (map o_off ops) (map o_fixed_size ops) (map o_var ops) KLeaf) m dst (map o_ptr ops) = Throw "broadcast_error".
Proof. intros. eapply var_fresh_throw; eassumption. Qed.
Print Assumptions C75_fresh_error.
(** The resolution: a call whose operands are all var dimensions gets such a
    kernel and a var result; a given var destination with a var and a longer
    fixed operand gets the kernel of a fixed destination. *)
Theorem C75_resolve_partial : forall k,
  exists nodes, elwise_resolve false None (repeat [DV] (S k)) = Ok (nodes, [DV]) /\
    forall blk ds doff ms, List.length ms = S k ->
      exists c, instantiate nodes (Some [blk; ds; doff]) (map (fun q => Some [fst (fst q); snd (fst q); snd q]) ms) = Ok c /\
        c = KVF blk ds doff (map (fun q : Z * Z * Z => snd (fst q)) ms) (map snd ms) (map (fun _ => 0) ms) (map (fun _ => true) ms) KLeaf.
Proof.
  intros k.
  assert (EN : entry_ndim false None (repeat [DV] (S k)) = Ok 1%nat).
  { unfold entry_ndim. cbn. f_equal. induction k as [|k IH]; [reflexivity|exact IH]. }
  assert (CL : classify false None (repeat [DV] (S k)) = VF).
  { unfold classify. cbn. replace (forallb _ (repeat [DV] k)) with true; [reflexivity|]. symmetry. apply forallb_forall. intros t I. apply repeat_spec in I. subst t. reflexivity. }
  assert (FS : first_size 1 (repeat [DV] (S k)) = 1). { clear. induction (S k) as [|j IH]; [reflexivity|exact IH]. }
  assert (XS : existsb (size_clash 1 1) (repeat [DV] (S k)) = false). { clear. induction (S k) as [|j IH]; [reflexivity|exact IH]. }
  unfold elwise_resolve. rewrite EN. cbn [bind resolve]. rewrite CL. change (res_size false 1 None (repeat [DV] (S k))) with (first_size 1 (repeat [DV] (S k))). rewrite FS, XS.
  cbn [negb andb bind fst snd ret_dim]. eexists. split; [reflexivity|]. intros blk ds doff ms L. eexists. split; [|reflexivity].
  cbn [instantiate n_kind n_bc n_var word nth_error bind].
  assert (IV : inst_vf (map (arg_bc 1) (repeat [DV] (S k))) (map is_var (repeat [DV] (S k))) (map (fun q => Some [fst (fst q); snd (fst q); snd q]) ms) =
    Ok (map (fun q : Z * Z * Z => snd (fst q)) ms, map snd ms, map (fun _ => 0) ms, map (fun _ => Some []) ms)).
  { revert ms L. generalize (S k). induction n as [|n IH]; intros [|q ms] L; try discriminate; [reflexivity|]. injection L as L.
    cbn [repeat map inst_vf is_var word nth_error bind skip skipn]. rewrite (IH ms L). reflexivity. }
  rewrite IV. cbn [bind instantiate]. f_equal. f_equal. clear - L. revert ms L. generalize (S k). induction n as [|n IH]; intros [|q ms] L; try discriminate; [reflexivity|]. injection L as L.
  cbn [repeat map is_var]. rewrite (IH ms L). reflexivity.
Qed.
Print Assumptions C75_resolve_partial.
Theorem C75_given_refuted : forall n blk ds off b0 s0 o0 t0, 2 <= n ->
  exists nodes rt, elwise_resolve false (Some [DV]) [[DV]; [DF n]] = Ok (nodes, rt) /\
    instantiate nodes (Some [blk; ds; off]) [Some [b0; s0; o0]; Some [n; t0]] = Ok (KFV blk ds [s0; t0] [o0; 0] [true; false] KLeaf).
Proof.
  intros n blk ds off b0 s0 o0 t0 N.
  assert (A1 : (n =? 1) = false) by (apply Z.eqb_neq; lia). assert (A2 : (n =? -1) = false) by (apply Z.eqb_neq; lia).
  ev. eexists _, _. split; [reflexivity|]. ev. reflexivity.
Qed.
Print Assumptions C75_given_refuted.
(** A var destination and an argument with dimensions below: its arrmeta
    pointer is never set. *)
Theorem C75_inner_refuted : forall n k blk ds off u0 u1 t0 t1, 2 <= n -> 2 <= k ->
  exists nodes rt, elwise_resolve false (Some [DV; DF k]) [[DF n; DF k]] = Ok (nodes, rt) /\
    instantiate nodes (Some [blk; ds; off; u0; u1]) [Some [n; t0; k; t1]] = UB.
Proof.
  intros n k blk ds off u0 u1 t0 t1 N K.
  assert (A1 : (n =? 1) = false) by (apply Z.eqb_neq; lia). assert (A2 : (n =? -1) = false) by (apply Z.eqb_neq; lia).
  assert (B1 : (k =? 1) = false) by (apply Z.eqb_neq; lia). assert (B2 : (k =? -1) = false) by (apply Z.eqb_neq; lia).
  ev. eexists _, _. split; [reflexivity|]. ev. reflexivity.
Qed.
Print Assumptions C75_inner_refuted.

(** Instances.  Cells 0..9 hold 10 times their address, cells 100..119 hold 0;
    cells 50..55 are the headers (pointer, size) of three var rows. *)
Definition em : mem := fun a => if (0 <=? a) && (a <? 10) then Some (10 * a) else if (100 <=? a) && (a <? 120) then Some 0
  else if a =? 50 then Some 0 else if a =? 51 then Some 2 else if a =? 52 then Some 5 else if a =? 53 then Some 1
  else if a =? 54 then Some 7 else if a =? 55 then Some 2 else None.
Definition sum (xs : list Z) : outcome Z := Ok (fold_right Z.add 0 xs).
Definition noal : mem -> Z -> Z -> outcome (mem * Z) := fun _ _ _ => UB.
Definition show (o : outcome mem) (l : list Z) : outcome (list (option Z)) := do m <- o; Ok (map m l).
Example C72_case :
  (exists ns, elwise_resolve false None (map fixed [[2; 1]; [3]; []]) = Ok (ns, fixed [2; 3])) /\
  elwise_resolve false None (map fixed [[2; 4]; [3]]) = Throw "broadcast error 1" /\
  (exists ns, elwise_resolve false (Some (fixed [5; 2])) (map fixed [[2]; [5; 1]]) = Ok (ns, fixed [5; 2])) /\
  elwise_resolve false (Some (fixed [1])) (map fixed [[5]]) = Throw "broadcast error 1" /\
  elwise_resolve false (Some (fixed [3])) (map fixed [[2; 3]]) = Throw "broadcast_error".
Proof. repeat split; try reflexivity; eexists; reflexivity. Qed.
Example C72_common : common_shape [[2; 1]; [3]; []] [2; 3].
Proof.
  split; [right; exists [2; 1]; split; [left; reflexivity|reflexivity]|]. split.
  - constructor; [|constructor; [|constructor; [|constructor]]].
    + exists [], [2; 3]. split; [reflexivity|auto].
    + exists [2], [3]. split; [reflexivity|auto].
    + exists [2; 3], []. split; [reflexivity|constructor].
  - intros [|[|k]] n E N; cbn in E; try (injection E as <-); [exists [3]|exists [2; 1]|destruct k; discriminate]; split; cbn; auto.
Qed.
(** [2; 1] + [3]: right.  [1; 3] + [2; 3] with the default strides 0, 1: only
    the first element of the first argument is read. *)
Example C73_case :
  show (elwise_call sum noal false None [fixed [2; 1]; fixed [3]] (meta [2; 3] [3; 1]) [meta [2; 1] [1; 0]; meta [3] [1]] em 100 [0; 5]) [100; 101; 102; 103; 104; 105] =
    Ok [Some 50; Some 60; Some 70; Some 60; Some 70; Some 80] /\
  show (elwise_call sum noal false None [fixed [1; 3]; fixed [2; 3]] (meta [2; 3] [3; 1]) [meta [1; 3] [0; 1]; meta [2; 3] [3; 1]] em 100 [1; 2]) [100; 101; 102; 103; 104; 105] =
    Ok [Some 30; Some 40; Some 50; Some 60; Some 70; Some 80].
Proof. split; reflexivity. Qed.
Definition ero : mem := fun a => if (100 <=? a) && (a <? 120) then None else em a.
Example C73_case_hyp : part_of ero em /\ output_ok ero em 100 [3; 1] [2; 3] /\
  Forall (fun a => arg_ok a /\ ones_inner (fa_shape a)) [FA [2; 1] [1; 0] 0; FA [3] [1] 5].
Proof.
  split; [|split].
  - intros a v E. unfold ero in E. destruct (_ && _); [discriminate|exact E].
  - split; [reflexivity|]. split.
    + intros idx I. cbn in I. repeat destruct I as [<-|I]; try (split; [discriminate|reflexivity]). destruct I.
    + intros i j Hi Hj E. cbn in Hi, Hj. repeat destruct Hi as [<-|Hi]; try destruct Hi; repeat destruct Hj as [<-|Hj]; try destruct Hj; cbn in E; try lia; reflexivity.
  - repeat constructor; cbn; try lia.
    + intros l1 l2 E. destruct l1 as [|x [|y l1]]; cbn in E; try discriminate; [injection E as _ <-; constructor|destruct l1; discriminate].
    + intros l1 l2 E. destruct l1 as [|x l1]; cbn in E; try discriminate. destruct l1; discriminate.
Qed.
(** 3 * var + 2 (fixed result [3; 2]); a row of one element is broadcast, and a
    row of two elements does not fit a result of three. *)
Example C74_case :
  show (elwise_call sum noal false (Some (fixed [3; 2])) [[DF 3; DV]; fixed [2]] (meta [3; 2] [2; 1]) [[3; 2; 0; 1; 0]; meta [2] [1]] em 100 [50; 8]) [100; 101; 102; 103; 104; 105] =
    Ok [Some 80; Some 100; Some 130; Some 140; Some 150; Some 170] /\
  elwise_call sum noal false (Some (fixed [3; 3])) [[DF 3; DV]] (meta [3; 3] [3; 1]) [[3; 2; 0; 1; 0]] em 100 [50] = Throw "broadcast_error" /\
  supported 2 [[DF 3; DV]; fixed [2]] /\ conforms ero [DF 3; DV] [3; 2] [3; 2; 0; 1; 0] 50 /\
  locate ero [DF 3; DV] [3; 2] [3; 2; 0; 1; 0] 50 [1; 1] = 5.
Proof.
  split; [reflexivity|]. split; [reflexivity|]. split; [|split; [|reflexivity]].
  - cbn [supported]. split.
    + intros t [<-|[<-|[]]]; cbn; (split; [lia|]); (split; [intros _ t' E; discriminate|]); intros n t' u' _ _ [E|[E|[]]]; discriminate.
    + cbn. split; [|exact I]. intros t [<-|[<-|[]]]; cbn; (split; [lia|]); (split; [lia|]); intros n t' u' _ E _; [discriminate|]. injection E as <- <-. right. constructor.
  - cbn [conforms List.length Nat.ltb Nat.leb]. split; [right; reflexivity|]. intros i Hi. assert (C : i = 0 \/ i = 1 \/ i = 2) by lia.
    destruct C as [->|[->| ->]]; cbn; [exists 0, 2|exists 5, 1|exists 7, 2]; (split; [reflexivity|]); (split; [reflexivity|]); (split; [lia|]); intros j Hj; reflexivity.
Qed.
(** Two var rows and three strided cells into an empty var destination at 118. *)
Definition al4 : mem -> Z -> Z -> outcome (mem * Z) := fun m _ n => Ok (alloc_buf m 200 1 (Z.to_nat n) (fun _ => 0), 200).
Example C75_case :
  let ops := [OVar 50 1 0; OVar 52 1 1; OFix 4 2 2] in
  Forall2 (o_size ero) ops [2; 1; 2] /\ common_size [2; 1; 2] 2 /\
  show (single sum al4 (KVF 0 1 0 (map o_stride ops) (map o_off ops) (map o_fixed_size ops) (map o_var ops) KLeaf) em 118 (map o_ptr ops)) [118; 119; 200; 201; 202] =
    Ok [Some 200; Some 2; Some 100; Some 130; None] /\
  single sum al4 (KVF 0 1 0 [1; 1] [0; 0] [0; 3] [true; false] KLeaf) em 118 [50; 4] = Throw "broadcast_error" /\
  (forall n, ~ common_size [2; 3] n).
Proof.
  cbn zeta. split; [repeat constructor; discriminate|]. split; [split; [intros z [<-|[<-|[<-|[]]]]; auto|right; left; reflexivity]|].
  split; [reflexivity|]. split; [reflexivity|]. intros n (A & _). pose proof (A 2 (or_introl eq_refl)). pose proof (A 3 (or_intror (or_introl eq_refl))). lia.
Qed.
