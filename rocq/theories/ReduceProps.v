(** C87-C89: reductions. *)
From Verif Require Import Base ParseIntModel ParseIntSpec ParseIntProofs StridedModel ReduceModel ReduceSpec ReduceProofs ReduceProofs2.
Open Scope Z_scope.

(** ** C87: a reduction stores, for every index of the kept dimensions, the left
    fold of the operation, from the identity, over all elements with these
    coordinates in lexicographic order; nothing else is written. *)
(** Any destination: with keepdims, or with at most one kept dimension. *)
Theorem C87_reduction_partial : forall op ident keepdims axes dst_strides m dst src x v,
  let dims := map (fun a => (a_reduce a, a_size a)) axes in
  let ks := kept_strides keepdims dims dst_strides in
  let ss := map a_stride axes in
  (if keepdims then List.length dst_strides = List.length axes
   else List.length dst_strides = kept_count dims /\ (kept_count dims <= 1)%nat) ->
  regular dims ks ->
  (forall o o', in_kept dims o -> in_kept dims o' -> dot ks o = dot ks o' -> o = o') ->
  (forall o, in_kept dims o -> m (dst + dot ks o) <> None) ->
  (forall o ix, in_kept dims o -> In ix (indices dims o) -> m (src + dot ss ix) = Some (x ix)) ->
  (forall o o' ix, in_kept dims o -> in_kept dims o' -> In ix (indices dims o') -> dst + dot ks o <> src + dot ss ix) ->
  (forall o, in_kept dims o -> ofold op ident (map x (indices dims o)) = Ok (v o)) ->
  exists m', reduce_call op ident keepdims axes dst_strides m dst src = Ok m' /\
    (forall o, in_kept dims o -> m' (dst + dot ks o) = Some (v o)) /\
    (forall a, (forall o, in_kept dims o -> a <> dst + dot ks o) -> m' a = m a).
Proof. exact reduce_main. Qed.
Print Assumptions C87_reduction_partial.
(** A newly allocated result: its strides satisfy the conditions if no dimension
    is empty and no kept dimension of one element is followed by just one more,
    kept, dimension. *)
Theorem C87_new_result_partial : forall op ident keepdims axes m dst src x v,
  let dims := map (fun a => (a_reduce a, a_size a)) axes in
  let dst_strides := fst (new_strides (result_shape keepdims axes)) in
  let ks := kept_strides keepdims dims dst_strides in
  let ss := map a_stride axes in
  Forall (fun a => a_size a <> O) axes -> no_unit_before_last dims ->
  keepdims = true \/ (kept_count dims <= 1)%nat ->
  (forall o, in_kept dims o -> m (dst + dot ks o) <> None) ->
  (forall o ix, in_kept dims o -> In ix (indices dims o) -> m (src + dot ss ix) = Some (x ix)) ->
  (forall o o' ix, in_kept dims o -> in_kept dims o' -> In ix (indices dims o') -> dst + dot ks o <> src + dot ss ix) ->
  (forall o, in_kept dims o -> ofold op ident (map x (indices dims o)) = Ok (v o)) ->
  exists m', reduce_call op ident keepdims axes dst_strides m dst src = Ok m' /\
    (forall o, in_kept dims o -> m' (dst + dot ks o) = Some (v o)) /\
    (forall a, (forall o, in_kept dims o -> a <> dst + dot ks o) -> m' a = m a).
Proof.
  intros op ident keepdims axes m dst src x v dims dst_strides ks ss F U K VA X AP FO.
  assert (L : List.length dst_strides = List.length (result_shape keepdims axes)) by apply new_length.
  apply (reduce_main op ident keepdims axes dst_strides m dst src x v).
  - unfold fits. rewrite shape_length in L. destruct keepdims; [exact L|]. destruct K as [K|K]; [discriminate|]. split; [exact L|exact K].
  - apply new_regular; assumption.
  - intros o o' KO KO' E. apply (expand_inj keepdims dims); [exact KO|exact KO'|].
    fold (dims_of axes) in *. rewrite !(expand_dot keepdims axes) in E by assumption.
    apply (new_inj (result_shape keepdims axes)); [apply expand_in; exact KO|apply expand_in; exact KO'|exact E].
  - exact VA.
  - exact X.
  - exact AP.
  - exact FO.
Qed.
Print Assumptions C87_new_result_partial.
(** Elements at 0, 1, ... *)
Definition cells (xs : list Z) (dst : Z) (n : nat) : mem := fun a =>
  if (0 <=? a) && (a <? Z.of_nat (List.length xs)) then nth_error xs (Z.to_nat a)
  else if (dst <=? a) && (a <? dst + Z.of_nat n) then Some (-1) else None.
Definition read_out (o : outcome mem) (dst : Z) (n : nat) : list (option Z) :=
  match o with Ok m => map (fun i => m (dst + Z.of_nat i)) (seq 0 n) | _ => [] end.
Definition plus_op (a x : Z) : outcome Z := Ok (a + x).
Definition new_reduce (keepdims : bool) (axes : list axis) (xs : list Z) (n : nat) : outcome mem :=
  reduce_call plus_op 0 keepdims axes (fst (new_strides (result_shape keepdims axes))) (cells xs 100 n) 100 0.
(** Shape (2, 2, 2) over axis 1: two dimensions are kept; the second one gets the
    stride of the first and the result is written to the wrong places. *)
Theorem C87_two_kept_refuted : exists axes xs, Forall (fun a => a_size a <> O) axes /\
  read_out (new_reduce false axes xs 4) 100 4 <> [Some 4; Some 6; Some 12; Some 14] /\
  map (fun o => ofold plus_op 0 (map (fun ix => nth (Z.to_nat (dot [4; 2; 1] ix)) xs 0)
                  (indices (map (fun a => (a_reduce a, a_size a)) axes) o))) [[0; 0]; [0; 1]; [1; 0]; [1; 1]] = [Ok 4; Ok 6; Ok 12; Ok 14].
Proof.
  exists [AX false 2 4; AX true 2 2; AX false 2 1], [1; 2; 3; 4; 5; 6; 7; 8]. split; [repeat constructor; discriminate|].
  split; [vm_compute; discriminate|vm_compute; reflexivity].
Qed.
Print Assumptions C87_two_kept_refuted.
(** Shape (2, 1, 2) over axis 0 with keepdims: the first row is lost. *)
Theorem C87_unit_dimension_refuted : exists axes xs, Forall (fun a => a_size a <> O) axes /\
  read_out (new_reduce true axes xs 2) 100 2 = [Some 3; Some 4] /\
  map (fun o => ofold plus_op 0 (map (fun ix => nth (Z.to_nat (dot [2; 2; 1] ix)) xs 0)
                  (indices (map (fun a => (a_reduce a, a_size a)) axes) o))) [[0; 0]; [0; 1]] = [Ok 4; Ok 6].
Proof.
  exists [AX true 2 2; AX false 1 2; AX false 2 1], [1; 2; 3; 4]. split; [repeat constructor; discriminate|].
  split; vm_compute; reflexivity.
Qed.
Print Assumptions C87_unit_dimension_refuted.
(** An empty outer dimension: reducing it reads an element that does not exist;
    keeping it runs away. *)
Theorem C87_empty_refuted :
  new_reduce false [AX true 0 2; AX true 2 1] [] 1 = UB /\
  indices [(true, O); (true, 2%nat)] [] = [] /\
  new_reduce false [AX false 0 2; AX true 2 1] [] 0 = UB /\ (forall o, ~ in_kept [(false, O); (true, 2%nat)] o).
Proof.
  split; [reflexivity|]. split; [reflexivity|]. split; [reflexivity|]. intros [|k o]; cbn; [exact (fun H => H)|]. lia.
Qed.
Print Assumptions C87_empty_refuted.
(** An empty innermost dimension gives the identity. *)
Example C87_case :
  read_out (new_reduce false [AX true 2 3; AX false 3 1] [1; 2; 3; 4; 5; 6] 3) 100 3 = [Some 5; Some 7; Some 9] /\
  read_out (new_reduce true [AX false 2 3; AX true 3 1] [1; 2; 3; 4; 5; 6] 2) 100 2 = [Some 6; Some 15] /\
  read_out (new_reduce true [AX false 2 4; AX true 2 2; AX false 2 1] [1; 2; 3; 4; 5; 6; 7; 8] 4) 100 4 = [Some 4; Some 6; Some 12; Some 14] /\
  read_out (new_reduce false [AX false 2 0; AX true 0 1] [] 2) 100 2 = [Some 0; Some 0] /\
  no_unit_before_last [(false, 2%nat); (true, 2%nat); (false, 2%nat)] /\ kept_count [(true, 2%nat); (false, 3%nat)] = 1%nat.
Proof. repeat split. Qed.

(** ** C88: the predefined reductions. *)
Definition total (xs : list Z) : Z := fold_right Z.add 0 xs.
(** Sums of 8 and 16 bit and of unsigned integers are exact whenever the result
    can be represented. *)
Lemma cast_cast_add sgn b A x : 1 <= b -> cast sgn b (cast sgn b A + x) = cast sgn b (A + x).
Proof.
  intros B. unfold cast at 1 3. cbv zeta.
  assert (E : (cast sgn b A + x) mod 2 ^ b = (A + x) mod 2 ^ b); [|rewrite E; reflexivity].
  assert (0 < 2 ^ b) by (apply Z.pow_pos_nonneg; lia).
  unfold cast. cbv zeta. destruct (sgn && _).
  - replace (A mod 2 ^ b - 2 ^ b + x) with (A mod 2 ^ b + x + (-1) * 2 ^ b) by ring. rewrite Z.mod_add by lia. apply Z.add_mod_idemp_l. lia.
  - apply Z.add_mod_idemp_l. lia.
Qed.
Theorem C88_sum_partial : forall sgn b xs, 1 <= b -> sgn = false \/ b < 32 -> in_range sgn b (total xs) ->
  ofold (sum_op sgn b) sum_ident xs = Ok (total xs).
Proof.
  intros sgn b xs B N R.
  assert (O : forall a x, sum_op sgn b a x = Ok (cast sgn b (a + x))).
  { intros. unfold sum_op. destruct N as [->|N]; [reflexivity|]. destruct (Z.leb_spec 32 b); [lia|]. rewrite andb_false_r. reflexivity. }
  assert (G : forall xs A, ofold (sum_op sgn b) (cast sgn b A) xs = Ok (cast sgn b (A + total xs))).
  { clear R xs. induction xs as [|x xs IH]; intros A; cbn [ofold total fold_right]; [rewrite Z.add_0_r; reflexivity|].
    rewrite O. cbn [bind]. rewrite cast_cast_add by exact B. rewrite IH. do 2 f_equal. unfold total. ring. }
  assert (Z0 : in_range sgn b 0).
  { assert (0 < 2 ^ (b - 1)) by (apply Z.pow_pos_nonneg; lia). assert (0 < 2 ^ b) by (apply Z.pow_pos_nonneg; lia).
    unfold in_range. destruct sgn; lia. }
  specialize (G xs 0). rewrite (cast_id sgn b 0 B Z0) in G. unfold sum_ident. rewrite G. rewrite Z.add_0_l. f_equal. apply cast_id; assumption.
Qed.
Print Assumptions C88_sum_partial.
(** Sums of int32 and int64 are exact if every partial sum can be represented... *)
Theorem C88_sum_wide_partial : forall b xs, 32 <= b -> (forall p q, xs = p ++ q -> in_range true b (total p)) ->
  ofold (sum_op true b) sum_ident xs = Ok (total xs).
Proof.
  intros b xs B.
  assert (G : forall xs A, (forall p q, xs = p ++ q -> in_range true b (A + total p)) -> ofold (sum_op true b) A xs = Ok (A + total xs)).
  { clear xs. induction xs as [|x xs IH]; intros A H; cbn [ofold total fold_right]; [rewrite Z.add_0_r; reflexivity|].
    assert (H1 := H [x] xs eq_refl). cbn in H1. rewrite Z.add_0_r in H1.
    assert (O : sum_op true b A x = Ok (A + x)).
    { unfold sum_op. destruct (Z.leb_spec 32 b); [|lia]. cbn [andb]. unfold in_range, tmin, tmax in *.
      destruct (Z.leb_spec (- 2 ^ (b - 1)) (A + x)), (Z.leb_spec (A + x) (2 ^ (b - 1) - 1)); try lia. reflexivity. }
    rewrite O. cbn [bind].
    rewrite IH; [f_equal; unfold total; ring|]. intros p q E. specialize (H (x :: p) q ltac:(cbn; rewrite E; reflexivity)). cbn [total fold_right] in H.
    rewrite <- Z.add_assoc. exact H. }
  intros H. unfold sum_ident. rewrite G; [reflexivity|]. intros p q E. exact (H p q E).
Qed.
Print Assumptions C88_sum_wide_partial.
(** ... but not just the total. *)
Theorem C88_sum_refuted : exists xs, in_range true 32 (total xs) /\ ofold (sum_op true 32) sum_ident xs = UB.
Proof. exists [2147483647; 1; -1]. split; [unfold in_range; cbn; lia|reflexivity]. Qed.
Print Assumptions C88_sum_refuted.
(** min and max give the least and the greatest element. *)
Theorem C88_min : forall sgn b xs, xs <> [] -> Forall (in_range sgn b) xs ->
  exists r, ofold min_op (min_ident sgn b) xs = Ok r /\ In r xs /\ forall x, In x xs -> r <= x.
Proof.
  intros sgn b xs NE F.
  assert (G : forall xs a, exists r, ofold min_op a xs = Ok r /\ (r = a \/ In r xs) /\ r <= a /\ forall x, In x xs -> r <= x).
  { clear. induction xs as [|x xs IH]; intros a; cbn [ofold min_op bind].
    - exists a. split; [reflexivity|]. split; [left; reflexivity|]. split; [lia|]. intros x [].
    - destruct (IH (if x <? a then x else a)) as (r & E & I & L & H). exists r. split; [exact E|].
      destruct (Z.ltb_spec x a) as [C|C]; (split; [destruct I as [->|I]; [(left; reflexivity) || (right; left; reflexivity)|right; right; exact I]|];
        split; [lia|]; intros y [<-|Y]; [lia|apply H; exact Y]). }
  destruct (G xs (min_ident sgn b)) as (r & E & I & L & H). exists r. split; [exact E|]. split; [|exact H].
  destruct I as [->|I]; [|exact I]. destruct xs as [|x xs]; [contradiction|].
  assert (F0 := Forall_inv F). specialize (H x (or_introl eq_refl)). left.
  unfold in_range, min_ident, tmax in *. destruct sgn; lia.
Qed.
Print Assumptions C88_min.
Theorem C88_max : forall sgn b xs, xs <> [] -> Forall (in_range sgn b) xs ->
  exists r, ofold max_op (max_ident sgn b) xs = Ok r /\ In r xs /\ forall x, In x xs -> x <= r.
Proof.
  intros sgn b xs NE F.
  assert (G : forall xs a, exists r, ofold max_op a xs = Ok r /\ (r = a \/ In r xs) /\ a <= r /\ forall x, In x xs -> x <= r).
  { clear. induction xs as [|x xs IH]; intros a; cbn [ofold max_op bind].
    - exists a. split; [reflexivity|]. split; [left; reflexivity|]. split; [lia|]. intros x [].
    - destruct (IH (if a <? x then x else a)) as (r & E & I & L & H). exists r. split; [exact E|].
      destruct (Z.ltb_spec a x) as [C|C]; (split; [destruct I as [->|I]; [(left; reflexivity) || (right; left; reflexivity)|right; right; exact I]|];
        split; [lia|]; intros y [<-|Y]; [lia|apply H; exact Y]). }
  destruct (G xs (max_ident sgn b)) as (r & E & I & L & H). exists r. split; [exact E|]. split; [|exact H].
  destruct I as [->|I]; [|exact I]. destruct xs as [|x xs]; [contradiction|].
  assert (F0 := Forall_inv F). specialize (H x (or_introl eq_refl)). left.
  unfold in_range, max_ident, tmin in *. destruct sgn; lia.
Qed.
Print Assumptions C88_max.
(** all is true when every element is. *)
Theorem C88_all : forall xs, ofold all_op all_ident xs = Ok (if forallb (fun x => negb (x =? 0)) xs then 1 else 0).
Proof.
  assert (G : forall xs a, ofold all_op a xs = Ok (match xs with [] => a | _ => if negb (a =? 0) && forallb (fun x => negb (x =? 0)) xs then 1 else 0 end)).
  { induction xs as [|x xs IH]; intros a; [reflexivity|]. cbn [ofold all_op bind forallb]. rewrite IH.
    destruct xs as [|y xs]; [cbn [forallb]; rewrite andb_true_r; reflexivity|].
    destruct (a =? 0), (x =? 0); cbn [negb andb Z.eqb]; reflexivity. }
  intros xs. rewrite G. destruct xs; reflexivity.
Qed.
Print Assumptions C88_all.
Example C88_case : ofold (sum_op true 8) sum_ident [100; 100; -100] = Ok 100 /\ in_range true 8 (total [100; 100; -100]) /\
  ofold (sum_op true 32) sum_ident [1; 2; 3] = Ok 6 /\ ofold min_op (min_ident true 8) [3; -5; 2] = Ok (-5) /\
  ofold max_op (max_ident false 8) [3; 7; 2] = Ok 7 /\ ofold all_op all_ident [1; 0; 1] = Ok 0.
Proof. repeat split; try reflexivity; unfold in_range; cbn; lia. Qed.

(** ** C89: the axes argument selects the dimensions to reduce, and the result has
    the others. *)
Theorem C89_axes_partial : forall axes dims k d, nth_error dims k = Some d ->
  exists a, nth_error (axes_from axes 0 dims) k = Some a /\ a_size a = fst d /\ a_stride a = snd d /\
    (a_reduce a = true <-> match axes with None => True | Some l => In (Z.of_nat k) l end).
Proof.
  intros axes dims. assert (G : forall dims k d k0, nth_error dims k = Some d ->
    exists a, nth_error (axes_from axes k0 dims) k = Some a /\ a_size a = fst d /\ a_stride a = snd d /\
      (a_reduce a = true <-> match axes with None => True | Some l => In (k0 + Z.of_nat k) l end)).
  { clear dims. induction dims as [|(n & s) dims IH]; intros k d k0 E; [destruct k; discriminate|].
    destruct k as [|k]; cbn in E.
    - inversion E; subst d. eexists. split; [reflexivity|]. cbn [a_size a_stride a_reduce fst snd]. split; [reflexivity|]. split; [reflexivity|].
      rewrite Z.add_0_r. unfold reduced_axis. destruct axes as [l|]; [|split; auto]. rewrite existsb_exists. split.
      + intros (y & I & Q). apply Z.eqb_eq in Q. subst y. exact I.
      + intros I. exists k0. split; [exact I|apply Z.eqb_refl].
    - destruct (IH k d (k0 + 1) E) as (a & A1 & A2 & A3 & A4). exists a. split; [exact A1|]. split; [exact A2|]. split; [exact A3|].
      rewrite A4. replace (k0 + 1 + Z.of_nat k) with (k0 + Z.of_nat (S k)) by lia. reflexivity. }
  intros k d E. exact (G dims k d 0 E).
Qed.
Print Assumptions C89_axes_partial.
(** The shape of the result. *)
Theorem C89_shape : forall axes,
  result_shape false axes = map a_size (filter (fun a => negb (a_reduce a)) axes) /\
  result_shape true axes = map (fun a => if a_reduce a then 1%nat else a_size a) axes.
Proof.
  induction axes as [|[[] n s] axes (IH1 & IH2)]; cbn; [split; reflexivity| |]; rewrite IH1, IH2; split; reflexivity.
Qed.
Print Assumptions C89_shape.
(** Axes outside the array, also negative ones, are silently ignored: the sum over
    axis -1 is the array itself. *)
Theorem C89_out_of_range_refuted : exists l dims, (forall k, In k l -> ~ (0 <= k < Z.of_nat (List.length dims))) /\ l <> [] /\
  read_out (new_reduce false (axes_from (Some l) 0 dims) [1; 2; 3] 3) 100 3 = [Some 1; Some 2; Some 3].
Proof.
  exists [-1], [(3%nat, 1)]. split; [intros k [<-|[]]; cbn; lia|]. split; [discriminate|]. vm_compute. reflexivity.
Qed.
Print Assumptions C89_out_of_range_refuted.
Example C89_case : map a_reduce (axes_from (Some [0; 2]) 0 [(2%nat, 6); (3%nat, 2); (2%nat, 1)]) = [true; false; true] /\
  result_shape true (axes_from (Some [0; 2]) 0 [(2%nat, 6); (3%nat, 2); (2%nat, 1)]) = [1; 3; 1]%nat.
Proof. split; reflexivity. Qed.
