(* C101-C103: array iterators, exact comparison, broadcasting of shapes. *)
From Verif Require Import Base ShapeToolsModel IterModel IterSpec IterProofs IterProofs2.
Local Open Scope Z_scope.

(* ================= C101: iterating over arrays ================= *)

(* The order in which a shape is to be visited lists exactly its indices,
   each once. *)
Theorem C101_row_major_complete shape :
  (forall idx, In idx (row_major shape) <-> in_shape idx shape) /\ NoDup (row_major shape) /\
  (Forall (fun n => 0 <= n) shape -> Z.of_nat (List.length (row_major shape)) = product shape).
Proof.
  split; [ intros idx; apply row_major_In | split; [ apply row_major_NoDup | apply row_major_length ] ].
Qed.
Print Assumptions C101_row_major_complete.

(* One operand: the loop over an array of fixed dimensions (any sizes and
   strides) visits each element once, in row-major order; stopping the
   iteration above the last nd dimensions visits the subarrays. *)
Theorem C101_one_operand o nd it fuel :
  let k := if (nd =? 0)%nat then List.length (op_dims o) else nd in
  let shape := firstn k (shape_of (op_dims o)) in
  fixed_dims (op_dims o) -> (k <= List.length (op_dims o))%nat ->
  init1 o nd = Ok it -> (Z.to_nat (product shape) <= fuel)%nat ->
  it_size it = product shape /\
  map c_utp (it_ops it) = [Some (skipn k (op_dims o), op_dtype o)] /\
  visits fuel it =
  Ok (map (fun idx => (idx, [address (op_base o) (firstn k (strides_of (op_dims o))) idx])) (row_major shape)).
Proof. exact (init1_visits o nd it fuel). Qed.
Print Assumptions C101_one_operand.

(* It can be set up whenever the number of elements (of the leading
   dimensions) can be represented. *)
Theorem C101_one_operand_starts o nd :
  let k := if (nd =? 0)%nat then List.length (op_dims o) else nd in
  fixed_dims (op_dims o) -> (k <= List.length (op_dims o))%nat ->
  (forall j, s64 (product (firstn j (firstn k (shape_of (op_dims o)))))) ->
  exists it, init1 o nd = Ok it.
Proof.
  intros k HF Hk HS; unfold init1; fold k; destruct k as [ | k' ] eqn:E; [ eexists; reflexivity | ].
  rewrite (construct_ok _ (Datatypes.S k') HF) by lia; cbn [bind].
  rewrite <- map_rev.
  set (st := rev (firstn (Datatypes.S k') (strides_of (op_dims o)))).
  assert (L : List.length st = Datatypes.S k').
  { unfold st; rewrite rev_length, firstn_length; unfold strides_of; rewrite map_length; lia. }
  pose proof (reset_full (op_base o) st [] ltac:(lia)) as R.
  rewrite L, !app_nil_r in R; rewrite R; cbn [bind].
  rewrite (itersize_ok _ HS); cbn [bind]; eexists; reflexivity.
Qed.
Print Assumptions C101_one_operand_starts.

(* An array with a var dimension among the iterated ones is refused. *)
Theorem C101_var_refused o :
  op_dims o <> [] -> ~ fixed_dims (op_dims o) ->
  Forall (fun d => match d with DF n _ => 0 <= n | DV => True end) (op_dims o) ->
  exists e, init1 o 0 = Throw e.
Proof.
  intros NE NF HN; unfold init1; cbn [Nat.eqb].
  assert (G : forall ds, Forall (fun d => match d with DF n _ => 0 <= n | DV => True end) ds -> ~ fixed_dims ds ->
              exists e, construct (List.length ds) ds = Throw e).
  { clear; induction 1 as [ | d ds Hd H IH ]; intros NF; [ exfalso; apply NF; constructor | ].
    destruct d as [ n s | ]; [ | eexists; reflexivity ].
    assert (NF' : ~ fixed_dims ds) by (intros F; apply NF; constructor; assumption).
    destruct (IH NF') as (e & E); exists e.
    destruct ds as [ | d ds ]; [ exfalso; apply NF'; constructor | ].
    change (construct (List.length (DF n s :: d :: ds)) (DF n s :: d :: ds))
      with (do inner <- construct (List.length (d :: ds)) (d :: ds); Ok (inner ++ [IFixed None s])).
    rewrite E; reflexivity. }
  destruct (G _ HN NF) as (e & E); exists e.
  destruct (List.length (op_dims o)) as [ | k ] eqn:L; [ apply length_zero_iff_nil in L; contradiction | ].
  rewrite E; reflexivity.
Qed.
Print Assumptions C101_var_refused.

(* Two operands, the first written: the loop visits the destination's
   elements in row-major order, and for the source always takes the address
   given by its strides; shapes which do not broadcast are refused. *)
Theorem C101_two_operands dst src it fuel :
  let shape := shape_of (op_dims dst) in
  fixed_dims (op_dims dst) -> fixed_dims (op_dims src) ->
  init11 dst src = Ok it -> (Z.to_nat (product shape) <= fuel)%nat ->
  it_size it = product shape /\
  visits fuel it =
  Ok (map (fun idx => (idx, [address (op_base dst) (strides_of (op_dims dst)) idx;
                             address (op_base src) (strides_of (op_dims src))
                               (right_align idx (List.length (op_dims src)))])) (row_major shape)).
Proof. exact (init11_visits dst src it fuel). Qed.
Print Assumptions C101_two_operands.

Theorem C101_two_operands_refused dst src :
  shape_can_broadcast (shape_of (op_dims dst)) (shape_of (op_dims src)) = false ->
  init11 dst src = Throw "broadcast_error".
Proof. intros H; unfold init11; rewrite H; reflexivity. Qed.
Print Assumptions C101_two_operands_refused.

(* Two read operands: the loop visits the broadcast shape in row-major order. *)
Theorem C101_two_reads a b it fuel shape :
  fixed_dims (op_dims a) -> fixed_dims (op_dims b) ->
  broadcasts_to [shape_of (op_dims a); shape_of (op_dims b)] shape ->
  init02 a b = Ok it -> (Z.to_nat (product shape) <= fuel)%nat ->
  it_size it = product shape /\
  visits fuel it =
  Ok (map (fun idx => (idx, [address (op_base a) (strides_of (op_dims a)) (right_align idx (List.length (op_dims a)));
                             address (op_base b) (strides_of (op_dims b)) (right_align idx (List.length (op_dims b)))]))
       (row_major shape)).
Proof.
  intros FA FB HB HI Hfuel.
  assert (HN : Forall nonneg [shape_of (op_dims a); shape_of (op_dims b)])
    by (repeat constructor; apply shape_of_nonneg; assumption).
  pose proof (proj2 (proj1 (broadcast_input_shapes_spec _ HN) shape) HB) as E.
  pose proof (broadcasts_nonneg _ _ HN HB) as HP.
  destruct HB as (HL & H2 & H3); inversion HL as [ | ? ? L1 HL' ]; subst; inversion HL' as [ | ? ? L2 _ ]; subst.
  unfold shape_of in L1, L2; rewrite map_length in L1, L2.
  apply init02_visits; assumption.
Qed.
Print Assumptions C101_two_reads.

(* The claim: the source element at each turn is the one broadcasting
   assigns to the index. It fails for an array as nd::empty makes it: the
   default stride of a dimension is the element size also when its extent is
   1 (fixed_dim_type.cpp:239-246), and the iterator uses the stride as it is. *)
Definition dst3 := Oper [DF 3 4] true 0 1000.
Definition src1 := Oper [DF 1 4] true 0 2000.
Theorem C101_broadcast_refuted :
  exists it vs, init11 dst3 src1 = Ok it /\ visits 3 it = Ok vs /\
    shape_can_broadcast (shape_of (op_dims dst3)) (shape_of (op_dims src1)) = true /\
    vs = [([0], [1000; 2000]); ([1], [1004; 2004]); ([2], [1008; 2008])] /\
    address (op_base src1) (strides_of (op_dims src1)) (bindex (shape_of (op_dims src1)) [2]) = 2000.
Proof.
  eexists; eexists; split; [ vm_compute; reflexivity | split; [ vm_compute; reflexivity | ] ].
  repeat split; vm_compute; reflexivity.
Qed.
Print Assumptions C101_broadcast_refuted.

(* Exactly when it holds: every dimension of extent 1 which is stretched has
   stride 0. *)
Definition stretch_zero (shape : list Z) (src : list dim) : Prop :=
  forall k n s, nth_error (rev src) k = Some (DF n s) -> n = 1 -> 2 <= extent shape k -> s = 0.

Lemma sz_cons shape d src :
  stretch_zero shape src -> (forall n s, d = DF n s -> n = 1 -> 2 <= extent shape (List.length src) -> s = 0) ->
  stretch_zero shape (d :: src).
Proof.
  intros H Hd k n s E; cbn [rev] in E.
  destruct (Nat.lt_ge_cases k (List.length (rev src))) as [ L | L ].
  - rewrite nth_error_app1 in E by exact L; apply (H k n s E).
  - rewrite nth_error_app2 in E by exact L.
    destruct (k - List.length (rev src))%nat as [ | j ] eqn:J; [ | destruct j; discriminate E ].
    rewrite rev_length in *; assert (k = List.length src) by lia; subst k.
    cbn in E; injection E as E; apply Hd; exact E.
Qed.

Lemma squeeze_equal base src idx shape :
  fixed_dims src -> List.length idx = List.length src -> List.length shape = List.length src ->
  in_shape idx shape -> stretch_zero shape src ->
  address base (strides_of src) idx = address base (strides_of src) (squeeze (shape_of src) idx).
Proof.
  intros HF HL HLs HI HZ; unfold address; f_equal.
  revert idx shape HL HLs HI HZ; induction HF as [ | d src Hd HF IH ]; intros idx shape HL HLs HI HZ.
  - destruct idx; reflexivity.
  - destruct idx as [ | i idx ]; [ discriminate HL | ]; destruct shape as [ | m shape ]; [ discriminate HLs | ].
    injection HL as HL; injection HLs as HLs.
    destruct d as [ n s | ]; [ | destruct Hd ].
    inversion HI as [ | ? ? ? ? Him HI' ]; subst.
    cbn [strides_of map dot shape_of dsize squeeze].
    change (map (fun d => match d with DF _ s0 => s0 | DV => 0 end) src) with (strides_of src).
    change (map dsize src) with (shape_of src).
    rewrite (IH idx shape HL HLs HI').
    + destruct (Z.eqb_spec n 1) as [ -> | N ]; [ | reflexivity ].
      assert (ST : 2 <= m -> s = 0).
      { intros M; apply (HZ (List.length src) 1 s); [ | reflexivity | ].
        - cbn [rev]; rewrite nth_error_app2 by (rewrite rev_length; lia); rewrite rev_length, Nat.sub_diag; reflexivity.
        - rewrite (extent_app [m] shape), HLs; destruct (Nat.ltb_spec (List.length src) (List.length src)); [ lia | ].
          rewrite Nat.sub_diag; cbn; exact M. }
      destruct (Z_lt_le_dec m 2); [ assert (i = 0) by lia; subst; lia | rewrite ST by lia; lia ].
    + intros k n' s' E E1 E2.
      assert (K : (k < List.length (rev src))%nat) by (apply nth_error_Some; congruence).
      rewrite rev_length in K.
      apply (HZ k n' s'); [ | exact E1 | ].
      * cbn [rev]; rewrite nth_error_app1 by (rewrite rev_length; exact K); exact E.
      * rewrite (extent_app [m] shape), HLs; destruct (Nat.ltb_spec k (List.length src)); [ exact E2 | lia ].
Qed.

(* unit vectors *)
Fixpoint unit_at (len k : nat) : list Z :=
  match len with
  | O => []
  | Datatypes.S l => (if (l =? k)%nat then 1 else 0) :: unit_at l k
  end.
Lemma unit_at_length len k : List.length (unit_at len k) = len.
Proof. induction len; cbn; [ reflexivity | f_equal; assumption ]. Qed.
Lemma unit_at_in shape k :
  Forall (fun n => 0 < n) shape -> 2 <= extent shape k -> in_shape (unit_at (List.length shape) k) shape.
Proof.
  induction 1 as [ | n shape Hn H IH ]; intros HE; [ constructor | ].
  cbn [List.length unit_at].
  rewrite (extent_app [n] shape) in HE.
  destruct (Nat.eqb_spec (List.length shape) k) as [ E | E ].
  - subst k; destruct (Nat.ltb_spec (List.length shape) (List.length shape)); [ lia | ].
    rewrite Nat.sub_diag in HE; cbn in HE.
    constructor; [ lia | ].
    clear -H; assert (G : forall sh j, (List.length sh <= j)%nat -> Forall (fun n => 0 < n) sh -> in_shape (unit_at (List.length sh) j) sh).
    { induction sh as [ | x sh IH ]; intros j Hj HF; [ constructor | ].
      inversion HF; subst; cbn [List.length unit_at] in *.
      destruct (Nat.eqb_spec (List.length sh) j); [ lia | ].
      constructor; [ lia | apply IH; [ lia | assumption ] ]. }
    apply G; [ lia | exact H ].
  - constructor; [ lia | apply IH ].
    destruct (Nat.ltb_spec k (List.length shape)); [ exact HE | ].
    exfalso; destruct (k - List.length shape)%nat as [ | j ] eqn:J; [ lia | ].
    destruct j; cbn in HE; lia.
Qed.

Lemma dot_unit len k st : (k < len)%nat -> List.length st = len -> dot (unit_at len k) st = nth k (rev st) 0.
Proof.
  revert st; induction len as [ | len IH ]; intros [ | s st ] Hk HL; try discriminate HL; [ lia | ].
  injection HL as HL; cbn [unit_at dot rev].
  destruct (Nat.eqb_spec len k) as [ E | E ].
  - subst k; rewrite app_nth2 by (rewrite rev_length; lia); rewrite rev_length, HL, Nat.sub_diag; cbn [nth].
    assert (G : forall l j t, (l <= j)%nat -> dot (unit_at l j) t = 0).
    { induction l as [ | l IHl ]; intros j [ | x t ] Hj; cbn [unit_at dot]; try reflexivity.
      destruct (Nat.eqb_spec l j); [ lia | rewrite IHl by lia; lia ]. }
    rewrite G by lia; lia.
  - rewrite IH by (lia || exact HL).
    rewrite app_nth1 by (rewrite rev_length; lia); lia.
Qed.

Lemma skipn_unit n m k : (m <= n)%nat -> skipn (n - m) (unit_at n k) = unit_at m k.
Proof.
  intros H; induction n as [ | n IH ]; [ assert (m = O) by lia; subst; reflexivity | ].
  destruct (Nat.eq_dec m (Datatypes.S n)) as [ -> | N ]; [ rewrite Nat.sub_diag; reflexivity | ].
  replace (Datatypes.S n - m)%nat with (Datatypes.S (n - m))%nat by lia.
  cbn [unit_at skipn]; apply IH; lia.
Qed.

Lemma squeeze_unit_zero sizes k :
  nth k (rev sizes) 1 = 1 -> forall st, List.length st = List.length sizes ->
  dot (squeeze sizes (unit_at (List.length sizes) k)) st = 0.
Proof.
  induction sizes as [ | n sizes IH ]; intros H [ | s st ] HL; try discriminate HL; [ reflexivity | ].
  injection HL as HL; cbn [List.length unit_at squeeze dot].
  cbn [rev] in H.
  assert (K : nth k (rev sizes) 1 = 1).
  { destruct (Nat.lt_ge_cases k (List.length (rev sizes))) as [ L | L ].
    - rewrite app_nth1 in H by exact L; exact H.
    - apply nth_overflow; exact L. }
  rewrite (IH K st HL).
  destruct (Nat.eqb_spec (List.length sizes) k) as [ E | E ].
  - subst k; rewrite app_nth2 in H by (rewrite rev_length; lia).
    rewrite rev_length, Nat.sub_diag in H; cbn in H; rewrite H; cbn; lia.
  - destruct (n =? 1); lia.
Qed.

Theorem C101_broadcast_partial dst src it fuel :
  let shape := shape_of (op_dims dst) in
  fixed_dims (op_dims dst) -> fixed_dims (op_dims src) -> Forall (fun n => 0 < n) shape ->
  init11 dst src = Ok it -> (Z.to_nat (product shape) <= fuel)%nat ->
  (visits fuel it =
   Ok (map (fun idx => (idx, [address (op_base dst) (strides_of (op_dims dst)) idx;
                              address (op_base src) (strides_of (op_dims src)) (bindex (shape_of (op_dims src)) idx)]))
        (row_major shape)))
  <-> stretch_zero shape (op_dims src).
Proof.
  intros shape FD FS POS HI Hfuel.
  destruct (init11_visits dst src it fuel FD FS HI Hfuel) as (_ & V); fold shape in V; rewrite V.
  assert (Hle : (List.length (op_dims src) <= List.length shape)%nat).
  { unfold init11 in HI; fold shape in HI.
    destruct (shape_can_broadcast shape (shape_of (op_dims src))) eqn:EB; cbn [negb] in HI; [ | discriminate HI ].
    unfold shape_can_broadcast in EB.
    destruct (Nat.leb_spec (List.length (shape_of (op_dims src))) (List.length shape)) as [ L | L ]; [ | discriminate EB ].
    unfold shape_of in L at 1; rewrite map_length in L; exact L. }
  set (m := List.length (op_dims src)) in *.
  assert (Lm : List.length (shape_of (op_dims src)) = m) by (unfold shape_of; rewrite map_length; reflexivity).
  assert (Lst : List.length (strides_of (op_dims src)) = m) by (unfold strides_of; rewrite map_length; reflexivity).
  split.
  - intros E k n s HE -> HX; injection E as E.
    assert (Hk : (k < m)%nat).
    { assert (K : (k < List.length (rev (op_dims src)))%nat) by (apply nth_error_Some; congruence).
      rewrite rev_length in K; exact K. }
    assert (IN : in_shape (unit_at (List.length shape) k) shape) by (apply unit_at_in; assumption).
    apply row_major_In in IN.
    pose proof (ext_in_map E _ IN) as P; cbn beta in P; injection P as P.
    unfold bindex, right_align in P; rewrite Lm, unit_at_length, skipn_unit in P by exact Hle.
    unfold address in P.
    rewrite (dot_unit m k _ Hk Lst) in P.
    rewrite <- Lm in P at 1; rewrite squeeze_unit_zero in P.
    + unfold strides_of in P; rewrite <- map_rev in P.
      rewrite (nth_error_nth (map _ (rev (op_dims src))) k 0 (x := s)) in P by (rewrite nth_error_map, HE; reflexivity).
      lia.
    + unfold shape_of; rewrite <- map_rev.
      rewrite (nth_error_nth (map dsize (rev (op_dims src))) k 1 (x := 1)) by (rewrite nth_error_map, HE; reflexivity).
      reflexivity.
    + congruence.
  - intros HZ; f_equal; apply map_ext_in; intros idx Hidx; f_equal; f_equal; f_equal.
    pose proof (row_major_len _ _ Hidx) as Li.
    unfold bindex; rewrite Lm.
    apply (squeeze_equal (op_base src) (op_dims src) (right_align idx m) (skipn (List.length shape - m) shape)).
    + exact FS.
    + unfold right_align; rewrite skipn_length; lia.
    + rewrite skipn_length; lia.
    + apply row_major_In in Hidx; unfold right_align; rewrite Li.
      clear -Hidx; unfold in_shape in *.
      generalize (List.length shape - m)%nat as d; intros d; revert d.
      induction Hidx; intros [ | d ]; cbn; try constructor; auto.
    + intros k n s E E1 E2; apply (HZ k n s E E1).
      rewrite <- (firstn_skipn (List.length shape - m) shape), extent_app.
      assert (K : (k < List.length (rev (op_dims src)))%nat) by (apply nth_error_Some; congruence).
      rewrite rev_length in K; fold m in K.
      rewrite skipn_length; destruct (Nat.ltb_spec k (List.length shape - (List.length shape - m))); [ exact E2 | lia ].
Qed.
Print Assumptions C101_broadcast_partial.

(* The type reported for the elements of a broadcast scalar is not set when
   its type is builtin, and a scalar of any other type is refused. *)
Theorem C101_scalar_type_refuted :
  (exists it, init11 (Oper [DF 3 4] true 7 1000) (Oper [] true 7 2000) = Ok it /\
     map c_utp (it_ops it) = [Some ([], 7%nat); None]) /\
  (exists e, init11 (Oper [DF 3 16] false 7 1000) (Oper [] false 7 2000) = Throw e).
Proof.
  split; eexists; [ split; vm_compute; reflexivity | vm_compute; reflexivity ].
Qed.
Print Assumptions C101_scalar_type_refuted.

Example C101_example :
  let o := Oper [DF 2 (-12); DF 3 4] true 0 1000 in
  exists it, init1 o 0 = Ok it /\ fixed_dims (op_dims o) /\
    visits 6 it = Ok [([0; 0], [1000]); ([0; 1], [1004]); ([0; 2], [1008]);
                      ([1; 0], [988]); ([1; 1], [992]); ([1; 2], [996])].
Proof.
  eexists; split; [ vm_compute; reflexivity | split; [ repeat constructor; cbn; lia | vm_compute; reflexivity ] ].
Qed.
Example C101_example_two :
  let d := Oper [DF 2 12; DF 3 4] true 0 1000 in let s := Oper [DF 3 8] true 0 2000 in
  exists it, init11 d s = Ok it /\ stretch_zero (shape_of (op_dims d)) (op_dims s) /\
    visits 6 it = Ok [([0; 0], [1000; 2000]); ([0; 1], [1004; 2008]); ([0; 2], [1008; 2016]);
                      ([1; 0], [1012; 2000]); ([1; 1], [1016; 2008]); ([1; 2], [1020; 2016])].
Proof.
  eexists; split; [ vm_compute; reflexivity | split; [ | vm_compute; reflexivity ] ].
  intros [ | [ | k ] ] n s E; cbn in E; [ injection E as <- <-; lia | discriminate E | discriminate E ].
Qed.

(* ================= C102: exact comparison ================= *)

(* Two types are the same: the same kinds and extents of dimensions (None for
   var) over the same dtype. *)
Definition dim_kind (d : dim) : option Z := match d with DF n _ => Some n | DV => None end.
Definition same_type (a b : oper) : Prop :=
  map dim_kind (op_dims a) = map dim_kind (op_dims b) /\ op_dtype a = op_dtype b.
Lemma type_eqb_iff a b : type_eqb a b = true <-> same_type a b.
Proof.
  unfold type_eqb, same_type; rewrite andb_true_iff, Nat.eqb_eq.
  enough (E : dims_eqb (op_dims a) (op_dims b) = true <-> map dim_kind (op_dims a) = map dim_kind (op_dims b)) by tauto.
  generalize (op_dims a) (op_dims b); clear.
  induction l as [ | x xs IH ]; intros [ | y ys ]; cbn; try (split; [ discriminate | discriminate ]); [ tauto | ].
  rewrite andb_true_iff, IH.
  destruct x as [ n s | ], y as [ m t | ]; cbn; rewrite ?Z.eqb_eq; split.
  all: try (intros (A & B); congruence).
  all: intros A; inversion A; split; congruence.
Qed.

(* Whether two arrays have the same type, shape and values (neb says whether
   the elements at two addresses differ). *)
Definition same_value (neb : Z -> Z -> bool) (a b : arr) : Prop :=
  same_type (a_op a) (a_op b) /\ real_shape a = real_shape b /\
  forall idx, in_shape idx (real_shape a) -> neb (elem_addr a idx) (elem_addr b idx) = false.

(* the bookkeeping of an array of fixed dimensions, or of one leading var
   dimension over fixed dimensions *)
Definition plain (a : arr) : Prop :=
  match op_dims (a_op a) with
  | DV :: ds => fixed_dims ds /\ 0 <= a_vsize a
  | ds => fixed_dims ds /\ a_shape a = shape_of ds
  end /\ op_dims (a_op a) <> [] /\ forall k, s64 (product (firstn k (real_shape a))).

Lemma forallb_in_shape (f : list Z -> bool) sh :
  forallb f (row_major sh) = true <-> forall idx, in_shape idx sh -> f idx = true.
Proof.
  rewrite forallb_forall; split; intros H idx Hi; apply H; [ apply row_major_In | apply row_major_In in Hi ]; exact Hi.
Qed.

Theorem C102_equals_exact neb eq fuel a b :
  plain a -> plain b -> a_block a <> a_block b ->
  (Z.to_nat (product (real_shape a)) <= fuel)%nat ->
  (equals_exact (fun x y => Ok (neb x y)) eq fuel a b = Ok true <-> same_value neb a b) /\
  (equals_exact (fun x y => Ok (neb x y)) eq fuel a b = Ok false \/
   equals_exact (fun x y => Ok (neb x y)) eq fuel a b = Ok true \/
   equals_exact (fun x y => Ok (neb x y)) eq fuel a b = Throw "type_error" /\
   same_type (a_op a) (a_op b) /\ hd_error (op_dims (a_op a)) = Some DV /\ a_vsize a <> a_vsize b).
Proof.
  intros (PA & NA & SA) (PB & NB & SB) HB Hfuel; unfold equals_exact, same_value.
  rewrite <- type_eqb_iff.
  rewrite (proj2 (Nat.eqb_neq _ _) HB).
  destruct (type_eqb (a_op a) (a_op b)) eqn:ET; cbn [negb];
    [ | split; [ split; [ discriminate | intros (C & _); discriminate C ] | left; reflexivity ] ].
  assert (ED : dims_eqb (op_dims (a_op a)) (op_dims (a_op b)) = true).
  { unfold type_eqb in ET; apply andb_true_iff in ET as (E & _); exact E. }
  assert (FIN : forall r : bool, ((Ok r = Ok true <-> r = true)) /\ (Ok r = Ok false \/ Ok r = Ok true)).
  { intros [ ]; split; try tauto; split; congruence. }
  unfold real_shape, elem_addr in *.
  destruct (op_dims (a_op a)) as [ | [ n s | ] da ] eqn:DA; [ contradiction | | ].
  - destruct (op_dims (a_op b)) as [ | [ n' s' | ] db ] eqn:DB; cbn in ED; try discriminate ED.
    pose proof (dims_eqb_shape (DF n s :: da) (DF n' s' :: db) ED) as ES.
    destruct PA as (FA & SHA); destruct PB as (FB & SHB).
    assert (R : equals_dims (fun x y => Ok (neb x y)) fuel a b =
      Ok (forallb (fun idx => negb (neb (address (op_base (a_op a)) (strides_of (DF n s :: da)) idx)
                                        (address (op_base (a_op b)) (strides_of (DF n' s' :: db)) idx)))
            (row_major (shape_of (DF n s :: da))))).
    { pose proof (equals_dims_spec neb fuel a b) as Q; cbv zeta in Q; rewrite DA, DB in Q; apply Q; try assumption.
      - symmetry; exact ES.
      - rewrite SHB; symmetry; exact ES. }
    rewrite R.
    set (r := forallb _ _) in *.
    destruct (FIN r) as (F1 & F2); split; [ | destruct F2; [ left; assumption | right; left; assumption ] ].
    rewrite F1; unfold r; rewrite forallb_in_shape.
    split.
    + intros H; split; [ reflexivity | split; [ exact ES | ] ].
      intros idx Hi; specialize (H idx Hi); apply negb_true_iff in H; exact H.
    + intros (_ & _ & H) idx Hi; apply negb_true_iff; apply H; exact Hi.
  - destruct (op_dims (a_op b)) as [ | [ n' s' | ] db ] eqn:DB; cbn in ED; try discriminate ED.
    pose proof (dims_eqb_shape da db ED) as ES.
    destruct PA as (FA & VA); destruct PB as (FB & VB).
    unfold view_fixed; rewrite Z.eqb_refl; cbn [bind].
    destruct (Z.eqb_spec (a_vsize b) (a_vsize a)) as [ EV | EV ]; cbn [bind].
    + set (n := a_vsize a) in *.
      rewrite DA, DB; cbn [tl].
      match goal with |- context [ equals_dims _ fuel ?x ?y ] => set (va := x); set (vb := y) end.
      assert (R : equals_dims (fun x y => Ok (neb x y)) fuel va vb =
        Ok (forallb (fun idx => negb (neb (address (a_vbegin a) (a_vstride a :: strides_of da) idx)
                                          (address (a_vbegin b) (a_vstride b :: strides_of db) idx)))
              (row_major (n :: shape_of da)))).
      { pose proof (equals_dims_spec neb fuel va vb) as Q; cbv zeta in Q.
        unfold va, vb in Q; cbn [a_op op_dims op_base a_shape] in Q.
        apply Q.
        - constructor; [ exact VA | exact FA ].
        - constructor; [ exact VA | exact FB ].
        - discriminate.
        - cbn; f_equal; symmetry; exact ES.
        - reflexivity.
        - cbn; f_equal; symmetry; exact ES.
        - exact SA.
        - exact Hfuel. }
      rewrite R.
      set (r := forallb _ _) in *.
      destruct (FIN r) as (F1 & F2); split; [ | destruct F2; [ left; assumption | right; left; assumption ] ].
      rewrite F1; unfold r; rewrite forallb_in_shape.
      split.
      * intros H; split; [ reflexivity | split; [ rewrite EV; f_equal; exact ES | ] ].
        intros idx Hi; specialize (H idx Hi); apply negb_true_iff in H; exact H.
      * intros (_ & _ & H) idx Hi; apply negb_true_iff; apply H; exact Hi.
    + split.
      * split; [ discriminate | ].
        intros (_ & E & _); injection E as E _; congruence.
      * right; right; split; [ reflexivity | split; [ reflexivity | split; [ reflexivity | congruence ] ] ].
Qed.
Print Assumptions C102_equals_exact.

(* The same array object is always equal to itself, whatever its values. *)
Theorem C102_same_object ne eq fuel a b :
  a_block a = a_block b -> equals_exact ne eq fuel a b = Ok true.
Proof. intros E; unfold equals_exact; rewrite E, Nat.eqb_refl; reflexivity. Qed.
Print Assumptions C102_same_object.

(* Refuted: comparing arrays of the same type never decides by throwing. Two
   var arrays of different lengths: type_error. *)
Definition va3 := Arr 1 (Oper [DV] true 0 100) [3] 3 4 1000.
Definition va2 := Arr 2 (Oper [DV] true 0 200) [2] 2 4 2000.
Theorem C102_var_sizes_refuted :
  plain va3 /\ plain va2 /\ type_eqb (a_op va3) (a_op va2) = true /\
  forall ne eq fuel, equals_exact ne eq fuel va3 va2 = Throw "type_error".
Proof.
  split; [ | split; [ | split; [ reflexivity | intros; reflexivity ] ] ].
  - repeat split; try (cbn; lia); try constructor; try discriminate; destruct k as [ | [ | k ] ]; vm_compute; discriminate.
  - repeat split; try (cbn; lia); try constructor; try discriminate; destruct k as [ | [ | k ] ]; vm_compute; discriminate.
Qed.
Print Assumptions C102_var_sizes_refuted.

(* Arrays with a var dimension below the outermost one are never found equal
   (unless they are the same object): the comparison throws. *)
Lemma bis2_length x y sh : broadcast_input_shapes [x; y] = Ok sh -> (List.length x <= List.length sh)%nat.
Proof.
  unfold broadcast_input_shapes; cbn [fold_left bc_operands].
  rewrite Nat.max_0_l; set (u := Nat.max (List.length x) (List.length y)).
  assert (Lx : (List.length x <= List.length (repeat 1%Z u))%nat) by (rewrite repeat_length; unfold u; lia).
  pose proof (bc_operand_spec (repeat 1 u) x Lx) as H.
  destruct (bc_operand (repeat 1 u) x) as [ r | | | ]; cbn [bind]; try discriminate.
  destruct H as (HR & _); rewrite repeat_length in *.
  assert (Ly : (List.length y <= List.length r)%nat) by (rewrite HR; unfold u; lia).
  pose proof (bc_operand_spec r y Ly) as H.
  destruct (bc_operand r y) as [ q | | | ]; cbn [bind]; try discriminate.
  destruct H as (HQ & _); intros E; injection E as <-; lia.
Qed.

Lemma construct_var ds : In DV ds -> exists e, construct (List.length ds) ds = Throw e.
Proof.
  induction ds as [ | x ds IH ]; intros [ ].
  - subst x; eexists; reflexivity.
  - destruct x as [ n s | ]; [ | eexists; reflexivity ].
    destruct (IH H) as (e & E); exists e.
    destruct ds as [ | y ds ]; [ destruct H | ].
    change (construct (List.length (DF n s :: y :: ds)) (DF n s :: y :: ds))
      with (do inner <- construct (List.length (y :: ds)) (y :: ds); Ok (inner ++ [IFixed None s])).
    rewrite E; reflexivity.
Qed.

Lemma init02_var o1 o2 : In DV (op_dims o1) -> forall it, init02 o1 o2 <> Ok it.
Proof.
  intros HV it H; unfold init02 in H.
  destruct (broadcast_input_shapes [shape_of (op_dims o1); shape_of (op_dims o2)]) as [ sh | m | | ] eqn:EB;
    cbn [bind] in H; try discriminate H.
  apply bis2_length in EB; unfold shape_of in EB; rewrite map_length in EB.
  destruct (op_dims o1) as [ | d ds ] eqn:ED; [ destruct HV | ].
  destruct (construct_var (d :: ds) HV) as (e & E).
  destruct (List.length sh) as [ | k ] eqn:K; [ cbn in EB; lia | ].
  unfold bcursor at 1 in H; unfold bconstruct at 1 in H; rewrite ED, E in H; discriminate H.
Qed.

Theorem C102_nested_var_refuted ne eq fuel a b d ds :
  a_block a <> a_block b -> op_dims (a_op a) = d :: ds -> In DV ds ->
  equals_exact ne eq fuel a b <> Ok true.
Proof.
  intros HB HD HV; unfold equals_exact.
  rewrite (proj2 (Nat.eqb_neq _ _) HB).
  destruct (type_eqb (a_op a) (a_op b)); cbn [negb]; [ | discriminate ].
  rewrite HD.
  assert (G : forall x y n s, op_dims (a_op x) = DF n s :: ds -> equals_dims ne fuel x y <> Ok true).
  { intros x y n s E H; unfold equals_dims in H; rewrite E in H.
    pose proof (init02_var (a_op x) (a_op y)) as NI; rewrite E in NI; specialize (NI (or_intror HV)).
    destruct ds as [ | d' ds' ]; [ destruct HV | ].
    destruct n; destruct (negb (list_eqb (a_shape x) (a_shape y))); try discriminate H;
      (destruct (init02 (a_op x) (a_op y)) as [ it | m | | ];
        [ exact (NI it eq_refl) | destruct (String.eqb m "broadcast_error"); discriminate H | discriminate H | discriminate H ]). }
  destruct d as [ n s | ].
  - apply (G a b n s HD).
  - unfold view_fixed; rewrite Z.eqb_refl; cbn [bind].
    destruct (a_vsize b =? a_vsize a); cbn [bind]; [ | discriminate ].
    eapply G; cbn [a_op op_dims]; rewrite HD; reflexivity.
Qed.
Print Assumptions C102_nested_var_refuted.

Example C102_example :
  let mem x := if x =? 1000 then 7 else if x =? 1004 then 8 else if x =? 2004 then 7 else if x =? 2000 then 8 else 0 in
  let neb x y := negb (mem x =? mem y) in
  let a := Arr 1 (Oper [DF 2 4] true 0 1000) [2] 0 0 0 in
  let b := Arr 2 (Oper [DF 2 (-4)] true 0 2004) [2] 0 0 0 in
  plain a /\ plain b /\ a_block a <> a_block b /\
  equals_exact (fun x y => Ok (neb x y)) (fun x y => Ok (negb (neb x y))) 2 a b = Ok true.
Proof.
  split; [ | split; [ | split; [ discriminate | vm_compute; reflexivity ] ] ].
  - repeat split; try (cbn; lia); try (repeat constructor; cbn; lia); try discriminate;
      destruct k as [ | [ | k ] ]; vm_compute; discriminate.
  - repeat split; try (cbn; lia); try (repeat constructor; cbn; lia); try discriminate;
      destruct k as [ | [ | k ] ]; vm_compute; discriminate.
Qed.

(* ================= C103: broadcasting shapes ================= *)

(* broadcast_input_shapes on arrays of known extents: the result is the
   broadcast shape, and broadcast_error is thrown exactly if there is none. *)
Theorem C103_input_shapes shapes :
  Forall nonneg shapes ->
  (forall r, broadcast_input_shapes shapes = Ok r <-> broadcasts_to shapes r) /\
  ((exists r, broadcast_input_shapes shapes = Ok r) \/
   broadcast_input_shapes shapes = Throw "broadcast_error" /\ forall r, ~ broadcasts_to shapes r).
Proof. exact (broadcast_input_shapes_spec shapes). Qed.
Print Assumptions C103_input_shapes.

(* Refuted with var dimensions: two of them make the known extent forgotten,
   so extents 5 and 7 pass together, and the answer depends on the order. *)
Theorem C103_var_order_refuted :
  broadcast_input_shapes [[5]; [-1]; [-1]; [7]] = Ok [-7] /\
  broadcast_input_shapes [[5]; [7]; [-1]; [-1]] = Throw "broadcast_error" /\
  broadcast_input_shapes [[0]; [-1]; [7]] = Ok [-7].
Proof. repeat split; vm_compute; reflexivity. Qed.
Print Assumptions C103_var_order_refuted.

(* broadcast_to_shape: throws exactly if the source does not broadcast, and
   its strides address the element broadcasting assigns to every index. *)
Theorem C103_to_shape dst src strides :
  List.length strides = List.length src ->
  match broadcast_to_shape dst src strides with
  | Ok r => shape_can_broadcast dst src = true /\ List.length r = List.length dst /\
            forall base idx, in_shape idx dst -> address base r idx = address base strides (bindex src idx)
  | Throw e => e = "broadcast_error"%string /\ shape_can_broadcast dst src = false
  | _ => False
  end.
Proof.
  intros HS; pose proof (broadcast_to_shape_spec dst src strides HS) as H.
  destruct (broadcast_to_shape dst src strides) as [ r | | | ]; try exact H.
  destruct H as (A & B & C); split; [ exact A | split; [ exact B | ] ].
  intros base idx Hi; apply C; apply Forall2_length in Hi; exact Hi.
Qed.
Print Assumptions C103_to_shape.

(* incremental_broadcast, operand after operand, with extents -1 for var
   dimensions: the merged shape, whatever the order, and broadcast_error
   exactly if there is none (or an operand has too many dimensions). *)
Theorem C103_incremental ndim shapes :
  match incremental_all (repeat 1 ndim) shapes with
  | Ok r => Forall (fun s => (List.length s <= ndim)%nat) shapes /\ List.length r = ndim /\
            forall k, merged_extent (map (fun s => extent s k) shapes) (extent r k)
  | Throw e => e = "broadcast_error"%string /\
               (~ Forall (fun s => (List.length s <= ndim)%nat) shapes \/
                exists k, forall n, ~ merged_extent (map (fun s => extent s k) shapes) n)
  | _ => False
  end.
Proof.
  pose proof (incremental_all_spec shapes (repeat 1 ndim) []) as H.
  rewrite repeat_length in H; cbn [app] in H; apply H.
  intros k; rewrite extent_ones; repeat split; constructor || (intros C; contradiction).
Qed.
Print Assumptions C103_incremental.

Theorem C103_merged_unique es n m : merged_extent es n -> merged_extent es m -> n = m.
Proof. exact (merged_unique es n m). Qed.
Print Assumptions C103_merged_unique.

Example C103_example :
  broadcast_input_shapes [[3; 1]; [4]; []] = Ok [3; 4] /\
  broadcast_input_shapes [[3; 2]; [4]] = Throw "broadcast_error" /\
  broadcast_to_shape [2; 3; 4] [3; 1] [8; 4] = Ok [0; 8; 0] /\
  incremental_all [1; 1] [[-1]; [3; 1]; [5]] = Ok [3; 5].
Proof. repeat split; vm_compute; reflexivity. Qed.
