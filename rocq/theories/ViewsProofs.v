(* Axis permutation: proofs. *)
From Coq Require Import Permutation.
From Verif Require Import Base IterModel IterSpec IterProofs ViewsModel ViewsSpec.
Local Open Scope Z_scope.

(* ---- is_valid_perm --------------------------------------------------- *)

Lemma existsb_In v l : existsb (Z.eqb v) l = true <-> In v l.
Proof.
  rewrite existsb_exists; split.
  - intros (x & H & E); apply Z.eqb_eq in E; subst; exact H.
  - intros H; exists v; split; [ exact H | apply Z.eqb_refl ].
Qed.

Lemma ivp_loop_spec size perm flags :
  ivp_loop size perm flags = true <->
  NoDup perm /\ (forall v, In v perm -> 0 <= v < size /\ ~ In v flags).
Proof.
  revert flags; induction perm as [ | v rest IH ]; intros flags; cbn [ivp_loop].
  - split; [ intros _; split; [ constructor | intros ? [] ] | reflexivity ].
  - destruct ((0 <=? v) && (v <? size) && negb (existsb (Z.eqb v) flags)) eqn:E.
    + apply andb_prop in E as [E1 E3]; apply andb_prop in E1 as [E1 E2].
      assert (NF : ~ In v flags).
      { intros H; apply existsb_In in H; rewrite H in E3; discriminate. }
      rewrite IH; split.
      * intros [ND H]; split.
        -- constructor; [ | exact ND ]; intros HI; destruct (H v HI) as [_ K]; apply K; left; reflexivity.
        -- intros x [ -> | HI ]; [ split; [ lia | exact NF ] | ].
           destruct (H x HI) as [K1 K2]; split; [ exact K1 | intros C; apply K2; right; exact C ].
      * intros [ND H]; inversion ND as [ | ? ? N1 N2 ]; subst; split; [ exact N2 | ].
        intros x HI; destruct (H x (or_intror HI)) as [K1 K2]; split; [ exact K1 | ].
        intros [ -> | C ]; [ exact (N1 HI) | exact (K2 C) ].
    + split; [ discriminate | ].
      intros [ND H]; destruct (H v (or_introl eq_refl)) as [K1 K2].
      destruct (existsb (Z.eqb v) flags) eqn:EX; [ exfalso; apply K2, existsb_In, EX | ].
      cbn [negb] in E; rewrite andb_true_r in E.
      destruct (Z.leb_spec 0 v); destruct (Z.ltb_spec v size); cbn in E; try discriminate; lia.
Qed.

Lemma is_valid_perm_spec axes :
  is_valid_perm axes = true <-> permutation_of (List.length axes) axes.
Proof.
  unfold is_valid_perm, permutation_of; rewrite ivp_loop_spec; split.
  - intros [ND H]; apply NoDup_Permutation_bis; [ exact ND | rewrite map_length, seq_length; lia | ].
    intros v HI; destruct (H v HI) as [K _]; apply in_map_iff; exists (Z.to_nat v); split; [ lia | ].
    apply in_seq; lia.
  - intros P; split.
    + apply (Permutation_NoDup (Permutation_sym P)), FinFun.Injective_map_NoDup; [ intros x y; lia | apply seq_NoDup ].
    + intros v HI; apply (Permutation_in _ P) in HI; apply in_map_iff in HI as (x & <- & HI).
      apply in_seq in HI; split; [ lia | intros [] ].
Qed.

(* What is used of a permutation. *)
Lemma perm_range axes i :
  permutation_of (List.length axes) axes -> (i < List.length axes)%nat ->
  0 <= axis axes i < Z.of_nat (List.length axes).
Proof.
  intros P H; assert (HI : In (axis axes i) axes) by (apply nth_In; exact H).
  apply (Permutation_in _ P) in HI; apply in_map_iff in HI as (x & <- & HI); apply in_seq in HI; lia.
Qed.

Lemma perm_inj axes i j :
  permutation_of (List.length axes) axes -> (i < List.length axes)%nat -> (j < List.length axes)%nat ->
  axis axes i = axis axes j -> i = j.
Proof.
  intros P Hi Hj E.
  assert (ND : NoDup axes).
  { apply (Permutation_NoDup (Permutation_sym P)), FinFun.Injective_map_NoDup; [ intros x y; lia | apply seq_NoDup ]. }
  exact (proj1 (NoDup_nth axes 0) ND i j Hi Hj E).
Qed.

(* A prefix of the axes which is mapped into itself. *)
Definition closed (axes : list Z) (i : nat) : Prop :=
  forall j, (j < i)%nat -> axis axes j < Z.of_nat i.

Lemma closed_rest axes i k :
  permutation_of (List.length axes) axes -> (i <= List.length axes)%nat -> closed axes i ->
  (i <= k < List.length axes)%nat -> Z.of_nat i <= axis axes k.
Proof.
  intros P Hi C Hk; destruct (Z_lt_ge_dec (axis axes k) (Z.of_nat i)) as [L | ]; [ exfalso | lia ].
  (* i + 1 distinct axes below i *)
  set (l := axis axes k :: map (axis axes) (seq 0 i)).
  assert (ND : NoDup l).
  { constructor.
    - intros HI; apply in_map_iff in HI as (j & E & HI); apply in_seq in HI.
      assert (j = k) by (apply (perm_inj axes); [ exact P | lia | lia | exact E ]); lia.
    - apply NoDup_nth with (d := 0); intros a b Ha Hb E.
      rewrite map_length, seq_length in Ha, Hb.
      rewrite !(nth_indep _ 0 (axis axes 0)) in E by (rewrite map_length, seq_length; lia).
      rewrite !map_nth, !seq_nth in E by lia; cbn [Nat.add] in E.
      apply (perm_inj axes); [ exact P | lia | lia | exact E ]. }
  assert (IN : incl l (map Z.of_nat (seq 0 i))).
  { intros v [ <- | HI ].
    - pose proof (perm_range axes k P ltac:(lia)).
      apply in_map_iff; exists (Z.to_nat (axis axes k)); split; [ lia | apply in_seq; lia ].
    - apply in_map_iff in HI as (j & <- & HI); apply in_seq in HI.
      pose proof (perm_range axes j P ltac:(lia)); specialize (C j ltac:(lia)).
      apply in_map_iff; exists (Z.to_nat (axis axes j)); split; [ lia | apply in_seq; lia ]. }
  pose proof (NoDup_incl_length ND IN) as H; unfold l in H; cbn [List.length] in H.
  rewrite !map_length, !seq_length in H; lia.
Qed.

(* ---- the interval of mutually permuted axes -------------------------- *)

Lemma closure_loop_spec axes i fuel li m :
  permutation_of (List.length axes) axes ->
  (i < li <= List.length axes)%nat -> (List.length axes <= li + fuel)%nat ->
  Z.of_nat i <= m < Z.of_nat (List.length axes) ->
  (forall j, (i <= j < li)%nat -> axis axes j <= m) ->
  (forall k, (i < k < li)%nat -> exists j, (i <= j < k)%nat /\ Z.of_nat k <= axis axes j) ->
  (exists j, (i <= j < li)%nat /\ axis axes j = m) ->
  Z.of_nat li <= m + 1 ->
  let r := closure_loop axes fuel li m in
  Z.of_nat i <= r < Z.of_nat (List.length axes) /\
  (forall j, (i <= j)%nat -> Z.of_nat j <= r -> axis axes j <= r) /\
  (forall k, (i < k)%nat -> Z.of_nat k <= r -> exists j, (i <= j < k)%nat /\ Z.of_nat k <= axis axes j).
Proof.
  intros P; revert li m; induction fuel as [ | f IH ]; intros li m Hli Hf Hm Hmax Hk Hex Hb; cbn [closure_loop].
  - cbv zeta; split; [ lia | split ].
    + intros j H1 H2; apply Hmax; lia.
    + intros k H1 H2; apply Hk; lia.
  - destruct ((Z.of_nat li <=? m) && (li <? List.length axes)%nat) eqn:E.
    + apply andb_prop in E as [E1 E2]; apply Z.leb_le in E1; apply Nat.ltb_lt in E2.
      pose proof (perm_range axes li P E2).
      apply IH; try lia.
      * destruct (axis axes li >? m) eqn:G; lia.
      * intros j Hj; destruct (Nat.eq_dec j li) as [ -> | ].
        -- destruct (axis axes li >? m) eqn:G; lia.
        -- specialize (Hmax j ltac:(lia)); destruct (axis axes li >? m) eqn:G; lia.
      * intros k Hk'; destruct (Nat.eq_dec k li) as [ -> | ].
        -- destruct Hex as (j & J1 & J2); exists j; split; [ lia | lia ].
        -- apply Hk; lia.
      * destruct (axis axes li >? m) eqn:G.
        -- exists li; split; [ lia | reflexivity ].
        -- destruct Hex as (j & J1 & J2); exists j; split; [ lia | exact J2 ].
      * destruct (axis axes li >? m) eqn:G; lia.
    + cbv zeta.
      assert (m < Z.of_nat li).
      { apply andb_false_iff in E as [E | E]; [ apply Z.leb_gt in E; lia | apply Nat.ltb_ge in E; lia ]. }
      split; [ lia | split ].
      * intros j H1 H2; apply Hmax; lia.
      * intros k H1 H2; destruct (Nat.eq_dec k li) as [ -> | ]; [ lia | apply Hk; lia ].
Qed.

Lemma closure_spec axes i :
  permutation_of (List.length axes) axes -> (i < List.length axes)%nat ->
  Z.of_nat i < axis axes i ->
  let m := closure axes i in
  (i < m < List.length axes)%nat /\
  (forall j, (i <= j <= m)%nat -> axis axes j <= Z.of_nat m) /\
  (forall k, (i < k <= m)%nat -> exists j, (i <= j < k)%nat /\ Z.of_nat k <= axis axes j).
Proof.
  intros P Hi Ha; pose proof (perm_range axes i P Hi).
  destruct (closure_loop_spec axes i (List.length axes) (Datatypes.S i) (axis axes i) P) as (R1 & R2 & R3); try lia.
  - intros j Hj; replace j with i by lia; lia.
  - exists i; split; [ lia | reflexivity ].
  - unfold closure; set (r := closure_loop _ _ _ _) in *; cbv zeta.
    specialize (R2 i ltac:(lia) ltac:(lia)) as R2i.
    split; [ lia | split ].
    + intros j Hj; specialize (R2 j ltac:(lia) ltac:(lia)); lia.
    + intros k Hk; exact (R3 k ltac:(lia) ltac:(lia)).
Qed.

Lemma closure_closed axes i :
  permutation_of (List.length axes) axes -> (i < List.length axes)%nat -> closed axes i ->
  Z.of_nat i < axis axes i -> closed axes (closure axes i + 1).
Proof.
  intros P Hi C Ha j Hj; destruct (closure_spec axes i P Hi Ha) as (R1 & R2 & _).
  destruct (Nat.lt_ge_cases j i) as [L | L]; [ specialize (C j L); lia | specialize (R2 j ltac:(lia)); lia ].
Qed.

(* ---- permuting the dimensions ---------------------------------------- *)

Lemma strided_fixed ds : fixed_dims ds -> strided_ndim ds = List.length ds.
Proof.
  induction ds as [ | [n s | ] ds IH ]; intros F; inversion F; subst; cbn [strided_ndim List.length]; [ reflexivity | | contradiction ].
  rewrite IH by assumption; reflexivity.
Qed.

Lemma strided_le ds : (strided_ndim ds <= List.length ds)%nat.
Proof. induction ds as [ | [n s | ] ds IH ]; cbn [strided_ndim List.length]; lia. Qed.

(* one step of permute_type_dims *)
Lemma ptd_eq ds builtin axes i :
  permute_type_dims ds builtin axes i =
  (let ndim := List.length axes in
  if axis axes i =? Z.of_nat i then
    if (i =? ndim - 1)%nat then Ok ds
    else match ds with
         | [] => if builtin then UB else Ok []
         | d :: rest =>
             let i' := match d with DV => Datatypes.S i | DF _ _ => i end in
             do rest' <- permute_type_dims rest builtin axes i';
             Ok (d :: rest')
         end
  else
    let max_i := closure axes i in
    let n := (max_i - i + 1)%nat in
    if (strided_ndim ds <? n)%nat then Throw "Cannot permute non-strided dimensions"
    else if (max_i <? ndim - 1)%nat then
      match ds with
      | [] => UB
      | _ :: rest => do _ <- permute_type_dims rest builtin axes (max_i + 1); UB
      end
    else Ok (apply_block ds axes i n ++ skipn n ds)).
Proof. destruct ds; reflexivity. Qed.

Lemma ptd_stationary ds builtin axes i :
  fixed_dims ds -> axis axes i = Z.of_nat i -> i <> (List.length axes - 1)%nat ->
  permute_type_dims ds builtin axes i = if builtin then UB else Ok ds.
Proof.
  intros F E N; induction ds as [ | [n s | ] ds IH ]; rewrite ptd_eq; cbv zeta;
    rewrite (proj2 (Z.eqb_eq _ _) E), (proj2 (Nat.eqb_neq _ _) N); [ reflexivity | | inversion F; contradiction ].
  rewrite IH by (inversion F; assumption); destruct builtin; reflexivity.
Qed.

Lemma ptd_last ds builtin axes i :
  axis axes i = Z.of_nat i -> i = (List.length axes - 1)%nat ->
  permute_type_dims ds builtin axes i = Ok ds.
Proof.
  intros E N; rewrite ptd_eq; cbv zeta; rewrite (proj2 (Z.eqb_eq _ _) E), (proj2 (Nat.eqb_eq _ _) N); reflexivity.
Qed.

(* on fixed dimensions alone it never throws *)
Lemma ptd_no_throw ds builtin axes i :
  permutation_of (List.length axes) axes -> (i < List.length axes)%nat -> closed axes i ->
  fixed_dims ds -> (List.length axes <= List.length ds + i)%nat ->
  (exists r, permute_type_dims ds builtin axes i = Ok r) \/ permute_type_dims ds builtin axes i = UB.
Proof.
  intros P; revert i; induction ds as [ | d ds IH ]; intros i Hi C F L.
  - cbn in L; lia.
  - destruct (Z.eq_dec (axis axes i) (Z.of_nat i)) as [E | E].
    + destruct (Nat.eq_dec i (List.length axes - 1)) as [N | N].
      * rewrite ptd_last by assumption; left; eexists; reflexivity.
      * rewrite ptd_stationary by assumption; destruct builtin; [ right; reflexivity | left; eexists; reflexivity ].
    + pose proof (closed_rest axes i i P ltac:(lia) C ltac:(lia)).
      destruct (closure_spec axes i P Hi ltac:(lia)) as (R1 & R2 & R3).
      rewrite ptd_eq; cbv zeta; rewrite (proj2 (Z.eqb_neq _ _) E), strided_fixed by assumption.
      cbn [List.length] in *.
      destruct (Nat.ltb_spec (Datatypes.S (List.length ds)) (closure axes i - i + 1)) as [X | _]; [ lia | ].
      destruct (Nat.ltb_spec (closure axes i) (List.length axes - 1)) as [X | _]; [ | left; eexists; reflexivity ].
      right; destruct (IH (closure axes i + 1)%nat) as [ [r ->] | -> ]; try reflexivity; try lia.
      * apply closure_closed; try assumption; lia.
      * inversion F; assumption.
Qed.

Lemma nth_apply_block ds axes i n k d :
  (k < n)%nat -> (Z.to_nat (axis axes (i + k) - Z.of_nat i) < List.length ds)%nat ->
  nth k (apply_block ds axes i n) d = nth (Z.to_nat (axis axes (i + k) - Z.of_nat i)) ds d.
Proof.
  intros Hk Hl; unfold apply_block.
  set (f := fun k0 => nth (Z.to_nat (axis axes (i + k0) - Z.of_nat i)) ds DV).
  rewrite (nth_indep _ d (f O)) by (rewrite map_length, seq_length; exact Hk).
  rewrite map_nth, seq_nth by exact Hk; unfold f; cbn [Nat.add]; apply nth_indep; exact Hl.
Qed.

Lemma apply_block_length ds axes i n : List.length (apply_block ds axes i n) = n.
Proof. unfold apply_block; rewrite map_length, seq_length; reflexivity. Qed.

Lemma nth_skipn {A} n (l : list A) k d : nth k (skipn n l) d = nth (n + k) l d.
Proof.
  revert l; induction n as [ | n IH ]; intros l; [ reflexivity | ].
  destruct l as [ | x l ]; cbn [skipn Nat.add nth]; [ destruct k; reflexivity | apply IH ].
Qed.

(* the final block *)
Lemma ptd_block pre ds builtin axes i :
  permutation_of (List.length axes) axes -> (i < List.length axes)%nat -> List.length pre = i ->
  (forall j, (j < i)%nat -> axis axes j = Z.of_nat j) ->
  axis axes i <> Z.of_nat i ->
  closure axes i = (List.length axes - 1)%nat -> (List.length axes - i <= strided_ndim ds)%nat ->
  exists r, permute_type_dims ds builtin axes i = Ok r /\ permuted axes (pre ++ ds) (pre ++ r).
Proof.
  intros P Hi Hp Hs E HC HL.
  assert (C : closed axes i) by (intros j Hj; rewrite Hs by exact Hj; lia).
  rewrite ptd_eq; cbv zeta; rewrite (proj2 (Z.eqb_neq _ _) E), HC.
  pose proof (strided_le ds).
  destruct (Nat.ltb_spec (strided_ndim ds) (List.length axes - 1 - i + 1)) as [X | _]; [ lia | ].
  rewrite Nat.ltb_irrefl; eexists; split; [ reflexivity | ].
  replace (List.length axes - 1 - i + 1)%nat with (List.length axes - i)%nat by lia.
  split; [ | split ].
  - rewrite !app_length, apply_block_length, skipn_length; lia.
  - intros k d Hk; fold (axis axes k); destruct (Nat.lt_ge_cases k i) as [L | L].
    + rewrite (Hs k L), Nat2Z.id, !app_nth1 by lia; reflexivity.
    + pose proof (closed_rest axes i k P ltac:(lia) C ltac:(lia)) as K; pose proof (perm_range axes k P Hk).
      rewrite app_nth2 by lia; rewrite (app_nth1 (apply_block _ _ _ _)) by (rewrite apply_block_length; lia).
      rewrite (app_nth2 pre) by lia; rewrite nth_apply_block; rewrite Hp.
      * replace (i + (k - i))%nat with k by lia; f_equal; lia.
      * lia.
      * replace (i + (k - i))%nat with k by lia; lia.
  - intros k d Hk; rewrite !(app_nth2 pre) by lia; rewrite app_nth2 by (rewrite apply_block_length; lia).
    rewrite apply_block_length, nth_skipn; f_equal; lia.
Qed.

Lemma permuted_refl {A} axes (l : list A) :
  (forall k, (k < List.length axes)%nat -> nth k axes 0 = Z.of_nat k) -> permuted axes l l.
Proof.
  intros H; split; [ reflexivity | split ]; intros k d Hk; [ | reflexivity ].
  rewrite H, Nat2Z.id by exact Hk; reflexivity.
Qed.

(* leading var dimensions which stay in place *)
Lemma ptd_vars k : forall (pre ds : list dim) builtin axes,
  (List.length pre + k < List.length axes)%nat ->
  (forall j, (j < List.length pre + k)%nat -> axis axes j = Z.of_nat j) ->
  permute_type_dims (repeat DV k ++ ds) builtin axes (List.length pre) =
  do r <- permute_type_dims ds builtin axes (List.length pre + k); Ok (repeat DV k ++ r).
Proof.
  induction k as [ | k IH ]; intros pre ds builtin axes Hk Hs; cbn [repeat app].
  - rewrite Nat.add_0_r; destruct (permute_type_dims ds builtin axes (List.length pre)); reflexivity.
  - rewrite ptd_eq; cbv zeta; rewrite (proj2 (Z.eqb_eq _ _) (Hs (List.length pre) ltac:(lia))).
    destruct (Nat.eqb_spec (List.length pre) (List.length axes - 1)) as [X | _]; [ lia | ].
    replace (Datatypes.S (List.length pre)) with (List.length (pre ++ [DV])) by (rewrite app_length; cbn; lia).
    rewrite IH; try (rewrite app_length; cbn [List.length]; first [ lia | intros j Hj; apply Hs; lia ]).
    rewrite app_length; cbn [List.length].
    replace (List.length pre + 1 + k)%nat with (List.length pre + Datatypes.S k)%nat by lia.
    destruct (permute_type_dims ds builtin axes (List.length pre + Datatypes.S k)); reflexivity.
Qed.

(* ---- irreducible ------------------------------------------------------ *)

Lemma closure_full axes i :
  permutation_of (List.length axes) axes -> (i < List.length axes)%nat -> closed axes i ->
  Z.of_nat i < axis axes i ->
  (closure axes i = (List.length axes - 1)%nat <->
   (forall k, (i < k < List.length axes)%nat -> exists j, (i <= j < k)%nat /\ Z.of_nat k <= axis axes j)).
Proof.
  intros P Hi C Ha; destruct (closure_spec axes i P Hi Ha) as (R1 & R2 & R3); split.
  - intros E k Hk; apply R3; lia.
  - intros H; destruct (Nat.eq_dec (closure axes i) (List.length axes - 1)) as [ | N ]; [ assumption | exfalso ].
    destruct (H (closure axes i + 1)%nat ltac:(lia)) as (j & J1 & J2).
    specialize (R2 j ltac:(lia)); lia.
Qed.

Lemma permute_fixed a axes :
  fixed_dims (a_dims a) -> (0 < List.length axes <= List.length (a_dims a))%nat ->
  permutation_of (List.length axes) axes ->
  (irreducible axes -> exists r, permute a axes = Ok r /\ a_data r = a_data a /\ a_dtype r = a_dtype a /\
                                 permuted axes (a_dims a) (a_dims r)) /\
  (~ irreducible axes ->
   permute a axes = if t_builtin (a_dtype a) then UB
                    else if (axis axes 0 =? 0) then Ok a else UB).
Proof.
  intros F L P; unfold permute.
  destruct (Nat.ltb_spec (List.length (a_dims a)) (List.length axes)) as [X | _]; [ lia | ].
  rewrite (proj2 (is_valid_perm_spec axes) P); cbn [negb].
  assert (NE : axes <> []) by (intros ->; cbn in L; lia).
  assert (HP : forall (x : outcome arr), match axes with [] => UB | _ :: _ => x end = x)
    by (intros x; destruct axes; [ contradiction | reflexivity ]).
  rewrite HP; clear HP.
  assert (C : closed axes 0) by (intros j Hj; lia).
  pose proof (perm_range axes 0 P ltac:(lia)) as R.
  destruct (Z.eq_dec (axis axes 0) 0) as [E | E].
  - destruct (Nat.eq_dec (List.length axes) 1) as [N | N].
    + assert (IR : irreducible axes) by (intros k Hk; lia).
      split; [ | contradiction ]; intros _.
      rewrite ptd_last by (cbn; lia); cbn [bind]; eexists; split; [ reflexivity | ].
      cbn [a_data a_dtype a_dims]; split; [ reflexivity | split; [ reflexivity | ] ].
      apply permuted_refl; intros k Hk; replace k with O by lia; exact E.
    + split.
      * intros IR; exfalso; destruct (IR 1%nat ltac:(lia)) as (j & J1 & J2).
        replace j with O in J2 by lia; unfold axis in E; lia.
      * intros _; rewrite ptd_stationary; [ | exact F | cbn; lia | lia ].
        rewrite E, Z.eqb_refl; destruct (t_builtin (a_dtype a)); cbn [bind]; [ reflexivity | destruct a; reflexivity ].
  - pose proof (closure_full axes 0 P ltac:(lia) C ltac:(cbn; lia)) as K.
    assert (IK : irreducible axes <->
      (forall k, (0 < k < List.length axes)%nat -> exists j, (0 <= j < k)%nat /\ Z.of_nat k <= axis axes j)).
    { split; intros I k Hk; destruct (I k Hk) as (j & J1 & J2); exists j; (split; [ lia | exact J2 ]). }
    split.
    + intros IR.
      destruct (ptd_block [] (a_dims a) (t_builtin (a_dtype a)) axes 0) as (r & Hr & Hp);
        try assumption; try lia; try reflexivity.
      * apply K, IK, IR.
      * rewrite strided_fixed by exact F; lia.
      * rewrite Hr; cbn [bind]; eexists; split; [ reflexivity | ]; cbn [a_data a_dtype a_dims].
        split; [ reflexivity | split; [ reflexivity | exact Hp ] ].
    + intros NIR; rewrite (proj2 (Z.eqb_neq _ _) E).
      assert (NK : closure axes 0 <> (List.length axes - 1)%nat) by (intros X; apply NIR, IK, K, X).
      destruct (closure_spec axes 0 P ltac:(lia) ltac:(cbn; lia)) as (R1 & _ & _).
      assert (HU : permute_type_dims (a_dims a) (t_builtin (a_dtype a)) axes 0 = UB).
      { rewrite ptd_eq; cbv zeta; change (Z.of_nat 0) with 0; rewrite (proj2 (Z.eqb_neq _ _) E), strided_fixed by exact F.
        destruct (Nat.ltb_spec (List.length (a_dims a)) (closure axes 0 - 0 + 1)) as [X | _]; [ lia | ].
        destruct (Nat.ltb_spec (closure axes 0) (List.length axes - 1)) as [_ | X]; [ | lia ].
        destruct (a_dims a) as [ | d rest ] eqn:ED; [ cbn in L; lia | ].
        cbn [List.length] in L.
        destruct (ptd_no_throw rest (t_builtin (a_dtype a)) axes (closure axes 0 + 1)) as [ [r ->] | -> ];
          try reflexivity; try assumption; try lia.
        - apply closure_closed; try assumption; cbn; lia.
        - inversion F; assumption. }
      rewrite HU; destruct (t_builtin (a_dtype a)); reflexivity.
Qed.
