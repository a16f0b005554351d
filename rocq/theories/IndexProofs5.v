(** One more index in front: tuples, and the induction. *)
From Verif Require Import Base LinearIndexModel LinearIndexSpec LinearIndexProofs LayoutModel LayoutSpec LayoutProofs LayoutProofs2 LayoutProofs5 IndexModel IndexSpec IndexProofs IndexProofs2 IndexProofs3 IndexProofs4.
Open Scope Z_scope.

Lemma offsets_length l : List.length (arrmeta_offsets l) = List.length l.
Proof. unfold arrmeta_offsets. generalize (u64 (Z.of_nat (List.length l) * 8)) as o. induction l as [|f l IH]; intros o; cbn; auto. Qed.
Lemma nth_ne {A} (l : list A) i d : (i < List.length l)%nat -> nth_error l i = Some (nth i l d).
Proof. revert i. induction l as [|x l IH]; intros [|i] H; cbn in *; auto; try lia. apply IH. lia. Qed.
Lemma field_meta l i : tmeta (Tuple l) < W -> (i < List.length l)%nat -> 8 * Z.of_nat (List.length l) <= nth i (arrmeta_offsets l) 0 /\ nth i (arrmeta_offsets l) 0 + tmeta (nth i l (Builtin 0 1)) <= tmeta (Tuple l) /\ tmeta (nth i l (Builtin 0 1)) < W.
Proof. intros B I. apply (meta_sub l i); auto; apply nth_ne; [auto|]. rewrite offsets_length. exact I. Qed.
Lemma field_order l i j : tmeta (Tuple l) < W -> (i < j)%nat -> (j < List.length l)%nat -> nth i (arrmeta_offsets l) 0 + tmeta (nth i l (Builtin 0 1)) <= nth j (arrmeta_offsets l) 0.
Proof.
  intros B I J. rewrite arrmeta_offsets_spec by auto. eapply (mo_order l _ i j _ _ _ I); [apply nth_ne; lia| |]; apply nth_ne; rewrite mo_length; lia.
Qed.
Definition tuple_fold dm idx l a rl out emb s := fun (om : outcome mem) (i : nat) =>
                    do m <- om;
                    let k := o_start s + Z.of_nat i * o_stride s in
                    let m := st m (out + 8 * Z.of_nat i) (m (a + 8 * k)) in
                    let ft := nth i rl (Builtin 0 1) in
                    if is_builtin ft then Ok m
                    else do x <- index_meta dm idx ft (a + nth (Z.to_nat k) (arrmeta_offsets l) 0) ft (out + nth i (arrmeta_offsets rl) 0) emb None m;
                         Ok (st (fst (fst x)) (out + 8 * Z.of_nat i) (fst (fst x) (out + 8 * Z.of_nat i) + snd (fst x))).
Lemma fold_ok idx dm l rl a out emb s m : good idx dm -> (forall i, (i < List.length rl)%nat -> 0 <= o_start s + Z.of_nat i * o_stride s < Z.of_nat (List.length l) /\ nth (Z.to_nat (o_start s + Z.of_nat i * o_stride s)) l (Builtin 0 1) = nth i rl (Builtin 0 1) /\
    index_type idx (nth i rl (Builtin 0 1)) false = Ok (nth i rl (Builtin 0 1)) /\ supported idx (nth i rl (Builtin 0 1)) false /\ dims64 (nth i rl (Builtin 0 1))) ->
  tmeta (Tuple l) < W -> tmeta (Tuple rl) < W -> disjoint out (tmeta (Tuple rl)) a (tmeta (Tuple l)) ->
  forall j, (j <= List.length rl)%nat -> exists m', fold_left (tuple_fold dm idx l a rl out emb s) (seq 0 j) (Ok m) = Ok m' /\ same_outside m m' out (tmeta (Tuple rl)) /\
    forall i, (i < j)%nat -> let k := o_start s + Z.of_nat i * o_stride s in exists io, m' (out + 8 * Z.of_nat i) = m (a + 8 * k) + io /\
      forall d, VV idx m dm (nth i rl (Builtin 0 1)) (a + nth (Z.to_nat k) (arrmeta_offsets l) 0) d m' (nth i rl (Builtin 0 1)) (out + nth i (arrmeta_offsets rl) 0) (d + io).
Proof.
  intros G Hf B BR DJ. induction j as [|j IH]; intros J; [exists m; split; [reflexivity|]; split; [intros x _; reflexivity|intros i I; lia]|].
  destruct (IH ltac:(lia)) as (mj & Ef & O & V). clear IH. rewrite seq_S, fold_left_app, Ef. cbn [fold_left]. unfold tuple_fold at 1. cbn [bind Nat.add]. change (0 + j)%nat with j.
  destruct (Hf j J) as (K & Nt & Et & Sp & D64). set (k := o_start s + Z.of_nat j * o_stride s) in *. set (ft := nth j rl (Builtin 0 1)) in *. set (kn := Z.to_nat k) in *.
  set (ak := nth kn (arrmeta_offsets l) 0). set (oj := nth j (arrmeta_offsets rl) 0).
  destruct (field_meta l kn B ltac:(unfold kn; lia)) as (A1 & A2 & A3). rewrite Nt in A2, A3. fold ak in A1, A2. destruct (field_meta rl j BR J) as (B1 & B2 & _). fold ft oj in B1, B2. pose proof (tmeta_pos ft) as P.
  set (m1 := st mj (out + 8 * Z.of_nat j) (mj (a + 8 * k))).
  destruct (call_none idx dm G ft (a + ak) ft (out + oj) emb m1 D64 A3 A3 ltac:(unfold disjoint in *; lia) Sp Et) as (m' & io & Ec & O2 & V2).
  exists (if is_builtin ft then m1 else st m' (out + 8 * Z.of_nat j) (m' (out + 8 * Z.of_nat j) + io)). split.
  { unfold call in Ec. destruct (is_builtin ft); [reflexivity|rewrite Ec; reflexivity]. }
  assert (M' : is_builtin ft = true -> m' = m1 /\ io = 0) by (intros X; unfold call in Ec; rewrite X in Ec; injection Ec as <- <-; auto).
  set (m2 := if is_builtin ft then m1 else st m' (out + 8 * Z.of_nat j) (m' (out + 8 * Z.of_nat j) + io)).
  assert (O3 : forall x, x <> out + 8 * Z.of_nat j -> m2 x = m' x) by (unfold m2; intros x X; destruct (is_builtin ft); [destruct M' as (-> & _); reflexivity|apply st_other; exact X]).
  assert (W2 : m2 (out + 8 * Z.of_nat j) = m (a + 8 * k) + io).
  { assert (X : m' (out + 8 * Z.of_nat j) = m (a + 8 * k)). { rewrite O2 by lia. unfold m1. rewrite st_same. apply O. unfold disjoint in DJ. lia. }
    unfold m2. destruct (is_builtin ft) eqn:Be; [destruct M' as (E1 & ->); [reflexivity|]; rewrite E1 in X; lia|]. rewrite st_same. lia. }
  assert (O4 : forall x, x <> out + 8 * Z.of_nat j -> x < out + oj \/ out + oj + tmeta ft <= x -> m2 x = mj x) by (intros x X Y; rewrite O3 by exact X; rewrite O2 by exact Y; unfold m1; apply st_other; exact X).
  clearbody m2. split; [intros x X; rewrite O4; [apply O; exact X| |]; lia|].
  intros i I. destruct (Nat.eq_dec i j) as [->|NE].
  - exists io. split; [exact W2|]. intros d. fold k kn ft ak oj. eapply VV_same; [| |apply V2].
    + apply wsame_agree; [exact A3|]. intros x X. unfold m1. rewrite st_other by (unfold disjoint in DJ; lia). apply O. unfold disjoint in DJ. lia.
    + apply wsame_agree; [exact A3|]. intros x X. apply O3. lia.
  - destruct (V i ltac:(lia)) as (io' & X1 & X2). exists io'. destruct (field_meta rl i BR ltac:(lia)) as (C1 & C2 & C3). pose proof (field_order rl i j BR ltac:(lia) J) as C4. fold oj in C4. pose proof (tmeta_pos (nth i rl (Builtin 0 1))). split.
    + rewrite O4 by lia. exact X1.
    + intros d. eapply VV_same; [apply wsame_refl| |apply X2]. apply wsame_agree; [exact C3|]. intros x X. apply O4; lia.
Qed.

Lemma lead_type idx : Forall idx64 idx -> forall t, dims64 t -> supported idx t false -> index_type idx t true = index_type idx t false.
Proof.
  induction 1 as [|r idx I FA IH]; intros t D S; [reflexivity|]. revert D S. induction t as [s0 al|s0 al de|e IHe|e IHe|e IHe|n e IHe|l _] using lt_ind'; intros D S; try reflexivity; cbn [index_type dims64 supported] in *.
  - destruct (r_step r =? 0); [destruct S; discriminate|reflexivity].
  - rewrite IHe; auto.
  - destruct D as (N & D). destruct (apply_single_linear_index r n) as [s| | |] eqn:Es; cbn [bind]; try reflexivity. destruct (o_remove s) eqn:Rm; [|reflexivity]. apply IH; auto. destruct (r_step r =? 0); exact S.
  - destruct D as (N & D). destruct (apply_single_linear_index r _) as [s| | |] eqn:Es; cbn [bind]; try reflexivity. destruct (o_remove s) eqn:Rm; [|reflexivity]. assert (N0 : 0 <= Z.of_nat (List.length l) < 2 ^ 63) by lia.
    destruct (Z.eqb_spec (r_step r) 0) as [R|R].
    + destruct (sli_index r _ s N0 I R Es) as (_ & A). assert (L : (Z.to_nat (o_start s) < List.length l)%nat) by (destruct A; lia). apply IH; [apply (dims64_in l _ D), nth_In; exact L|]. eapply S; [exact A|]. apply nth_ne. exact L.
    + destruct (sli_slice r _ s N0 I R Es) as (Rm' & _). congruence.
Qed.
Lemma tuple_ok r idx dm l : good idx dm -> idx64 r -> forall a rt out emb m lead, dims64 (Tuple l) -> tmeta (Tuple l) < W -> tmeta rt < W -> disjoint out (tmeta rt) a (tmeta (Tuple l)) ->
  supported (r :: idx) (Tuple l) (is_some lead) -> index_type (r :: idx) (Tuple l) (is_some lead) = Ok rt ->
  result_ok (r :: idx) m dm (Tuple l) a rt out lead (index_meta dm (r :: idx) (Tuple l) a rt out emb lead m).
Proof.
  intros G I a rt out emb m lead (N & De) B BR DJ S E. cbn [supported index_type index_meta] in *. apply bind_ok in E as (s & Es & E). rewrite Es. cbn [bind]. assert (N0 : 0 <= Z.of_nat (List.length l) < 2 ^ 63) by lia.
  destruct (Z.eqb_spec (r_step r) 0) as [R|R].
  - destruct (sli_index r _ s N0 I R Es) as (Rm & A). rewrite Rm in E |- *. set (k := Z.to_nat (o_start s)) in *. assert (L : (k < List.length l)%nat) by (unfold k; destruct A; lia).
    destruct (field_meta l k B L) as (A1 & A2 & A3). pose proof (tmeta_pos (nth k l (Builtin 0 1))). apply (remove_ok r idx dm (Tuple l) a (Z.of_nat (List.length l)) (o_start s) (nth k l (Builtin 0 1)) (a + nth k (arrmeta_offsets l) 0)); auto.
    + apply (dims64_in l _ De), nth_In. exact L.
    + unfold disjoint in *. lia.
    + eapply S; [exact A|]. apply nth_ne. exact L.
    + intros d. cbn [item]. destruct A as (_ & A). destruct (Z.leb_spec 0 (o_start s)); [|lia]. fold k. rewrite (nth_ne l k (Builtin 0 1) L), (nth_ne (arrmeta_offsets l) k 0) by (rewrite offsets_length; exact L). reflexivity.
  - destruct (sli_slice r _ s N0 I R Es) as (Rm & SZ & IN & BD). rewrite Rm in E |- *. apply bind_ok in E as (rl & Ee & E). injection E as <-. destruct S as (FU & S). apply seq_out_ok in Ee.
    assert (Ln : List.length rl = Z.to_nat (o_size s)) by (rewrite <- (Forall2_length Ee), map_length, seq_length; reflexivity).
    assert (Hf : forall i, (i < List.length rl)%nat -> 0 <= o_start s + Z.of_nat i * o_stride s < Z.of_nat (List.length l) /\ nth (Z.to_nat (o_start s + Z.of_nat i * o_stride s)) l (Builtin 0 1) = nth i rl (Builtin 0 1) /\
      index_type idx (nth i rl (Builtin 0 1)) false = Ok (nth i rl (Builtin 0 1)) /\ supported idx (nth i rl (Builtin 0 1)) false /\ dims64 (nth i rl (Builtin 0 1))).
    { intros i Hi. assert (Q : 0 <= o_start s + Z.of_nat i * o_stride s < Z.of_nat (List.length l)) by (apply BD; lia). split; [exact Q|].
      set (f := nth (Z.to_nat (o_start s + Z.of_nat i * o_stride s)) l (Builtin 0 1)). assert (Inf : In f l) by (apply nth_In; lia).
      assert (X : index_type idx f false = Ok (nth i rl (Builtin 0 1))).
      { clear - Ee Hi Ln. unfold f. assert (forall ls b i, (i < List.length rl)%nat -> Forall2 (fun x y => x = Ok y) (map (fun i => index_type idx (nth (Z.to_nat (o_start s + Z.of_nat i * o_stride s)) l (Builtin 0 1)) false) (seq b ls)) rl -> index_type idx (nth (Z.to_nat (o_start s + Z.of_nat (b + i) * o_stride s)) l (Builtin 0 1)) false = Ok (nth i rl (Builtin 0 1))).
        { clear. intros ls b. revert b rl. induction ls as [|ls IH]; intros b rl i Hi F; cbn [seq map] in F; inversion F as [|x y xs ys F1 F2]; subst; cbn [List.length] in Hi; try lia. destruct i as [|i]; [rewrite Nat.add_0_r; exact F1|]. cbn [List.length nth] in *. replace (b + Datatypes.S i)%nat with (Datatypes.S b + i)%nat by lia. apply IH; [lia|exact F2]. }
        apply (H _ 0%nat i Hi Ee). }
      assert (D1 : dims64 f) by (apply (dims64_in l _ De Inf)). pose proof (full_type idx FU f _ D1 X) as Y. rewrite Y in *. clear Y. repeat split; auto. }
    destruct (fold_ok idx dm l rl a out emb s m G Hf B BR DJ (List.length rl) (le_n _)) as (m' & Ef & O & V). rewrite Ln in Ef. unfold tuple_fold in Ef. rewrite Ef. cbn [bind].
    assert (VA : forall d, VV (r :: idx) m dm (Tuple l) a d m' (Tuple rl) out d).
    { intros d. apply (VV_slice r idx m dm (Tuple l) a d m' (Tuple rl) out d (Z.of_nat (List.length l))); auto.
      - intros j i Ij. apply IN in Ij as (J & ->). specialize (BD j J). assert (Jn : (Z.to_nat j < List.length rl)%nat) by lia. destruct (V _ Jn) as (io & W1 & V1). destruct (Hf _ Jn) as (_ & Nt & _). rewrite Z2Nat.id in * by lia. set (k := o_start s + j * o_stride s) in *.
        exists (nth (Z.to_nat k) l (Builtin 0 1)), (a + nth (Z.to_nat k) (arrmeta_offsets l) 0), (d + m (a + 8 * k)), (nth (Z.to_nat j) rl (Builtin 0 1)), (out + nth (Z.to_nat j) (arrmeta_offsets rl) 0), (d + m' (out + 8 * j)). cbn [item].
        destruct (Z.leb_spec 0 k); [|lia]. destruct (Z.leb_spec 0 j); [|lia]. rewrite (nth_ne l (Z.to_nat k) (Builtin 0 1)) by lia. rewrite (nth_ne (arrmeta_offsets l) (Z.to_nat k) 0) by (rewrite offsets_length; lia). rewrite (nth_ne rl (Z.to_nat j) (Builtin 0 1)) by lia. rewrite (nth_ne (arrmeta_offsets rl) (Z.to_nat j) 0) by (rewrite offsets_length; lia).
        split; [reflexivity|]. split; [reflexivity|]. rewrite Nt. eapply VV_at; [apply V1|]. rewrite W1. ring.
      - intros j x Ij. cbn [item] in Ij. destruct (Z.leb_spec 0 j); [|discriminate]. destruct (nth_error rl (Z.to_nat j)) eqn:Nj; [|discriminate]. assert (Jn : (Z.to_nat j < List.length rl)%nat) by (apply nth_error_Some; congruence). eexists. apply IN. split; [lia|reflexivity]. }
    split; [exact O|]. destruct lead as [data|].
    + exists data. split; [reflexivity|]. rewrite Z.add_0_r. apply VA.
    + split; [reflexivity|]. intros d. rewrite Z.add_0_r. apply VA.
Qed.
Lemma pointer_ok r idx dm e : (forall a rt out emb m, dims64 e -> tmeta e < W -> tmeta rt < W -> disjoint out (tmeta rt) a (tmeta e) -> supported (r :: idx) e false -> index_type (r :: idx) e false = Ok rt -> is_builtin e = false ->
    result_ok (r :: idx) m dm e a rt out None (index_meta dm (r :: idx) e a rt out emb None m)) ->
  Forall idx64 (r :: idx) -> forall a rt out emb m lead, dims64 (Pointer e) -> tmeta (Pointer e) < W -> tmeta rt < W -> disjoint out (tmeta rt) a (tmeta (Pointer e)) ->
  supported (r :: idx) (Pointer e) (is_some lead) -> index_type (r :: idx) (Pointer e) (is_some lead) = Ok rt ->
  result_ok (r :: idx) m dm (Pointer e) a rt out lead (index_meta dm (r :: idx) (Pointer e) a rt out emb lead m).
Proof.
  intros G I a rt out emb m lead De B BR DJ S E. change (supported (r :: idx) (Pointer e) (is_some lead)) with (supported (r :: idx) e false) in S. change (dims64 (Pointer e)) with (dims64 e) in De. change (index_type (r :: idx) (Pointer e) (is_some lead)) with (do e' <- index_type (r :: idx) e (is_some lead); Ok (Pointer e')) in E.
  apply bind_ok in E as (re & E & Er). injection Er as <-. assert (E' : index_type (r :: idx) e false = Ok re) by (rewrite <- E; destruct (is_some lead); [symmetry; apply lead_type; auto|reflexivity]). clear E.
  assert (Be : is_builtin e = false) by (destruct e; try reflexivity; discriminate). cbn [tmeta] in *. pose proof (tmeta_pos e). pose proof (tmeta_pos re).
  set (m1 := st (st m out (m a)) (out + 8) (m (a + 8))).
  assert (X : index_meta dm (r :: idx) (Pointer e) a (Pointer re) out emb lead m = do x <- index_meta dm (r :: idx) e (a + 16) re (out + 16) emb None m1; Ok (st (fst (fst x)) (out + 8) (fst (fst x) (out + 8) + snd (fst x)), 0, lead)).
  { destruct e; try discriminate; reflexivity. }
  rewrite X. clear X. pose proof (G (a + 16) re (out + 16) emb m1 De ltac:(lia) ltac:(lia) ltac:(unfold disjoint in *; lia) S E' Be) as H1.
  destruct (index_meta dm (r :: idx) e (a + 16) re (out + 16) emb None m1) as [((m', o), l)|z| |]; cbn in H1; try contradiction; [|destruct H1 as (_ & ? & ? & _); discriminate].
  destruct H1 as (O & -> & V). cbn [bind fst snd]. set (m2 := st m' (out + 8) (m' (out + 8) + o)).
  assert (W8 : m2 (out + 8) = m (a + 8) + o) by (unfold m2; rewrite st_same, O by lia; unfold m1; rewrite st_same; reflexivity).
  assert (O1 : same_outside m m1 out 16) by (intros x Y; unfold m1; rewrite !st_other by lia; reflexivity).
  assert (VA : forall d, VV (r :: idx) m dm (Pointer e) a d m2 (Pointer re) out d).
  { intros d. apply VV_pointer. eapply VV_at; [eapply VV_same; [| |apply V]|].
    - eapply out_same; [lia|exact O1|unfold disjoint in *; lia].
    - apply wsame_agree; [lia|]. intros x Y. unfold m2. apply st_other. lia.
    - rewrite W8. ring. }
  split; [intros x Y; cbn [tmeta] in Y; unfold m2; rewrite st_other by lia; rewrite O by lia; apply O1; lia|]. destruct lead as [data|].
  - exists data. split; [reflexivity|]. rewrite Z.add_0_r. apply VA.
  - split; [reflexivity|]. intros d. rewrite Z.add_0_r. apply VA.
Qed.
Lemma all_good dm idx : good_data dm -> Forall idx64 idx -> good idx dm.
Proof.
  intros GD. induction 1 as [|r idx I FA IH]; [apply good_nil|]. intros t. induction t as [s0 al|s0 al de|e IHe|e IHe|e IHe|n e IHe|l _] using lt_ind'; intros a rt out emb m lead D B BR DJ S E Bt; try discriminate.
  - apply var_ok; auto.
  - apply pointer_ok; auto.
  - apply fixed_ok; auto.
  - apply tuple_ok; auto.
Qed.
