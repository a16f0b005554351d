(** Copying arrmeta, and what a failed construction leaves behind: C58. *)
From Verif Require Import Base LayoutModel LayoutSpec LayoutProofs LayoutProofs2 LayoutProofs3.
Open Scope Z_scope.

Definition nonnull (b : Z) : bool := negb (b =? 0).
Definition held_fields (m : mem) : list lt -> Z -> list Z := fix go (l : list lt) (a : Z) : list Z := match l with [] => [] | f :: l => held m f a ++ go l (a + tmeta f) end.
Lemma held_tuple m l a : held m (Tuple l) a = held_fields m l (a + 8 * Z.of_nat (List.length l)).
Proof. reflexivity. Qed.
Lemma held_fields_cons m f l a : held_fields m (f :: l) a = held m f a ++ held_fields m l (a + tmeta f).
Proof. reflexivity. Qed.
Lemma refs_blocks m t : forall a, tmeta t < W -> refs m t a = blocks m t a.
Proof.
  unfold blocks. fold nonnull. induction t as [s al|s al d|e IH|e IH|e IH|n e IH|l IH] using lt_ind'; intros a B; cbn [tmeta] in B; try (pose proof (tmeta_pos e)); cbn [refs held]; auto.
  - cbn [filter]. rewrite IH by lia. unfold ref, nonnull at 2. destruct (m a =? 0); reflexivity.
  - cbn [filter]. rewrite IH by lia. unfold ref, nonnull at 2. destruct (m a =? 0); reflexivity.
  - apply IH. lia.
  - change (tmeta (Tuple l) < W) in B. change (refs_fields m a l (arrmeta_offsets l) = filter nonnull (held_fields m l (a + 8 * Z.of_nat (List.length l)))).
    rewrite arrmeta_offsets_spec by auto. rewrite tmeta_tuple in B. assert (P : 0 <= 8 * Z.of_nat (List.length l)) by lia. revert P B. generalize (8 * Z.of_nat (List.length l)). induction IH as [|f l F IH IH2]; intros o P B; [reflexivity|].
    cbn [mo msum] in *. pose proof (tmeta_pos f). pose proof (msum_pos l). rewrite refs_fields_cons, held_fields_cons, filter_app, IH2, F by lia. f_equal. f_equal. f_equal. lia.
Qed.
Lemma held_ext m m' t : forall a, agree m m' a (tmeta t) -> held m' t a = held m t a.
Proof.
  induction t as [s al|s al d|e IH|e IH|e IH|n e IH|l IH] using lt_ind'; intros a A; cbn [tmeta] in A; try (pose proof (tmeta_pos e)); cbn [held]; auto.
  - rewrite (A a) by lia. f_equal. apply IH. eapply agree_sub; eauto; lia.
  - rewrite (A a) by lia. f_equal. apply IH. eapply agree_sub; eauto; lia.
  - apply IH. eapply agree_sub; eauto; lia.
  - change (agree m m' a (tmeta (Tuple l))) in A. rewrite tmeta_tuple in A. change (held_fields m' l (a + 8 * Z.of_nat (List.length l)) = held_fields m l (a + 8 * Z.of_nat (List.length l))).
    assert (A2 : agree m m' (a + 8 * Z.of_nat (List.length l)) (msum l)) by (eapply agree_sub; eauto; lia). clear A. revert A2. generalize (a + 8 * Z.of_nat (List.length l)).
    induction IH as [|f l F IH IH2]; intros b A; [reflexivity|]. cbn [msum] in A. pose proof (tmeta_pos f). pose proof (msum_pos l). rewrite !held_fields_cons, F, IH2; [reflexivity| |]; eapply agree_sub; eauto; lia.
Qed.
Lemma held_fields_ext m m' l : forall b, agree m m' b (msum l) -> held_fields m' l b = held_fields m l b.
Proof.
  induction l as [|f l IH]; intros b A; [reflexivity|]. cbn [msum] in A. pose proof (tmeta_pos f). pose proof (msum_pos l). rewrite !held_fields_cons, (held_ext m m' f), IH; [reflexivity| |]; eapply agree_sub; eauto; lia.
Qed.
Lemma at_path_ext m m' t : forall a d p, tmeta t < W -> agree m m' a (tmeta t) -> at_path m' t a d p = at_path m t a d p.
Proof.
  induction t as [s al|s al de|e IH|e IH|e IH|n e IH|l IH] using lt_ind'; intros a d [|i p] B A; try reflexivity.
  - cbn [at_path]. apply IH; auto.
  - cbn [at_path tmeta] in *. pose proof (tmeta_pos e). rewrite (A (a + 8)) by lia. destruct ((0 <=? i) && (i <? n)); [|reflexivity]. apply IH; [lia|]. eapply agree_sub; eauto; lia.
  - rewrite !at_tuple. destruct (Z.leb_spec 0 i); [|reflexivity]. destruct (nth_error l (Z.to_nat i)) as [f|] eqn:F; [|reflexivity]. destruct (nth_error (arrmeta_offsets l) (Z.to_nat i)) as [o|] eqn:O; [|reflexivity].
    assert (I : (Z.to_nat i < List.length l)%nat) by (apply nth_error_Some; congruence). destruct (meta_sub l _ f o B F O) as (M1 & M2 & M3). pose proof (tmeta_pos f). rewrite (A (a + 8 * i)) by lia.
    rewrite Forall_forall in IH. apply IH; auto; [eapply nth_error_In; eauto|]. eapply agree_sub; eauto; lia.
Qed.

Definition subst_null (emb b : Z) : Z := if b =? 0 then emb else b.
Definition moved (k : Z) (r : option (lt * Z * Z)) : option (lt * Z * Z) := option_map (fun x => (fst (fst x), snd (fst x) + k, snd x)) r.
Definition copied (t : lt) (dst src emb : Z) (m : mem) (x : mem * list Z) : Prop :=
  same_outside m (fst x) dst (tmeta t) /\ snd x = refs (fst x) t dst /\ held (fst x) t dst = map (subst_null emb) (held m t src) /\
  forall d p, at_path (fst x) t dst d p = moved (dst - src) (at_path m t src d p).
Definition cp_fields (dst src emb : Z) : list lt -> list Z -> mem -> list Z -> mem * list Z :=
  fix go (l : list lt) (offs : list Z) (m : mem) (r : list Z) : mem * list Z :=
         match l, offs with
         | f :: l, o :: offs => let (m, r') := copy_construct f (dst + o) (src + o) emb m in go l offs m (r ++ r')
         | _, _ => (m, r)
         end.
Lemma cp_fields_cons dst src emb f l o offs m r : cp_fields dst src emb (f :: l) (o :: offs) m r = let (m, r') := copy_construct f (dst + o) (src + o) emb m in cp_fields dst src emb l offs m (r ++ r').
Proof. reflexivity. Qed.
Lemma cp_tuple l dst src emb m : copy_construct (Tuple l) dst src emb m = cp_fields dst src emb l (arrmeta_offsets l) (copy_words m dst src (List.length l)) [].
Proof. reflexivity. Qed.
Lemma copy_words_get n : forall m dst src, disjoint dst (8 * Z.of_nat n) src (8 * Z.of_nat n) ->
  (forall i, (i < n)%nat -> copy_words m dst src n (dst + 8 * Z.of_nat i) = m (src + 8 * Z.of_nat i)) /\ same_outside m (copy_words m dst src n) dst (8 * Z.of_nat n).
Proof.
  unfold disjoint, same_outside. induction n as [|n IH]; intros m dst src D; cbn [copy_words].
  - split; [lia|auto].
  - destruct (IH (st m dst (m src)) (dst + 8) (src + 8) ltac:(lia)) as (A & B). split.
    + intros [|i] I.
      * rewrite B by lia. replace (dst + 8 * Z.of_nat 0) with dst by lia. replace (src + 8 * Z.of_nat 0) with src by lia. apply st_same.
      * replace (dst + 8 * Z.of_nat (S i)) with (dst + 8 + 8 * Z.of_nat i) by lia. rewrite A by lia. rewrite st_other by lia. f_equal. lia.
    + intros x X. rewrite B by lia. apply st_other. lia.
Qed.
Lemma cp_fields_ok dst src emb l : Forall (fun t => forall dst src m, tmeta t < W -> disjoint dst (tmeta t) src (tmeta t) -> copied t dst src emb m (copy_construct t dst src emb m)) l ->
  forall o m r, 0 <= o -> o + msum l < W -> disjoint dst (o + msum l) src (o + msum l) -> let x := cp_fields dst src emb l (mo l o) m r in
  same_outside m (fst x) (dst + o) (msum l) /\ snd x = r ++ refs_fields (fst x) dst l (mo l o) /\ held_fields (fst x) l (dst + o) = map (subst_null emb) (held_fields m l (src + o)) /\
  forall i f q, nth_error l i = Some f -> nth_error (mo l o) i = Some q -> forall d p, at_path (fst x) f (dst + q) d p = moved (dst - src) (at_path m f (src + q) d p).
Proof.
  induction 1 as [|f l Hf Hl IH]; intros o m r P B D x.
  - subst x. cbn. rewrite app_nil_r. split; [intros y _; reflexivity|]. split; [auto|]. split; [auto|]. intros [|i] g q H; discriminate.
  - subst x. cbn [mo msum] in *. rewrite cp_fields_cons. pose proof (tmeta_pos f). pose proof (msum_pos l).
    assert (D1 : disjoint (dst + o) (tmeta f) (src + o) (tmeta f)) by (unfold disjoint in *; lia).
    destruct (Hf (dst + o) (src + o) m ltac:(lia) D1) as (C1 & C2 & C3 & C4). destruct (copy_construct f (dst + o) (src + o) emb m) as (m1, r1) eqn:C. cbn [fst snd] in *.
    assert (D2 : disjoint dst (o + tmeta f + msum l) src (o + tmeta f + msum l)) by (unfold disjoint in *; lia).
    destruct (IH (o + tmeta f) m1 (r ++ r1) ltac:(lia) ltac:(lia) D2) as (E1 & E2 & E3 & E4). set (x := cp_fields _ _ _ _ _ _ _) in *.
    assert (AG : agree m1 (fst x) (dst + o) (tmeta f)) by (intros y Y; apply E1; lia).
    assert (AS : forall b n, src + o + tmeta f <= b -> b + n <= src + o + (tmeta f + msum l) -> agree m m1 b n) by (intros b n Q1 Q2 y Y; apply C1; unfold disjoint in D; lia).
    split; [|split; [|split]].
    + intros y Y. rewrite E1 by lia. apply C1. lia.
    + rewrite E2, C2, refs_fields_cons, (refs_ext _ _ f (dst + o) ltac:(lia) AG), app_assoc. reflexivity.
    + rewrite !held_fields_cons, (held_ext _ _ f (dst + o) AG), C3, map_app. f_equal. replace (dst + o + tmeta f) with (dst + (o + tmeta f)) by lia. rewrite E3. f_equal.
      replace (src + (o + tmeta f)) with (src + o + tmeta f) by lia.
      apply held_fields_ext. apply AS; lia.
    + intros [|i] g q G X d p; cbn [nth_error] in *.
      * injection G as <-. injection X as <-. rewrite (at_path_ext m1 (fst x)) by (auto; lia). rewrite C4. f_equal. lia.
      * rewrite (E4 i g q G X). f_equal. destruct (mo_nth l _ _ _ _ G X). apply at_path_ext; [lia|]. apply AS; lia.
Qed.

Lemma moved_0 k x y z : moved k (Some (x, y, z)) = Some (x, y + k, z).
Proof. reflexivity. Qed.
Lemma copy_ok emb t : forall dst src m, tmeta t < W -> disjoint dst (tmeta t) src (tmeta t) -> copied t dst src emb m (copy_construct t dst src emb m).
Proof.
  induction t as [s0 al|s0 al de|e IH|e IH|e IH|n e IH|l IH] using lt_ind'; intros dst src m B D.
  - split; [intros x _; reflexivity|]. split; [reflexivity|]. split; [reflexivity|]. intros d [|i p]; [|reflexivity]. cbn. f_equal. f_equal. f_equal. lia.
  - split; [intros x _; reflexivity|]. split; [reflexivity|]. split; [reflexivity|]. intros d [|i p]; [|reflexivity]. cbn. f_equal. f_equal. f_equal. lia.
  - cbn [tmeta copy_construct] in *. pose proof (tmeta_pos e). unfold copy_ref. set (m0 := st (st m _ _) _ _). set (b := if m0 src =? 0 then emb else m0 src).
    assert (M0 : m0 src = m src) by (unfold m0; rewrite !st_other by (unfold disjoint in D; lia); reflexivity).
    assert (D1 : disjoint (dst + 24) (tmeta e) (src + 24) (tmeta e)) by (unfold disjoint in *; lia).
    destruct (IH (dst + 24) (src + 24) (st m0 dst b) ltac:(lia) D1) as (C1 & C2 & C3 & C4). destruct (copy_construct e (dst + 24) (src + 24) emb (st m0 dst b)) as (m1, r1). cbn [fst snd] in *.
    assert (AG : agree m (st m0 dst b) (src + 24) (tmeta e)) by (intros y Y; unfold m0; rewrite !st_other by (unfold disjoint in D; lia); reflexivity).
    assert (MD : m1 dst = b) by (rewrite C1 by lia; apply st_same).
    split; [|split; [|split]]; cbn [fst snd tmeta].
    + intros x X. rewrite C1 by lia. unfold m0. rewrite !st_other by lia. reflexivity.
    + cbn [refs]. unfold ref. rewrite MD, <- C2. reflexivity.
    + cbn [held map]. rewrite C3, MD, (held_ext m _ e (src + 24) AG). f_equal. unfold b, subst_null. rewrite M0. reflexivity.
    + intros d [|i p]; [|reflexivity]. cbn. f_equal. f_equal. f_equal. lia.
  - cbn [tmeta copy_construct] in *. pose proof (tmeta_pos e). unfold copy_ref. set (b := if m src =? 0 then emb else m src). set (m0 := st (st m dst b) (dst + 8) _).
    assert (D1 : disjoint (dst + 16) (tmeta e) (src + 16) (tmeta e)) by (unfold disjoint in *; lia).
    destruct (IH (dst + 16) (src + 16) m0 ltac:(lia) D1) as (C1 & C2 & C3 & C4). destruct (copy_construct e (dst + 16) (src + 16) emb m0) as (m1, r1). cbn [fst snd] in *.
    assert (AG : agree m m0 (src + 16) (tmeta e)) by (intros y Y; unfold m0; rewrite !st_other by (unfold disjoint in D; lia); reflexivity).
    assert (MD : m1 dst = b) by (rewrite C1 by lia; unfold m0; rewrite st_other by lia; apply st_same).
    split; [|split; [|split]]; cbn [fst snd tmeta].
    + intros x X. rewrite C1 by lia. unfold m0. rewrite !st_other by lia. reflexivity.
    + cbn [refs]. unfold ref. rewrite MD, <- C2. reflexivity.
    + cbn [held map]. rewrite C3, MD, (held_ext m _ e (src + 16) AG). reflexivity.
    + intros d [|i p]; [|reflexivity]. cbn. f_equal. f_equal. f_equal. lia.
  - destruct (IH dst src m B D) as (C1 & C2 & C3 & C4). split; [exact C1|]. split; [exact C2|]. split; [exact C3|]. intros d [|i p]; [|exact (C4 d (i :: p))]. cbn. f_equal. f_equal. f_equal. lia.
  - cbn [tmeta copy_construct] in *. pose proof (tmeta_pos e). set (m0 := st (st m dst _) (dst + 8) _).
    assert (D1 : disjoint (dst + 16) (tmeta e) (src + 16) (tmeta e)) by (unfold disjoint in *; lia).
    destruct (IH (dst + 16) (src + 16) m0 ltac:(lia) D1) as (C1 & C2 & C3 & C4). destruct (copy_construct e (dst + 16) (src + 16) emb m0) as (m1, r1). cbn [fst snd] in *.
    assert (AG : agree m m0 (src + 16) (tmeta e)) by (intros y Y; unfold m0; rewrite !st_other by (unfold disjoint in D; lia); reflexivity).
    assert (MD : m1 (dst + 8) = m (src + 8)) by (rewrite C1 by lia; unfold m0; rewrite st_same, ?st_other by (unfold disjoint in D; lia); reflexivity).
    split; [|split; [|split]]; cbn [fst snd tmeta].
    + intros x X. rewrite C1 by lia. unfold m0. rewrite !st_other by lia. reflexivity.
    + exact C2.
    + cbn [held map]. rewrite C3, (held_ext m _ e (src + 16) AG). reflexivity.
    + intros d [|i p]; [cbn; f_equal; f_equal; f_equal; lia|]. cbn [at_path]. rewrite MD. destruct ((0 <=? i) && (i <? n)); [|reflexivity]. rewrite C4. rewrite (at_path_ext m m0 e (src + 16) _ p ltac:(lia) AG). f_equal. lia.
  - rewrite cp_tuple, arrmeta_offsets_spec by auto. pose proof (tmeta_tuple l) as T. pose proof (msum_pos l). set (m0 := copy_words m dst src (List.length l)). set (k := 8 * Z.of_nat (List.length l)) in *.
    destruct (copy_words_get (List.length l) m dst src ltac:(unfold disjoint in *; lia)) as (G1 & G2). fold m0 in G1, G2.
    assert (DD : disjoint dst (k + msum l) src (k + msum l)) by (unfold disjoint in *; lia).
    destruct (cp_fields_ok dst src emb l IH k m0 [] ltac:(lia) ltac:(lia) DD) as (E1 & E2 & E3 & E4). set (x := cp_fields _ _ _ _ _ _ _) in *.
    assert (AG : agree m m0 (src + k) (msum l)) by (intros y Y; apply G2; unfold disjoint in D; lia).
    split; [|split; [|split]].
    + intros y Y. rewrite E1 by lia. apply G2. lia.
    + rewrite E2, refs_tuple, arrmeta_offsets_spec by auto. reflexivity.
    + rewrite !held_tuple. fold k. rewrite E3, (held_fields_ext m m0) by auto. reflexivity.
    + intros d [|i p]; [cbn; f_equal; f_equal; f_equal; lia|]. rewrite !at_tuple. destruct (Z.leb_spec 0 i); [|reflexivity]. destruct (nth_error l (Z.to_nat i)) as [f|] eqn:F; [|reflexivity]. destruct (nth_error (arrmeta_offsets l) (Z.to_nat i)) as [o|] eqn:O; [|reflexivity].
      assert (I : (Z.to_nat i < List.length l)%nat) by (apply nth_error_Some; congruence). destruct (meta_sub l _ f o B F O) as (M1 & M2 & M3). fold k in M1.
      assert (MI : fst x (dst + 8 * i) = m (src + 8 * i)). { rewrite E1 by lia. specialize (G1 (Z.to_nat i) I). rewrite Z2Nat.id in G1 by lia. exact G1. }
      rewrite MI. rewrite arrmeta_offsets_spec in O by auto. fold k in O. rewrite (E4 _ f o F O). assert (AG2 : agree m m0 (src + o) (tmeta f)) by (eapply agree_sub; [exact AG|lia|lia]). rewrite (at_path_ext m m0 f (src + o) _ p M3 AG2). reflexivity.
Qed.

(** Types without references cannot fail and hold nothing. *)
Lemma no_ref_held m t : forall a, has_ref t = false -> held m t a = [].
Proof.
  induction t as [s0 al|s0 al de|e IH|e IH|e IH|n e IH|l IH] using lt_ind'; intros a H; try discriminate; try reflexivity.
  - exact (IH a H).
  - exact (IH _ H).
  - rewrite held_tuple. cbn [has_ref] in H. generalize (a + 8 * Z.of_nat (List.length l)). induction IH as [|f l F IH IH2]; intros b; [reflexivity|]. cbn [existsb] in H. apply orb_false_iff in H as (H1 & H2). rewrite held_fields_cons, F, IH2; auto.
Qed.
Lemma no_ref_destruct t a s : tmeta t < W -> has_ref t = false -> destruct t a s = s.
Proof. intros B H. rewrite destruct_log, refs_blocks by auto. unfold blocks. rewrite no_ref_held by auto. cbn. apply log_nil. Qed.
Lemma no_ref_construct t : forall a s, has_ref t = false -> exists s', construct t a s = (s', true).
Proof.
  induction t as [s0 al|s0 al de|e IH|e IH|e IH|n e IH|l IH] using lt_ind'; intros a s H; try discriminate; try (eexists; reflexivity).
  - cbn in *. auto.
  - cbn [construct has_ref] in *. apply IH; auto.
  - rewrite construct_tuple. cbn [has_ref] in H. generalize (arrmeta_offsets l) (@nil lt). match goal with |- forall _ _, exists s', con_fields _ _ _ _ ?S = _ => generalize S end.
    induction IH as [|f l F IH IH2]; intros s1 offs done; [eexists; reflexivity|]. cbn [existsb] in H. apply orb_false_iff in H as (H1 & H2). destruct offs as [|o offs]; [eexists; reflexivity|]. rewrite con_fields_cons. destruct (F (a + o) s1 H1) as (s2 & ->). apply IH2; auto.
Qed.
Definition zeroed (m : mem) (a n : Z) : Prop := forall x, a <= x < a + n -> m x = 0.
Definition left_behind (t : lt) (a : Z) (s s' : cstate) : Prop :=
  same_outside (am s) (am s') a (tmeta t) /\ next s <= next s' /\ released s' = released s /\ refs (am s') t a = numbers (next s) (next s').
Lemma refs_zero m t a : tmeta t < W -> zeroed m a (tmeta t) -> refs m t a = [].
Proof.
  intros B Z0. rewrite refs_blocks by auto. unfold blocks. assert (G : forall b, In b (held m t a) -> b = 0).
  { clear B. revert a Z0. unfold zeroed. induction t as [s al|s al d|e IH|e IH|e IH|n e IH|l IH] using lt_ind'; intros a Z0 b Hb; cbn [tmeta] in Z0; try (pose proof (tmeta_pos e)); cbn [held] in Hb; try contradiction.
    - destruct Hb as [<-|Hb]; [apply Z0; lia|]. eapply IH; [|exact Hb]. intros x X. apply Z0. lia.
    - destruct Hb as [<-|Hb]; [apply Z0; lia|]. eapply IH; [|exact Hb]. intros x X. apply Z0. lia.
    - eapply IH; eauto.
    - eapply IH; [|exact Hb]. intros x X. apply Z0. lia.
    - change (In b (held_fields m l (a + 8 * Z.of_nat (List.length l)))) in Hb. change (forall x, a <= x < a + tmeta (Tuple l) -> m x = 0) in Z0. rewrite tmeta_tuple in Z0.
      assert (Z1 : forall x, a + 8 * Z.of_nat (List.length l) <= x < a + 8 * Z.of_nat (List.length l) + msum l -> m x = 0) by (intros x X; apply Z0; lia). clear Z0. revert Z1 Hb. generalize (a + 8 * Z.of_nat (List.length l)).
      induction IH as [|f l F IH IH2]; intros c Z1 Hb; [destruct Hb|]. cbn [msum] in Z1. pose proof (tmeta_pos f). pose proof (msum_pos l). rewrite held_fields_cons, in_app_iff in Hb. destruct Hb as [Hb|Hb].
      + eapply F; [|exact Hb]. intros x X. apply Z1. lia.
      + eapply (IH2 (c + tmeta f)); [|exact Hb]. intros x X. apply Z1. lia. }
  induction (held m t a) as [|b r IH]; [reflexivity|]. cbn [filter]. rewrite (G b) by (left; auto). cbn. apply IH. intros c C. apply G. right. auto.
Qed.
Lemma refs_fields_zero m a l : forall o, 0 <= o -> o + msum l < W -> zeroed m (a + o) (msum l) -> refs_fields m a l (mo l o) = [].
Proof.
  induction l as [|f l IH]; intros o P B Z0; [reflexivity|]. cbn [mo msum] in *. pose proof (tmeta_pos f). pose proof (msum_pos l). rewrite refs_fields_cons, refs_zero, IH; auto; try lia; intros x X; apply Z0; lia.
Qed.
Lemma cleanup_no_ref done a s : Forall (fun f => tmeta f < W /\ has_ref f = false) done -> cleanup done a s = s.
Proof.
  unfold cleanup. intros H. apply Forall_rev in H. revert s. induction H as [|f l (F1 & F2) H IH]; intros s; [reflexivity|]. cbn [fold_left]. rewrite no_ref_destruct by auto. apply IH.
Qed.
Lemma alloc_fail s a s1 : alloc s a = (s1, false) -> s1 = s.
Proof. unfold alloc. destruct (budget s) as [[|b]|]; intros H; inversion H; subst; auto. Qed.
Lemma construct_fail_ok t : forall a s s', one_ref t -> tmeta t < W -> 0 < next s -> zeroed (am s) a (tmeta t) -> construct t a s = (s', false) -> left_behind t a s s'.
Proof.
  induction t as [s0 al|s0 al de|e IH|e IH|e IH|n e IH|l IH] using lt_ind'; intros a s s' O B N Z0 E; try discriminate.
  - cbn [construct tmeta one_ref] in *. pose proof (tmeta_pos e). set (s0 := wr (wr s (a + 8) _) (a + 16) 0) in *. destruct (alloc s0 a) as (s1, ok) eqn:A. destruct ok.
    + apply alloc_ok in A as (A1 & A2 & A3). change (next s0) with (next s) in *. change (released s0) with (released s) in *.
      assert (Z1 : zeroed (am s1) (a + 24) (tmeta e)) by (intros x X; rewrite A1; unfold s0, wr; cbn [am]; rewrite !st_other by lia; apply Z0; lia).
      destruct (IH (a + 24) s1 s' O ltac:(lia) ltac:(lia) Z1 E) as (F & N1 & R & Q). split; [|split; [lia|split; [congruence|]]].
      * cbn [tmeta]. intros x X. rewrite F by lia. rewrite A1. unfold s0, wr. cbn [am]. rewrite !st_other by lia. reflexivity.
      * cbn [refs]. unfold ref. rewrite F by lia. rewrite A1, st_same. destruct (Z.eqb_spec (next s) 0); [lia|]. rewrite Q, A2, <- (numbers_one (next s)). apply numbers_app. lia.
    + apply alloc_fail in A. injection E as <-. subst s1. split; [|split; [cbn; lia|split; [reflexivity|]]].
      * cbn [tmeta]. intros x X. unfold s0, wr. cbn [am]. rewrite !st_other by lia. reflexivity.
      * cbn [refs]. unfold ref, s0, wr. cbn [am next]. rewrite !st_other by lia. rewrite Z0 by lia. cbn. rewrite numbers_self. apply refs_zero; [lia|]. intros x X. rewrite !st_other by lia. apply Z0. lia.
  - cbn [construct tmeta one_ref] in *. pose proof (tmeta_pos e). destruct (alloc s a) as (s1, ok) eqn:A. destruct ok.
    + apply alloc_ok in A as (A1 & A2 & A3).
      assert (Z1 : zeroed (am s1) (a + 16) (tmeta e)) by (intros x X; rewrite A1; rewrite !st_other by lia; apply Z0; lia).
      destruct (IH (a + 16) s1 s' O ltac:(lia) ltac:(lia) Z1 E) as (F & N1 & R & Q). split; [|split; [lia|split; [congruence|]]].
      * cbn [tmeta]. intros x X. rewrite F by lia. rewrite A1. rewrite !st_other by lia. reflexivity.
      * cbn [refs]. unfold ref. rewrite F by lia. rewrite A1, st_same. destruct (Z.eqb_spec (next s) 0); [lia|]. rewrite Q, A2, <- (numbers_one (next s)). apply numbers_app. lia.
    + apply alloc_fail in A. injection E as <-. subst s1. split; [|split; [cbn; lia|split; [reflexivity|]]].
      * intros x X. reflexivity.
      * cbn [refs]. unfold ref. rewrite Z0 by lia. cbn. rewrite numbers_self. apply refs_zero; [lia|]. intros x X. apply Z0. lia.
  - apply (IH a s s' O B N Z0 E).
  - cbn [construct tmeta one_ref] in *. pose proof (tmeta_pos e). set (s0 := wr (wr s a n) (a + 8) _) in *.
    assert (Z1 : zeroed (am s0) (a + 16) (tmeta e)) by (intros x X; unfold s0, wr; cbn [am]; rewrite !st_other by lia; apply Z0; lia).
    destruct (IH (a + 16) s0 s' O ltac:(lia) N Z1 E) as (F & N1 & R & Q). split; [|auto].
    cbn [tmeta]. intros x X. rewrite F by lia. unfold s0, wr. cbn [am]. rewrite !st_other by lia. reflexivity.
  - rewrite construct_tuple in E. pose proof (arrmeta_offsets_spec l B) as AO. pose proof (tmeta_tuple l) as T. pose proof (msum_pos l) as MP. rewrite AO in E.
    set (s0 := {| am := st_list _ _ _; next := _; budget := _; released := _ |}) in *. set (k := 8 * Z.of_nat (List.length l)) in *. destruct O as (O1 & O2).
    destruct (st_list_get (fill_default_data_offsets l) (am s) a) as (_ & G2). rewrite fill_length in G2. fold k in G2.
    assert (Z1 : zeroed (am s0) (a + k) (msum l)) by (intros x X; unfold s0; cbn [am]; rewrite G2 by lia; apply Z0; lia).
    assert (G : forall l, Forall (fun t => forall a s s', one_ref t -> tmeta t < W -> 0 < next s -> zeroed (am s) a (tmeta t) -> construct t a s = (s', false) -> left_behind t a s s') l -> fold_right (fun f P => one_ref f /\ P) True l ->
      forall o done s, 0 <= o -> o + msum l < W -> 0 < next s -> zeroed (am s) (a + o) (msum l) -> Forall (fun f => tmeta f < W) done -> (List.length (filter has_ref done) + List.length (filter has_ref l) <= 1)%nat -> con_fields a l (mo l o) done s = (s', false) ->
      same_outside (am s) (am s') (a + o) (msum l) /\ next s <= next s' /\ released s' = released s /\ refs_fields (am s') a l (mo l o) = numbers (next s) (next s')).
    { clear. induction 1 as [|f l F FA IH]; intros O o done s P B N Z0 DW C E; [discriminate|]. cbn [mo msum fold_right] in *. destruct O as (O1 & O2). pose proof (tmeta_pos f). pose proof (msum_pos l). rewrite con_fields_cons in E.
      destruct (construct f (a + o) s) as (s1, ok) eqn:Cf. destruct ok.
      - destruct (construct_ok f (a + o) s s1 ltac:(lia) N Cf) as (_ & F1 & N1 & R1 & Q1).
        assert (Z1 : zeroed (am s1) (a + (o + tmeta f)) (msum l)) by (intros x X; rewrite F1 by lia; apply Z0; lia).
        assert (C1 : (List.length (filter has_ref (f :: done)) + List.length (filter has_ref l) <= 1)%nat) by (cbn [filter] in *; destruct (has_ref f); cbn [List.length] in *; lia).
        destruct (IH O2 (o + tmeta f) (f :: done) s1 ltac:(lia) ltac:(lia) ltac:(lia) Z1 ltac:(constructor; [lia|auto]) C1 E) as (F2 & N2 & R2 & Q2).
        assert (AG : agree (am s1) (am s') (a + o) (tmeta f)) by (intros x X; apply F2; lia). split; [|split; [lia|split; [congruence|]]].
        + intros x X. rewrite F2 by lia. apply F1. lia.
        + rewrite refs_fields_cons, (refs_ext _ _ f (a + o) ltac:(lia) AG), Q1, Q2. apply numbers_app. lia.
      - injection E as E.
        assert (HR : has_ref f = true) by (destruct (has_ref f) eqn:HR; [reflexivity|]; destruct (no_ref_construct f (a + o) s HR) as (s2 & E2); congruence).
        assert (C0 : filter has_ref done = []) by (cbn [filter] in C; rewrite HR in C; cbn [List.length] in C; destruct (filter has_ref done); [reflexivity|cbn [List.length] in C; lia]).
        rewrite cleanup_no_ref in E.
        2:{ rewrite Forall_forall in *. intros g G. split; [auto|]. destruct (has_ref g) eqn:Hg; [|reflexivity]. assert (In g (filter has_ref done)) by (apply filter_In; auto). rewrite C0 in *. contradiction. }
        subst s1. assert (Z1 : zeroed (am s) (a + o) (tmeta f)) by (intros x X; apply Z0; lia). destruct (F (a + o) s s' O1 ltac:(lia) N Z1 Cf) as (F1 & N1 & R1 & Q1). split; [|split; [lia|split; [auto|]]].
        + intros x X. apply F1. lia.
        + rewrite refs_fields_cons, Q1, refs_fields_zero, app_nil_r; auto; try lia. intros x X. rewrite F1 by lia. apply Z0. lia. }
    destruct (G l IH O1 k [] s0 ltac:(lia) ltac:(lia) N Z1 ltac:(constructor) ltac:(cbn; lia) E) as (F & N1 & R & Q). split; [|split; [exact N1|split; [exact R|]]].
    + intros x X. rewrite F by lia. apply G2. lia.
    + rewrite refs_tuple, AO. exact Q.
Qed.
