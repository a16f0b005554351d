(** Arrmeta that reads the same, and copies. *)
From Verif Require Import Base LinearIndexModel LinearIndexSpec LayoutModel LayoutSpec LayoutProofs LayoutProofs2 LayoutProofs5 IndexModel IndexSpec IndexProofs.
Open Scope Z_scope.

(** The arrmeta at [a] in [m] and that at [a'] in [m'] describe the same layout. *)
Inductive wsame (m m' : mem) : lt -> Z -> Z -> Prop :=
| ws_builtin s al a a' : wsame m m' (Builtin s al) a a'
| ws_leaf s al de a a' : wsame m m' (Leaf s al de) a a'
| ws_option e a a' : wsame m m' (Option e) a a'
| ws_fixed n e a a' : m' (a' + 8) = m (a + 8) -> wsame m m' e (a + 16) (a' + 16) -> wsame m m' (FixedDim n e) a a'
| ws_var e a a' : m' (a' + 8) = m (a + 8) -> m' (a' + 16) = m (a + 16) -> wsame m m' e (a + 24) (a' + 24) -> wsame m m' (VarDim e) a a'
| ws_pointer e a a' : m' (a' + 8) = m (a + 8) -> wsame m m' e (a + 16) (a' + 16) -> wsame m m' (Pointer e) a a'
| ws_tuple l a a' : (forall i, (i < List.length l)%nat -> m' (a' + 8 * Z.of_nat i) = m (a + 8 * Z.of_nat i)) ->
    (forall i f o, nth_error l i = Some f -> nth_error (arrmeta_offsets l) i = Some o -> wsame m m' f (a + o) (a' + o)) -> wsame m m' (Tuple l) a a'.
Lemma wsame_refl m t : forall a, wsame m m t a a.
Proof.
  induction t as [s al|s al d|e IH|e IH|e IH|n e IH|l IH] using lt_ind'; intros a; constructor; auto. rewrite Forall_forall in IH. intros i f o F O. apply IH. eapply nth_error_In; eauto.
Qed.
Lemma wsame_ext m1 m2 n1 n2 t : forall a a', tmeta t < W -> wsame m1 m2 t a a' -> agree m1 n1 a (tmeta t) -> agree m2 n2 a' (tmeta t) -> wsame n1 n2 t a a'.
Proof.
  induction t as [s al|s al d|e IH|e IH|e IH|n e IH|l IH] using lt_ind'; intros a a' B H A1 A2; try (constructor; fail); try (pose proof (tmeta_pos e)).
  - cbn [tmeta] in *. inversion H; subst. constructor; [rewrite (A1 (a + 8)), (A2 (a' + 8)) by lia; auto|rewrite (A1 (a + 16)), (A2 (a' + 16)) by lia; auto|]. apply IH; auto; [lia| |]; eapply agree_sub; eauto; lia.
  - cbn [tmeta] in *. inversion H; subst. constructor; [rewrite (A1 (a + 8)), (A2 (a' + 8)) by lia; auto|]. apply IH; auto; [lia| |]; eapply agree_sub; eauto; lia.
  - cbn [tmeta] in *. inversion H; subst. constructor; [rewrite (A1 (a + 8)), (A2 (a' + 8)) by lia; auto|]. apply IH; auto; [lia| |]; eapply agree_sub; eauto; lia.
  - inversion H as [| | | | | |? ? ? G1 G2]; subst. pose proof (tmeta_tuple l). pose proof (msum_pos l). constructor.
    + intros i I. rewrite (A1 (a + 8 * Z.of_nat i)), (A2 (a' + 8 * Z.of_nat i)) by lia. auto.
    + intros i f o F O. destruct (meta_sub l i f o B F O) as (M1 & M2 & M3). rewrite Forall_forall in IH. apply IH; auto; [eapply nth_error_In; eauto|eapply G2; eauto| |]; eapply agree_sub; eauto; lia.
Qed.
Lemma wsame_agree m m' t a : tmeta t < W -> agree m m' a (tmeta t) -> wsame m m' t a a.
Proof. intros B A. eapply wsame_ext; [exact B|apply (wsame_refl m)| |exact A]. intros x X. reflexivity. Qed.
Lemma dim_same m m' dm t : forall a a' d, wsame m m' t a a' -> dim_of m' dm t a' d = dim_of m dm t a d.
Proof. induction t as [s al|s al de|e IH|e IH|e IH|n e IH|l IH] using lt_ind'; intros a a' d H; try reflexivity. inversion H as [| | | | |? ? ? E1 E2|]; subst. cbn [dim_of]. rewrite E1. apply IH. auto. Qed.
Lemma item_same m m' dm t : forall a a' d i, wsame m m' t a a' ->
  match item m dm t a d i with Some (e, b, c) => exists b', item m' dm t a' d i = Some (e, b', c) /\ wsame m m' e b b' | None => item m' dm t a' d i = None end.
Proof.
  induction t as [s al|s al de|e IH|e IH|e IH|n e IH|l IH] using lt_ind'; intros a a' d i H; try reflexivity.
  - inversion H as [| | | |? ? ? E1 E2 E3| |]; subst. cbn [item]. destruct (_ && _); [|reflexivity]. rewrite E1, E2. eauto.
  - inversion H as [| | | | |? ? ? E1 E2|]; subst. cbn [item]. rewrite E1. apply IH. auto.
  - inversion H as [| | |? ? ? ? E1 E2| | |]; subst. cbn [item]. destruct (_ && _); [|reflexivity]. rewrite E1. eauto.
  - inversion H as [| | | | | |? ? ? G1 G2]; subst. cbn [item]. destruct (Z.leb_spec 0 i); [|reflexivity]. destruct (nth_error l (Z.to_nat i)) as [f|] eqn:F; [|reflexivity]. destruct (nth_error (arrmeta_offsets l) (Z.to_nat i)) as [o|] eqn:O; [|reflexivity].
    exists (a' + o). split; [|eapply G2; eauto]. specialize (G1 (Z.to_nat i)). rewrite Z2Nat.id in G1 by lia. rewrite G1; [reflexivity|]. apply nth_error_Some. congruence.
Qed.
Lemma target_same m m' dm t : forall a a' d, wsame m m' t a a' -> target m' dm t a' d = target m dm t a d.
Proof. induction t as [s al|s al de|e IH|e IH|e IH|n e IH|l IH] using lt_ind'; intros a a' d H; try reflexivity. inversion H as [| | | | |? ? ? E1 E2|]; subst. cbn [target]. rewrite E1. apply IH. auto. Qed.
Lemma value_same m m' dm p : forall t a a' d, wsame m m' t a a' -> value m' dm t a' d p = value m dm t a d p.
Proof.
  induction p as [|i p IH]; intros t a a' d H; cbn [value]; [f_equal; apply target_same; auto|]. pose proof (item_same m m' dm t a a' d i H) as I. destruct (item m dm t a d i) as [((e, b), c)|]; [|rewrite I; reflexivity]. destruct I as (b' & -> & S). apply IH. exact S.
Qed.
Lemma selects_same m m' dm t a d idx p' p : selects m dm t a d idx p' p -> forall a', wsame m m' t a a' -> selects m' dm t a' d idx p' p.
Proof.
  induction 1 as [t a d p|t a d r idx n i e b c p' p D R A I S IH|t a d r idx n j i e b c p' p D R A I S IH]; intros a' H.
  - constructor.
  - pose proof (item_same m m' dm t a a' d i H) as X. rewrite I in X. destruct X as (b' & X & Y). eapply sel_index; eauto. rewrite (dim_same m m' dm t a a' d H). exact D.
  - pose proof (item_same m m' dm t a a' d i H) as X. rewrite I in X. destruct X as (b' & X & Y). eapply sel_slice; eauto. rewrite (dim_same m m' dm t a a' d H). exact D.
Qed.
Lemma wsame_sym m m' t : forall a a', wsame m m' t a a' -> wsame m' m t a' a.
Proof.
  induction t as [s al|s al d|e IH|e IH|e IH|n e IH|l IH] using lt_ind'; intros a a' H; inversion H as [| | |? ? ? ? E1 E2|? ? ? E1 E2 E3|? ? ? E1 E2|? ? ? G1 G2]; subst; constructor; auto.
  - intros i I. symmetry. auto.
  - rewrite Forall_forall in IH. intros i f o F O. apply IH; [eapply nth_error_In; eauto|eauto].
Qed.

Lemma cp_fields_same dst src emb l : Forall (fun t => forall dst src m, tmeta t < W -> disjoint dst (tmeta t) src (tmeta t) -> wsame m (fst (copy_construct t dst src emb m)) t src dst) l ->
  forall o m r, 0 <= o -> o + msum l < W -> disjoint dst (o + msum l) src (o + msum l) ->
  forall i f q, nth_error l i = Some f -> nth_error (mo l o) i = Some q -> wsame m (fst (cp_fields dst src emb l (mo l o) m r)) f (src + q) (dst + q).
Proof.
  induction 1 as [|f l Hf Hl IH]; intros o m r P B D i g q G X; [destruct i; discriminate|].
  cbn [mo msum] in *. rewrite cp_fields_cons. pose proof (tmeta_pos f). pose proof (msum_pos l).
  assert (D1 : disjoint (dst + o) (tmeta f) (src + o) (tmeta f)) by (unfold disjoint in *; lia). pose proof (Hf (dst + o) (src + o) m ltac:(lia) D1) as S1.
  destruct (copy_ok emb f (dst + o) (src + o) m ltac:(lia) D1) as (C1 & _). destruct (copy_construct f (dst + o) (src + o) emb m) as (m1, r1). cbn [fst snd] in *.
  assert (D2 : disjoint dst (o + tmeta f + msum l) src (o + tmeta f + msum l)) by (unfold disjoint in *; lia).
  assert (CO : Forall (fun t => forall dst src m, tmeta t < W -> disjoint dst (tmeta t) src (tmeta t) -> copied t dst src emb m (copy_construct t dst src emb m)) l) by (apply Forall_forall; intros t _ d0 s0 m0; apply copy_ok).
  destruct (cp_fields_ok dst src emb l CO (o + tmeta f) m1 (r ++ r1) ltac:(lia) ltac:(lia) D2) as (E1 & _). specialize (IH (o + tmeta f) m1 (r ++ r1) ltac:(lia) ltac:(lia) D2).
  destruct i as [|i]; cbn [nth_error] in *.
  - injection G as <-. injection X as <-. eapply wsame_ext; [lia|exact S1|intros x _; reflexivity|]. intros x Y. apply E1. lia.
  - destruct (mo_nth l _ _ _ _ G X). eapply wsame_ext; [|apply (IH i g q G X)| |intros x _; reflexivity]; [lia|]. intros x Y. symmetry. apply C1. unfold disjoint in *. lia.
Qed.
Lemma copy_same emb t : forall dst src m, tmeta t < W -> disjoint dst (tmeta t) src (tmeta t) -> wsame m (fst (copy_construct t dst src emb m)) t src dst.
Proof.
  induction t as [s0 al|s0 al de|e IH|e IH|e IH|n e IH|l IH] using lt_ind'; intros dst src m B D; try (constructor; fail).
  - cbn [tmeta copy_construct] in *. pose proof (tmeta_pos e). unfold copy_ref. set (m0 := st (st m _ _) _ _). set (b := if m0 src =? 0 then emb else m0 src).
    assert (D1 : disjoint (dst + 24) (tmeta e) (src + 24) (tmeta e)) by (unfold disjoint in *; lia).
    pose proof (IH (dst + 24) (src + 24) (st m0 dst b) ltac:(lia) D1) as S1. destruct (copy_ok emb e (dst + 24) (src + 24) (st m0 dst b) ltac:(lia) D1) as (C1 & _). destruct (copy_construct e (dst + 24) (src + 24) emb (st m0 dst b)) as (m1, r1). cbn [fst snd] in *.
    constructor.
    + rewrite C1 by lia. unfold m0. rewrite (st_other _ dst) by lia. rewrite (st_other _ (dst + 16)) by lia. apply st_same.
    + rewrite C1 by lia. unfold m0. rewrite (st_other _ dst) by lia. apply st_same.
    + eapply wsame_ext; [lia|exact S1| |intros x _; reflexivity]. intros y Y. unfold m0. rewrite !st_other by (unfold disjoint in D; lia). reflexivity.
  - cbn [tmeta copy_construct] in *. pose proof (tmeta_pos e). unfold copy_ref. set (b := if m src =? 0 then emb else m src). set (m0 := st (st m dst b) (dst + 8) _).
    assert (D1 : disjoint (dst + 16) (tmeta e) (src + 16) (tmeta e)) by (unfold disjoint in *; lia).
    pose proof (IH (dst + 16) (src + 16) m0 ltac:(lia) D1) as S1. destruct (copy_ok emb e (dst + 16) (src + 16) m0 ltac:(lia) D1) as (C1 & _). destruct (copy_construct e (dst + 16) (src + 16) emb m0) as (m1, r1). cbn [fst snd] in *.
    constructor.
    + rewrite C1 by lia. unfold m0. rewrite st_same. apply st_other. unfold disjoint in D. lia.
    + eapply wsame_ext; [lia|exact S1| |intros x _; reflexivity]. intros y Y. unfold m0. rewrite !st_other by (unfold disjoint in D; lia). reflexivity.
  - cbn [tmeta copy_construct] in *. pose proof (tmeta_pos e). set (m0 := st (st m dst _) (dst + 8) _).
    assert (D1 : disjoint (dst + 16) (tmeta e) (src + 16) (tmeta e)) by (unfold disjoint in *; lia).
    pose proof (IH (dst + 16) (src + 16) m0 ltac:(lia) D1) as S1. destruct (copy_ok emb e (dst + 16) (src + 16) m0 ltac:(lia) D1) as (C1 & _). destruct (copy_construct e (dst + 16) (src + 16) emb m0) as (m1, r1). cbn [fst snd] in *.
    constructor.
    + rewrite C1 by lia. unfold m0. rewrite st_same. reflexivity.
    + eapply wsame_ext; [lia|exact S1| |intros x _; reflexivity]. intros y Y. unfold m0. rewrite !st_other by (unfold disjoint in D; lia). reflexivity.
  - rewrite cp_tuple, arrmeta_offsets_spec by auto. pose proof (tmeta_tuple l) as T. pose proof (msum_pos l). set (m0 := copy_words m dst src (List.length l)). set (k := 8 * Z.of_nat (List.length l)) in *.
    destruct (copy_words_get (List.length l) m dst src ltac:(unfold disjoint in *; lia)) as (G1 & G2). fold m0 in G1, G2.
    assert (DD : disjoint dst (k + msum l) src (k + msum l)) by (unfold disjoint in *; lia).
    assert (CO : Forall (fun t => forall dst src m, tmeta t < W -> disjoint dst (tmeta t) src (tmeta t) -> copied t dst src emb m (copy_construct t dst src emb m)) l) by (apply Forall_forall; intros t _ d0 s0 m1; apply copy_ok).
    destruct (cp_fields_ok dst src emb l CO k m0 [] ltac:(lia) ltac:(lia) DD) as (E1 & _). pose proof (cp_fields_same dst src emb l IH k m0 [] ltac:(lia) ltac:(lia) DD) as S1. set (x := cp_fields _ _ _ _ _ _ _) in *.
    constructor.
    + intros i I. rewrite E1 by lia. apply G1. exact I.
    + intros i f o F O. rewrite arrmeta_offsets_spec in O by auto. fold k in O. destruct (mo_nth l _ _ _ _ F O). eapply wsame_ext; [lia|exact (S1 i f o F O)| |intros y _; reflexivity]. intros y Y. symmetry. apply G2. unfold disjoint in D. lia.
Qed.
Lemma index0_ok emb t : forall a out m, tmeta t < W -> disjoint out (tmeta t) a (tmeta t) -> wsame m (index0 t a out emb m) t a out /\ same_outside m (index0 t a out emb m) out (tmeta t).
Proof.
  assert (C : forall t a out m, tmeta t < W -> disjoint out (tmeta t) a (tmeta t) -> wsame m (fst (copy_construct t out a emb m)) t a out /\ same_outside m (fst (copy_construct t out a emb m)) out (tmeta t)).
  { intros t0 a out m B D. split; [apply copy_same; auto|]. destruct (copy_ok emb t0 out a m B D) as (C & _). exact C. }
  induction t as [s0 al|s0 al de|e IH|e IH|e IH|n e IH|l IH] using lt_ind'; intros a out m B D; try (apply C; assumption).
  cbn [index0 tmeta] in *. pose proof (tmeta_pos e). set (m0 := st (st m out (m a)) (out + 8) (m (a + 8))).
  assert (M0 : agree m m0 (a + 16) (tmeta e)) by (intros y Y; unfold m0; rewrite !st_other by (unfold disjoint in D; lia); reflexivity).
  destruct (is_builtin e) eqn:Be.
  - destruct e; try discriminate. split.
    + constructor; [unfold m0; apply st_same|constructor].
    + intros x X. unfold m0. rewrite !st_other by lia. reflexivity.
  - destruct (IH (a + 16) (out + 16) m0 ltac:(lia) ltac:(unfold disjoint in *; lia)) as (S & O). split.
    + constructor; [rewrite O by lia; unfold m0; apply st_same|]. eapply wsame_ext; [lia|exact S| |intros x _; reflexivity]. intros y Y. symmetry. apply M0. exact Y.
    + intros x X. rewrite O by lia. unfold m0. rewrite !st_other by lia. reflexivity.
Qed.
