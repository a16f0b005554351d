(** Proofs about indexed take, where and strided iterators. *)
From Verif Require Import Base ParseIntModel StridedModel StridedSpec StridedProofs2 SearchModel SearchSpec SearchProofs.
Open Scope Z_scope.

Lemma leaf1_one f m dst s x v : m s = Some x -> f x = Ok v -> m dst <> None -> leaf1 f m dst [s] = Ok (upd m dst v).
Proof.
  intros E F D. unfold leaf1, leaf. cbn [loads]. unfold ld. rewrite E. cbn [bind]. rewrite F. cbn [bind]. unfold st.
  destruct (m dst); [reflexivity|contradiction].
Qed.
Lemma upd_same m a v : upd m a v a = Some v.
Proof. unfold upd. rewrite Z.eqb_refl. reflexivity. Qed.
Lemma upd_other m a v b : b <> a -> upd m a v b = m b.
Proof. unfold upd. intros H. apply Z.eqb_neq in H. rewrite H. reflexivity. Qed.
Lemma elem_shift base s i : elem (base + s) s i = elem base s (i + 1).
Proof. unfold elem. ring. Qed.
Lemma elem_0 base s : elem base s 0 = base.
Proof. unfold elem. ring. Qed.

Section IX.
  Variables (f : Z -> outcome Z) (src0 ss n is_ ds : Z) (x : Z -> Z).
  Hypothesis N : s64 n.
  Definition ix_pre (m : mem) (dst index : Z) (count : nat) (ix : Z -> Z) : Prop :=
    (forall i, 0 <= i < Z.of_nat count -> m (elem index is_ i) = Some (ix i)) /\
    (forall j, 0 <= j < n -> m (elem src0 ss j) = Some (x j)) /\
    valid m dst ds count /\ distinct ds count /\
    (forall i j, 0 <= i < Z.of_nat count -> 0 <= j < n -> elem dst ds i <> elem src0 ss j) /\
    (forall i j, 0 <= i < Z.of_nat count -> 0 <= j < Z.of_nat count -> elem dst ds i <> elem index is_ j).
  Lemma ix_pre_step m dst index count ix w : ix_pre m dst index (S count) ix ->
    ix_pre (upd m dst w) (dst + ds) (index + is_) count (fun i => ix (i + 1)).
  Proof.
    intros (I & X & VA & DI & A1 & A2). rewrite Nat2Z.inj_succ in *.
    repeat split.
    - intros i Hi. rewrite elem_shift, upd_other; [apply I; lia|]. rewrite <- (elem_0 dst ds) at 1. apply not_eq_sym, A2; lia.
    - intros j Hj. rewrite upd_other; [apply X; lia|]. rewrite <- (elem_0 dst ds) at 1. apply not_eq_sym, A1; lia.
    - intros i Hi. rewrite elem_shift. destruct (Z.eq_dec (elem dst ds (i + 1)) dst) as [E|E].
      + rewrite E, upd_same. discriminate.
      + rewrite upd_other by exact E. apply VA. lia.
    - destruct DI; [left; assumption|right; lia].
    - intros i j Hi Hj. rewrite elem_shift. apply A1; lia.
    - intros i j Hi Hj. rewrite !elem_shift. apply A2; lia.
  Qed.
  Lemma indexed_ok : forall count m dst index ix d v, ix_pre m dst index count ix ->
    (forall i, 0 <= i < Z.of_nat count -> designates (ix i) n (d i) /\ f (x (d i)) = Ok (v i)) ->
    exists m', indexed_loop (leaf1 f) m dst ds src0 ss n index is_ count = Ok m' /\ stored m m' dst ds count v.
  Proof.
    induction count as [|count IH]; intros m dst index ix d v P H.
    - exists m. split; [reflexivity|]. split; [intros; lia|intros; reflexivity].
    - pose proof (ix_pre_step m dst index count ix (v 0) P) as P'.
      destruct P as (I & X & VA & DI & A1 & A2). rewrite Nat2Z.inj_succ in *.
      assert (V0 : m dst <> None) by (rewrite <- (elem_0 dst ds); apply VA; lia).
    cbn [indexed_loop]. destruct (H 0 ltac:(lia)) as (D0 & F0).
      assert (I0 : m index = Some (ix 0)) by (rewrite <- (elem_0 index is_), I by lia; reflexivity).
      unfold ld. rewrite I0. cbn [bind].
      rewrite (apply_single_index_ok _ _ _ N D0). cbn [bind].
      rewrite (leaf1_one f m dst _ (x (d 0)) (v 0)); [|apply X; apply D0|exact F0|exact V0]. cbn [bind].
      destruct (IH _ _ _ _ (fun i => d (i + 1)) (fun i => v (i + 1)) P') as (m' & E & S1 & S2).
      { intros i Hi. apply H. lia. }
      exists m'. split; [exact E|]. split.
      + intros i Hi. destruct (Z.eq_dec i 0) as [->|NE].
        * rewrite elem_0, S2; [apply upd_same|]. intros i Hi'. rewrite elem_shift. unfold elem.
          destruct DI as [DI|DI]; [nia|lia].
        * replace i with (i - 1 + 1) by lia. rewrite <- elem_shift. apply S1. lia.
      + intros a A. rewrite S2.
        * apply upd_other. rewrite <- (elem_0 dst ds). apply A. lia.
        * intros i Hi. rewrite elem_shift. apply A. lia.
  Qed.
  Lemma indexed_bad : 0 <= n -> (forall y, exists v, f y = Ok v) -> forall count m dst index ix, ix_pre m dst index count ix ->
    (exists i, 0 <= i < Z.of_nat count /\ forall d, ~ designates (ix i) n d) ->
    indexed_loop (leaf1 f) m dst ds src0 ss n index is_ count = Throw "index_out_of_bounds".
  Proof.
    intros N0 T. induction count as [|count IH]; intros m dst index ix P (i & Hi & B); [lia|].
    assert (P0 := P). destruct P as (I & X & VA & DI & A1 & A2). rewrite Nat2Z.inj_succ in *.
    assert (V0 : m dst <> None) by (rewrite <- (elem_0 dst ds); apply VA; lia).
    cbn [indexed_loop]. assert (I0 : m index = Some (ix 0)) by (rewrite <- (elem_0 index is_), I by lia; reflexivity).
      unfold ld. rewrite I0. cbn [bind].
    assert (DEC : (exists d, designates (ix 0) n d) \/ forall d, ~ designates (ix 0) n d).
    { unfold designates. destruct (Z.lt_ge_cases (ix 0) 0).
      - destruct (Z.lt_ge_cases (ix 0 + n) 0); [right; intros; lia|left; exists (ix 0 + n); lia].
      - destruct (Z.lt_ge_cases (ix 0) n); [left; exists (ix 0); lia|right; intros; lia]. }
    destruct DEC as [(d & D)|D].
    - rewrite (apply_single_index_ok _ _ _ N D). cbn [bind]. destruct (T (x d)) as (w & W).
      rewrite (leaf1_one f m dst _ (x d) w); [|apply X; apply D|exact W|exact V0]. cbn [bind].
      apply (IH _ _ _ _ (ix_pre_step m dst index count ix w P0)).
      destruct (Z.eq_dec i 0) as [->|NE]; [exfalso; exact (B d D)|].
      exists (i - 1). split; [lia|]. intros d'. replace (i - 1 + 1) with i by lia. apply B.
    - rewrite (apply_single_index_bad _ _ N0 N D). reflexivity.
  Qed.
End IX.

(** ** where *)
Lemma set_nth_end l v w : set_nth (l ++ [w]) (List.length l) v = Ok (l ++ [v]).
Proof. induction l as [|a l IH]; [reflexivity|]. cbn. rewrite IH. reflexivity. Qed.
Lemma grow_full l : grow l (List.length l + 1) = l ++ [0].
Proof.
  unfold grow. rewrite firstn_all2 by lia. replace (List.length l + 1 - List.length l)%nat with 1%nat by lia. reflexivity.
Qed.
Fixpoint hits (p : Z -> bool) (n : nat) (i : Z) : list Z :=
  match n with O => [] | S n => if p i then i :: hits p n (i + 1) else hits p n (i + 1) end.
Lemma where_more p n : forall i l, l <> [] ->
  where_loop (fun i => Ok (p i)) n i (l, List.length l, List.length l) =
  Ok (l ++ hits p n i, List.length (l ++ hits p n i), List.length (l ++ hits p n i)).
Proof.
  induction n as [|n IH]; intros i l H; cbn [where_loop hits].
  - rewrite app_nil_r. reflexivity.
  - unfold where_single at 1. cbn [bind]. destruct (p i).
    + destruct (Nat.eqb_spec (List.length l) 0) as [E|_]; [destruct l; [contradiction|discriminate]|].
      rewrite Nat.eqb_refl, grow_full. replace (List.length l + 1 - 1)%nat with (List.length l) by lia.
      rewrite set_nth_end. cbn [bind].
      replace (List.length l + 1)%nat with (List.length (l ++ [i])) by (rewrite app_length; reflexivity).
      rewrite IH by (destruct l; discriminate). rewrite <- app_assoc. reflexivity.
    + cbn [bind]. apply IH. exact H.
Qed.
Lemma where_from_empty p n : forall i cells cap, exists cells' cap',
  where_loop (fun i => Ok (p i)) n i (cells, O, cap) = Ok (cells', List.length (hits p n i), cap') /\
  (hits p n i <> [] -> cells' = hits p n i) /\ (hits p n i = [] -> cells' = cells).
Proof.
  induction n as [|n IH]; intros i cells cap; cbn [where_loop hits].
  - exists cells, cap. repeat split; intros; congruence.
  - unfold where_single at 1. cbn [bind]. destruct (p i).
    + cbn [Nat.eqb Nat.add Nat.sub repeat set_nth bind].
      exists (i :: hits p n (i + 1)), (List.length (i :: hits p n (i + 1))). split.
      * apply (where_more p n (i + 1) [i]). discriminate.
      * split; [reflexivity|discriminate].
    + cbn [bind]. apply IH.
Qed.
Lemma hits_filter p n : forall i, hits p n i = filter p (map (fun j => i + Z.of_nat j) (seq 0 n)).
Proof.
  induction n as [|n IH]; intros i; [reflexivity|]. cbn [hits seq map filter]. rewrite Z.add_0_r, <- seq_shift, map_map, IH.
  assert (E : map (fun j => i + 1 + Z.of_nat j) (seq 0 n) = map (fun j => i + Z.of_nat (S j)) (seq 0 n)) by (apply map_ext; intros; lia).
  rewrite E. reflexivity.
Qed.
