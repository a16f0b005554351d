From Verif Require Import Base LayoutModel LayoutSpec LayoutProofs LayoutProofs2.
Open Scope Z_scope.

Lemma to_signed_small x : 0 <= x < 2 ^ 63 -> to_signed 64 x = x.
Proof. intros H. unfold to_signed. rewrite Z.mod_small by lia. destruct (Z.ltb_spec x (2 ^ (64 - 1))); [reflexivity|]. change (2 ^ (64 - 1)) with (2 ^ 63) in *. lia. Qed.
Lemma at_tuple m l a d i p : at_path m (Tuple l) a d (i :: p) =
  if 0 <=? i then match nth_error l (Z.to_nat i), nth_error (arrmeta_offsets l) (Z.to_nat i) with Some f, Some o => at_path m f (a + o) (d + m (a + 8 * i)) p | _, _ => None end else None.
Proof.
  cbn [at_path]. generalize (arrmeta_offsets l).
  assert (G : forall l offs k, 0 <= k -> (fix go (l0 : list lt) (offs : list Z) (k : Z) {struct l0} : option (lt * Z * Z) :=
     match l0 with [] => None | f :: l1 => match offs with [] => None | o :: offs0 => if k =? i then at_path m f (a + o) (d + m (a + 8 * k)) p else go l1 offs0 (k + 1) end end) l offs k =
     if k <=? i then match nth_error l (Z.to_nat (i - k)), nth_error offs (Z.to_nat (i - k)) with Some f, Some o => at_path m f (a + o) (d + m (a + 8 * i)) p | _, _ => None end else None).
  { clear. intros l. induction l as [|f l IH]; intros offs k K.
    - destruct (k <=? i); [|reflexivity]. destruct (Z.to_nat (i - k)); reflexivity.
    - destruct offs as [|o offs].
      + destruct (k <=? i); [|reflexivity]. destruct (nth_error (f :: l) _); [|reflexivity]. destruct (Z.to_nat (i - k)); reflexivity.
      + destruct (Z.eqb_spec k i) as [->|N].
        * rewrite Z.leb_refl, Z.sub_diag. reflexivity.
        * rewrite IH by lia. destruct (Z.leb_spec (k + 1) i), (Z.leb_spec k i); try lia; [|reflexivity]. replace (Z.to_nat (i - k)) with (S (Z.to_nat (i - (k + 1)))) by lia. reflexivity. }
  intros offs. rewrite (G l offs 0) by lia. rewrite Z.sub_0_r. reflexivity.
Qed.
Record place (t : lt) (a d : Z) (u : lt) (a' d' : Z) : Prop := {
  pl_wf : wf u;
  pl_lo : d <= d';
  pl_hi : d' + tsize u <= d + tsize t;
  pl_al : salign u <= salign t;
  pl_mod : d mod salign t = 0 -> d' mod salign u = 0;
  pl_mlo : a <= a';
  pl_mhi : a' + tmeta u <= a + tmeta t }.
Lemma place_refl t a d : wf t -> place t a d t a d.
Proof. intros H. exact (Build_place t a d t a d H (Z.le_refl d) (Z.le_refl _) (Z.le_refl _) (fun x => x) (Z.le_refl a) (Z.le_refl _)). Qed.
Lemma place_trans t a d u b e v c f : place t a d u b e -> place u b e v c f -> place t a d v c f.
Proof.
  intros [p1 p2 p3 p4 p5 p6 p7] [q1 q2 q3 q4 q5 q6 q7]. constructor.
  - exact q1.
  - exact (Z.le_trans _ _ _ p2 q2).
  - exact (Z.le_trans _ _ _ q3 p3).
  - exact (Z.le_trans _ _ _ q4 p4).
  - exact (fun x => q5 (p5 x)).
  - exact (Z.le_trans _ _ _ p6 q6).
  - exact (Z.le_trans _ _ _ q7 p7).
Qed.
Lemma place_option t a d : wf t -> place (Option t) a d t a d.
Proof. intros H. constructor; auto; cbn [tsize salign tmeta]; lia. Qed.
Lemma laid_fixed_stride m n e a i : wf e -> 0 <= i < n -> tsize (FixedDim n e) < 2 ^ 63 -> laid m (FixedDim n e) a -> m (a + 8) = tsize e /\ tsize e < 2 ^ 63.
Proof.
  intros H I B L. cbn [tsize] in B. pose proof (tsize_pos e H). inversion L as [| | | | |? ? ? S L1|]; subst. assert (tsize e < 2 ^ 63) by nia. split; auto. rewrite S, size_spec by (auto; lia). apply to_signed_small. lia.
Qed.
Lemma place_fixed m n e a d i : wf (FixedDim n e) -> 0 <= i < n -> tsize (FixedDim n e) < 2 ^ 63 -> laid m (FixedDim n e) a -> place (FixedDim n e) a d e (a + 16) (d + i * m (a + 8)).
Proof.
  intros (N & H) I B L. destruct (laid_fixed_stride m n e a i H I B L) as (-> & _). pose proof (tsize_pos e H). pose proof (tmeta_pos e). pose proof (tsize_aligned e H) as A. pose proof (small_pos _ (salign_small e H)).
  constructor; cbn [tsize salign tmeta]; auto; try lia; try nia. intros M. rewrite Z.add_mod, Z.mul_mod, A, M by lia. rewrite Z.mul_0_r, Zmod_0_l. reflexivity.
Qed.
Lemma tuple_nth m l a i f o : wf (Tuple l) -> tsize (Tuple l) < 2 ^ 63 -> tmeta (Tuple l) < W -> laid m (Tuple l) a -> nth_error l i = Some f -> nth_error (arrmeta_offsets l) i = Some o ->
  exists p, nth_error (pos l 0) i = Some p /\ m (a + 8 * Z.of_nat i) = p /\ 0 <= p /\ p mod salign f = 0 /\ p + tsize f <= tsize (Tuple l) /\ wf f /\ laid m f (a + o).
Proof.
  intros H B BM L F O. rewrite tsize_tuple in *. pose proof (small_pos _ (salign_small _ H)) as S. pose proof (roundup_spec (tend l 0) (salign (Tuple l)) ltac:(lia)) as R. apply wf_tuple in H.
  assert (I : (i < List.length l)%nat) by (apply nth_error_Some; congruence). destruct (nth_error (pos l 0) i) as [p|] eqn:P; [|apply nth_error_None in P; rewrite pos_length in P; lia].
  destruct (pos_nth l H 0 i f p F P) as (P1 & P2 & P3). exists p. inversion L as [| | | | | |? ? G1 G2]; subst. split; [reflexivity|]. split.
  - apply G1. rewrite fill_spec; auto. lia.
  - split; [lia|]. split; [auto|]. split; [lia|]. split; [|eauto]. rewrite Forall_forall in H. apply H. eapply nth_error_In; eauto.
Qed.
Lemma place_tuple m l a d i f o : wf (Tuple l) -> tsize (Tuple l) < 2 ^ 63 -> tmeta (Tuple l) < W -> laid m (Tuple l) a -> nth_error l i = Some f -> nth_error (arrmeta_offsets l) i = Some o ->
  place (Tuple l) a d f (a + o) (d + m (a + 8 * Z.of_nat i)).
Proof.
  intros H B BM L F O. destruct (tuple_nth m l a i f o H B BM L F O) as (p & P & -> & P1 & P2 & P3 & Wf & Lf). destruct (meta_sub l i f o BM F O) as (M1 & M2 & M3).
  assert (SA : salign f <= salign (Tuple l)) by (apply salign_tuple_le; eapply nth_error_In; eauto). constructor; auto; try lia.
  intros D. pose proof (salign_small f Wf) as S1. pose proof (salign_small _ H) as S2. pose proof (small_pos _ S1). pose proof (small_pos _ S2). rewrite Z.add_mod, P2 by lia.
  rewrite (mod_trans d (salign f) (salign (Tuple l))) by (auto; try lia; apply small_divide; auto). reflexivity.
Qed.

Lemma at_path_place m t : forall a d p u a' d', wf t -> tsize t < 2 ^ 63 -> tmeta t < W -> laid m t a -> at_path m t a d p = Some (u, a', d') -> place t a d u a' d' /\ laid m u a'.
Proof.
  induction t as [s0 al|s0 al de|e IH|e IH|e IH|n e IH|l IH] using lt_ind'; intros a d [|i p] u a' d' H B BM L E; try discriminate;
    try (cbn [at_path] in E; injection E as <- <- <-; split; [apply place_refl; auto|auto]; fail).
  - cbn [at_path] in E. inversion L; subst. destruct (IH _ _ _ _ _ _ H B BM ltac:(eauto) E) as (P & L'). split; auto. eapply place_trans; [|exact P]. apply place_option. exact H.
  - cbn [at_path] in E. destruct (Z.leb_spec 0 i); [|discriminate]. destruct (Z.ltb_spec i n); [|discriminate]. cbn [andb] in E.
    pose proof (place_fixed m n e a d i H ltac:(lia) B L) as P. destruct H as (N & H). destruct (laid_fixed_stride m n e a i H ltac:(lia) B L) as (S & Se). inversion L; subst. cbn [tmeta] in BM.
    destruct (IH _ _ _ _ _ _ H Se ltac:(lia) ltac:(eauto) E) as (P' & L'). split; auto. eapply place_trans; eauto.
  - rewrite at_tuple in E. destruct (Z.leb_spec 0 i); [|discriminate]. destruct (nth_error l (Z.to_nat i)) as [f|] eqn:F; [|discriminate]. destruct (nth_error (arrmeta_offsets l) (Z.to_nat i)) as [o|] eqn:O; [|discriminate].
    pose proof (place_tuple m l a d (Z.to_nat i) f o H B BM L F O) as P. rewrite Z2Nat.id in P by lia. destruct (tuple_nth m l a _ f o H B BM L F O) as (q & Q & _ & Q1 & Q2 & Q3 & Wf & Lf).
    destruct (meta_sub l _ f o BM F O) as (M1 & M2 & M3). rewrite Forall_forall in IH. destruct (IH f ltac:(eapply nth_error_In; eauto) _ _ _ _ _ _ Wf ltac:(lia) M3 Lf E) as (P' & L'). split; auto. eapply place_trans; eauto.
Qed.
(** Elements with different indices of the same array or tuple are apart. *)
Lemma siblings m t : forall a d i j p q u v a1 a2 d1 d2, wf t -> tsize t < 2 ^ 63 -> tmeta t < W -> laid m t a -> i <> j ->
  at_path m t a d (i :: p) = Some (u, a1, d1) -> at_path m t a d (j :: q) = Some (v, a2, d2) -> disjoint d1 (tsize u) d2 (tsize v).
Proof.
  induction t as [s0 al|s0 al de|e IH|e IH|e IH|n e IH|l _] using lt_ind'; intros a d i j p q u v a1 a2 d1 d2 H B BM L NE E1 E2; try discriminate.
  - inversion L; subst. eapply (IH a d i j); eauto.
  - cbn [at_path] in E1, E2. destruct (Z.leb_spec 0 i); [|discriminate]. destruct (Z.ltb_spec i n); [|discriminate]. destruct (Z.leb_spec 0 j); [|discriminate]. destruct (Z.ltb_spec j n); [|discriminate]. cbn [andb] in *.
    destruct H as (N & H). destruct (laid_fixed_stride m n e a i H ltac:(lia) B L) as (S & Se). rewrite S in *. inversion L; subst. cbn [tmeta] in BM.
    destruct (at_path_place m e _ _ _ _ _ _ H Se ltac:(lia) ltac:(eauto) E1) as (P1 & _). destruct (at_path_place m e _ _ _ _ _ _ H Se ltac:(lia) ltac:(eauto) E2) as (P2 & _).
    destruct P1 as [_ x1 y1 _ _ _ _], P2 as [_ x2 y2 _ _ _ _]. pose proof (tsize_pos e H) as TP. unfold disjoint. clear - x1 y1 x2 y2 TP NE. destruct (Z.lt_ge_cases i j); [left|right]; nia.
  - rewrite at_tuple in E1, E2. destruct (Z.leb_spec 0 i); [|discriminate]. destruct (Z.leb_spec 0 j); [|discriminate].
    destruct (nth_error l (Z.to_nat i)) as [f|] eqn:F; [|discriminate]. destruct (nth_error (arrmeta_offsets l) (Z.to_nat i)) as [o|] eqn:O; [|discriminate].
    destruct (nth_error l (Z.to_nat j)) as [g|] eqn:G; [|discriminate]. destruct (nth_error (arrmeta_offsets l) (Z.to_nat j)) as [o'|] eqn:O'; [|discriminate].
    destruct (tuple_nth m l a _ f o H B BM L F O) as (p1 & Q1 & S1 & K1 & _ & T1 & Wf & Lf). destruct (tuple_nth m l a _ g o' H B BM L G O') as (p2 & Q2 & S2 & K2 & _ & T2 & Wg & Lg).
    rewrite Z2Nat.id in S1, S2 by lia. rewrite S1 in E1. rewrite S2 in E2. destruct (meta_sub l _ f o BM F O) as (M1 & _ & M3). destruct (meta_sub l _ g o' BM G O') as (N1 & _ & N3).
    destruct (at_path_place m f _ _ _ _ _ _ Wf ltac:(lia) M3 Lf E1) as (P1 & _). destruct (at_path_place m g _ _ _ _ _ _ Wg ltac:(lia) N3 Lg E2) as (P2 & _). destruct P1 as [_ x1 y1 _ _ _ _], P2 as [_ x2 y2 _ _ _ _]. apply wf_tuple in H. unfold disjoint.
    destruct (Z.lt_ge_cases i j).
    + pose proof (pos_order l H 0 (Z.to_nat i) (Z.to_nat j) f p1 p2 ltac:(lia) F Q1 Q2) as OR. left. clear - x1 y1 x2 y2 OR. lia.
    + pose proof (pos_order l H 0 (Z.to_nat j) (Z.to_nat i) g p2 p1 ltac:(lia) G Q2 Q1) as OR. right. clear - x1 y1 x2 y2 OR. lia.
Qed.
Lemma at_path_app m t : forall a d c p r, at_path m t a d (c ++ p) = Some r -> exists u b e, at_path m t a d c = Some (u, b, e) /\ at_path m u b e p = Some r.
Proof.
  induction t as [s0 al|s0 al de|e IH|e IH|e IH|n e IH|l IH] using lt_ind'; intros a d [|i c] p r E; try discriminate;
    try (match goal with |- exists u b e, at_path _ ?T ?A ?D [] = _ /\ _ => exists T, A, D; split; [reflexivity|exact E] end).
  - cbn [at_path app] in *. apply (IH a d (i :: c)). exact E.
  - cbn [at_path app] in *. destruct ((0 <=? i) && (i <? n)); [|discriminate]. apply IH. exact E.
  - cbn [app] in E. rewrite at_tuple in E |- *. destruct (0 <=? i); [|discriminate]. destruct (nth_error l (Z.to_nat i)) as [f|] eqn:F; [|discriminate]. destruct (nth_error (arrmeta_offsets l) (Z.to_nat i)) as [o|] eqn:O; [|discriminate].
    rewrite Forall_forall in IH. apply IH; auto. eapply nth_error_In; eauto.
Qed.
Lemma at_path_diverge m t a d p q u v a1 a2 d1 d2 : wf t -> tsize t < 2 ^ 63 -> tmeta t < W -> laid m t a -> diverge p q ->
  at_path m t a d p = Some (u, a1, d1) -> at_path m t a d q = Some (v, a2, d2) -> disjoint d1 (tsize u) d2 (tsize v).
Proof.
  intros H B BM L (c & i & j & p' & q' & NE & -> & ->) E1 E2. apply at_path_app in E1 as (w & b & e & C & E1). apply at_path_app in E2 as (w' & b' & e' & C' & E2). rewrite C in C'. injection C' as <- <- <-.
  destruct (at_path_place m t a d c w b e H B BM L C) as ([Ww x1 y1 _ _ x2 y2] & Lw). pose proof (tmeta_pos w). eapply siblings; eauto; lia.
Qed.
