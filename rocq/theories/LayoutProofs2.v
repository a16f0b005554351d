From Verif Require Import Base LayoutModel LayoutSpec LayoutProofs.
Open Scope Z_scope.
Notation W := 18446744073709551616.

(** Arrmeta sizes and offsets. *)
Fixpoint msum (l : list lt) : Z := match l with [] => 0 | f :: l => tmeta f + msum l end.
Fixpoint mo (l : list lt) (o : Z) : list Z := match l with [] => [] | f :: l => o :: mo l (o + tmeta f) end.
Lemma tmeta_tuple l : tmeta (Tuple l) = 8 * Z.of_nat (List.length l) + msum l.
Proof. cbn [tmeta]. induction l as [|f l IH]; cbn [fold_right msum List.length]; lia. Qed.
Lemma tmeta_pos t : 0 <= tmeta t.
Proof.
  induction t as [s a|s a d|e IH|e IH|e IH|n e IH|l IH] using lt_ind'; cbn [tmeta]; try lia. induction IH as [|f l F IH IH2]; cbn [fold_right]; lia.
Qed.
Lemma msum_pos l : 0 <= msum l.
Proof. induction l as [|f l IH]; cbn; [lia|]. pose proof (tmeta_pos f). lia. Qed.
Lemma arrmeta_wrap t : arrmeta_size t = u64 (tmeta t).
Proof.
  induction t as [s a|s a d|e IH|e IH|e IH|n e IH|l IH] using lt_ind'; cbn [arrmeta_size]; auto.
  - rewrite IH, u64_add_r. reflexivity.
  - rewrite IH, u64_add_l. f_equal. cbn [tmeta]. lia.
  - rewrite IH, u64_add_r. reflexivity.
  - assert (G : forall l o, Forall (fun t => arrmeta_size t = u64 (tmeta t)) l -> u64 o = o -> fold_left (fun o f => u64 (o + arrmeta_size f)) l o = u64 (o + msum l)).
    { clear. induction l as [|f l IH]; intros o F E; cbn [fold_left msum]; [rewrite Z.add_0_r; auto|]. inversion F as [|? ? Hf Hl]; subst. rewrite Hf, u64_add_r, IH by (auto; apply u64_u64). rewrite u64_add_l. f_equal. lia. }
    rewrite G by (auto; apply u64_u64). rewrite u64_add_l. f_equal. rewrite tmeta_tuple. lia.
Qed.
Lemma arrmeta_spec t : tmeta t < W -> arrmeta_size t = tmeta t.
Proof. intros H. rewrite arrmeta_wrap. apply u64_id. pose proof (tmeta_pos t). lia. Qed.
Lemma offsets_spec l : forall o, 0 <= o -> o + msum l < W -> offsets_from l o = mo l o.
Proof.
  induction l as [|f l IH]; intros o P B; [reflexivity|]. cbn [offsets_from mo msum] in *. f_equal. pose proof (tmeta_pos f). pose proof (msum_pos l). rewrite arrmeta_spec by lia. rewrite u64_id by lia. apply IH; lia.
Qed.
Lemma arrmeta_offsets_spec l : tmeta (Tuple l) < W -> arrmeta_offsets l = mo l (8 * Z.of_nat (List.length l)).
Proof. rewrite tmeta_tuple. intros H. unfold arrmeta_offsets. pose proof (msum_pos l). rewrite u64_id by lia. rewrite Z.mul_comm. apply offsets_spec; lia. Qed.
Lemma mo_length l : forall o, List.length (mo l o) = List.length l.
Proof. induction l as [|f l IH]; intros o; cbn [mo List.length]; auto. Qed.
Lemma mo_nth l : forall o i f x, nth_error l i = Some f -> nth_error (mo l o) i = Some x -> o <= x /\ x + tmeta f <= o + msum l.
Proof.
  induction l as [|g l IH]; intros o [|i] f x F X; try discriminate; cbn [nth_error mo msum] in *.
  - injection F as <-. injection X as <-. pose proof (msum_pos l). lia.
  - pose proof (tmeta_pos g). destruct (IH _ _ _ _ F X). lia.
Qed.
Lemma mo_order l : forall o i j f x y, (i < j)%nat -> nth_error l i = Some f -> nth_error (mo l o) i = Some x -> nth_error (mo l o) j = Some y -> x + tmeta f <= y.
Proof.
  induction l as [|g l IH]; intros o [|i] [|j] f x y L F X Y; try discriminate; try lia; cbn [nth_error mo] in *.
  - injection F as <-. injection X as <-. assert (J : (j < List.length l)%nat) by (rewrite <- (mo_length l (o + tmeta g)); apply nth_error_Some; congruence).
    destruct (nth_error l j) as [h|] eqn:H; [|apply nth_error_None in H; lia]. destruct (mo_nth l _ _ _ _ H Y). lia.
  - eapply (IH _ i j); eauto. lia.
Qed.

(** Data offsets. *)
Fixpoint pos (l : list lt) (s : Z) : list Z := match l with [] => [] | f :: l => roundup s (salign f) :: pos l (roundup s (salign f) + tsize f) end.
Lemma pos_length l : forall o, List.length (pos l o) = List.length l.
Proof. induction l as [|f l IH]; intros o; cbn [pos List.length]; auto. Qed.
Lemma data_offsets_spec l : forall prev offs, Forall wf l -> wf prev -> 0 <= offs -> tend l (offs + tsize prev) < W -> data_offsets_from prev offs l = pos l (offs + tsize prev).
Proof.
  induction l as [|f l IH]; intros prev offs Hl Hp P B; [reflexivity|]. inversion Hl as [|? ? Wf Wl]; subst. cbn [data_offsets_from pos tend fold_left] in *. fold (tend l (roundup (offs + tsize prev) (salign f) + tsize f)) in B.
  pose proof (tsize_pos prev Hp). pose proof (tsize_pos f Wf). pose proof (small_pos _ (salign_small f Wf)). pose proof (roundup_spec (offs + tsize prev) (salign f) ltac:(lia)) as R.
  pose proof (tend_mono l Wl (tsize_nonneg_list l Wl) (roundup (offs + tsize prev) (salign f) + tsize f)) as T.
  rewrite (size_spec prev) by (auto; lia). rewrite u64_id by lia. rewrite (align_spec f), inc_spec by (try apply salign_small; auto). rewrite u64_id by lia. f_equal. apply IH; auto. lia.
Qed.
Lemma fill_spec l : Forall wf l -> tend l 0 < W -> fill_default_data_offsets l = pos l 0.
Proof.
  intros H B. destruct H as [|f l Wf Wl]; [reflexivity|]. cbn [fill_default_data_offsets pos tend fold_left] in *. pose proof (small_pos _ (salign_small f Wf)). rewrite roundup_0 in * by lia. f_equal.
  apply data_offsets_spec; auto; lia.
Qed.
Lemma fill_length l : List.length (fill_default_data_offsets l) = List.length l.
Proof. destruct l as [|f l]; [reflexivity|]. cbn. f_equal. generalize f 0. induction l as [|g l IH]; intros h o; cbn; auto. Qed.
Lemma pos_nth l : Forall wf l -> forall s i f p, nth_error l i = Some f -> nth_error (pos l s) i = Some p -> s <= p /\ p mod salign f = 0 /\ p + tsize f <= tend l s.
Proof.
  induction 1 as [|g l Wg Wl IH]; intros s [|i] f p F X; try discriminate; cbn [nth_error pos tend fold_left] in *; fold (tend l (roundup s (salign g) + tsize g));
    pose proof (tsize_pos g Wg); pose proof (small_pos _ (salign_small g Wg)); pose proof (roundup_spec s (salign g) ltac:(lia)) as R.
  - injection F as <-. injection X as <-. pose proof (tend_mono l Wl (tsize_nonneg_list l Wl) (roundup s (salign g) + tsize g)). split; [lia|]. split; [tauto|lia].
  - destruct (IH _ _ _ _ F X) as (A & B & C). split; [lia|]. split; [tauto|lia].
Qed.
Lemma pos_order l : Forall wf l -> forall s i j f p q, (i < j)%nat -> nth_error l i = Some f -> nth_error (pos l s) i = Some p -> nth_error (pos l s) j = Some q -> p + tsize f <= q.
Proof.
  induction 1 as [|g l Wg Wl IH]; intros s [|i] [|j] f p q L F X Y; try discriminate; try lia; cbn [nth_error pos] in *.
  - injection F as <-. injection X as <-. assert (J : (j < List.length l)%nat) by (rewrite <- (pos_length l (roundup s (salign g) + tsize g)); apply nth_error_Some; congruence).
    destruct (nth_error l j) as [h|] eqn:H; [|apply nth_error_None in H; lia]. destruct (pos_nth l Wl _ _ _ _ H Y). lia.
  - eapply (IH _ i j); eauto. lia.
Qed.

(** Arrmeta that holds the default layout. *)
Inductive laid (m : mem) : lt -> Z -> Prop :=
| laid_builtin s al a : laid m (Builtin s al) a
| laid_leaf s al d a : laid m (Leaf s al d) a
| laid_var e a : laid m e (a + 24) -> laid m (VarDim e) a
| laid_pointer e a : laid m e (a + 16) -> laid m (Pointer e) a
| laid_option e a : laid m e a -> laid m (Option e) a
| laid_fixed n e a : m (a + 8) = to_signed 64 (default_size e) -> laid m e (a + 16) -> laid m (FixedDim n e) a
| laid_tuple l a : (forall i o, nth_error (fill_default_data_offsets l) i = Some o -> m (a + 8 * Z.of_nat i) = o) ->
    (forall i f o, nth_error l i = Some f -> nth_error (arrmeta_offsets l) i = Some o -> laid m f (a + o)) -> laid m (Tuple l) a.
Definition agree (m m' : mem) (a n : Z) : Prop := forall x, a <= x < a + n -> m' x = m x.
Lemma agree_sub m m' a n b k : agree m m' a n -> a <= b -> b + k <= a + n -> agree m m' b k.
Proof. intros H A B x X. apply H. lia. Qed.
Lemma meta_sub l i f o : tmeta (Tuple l) < W -> nth_error l i = Some f -> nth_error (arrmeta_offsets l) i = Some o -> 8 * Z.of_nat (List.length l) <= o /\ o + tmeta f <= tmeta (Tuple l) /\ tmeta f < W.
Proof.
  intros B F O. rewrite arrmeta_offsets_spec in O by auto. destruct (mo_nth _ _ _ _ _ F O). rewrite tmeta_tuple in *. lia.
Qed.
Lemma laid_ext m m' t : forall a, tmeta t < W -> agree m m' a (tmeta t) -> laid m t a -> laid m' t a.
Proof.
  induction t as [s al|s al d|e IH|e IH|e IH|n e IH|l IH] using lt_ind'; intros a B A L; inversion L as [| |? ? L1|? ? L1|? ? L1|? ? ? S L1|? ? O L1]; subst; cbn [tmeta] in A, B; try (pose proof (tmeta_pos e)).
  - constructor.
  - constructor.
  - constructor. apply IH; auto; [lia|]. eapply agree_sub; eauto; lia.
  - constructor. apply IH; auto; [lia|]. eapply agree_sub; eauto; lia.
  - constructor. apply IH; auto.
  - constructor; [rewrite A by lia; auto|]. apply IH; auto; [lia|]. eapply agree_sub; eauto; lia.
  - change (tmeta (Tuple l) < W) in B. change (agree m m' a (tmeta (Tuple l))) in A. pose proof (tmeta_tuple l) as T. pose proof (msum_pos l). constructor.
    + intros i o X. assert (I : (i < List.length l)%nat) by (rewrite <- fill_length; apply nth_error_Some; congruence). rewrite A by lia. auto.
    + intros i f o F X. destruct (meta_sub l i f o B F X) as (M1 & M2 & M3). rewrite Forall_forall in IH. apply IH; eauto; [eapply nth_error_In; eauto|]. eapply agree_sub; eauto; lia.
Qed.

(** The references in the arrmeta, in the order they are destructed. *)
Definition ref (m : mem) (a : Z) : list Z := if m a =? 0 then [] else [m a].
Fixpoint refs (m : mem) (t : lt) (a : Z) : list Z :=
  match t with
  | Builtin _ _ | Leaf _ _ _ => []
  | VarDim e => ref m a ++ refs m e (a + 24)
  | Pointer e => ref m a ++ refs m e (a + 16)
  | Option e => refs m e a
  | FixedDim _ e => refs m e (a + 16)
  | Tuple l => (fix go (l : list lt) (offs : list Z) : list Z := match l, offs with f :: l, o :: offs => refs m f (a + o) ++ go l offs | _, _ => [] end) l (arrmeta_offsets l)
  end.
Definition refs_fields (m : mem) (a : Z) : list lt -> list Z -> list Z := fix go (l : list lt) (offs : list Z) : list Z := match l, offs with f :: l, o :: offs => refs m f (a + o) ++ go l offs | _, _ => [] end.
Lemma refs_fields_cons m a f l o offs : refs_fields m a (f :: l) (o :: offs) = refs m f (a + o) ++ refs_fields m a l offs.
Proof. reflexivity. Qed.
Lemma refs_tuple m l a : refs m (Tuple l) a = refs_fields m a l (arrmeta_offsets l).
Proof. reflexivity. Qed.
Definition log (s : cstate) (r : list Z) : cstate := {| am := am s; next := next s; budget := budget s; released := released s ++ r |}.
Lemma log_nil s : log s [] = s.
Proof. destruct s. unfold log. cbn. rewrite app_nil_r. reflexivity. Qed.
Lemma log_log s r q : log (log s r) q = log s (r ++ q).
Proof. unfold log. cbn. rewrite app_assoc. reflexivity. Qed.
Lemma release_log s a : release s a = log s (ref (am s) a).
Proof. unfold release, ref. destruct (am s a =? 0); [symmetry; apply log_nil|reflexivity]. Qed.
Definition des_fields (a : Z) : list lt -> list Z -> cstate -> cstate := fix go (l : list lt) (offs : list Z) (s : cstate) : cstate :=
  match l, offs with f :: l, o :: offs => go l offs (destruct f (a + o) s) | _, _ => s end.
Lemma des_fields_cons a f l o offs s : des_fields a (f :: l) (o :: offs) s = des_fields a l offs (destruct f (a + o) s).
Proof. reflexivity. Qed.
Lemma destruct_log t : forall a s, destruct t a s = log s (refs (am s) t a).
Proof.
  induction t as [s0 al|s0 al d|e IH|e IH|e IH|n e IH|l IH] using lt_ind'; intros a s; cbn [destruct refs]; try (symmetry; apply log_nil).
  - rewrite IH, release_log, log_log. reflexivity.
  - rewrite IH, release_log, log_log. reflexivity.
  - apply IH.
  - apply IH.
  - change (des_fields a l (arrmeta_offsets l) s = log s (refs_fields (am s) a l (arrmeta_offsets l))). generalize (arrmeta_offsets l). revert s.
    induction IH as [|f l F IH IH2]; intros s offs; [symmetry; apply log_nil|]. destruct offs as [|o offs]; [symmetry; apply log_nil|]. rewrite des_fields_cons, refs_fields_cons, F, IH2, log_log. reflexivity.
Qed.
Lemma refs_ext m m' t : forall a, tmeta t < W -> agree m m' a (tmeta t) -> refs m' t a = refs m t a.
Proof.
  induction t as [s al|s al d|e IH|e IH|e IH|n e IH|l IH] using lt_ind'; intros a B A; cbn [tmeta] in A, B; try (pose proof (tmeta_pos e)); cbn [refs]; auto.
  - unfold ref. rewrite (A a) by lia. f_equal. apply IH; [lia|]. eapply agree_sub; eauto; lia.
  - unfold ref. rewrite (A a) by lia. f_equal. apply IH; [lia|]. eapply agree_sub; eauto; lia.
  - apply IH; [lia|]. eapply agree_sub; eauto; lia.
  - change (tmeta (Tuple l) < W) in B. change (agree m m' a (tmeta (Tuple l))) in A. change (refs_fields m' a l (arrmeta_offsets l) = refs_fields m a l (arrmeta_offsets l)).
    assert (G : forall i f o, nth_error l i = Some f -> nth_error (arrmeta_offsets l) i = Some o -> refs m' f (a + o) = refs m f (a + o)).
    { intros i f o F X. destruct (meta_sub l i f o B F X) as (M1 & M2 & M3). rewrite Forall_forall in IH. pose proof (tmeta_tuple l). apply IH; eauto; [eapply nth_error_In; eauto|]. eapply agree_sub; eauto; lia. }
    revert G. generalize (arrmeta_offsets l). clear. induction l as [|f l IH]; intros offs G; [reflexivity|]. destruct offs as [|o offs]; [reflexivity|]. rewrite !refs_fields_cons, (G 0%nat f o) by reflexivity. f_equal. apply IH. intros i g x F X. apply (G (S i)); auto.
Qed.

(** Writing. *)
Lemma st_same m a v : st m a v a = v.
Proof. unfold st. rewrite Z.eqb_refl. reflexivity. Qed.
Lemma st_other m a v x : x <> a -> st m a v x = m x.
Proof. unfold st. intros H. destruct (Z.eqb_spec x a); congruence. Qed.
Lemma st_list_get l : forall m a, (forall i v, nth_error l i = Some v -> st_list m a l (a + 8 * Z.of_nat i) = v) /\ (forall x, x < a \/ a + 8 * Z.of_nat (List.length l) <= x -> st_list m a l x = m x).
Proof.
  induction l as [|w l IH]; intros m a; cbn [st_list List.length].
  - split; [intros [|i] v H; discriminate|auto].
  - destruct (IH (st m a w) (a + 8)) as (A & B). split.
    + intros [|i] v H; cbn [nth_error] in H.
      * injection H as <-. rewrite B by lia. replace (a + 8 * Z.of_nat 0) with a by lia. apply st_same.
      * rewrite <- (A i v H). f_equal. lia.
    + intros x X. rewrite B by lia. apply st_other. lia.
Qed.

Definition con_fields (a : Z) : list lt -> list Z -> list lt -> cstate -> cstate * bool := fix go (l : list lt) (offs : list Z) (done : list lt) (s : cstate) : cstate * bool :=
  match l, offs with
  | f :: l, o :: offs => let (s, ok) := construct f (a + o) s in if ok then go l offs (f :: done) s else (cleanup done (a + o) s, false)
  | _, _ => (s, true)
  end.
Lemma con_fields_cons a f l o offs done s : con_fields a (f :: l) (o :: offs) done s = let (s, ok) := construct f (a + o) s in if ok then con_fields a l offs (f :: done) s else (cleanup done (a + o) s, false).
Proof. reflexivity. Qed.
Lemma construct_tuple l a s : construct (Tuple l) a s = con_fields a l (arrmeta_offsets l) [] {| am := st_list (am s) a (fill_default_data_offsets l); next := next s; budget := budget s; released := released s |}.
Proof. reflexivity. Qed.
Definition numbers (n k : Z) : list Z := map (fun i => n + Z.of_nat i) (seq 0 (Z.to_nat (k - n))).
Lemma numbers_app n k j : n <= k <= j -> numbers n k ++ numbers k j = numbers n j.
Proof.
  intros H. unfold numbers. replace (Z.to_nat (j - n)) with (Z.to_nat (k - n) + Z.to_nat (j - k))%nat by lia. rewrite seq_app, map_app. f_equal. cbn [Nat.add].
  assert (G : forall c d z, map (fun i => n + Z.of_nat i) (seq (d + z) c) = map (fun i => n + Z.of_nat d + Z.of_nat i) (seq z c)).
  { clear. induction c as [|c IH]; intros d z; [reflexivity|]. cbn [seq map]. f_equal; [lia|]. rewrite <- Nat.add_succ_r. apply IH. }
  rewrite <- (Nat.add_0_r (Z.to_nat (k - n))), G. replace (n + Z.of_nat (Z.to_nat (k - n))) with k by lia. reflexivity.
Qed.
Lemma numbers_self n : numbers n n = [].
Proof. unfold numbers. rewrite Z.sub_diag. reflexivity. Qed.
Lemma numbers_one n : numbers n (n + 1) = [n].
Proof. unfold numbers. replace (n + 1 - n) with 1 by lia. change (Z.to_nat 1) with 1%nat. cbn [seq map]. change (Z.of_nat 0) with 0. rewrite Z.add_0_r. reflexivity. Qed.

(** What a successful default construction does. *)
Definition built (t : lt) (a : Z) (s s' : cstate) : Prop :=
  laid (am s') t a /\ (forall x, x < a \/ a + tmeta t <= x -> am s' x = am s x) /\ next s <= next s' /\ released s' = released s /\ refs (am s') t a = numbers (next s) (next s').
Lemma alloc_ok s a s1 : alloc s a = (s1, true) -> am s1 = st (am s) a (next s) /\ next s1 = next s + 1 /\ released s1 = released s.
Proof. unfold alloc. destruct (budget s) as [[|b]|]; intros H; inversion H; subst; auto. Qed.
Lemma con_fields_ok a l : Forall (fun t => forall a s s', tmeta t < W -> 0 < next s -> construct t a s = (s', true) -> built t a s s') l ->
  forall o done s s', 0 <= o -> o + msum l < W -> 0 < next s -> con_fields a l (mo l o) done s = (s', true) ->
  (forall i f x, nth_error l i = Some f -> nth_error (mo l o) i = Some x -> laid (am s') f (a + x)) /\
  (forall x, x < a + o \/ a + o + msum l <= x -> am s' x = am s x) /\ next s <= next s' /\ released s' = released s /\ refs_fields (am s') a l (mo l o) = numbers (next s) (next s').
Proof.
  induction 1 as [|f l Hf Hl IH]; intros o done s s' P B N E.
  - cbn in E. injection E as <-. split; [intros [|i] f x H; discriminate|]. split; [auto|]. split; [lia|]. split; [reflexivity|]. symmetry. apply numbers_self.
  - cbn [mo msum] in *. rewrite con_fields_cons in E. pose proof (tmeta_pos f). pose proof (msum_pos l). destruct (construct f (a + o) s) as (s1, ok) eqn:C. destruct ok; [|discriminate].
    destruct (Hf (a + o) s s1 ltac:(lia) N C) as (L1 & F1 & N1 & R1 & Q1). destruct (IH (o + tmeta f) (f :: done) s1 s' ltac:(lia) ltac:(lia) ltac:(lia) E) as (L2 & F2 & N2 & R2 & Q2).
    assert (AG : agree (am s1) (am s') (a + o) (tmeta f)) by (intros x X; apply F2; lia). split; [|split; [|split; [lia|split; [congruence|]]]].
    + intros [|i] g x G X; cbn [nth_error] in *; [|eapply L2; eauto]. injection G as <-. injection X as <-. eapply laid_ext; eauto. lia.
    + intros x X. rewrite F2 by lia. apply F1. lia.
    + rewrite refs_fields_cons, (refs_ext _ _ f (a + o) ltac:(lia) AG), Q1, Q2. apply numbers_app. lia.
Qed.
Lemma construct_ok t : forall a s s', tmeta t < W -> 0 < next s -> construct t a s = (s', true) -> built t a s s'.
Proof.
  induction t as [s0 al|s0 al d|e IH|e IH|e IH|n e IH|l IH] using lt_ind'; intros a s s' B N E.
  - cbn in E. injection E as <-. split; [constructor|]. split; [auto|]. split; [lia|]. split; [auto|]. symmetry. apply numbers_self.
  - cbn in E. injection E as <-. split; [constructor|]. split; [auto|]. split; [lia|]. split; [auto|]. symmetry. apply numbers_self.
  - cbn [construct tmeta] in *. pose proof (tmeta_pos e). set (s0 := wr (wr s (a + 8) _) (a + 16) 0) in *. destruct (alloc s0 a) as (s1, ok) eqn:A. destruct ok; [|discriminate].
    apply alloc_ok in A as (A1 & A2 & A3). change (next s0) with (next s) in *. change (released s0) with (released s) in *.
    destruct (IH (a + 24) s1 s' ltac:(lia) ltac:(lia) E) as (L & F & N1 & R & Q). split; [constructor; auto|]. split; [|split; [lia|split; [congruence|]]].
    + cbn [tmeta]. intros x X. rewrite F by lia. rewrite A1. unfold s0, wr. cbn [am]. rewrite !st_other by lia. reflexivity.
    + cbn [refs]. unfold ref. rewrite F by lia. rewrite A1, st_same. destruct (Z.eqb_spec (next s) 0); [lia|]. rewrite Q, A2, <- (numbers_one (next s)). apply numbers_app. lia.
  - cbn [construct tmeta] in *. pose proof (tmeta_pos e). destruct (alloc s a) as (s1, ok) eqn:A. destruct ok; [|discriminate].
    apply alloc_ok in A as (A1 & A2 & A3).
    destruct (IH (a + 16) s1 s' ltac:(lia) ltac:(lia) E) as (L & F & N1 & R & Q). split; [constructor; auto|]. split; [|split; [lia|split; [congruence|]]].
    + cbn [tmeta]. intros x X. rewrite F by lia. rewrite A1. rewrite !st_other by lia. reflexivity.
    + cbn [refs]. unfold ref. rewrite F by lia. rewrite A1, st_same. destruct (Z.eqb_spec (next s) 0); [lia|]. rewrite Q, A2, <- (numbers_one (next s)). apply numbers_app. lia.
  - destruct (IH a s s' B N E) as (L & F & N1 & R & Q). split; [constructor; auto|]. auto.
  - cbn [construct tmeta] in *. pose proof (tmeta_pos e). set (s0 := wr (wr s a n) (a + 8) _) in *. destruct (IH (a + 16) s0 s' ltac:(lia) ltac:(auto) E) as (L & F & N1 & R & Q).
    split; [constructor; [rewrite F by lia; unfold s0, wr; cbn [am]; apply st_same|exact L]|]. split; [|auto]. cbn [tmeta]. intros x X. rewrite F by lia. unfold s0, wr. cbn [am]. rewrite !st_other by lia. reflexivity.
  - rewrite construct_tuple in E. pose proof (arrmeta_offsets_spec l B) as AO. pose proof (tmeta_tuple l) as T. pose proof (msum_pos l). rewrite AO in E.
    set (s0 := {| am := st_list _ _ _; next := _; budget := _; released := _ |}) in *.
    destruct (con_fields_ok a l IH (8 * Z.of_nat (List.length l)) [] s0 s' ltac:(lia) ltac:(lia) N E) as (L & F & N1 & R & Q).
    destruct (st_list_get (fill_default_data_offsets l) (am s) a) as (G1 & G2). split; [|split; [|split; [exact N1|split; [exact R|]]]].
    + constructor.
      * intros i o O. assert (I : (i < List.length l)%nat) by (rewrite <- fill_length; apply nth_error_Some; congruence). rewrite F by lia. apply G1; auto.
      * intros i f o Hf O. rewrite AO in O. eapply L; eauto.
    + intros x X. rewrite F by lia. apply G2. rewrite fill_length. lia.
    + rewrite refs_tuple, AO. exact Q.
Qed.
