From Verif Require Import Base LayoutModel LayoutSpec.

Lemma lt_ind' (P : lt -> Prop) : (forall s a, P (Builtin s a)) -> (forall s a d, P (Leaf s a d)) -> (forall e, P e -> P (VarDim e)) -> (forall e, P e -> P (Pointer e)) ->
  (forall e, P e -> P (Option e)) -> (forall n e, P e -> P (FixedDim n e)) -> (forall l, Forall P l -> P (Tuple l)) -> forall t, P t.
Proof.
  intros H1 H2 H3 H4 H5 H6 H7. fix IH 1. intros [s a|s a d|e|e|e|n e|l]; [apply H1|apply H2|apply H3, IH|apply H4, IH|apply H5, IH|apply H6, IH|]. apply H7. induction l as [|f l IL]; constructor; [apply IH|exact IL].
Qed.
Open Scope Z_scope.

Notation W := 18446744073709551616.
Lemma u64_id x : 0 <= x < W -> u64 x = x.
Proof. intros H. apply Z.mod_small. exact H. Qed.
Lemma u64_u64 x : u64 (u64 x) = u64 x.
Proof. apply Z.mod_mod. lia. Qed.
Lemma u64_add_l x y : u64 (u64 x + y) = u64 (x + y).
Proof. apply Z.add_mod_idemp_l. lia. Qed.
Lemma u64_add_r x y : u64 (x + u64 y) = u64 (x + y).
Proof. apply Z.add_mod_idemp_r. lia. Qed.
Lemma u64_mul x y : u64 (u64 x * u64 y) = u64 (x * y).
Proof. unfold u64. symmetry. apply Z.mul_mod. lia. Qed.
Lemma u64_range x : 0 <= u64 x < W.
Proof. apply Z.mod_pos_bound. lia. Qed.

(** Rounding. *)
Lemma small_pos a : small_pow2 a -> 1 <= a <= 16.
Proof. unfold small_pow2. lia. Qed.
Lemma roundup_spec x a : 0 < a -> x <= roundup x a < x + a /\ roundup x a mod a = 0.
Proof.
  intros H. unfold roundup. split; [|apply Z.mod_mul; lia]. pose proof (Z.div_mod (x + a - 1) a). pose proof (Z.mod_pos_bound (x + a - 1) a). nia.
Qed.
Lemma roundup_mono x y a : 0 < a -> x <= y -> roundup x a <= roundup y a.
Proof. intros H L. unfold roundup. apply Z.mul_le_mono_nonneg_r; [lia|]. apply Z.div_le_mono; lia. Qed.
Lemma roundup_id x a : 0 < a -> x mod a = 0 -> roundup x a = x.
Proof. intros H M. destruct (roundup_spec x a H) as (B & C). apply Z.mod_divide in M; [|lia]. apply Z.mod_divide in C; [|lia]. destruct M as (p & ->), C as (q & E). rewrite E in *. assert (p <= q) by nia. assert (q < p + 1) by nia. f_equal. lia. Qed.
Lemma roundup_0 a : 0 < a -> roundup 0 a = 0.
Proof. intros H. apply roundup_id; auto. Qed.
Lemma inc_spec x a : small_pow2 a -> inc_to_alignment x a = u64 (roundup x a).
Proof.
  intros H. unfold inc_to_alignment, roundup.
  assert (K : forall k, 0 <= k <= 4 -> a = 2 ^ k -> Z.land (u64 (x + a - 1)) (u64 (- a)) = u64 ((x + a - 1) / a * a)).
  { intros k K E. assert (P : W = 2 ^ (64 - k) * 2 ^ k) by (rewrite <- Z.pow_add_r by lia; replace (64 - k + k) with 64 by lia; reflexivity).
    assert (P0 : 0 < 2 ^ k) by (apply Z.pow_pos_nonneg; lia). assert (P1 : 0 < 2 ^ (64 - k)) by (apply Z.pow_pos_nonneg; lia).
    assert (M : u64 (- a) = (2 ^ (64 - k) - 1) * 2 ^ k). { unfold u64. symmetry. apply Z.mod_unique with (q := -1); [left|]; subst a; nia. }
    rewrite M, land_field by lia. rewrite <- E in *. unfold u64. rewrite P. set (y := x + a - 1). set (q := 2 ^ (64 - k)) in *.
    rewrite (Z.mul_comm q a) at 1. rewrite Z.rem_mul_r by lia. rewrite (Z.mul_comm a (_ mod _)), Z.div_add by lia. rewrite (Z.div_small (y mod a)) by (apply Z.mod_pos_bound; lia). rewrite Z.add_0_l.
    rewrite Z.mod_mod by lia. rewrite Z.mul_mod_distr_r by lia. reflexivity. }
  destruct H as [ -> |[ -> |[ -> |[ -> | -> ]]]]; [apply (K 0)|apply (K 1)|apply (K 2)|apply (K 3)|apply (K 4)]; try lia; reflexivity.
Qed.
(** Rounding a wrapped number. *)
Lemma roundup_wrap x a : small_pow2 a -> u64 (roundup (u64 x) a) = u64 (roundup x a).
Proof.
  intros H. rewrite <- !inc_spec by auto. unfold inc_to_alignment. f_equal. replace (u64 x + a - 1) with (u64 x + (a - 1)) by lia. rewrite u64_add_l. f_equal. lia.
Qed.
Lemma roundup_cong x y a : small_pow2 a -> u64 x = u64 y -> u64 (roundup x a) = u64 (roundup y a).
Proof. intros H E. rewrite <- (roundup_wrap x), <- (roundup_wrap y), E by auto. reflexivity. Qed.

(** Alignments. *)
Lemma wf_tuple l : wf (Tuple l) <-> Forall wf l.
Proof. cbn [wf]. induction l as [|f l IH]; cbn [fold_right]; [split; auto|]. rewrite IH. split; [intros (A & B); constructor; auto|intros H; inversion H; auto]. Qed.
Lemma small_max a b : small_pow2 a -> small_pow2 b -> small_pow2 (Z.max a b).
Proof. intros H1 H2. unfold small_pow2 in *. lia. Qed.
Lemma salign_small t : wf t -> small_pow2 (salign t).
Proof.
  induction t as [s a|s a d|e IH|e IH|e IH|n e IH|l IH] using lt_ind'; intros H.
  - cbn in *. tauto.
  - cbn in *. tauto.
  - cbn. unfold small_pow2. lia.
  - cbn. unfold small_pow2. lia.
  - apply IH. exact H.
  - apply IH. apply H.
  - apply wf_tuple in H. cbn [salign]. induction IH as [|f l F IH IH2]; [left; reflexivity|]. inversion H; subst. cbn [fold_right]. apply small_max; auto.
Qed.
Lemma salign_tuple_le l f : In f l -> salign f <= salign (Tuple l).
Proof. cbn [salign]. induction l as [|g l IH]; intros []; cbn [fold_right]; [subst; lia|]. apply IH in H. lia. Qed.
Lemma align_spec t : wf t -> alignment t = salign t.
Proof.
  induction t as [s a|s a d|e IH|e IH|e IH|n e IH|l IH] using lt_ind'; intros H; auto.
  - apply IH, H.
  - apply wf_tuple in H. cbn [alignment salign].
    assert (G : forall l m, 1 <= m -> Forall (fun f => alignment f = salign f /\ small_pow2 (salign f)) l ->
      fold_left (fun m f => if alignment f >? m then u8 (alignment f) else m) l m = Z.max m (fold_right (fun f m => Z.max (salign f) m) 1 l)).
    { clear. intros l. induction l as [|f l IL]; intros m M F; cbn [fold_left fold_right]; [lia|]. inversion F as [|? ? (A & S) F']; subst. rewrite A. apply small_pos in S.
      unfold u8. rewrite Z.mod_small by lia. rewrite IL; auto; destruct (Z.gtb_spec (salign f) m); lia. }
    rewrite G; [|lia|].
    + pose proof (salign_small (Tuple l) (proj2 (wf_tuple l) H)) as S. apply small_pos in S. cbn [salign] in S. lia.
    + rewrite Forall_forall in *. intros f F. split; [apply IH; auto|apply salign_small; auto].
Qed.

(** Sizes. *)
Definition tend (l : list lt) (s : Z) : Z := fold_left (fun s f => roundup s (salign f) + tsize f) l s.
Lemma tsize_tuple l : tsize (Tuple l) = roundup (tend l 0) (salign (Tuple l)).
Proof. reflexivity. Qed.
Lemma tend_mono l : Forall wf l -> Forall (fun f => 0 <= tsize f) l -> forall s, s <= tend l s.
Proof.
  intros H. induction H as [|f l F H IH]; intros T s; [cbn; lia|]. inversion T; subst. cbn [tend fold_left]. fold (tend l (roundup s (salign f) + tsize f)).
  pose proof (small_pos _ (salign_small f F)). pose proof (roundup_spec s (salign f) ltac:(lia)). pose proof (IH ltac:(auto) (roundup s (salign f) + tsize f)). lia.
Qed.
Lemma tsize_pos t : wf t -> 0 <= tsize t.
Proof.
  induction t as [s a|s a d|e IH|e IH|e IH|n e IH|l IH] using lt_ind'; intros H; cbn [tsize]; try lia.
  - apply H.
  - apply H.
  - destruct H as (N & H). apply IH in H. nia.
  - pose proof (small_pos _ (salign_small _ H)) as S. change (0 <= roundup (tend l 0) (salign (Tuple l))). pose proof (roundup_spec (tend l 0) (salign (Tuple l)) ltac:(lia)) as R.
    apply wf_tuple in H. pose proof (tend_mono l H) as T. rewrite Forall_forall in IH, H. pose proof (T ltac:(rewrite Forall_forall; auto) 0). lia.
Qed.
Lemma tsize_nonneg_list l : Forall wf l -> Forall (fun f => 0 <= tsize f) l.
Proof. intros H. eapply Forall_impl; [|exact H]. intros f F. apply tsize_pos; auto. Qed.
Lemma mod_trans x a b : 0 < a -> 0 < b -> b mod a = 0 -> x mod b = 0 -> x mod a = 0.
Proof. intros A B H X. apply Z.mod_divide in H; [|lia]. apply Z.mod_divide in X; [|lia]. apply Z.mod_divide; [lia|]. eapply Z.divide_trans; eauto. Qed.
Lemma small_divide a b : small_pow2 a -> small_pow2 b -> a <= b -> b mod a = 0.
Proof. intros H1 H2 L. destruct H1 as [ -> |[ -> |[ -> |[ -> | -> ]]]], H2 as [ -> |[ -> |[ -> |[ -> | -> ]]]]; try reflexivity; lia. Qed.
Lemma tsize_aligned t : wf t -> tsize t mod salign t = 0.
Proof.
  induction t as [s a|s a d|e IH|e IH|e IH|n e IH|l IH] using lt_ind'; intros H; cbn [tsize salign]; auto.
  - apply H.
  - apply H.
  - destruct H as (N & H). pose proof (small_pos _ (salign_small _ H)). rewrite Z.mul_mod by lia. rewrite (IH H), Z.mul_0_r. reflexivity.
  - pose proof (small_pos _ (salign_small _ H)) as S. apply (roundup_spec (tend l 0)). change (0 < salign (Tuple l)). lia.
Qed.
(** The size is right modulo 2^64, and right if it fits. *)
Lemma size_wrap t : wf t -> u64 (default_size t) = u64 (tsize t).
Proof.
  induction t as [s a|s a d|e IH|e IH|e IH|n e IH|l IH] using lt_ind'; intros H; cbn [default_size tsize]; auto.
  - destruct H as (N & H). rewrite u64_u64, <- (u64_mul (u64 n)), u64_u64, (IH H), u64_mul. reflexivity.
  - rewrite (align_spec _ H), inc_spec by (apply salign_small; auto). rewrite u64_u64. fold (tend l 0). apply roundup_cong; [apply salign_small; auto|].
    apply wf_tuple in H.
    assert (G : forall l s s', Forall wf l -> Forall (fun f => u64 (default_size f) = u64 (tsize f)) l -> u64 s = u64 s' ->
      u64 (fold_left (fun s f => u64 (inc_to_alignment s (alignment f) + default_size f)) l s) = u64 (tend l s')).
    { clear. intros l. induction l as [|f l IL]; intros s s' Hw D E; [exact E|]. inversion Hw as [|? ? Wf Wl]; inversion D as [|? ? Df Dl]; subst. cbn [fold_left tend]. apply IL; auto.
      rewrite u64_u64, (align_spec f), inc_spec by (try apply salign_small; auto). rewrite u64_add_l, <- u64_add_r, Df, u64_add_r, <- u64_add_l, (roundup_cong s s' (salign f)) by (try apply salign_small; auto). apply u64_add_l. }
    apply G; auto. rewrite Forall_forall in *. auto.
Qed.
Lemma size_spec t : wf t -> tsize t < W -> default_size t = tsize t.
Proof.
  induction t as [s a|s a d|e IH|e IH|e IH|n e IH|l IH] using lt_ind'; intros H B; pose proof (tsize_pos _ H) as P; pose proof (size_wrap _ H) as E.
  - reflexivity.
  - reflexivity.
  - reflexivity.
  - reflexivity.
  - apply IH; auto.
  - cbn [default_size] in *. rewrite u64_u64 in E. rewrite E. apply u64_id. lia.
  - rewrite (u64_id (tsize (Tuple l))) in E by lia. rewrite <- E. cbn [default_size]. rewrite (align_spec _ H), inc_spec by (apply salign_small; auto). rewrite u64_u64. reflexivity.
Qed.
