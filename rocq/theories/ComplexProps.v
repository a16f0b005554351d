(** C160-C162: complex numbers of doubles. *)
From Coq Require Import Reals Lra.
From Flocq Require Import Core.
From Verif Require Import Base LinspaceModel LinspaceSpec LinspaceProofs ComplexModel.
Open Scope R_scope.

Definition finite (z : complex) : Prop := is_float64 (re z) /\ is_float64 (im z).

(** ** C160: a complex number divided by itself is 1. *)
Definition C160 : Prop := forall z, finite z -> z <> C 0 0 -> div z z = Some (C 1 0).

Lemma d64_zero : d64 0 = Some 0.
Proof. apply d64_exact; [exact (fmt64_int 0 ltac:(lia))|]. rewrite Rabs_R0. apply bpow_gt_0. Qed.
Lemma d64_one : d64 1 = Some 1.
Proof. apply d64_exact; [exact (fmt64_int 1 ltac:(lia))|]. rewrite Rabs_pos_eq by lra. change 1 with (bpow radix2 0). apply bpow_lt. lia. Qed.
Lemma zero_float : is_float64 0.
Proof. exists 0%Z, 0%Z. split; [reflexivity|]. split; [lia|]. lra. Qed.
Lemma d64_mono : forall x y r, d64 x = Some r -> Rabs y <= Rabs x -> exists q, d64 y = Some q.
Proof.
  intros x y r H L. unfold d64, rounded in *. destruct (Rlt_bool_spec (Rabs (rnd64 x)) (bpow radix2 1024)) as [B|B]; [|discriminate].
  exists (rnd64 y). rewrite Rlt_bool_true; [reflexivity|]. apply Rle_lt_trans with (2 := B).
  rewrite <- !round_NE_abs by auto with typeclass_instances. apply round_le; auto with typeclass_instances.
Qed.
(** It is, whenever the square of its absolute value, as computed, is a finite number
    that is not zero; exactly then. *)
Definition square (z : complex) : option R := obind (fmul (re z) (re z)) (fun p => obind (fmul (im z) (im z)) (fun q => fadd p q)).
Theorem C160_exact : forall z, div z z = Some (C 1 0) <-> exists d, square z = Some d /\ d <> 0.
Proof.
  intros [a b]. unfold div, square. cbn [re im].
  destruct (fmul a a) as [p|] eqn:AA; cbn [obind]; [|split; [discriminate|intros (d & E & _); discriminate]].
  destruct (fmul b b) as [q|] eqn:BB; cbn [obind]; [|split; [discriminate|intros (d & E & _); discriminate]].
  destruct (fadd p q) as [d|]; cbn [obind]; [|split; [discriminate|intros (d & E & _); discriminate]].
  assert (AB : exists r, fmul a b = Some r).
  { unfold fmul in *. destruct (Rle_dec (Rabs a) (Rabs b)).
    - apply (d64_mono (b * b) (a * b) q BB). rewrite !Rabs_mult. apply Rmult_le_compat_r; [apply Rabs_pos|assumption].
    - apply (d64_mono (a * a) (a * b) p AA). rewrite !Rabs_mult. apply Rmult_le_compat_l; [apply Rabs_pos|lra]. }
  destruct AB as (r & AB). unfold fdiv at 1. destruct (Req_bool_spec d 0) as [Z|N]; cbn [obind].
  - split; [discriminate|intros (d' & E & N); congruence].
  - split; [intros _; exists d; auto|intros _]. replace (d / d) with 1 by (field; exact N). rewrite d64_one. cbn [obind].
    rewrite AB. cbn [obind]. unfold fsub. replace (r - r) with 0 by lra. rewrite d64_zero. cbn [obind]. unfold fdiv. rewrite Req_bool_false by exact N.
    replace (0 / d) with 0 by (unfold Rdiv; lra). rewrite d64_zero. reflexivity.
Qed.
(** Refuted: 2^600 divided by itself. *)
Theorem C160_self_refuted : ~ C160.
Proof.
  intros H. set (a := bpow radix2 600). assert (F : is_float64 a) by (exists 1%Z, 600%Z; split; [reflexivity|]; split; [lia|unfold a; lra]).
  assert (P : 0 < a) by apply bpow_gt_0.
  pose proof (proj1 (C160_exact (C a 0)) (H (C a 0) (conj F zero_float) ltac:(intros E; injection E; lra))) as (d & E & _).
  unfold square, fmul in E. cbn [re im] in E. assert (N : d64 (a * a) = None).
  { unfold d64, rounded, a. rewrite <- bpow_plus. rewrite round_generic; [|auto with typeclass_instances|apply fmt64_bpow; lia].
    rewrite Rlt_bool_false; [reflexivity|]. rewrite Rabs_pos_eq by apply bpow_ge_0. apply bpow_le. lia. }
  rewrite N in E. discriminate.
Qed.
(** It holds for all numbers whose larger component is from 2^-500 to 2^500. *)
Theorem C160_self_partial : forall z, finite z -> bpow radix2 (-500) <= Rmax (Rabs (re z)) (Rabs (im z)) <= bpow radix2 500 ->
  div z z = Some (C 1 0).
Proof.
  intros [a b] _ (L & U). apply C160_exact. unfold square. cbn [re im] in *.
  assert (SQ : forall x, Rabs x <= bpow radix2 500 -> exists p, fmul x x = Some p /\ p = rnd64 (x * x) /\ 0 <= p <= bpow radix2 1000 /\ (bpow radix2 (-500) <= Rabs x -> bpow radix2 (-1000) <= p)).
  { intros x X. assert (XX : x * x = Rabs x * Rabs x) by (rewrite <- Rabs_mult; rewrite Rabs_pos_eq; [reflexivity|apply Rle_0_sqr]).
    pose proof (Rabs_pos x) as P. assert (UB : x * x <= bpow radix2 1000).
    { rewrite XX. change 1000%Z with (500 + 500)%Z. rewrite bpow_plus. apply Rmult_le_compat; assumption. }
    assert (NN : 0 <= x * x) by apply Rle_0_sqr. exists (rnd64 (x * x)). split.
    - unfold fmul. apply d64_bound. rewrite Rabs_pos_eq by exact NN. apply Rle_trans with (1 := UB). apply bpow_le. lia.
    - split; [reflexivity|]. split; [split|].
      + apply round_ge_generic; auto with typeclass_instances. apply generic_format_0.
      + apply round_le_generic; auto with typeclass_instances. apply fmt64_bpow. lia.
      + intros G. apply round_ge_generic; auto with typeclass_instances; [apply fmt64_bpow; lia|].
        rewrite XX. change (-1000)%Z with (-500 + -500)%Z. rewrite bpow_plus. apply Rmult_le_compat; try assumption; apply bpow_ge_0. }
  destruct (SQ a ltac:(pose proof (Rmax_l (Rabs a) (Rabs b)); lra)) as (p & EP & _ & (P0 & P1) & PL).
  destruct (SQ b ltac:(pose proof (Rmax_r (Rabs a) (Rabs b)); lra)) as (q & EQ & _ & (Q0 & Q1) & QL).
  rewrite EP, EQ. cbn [obind]. assert (S1 : p + q <= bpow radix2 1001).
  { change 1001%Z with (1 + 1000)%Z. rewrite bpow_plus. change (bpow radix2 1) with 2. lra. }
  exists (rnd64 (p + q)). split.
  - unfold fadd. apply d64_bound. rewrite Rabs_pos_eq by lra. apply Rle_trans with (1 := S1). apply bpow_le. lia.
  - assert (S0 : bpow radix2 (-1000) <= p + q) by (unfold Rmax in L; destruct (Rle_dec (Rabs a) (Rabs b)); [specialize (QL L)|specialize (PL L)]; lra).
    assert (bpow radix2 (-1000) <= rnd64 (p + q)) by (apply round_ge_generic; auto with typeclass_instances; apply fmt64_bpow; lia).
    pose proof (bpow_gt_0 radix2 (-1000)). lra.
Qed.

(** ** C161: *= and /= by a number give the product and the quotient of both
    components by that number, also when it is a member of the complex number. *)
Definition C161 : Prop := forall op z s z', op = fmul \/ op = fdiv -> scale_assign op z s = Some z' ->
  op (re z) (value z s) = Some (re z') /\ op (im z) (value z s) = Some (im z').
(** Refuted: z *= z.m_real, here for 2 + 1i. *)
Theorem C161_own_real_refuted : ~ C161.
Proof.
  intros H. assert (I : forall k, (0 <= k <= 100)%Z -> d64 (IZR k) = Some (IZR k)).
  { intros k K. apply d64_exact; [apply fmt64_int; lia|]. rewrite Rabs_pos_eq by (apply IZR_le; lia).
    apply Rle_lt_trans with (bpow radix2 53); [exact (IZR_le k (2 ^ 53) ltac:(lia))|apply bpow_lt; lia]. }
  specialize (H fmul (C 2 1) Real (C 4 4) (or_introl eq_refl)). unfold scale_assign, fmul in H. cbn [re im value] in H.
  rewrite <- !mult_IZR in H. cbn [Z.mul Pos.mul] in H. rewrite (I 4%Z) in H by lia. cbn [obind re im] in H.
  rewrite <- !mult_IZR in H. cbn [Z.mul Pos.mul] in H. rewrite (I 4%Z) in H by lia. cbn [obind] in H.
  destruct (H eq_refl) as (_ & E). rewrite (I 2%Z) in E by lia. injection E as E. lra.
Qed.
(** It holds for every number but the real part. *)
Theorem C161_scale_partial : forall op z s z', s <> Real -> scale_assign op z s = Some z' ->
  op (re z) (value z s) = Some (re z') /\ op (im z) (value z s) = Some (im z').
Proof.
  intros op [a b] s z' N H. unfold scale_assign in H. cbn [re im] in *.
  destruct s as [v| |]; cbn [value re im] in *; [|congruence|]; (destruct (op a _) as [r|]; cbn [obind re im] in H; [|discriminate]);
    (destruct (op b _) as [i|]; cbn [obind] in H; [|discriminate]); injection H as <-; auto.
Qed.
(** By the real part, the imaginary part is multiplied by the new real part. *)
Theorem C161_own_real : forall op z z', scale_assign op z Real = Some z' ->
  op (re z) (re z) = Some (re z') /\ op (im z) (re z') = Some (im z').
Proof.
  intros op [a b] z' H. unfold scale_assign in H. cbn [value re im] in *. destruct (op a a) as [r|]; cbn [obind re im] in H; [|discriminate].
  destruct (op b r) as [i|] eqn:E; cbn [obind] in H; [|discriminate]. injection H as <-. auto.
Qed.

(** ** C162: != is the negation of ==, for complex numbers and for a complex number and
    a real one. *)
Definition C162 : Prop := (forall x y, ne_complex x y = true <-> x <> y) /\ (forall x y, ne_number x y = true <-> x <> C y 0).
Lemma eq_number_spec : forall x y, eq_number x y = true <-> x = C y 0.
Proof.
  intros [a b] y. unfold eq_number. cbn [re im]. destruct (Req_bool_spec a y) as [->|N]; cbn [andb].
  - destruct (Req_bool_spec b 0) as [->|N]; split; congruence.
  - split; congruence.
Qed.
Theorem C162_number_refuted : ~ C162.
Proof. intros (_ & H). apply (proj1 (H (C 1 0) 1)); [apply eq_number_spec; reflexivity|reflexivity]. Qed.
(** With a number it is always the opposite: it is == . *)
Theorem C162_number_always : forall x y, (ne_number x y = true <-> x = C y 0) /\ (eq_number x y = true <-> x = C y 0).
Proof. intros x y. split; exact (eq_number_spec x y). Qed.
(** Between complex numbers it is right. *)
Theorem C162_complex_partial : forall x y, (ne_complex x y = true <-> x <> y) /\ (eq_complex x y = true <-> x = y).
Proof.
  intros [a b] [c d]. unfold ne_complex, eq_complex. cbn [re im]. destruct (Req_bool_spec a c) as [->|N]; cbn [andb negb].
  - destruct (Req_bool_spec b d) as [->|N]; cbn [negb]; split; split; congruence.
  - split; split; congruence.
Qed.

Print Assumptions C160_exact. Print Assumptions C160_self_refuted. Print Assumptions C160_self_partial.
Print Assumptions C161_own_real_refuted. Print Assumptions C161_scale_partial. Print Assumptions C161_own_real.
Print Assumptions C162_number_refuted. Print Assumptions C162_number_always. Print Assumptions C162_complex_partial.

Example case_self : finite (C 3 (-4)) /\ bpow radix2 (-500) <= Rmax (Rabs 3) (Rabs (-4)) <= bpow radix2 500.
Proof.
  split; [split; [exists 3%Z|exists (-4)%Z]; exists 0%Z; (split; [reflexivity|]; split; [lia|cbn; lra])|].
  assert (E : Rmax (Rabs 3) (Rabs (-4)) = 4) by (unfold Rabs; repeat destruct Rcase_abs; try lra; unfold Rmax; destruct Rle_dec; lra).
  rewrite E. change 4 with (bpow radix2 2). split; apply bpow_le; lia.
Qed.
Example case_scale : (exists z', scale_assign fmul (C 0 0) (Other 0) = Some z') /\ Other 0 <> Real.
Proof. split; [|discriminate]. unfold scale_assign, fmul. cbn [value re im]. rewrite !Rmult_0_l, !d64_zero. cbn [obind re im]. rewrite ?Rmult_0_l, ?d64_zero. eexists. reflexivity. Qed.
