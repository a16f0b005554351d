(** C157, C158: linspace. *)
From Coq Require Import Reals Lra.
From Flocq Require Import Core.
From Verif Require Import Base LinspaceModel LinspaceSpec LinspaceProofs.
Open Scope R_scope.

(** The result has [count] elements, all finite numbers, which go from [a] to [b]. *)
Definition evenly (is_float : R -> Prop) (res : outcome (list (list (option R)))) (a b : R) (count : Z) : Prop :=
  exists l v, res = Ok l /\ List.length l = Z.to_nat count /\
    (forall i, (0 <= i < count)%Z -> nth_error l (Z.to_nat i) = Some [Some (v i)] /\ is_float (v i)) /\ goes a b (count - 1) v.
Lemma evenly_intro : forall (is_float : R -> Prop) f a b count v, (2 <= count)%Z ->
  (forall i, (0 <= i <= count - 1)%Z -> f a b count i = Some (v i) /\ is_float (v i)) -> goes a b (count - 1) v ->
  evenly is_float (Ok (fill f [a] [b] count)) a b count.
Proof.
  intros is_float f a b count v C H G. exists (fill f [a] [b] count), v. split; [reflexivity|]. split; [apply fill_length|]. split; [|exact G].
  intros i I. destruct (H i ltac:(lia)) as (E & F). split; [|exact F]. rewrite fill_nth by lia. unfold components. cbn [combine map fst snd].
  rewrite Z2Nat.id by lia. rewrite E. reflexivity.
Qed.

(** ** C157: linspace of float32 starts at start, ends at stop, does not go back, and
    nothing in it overflows. *)
Theorem C157_float32 : forall a b count, is_float32 a -> is_float32 b -> (2 <= count <= 2 ^ 29 + 1)%Z ->
  evenly is_float32 (linspace Float32 [a] [b] count) a b count.
Proof.
  intros a b count FA FB C. unfold linspace. destruct (Z.ltb_spec count 2); [lia|].
  destruct (elem32_val a b (count - 1) FA FB ltac:(lia)) as (V & G). refine (evenly_intro is_float32 elem32 a b count _ ltac:(lia) _ G).
  intros i I. replace count with (count - 1 + 1)%Z at 1 by lia. exact (V i I).
Qed.
(** A complex linspace is that of its components. *)
Theorem C157_complex : forall a1 a2 b1 b2 count, is_float32 a1 -> is_float32 a2 -> is_float32 b1 -> is_float32 b2 -> (2 <= count <= 2 ^ 29 + 1)%Z ->
  exists l v1 v2, linspace Complex32 [a1; a2] [b1; b2] count = Ok l /\ List.length l = Z.to_nat count /\
    (forall i, (0 <= i < count)%Z -> nth_error l (Z.to_nat i) = Some [Some (v1 i); Some (v2 i)] /\ is_float32 (v1 i) /\ is_float32 (v2 i)) /\
    goes a1 b1 (count - 1) v1 /\ goes a2 b2 (count - 1) v2.
Proof.
  intros a1 a2 b1 b2 count A1 A2 B1 B2 C. unfold linspace. destruct (Z.ltb_spec count 2); [lia|].
  destruct (elem32_val a1 b1 (count - 1) A1 B1 ltac:(lia)) as (V1 & G1). destruct (elem32_val a2 b2 (count - 1) A2 B2 ltac:(lia)) as (V2 & G2).
  eexists. eexists. eexists. split; [reflexivity|]. split; [apply fill_length|]. split; [|split; [exact G1|exact G2]].
  intros i I. destruct (V1 i ltac:(lia)) as (E1 & F1). destruct (V2 i ltac:(lia)) as (E2 & F2). replace (count - 1 + 1)%Z with count in E1, E2 by lia.
  split; [|split; assumption]. rewrite fill_nth by lia. unfold components. cbn [combine map fst snd]. rewrite Z2Nat.id by lia. rewrite E1, E2. reflexivity.
Qed.
(** Fewer than two elements, or a type that is not floating point, are refused. *)
Theorem C157_refused : forall dt start stop count, (count < 2)%Z \/ dt = OtherType <-> exists e, linspace dt start stop count = Throw e.
Proof.
  intros dt start stop count. unfold linspace. destruct (Z.ltb_spec count 2).
  - split; [intros _; eexists; reflexivity|auto].
  - destruct dt; (split; [intros [H'|H']; try lia; try discriminate; eexists; reflexivity|intros (e & E); try discriminate; right; reflexivity]).
Qed.

(** ** C158: the same for float64. *)
Definition C158 : Prop := forall a b count, is_float64 a -> is_float64 b -> (2 <= count)%Z ->
  evenly is_float64 (linspace Float64 [a] [b] count) a b count.
Lemma first_elem : forall a b count, (2 <= count)%Z -> evenly is_float64 (linspace Float64 [a] [b] count) a b count -> elem64 a b count 0 = Some a.
Proof.
  intros a b count C (l & v & E & _ & V & (V0 & _)). unfold linspace in E. destruct (Z.ltb_spec count 2); [lia|]. injection E as <-.
  destruct (V 0%Z ltac:(lia)) as (N & _). rewrite fill_nth in N by lia. unfold components in N. cbn [combine map fst snd] in N. rewrite V0 in N.
  change (Z.of_nat (Z.to_nat 0)) with 0%Z in N. congruence.
Qed.
Lemma float64_zero : is_float64 0.
Proof. exists 0%Z, 0%Z. split; [reflexivity|]. split; [lia|]. lra. Qed.
(** Refuted: the first element can be infinite, when start is large. *)
Theorem C158_overflow_refuted : ~ C158.
Proof.
  intros H. set (m := (2 ^ 53 - 1)%Z). set (a := IZR m * bpow radix2 971).
  assert (FA : is_float64 a) by (exists m, 971%Z; split; [reflexivity|]; split; [lia|reflexivity]).
  pose proof (first_elem a 0 3 ltac:(lia) (H a 0 3%Z FA float64_zero ltac:(lia))) as E. unfold elem64 in E.
  change (3 - 0 - 1)%Z with 2%Z in E. rewrite (d64_exact 2) in E; [|exact (fmt64_int 2 ltac:(lia))|].
  2: { rewrite Rabs_pos_eq by lra. change 2 with (bpow radix2 1). apply bpow_lt. lia. }
  cbn [obind] in E. assert (D : 2 * a = IZR m * bpow radix2 972).
  { unfold a. change 972%Z with (1 + 971)%Z. rewrite bpow_plus. change (bpow radix2 1) with 2. ring. }
  assert (N : d64 (2 * a) = None).
  { unfold d64, rounded. rewrite D. rewrite round_generic; [|auto with typeclass_instances|apply fmt64_intro; [reflexivity|lia]].
    rewrite Rlt_bool_false; [reflexivity|]. rewrite Rabs_pos_eq.
    - change 1024%Z with (52 + 972)%Z. rewrite bpow_plus. apply Rmult_le_compat_r; [apply bpow_ge_0|]. exact (IZR_le (2 ^ 52) m ltac:(discriminate)).
    - apply Rmult_le_pos; [exact (IZR_le 0 m ltac:(discriminate))|apply bpow_ge_0]. }
  rewrite N in E. discriminate.
Qed.
(** Also without overflow: with six elements the first is not start but the next
    number. *)
Theorem C158_first_refuted : exists a, is_float64 a /\ exists v, elem64 a 0 6 0 = Some v /\ a < v.
Proof.
  set (m := 8444249301319681%Z). set (a := IZR m * bpow radix2 (-53)).
  exists a. split; [exists m, (-53)%Z; split; [reflexivity|]; split; [lia|reflexivity]|].
  set (q := 5277655813324801%Z). set (m' := 8444249301319682%Z).
  assert (P : forall e, bpow radix2 e * bpow radix2 (- e) = 1) by (intros e; rewrite <- bpow_plus; replace (e + - e)%Z with 0%Z by lia; reflexivity).
  assert (LT : forall k e, (0 <= k < 2 ^ 53)%Z -> (e <= 0)%Z -> Rabs (IZR k * bpow radix2 e) < bpow radix2 1024).
  { intros k e K E. rewrite Rabs_pos_eq by (apply Rmult_le_pos; [apply IZR_le; lia|apply bpow_ge_0]).
    apply Rlt_le_trans with (bpow radix2 53 * bpow radix2 e); [apply Rmult_lt_compat_r; [apply bpow_gt_0|exact (IZR_lt k (2 ^ 53) ltac:(lia))]|].
    rewrite <- bpow_plus. apply bpow_le. lia. }
  assert (I5 : d64 5 = Some 5).
  { apply d64_exact; [exact (fmt64_int 5 ltac:(lia))|]. pose proof (LT 5%Z 0%Z ltac:(lia) ltac:(lia)) as Q. cbn [bpow] in Q. rewrite Rmult_1_r in Q. exact Q. }
  assert (I0 : d64 0 = Some 0).
  { apply d64_exact; [exact (fmt64_int 0 ltac:(lia))|]. rewrite Rabs_R0. apply bpow_gt_0. }
  assert (R1 : rnd64 (5 * a) = IZR q * bpow radix2 (-50)).
  { assert (E : 5 * a = IZR (5 * m) * bpow radix2 (-53)) by (unfold a; rewrite mult_IZR; ring).
    apply rnd64_calc; [lia| |].
    - rewrite E. change (-50 + 52)%Z with (55 + -53)%Z. change (-50 + 53)%Z with (56 + -53)%Z. rewrite !bpow_plus. split.
      + apply Rmult_le_compat_r; [apply bpow_ge_0|]. exact (IZR_le (2 ^ 55) (5 * m) ltac:(discriminate)).
      + apply Rmult_lt_compat_r; [apply bpow_gt_0|]. exact (IZR_lt (5 * m) (2 ^ 56) ltac:(reflexivity)).
    - rewrite E. rewrite Rmult_assoc, <- bpow_plus. change (-53 + - -50)%Z with (-3)%Z. replace (bpow radix2 (-3)) with (/ 8) by (cbn; lra).
      replace (IZR (5 * m) * / 8 - IZR q) with (- (3 / 8)).
      + rewrite Rabs_Ropp, Rabs_pos_eq by lra. lra.
      + assert (S : (5 * m = 8 * q - 3)%Z) by reflexivity. rewrite S, minus_IZR, mult_IZR. field. }
  assert (R2 : rnd64 (IZR q * bpow radix2 (-50) / 5) = IZR m' * bpow radix2 (-53)).
  { assert (E : IZR q * bpow radix2 (-50) / 5 = (IZR (8 * q) / 5) * bpow radix2 (-53)).
    { change (-50)%Z with (3 + -53)%Z. rewrite bpow_plus. replace (bpow radix2 3) with 8 by (cbn; lra). rewrite mult_IZR. field. }
    apply rnd64_calc; [lia| |].
    - rewrite E. change (-53 + 52)%Z with (52 + -53)%Z. change (-53 + 53)%Z with (53 + -53)%Z. rewrite !bpow_plus.
      assert (L1 : bpow radix2 52 * 5 <= IZR (8 * q)) by (change (bpow radix2 52) with (IZR (2 ^ 52)); rewrite <- mult_IZR; apply IZR_le; discriminate).
      assert (L2 : IZR (8 * q) < bpow radix2 53 * 5) by (change (bpow radix2 53) with (IZR (2 ^ 53)); rewrite <- mult_IZR; apply IZR_lt; reflexivity).
      split; [apply Rmult_le_compat_r; [apply bpow_ge_0|lra]|apply Rmult_lt_compat_r; [apply bpow_gt_0|lra]].
    - rewrite E. rewrite Rmult_assoc. rewrite P, Rmult_1_r. replace (IZR (8 * q) / 5 - IZR m') with (- (2 / 5)).
      + rewrite Rabs_Ropp, Rabs_pos_eq by lra. lra.
      + assert (S : (8 * q = 5 * m' - 2)%Z) by reflexivity. rewrite S, minus_IZR, mult_IZR. field. }
  exists (IZR m' * bpow radix2 (-53)). split.
  - unfold elem64. change (6 - 0 - 1)%Z with 5%Z. change (6 - 1)%Z with 5%Z. rewrite I5. cbn [obind].
    assert (D1 : d64 (5 * a) = Some (IZR q * bpow radix2 (-50))).
    { unfold d64, rounded. rewrite R1. rewrite Rlt_bool_true by (apply LT; [split; [discriminate|reflexivity]|lia]). reflexivity. }
    rewrite D1. cbn [obind]. rewrite I0. cbn [obind]. rewrite Rmult_0_l, I0. cbn [obind]. rewrite Rplus_0_r.
    rewrite d64_exact; [|apply fmt64_intro; [reflexivity|lia]|apply LT; [split; [discriminate|reflexivity]|lia]]. cbn [obind].
    unfold d64, rounded. rewrite R2. rewrite Rlt_bool_true by (apply LT; [split; [discriminate|reflexivity]|lia]). reflexivity.
  - unfold a. apply Rmult_lt_compat_r; [apply bpow_gt_0|]. exact (IZR_lt m m' ltac:(reflexivity)).
Qed.
(** It holds when the multiples of start and stop are float64 numbers, as they are
    for integers that are not too large. *)
Theorem C158_exact_partial : forall a b count, (2 <= count <= 2 ^ 53 + 1)%Z ->
  (forall k, (0 <= k <= count - 1)%Z -> is_float64 (IZR k * a) /\ is_float64 (IZR k * b)) ->
  IZR (count - 1) * Rabs a <= bpow radix2 1023 -> IZR (count - 1) * Rabs b <= bpow radix2 1023 ->
  evenly is_float64 (linspace Float64 [a] [b] count) a b count.
Proof.
  intros a b count C F Ba Bb. unfold linspace. destruct (Z.ltb_spec count 2); [lia|]. assert (N1 : (1 <= count - 1 <= 2 ^ 53)%Z) by lia.
  assert (Fa : forall k, (0 <= k <= count - 1)%Z -> fmt64 (IZR k * a)) by (intros k K; apply float64_fmt; apply (F k K)).
  assert (Fb : forall k, (0 <= k <= count - 1)%Z -> fmt64 (IZR k * b)) by (intros k K; apply float64_fmt; apply (F k K)).
  refine (evenly_intro _ elem64 a b count (val a b (count - 1)) ltac:(lia) _ (val_goes a b (count - 1) N1 Fa Fb)).
  intros i I. pose proof (elem64_val a b (count - 1) N1 Fa Fb Ba Bb i I) as E. replace (count - 1 + 1)%Z with count in E by lia.
  split; [exact E|exact (elem64_float _ _ _ _ _ E)].
Qed.

Print Assumptions C157_float32. Print Assumptions C157_complex. Print Assumptions C157_refused.
Print Assumptions C158_overflow_refuted. Print Assumptions C158_first_refuted. Print Assumptions C158_exact_partial.

(** ** Cases *)
Example case_float32 : is_float32 (- (3 / 4)) /\ is_float32 10 /\ (2 <= 7 <= 2 ^ 29 + 1)%Z.
Proof.
  split; [exists (-3)%Z, (-2)%Z; split; [reflexivity|]; split; [lia|cbn; lra]|]. split; [exists 10%Z, 0%Z; split; [reflexivity|]; split; [lia|cbn; lra]|lia].
Qed.
Example case_float64 : (forall k, (0 <= k <= 11 - 1)%Z -> is_float64 (IZR k * 1) /\ is_float64 (IZR k * -7)) /\
  IZR (11 - 1) * Rabs 1 <= bpow radix2 1023 /\ IZR (11 - 1) * Rabs (-7) <= bpow radix2 1023.
Proof.
  assert (B : 70 <= bpow radix2 1023).
  { apply Rle_trans with (bpow radix2 7); [cbn; lra|]. apply bpow_le. lia. }
  split; [|change (11 - 1)%Z with 10%Z; split; unfold Rabs; destruct Rcase_abs; lra].
  intros k K. split; [exists k, 0%Z|exists (k * -7)%Z, 0%Z]; (split; [lia|]; split; [lia|]); [|rewrite mult_IZR]; cbn [bpow]; ring.
Qed.
