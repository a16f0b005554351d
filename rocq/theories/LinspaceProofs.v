(** Lemmas for C157, C158. *)
From Coq Require Import Reals Lra.
From Flocq Require Import Core.
From Verif Require Import Base LinspaceModel LinspaceSpec.
Open Scope R_scope.

Global Instance f64_valid : Valid_exp f64. Proof. apply FLT_exp_valid. unfold Prec_gt_0. lia. Qed.
Global Instance f32_valid : Valid_exp f32. Proof. apply FLT_exp_valid. unfold Prec_gt_0. lia. Qed.
Notation fmt64 := (generic_format radix2 f64).
Notation fmt32 := (generic_format radix2 f32).
Notation rnd64 := (round radix2 f64 ZnearestE).
Notation rnd32 := (round radix2 f32 ZnearestE).

Lemma fmt64_intro : forall m e, (Z.abs m < 2 ^ 53)%Z -> (-1074 <= e)%Z -> fmt64 (IZR m * bpow radix2 e).
Proof. intros m e M E. apply generic_format_FLT. exists (Float radix2 m e); [reflexivity|exact M|exact E]. Qed.
Lemma fmt32_intro : forall m e, (Z.abs m < 2 ^ 24)%Z -> (-149 <= e)%Z -> fmt32 (IZR m * bpow radix2 e).
Proof. intros m e M E. apply generic_format_FLT. exists (Float radix2 m e); [reflexivity|exact M|exact E]. Qed.
Lemma fmt64_bpow : forall e, (-1074 <= e)%Z -> fmt64 (bpow radix2 e).
Proof. intros e E. replace (bpow radix2 e) with (IZR 1 * bpow radix2 e) by lra. apply fmt64_intro; [reflexivity|exact E]. Qed.
Lemma fmt64_int : forall k, (0 <= k <= 2 ^ 53)%Z -> fmt64 (IZR k).
Proof.
  intros k K. destruct (Z.eq_dec k (2 ^ 53)) as [->|N].
  - exact (fmt64_bpow 53 ltac:(lia)).
  - replace (IZR k) with (IZR k * bpow radix2 0) by (cbn [bpow]; lra). apply fmt64_intro; lia.
Qed.
Lemma d64_exact : forall x, fmt64 x -> Rabs x < bpow radix2 1024 -> d64 x = Some x.
Proof. intros x F B. unfold d64, rounded. rewrite round_generic by (auto with typeclass_instances). rewrite Rlt_bool_true by exact B. reflexivity. Qed.
Lemma rnd64_bound : forall x b, fmt64 b -> Rabs x <= b -> Rabs (rnd64 x) <= b.
Proof. intros x b F H. apply abs_round_le_generic; auto with typeclass_instances. Qed.
Lemma d64_bound : forall x, Rabs x <= bpow radix2 1023 -> d64 x = Some (rnd64 x).
Proof.
  intros x H. unfold d64, rounded. rewrite Rlt_bool_true; [reflexivity|].
  apply Rle_lt_trans with (bpow radix2 1023); [apply rnd64_bound; [apply fmt64_bpow; lia|exact H]|apply bpow_lt; lia].
Qed.

(** ** Exact products *)
Section Exact.
Variables a b : R.
Variable n : Z.
Hypothesis N1 : (1 <= n <= 2 ^ 53)%Z.
Hypothesis Fa : forall k, (0 <= k <= n)%Z -> fmt64 (IZR k * a).
Hypothesis Fb : forall k, (0 <= k <= n)%Z -> fmt64 (IZR k * b).
Hypothesis Ba : IZR n * Rabs a <= bpow radix2 1023.
Hypothesis Bb : IZR n * Rabs b <= bpow radix2 1023.

Definition mix (i : Z) : R := IZR (n - i) * a + IZR i * b.
Definition val (i : Z) : R := rnd64 (rnd64 (mix i) / IZR n).
Lemma n_pos : 1 <= IZR n. Proof. apply IZR_le. lia. Qed.
Lemma part_bound : forall k c, (0 <= k <= n)%Z -> IZR n * Rabs c <= bpow radix2 1023 -> Rabs (IZR k * c) <= bpow radix2 1023.
Proof.
  intros k c K B. rewrite Rabs_mult. apply Rle_trans with (2 := B). apply Rmult_le_compat_r; [apply Rabs_pos|].
  rewrite Rabs_pos_eq by (apply IZR_le; lia). apply IZR_le. lia.
Qed.
Lemma mix_bound : forall i, (0 <= i <= n)%Z -> Rabs (mix i) <= bpow radix2 1023.
Proof.
  intros i I. unfold mix. apply Rle_trans with (1 := Rabs_triang _ _). rewrite !Rabs_mult.
  rewrite (Rabs_pos_eq (IZR (n - i))) by (apply IZR_le; lia). rewrite (Rabs_pos_eq (IZR i)) by (apply IZR_le; lia).
  rewrite minus_IZR. assert (P : 0 <= IZR i) by (apply IZR_le; lia). assert (Q : 0 <= IZR n - IZR i) by (rewrite <- minus_IZR; apply IZR_le; lia).
  pose proof n_pos. pose proof (Rabs_pos a). pose proof (Rabs_pos b).
  assert (M : exists c, Rabs a <= c /\ Rabs b <= c /\ IZR n * c <= bpow radix2 1023).
  { destruct (Rle_dec (Rabs a) (Rabs b)); [exists (Rabs b)|exists (Rabs a)]; repeat split; try assumption; lra. }
  destruct M as (c & C1 & C2 & C3).
  pose proof (Rmult_le_compat_l (IZR n - IZR i) _ _ Q C1). pose proof (Rmult_le_compat_l (IZR i) _ _ P C2). lra.
Qed.
Lemma elem64_val : forall i, (0 <= i <= n)%Z -> elem64 a b (n + 1) i = Some (val i).
Proof.
  intros i I. assert (LT : bpow radix2 1023 < bpow radix2 1024) by (apply bpow_lt; lia).
  assert (IB : forall k, (0 <= k <= n)%Z -> Rabs (IZR k) < bpow radix2 1024).
  { intros k K. rewrite Rabs_pos_eq by (apply IZR_le; lia). apply Rle_lt_trans with (bpow radix2 53); [exact (IZR_le k (2 ^ 53) ltac:(lia))|apply bpow_lt; lia]. }
  unfold elem64. replace (n + 1 - i - 1)%Z with (n - i)%Z by lia. replace (n + 1 - 1)%Z with n by lia.
  rewrite (d64_exact (IZR (n - i))) by first [apply fmt64_int; lia | apply IB; lia]. cbn [obind].
  rewrite (d64_exact (IZR (n - i) * a)) by first [apply Fa; lia | apply Rle_lt_trans with (2 := LT); apply part_bound; [lia|exact Ba]]. cbn [obind].
  rewrite (d64_exact (IZR i)) by first [apply fmt64_int; lia | apply IB; lia]. cbn [obind].
  rewrite (d64_exact (IZR i * b)) by first [apply Fb; lia | apply Rle_lt_trans with (2 := LT); apply part_bound; [lia|exact Bb]]. cbn [obind].
  rewrite (d64_bound (IZR (n - i) * a + IZR i * b)) by (apply mix_bound; exact I). cbn [obind].
  rewrite (d64_exact (IZR n)) by first [apply fmt64_int; lia | apply IB; lia]. cbn [obind].
  fold (mix i). unfold val. apply d64_bound.
  unfold Rdiv. rewrite Rabs_mult. rewrite (Rabs_pos_eq (/ IZR n)) by (apply Rlt_le, Rinv_0_lt_compat; pose proof n_pos; lra).
  pose proof (rnd64_bound (mix i) _ (fmt64_bpow 1023 ltac:(lia)) (mix_bound i I)) as RB. pose proof n_pos.
  apply Rle_trans with (Rabs (rnd64 (mix i)) * 1); [|lra]. apply Rmult_le_compat_l; [apply Rabs_pos|]. rewrite <- Rinv_1. apply Rinv_le; lra.
Qed.
Lemma fmt_a : fmt64 a. Proof. replace a with (IZR 1 * a) by lra. apply Fa. lia. Qed.
Lemma fmt_b : fmt64 b. Proof. replace b with (IZR 1 * b) by lra. apply Fb. lia. Qed.
Lemma val_first : val 0 = a.
Proof.
  unfold val, mix. replace (n - 0)%Z with n by lia. replace (IZR n * a + 0 * b) with (IZR n * a) by lra.
  rewrite (round_generic radix2 f64 ZnearestE (IZR n * a)) by (apply Fa; lia). replace (IZR n * a / IZR n) with a by (field; pose proof n_pos; lra).
  apply round_generic; [auto with typeclass_instances|exact fmt_a].
Qed.
Lemma val_last : val n = b.
Proof.
  unfold val, mix. replace (n - n)%Z with 0%Z by lia. replace (0 * a + IZR n * b) with (IZR n * b) by lra.
  rewrite (round_generic radix2 f64 ZnearestE (IZR n * b)) by (apply Fb; lia). replace (IZR n * b / IZR n) with b by (field; pose proof n_pos; lra).
  apply round_generic; [auto with typeclass_instances|exact fmt_b].
Qed.
Lemma val_le : forall i j, mix i <= mix j -> val i <= val j.
Proof.
  intros i j H. unfold val. apply round_le; auto with typeclass_instances. unfold Rdiv. apply Rmult_le_compat_r; [apply Rlt_le, Rinv_0_lt_compat; pose proof n_pos; lra|].
  apply round_le; auto with typeclass_instances.
Qed.
Lemma mix_mono : forall i j, (i <= j)%Z -> (a <= b -> mix i <= mix j) /\ (b <= a -> mix j <= mix i).
Proof.
  intros i j H. apply IZR_le in H. unfold mix. rewrite !minus_IZR.
  split; intros L; [pose proof (Rmult_le_compat_l (IZR j - IZR i) a b ltac:(lra) L)|pose proof (Rmult_le_compat_l (IZR j - IZR i) b a ltac:(lra) L)]; lra.
Qed.
Lemma val_goes : goes a b n val.
Proof.
  split; [exact val_first|]. split; [exact val_last|]. intros i j I J. destruct (mix_mono i j ltac:(lia)) as (U & D). split; intros L; apply val_le; auto.
Qed.
End Exact.

(** ** float32 *)
Lemma float32_products : forall x k, is_float32 x -> (0 <= k <= 2 ^ 29)%Z -> fmt64 (IZR k * x).
Proof.
  intros x k (m & e & M & E & ->) K. rewrite <- Rmult_assoc, <- mult_IZR. apply fmt64_intro; [|lia]. rewrite Z.abs_mul. nia.
Qed.
Lemma float32_abs : forall x, is_float32 x -> Rabs x < bpow radix2 128.
Proof.
  intros x (m & e & M & E & ->). rewrite Rabs_mult, <- abs_IZR. rewrite (Rabs_pos_eq (bpow radix2 e)) by apply bpow_ge_0.
  apply Rlt_le_trans with (bpow radix2 24 * bpow radix2 e).
  - apply Rmult_lt_compat_r; [apply bpow_gt_0|]. exact (IZR_lt _ (2 ^ 24) M).
  - rewrite <- bpow_plus. apply bpow_le. lia.
Qed.
Lemma float32_bound : forall x n, is_float32 x -> (1 <= n <= 2 ^ 29)%Z -> IZR n * Rabs x <= bpow radix2 1023.
Proof.
  intros x n F N. pose proof (float32_abs x F) as B. apply Rle_trans with (bpow radix2 29 * bpow radix2 128).
  - apply Rmult_le_compat; [apply IZR_le; lia|apply Rabs_pos|exact (IZR_le n (2 ^ 29) ltac:(lia))|lra].
  - rewrite <- bpow_plus. apply bpow_le. lia.
Qed.
Lemma float32_fmt : forall x, is_float32 x -> fmt32 x.
Proof. intros x (m & e & M & E & ->). apply fmt32_intro; [exact M|lia]. Qed.
Lemma fmt32_float : forall x, fmt32 x -> Rabs x < bpow radix2 128 -> is_float32 x.
Proof.
  intros x F B. destruct (Req_dec x 0) as [->|NZ].
  - exists 0%Z, 0%Z. split; [reflexivity|]. split; [lia|]. lra.
  - exists (Ztrunc (scaled_mantissa radix2 f32 x)), (cexp radix2 f32 x).
    assert (MG : (mag radix2 x <= 128)%Z) by (apply mag_le_bpow; assumption).
    assert (CE : (-149 <= cexp radix2 f32 x <= 104)%Z) by (unfold cexp, f32, FLT_exp; lia).
    split; [|split; [exact CE|exact F]].
    assert (Q : Rabs (IZR (Ztrunc (scaled_mantissa radix2 f32 x))) < bpow radix2 24).
    { rewrite <- (scaled_mantissa_generic radix2 f32 x F). unfold scaled_mantissa. rewrite Rabs_mult, (Rabs_pos_eq (bpow radix2 (- cexp radix2 f32 x))) by apply bpow_ge_0.
      apply Rlt_le_trans with (bpow radix2 (mag radix2 x) * bpow radix2 (- cexp radix2 f32 x)).
      - apply Rmult_lt_compat_r; [apply bpow_gt_0|]. apply bpow_mag_gt.
      - rewrite <- bpow_plus. apply bpow_le. unfold cexp, f32, FLT_exp. lia. }
    rewrite <- abs_IZR in Q. apply lt_IZR. exact Q.
Qed.
Lemma elem32_val : forall a b n, is_float32 a -> is_float32 b -> (1 <= n <= 2 ^ 29)%Z ->
  (forall i, (0 <= i <= n)%Z -> elem32 a b (n + 1) i = Some (rnd32 (val a b n i)) /\ is_float32 (rnd32 (val a b n i))) /\
  goes a b n (fun i => rnd32 (val a b n i)).
Proof.
  intros a b n FA FB N. assert (N1 : (1 <= n <= 2 ^ 53)%Z) by lia.
  assert (Fa : forall k, (0 <= k <= n)%Z -> fmt64 (IZR k * a)) by (intros; apply float32_products; auto; lia).
  assert (Fb : forall k, (0 <= k <= n)%Z -> fmt64 (IZR k * b)) by (intros; apply float32_products; auto; lia).
  pose proof (float32_bound a n FA N) as Ba. pose proof (float32_bound b n FB N) as Bb.
  destruct (val_goes a b n N1 Fa Fb) as (V0 & VN & VM). split.
  - intros i I. assert (AB : Rabs (val a b n i) <= Rmax (Rabs a) (Rabs b)).
    { destruct (VM 0%Z i ltac:(lia) ltac:(lia)) as (L1 & G1). destruct (VM i n ltac:(lia) ltac:(lia)) as (L2 & G2). rewrite V0 in L1, G1. rewrite VN in L2, G2.
      pose proof (Rmax_l (Rabs a) (Rabs b)). pose proof (Rmax_r (Rabs a) (Rabs b)).
      destruct (Rle_dec a b) as [L|L].
      - specialize (L1 L). specialize (L2 L). unfold Rabs in *. repeat destruct Rcase_abs; lra.
      - assert (G : b <= a) by lra. specialize (G1 G). specialize (G2 G). unfold Rabs in *. repeat destruct Rcase_abs; lra. }
    assert (MF : fmt32 (Rmax (Rabs a) (Rabs b))).
    { unfold Rmax. destruct Rle_dec; apply generic_format_abs; apply float32_fmt; assumption. }
    assert (MB : Rmax (Rabs a) (Rabs b) < bpow radix2 128) by (unfold Rmax; destruct Rle_dec; apply float32_abs; assumption).
    assert (RB : Rabs (rnd32 (val a b n i)) < bpow radix2 128).
    { apply Rle_lt_trans with (2 := MB). apply abs_round_le_generic; auto with typeclass_instances. }
    split.
    + unfold elem32. rewrite elem64_val by assumption. cbn [obind]. unfold d32, rounded. rewrite Rlt_bool_true by exact RB. reflexivity.
    + apply fmt32_float; [|exact RB]. apply generic_format_round; auto with typeclass_instances.
  - split; [rewrite V0; apply round_generic; auto with typeclass_instances; apply float32_fmt; exact FA|].
    split; [rewrite VN; apply round_generic; auto with typeclass_instances; apply float32_fmt; exact FB|].
    intros i j I J. destruct (VM i j I J) as (L & G). split; intros H; apply round_le; auto with typeclass_instances.
Qed.

(** ** float64 *)
Lemma float64_fmt : forall x, is_float64 x -> fmt64 x.
Proof. intros x (m & e & M & E & ->). apply fmt64_intro; [exact M|lia]. Qed.
Lemma fmt64_float : forall x, fmt64 x -> Rabs x < bpow radix2 1024 -> is_float64 x.
Proof.
  intros x F B. destruct (Req_dec x 0) as [->|NZ].
  - exists 0%Z, 0%Z. split; [reflexivity|]. split; [lia|]. lra.
  - exists (Ztrunc (scaled_mantissa radix2 f64 x)), (cexp radix2 f64 x).
    assert (MG : (mag radix2 x <= 1024)%Z) by (apply mag_le_bpow; assumption).
    assert (CE : (-1074 <= cexp radix2 f64 x <= 971)%Z) by (unfold cexp, f64, FLT_exp; lia).
    split; [|split; [exact CE|exact F]].
    assert (Q : Rabs (IZR (Ztrunc (scaled_mantissa radix2 f64 x))) < bpow radix2 53).
    { rewrite <- (scaled_mantissa_generic radix2 f64 x F). unfold scaled_mantissa. rewrite Rabs_mult, (Rabs_pos_eq (bpow radix2 (- cexp radix2 f64 x))) by apply bpow_ge_0.
      apply Rlt_le_trans with (bpow radix2 (mag radix2 x) * bpow radix2 (- cexp radix2 f64 x)).
      - apply Rmult_lt_compat_r; [apply bpow_gt_0|]. apply bpow_mag_gt.
      - rewrite <- bpow_plus. apply bpow_le. unfold cexp, f64, FLT_exp. lia. }
    rewrite <- abs_IZR in Q. apply lt_IZR. exact Q.
Qed.
Lemma d64_some : forall x v, d64 x = Some v -> is_float64 v.
Proof.
  intros x v H. unfold d64, rounded in H. destruct (Rlt_bool_spec (Rabs (rnd64 x)) (bpow radix2 1024)) as [L|L]; [|discriminate]. injection H as <-.
  apply fmt64_float; [apply generic_format_round; auto with typeclass_instances|exact L].
Qed.
Lemma elem64_float : forall a b count i v, elem64 a b count i = Some v -> is_float64 v.
Proof.
  intros a b count i v H. unfold elem64, obind in H. repeat match type of H with match d64 ?x with _ => _ end = _ => destruct (d64 x); [|discriminate] end.
  exact (d64_some _ v H).
Qed.
(** Rounding a number between two powers of two. *)
Lemma rnd64_calc : forall x e q, (-1074 <= e)%Z -> bpow radix2 (e + 52) <= x < bpow radix2 (e + 53) ->
  Rabs (x * bpow radix2 (- e) - IZR q) < / 2 -> rnd64 x = IZR q * bpow radix2 e.
Proof.
  intros x e q E B H. assert (MG : mag radix2 x = (e + 53)%Z :> Z).
  { apply mag_unique. rewrite Rabs_pos_eq by (apply Rle_trans with (2 := proj1 B); apply bpow_ge_0). replace (e + 53 - 1)%Z with (e + 52)%Z by lia. exact B. }
  assert (CE : cexp radix2 f64 x = e) by (unfold cexp, f64, FLT_exp; rewrite MG; lia).
  unfold round, F2R, scaled_mantissa. cbn [Fnum Fexp]. rewrite CE. f_equal. f_equal. apply Znearest_imp. exact H.
Qed.
Lemma fill_nth : forall f start stop count k, (k < Z.to_nat count)%nat -> nth_error (fill f start stop count) k = Some (components f start stop count (Z.of_nat k)).
Proof.
  intros f start stop count k K. unfold fill. rewrite nth_error_map.
  rewrite (nth_error_nth' (seq 0 (Z.to_nat count)) 0%nat) by (rewrite seq_length; exact K). rewrite seq_nth by exact K. reflexivity.
Qed.
Lemma fill_length : forall f start stop count, List.length (fill f start stop count) = Z.to_nat count.
Proof. intros. unfold fill. rewrite map_length, seq_length. reflexivity. Qed.
