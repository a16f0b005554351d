(** C163-C165: the arithmetic of complex numbers of doubles.  [None] is a result that is
    not finite. *)
From Coq Require Import Reals Lra.
From Flocq Require Import Core.
From Verif Require Import Base LinspaceModel LinspaceSpec LinspaceProofs ComplexModel ComplexProps.
Open Scope R_scope.

Lemma d64_again : forall x r, d64 x = Some r -> d64 r = Some r.
Proof.
  intros x r H. unfold d64, rounded in H. destruct (Rlt_bool_spec (Rabs (rnd64 x)) (bpow radix2 1024)) as [B|B]; [|discriminate].
  injection H as <-. apply d64_exact; [apply generic_format_round; auto with typeclass_instances|exact B].
Qed.
Lemma d64_float : forall x, is_float64 x -> d64 x = Some x.
Proof.
  intros x F. apply d64_exact; [apply float64_fmt; exact F|]. destruct F as (m & e & M & E & ->).
  rewrite Rabs_mult, <- abs_IZR. rewrite (Rabs_pos_eq (bpow radix2 e)) by apply bpow_ge_0.
  apply Rlt_le_trans with (bpow radix2 53 * bpow radix2 e).
  - apply Rmult_lt_compat_r; [apply bpow_gt_0|]. exact (IZR_lt _ (2 ^ 53) M).
  - rewrite <- bpow_plus. apply bpow_le. lia.
Qed.
Lemma d64_opp : forall x, d64 (- x) = obind (d64 x) (fun r => Some (- r)).
Proof.
  intros x. unfold d64, rounded. rewrite round_NE_opp, Rabs_Ropp. destruct (Rlt_bool _ _); reflexivity.
Qed.
Lemma fdiv_opp : forall x d, fdiv (- x) d = obind (fdiv x d) (fun r => Some (- r)).
Proof.
  intros x d. unfold fdiv. destruct (Req_bool d 0); [reflexivity|]. replace (- x / d) with (- (x / d)) by (unfold Rdiv; lra). apply d64_opp.
Qed.
Ltac fl := unfold fadd, fsub, fmul in *.
Ltac step x v := destruct x as [v|] eqn:?; cbn [obind re im]; [|try reflexivity].

(** ** C163: an operation with a real number on one side is the operation with the
    complex number that has imaginary part 0: z + s, s + z, z - s, s - z, z * s, s * z
    and s / z. *)
Theorem C163_mixed : forall z s, is_float64 s -> finite z ->
  add_number z s = add z (C s 0) /\ number_add s z = add (C s 0) z /\
  sub_number z s = sub z (C s 0) /\ number_sub s z = sub (C s 0) z /\
  mul_number z s = mul z (C s 0) /\ number_mul s z = mul (C s 0) z /\
  number_div s z = div (C s 0) z.
Proof.
  intros [a b] s S (A & B). cbn [re im] in *. pose proof (d64_float a A) as DA. pose proof (d64_float b B) as DB. pose proof d64_zero as Z0.
  unfold add_number, add, number_add, sub_number, sub, number_sub, mul_number, mul_assign, scale_assign, mul, number_mul, number_div, div. cbn [re im value].
  fl. rewrite !Rplus_0_r, !Rplus_0_l, !Rminus_0_r, !Rmult_0_r, !Rmult_0_l, !Z0. cbn [obind].
  replace (0 - b) with (- b) by lra. rewrite d64_opp, !DB. cbn [obind].
  split; [reflexivity|]. split; [reflexivity|]. split; [reflexivity|]. split; [reflexivity|]. split; [|split].
  - step (d64 (a * s)) p. rewrite Rminus_0_r, (d64_again _ _ Heqo). cbn [obind]. rewrite (Rmult_comm s b).
    step (d64 (b * s)) q. rewrite Rplus_0_l, (d64_again _ _ Heqo0). reflexivity.
  - step (d64 (s * a)) p. rewrite Rminus_0_r, (d64_again _ _ Heqo). cbn [obind].
    step (d64 (s * b)) q. rewrite Rplus_0_r, (d64_again _ _ Heqo0). reflexivity.
  - step (d64 (a * a)) p. step (d64 (b * b)) q. step (d64 (p + q)) d. step (d64 (s * a)) r.
    rewrite Rplus_0_r, (d64_again _ _ Heqo2). cbn [obind]. step (fdiv r d) u.
    replace (- s * b) with (- (s * b)) by lra. rewrite d64_opp. step (d64 (s * b)) v.
    replace (0 - v) with (- v) by lra. rewrite d64_opp, (d64_again _ _ Heqo4). cbn [obind]. reflexivity.
Qed.

(** ** C164: the laws that rounding leaves intact: + and * commute, 0 and 1 are
    neutral, z - z = 0, z * conj z is the real number |z|^2, and the conjugate is
    an involution that goes through +, -, * and /. *)
Definition conjugate_of (r : option complex) : option complex := obind r (fun z => Some (conj_ z)).
Theorem C164_laws : forall x y, finite x ->
  add x y = add y x /\ mul x y = mul y x /\
  add x (C 0 0) = Some x /\ mul x (C 1 0) = Some x /\ sub x x = Some (C 0 0) /\ add x (neg x) = Some (C 0 0) /\ sub x y = add x (neg y) /\
  mul x (conj_ x) = obind (square x) (fun d => Some (C d 0)) /\
  conj_ (conj_ x) = x /\
  add (conj_ x) (conj_ y) = conjugate_of (add x y) /\ sub (conj_ x) (conj_ y) = conjugate_of (sub x y) /\
  mul (conj_ x) (conj_ y) = conjugate_of (mul x y) /\ div (conj_ x) (conj_ y) = conjugate_of (div x y).
Proof.
  intros [a b] [c d] (A & B). cbn [re im] in *. pose proof (d64_float a A) as DA. pose proof (d64_float b B) as DB. pose proof d64_zero as Z0.
  unfold conjugate_of, neg, conj_, square, add, sub, mul, div. cbn [re im]. fl.
  split; [rewrite (Rplus_comm c a), (Rplus_comm d b); reflexivity|].
  split; [rewrite (Rmult_comm c a), (Rmult_comm d b), (Rmult_comm c b), (Rmult_comm a d)|].
  { step (d64 (a * c)) p. step (d64 (b * d)) q. step (d64 (p - q)) r. destruct (d64 (d * a)) as [u|], (d64 (b * c)) as [v|]; cbn [obind]; try reflexivity.
    rewrite (Rplus_comm u v). reflexivity. }
  split; [rewrite !Rplus_0_r, DA, DB; reflexivity|].
  split; [rewrite !Rmult_1_r, !Rmult_0_r, Rmult_1_l, Z0, DA, DB; cbn [obind]; rewrite Rminus_0_r, DA, Rplus_0_l, DB; reflexivity|].
  split; [replace (a - a) with 0 by lra; replace (b - b) with 0 by lra; rewrite Z0; reflexivity|].
  split; [replace (a + - a) with 0 by lra; replace (b + - b) with 0 by lra; rewrite Z0; reflexivity|].
  split; [reflexivity|].
  split.
  { step (d64 (a * a)) p. replace (b * - b) with (- (b * b)) by lra. rewrite d64_opp. step (d64 (b * b)) q.
    replace (p - - q) with (p + q) by lra. step (d64 (p + q)) r.
    assert (AB : exists u, d64 (a * b) = Some u).
    { destruct (Rle_dec (Rabs a) (Rabs b)).
      - apply (d64_mono (b * b) (a * b) q Heqo0). rewrite !Rabs_mult. apply Rmult_le_compat_r; [apply Rabs_pos|assumption].
      - apply (d64_mono (a * a) (a * b) p Heqo). rewrite !Rabs_mult. apply Rmult_le_compat_l; [apply Rabs_pos|lra]. }
    destruct AB as (u & U). replace (a * - b) with (- (a * b)) by lra. rewrite d64_opp, U. cbn [obind].
    replace (- u + u) with 0 by lra. rewrite Z0. reflexivity. }
  split; [rewrite Ropp_involutive; reflexivity|].
  replace (- b + - d) with (- (b + d)) by lra. replace (- b - - d) with (- (b - d)) by lra. replace (- b * - d) with (b * d) by lra.
  replace (- d * - d) with (d * d) by lra. replace (a * - d) with (- (a * d)) by lra. replace (c * - b) with (- (c * b)) by lra.
  rewrite !d64_opp.
  split; [step (d64 (a + c)) p; step (d64 (b + d)) q; reflexivity|].
  split; [step (d64 (a - c)) p; step (d64 (b - d)) q; reflexivity|].
  split.
  - step (d64 (a * c)) p. step (d64 (b * d)) q. step (d64 (p - q)) r. step (d64 (a * d)) u. step (d64 (c * b)) v.
    replace (- u + - v) with (- (u + v)) by lra. rewrite d64_opp. step (d64 (u + v)) w. reflexivity.
  - step (d64 (c * c)) cc. step (d64 (d * d)) dd. step (d64 (cc + dd)) n. step (d64 (a * c)) p. step (d64 (b * d)) q. step (d64 (p + q)) r.
    step (fdiv r n) rr. step (d64 (c * b)) u. step (d64 (a * d)) v.
    replace (- u - - v) with (- (u - v)) by lra. rewrite d64_opp. step (d64 (u - v)) w. rewrite fdiv_opp. step (fdiv w n) ww. reflexivity.
Qed.

(** ** C165: with integer components of at most 2^26 the sum, difference and product
    are exact: they are those of the Gaussian integers. *)
Definition gauss (a b : Z) : complex := C (IZR a) (IZR b).
Lemma d64_int : forall k, (Z.abs k <= 2 ^ 53)%Z -> d64 (IZR k) = Some (IZR k).
Proof.
  assert (P : forall k, (0 <= k <= 2 ^ 53)%Z -> d64 (IZR k) = Some (IZR k)).
  { intros k K. apply d64_exact; [apply fmt64_int; exact K|]. rewrite Rabs_pos_eq by (apply IZR_le; lia).
    apply Rle_lt_trans with (bpow radix2 53); [exact (IZR_le k (2 ^ 53) ltac:(lia))|apply bpow_lt; lia]. }
  intros k K. destruct (Z_le_gt_dec 0 k); [apply P; lia|]. replace (IZR k) with (- IZR (- k)) by (rewrite opp_IZR; lra).
  rewrite d64_opp, P by lia. reflexivity.
Qed.
Lemma small52 : forall k, (Z.abs k <= 9007199254740992)%Z -> d64 (IZR k) = Some (IZR k).
Proof. intros k K. apply d64_int. exact K. Qed.
Lemma small26 : forall k, (Z.abs k <= 2 * 67108864)%Z -> d64 (IZR k) = Some (IZR k).
Proof. intros k K. apply small52. lia. Qed.
Lemma prod26 : forall x y, (Z.abs x <= 67108864)%Z -> (Z.abs y <= 67108864)%Z -> (Z.abs (x * y) <= 4503599627370496)%Z.
Proof. intros x y X Y. rewrite Z.abs_mul. change 4503599627370496%Z with (67108864 * 67108864)%Z. apply Z.mul_le_mono_nonneg; lia. Qed.
Theorem C165_gauss : forall a b c d, (Z.abs a <= 2 ^ 26)%Z -> (Z.abs b <= 2 ^ 26)%Z -> (Z.abs c <= 2 ^ 26)%Z -> (Z.abs d <= 2 ^ 26)%Z ->
  add (gauss a b) (gauss c d) = Some (gauss (a + c) (b + d)) /\
  sub (gauss a b) (gauss c d) = Some (gauss (a - c) (b - d)) /\
  mul (gauss a b) (gauss c d) = Some (gauss (a * c - b * d) (a * d + b * c)).
Proof.
  change (2 ^ 26)%Z with 67108864%Z. intros a b c d A B C D. unfold gauss, add, sub, mul. cbn [re im]. fl.
  rewrite <- !plus_IZR, <- !minus_IZR, <- !mult_IZR.
  pose proof (prod26 a c A C) as P. pose proof (prod26 b d B D) as Q. pose proof (prod26 a d A D) as S. pose proof (prod26 c b C B) as T.
  rewrite (small26 (a + c)), (small26 (b + d)), (small26 (a - c)), (small26 (b - d)) by (clear P Q S T; lia). cbn [obind].
  split; [reflexivity|]. split; [reflexivity|]. rewrite (Z.mul_comm b c).
  revert P Q S T. clear A B C D. generalize (a * c)%Z (b * d)%Z (a * d)%Z (c * b)%Z. intros p q u v P Q S T.
  rewrite (small52 p), (small52 q), (small52 u), (small52 v) by lia. cbn [obind]. rewrite <- minus_IZR, <- plus_IZR.
  rewrite (small52 (p - q)), (small52 (u + v)) by lia. reflexivity.
Qed.

Print Assumptions C163_mixed. Print Assumptions C164_laws. Print Assumptions C165_gauss.

Example case_laws : is_float64 2 /\ finite (C 3 (-4)) /\ mul (gauss 1 2) (gauss 3 (-4)) = Some (gauss 11 2).
Proof.
  split; [exists 2%Z, 0%Z; split; [reflexivity|split; [lia|cbn; lra]]|]. split; [exact (proj1 case_self)|].
  apply (C165_gauss 1 2 3 (-4)); cbv; discriminate.
Qed.
