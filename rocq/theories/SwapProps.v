(* C126: byte swapping. *)
From Verif Require Import Base SwapModel SwapSpec SwapProofs.
Local Open Scope Z_scope.

(* The value with its bytes in the opposite order. *)
Theorem C126_value16 v : 0 <= v < 2 ^ 16 ->
  0 <= byteswap16 v < 2 ^ 16 /\ (forall i, 0 <= i < 2 -> byte i (byteswap16 v) = byte (1 - i) v) /\ byteswap16 (byteswap16 v) = v.
Proof.
  intros V; assert (B : forall w, 0 <= w < 2 ^ 16 -> forall i, 0 <= i < 2 -> byte i (byteswap16 w) = byte (1 - i) w)
    by (intros w W; apply (from_bits 2); [ lia | intros; apply swap16_bit; auto ]).
  split; [ apply swap16_range | split; [ apply B; auto | ] ].
  apply (byte_ext 2); [ lia | apply swap16_range | auto | ].
  intros i I; rewrite B, B by (try apply swap16_range; auto; lia); f_equal; lia.
Qed.
Theorem C126_value32 v : 0 <= v < 2 ^ 32 ->
  0 <= byteswap32 v < 2 ^ 32 /\ (forall i, 0 <= i < 4 -> byte i (byteswap32 v) = byte (3 - i) v) /\ byteswap32 (byteswap32 v) = v.
Proof.
  intros V; assert (B : forall w, 0 <= w < 2 ^ 32 -> forall i, 0 <= i < 4 -> byte i (byteswap32 w) = byte (3 - i) w)
    by (intros w W; apply (from_bits 4); [ lia | intros; apply swap32_bit; auto ]).
  split; [ apply swap32_range; auto | split; [ apply B; auto | ] ].
  apply (byte_ext 4); [ lia | apply swap32_range; apply swap32_range; auto | auto | ].
  intros i I; rewrite B, B by (try apply swap32_range; auto; lia); f_equal; lia.
Qed.
Theorem C126_value64 v : 0 <= v < 2 ^ 64 ->
  0 <= byteswap64 v < 2 ^ 64 /\ (forall i, 0 <= i < 8 -> byte i (byteswap64 v) = byte (7 - i) v) /\ byteswap64 (byteswap64 v) = v.
Proof.
  intros V; assert (B : forall w, 0 <= w < 2 ^ 64 -> forall i, 0 <= i < 8 -> byte i (byteswap64 w) = byte (7 - i) w)
    by (intros w W; apply (from_bits 8); [ lia | intros; apply swap64_bit; auto ]).
  split; [ apply swap64_range; auto | split; [ apply B; auto | ] ].
  apply (byte_ext 8); [ lia | apply swap64_range; apply swap64_range; auto | auto | ].
  intros i I; rewrite B, B by (try apply swap64_range; auto; lia); f_equal; lia.
Qed.
Print Assumptions C126_value16.
Print Assumptions C126_value32.
Print Assumptions C126_value64.

(* The same for an element of any size, in place or to another place; no other
   byte changes. *)
Theorem C126_element_partial n dst src m : 0 <= n -> src = dst \/ apart dst src n ->
  (forall k, 0 <= k < n -> byteswap_single n dst src m (dst + k) = m (src + (n - 1 - k))) /\
  (forall a, ~ dst <= a < dst + n -> byteswap_single n dst src m a = m a).
Proof.
  intros N H; split.
  - intros k K; rewrite single_reversed by auto; unfold reversed.
    rewrite (proj2 (Z.leb_le dst (dst + k))), (proj2 (Z.ltb_lt (dst + k) (dst + n))) by lia; cbn [andb]; f_equal; lia.
  - intros a A; rewrite single_reversed by auto; unfold reversed.
    destruct (Z.leb_spec dst a), (Z.ltb_spec a (dst + n)); cbn [andb]; auto; lia.
Qed.
Print Assumptions C126_element_partial.

(* Twice in place is nothing. *)
Theorem C126_twice n d m : 0 <= n -> forall a, byteswap_single n d d (byteswap_single n d d m) a = m a.
Proof.
  intros N a; destruct (C126_element_partial n d d (byteswap_single n d d m) N (or_introl eq_refl)) as (H1 & H2).
  destruct (C126_element_partial n d d m N (or_introl eq_refl)) as (G1 & G2).
  destruct (Z_le_dec d a); [ destruct (Z_lt_dec a (d + n)) | ]; try (rewrite H2, G2 by lia; reflexivity).
  replace a with (d + (a - d)) by lia; rewrite H1, G1 by lia; f_equal; lia.
Qed.
Print Assumptions C126_twice.

(* A strided loop does it for every element, when no element is written before
   another one is read from its place. *)
Theorem C126_strided_partial n : 0 <= n -> forall count dst ds src ss m,
  (forall i k, 0 <= i < Z.of_nat count -> 0 <= k < Z.of_nat count ->
     (src + i * ss = dst + i * ds \/ apart (dst + i * ds) (src + i * ss) n) /\
     (i <> k -> apart (dst + i * ds) (dst + k * ds) n /\ apart (dst + i * ds) (src + k * ss) n)) ->
  (forall i k, 0 <= i < Z.of_nat count -> 0 <= k < n ->
     strided (byteswap_single n) dst ds src ss count m (dst + i * ds + k) = m (src + i * ss + (n - 1 - k))) /\
  (forall a, (forall i, 0 <= i < Z.of_nat count -> ~ dst + i * ds <= a < dst + i * ds + n) ->
     strided (byteswap_single n) dst ds src ss count m a = m a).
Proof.
  intros N; induction count as [ | c IH ]; intros dst ds src ss m H; cbn [strided].
  { split; [ lia | auto ]. }
  destruct (H 0 0 ltac:(lia) ltac:(lia)) as (H0 & _); rewrite !Z.mul_0_l, !Z.add_0_r in H0.
  destruct (C126_element_partial n dst src m N H0) as (E1 & E2).
  destruct (IH (dst + ds) ds (src + ss) ss (byteswap_single n dst src m)) as (I1 & I2).
  { intros i k I K; destruct (H (i + 1) (k + 1) ltac:(lia) ltac:(lia)) as (A & B).
    replace (dst + ds + i * ds) with (dst + (i + 1) * ds) by ring; replace (dst + ds + k * ds) with (dst + (k + 1) * ds) by ring.
    replace (src + ss + i * ss) with (src + (i + 1) * ss) by ring; replace (src + ss + k * ss) with (src + (k + 1) * ss) by ring.
    split; [ auto | intros; apply B; lia ]. }
  split.
  - intros i k I K; destruct (Z.eq_dec i 0) as [ -> | NE ].
    + rewrite !Z.mul_0_l, !Z.add_0_r; rewrite I2; [ apply E1; auto | ].
      intros j J X; destruct (H 0 (j + 1) ltac:(lia) ltac:(lia)) as (_ & B); destruct (B ltac:(lia)) as (B1 & _).
      unfold apart in B1; rewrite Z.mul_0_l, Z.add_0_r in B1; replace (dst + ds + j * ds) with (dst + (j + 1) * ds) in X by ring; lia.
    + specialize (I1 (i - 1) k ltac:(lia) K).
      replace (dst + ds + (i - 1) * ds + k) with (dst + i * ds + k) in I1 by ring; rewrite I1.
      replace (src + ss + (i - 1) * ss + (n - 1 - k)) with (src + i * ss + (n - 1 - k)) by ring; apply E2.
      destruct (H 0 i ltac:(lia) ltac:(lia)) as (_ & B); destruct (B ltac:(lia)) as (_ & B2).
      unfold apart in B2; rewrite Z.mul_0_l, Z.add_0_r in B2; lia.
  - intros a A; rewrite I2; [ apply E2 | ].
    + specialize (A 0 ltac:(lia)); rewrite Z.mul_0_l, Z.add_0_r in A; auto.
    + intros i I; specialize (A (i + 1) ltac:(lia)); replace (dst + ds + i * ds) with (dst + (i + 1) * ds) by ring; auto.
Qed.
Print Assumptions C126_strided_partial.

(* In pairs, for elements of even size: each half on its own. *)
Theorem C126_pairwise_partial n dst src m : 0 <= n -> n mod 2 = 0 -> src = dst \/ apart dst src n ->
  let h := n / 2 in
  (forall k, 0 <= k < h -> pairwise_single n dst src m (dst + k) = m (src + (h - 1 - k))) /\
  (forall k, 0 <= k < h -> pairwise_single n dst src m (dst + h + k) = m (src + h + (h - 1 - k))) /\
  (forall a, ~ dst <= a < dst + n -> pairwise_single n dst src m a = m a).
Proof.
  intros N EV H h; assert (HH : n = 2 * h) by (unfold h; pose proof (Z.div_mod n 2 ltac:(lia)); lia).
  assert (R : forall a, pairwise_single n dst src m a = reversed h (dst + h) (src + h) (reversed h dst src m) a) by (apply pairwise_halves; auto).
  clearbody h; repeat split; intros; rewrite R; unfold reversed, apart in *;
  repeat match goal with |- context [?x <=? ?y] => destruct (Z.leb_spec x y) | |- context [?x <? ?y] => destruct (Z.ltb_spec x y) end;
  cbn [andb]; try lia; auto; f_equal; lia.
Qed.
Print Assumptions C126_pairwise_partial.

(* ---------------------------------------------------------------- examples *)
Definition numbered : mem := fun a => a.
Definition read (m : mem) (a n : Z) : list Z := map (fun i => m (a + Z.of_nat i)) (seq 0 (Z.to_nat n)).

Example C126_example :
  byteswap32 0x12345678 = 0x78563412 /\ byteswap64 0x0102030405060708 = 0x0807060504030201 /\ byteswap16 0xabcd = 0xcdab /\
  read (byteswap_single 5 100 0 numbered) 100 5 = [4; 3; 2; 1; 0] /\
  read (strided (byteswap_single 2) 0 4 0 4 2 numbered) 0 8 = [1; 0; 2; 3; 5; 4; 6; 7] /\
  read (pairwise_single 8 10 10 numbered) 10 8 = [13; 12; 11; 10; 17; 16; 15; 14].
Proof. repeat split; vm_compute; reflexivity. Qed.

(* A source that overlaps the destination without being the same place. *)
Theorem C126_overlap_refuted : exists n dst src m k, 0 <= k < n /\
  byteswap_single n dst src m (dst + k) <> m (src + (n - 1 - k)).
Proof. exists 4, 1, 0, numbered, 2; split; [ lia | vm_compute; discriminate ]. Qed.

(* nd::byteswap of an array reverses the array: the elements change places. *)
Theorem C126_elements_refuted : exists n el dst src m i k, 0 <= i < n /\ 0 <= k < el /\ apart dst src (n * el) /\
  byteswap_call n el dst src m (dst + i * el + k) <> m (src + i * el + (el - 1 - k)).
Proof. exists 2, 4, 100, 0, numbered, 0, 0; repeat split; try lia; [ unfold apart; lia | vm_compute; discriminate ]. Qed.
Theorem C126_elements_exact n el dst src m : 0 <= n -> 0 <= el -> src = dst \/ apart dst src (n * el) ->
  forall i k, 0 <= i < n -> 0 <= k < el ->
  byteswap_call n el dst src m (dst + i * el + k) = m (src + (n - 1 - i) * el + (el - 1 - k)).
Proof.
  intros N E H i k I K; unfold byteswap_call.
  destruct (C126_element_partial (n * el) dst src m ltac:(nia) H) as (X & _).
  replace (dst + i * el + k) with (dst + (i * el + k)) by ring; rewrite X by nia; f_equal; ring.
Qed.

(* A destination of a smaller type is written past its end. *)
Theorem C126_dst_size_refuted : exists n dst src dst_size m a, apart dst src n /\ 0 <= dst_size < n /\
  ~ dst <= a < dst + dst_size /\ byteswap_single n dst src m a <> m a.
Proof. exists 8, 100, 0, 4, numbered, 105; repeat split; try lia; [ unfold apart; lia | vm_compute; discriminate ]. Qed.

(* Elements of odd size: in place and to another place do different things, and
   the last byte is not written. *)
Theorem C126_pairwise_odd_refuted : exists n m, 0 <= n /\
  read (pairwise_single n 0 0 m) 0 n <> read (pairwise_single n 100 0 m) 100 n /\
  pairwise_single n 100 0 m (100 + (n - 1)) = m (100 + (n - 1)).
Proof. exists 5, numbered; repeat split; try lia; vm_compute; try discriminate; reflexivity. Qed.
Print Assumptions C126_overlap_refuted.
Print Assumptions C126_elements_refuted.
Print Assumptions C126_elements_exact.
Print Assumptions C126_dst_size_refuted.
Print Assumptions C126_pairwise_odd_refuted.
