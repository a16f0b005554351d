From Verif Require Import Base SwapModel SwapSpec.
Local Open Scope Z_scope.

(* ---- values *)
Lemma byte_bits i v : 0 <= i -> byte i v = Z.land (Z.shiftr v (8 * i)) 255.
Proof.
  intros H; unfold byte; change 255 with (Z.ones 8); rewrite Z.land_ones by lia; rewrite Z.shiftr_div_pow2 by lia.
  rewrite Z.pow_mul_r by lia; reflexivity.
Qed.
Lemma byte_testbit i v k : 0 <= i -> 0 <= k -> Z.testbit (byte i v) k = (k <? 8) && Z.testbit v (8 * i + k).
Proof.
  intros I K; rewrite byte_bits by auto; change 255 with (Z.ones 8); rewrite Z.land_spec, Z.shiftr_spec by auto.
  rewrite Z.testbit_ones by lia; rewrite (proj2 (Z.leb_le 0 k)) by auto; cbn [andb]; rewrite andb_comm, (Z.add_comm k); reflexivity.
Qed.
Lemma high_bits v n k : 0 <= n -> 0 <= v < 2 ^ n -> n <= k -> Z.testbit v k = false.
Proof.
  intros N V K; destruct (Z.eq_dec v 0) as [ -> | NE ]; [ apply Z.testbit_0_l | ].
  apply Z.bits_above_log2; [ lia | ]; assert (Z.log2 v < n) by (apply Z.log2_lt_pow2; lia); lia.
Qed.
Lemma byte_ext n v w : 0 <= n -> 0 <= v < 2 ^ (8 * n) -> 0 <= w < 2 ^ (8 * n) ->
  (forall i, 0 <= i < n -> byte i v = byte i w) -> v = w.
Proof.
  intros N V W H; apply Z.bits_inj'; intros k K.
  destruct (Z.lt_ge_cases k (8 * n)) as [ L | L ].
  - specialize (H (k / 8) ltac:(split; [ apply Z.div_pos; lia | apply Z.div_lt_upper_bound; lia ])).
    assert (Q : Z.testbit (byte (k / 8) v) (k mod 8) = Z.testbit (byte (k / 8) w) (k mod 8)) by congruence.
    pose proof (Z.mod_pos_bound k 8 ltac:(lia)); pose proof (Z.div_pos k 8 ltac:(lia) ltac:(lia)).
    rewrite !byte_testbit in Q by lia; rewrite <- (Z.div_mod k 8) in Q by lia.
    destruct (Z.ltb_spec (k mod 8) 8); [ exact Q | lia ].
  - rewrite (high_bits v (8 * n)), (high_bits w (8 * n)) by lia; reflexivity.
Qed.

(* a bit of a masked and shifted value *)
Lemma up_bit v c s k : 0 <= s -> 0 <= k -> Z.testbit (Z.shiftl (Z.land v c) s) k = Z.testbit v (k - s) && Z.testbit c (k - s).
Proof. intros S0 K; rewrite Z.shiftl_spec by auto; apply Z.land_spec. Qed.
Lemma down_bit v c s k : 0 <= s -> 0 <= k -> Z.testbit (Z.shiftr (Z.land v c) s) k = Z.testbit v (k + s) && Z.testbit c (k + s).
Proof. intros S0 K; rewrite Z.shiftr_spec by auto; apply Z.land_spec. Qed.

(* the masks *)
Lemma mask_bit i k : 0 <= i -> Z.testbit (Z.shiftl 255 (8 * i)) k = (8 * i <=? k) && (k <? 8 * i + 8).
Proof.
  intros I; destruct (Z.lt_ge_cases k 0) as [ K | K ].
  { rewrite Z.testbit_neg_r by auto; destruct (Z.leb_spec (8 * i) k); [ lia | reflexivity ]. }
  rewrite Z.shiftl_spec by auto; destruct (Z.leb_spec (8 * i) k) as [ H | H ].
  - change 255 with (Z.ones 8); rewrite Z.testbit_ones by lia; rewrite (proj2 (Z.leb_le 0 (k - 8 * i))) by lia.
    cbn [andb]; destruct (Z.ltb_spec (k - 8 * i) 8), (Z.ltb_spec k (8 * i + 8)); auto; lia.
  - apply Z.testbit_neg_r; lia.
Qed.

Ltac masks := repeat match goal with
  | |- context [Z.testbit (Zpos ?p) ?k] =>
      first [ change (Zpos p) with (Z.shiftl 255 (8 * 0)) | change (Zpos p) with (Z.shiftl 255 (8 * 1))
            | change (Zpos p) with (Z.shiftl 255 (8 * 2)) | change (Zpos p) with (Z.shiftl 255 (8 * 3))
            | change (Zpos p) with (Z.shiftl 255 (8 * 4)) | change (Zpos p) with (Z.shiftl 255 (8 * 5))
            | change (Zpos p) with (Z.shiftl 255 (8 * 6)) ]; rewrite mask_bit by lia end.
Ltac decide_bits := repeat match goal with
  | |- context [?a <=? ?b] => first [ rewrite (proj2 (Z.leb_le a b)) by lia | rewrite (proj2 (Z.leb_gt a b)) by lia ]
  | |- context [?a <? ?b] => first [ rewrite (proj2 (Z.ltb_lt a b)) by lia | rewrite (proj2 (Z.ltb_ge a b)) by lia ]
  end.
Ltac byte_case :=
  rewrite ?Z.lor_spec, ?up_bit, ?down_bit, ?Z.shiftr_spec by lia; masks; decide_bits;
  rewrite ?andb_false_r, ?andb_true_r, ?orb_false_r, ?orb_false_l; cbn [andb orb].

Lemma swap32_bit v k i : 0 <= v < 2 ^ 32 -> 0 <= k < 8 -> 0 <= i < 4 ->
  Z.testbit (byteswap32 v) (8 * i + k) = Z.testbit v (8 * (3 - i) + k).
Proof.
  intros V K I; unfold byteswap32.
  assert (C : i = 0 \/ i = 1 \/ i = 2 \/ i = 3) by lia; destruct C as [ -> | [ -> | [ -> | -> ] ] ]; byte_case;
    repeat match goal with |- context [Z.testbit v ?q] => first [ rewrite (high_bits v 32 q) by lia | fail 1 ] end;
    rewrite ?orb_false_r; try (f_equal; lia).
Qed.
Lemma swap64_bit v k i : 0 <= v < 2 ^ 64 -> 0 <= k < 8 -> 0 <= i < 8 ->
  Z.testbit (byteswap64 v) (8 * i + k) = Z.testbit v (8 * (7 - i) + k).
Proof.
  intros V K I; unfold byteswap64.
  assert (C : i = 0 \/ i = 1 \/ i = 2 \/ i = 3 \/ i = 4 \/ i = 5 \/ i = 6 \/ i = 7) by lia.
  destruct C as [ -> | [ -> | [ -> | [ -> | [ -> | [ -> | [ -> | -> ] ] ] ] ] ] ]; byte_case;
    repeat match goal with |- context [Z.testbit v ?q] => first [ rewrite (high_bits v 64 q) by lia | fail 1 ] end;
    rewrite ?orb_false_r; try (f_equal; lia).
Qed.
Lemma swap16_bit v k i : 0 <= v < 2 ^ 16 -> 0 <= k < 8 -> 0 <= i < 2 ->
  Z.testbit (byteswap16 v) (8 * i + k) = Z.testbit v (8 * (1 - i) + k).
Proof.
  intros V K I; unfold byteswap16; rewrite <- Z.land_ones, Z.land_spec, Z.testbit_ones by lia.
  assert (C : i = 0 \/ i = 1) by lia; destruct C as [ -> | -> ]; byte_case;
    repeat match goal with |- context [Z.testbit v ?q] => first [ rewrite (high_bits v 16 q) by lia | fail 1 ] end;
    rewrite ?orb_false_r; try (f_equal; lia).
Qed.

Lemma from_bits n f v : 0 <= n -> 
  (forall k i, 0 <= k < 8 -> 0 <= i < n -> Z.testbit f (8 * i + k) = Z.testbit v (8 * (n - 1 - i) + k)) ->
  forall i, 0 <= i < n -> byte i f = byte (n - 1 - i) v.
Proof.
  intros N H i I; apply Z.bits_inj'; intros k K; rewrite !byte_testbit by lia.
  destruct (Z.ltb_spec k 8); cbn [andb]; auto; apply H; lia.
Qed.

Lemma small_bits n x : 0 <= n -> (forall k, n <= k -> Z.testbit x k = false) -> 0 <= x < 2 ^ n.
Proof.
  intros N H; assert (E : x = Z.land x (Z.ones n)).
  { apply Z.bits_inj'; intros k K; rewrite Z.land_spec, Z.testbit_ones by lia.
    rewrite (proj2 (Z.leb_le 0 k)) by auto; cbn [andb]; destruct (Z.ltb_spec k n); [ symmetry; apply andb_true_r | rewrite H by auto; reflexivity ]. }
  rewrite E, Z.land_ones by auto; apply Z.mod_pos_bound; apply Z.pow_pos_nonneg; lia.
Qed.
Lemma swap32_range v : 0 <= v < 2 ^ 32 -> 0 <= byteswap32 v < 2 ^ 32.
Proof.
  intros V; apply small_bits; [ lia | ]; intros k K; unfold byteswap32; byte_case; apply (high_bits v 32); lia.
Qed.
Lemma swap64_range v : 0 <= v < 2 ^ 64 -> 0 <= byteswap64 v < 2 ^ 64.
Proof.
  intros V; apply small_bits; [ lia | ]; intros k K; unfold byteswap64; byte_case; apply (high_bits v 64); lia.
Qed.
Lemma swap16_range v : 0 <= byteswap16 v < 2 ^ 16.
Proof. apply Z.mod_pos_bound; lia. Qed.

(* ---- memory *)
Lemma loop_ind (P : Z -> mem -> Prop) n f m : P 0 m ->
  (forall j m', 0 <= j < Z.of_nat n -> P j m' -> P (j + 1) (f j m')) -> P (Z.of_nat n) (loop n f m).
Proof.
  intros P0 H; induction n as [ | n IH ]; cbn [loop]; auto.
  rewrite Nat2Z.inj_succ, <- Z.add_1_r; apply H; [ lia | ]; apply IH; intros; apply H; [ lia | auto ].
Qed.

(* copying in reverse, between places that do not overlap *)
Lemma copy_reverse n d s m : 0 <= n -> apart d s n -> forall a,
  loop (Z.to_nat n) (fun j m => store m (d + j) (m (s + n - j - 1))) m a =
  if (d <=? a) && (a <? d + n) then m (s + n - 1 - (a - d)) else m a.
Proof.
  intros N AP.
  pose proof (loop_ind (fun j m' => forall a, m' a = if (d <=? a) && (a <? d + j) then m (s + n - 1 - (a - d)) else m a)
    (Z.to_nat n) (fun j m => store m (d + j) (m (s + n - j - 1))) m) as L.
  rewrite Z2Nat.id in L by auto; apply L.
  - intros a; destruct (Z.leb_spec d a); cbn [andb]; auto; destruct (Z.ltb_spec a (d + 0)); auto; lia.
  - intros j m' J H a; unfold store; rewrite !H.
    destruct (Z.eqb_spec a (d + j)) as [ -> | NE ].
    + destruct (Z.leb_spec d (s + n - j - 1)), (Z.ltb_spec (s + n - j - 1) (d + j)); cbn [andb]; try (unfold apart in AP; lia);
        rewrite (proj2 (Z.leb_le d (d + j))) by lia; rewrite (proj2 (Z.ltb_lt (d + j) (d + (j + 1)))) by lia; cbn [andb]; f_equal; lia.
    + destruct (Z.leb_spec d a), (Z.ltb_spec a (d + j)), (Z.ltb_spec a (d + (j + 1))); cbn [andb]; auto; lia.
Qed.

(* reversing in place *)
Lemma swap_reverse n h d m : 0 <= n -> h = n / 2 -> forall a,
  loop (Z.to_nat h) (fun j m => swap m (d + j) (d + n - j - 1)) m a =
  if (d <=? a) && (a <? d + n) then m (d + n - 1 - (a - d)) else m a.
Proof.
  intros N HH; assert (HB : 2 * h <= n < 2 * h + 2) by (pose proof (Z.div_mod n 2 ltac:(lia)); pose proof (Z.mod_pos_bound n 2 ltac:(lia)); lia).
  clear HH.
  pose proof (loop_ind (fun j m' => forall a, m' a = 
     if ((d <=? a) && (a <? d + j)) || ((d + n - j <=? a) && (a <? d + n)) then m (d + n - 1 - (a - d)) else m a)
    (Z.to_nat h) (fun j m => swap m (d + j) (d + n - j - 1)) m) as L.
  rewrite Z2Nat.id in L by lia; intros a; rewrite L; clear L; [ | clear a | clear a ].
  - destruct (Z.leb_spec d a), (Z.ltb_spec a (d + h)), (Z.leb_spec (d + n - h) a), (Z.ltb_spec a (d + n)); cbn [andb orb]; auto; try lia.
    f_equal; lia.
  - intros a; destruct (Z.leb_spec d a), (Z.ltb_spec a (d + 0)), (Z.leb_spec (d + n - 0) a), (Z.ltb_spec a (d + n)); cbn [andb orb]; auto; lia.
  - intros j m' J H a; unfold swap, store.
    destruct (Z.eqb_spec a (d + n - j - 1)) as [ -> | N1 ]; [ | destruct (Z.eqb_spec a (d + j)) as [ -> | N2 ] ]; rewrite !H;
    repeat match goal with |- context [?x <=? ?y] => destruct (Z.leb_spec x y) | |- context [?x <? ?y] => destruct (Z.ltb_spec x y) end;
      cbn [andb orb]; try lia; auto; f_equal; lia.
Qed.

Definition reversed (n d s : Z) (m : mem) : mem :=
  fun a => if (d <=? a) && (a <? d + n) then m (s + n - 1 - (a - d)) else m a.

Lemma single_reversed n d s m : 0 <= n -> s = d \/ apart d s n -> forall a, byteswap_single n d s m a = reversed n d s m a.
Proof.
  intros N H a; unfold byteswap_single, reversed; destruct (Z.eqb_spec s d) as [ -> | NE ].
  - apply swap_reverse; auto.
  - destruct H as [ H | H ]; [ contradiction | ]; apply copy_reverse; auto.
Qed.

Lemma loop_ext n f g m : (forall j m', 0 <= j < Z.of_nat n -> f j m' = g j m') -> loop n f m = loop n g m.
Proof. induction n as [ | n IH ]; intros H; cbn [loop]; auto; rewrite IH, H; auto; intros; try apply H; lia. Qed.

Lemma loop_proper n f : (forall j m1 m2, (forall a, m1 a = m2 a) -> forall a, f j m1 a = f j m2 a) ->
  forall m1 m2, (forall a, m1 a = m2 a) -> forall a, loop n f m1 a = loop n f m2 a.
Proof. intros F m1 m2 E; induction n as [ | n IH ]; cbn [loop]; auto. Qed.

(* both halves, when they are of the same length *)
Lemma pairwise_halves n d s m : 0 <= n -> n mod 2 = 0 -> s = d \/ apart d s n -> forall a,
  pairwise_single n d s m a = reversed (n / 2) (d + n / 2) (s + n / 2) (reversed (n / 2) d s m) a.
Proof.
  intros N EV H a; pose proof (Z.div_mod n 2 ltac:(lia)) as DM; set (h := n / 2) in *.
  assert (H0 : 0 <= h) by lia; unfold pairwise_single; fold h; destruct (Z.eqb_spec s d) as [ -> | NE ].
  - assert (Q : n / 4 = h / 2) by (unfold h; rewrite Z.div_div by lia; reflexivity); rewrite Q.
    rewrite (loop_ext _ (fun j m => swap m (d + h + j) (d + n - j - 1)) (fun j m => swap m (d + h + j) (d + h + h - j - 1)))
      by (intros; f_equal; lia).
    rewrite swap_reverse by auto; unfold reversed at 1; 
    destruct ((d + h <=? a) && (a <? d + h + h)); apply swap_reverse; auto.
  - destruct H as [ H | H ]; [ contradiction | ].
    rewrite (loop_ext _ (fun j m => store m (d + h + j) (m (s + n - j - 1))) (fun j m => store m (d + h + j) (m (s + h + h - j - 1))))
      by (intros; f_equal; f_equal; lia).
    rewrite copy_reverse by (auto; unfold apart in *; lia); unfold reversed at 1;
    destruct ((d + h <=? a) && (a <? d + h + h)); apply copy_reverse; auto; unfold apart in *; lia.
Qed.
