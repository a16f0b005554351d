From Verif Require Import Base HalfModel HalfSpec.

(** * Fields of a packed pattern *)
Definition pack (F : format) (sg E S : Z) : Z := sg * 2 ^ (mb F + eb F) + E * 2 ^ mb F + S.

Lemma pack_fields F sg E S : 0 <= mb F -> 0 <= eb F ->
  0 <= sg <= 1 -> 0 <= E < 2 ^ eb F -> 0 <= S < 2 ^ mb F ->
  is_pattern F (pack F sg E S) /\ sign F (pack F sg E S) = sg /\
  expo F (pack F sg E S) = E /\ frac F (pack F sg E S) = S.
Proof.
  intros Hm He Hsg HE HS. unfold pack, is_pattern, sign, expo, frac.
  replace (1 + mb F + eb F) with (mb F + eb F + 1) by lia.
  rewrite (Z.pow_add_r 2 (mb F + eb F) 1), (Z.pow_add_r 2 (mb F) (eb F)) by lia.
  change (2 ^ 1) with 2.
  set (M := 2 ^ mb F) in *. set (N := 2 ^ eb F) in *.
  assert (HM : 0 < M) by (apply Z.pow_pos_nonneg; lia).
  assert (HN : 0 < N) by (apply Z.pow_pos_nonneg; lia).
  assert (B1 : 0 <= E * M + S < M * N) by nia.
  assert (D1 : (sg * (M * N) + E * M + S) / M = sg * N + E).
  { symmetry; apply Z.div_unique with (r := S); [left; lia | ring]. }
  split; [nia|]. split; [|split].
  - symmetry; apply Z.div_unique with (r := E * M + S); [left; lia | ring].
  - rewrite D1. symmetry; apply Z.mod_unique with (q := sg); [left; lia | ring].
  - symmetry; apply Z.mod_unique with (q := sg * N + E); [left; lia | ring].
Qed.

(** Every pattern is the packing of its fields. *)
Lemma pack_unpack F x : 0 <= mb F -> 0 <= eb F -> is_pattern F x ->
  0 <= sign F x <= 1 /\ 0 <= expo F x < 2 ^ eb F /\ 0 <= frac F x < 2 ^ mb F /\
  x = pack F (sign F x) (expo F x) (frac F x).
Proof.
  intros Hm He Hx. unfold is_pattern, pack, sign, expo, frac in *.
  replace (1 + mb F + eb F) with (mb F + eb F + 1) in Hx by lia.
  rewrite (Z.pow_add_r 2 (mb F + eb F) 1) in Hx by lia. change (2 ^ 1) with 2 in Hx.
  rewrite (Z.pow_add_r 2 (mb F) (eb F)) in * by lia.
  set (M := 2 ^ mb F) in *. set (N := 2 ^ eb F) in *.
  assert (HM : 0 < M) by (apply Z.pow_pos_nonneg; lia).
  assert (HN : 0 < N) by (apply Z.pow_pos_nonneg; lia).
  assert (HMN : 0 < M * N) by (apply Z.mul_pos_pos; lia).
  split; [|split; [|split]].
  - split; [apply Z.div_pos; lia|]. assert (x / (M * N) < 2); [|lia]. apply Z.div_lt_upper_bound; lia.
  - apply Z.mod_pos_bound; lia.
  - apply Z.mod_pos_bound; lia.
  - rewrite <- Z.div_div by lia.
    pose proof (Z.div_mod x M ltac:(lia)). pose proof (Z.div_mod (x / M) N ltac:(lia)).
    set (a := x / M) in *. set (b := a / N) in *. set (c := a mod N) in *. set (d := x mod M) in *. clearbody a b c d. subst. ring.
Qed.

(** * Widening *)
Lemma norm_loop_ok fuel : forall s e, 0 < s < 2048 -> 0 <= e -> e + Z.of_nat fuel <= 100 ->
  1024 <= s * 2 ^ (Z.of_nat fuel - 1) -> (1 <= fuel)%nat ->
  exists s' d, norm_loop fuel s e = Ok (s', e + d) /\ 0 <= d < Z.of_nat fuel /\
               s' = s * 2 ^ d /\ 1024 <= s' < 2048.
Proof.
  induction fuel as [|fuel IH]; intros s e Hs He Hb Hf H1; [lia|].
  cbn [norm_loop]. change 1024 with ((2 ^ 1 - 1) * 2 ^ 10) at 1. rewrite land_field by lia.
  change (2 ^ 10) with 1024. change (2 ^ 1) with 2.
  assert (Hd : 0 <= s / 1024 < 2) by (split; [apply Z.div_pos; lia | apply Z.div_lt_upper_bound; lia]).
  rewrite (Z.mod_small (s / 1024)) by lia.
  destruct (Z.eqb_spec (s / 1024 * 1024) 0) as [E|E].
  - assert (s < 1024) by (apply Z.nle_gt; intros L; pose proof (Z.div_le_lower_bound s 1024 1); lia).
    destruct fuel as [|fuel]; [cbn in Hf; lia|].
    replace (u16 (s * 2)) with (s * 2) by (unfold u16; rewrite Z.mod_small; lia).
    replace (u16 (e + 1)) with (e + 1) by (unfold u16; rewrite Z.mod_small; lia).
    destruct (IH (s * 2) (e + 1)) as (s' & d & E1 & Hd' & Es & Hr); try lia.
    { replace (Z.of_nat (S (S fuel)) - 1) with (Z.succ (Z.of_nat (S fuel) - 1)) in Hf by lia.
      rewrite Z.pow_succ_r in Hf by lia. lia. }
    exists s', (d + 1). replace (e + (d + 1)) with (e + 1 + d) by lia. split; auto. split; [lia|]. split; auto.
    rewrite Es, Z.pow_add_r by lia. change (2 ^ 1) with 2. ring.
  - exists s, 0. rewrite !Z.add_0_r. split; auto. split; [lia|]. split; [change (2^0) with 1; lia|].
    split; [|lia]. apply Z.nlt_ge; intros L. rewrite Z.div_small in E by lia. lia.
Qed.

(** The parametric widening function. *)
Definition widen (F : format) (B : Z) (sg e s : Z) : outcome Z :=
  let k := mb F - 10 in
  if e =? 0 then
    if s =? 0 then Ok (pack F sg 0 0)
    else
      do se <- norm_loop 11 (s * 2) 0;
      Ok (pack F sg (B - snd se) ((fst se - 1024) * 2 ^ k))
  else if e =? 31 then Ok (pack F sg (2 ^ eb F - 1) (s * 2 ^ k))
  else Ok (pack F sg (e + B) (s * 2 ^ k)).

Definition widen_post (F : format) (u : Z) (h : Z) (res : outcome Z) : Prop :=
  exists f, res = Ok f /\ is_pattern F f /\ sign F f = sign binary16 h /\
    (is_nan F f <-> is_nan binary16 h) /\ (is_inf F f <-> is_inf binary16 h) /\
    (is_finite binary16 h -> is_finite F f /\ mag F f = mag binary16 h * u).

Lemma widen_ok F B h : 11 <= mb F -> 2 <= eb F -> 11 <= B -> B + 31 < 2 ^ eb F ->
  is_pattern binary16 h ->
  widen_post F (2 ^ (B + (mb F - 10))) h (widen F B (sign binary16 h) (expo binary16 h) (frac binary16 h)).
Proof.
  intros Hmb Heb HB HB2 Hh.
  destruct (pack_unpack binary16 h ltac:(cbn; lia) ltac:(cbn; lia) Hh) as (Hsg & He & Hs & _).
  change (2 ^ eb binary16) with 32 in He. change (2 ^ mb binary16) with 1024 in Hs.
  unfold widen_post, widen, is_nan, is_inf, is_finite, mag.
  change (2 ^ eb binary16 - 1) with 31. change (2 ^ mb binary16) with 1024.
  set (sg := sign binary16 h) in *. set (e := expo binary16 h) in *. set (s := frac binary16 h) in *.
  clearbody sg e s. clear Hh h.
  set (k := mb F - 10).
  assert (Hk : 1 <= k) by lia.
  assert (Emb : 2 ^ mb F = 1024 * 2 ^ k).
  { replace (mb F) with (10 + k) by lia. rewrite Z.pow_add_r by lia. reflexivity. }
  assert (HK : 0 < 2 ^ k) by (apply Z.pow_pos_nonneg; lia).
  destruct (Z.eqb_spec e 0) as [->|E0].
  - destruct (Z.eqb_spec s 0) as [->|S0].
    + destruct (pack_fields F sg 0 0) as (P1 & P2 & P3 & P4); try lia.
      eexists; split; [reflexivity|]. rewrite P2, P3, P4. cbn [Z.eqb].
      split; [exact P1|]. split; [reflexivity|]. split; [split; intros [? ?]; lia|].
      split; [split; intros [? ?]; lia|]. intros _. split; lia.
    + destruct (norm_loop_ok 11 (s * 2) 0) as (s' & d & EN & Hd & Es & Hr); try lia.
      rewrite EN. cbn [bind fst snd]. rewrite Z.add_0_l.
      destruct (pack_fields F sg (B - d) ((s' - 1024) * 2 ^ k)) as (P1 & P2 & P3 & P4); try lia.
      { rewrite Emb. split; [apply Z.mul_nonneg_nonneg; lia|]. apply Z.mul_lt_mono_pos_r; lia. }
      eexists; split; [reflexivity|]. rewrite P2, P3, P4.
      split; [exact P1|]. split; [reflexivity|].
      split; [split; intros [? ?]; lia|]. split; [split; intros [? ?]; lia|].
      intros _. split; [lia|].
      destruct (Z.eqb_spec (B - d) 0); [lia|].
      replace (2 ^ mb F + (s' - 1024) * 2 ^ k) with (s' * 2 ^ k) by lia.
      rewrite Es. rewrite (Z.pow_add_r 2 B k) by lia.
      replace B with (d + (B - d - 1) + 1) at 2 by lia.
      rewrite (Z.pow_add_r 2 (d + (B - d - 1)) 1), (Z.pow_add_r 2 d (B - d - 1)) by lia.
      change (2 ^ 1) with 2. ring.
  - assert (Hfr : 0 <= s * 2 ^ k < 2 ^ mb F).
    { rewrite Emb. split; [apply Z.mul_nonneg_nonneg; lia|]. apply Z.mul_lt_mono_pos_r; lia. }
    destruct (Z.eqb_spec e 31) as [->|E31].
    + destruct (pack_fields F sg (2 ^ eb F - 1) (s * 2 ^ k)) as (P1 & P2 & P3 & P4); try lia.
      eexists; split; [reflexivity|]. rewrite P2, P3, P4.
      assert (Hz : s * 2 ^ k = 0 <-> s = 0) by (rewrite Z.mul_eq_0; lia).
      split; [exact P1|]. split; [reflexivity|]. split; [split; intros [? ?]; split; tauto|].
      split; [split; intros [? ?]; split; tauto|]. intros X; tauto.
    + destruct (pack_fields F sg (e + B) (s * 2 ^ k)) as (P1 & P2 & P3 & P4); try lia.
      eexists; split; [reflexivity|]. rewrite P2, P3, P4.
      split; [exact P1|]. split; [reflexivity|].
      split; [split; intros [? ?]; lia|]. split; [split; intros [? ?]; lia|].
      intros _. split; [lia|].
      destruct (Z.eqb_spec (e + B) 0); [lia|].
      rewrite Emb. rewrite <- Z.mul_add_distr_r.
      rewrite <- !Z.mul_assoc. f_equal. rewrite <- !Z.pow_add_r by lia. f_equal. lia.
Qed.

(** Reading the fields of a pattern with masks. *)
Lemma field_mask F x : 0 <= mb F -> 0 <= eb F ->
  Z.land x ((2 ^ eb F - 1) * 2 ^ mb F) = expo F x * 2 ^ mb F /\
  Z.land x (2 ^ mb F - 1) = frac F x.
Proof.
  intros Hm He. split; [apply land_field; lia | apply land_mask; lia].
Qed.
Lemma sign_mask F x : 0 <= mb F -> 0 <= eb F -> is_pattern F x ->
  Z.land x (2 ^ (mb F + eb F)) = sign F x * 2 ^ (mb F + eb F).
Proof.
  intros Hm He Hx. replace (2 ^ (mb F + eb F)) with ((2 ^ 1 - 1) * 2 ^ (mb F + eb F)) at 1 by (change (2 ^ 1 - 1) with 1; ring).
  rewrite land_field by lia. f_equal. fold (sign F x).
  destruct (pack_unpack F x Hm He Hx) as (H & _). apply Z.mod_small. change (2 ^ 1) with 2. lia.
Qed.
Lemma magn_mask F x : 0 <= mb F -> 0 <= eb F -> is_pattern F x ->
  Z.land x (2 ^ (mb F + eb F) - 1) = expo F x * 2 ^ mb F + frac F x.
Proof.
  intros Hm He Hx. rewrite land_mask by lia.
  destruct (pack_unpack F x Hm He Hx) as (H1 & H2 & H3 & H4).
  symmetry; apply Z.mod_unique with (q := sign F x).
  - left. rewrite Z.pow_add_r by lia. nia.
  - rewrite H4 at 1. unfold pack. ring.
Qed.

Lemma halfbits_to_float_widen h : is_pattern binary16 h ->
  halfbits_to_float h = widen binary32 112 (sign binary16 h) (expo binary16 h) (frac binary16 h).
Proof.
  intros Hh. unfold halfbits_to_float.
  destruct (pack_unpack binary16 h ltac:(cbn; lia) ltac:(cbn; lia) Hh) as (Hsg & He & Hs & _).
  pose proof (field_mask binary16 h ltac:(cbn; lia) ltac:(cbn; lia)) as [E1 E2].
  pose proof (sign_mask binary16 h ltac:(cbn; lia) ltac:(cbn; lia) Hh) as E3.
  pose proof (magn_mask binary16 h ltac:(cbn; lia) ltac:(cbn; lia) Hh) as E4.
  change ((2 ^ eb binary16 - 1) * 2 ^ mb binary16) with 0x7c00 in E1.
  change (2 ^ mb binary16 - 1) with 0x3ff in E2. change (2 ^ (mb binary16 + eb binary16)) with 0x8000 in E3.
  change (2 ^ (mb binary16 + eb binary16) - 1) with 0x7fff in E4. change (2 ^ mb binary16) with 1024 in *.
  change (2 ^ eb binary16) with 32 in *.
  rewrite E1, E2, E3, E4. clear E1 E2 E3 E4.
  set (sg := sign binary16 h) in *. set (e := expo binary16 h) in *. set (s := frac binary16 h) in *.
  clearbody sg e s. clear Hh h. unfold widen, pack. cbn [mb eb binary32].
  change (2 ^ (23 + 8)) with 2147483648. change (2 ^ (23 - 10)) with 8192. change (2 ^ 23) with 8388608.
  change (2 ^ 13) with 8192. change (2 ^ 16) with 65536. change (2 ^ 8) with 256.
  unfold u32.
  assert (Es : (sg * 0x8000 * 65536) mod 4294967296 = sg * 2147483648) by (rewrite Z.mod_small; lia).
  rewrite Es.
  destruct (Z.eqb_spec (e * 1024) 0) as [E|E].
  - assert (e = 0) as -> by lia. cbn [Z.eqb]. destruct (Z.eqb_spec s 0) as [->|S0]; [f_equal; lia|].
    replace (u16 (s * 2)) with (s * 2) by (unfold u16; rewrite Z.mod_small; lia).
    change (0 * 1024) with 0.
    destruct (norm_loop_ok 11 (s * 2) 0) as (s' & d & EN & Hd & E' & Hr); try lia.
    rewrite EN. cbn [bind fst snd]. rewrite Z.add_0_l. f_equal.
    change 0x3ff with (2 ^ 10 - 1). rewrite land_mask by lia. change (2 ^ 10) with 1024.
    replace (s' mod 1024) with (s' - 1024) by (apply Z.mod_unique with (q := 1); lia).
    rewrite (Z.mod_small ((127 - 15 - d) * 8388608)) by lia.
    rewrite (Z.mod_small ((s' - 1024) * 8192)) by lia.
    rewrite Z.mod_small by lia. lia.
  - destruct (Z.eqb_spec e 0); [lia|].
    destruct (Z.eqb_spec (e * 1024) 0x7c00), (Z.eqb_spec e 31); try lia; f_equal.
    + rewrite (Z.mod_small (s * 8192)) by lia. rewrite Z.mod_small by lia. lia.
    + rewrite (Z.mod_small ((e * 1024 + s + 0x1c000) * 8192)) by lia. rewrite Z.mod_small by lia. lia.
Qed.

Lemma halfbits_to_double_widen h : is_pattern binary16 h ->
  halfbits_to_double h = widen binary64 1008 (sign binary16 h) (expo binary16 h) (frac binary16 h).
Proof.
  intros Hh. unfold halfbits_to_double.
  destruct (pack_unpack binary16 h ltac:(cbn; lia) ltac:(cbn; lia) Hh) as (Hsg & He & Hs & _).
  pose proof (field_mask binary16 h ltac:(cbn; lia) ltac:(cbn; lia)) as [E1 E2].
  pose proof (sign_mask binary16 h ltac:(cbn; lia) ltac:(cbn; lia) Hh) as E3.
  pose proof (magn_mask binary16 h ltac:(cbn; lia) ltac:(cbn; lia) Hh) as E4.
  change ((2 ^ eb binary16 - 1) * 2 ^ mb binary16) with 0x7c00 in E1.
  change (2 ^ mb binary16 - 1) with 0x3ff in E2. change (2 ^ (mb binary16 + eb binary16)) with 0x8000 in E3.
  change (2 ^ (mb binary16 + eb binary16) - 1) with 0x7fff in E4. change (2 ^ mb binary16) with 1024 in *.
  change (2 ^ eb binary16) with 32 in *.
  rewrite E1, E2, E3, E4. clear E1 E2 E3 E4.
  set (sg := sign binary16 h) in *. set (e := expo binary16 h) in *. set (s := frac binary16 h) in *.
  clearbody sg e s. clear Hh h. unfold widen, pack. cbn [mb eb binary64].
  change (2 ^ (52 + 11)) with 9223372036854775808. change (2 ^ (52 - 10)) with 4398046511104.
  change (2 ^ 52) with 4503599627370496.
  change (2 ^ 42) with 4398046511104. change (2 ^ 48) with 281474976710656. change (2 ^ 11) with 2048.
  unfold u64.
  assert (Es : (sg * 0x8000 * 281474976710656) mod 18446744073709551616 = sg * 9223372036854775808) by (rewrite Z.mod_small; lia).
  rewrite Es.
  destruct (Z.eqb_spec (e * 1024) 0) as [E|E].
  - assert (e = 0) as -> by lia. cbn [Z.eqb]. destruct (Z.eqb_spec s 0) as [->|S0]; [f_equal; lia|].
    replace (u16 (s * 2)) with (s * 2) by (unfold u16; rewrite Z.mod_small; lia).
    change (0 * 1024) with 0.
    destruct (norm_loop_ok 11 (s * 2) 0) as (s' & d & EN & Hd & E' & Hr); try lia.
    rewrite EN. cbn [bind fst snd]. rewrite Z.add_0_l. f_equal.
    change 0x3ff with (2 ^ 10 - 1). rewrite land_mask by lia. change (2 ^ 10) with 1024.
    replace (s' mod 1024) with (s' - 1024) by (apply Z.mod_unique with (q := 1); lia).
    rewrite (Z.mod_small ((1023 - 15 - d) * 4503599627370496)) by lia.
    rewrite (Z.mod_small ((s' - 1024) * 4398046511104)) by lia.
    rewrite Z.mod_small by lia. lia.
  - destruct (Z.eqb_spec e 0); [lia|].
    destruct (Z.eqb_spec (e * 1024) 0x7c00), (Z.eqb_spec e 31); try lia; f_equal.
    + rewrite (Z.mod_small (s * 4398046511104)) by lia. rewrite Z.mod_small by lia. lia.
    + rewrite (Z.mod_small ((e * 1024 + s + 0xfc000) * 4398046511104)) by lia. rewrite Z.mod_small by lia. lia.
Qed.

Lemma widen32 h : is_pattern binary16 h -> widen_post binary32 unit32 h (halfbits_to_float h).
Proof.
  intros H. rewrite halfbits_to_float_widen by auto.
  apply (widen_ok binary32 112 h); cbn; auto; lia.
Qed.
Lemma widen64 h : is_pattern binary16 h -> widen_post binary64 unit64 h (halfbits_to_double h).
Proof.
  intros H. rewrite halfbits_to_double_widen by auto.
  apply (widen_ok binary64 1008 h); cbn; auto; lia.
Qed.

(** * Narrowing *)
Definition H16 (m : Z) : Z := mag binary16 m.

Lemma H16_formula a b : 0 <= a <= 31 -> 0 <= b < 1024 ->
  H16 (a * 1024 + b) = if a =? 0 then b else (1024 + b) * 2 ^ (a - 1).
Proof.
  intros Ha Hb. unfold H16, mag, expo, frac; cbn [mb eb binary16].
  change (2 ^ 10) with 1024. change (2 ^ 5) with 32.
  replace ((a * 1024 + b) / 1024) with a by (apply Z.div_unique with (r := b); lia).
  replace ((a * 1024 + b) mod 1024) with b by (apply Z.mod_unique with (q := a); lia).
  now rewrite Z.mod_small by lia.
Qed.

Lemma H16_step m : 0 <= m < 0x7c00 -> H16 m < H16 (m + 1).
Proof.
  intros H.
  assert (Ha : 0 <= m / 1024 <= 30) by (split; [apply Z.div_pos; lia | assert (m / 1024 < 31); [apply Z.div_lt_upper_bound; lia | lia]]).
  pose proof (Z.mod_pos_bound m 1024 ltac:(lia)) as Hb. pose proof (Z.div_mod m 1024 ltac:(lia)) as E.
  set (a := m / 1024) in *. set (b := m mod 1024) in *. clearbody a b.
  replace m with (a * 1024 + b) by lia. rewrite (H16_formula a b) by lia.
  destruct (Z.eq_dec b 1023) as [->|].
  - replace (a * 1024 + 1023 + 1) with ((a + 1) * 1024 + 0) by lia. rewrite H16_formula by lia.
    destruct (Z.eqb_spec a 0) as [->|]; [cbn; lia|]. destruct (Z.eqb_spec (a + 1) 0); [lia|].
    replace (a + 1 - 1) with (Z.succ (a - 1)) by lia. rewrite Z.pow_succ_r by lia.
    assert (0 < 2 ^ (a - 1)) by (apply Z.pow_pos_nonneg; lia). lia.
  - replace (a * 1024 + b + 1) with (a * 1024 + (b + 1)) by lia. rewrite H16_formula by lia.
    destruct (Z.eqb_spec a 0); [lia|].
    assert (0 < 2 ^ (a - 1)) by (apply Z.pow_pos_nonneg; lia). nia.
Qed.
Lemma H16_lt m n : 0 <= m -> m < n -> n <= 0x7c00 -> H16 m < H16 n.
Proof.
  intros H0 Hmn Hn.
  assert (G : forall k : nat, m + 1 + Z.of_nat k <= 0x7c00 -> H16 m < H16 (m + 1 + Z.of_nat k)).
  { induction k as [|k IH]; intros Hk.
    - rewrite Z.add_0_r. apply H16_step; lia.
    - specialize (IH ltac:(lia)). pose proof (H16_step (m + 1 + Z.of_nat k) ltac:(lia)).
      replace (m + 1 + Z.of_nat (S k)) with (m + 1 + Z.of_nat k + 1) by lia. lia. }
  specialize (G (Z.to_nat (n - m - 1))). replace (m + 1 + Z.of_nat (Z.to_nat (n - m - 1))) with n in G by lia.
  apply G; lia.
Qed.
Lemma H16_le m n : 0 <= m -> m <= n -> n <= 0x7c00 -> H16 m <= H16 n.
Proof.
  intros. destruct (Z.eq_dec m n) as [->|]; [lia|]. pose proof (H16_lt m n). lia.
Qed.

(** The parametric narrowing function: [n] fraction bits, [B] = bias - 15,
    [Emax] the all-ones exponent. *)
Definition rnd (k sig : Z) : Z :=
  if negb (sig mod 2 ^ (k + 1) =? 2 ^ (k - 1)) then sig + 2 ^ (k - 1) else sig.
Definition narrow (n B Emax : Z) (sg e s : Z) : outcome Z :=
  let k := n - 10 in
  if B + 31 <=? e then
    if e =? Emax then
      if negb (s =? 0) then
        let ret := 0x7c00 + s / 2 ^ k in
        Ok (sg * 0x8000 + (if ret =? 0x7c00 then ret + 1 else ret))
      else Ok (sg * 0x8000 + 0x7c00)
    else Ok (sg * 0x8000 + 0x7c00)
  else if e <=? B then
    if e <? B - 10 then
      if negb (e * 2 ^ n + s =? 0) then Throw "runtime_error" else Ok (sg * 0x8000)
    else
      let sig := 2 ^ n + s in
      if negb (sig mod 2 ^ (B + 1 + k - e) =? 0) then Throw "runtime_error"
      else Ok (sg * 0x8000 + rnd k (sig / 2 ^ (B + 1 - e)) / 2 ^ k)
  else
    let m := rnd k s / 2 ^ k + (e - B) * 1024 in
    if m =? 0x7c00 then Throw "overflow_error" else Ok (sg * 0x8000 + m).

(** rounding of the normal case *)
Lemma rnd_div k q r : 1 <= k -> 0 <= q -> 0 <= r < 2 ^ k ->
  rnd k (q * 2 ^ k + r) / 2 ^ k =
  if r <? 2 ^ (k - 1) then q else if 2 ^ (k - 1) <? r then q + 1 else if Z.even q then q else q + 1.
Proof.
  intros Hk Hq Hr. unfold rnd.
  set (K := 2 ^ (k - 1)). assert (HK : 0 < K) by (apply Z.pow_pos_nonneg; lia).
  assert (E1 : 2 ^ k = 2 * K) by (unfold K; rewrite <- Z.pow_succ_r by lia; f_equal; lia).
  assert (E2 : 2 ^ (k + 1) = 4 * K).
  { replace (k + 1) with (Z.succ k) by lia. rewrite Z.pow_succ_r by lia. lia. }
  rewrite E1, E2 in *. clearbody K.
  assert (Hmod : (q * (2 * K) + r) mod (4 * K) = (if Z.even q then 0 else 2 * K) + r).
  { symmetry. destruct (Z.even q) eqn:Ev.
    - apply Z.even_spec in Ev as [j ->]. apply Z.mod_unique with (q := j); [left; lia|ring].
    - assert (Ho : Z.odd q = true) by (rewrite <- Z.negb_even, Ev; reflexivity).
      apply Z.odd_spec in Ho as [j ->]. apply Z.mod_unique with (q := j); [left; lia|ring]. }
  rewrite Hmod. clear Hmod.
  assert (Hdiv : forall t, 0 <= t < 2 * K -> (q * (2 * K) + t) / (2 * K) = q).
  { intros t Ht. symmetry. apply Z.div_unique with (r := t); [left; lia|ring]. }
  assert (Hdiv1 : forall t, 0 <= t < 2 * K -> (q * (2 * K) + (t + 2 * K)) / (2 * K) = q + 1).
  { intros t Ht. symmetry. apply Z.div_unique with (r := t); [left; lia|ring]. }
  destruct (Z.even q).
  - destruct (Z.eqb_spec (0 + r) K); cbn [negb].
    + rewrite Hdiv by lia. destruct (Z.ltb_spec r K), (Z.ltb_spec K r); lia.
    + rewrite <- Z.add_assoc. destruct (Z.ltb_spec r K), (Z.ltb_spec K r); try lia.
      * apply Hdiv; lia.
      * replace (r + K) with (r - K + 2 * K) by lia. apply Hdiv1; lia.
  - destruct (Z.eqb_spec (2 * K + r) K); cbn [negb]; [lia|].
    rewrite <- Z.add_assoc. destruct (Z.ltb_spec r K), (Z.ltb_spec K r); try lia.
    + apply Hdiv; lia.
    + replace (r + K) with (r - K + 2 * K) by lia. apply Hdiv1; lia.
    + replace (r + K) with (r - K + 2 * K) by lia. apply Hdiv1; lia.
Qed.

(** nearest of the two neighbours is nearest overall *)
Lemma nearest_core U v lo K P r : 0 <= lo < 0x7c00 -> 0 < K -> 0 < P -> 0 <= r < 2 * K ->
  v = H16 lo * U + r * P -> H16 (lo + 1) * U = H16 lo * U + 2 * K * P -> 0 < U ->
  let m := if r <? K then lo else if K <? r then lo + 1 else if Z.even lo then lo else lo + 1 in
  m < 0x7c00 -> nearest_even U v m.
Proof.
  intros Hlo HK HP Hr Hv Hstep HU m Hm.
  assert (Em : (m = lo /\ (r < K \/ (r = K /\ Z.even lo = true))) \/
               (m = lo + 1 /\ (K < r \/ (r = K /\ Z.even lo = false)))).
  { subst m. destruct (Z.ltb_spec r K); [left; lia|]. destruct (Z.ltb_spec K r); [right; lia|].
    destruct (Z.even lo); [left|right]; split; auto; right; split; auto; lia. }
  clearbody m.
  split; [lia|]. intros m' Hm'. fold (H16 m) (H16 m').
  assert (A : (m' <= lo /\ H16 m' * U <= H16 lo * U /\ (m' = lo \/ H16 m' * U < H16 lo * U)) \/
              (lo + 1 <= m' /\ H16 (lo + 1) * U <= H16 m' * U /\ (m' = lo + 1 \/ H16 (lo + 1) * U < H16 m' * U))).
  { destruct (Z.le_gt_cases m' lo) as [L|L].
    - left. split; auto. split.
      + apply Z.mul_le_mono_nonneg_r; [lia|]. apply H16_le; lia.
      + destruct (Z.eq_dec m' lo); auto. right. apply Z.mul_lt_mono_pos_r; auto. apply H16_lt; lia.
    - right. split; [lia|]. split.
      + apply Z.mul_le_mono_nonneg_r; [lia|]. apply H16_le; lia.
      + destruct (Z.eq_dec m' (lo + 1)); auto. right. apply Z.mul_lt_mono_pos_r; auto. apply H16_lt; lia. }
  assert (R1 : 0 <= r * P) by (apply Z.mul_nonneg_nonneg; lia).
  assert (R2 : 2 * K * P = r * P + (2 * K - r) * P) by ring.
  assert (R3 : 0 < (2 * K - r) * P) by (apply Z.mul_pos_pos; lia).
  assert (Rc : (r < K /\ r * P < (2 * K - r) * P) \/ (r = K /\ r * P = (2 * K - r) * P) \/ (K < r /\ (2 * K - r) * P < r * P)).
  { destruct (Z.lt_trichotomy r K) as [L|[->|L]].
    - left. split; auto. apply Z.mul_lt_mono_pos_r; lia.
    - right; left. split; auto. f_equal. lia.
    - right; right. split; auto. apply Z.mul_lt_mono_pos_r; lia. }
  rewrite R2 in Hstep. clear R2.
  set (a := r * P) in *. set (b := (2 * K - r) * P) in *. clearbody a b.
  assert (Hev : Z.even lo = false -> Z.even (lo + 1) = true).
  { intros Hl. rewrite Z.even_add, Hl. reflexivity. }
  set (h' := H16 m' * U) in *. set (h1 := H16 (lo + 1) * U) in *. set (h := H16 lo * U) in *.
  destruct Em as [[-> Er]|[-> Er]]; [fold h | fold h1]; clearbody h h1 h'; subst v; split.
  - destruct A as [(? & ? & ?)|(? & ? & ?)]; lia.
  - intros E. destruct A as [(? & ? & [?|?])|(? & ? & ?)]; [left; lia|exfalso; lia|].
    right. destruct Er as [|[_ ?]]; auto. exfalso; lia.
  - destruct A as [(? & ? & ?)|(? & ? & ?)]; lia.
  - intros E. destruct A as [(? & ? & ?)|(? & ? & [?|?])]; [|left; lia|exfalso; lia].
    right. destruct Er as [|[_ ?]]; auto. exfalso; lia.
Qed.

(** Value of a source pattern's magnitude from its fields. *)
Definition mval (n e s : Z) : Z := if e =? 0 then s else (2 ^ n + s) * 2 ^ (e - 1).

Lemma mval_nonneg n e s : 0 <= s < 2 ^ n -> 0 <= mval n e s.
Proof.
  intros Hs. unfold mval. destruct (e =? 0); [lia|]. apply Z.mul_nonneg_nonneg; [|apply Z.pow_nonneg]; lia.
Qed.
Lemma mval_upper n e s : 0 <= n -> 0 <= e -> 0 <= s < 2 ^ n -> mval n e s < 2 ^ (n + e).
Proof.
  intros Hn He Hs. unfold mval. destruct (Z.eqb_spec e 0) as [->|]; [rewrite Z.add_0_r; lia|].
  replace (n + e) with (n + 1 + (e - 1)) by lia. rewrite (Z.pow_add_r 2 (n + 1)), (Z.pow_add_r 2 n 1) by lia.
  apply Z.mul_lt_mono_pos_r; [apply Z.pow_pos_nonneg; lia|]. change (2 ^ 1) with 2. lia.
Qed.
Lemma mval_lower n e s : 0 <= n -> 1 <= e -> 0 <= s < 2 ^ n -> 2 ^ (n + e - 1) <= mval n e s.
Proof.
  intros Hn He Hs. unfold mval. destruct (Z.eqb_spec e 0); [lia|].
  replace (n + e - 1) with (n + (e - 1)) by lia. rewrite Z.pow_add_r by lia.
  apply Z.mul_le_mono_nonneg_r; [apply Z.pow_nonneg; lia|lia].
Qed.
Lemma pow_U n B a : 11 <= n -> 0 <= B -> 0 <= a ->
  2 ^ (n + B + a) = 2 ^ a * (1024 * 2 ^ (B + (n - 10))).
Proof.
  intros. change 1024 with (2 ^ 10). rewrite <- !Z.pow_add_r by lia. f_equal. lia.
Qed.
Lemma pow_mono a b : a <= b -> 2 ^ a <= 2 ^ b.
Proof. intros; apply Z.pow_le_mono_r; lia. Qed.
Lemma pow_pos a : 0 <= a -> 0 < 2 ^ a.
Proof. intros; apply Z.pow_pos_nonneg; lia. Qed.

(** the subnormal branch of [narrow] *)
Definition narrow_sub (n B sg e s : Z) : outcome Z :=
  if e <? B - 10 then
    if negb (e * 2 ^ n + s =? 0) then Throw "runtime_error" else Ok (sg * 0x8000)
  else if negb ((2 ^ n + s) mod 2 ^ (B + 1 + (n - 10) - e) =? 0) then Throw "runtime_error"
  else Ok (sg * 0x8000 + rnd (n - 10) ((2 ^ n + s) / 2 ^ (B + 1 - e)) / 2 ^ (n - 10)).

Lemma narrow_sub_tiny n B sg e s : 11 <= n -> 11 <= B -> 0 <= e < B - 10 -> 0 <= s < 2 ^ n ->
  let U := 2 ^ (B + (n - 10)) in let v := mval n e s in
  narrow_sub n B sg e s = if v mod U =? 0 then Ok (sg * 0x8000 + v / U) else Throw "runtime_error".
Proof.
  intros Hn HB He Hs U v. unfold narrow_sub.
  destruct (Z.ltb_spec e (B - 10)); [|lia].
  assert (HvU : 0 <= v < U).
  { split; [apply mval_nonneg; auto|]. apply Z.lt_le_trans with (2 ^ (n + e)); [apply mval_upper; lia|].
    apply pow_mono. lia. }
  rewrite Z.mod_small, Z.div_small by exact HvU.
  assert (Hzz : e * 2 ^ n + s = 0 <-> v = 0).
  { pose proof (pow_pos n ltac:(lia)). unfold v, mval. destruct (Z.eqb_spec e 0) as [->|]; [lia|].
    assert (0 < (2 ^ n + s) * 2 ^ (e - 1)) by (apply Z.mul_pos_pos; [lia|apply pow_pos; lia]).
    assert (0 < e * 2 ^ n) by (apply Z.mul_pos_pos; lia). lia. }
  destruct (Z.eqb_spec (e * 2 ^ n + s) 0), (Z.eqb_spec v 0); cbn [negb]; try tauto. f_equal. lia.
Qed.

Lemma narrow_sub_shift n B sg e s : 11 <= n -> 11 <= B -> B - 10 <= e <= B -> 1 <= e -> 0 <= s < 2 ^ n ->
  let U := 2 ^ (B + (n - 10)) in let v := mval n e s in
  narrow_sub n B sg e s = if v mod U =? 0 then Ok (sg * 0x8000 + v / U) else Throw "runtime_error".
Proof.
  intros Hn HB He He1 Hs U v. unfold narrow_sub.
  destruct (Z.ltb_spec e (B - 10)); [lia|].
  assert (Ev : v = (2 ^ n + s) * 2 ^ (e - 1)) by (unfold v, mval; destruct (Z.eqb_spec e 0); [lia|reflexivity]).
  assert (EUc : U = 2 ^ (B + 1 + (n - 10) - e) * 2 ^ (e - 1)) by (unfold U; rewrite <- Z.pow_add_r by lia; f_equal; lia).
  pose proof (pow_pos (e - 1) ltac:(lia)) as HP.
  pose proof (pow_pos (B + 1 + (n - 10) - e) ltac:(lia)) as HC.
  assert (Hsig : 0 <= 2 ^ n + s) by lia.
  rewrite Ev, EUc, Z.mul_mod_distr_r, Z.div_mul_cancel_r by lia. clear Ev EUc. clear v U.
  set (sig := 2 ^ n + s) in *. clearbody sig. clear Hs s.
  set (P := 2 ^ (e - 1)) in *. clearbody P.
  set (k := n - 10) in *. assert (Hk : 1 <= k) by lia. clearbody k. clear Hn n.
  set (C := 2 ^ (B + 1 + k - e)) in *.
  destruct (Z.eqb_spec (sig mod C) 0) as [E|E]; cbn [negb].
  - rewrite E. cbn [Z.mul Z.eqb]. f_equal. f_equal.
    pose proof (Z.div_mod sig C ltac:(lia)) as Ds. rewrite E, Z.add_0_r in Ds.
    assert (Ht : 0 <= sig / C) by (apply Z.div_pos; lia).
    set (t := sig / C) in *. clearbody t.
    assert (EE : sig / 2 ^ (B + 1 - e) = t * 2 ^ k + 0).
    { rewrite Ds. unfold C. replace (B + 1 + k - e) with (B + 1 - e + k) by lia. rewrite Z.pow_add_r by lia.
      replace (2 ^ (B + 1 - e) * 2 ^ k * t) with ((t * 2 ^ k) * 2 ^ (B + 1 - e)) by ring.
      pose proof (pow_pos (B + 1 - e) ltac:(lia)).
      rewrite Z.div_mul by lia. ring. }
    rewrite EE. pose proof (pow_pos k ltac:(lia)). rewrite rnd_div by lia.
    pose proof (pow_pos (k - 1) ltac:(lia)).
    destruct (Z.ltb_spec 0 (2 ^ (k - 1))) as [|L]; [reflexivity|lia].
  - destruct (Z.eqb_spec (sig mod C * P) 0) as [E'|E']; [|reflexivity].
    exfalso. apply Z.mul_eq_0 in E' as [|]; lia.
Qed.
Lemma narrow_sub_ok n B sg e s : 11 <= n -> 11 <= B -> 0 <= e <= B -> 0 <= s < 2 ^ n ->
  let U := 2 ^ (B + (n - 10)) in let v := mval n e s in
  narrow_sub n B sg e s = if v mod U =? 0 then Ok (sg * 0x8000 + v / U) else Throw "runtime_error".
Proof.
  intros. destruct (Z.lt_ge_cases e (B - 10)); [apply narrow_sub_tiny | apply narrow_sub_shift]; lia.
Qed.

(** the normal branch *)
Lemma narrow_norm_ok n B e s : 11 <= n -> 11 <= B -> B + 1 <= e <= B + 30 -> 0 <= s < 2 ^ n ->
  let U := 2 ^ (B + (n - 10)) in let v := mval n e s in
  let m := rnd (n - 10) s / 2 ^ (n - 10) + (e - B) * 1024 in
  m <= 0x7c00 /\ (m < 0x7c00 -> nearest_even U v m) /\ (m = 0x7c00 <-> 65520 * 16777216 * U <= v).
Proof.
  intros Hn HB He Hs U v m.
  set (k := n - 10) in *. assert (Hk : 1 <= k) by lia.
  set (a := e - B) in *. assert (Ha : 1 <= a <= 30) by lia.
  set (K := 2 ^ (k - 1)). assert (HK : 0 < K) by (apply pow_pos; lia).
  assert (E1 : 2 ^ k = 2 * K) by (unfold K; rewrite <- Z.pow_succ_r by lia; f_equal; lia).
  assert (En : 2 ^ n = 1024 * (2 * K)).
  { rewrite <- E1. change 1024 with (2 ^ 10). rewrite <- Z.pow_add_r by lia. f_equal; lia. }
  set (P := 2 ^ (e - 1)). assert (HP : 0 < P) by (apply pow_pos; lia).
  assert (EPU : 2 ^ (a - 1) * U = 2 * K * P).
  { unfold U, P. rewrite <- E1, <- !Z.pow_add_r by lia. f_equal. lia. }
  assert (HU : 0 < U) by (apply pow_pos; lia).
  assert (Ev0 : v = (2 ^ n + s) * P).
  { unfold v, mval. destruct (Z.eqb_spec e 0); [lia|reflexivity]. }
  assert (Hv29 : a <= 29 -> v < 536870912 * (1024 * U)).
  { intros Ha'. unfold v. apply Z.lt_le_trans with (2 ^ (n + e)); [apply mval_upper; lia|].
    change 536870912 with (2 ^ 29). unfold U, k. rewrite <- pow_U by lia. apply pow_mono. lia. }
  assert (Em : m = rnd k s / (2 * K) + a * 1024) by (unfold m; rewrite E1; reflexivity).
  clearbody m v U P. rewrite En in *.
  pose proof (Z.div_mod s (2 * K) ltac:(lia)) as Ds.
  pose proof (Z.mod_pos_bound s (2 * K) ltac:(lia)) as Hr.
  assert (Hq : 0 <= s / (2 * K) < 1024) by (split; [apply Z.div_pos; lia | apply Z.div_lt_upper_bound; lia]).
  set (q := s / (2 * K)) in *. set (r := s mod (2 * K)) in *. clearbody q r.
  assert (Er : rnd k s / (2 * K) = if r <? K then q else if K <? r then q + 1 else if Z.even q then q else q + 1).
  { rewrite <- E1. replace s with (q * 2 ^ k + r) by (rewrite E1; lia). apply rnd_div; lia. }
  rewrite Er in Em. clear Er.
  assert (Ev : v = (1024 * (2 * K) + (2 * K * q + r)) * P) by (rewrite Ev0, Ds; reflexivity).
  clear Ev0 Ds Hs En. clearbody K. clear E1. clearbody a. clear He HB Hn Hk. clearbody k. clear k s e B n.
  set (lo := a * 1024 + q).
  assert (Hlo : 0 <= lo < 0x7c00) by (unfold lo; lia).
  assert (EH : H16 lo * U = (1024 + q) * (2 * K * P)).
  { unfold lo. rewrite H16_formula by lia. destruct (Z.eqb_spec a 0); [lia|].
    rewrite <- Z.mul_assoc, EPU. reflexivity. }
  assert (EH1 : H16 (lo + 1) * U = (1025 + q) * (2 * K * P)).
  { unfold lo. destruct (Z.eq_dec q 1023) as [->|].
    - replace (a * 1024 + 1023 + 1) with ((a + 1) * 1024 + 0) by lia. rewrite H16_formula by lia.
      destruct (Z.eqb_spec (a + 1) 0); [lia|]. replace (a + 1 - 1) with (Z.succ (a - 1)) by lia.
      rewrite Z.pow_succ_r by lia. rewrite <- EPU. ring.
    - replace (a * 1024 + q + 1) with (a * 1024 + (q + 1)) by lia. rewrite H16_formula by lia.
      destruct (Z.eqb_spec a 0); [lia|]. rewrite <- Z.mul_assoc, EPU. ring. }
  assert (Evlo : v = H16 lo * U + r * P) by (rewrite Ev, EH; ring).
  assert (Estep : H16 (lo + 1) * U = H16 lo * U + 2 * K * P) by (rewrite EH, EH1; ring).
  assert (Hpar : Z.even q = Z.even lo).
  { unfold lo. rewrite Z.even_add, Z.even_mul. cbn. rewrite orb_true_r. destruct (Z.even q); reflexivity. }
  pose proof (nearest_core U v lo K P r Hlo HK HP Hr Evlo Estep HU) as Near. cbn zeta in Near.
  assert (Em' : m = if r <? K then lo else if K <? r then lo + 1 else if Z.even lo then lo else lo + 1).
  { rewrite Em, Hpar. clear. destruct (r <? K), (K <? r), (Z.even lo); unfold lo; lia. }
  rewrite <- Em' in Near. clear Em EH EH1 Evlo Estep. clear Hpar.
  split; [|split].
  - rewrite Em'. clear - Hlo. destruct (r <? K), (K <? r), (Z.even lo); lia.
  - exact Near.
  - clear Near.
    destruct (Z.eq_dec a 30) as [Ea|Ea].
    + assert (EP30 : 536870912 * U = 2 * K * P).
      { rewrite <- EPU, Ea. reflexivity. }
      assert (EvKP : v = (1024 + q) * 2 * (K * P) + r * P) by (rewrite Ev; ring).
      assert (HKP : 0 < K * P) by (apply Z.mul_pos_pos; lia).
      assert (Rc : (r < K /\ r * P < K * P) \/ (K <= r /\ K * P <= r * P)).
      { destruct (Z.lt_ge_cases r K); [left|right]; split; auto.
        - apply Z.mul_lt_mono_pos_r; lia.
        - apply Z.mul_le_mono_nonneg_r; lia. }
      assert (Rd : 0 <= r * P < 2 * (K * P)).
      { split; [apply Z.mul_nonneg_nonneg; lia|].
        replace (2 * (K * P)) with ((2 * K) * P) by ring. apply Z.mul_lt_mono_pos_r; lia. }
      clear Ev EPU Hv29. rewrite <- Z.mul_assoc in EP30.
      set (rP := r * P) in *. set (KP := K * P) in *. clearbody rP KP.
      assert (Hq1023 : q = 1023 -> Z.even lo = false) by (unfold lo; intros ->; rewrite Ea; reflexivity).
      rewrite Em'. clear Em'. unfold lo in *. rewrite Ea in *. clear Ha.
      destruct (Z.eq_dec q 1023) as [Eq|Eq].
      * rewrite (Hq1023 Eq). subst q. destruct (Z.ltb_spec r K), (Z.ltb_spec K r); lia.
      * split; [destruct (r <? K), (K <? r), (Z.even (30 * 1024 + q)); lia|].
        intros Hx. exfalso.
        assert ((1024 + q) * 2 * KP <= 2046 * 2 * KP) by (apply Z.mul_le_mono_nonneg_r; lia). lia.
    + assert (Hm : m <> 0x7c00) by (rewrite Em'; clear - Ha Ea Hq; destruct (r <? K), (K <? r), (Z.even lo); unfold lo; lia).
      split; [tauto|]. intros Hx. exfalso. specialize (Hv29 ltac:(lia)). clear - Hx Hv29 HU. lia.
Qed.

Lemma narrow_ok F B : 11 <= mb F -> 2 <= eb F -> 11 <= B -> B + 31 < 2 ^ eb F - 1 ->
  forall x, is_pattern F x ->
  narrowing_ok Ok (Throw "runtime_error") (Throw "overflow_error") F (2 ^ (B + (mb F - 10))) x
    (narrow (mb F) B (2 ^ eb F - 1) (sign F x) (expo F x) (frac F x)).
Proof.
  intros Hmb Heb HB HEm x Hx.
  destruct (pack_unpack F x ltac:(lia) ltac:(lia) Hx) as (Hsg & He & Hs & _).
  unfold narrowing_ok, is_nan, is_inf, is_finite, mag.
  fold (mval (mb F) (expo F x) (frac F x)). change (2 ^ 10) with 1024. change (2 ^ 24) with 16777216.
  set (sg := sign F x) in *. set (e := expo F x) in *. set (s := frac F x) in *. set (n := mb F) in *.
  clearbody sg e s. clear Hx x. set (Emax := 2 ^ eb F - 1) in *. replace (2 ^ eb F) with (Emax + 1) in He by lia. clearbody n Emax. clear Heb F.
  pose proof (narrow_sub_ok n B sg e s) as Hsub. pose proof (narrow_norm_ok n B e s) as Hnorm. cbn zeta in *.
  pose proof (mval_nonneg n e s Hs) as Hv0. pose proof (mval_upper n e s ltac:(lia) ltac:(lia) Hs) as HvU.
  pose proof (mval_lower n e s) as HvL.
  pose proof (fun a => pow_U n B a ltac:(lia) ltac:(lia)) as Epow.
  pose proof (pow_pos (B + (n - 10)) ltac:(lia)) as HU.
  set (U := 2 ^ (B + (n - 10))) in *. set (v := mval n e s) in *. clearbody U v.
  unfold narrow. fold (narrow_sub n B sg e s).
  destruct (Z.leb_spec (B + 31) e) as [Hbig|Hbig].
  - (* overflow, inf, NaN *)
    assert (Hv : 65536 * 16777216 * U <= v).
    { specialize (HvL ltac:(lia) ltac:(lia) Hs). pose proof (pow_mono (n + B + 30) (n + e - 1) ltac:(lia)) as Hm.
      rewrite Epow in Hm by lia. change (2 ^ 30) with 1073741824 in Hm. clear - Hm HvL. lia. }
    clear Hsub Hnorm HvL Epow HvU.
    destruct (Z.eqb_spec e Emax) as [HE|HE].
    + destruct (Z.eqb_spec s 0) as [Hs0|Hs0]; cbn [negb].
      * refine (conj _ (conj _ (conj _ (conj _ (conj _ (conj _ _)))))); intros; try (exfalso; lia); auto.
      * refine (conj _ (conj _ (conj _ (conj _ (conj _ (conj _ _)))))); intros; try (exfalso; lia); auto.
        set (ret := 0x7c00 + s / 2 ^ (n - 10)).
        assert (Hq : 0 <= s / 2 ^ (n - 10) < 1024).
        { pose proof (pow_pos (n - 10) ltac:(lia)).
          split; [apply Z.div_pos; lia|]. apply Z.div_lt_upper_bound; [lia|].
          replace (2 ^ (n - 10) * 1024) with (2 ^ n); [lia|]. change 1024 with (2 ^ 10). rewrite <- Z.pow_add_r by lia. f_equal. lia. }
        set (q := if ret =? 0x7c00 then ret + 1 else ret).
        assert (Hqq : exists fr, q = 31 * 1024 + fr /\ 1 <= fr < 1024).
        { unfold q, ret. clear - Hq. destruct (Z.eqb_spec (0x7c00 + s / 2 ^ (n - 10)) 0x7c00); [exists 1; lia|].
          exists (s / 2 ^ (n - 10)). lia. }
        destruct Hqq as (fr & Eq & Hfr). clearbody q. clear - Eq Hfr Hsg.
        exists (sg * 0x8000 + q). split; auto.
        assert (Hfr' : 0 <= fr < 2 ^ mb binary16) by (cbn; lia).
        destruct (pack_fields binary16 sg 31 fr) as (P1 & P2 & P3 & P4); try assumption; try (cbn; lia).
        replace (sg * 0x8000 + q) with (pack binary16 sg 31 fr).
        { rewrite P3, P4. split; [split; [reflexivity | lia] | exact P2]. }
        unfold pack; cbn [mb eb binary16]. change (2 ^ (10 + 5)) with 0x8000. change (2 ^ 10) with 1024. lia.
    + refine (conj _ (conj _ (conj _ (conj _ (conj _ (conj _ _)))))); intros; try (exfalso; lia); auto.
  - destruct (Z.leb_spec e B) as [Hle|Hgt].
    + (* subnormal results *)
      assert (Hv : v < 1024 * U).
      { pose proof (pow_mono (n + e) (n + B + 0) ltac:(lia)) as Hm. rewrite Epow in Hm by lia.
        change (2 ^ 0) with 1 in Hm. clear - Hm HvU. lia. }
      assert (HeE : e <> Emax) by lia.
      rewrite (Hsub ltac:(lia) ltac:(lia) ltac:(lia) Hs). clear - Hv HeE HU Hv0.
      refine (conj _ (conj _ (conj _ (conj _ (conj _ (conj _ _)))))); intros; try (exfalso; lia).
      * destruct (Z.eqb_spec (v mod U) 0); [tauto|reflexivity].
      * destruct (Z.eqb_spec (v mod U) 0) as [E|E]; [|tauto].
        exists (v / U). split; auto.
        pose proof (Z.div_mod v U ltac:(lia)) as Dv. rewrite E in Dv.
        assert (Hq : 0 <= v / U < 1024) by (split; [apply Z.div_pos; lia | apply Z.div_lt_upper_bound; lia]).
        set (q := v / U) in *. clearbody q. split; [lia|].
        pose proof (H16_formula 0 q ltac:(lia) ltac:(lia)) as Hf. cbn [Z.eqb] in Hf.
        change (0 * 1024 + q) with q in Hf. unfold H16, mag in Hf. rewrite Hf. lia.
    + (* normal results *)
      assert (HeE : e <> Emax) by lia.
      assert (HvLow : 1024 * U <= v).
      { specialize (HvL ltac:(lia) ltac:(lia) Hs). pose proof (pow_mono (n + B + 0) (n + e - 1) ltac:(lia)) as Hm.
        rewrite Epow in Hm by lia. change (2 ^ 0) with 1 in Hm. clear - HvL Hm. lia. }
      assert (HvHigh : v < 65536 * 16777216 * U).
      { pose proof (pow_mono (n + e) (n + B + 30) ltac:(lia)) as Hm. rewrite Epow in Hm by lia.
        change (2 ^ 30) with 1073741824 in Hm. clear - Hm HvU. lia. }
      destruct (Hnorm ltac:(lia) ltac:(lia) ltac:(lia) Hs) as (HmU & Near & Hover).
      set (m := rnd (n - 10) s / 2 ^ (n - 10) + (e - B) * 1024) in *. clearbody m.
      clear - HmU Near Hover HvLow HvHigh HeE HU.
      destruct (Z.eqb_spec m 0x7c00) as [E|E].
      * apply Hover in E.
        refine (conj _ (conj _ (conj _ (conj _ (conj _ (conj _ _)))))); intros; try (exfalso; lia); auto.
      * assert (Hn : ~ 65520 * 16777216 * U <= v) by tauto.
        refine (conj _ (conj _ (conj _ (conj _ (conj _ (conj _ _)))))); intros; try (exfalso; lia); auto.
        exists m. split; auto. apply Near. lia.
Qed.

(** The source functions are instances of the parametric one. *)
Lemma rnd_bounds k sig : 1 <= k -> 0 <= sig -> 0 <= rnd k sig / 2 ^ k <= sig / 2 ^ k + 1.
Proof.
  intros Hk Hs. pose proof (pow_pos k ltac:(lia)) as H0.
  pose proof (Z.div_mod sig (2 ^ k) ltac:(lia)) as D. pose proof (Z.mod_pos_bound sig (2 ^ k) ltac:(lia)) as Hr.
  assert (Hq : 0 <= sig / 2 ^ k) by (apply Z.div_pos; lia).
  set (q := sig / 2 ^ k) in *. set (r := sig mod 2 ^ k) in *. clearbody q r. subst sig.
  replace (2 ^ k * q + r) with (q * 2 ^ k + r) by ring. rewrite rnd_div by lia.
  destruct (r <? 2 ^ (k - 1)), (2 ^ (k - 1) <? r), (Z.even q); lia.
Qed.
Lemma div_bound a b c : 0 < c -> 0 <= a < b * c -> 0 <= a / c < b.
Proof. intros. split; [apply Z.div_pos; lia | apply Z.div_lt_upper_bound; lia]. Qed.
Lemma u16_id x : 0 <= x < 65536 -> u16 x = x.
Proof. intros. unfold u16. apply Z.mod_small. lia. Qed.
Lemma leb_scale a b c : 0 < c -> (a * c <=? b * c) = (a <=? b).
Proof. intros. destruct (Z.leb_spec (a * c) (b * c)), (Z.leb_spec a b); auto; nia. Qed.
Lemma ltb_scale a b c : 0 < c -> (a * c <? b * c) = (a <? b).
Proof. intros. destruct (Z.ltb_spec (a * c) (b * c)), (Z.ltb_spec a b); auto; nia. Qed.
Lemma eqb_scale a b c : 0 < c -> (a * c =? b * c) = (a =? b).
Proof. intros. destruct (Z.eqb_spec (a * c) (b * c)), (Z.eqb_spec a b); auto; nia. Qed.

Lemma round32_rnd s : round32 s = rnd 13 s.
Proof. unfold round32, rnd. change 0x3fff with (2 ^ 14 - 1). rewrite land_mask by lia. reflexivity. Qed.
Lemma round64_rnd s : round64 s = rnd 42 s.
Proof. unfold round64, rnd. change 0x000007ffffffffff with (2 ^ 43 - 1). rewrite land_mask by lia. reflexivity. Qed.

(** Final packing of sign and payload in the two functions. *)
Lemma pack_u16 sg m : 0 <= sg <= 1 -> 0 <= m < 32768 -> u16 (sg * 0x8000 + m) = sg * 0x8000 + m.
Proof. intros. apply u16_id. lia. Qed.

Lemma float_to_halfbits_narrow f : is_pattern binary32 f ->
  float_to_halfbits f = narrow 23 112 255 (sign binary32 f) (expo binary32 f) (frac binary32 f).
Proof.
  intros Hf.
  destruct (pack_unpack binary32 f ltac:(cbn; lia) ltac:(cbn; lia) Hf) as (Hsg & He & Hs & _).
  pose proof (field_mask binary32 f ltac:(cbn; lia) ltac:(cbn; lia)) as [E1 E2].
  pose proof (sign_mask binary32 f ltac:(cbn; lia) ltac:(cbn; lia) Hf) as E3.
  pose proof (magn_mask binary32 f ltac:(cbn; lia) ltac:(cbn; lia) Hf) as E4.
  unfold float_to_halfbits.
  change ((2 ^ eb binary32 - 1) * 2 ^ mb binary32) with 0x7f800000 in E1.
  change (2 ^ mb binary32 - 1) with 0x7fffff in E2. change (2 ^ (mb binary32 + eb binary32)) with 0x80000000 in E3.
  change (2 ^ (mb binary32 + eb binary32) - 1) with 0x7fffffff in E4.
  cbn [mb eb binary32] in *. change (2 ^ 8) with 256 in *.
  rewrite E1, E2, E3, E4. clear E1 E2 E3 E4.
  set (sg := sign binary32 f) in *. set (e := expo binary32 f) in *. set (s := frac binary32 f) in *.
  clearbody sg e s. clear Hf f.
  replace (sg * 0x80000000 / 2 ^ 16) with (sg * 0x8000)
    by (change 0x80000000 with (0x8000 * 2 ^ 16); rewrite Z.mul_assoc, Z.div_mul by lia; reflexivity).
  change (2 ^ 23) with 8388608 in *.
  change 0x47800000 with (143 * 8388608). change 0x7f800000 with (255 * 8388608).
  change 0x38000000 with (112 * 8388608). change 0x33000000 with (102 * 8388608).
  rewrite !leb_scale, ltb_scale, eqb_scale by lia. rewrite Z.div_mul by lia.
  rewrite <- Z.mul_sub_distr_r.
  replace ((e - 112) * 8388608 / 2 ^ 13) with ((e - 112) * 1024)
    by (change 8388608 with (1024 * 2 ^ 13); rewrite Z.mul_assoc, Z.div_mul by lia; reflexivity).
  unfold narrow. change (23 - 10) with 13. change (112 + 31) with 143. change (112 - 10) with 102.
  change (2 ^ 23) with 8388608. change (112 + 1 + 13 - e) with (126 - e). change (112 + 1 - e) with (113 - e).
  rewrite !round32_rnd.
  destruct (Z.leb_spec 143 e) as [H1|H1].
  - destruct (Z.eqb_spec e 255) as [H2|H2]; [|rewrite pack_u16 by lia; reflexivity].
    destruct (negb (s =? 0)); [|rewrite pack_u16 by lia; reflexivity].
    pose proof (div_bound s 1024 (2 ^ 13) ltac:(lia) ltac:(lia)) as Hq.
    set (q := s / 2 ^ 13) in *. clearbody q.
    rewrite (u16_id (0x7c00 + q)) by lia.
    rewrite pack_u16; auto. destruct (Z.eqb_spec (0x7c00 + q) 0x7c00); lia.
  - destruct (Z.leb_spec e 112) as [H2|H2].
    + destruct (Z.ltb_spec e 102) as [H3|H3]; [reflexivity|].
      rewrite land_mask by lia.
      destruct (negb ((8388608 + s) mod 2 ^ (126 - e) =? 0)); [reflexivity|].
      assert (Hq : 0 <= (8388608 + s) / 2 ^ (113 - e) < 8388608).
      { apply div_bound; [apply pow_pos; lia|]. pose proof (pow_mono 1 (113 - e) ltac:(lia)). change (2 ^ 1) with 2 in *.
        set (p := 2 ^ (113 - e)) in *. clearbody p. lia. }
      pose proof (rnd_bounds 13 _ ltac:(lia) (proj1 Hq)) as Hb.
      pose proof (div_bound ((8388608 + s) / 2 ^ (113 - e)) 1024 (2 ^ 13) ltac:(lia) ltac:(lia)) as Hb2.
      set (t := (8388608 + s) / 2 ^ (113 - e)) in *. clearbody t.
      rewrite (u16_id (rnd 13 t / 2 ^ 13)) by lia. rewrite pack_u16 by lia. reflexivity.
    + pose proof (rnd_bounds 13 s ltac:(lia) ltac:(lia)) as Hb.
      pose proof (div_bound s 1024 (2 ^ 13) ltac:(lia) ltac:(lia)) as Hb2.
      set (t := rnd 13 s / 2 ^ 13) in *. clearbody t. set (t2 := s / 2 ^ 13) in *. clearbody t2.
      rewrite (u16_id t) by lia. rewrite (u16_id ((e - 112) * 1024)) by lia.
      rewrite (u16_id (t + (e - 112) * 1024)) by lia.
      destruct (t + (e - 112) * 1024 =? 0x7c00); [reflexivity|].
      rewrite pack_u16 by lia. reflexivity.
Qed.

Lemma double_to_halfbits_narrow f : is_pattern binary64 f ->
  double_to_halfbits f = narrow 52 1008 2047 (sign binary64 f) (expo binary64 f) (frac binary64 f).
Proof.
  intros Hf.
  destruct (pack_unpack binary64 f ltac:(cbn; lia) ltac:(cbn; lia) Hf) as (Hsg & He & Hs & _).
  pose proof (field_mask binary64 f ltac:(cbn; lia) ltac:(cbn; lia)) as [E1 E2].
  pose proof (sign_mask binary64 f ltac:(cbn; lia) ltac:(cbn; lia) Hf) as E3.
  pose proof (magn_mask binary64 f ltac:(cbn; lia) ltac:(cbn; lia) Hf) as E4.
  unfold double_to_halfbits.
  change ((2 ^ eb binary64 - 1) * 2 ^ mb binary64) with 0x7ff0000000000000 in E1.
  change (2 ^ mb binary64 - 1) with 0x000fffffffffffff in E2.
  change (2 ^ (mb binary64 + eb binary64)) with 0x8000000000000000 in E3.
  change (2 ^ (mb binary64 + eb binary64) - 1) with 0x7fffffffffffffff in E4.
  cbn [mb eb binary64] in *. change (2 ^ 11) with 2048 in *.
  rewrite E1, E2, E3, E4. clear E1 E2 E3 E4.
  set (sg := sign binary64 f) in *. set (e := expo binary64 f) in *. set (s := frac binary64 f) in *.
  clearbody sg e s. clear Hf f.
  replace (sg * 0x8000000000000000 / 2 ^ 48) with (sg * 0x8000)
    by (change 0x8000000000000000 with (0x8000 * 2 ^ 48); rewrite Z.mul_assoc, Z.div_mul by lia; reflexivity).
  change (2 ^ 52) with 4503599627370496 in *.
  change 0x40f0000000000000 with (1039 * 4503599627370496). change 0x7ff0000000000000 with (2047 * 4503599627370496).
  change 0x3f00000000000000 with (1008 * 4503599627370496). change 0x3e60000000000000 with (998 * 4503599627370496).
  rewrite !leb_scale, ltb_scale, eqb_scale by lia. rewrite Z.div_mul by lia.
  rewrite <- Z.mul_sub_distr_r.
  replace ((e - 1008) * 4503599627370496 / 2 ^ 42) with ((e - 1008) * 1024)
    by (change 4503599627370496 with (1024 * 2 ^ 42); rewrite Z.mul_assoc, Z.div_mul by lia; reflexivity).
  unfold narrow. change (52 - 10) with 42. change (1008 + 31) with 1039. change (1008 - 10) with 998.
  change (2 ^ 52) with 4503599627370496. change (1008 + 1 + 42 - e) with (1051 - e). change (1008 + 1 - e) with (1009 - e).
  rewrite !round64_rnd.
  destruct (Z.leb_spec 1039 e) as [H1|H1].
  - destruct (Z.eqb_spec e 2047) as [H2|H2]; [|rewrite pack_u16 by lia; reflexivity].
    destruct (negb (s =? 0)); [|rewrite pack_u16 by lia; reflexivity].
    pose proof (div_bound s 1024 (2 ^ 42) ltac:(lia) ltac:(lia)) as Hq.
    set (q := s / 2 ^ 42) in *. clearbody q.
    rewrite (u16_id (0x7c00 + q)) by lia.
    rewrite pack_u16; auto. destruct (Z.eqb_spec (0x7c00 + q) 0x7c00); lia.
  - destruct (Z.leb_spec e 1008) as [H2|H2].
    + destruct (Z.ltb_spec e 998) as [H3|H3]; [reflexivity|].
      rewrite land_mask by lia. 
      change 0x0010000000000000 with 4503599627370496.
      destruct (negb ((4503599627370496 + s) mod 2 ^ (1051 - e) =? 0)); [reflexivity|].
      assert (Hq : 0 <= (4503599627370496 + s) / 2 ^ (1009 - e) < 4503599627370496).
      { apply div_bound; [apply pow_pos; lia|]. pose proof (pow_mono 1 (1009 - e) ltac:(lia)). change (2 ^ 1) with 2 in *.
        set (p := 2 ^ (1009 - e)) in *. clearbody p. lia. }
      pose proof (rnd_bounds 42 _ ltac:(lia) (proj1 Hq)) as Hb.
      pose proof (div_bound ((4503599627370496 + s) / 2 ^ (1009 - e)) 1024 (2 ^ 42) ltac:(lia) ltac:(lia)) as Hb2.
      set (t := (4503599627370496 + s) / 2 ^ (1009 - e)) in *. clearbody t.
      rewrite (u16_id (rnd 42 t / 2 ^ 42)) by lia. rewrite pack_u16 by lia. reflexivity.
    + pose proof (rnd_bounds 42 s ltac:(lia) ltac:(lia)) as Hb.
      pose proof (div_bound s 1024 (2 ^ 42) ltac:(lia) ltac:(lia)) as Hb2.
      set (t := rnd 42 s / 2 ^ 42) in *. clearbody t. set (t2 := s / 2 ^ 42) in *. clearbody t2.
      rewrite (u16_id t) by lia. rewrite (u16_id ((e - 1008) * 1024)) by lia.
      rewrite (u16_id (t + (e - 1008) * 1024)) by lia.
      destruct (t + (e - 1008) * 1024 =? 0x7c00); [reflexivity|].
      rewrite pack_u16 by lia. reflexivity.
Qed.

Lemma narrow32 f : is_pattern binary32 f ->
  narrowing_ok Ok (Throw "runtime_error") (Throw "overflow_error") binary32 unit32 f (float_to_halfbits f).
Proof.
  intros H. rewrite float_to_halfbits_narrow by auto.
  apply (narrow_ok binary32 112); auto; cbn; lia.
Qed.
Lemma narrow64 f : is_pattern binary64 f ->
  narrowing_ok Ok (Throw "runtime_error") (Throw "overflow_error") binary64 unit64 f (double_to_halfbits f).
Proof.
  intros H. rewrite double_to_halfbits_narrow by auto.
  apply (narrow_ok binary64 1008); auto; cbn; lia.
Qed.

(** Round trips. *)
Lemma H16_inj m n : 0 <= m < 0x7c00 -> 0 <= n < 0x7c00 -> H16 m = H16 n -> m = n.
Proof.
  intros Hm Hn E. destruct (Z.lt_trichotomy m n) as [L|[L|L]]; auto.
  - pose proof (H16_lt m n). lia.
  - pose proof (H16_lt n m). lia.
Qed.
Lemma nearest_even_exact u m0 m : 0 < u -> 0 <= m0 < 0x7c00 -> nearest_even u (mag binary16 m0 * u) m -> m = m0.
Proof.
  intros Hu H0 [Hm Hn]. destruct (Hn m0 H0) as [L _].
  rewrite Z.sub_diag in L. cbn in L.
  assert (E : (mag binary16 m0 - mag binary16 m) * u = 0) by (rewrite Z.mul_sub_distr_r; lia).
  apply Z.mul_eq_0 in E. apply H16_inj; auto. unfold H16. lia.
Qed.

(** A half pattern is sign*0x8000 + magnitude index, with H16 of that index its magnitude. *)
Lemma half_split h : is_pattern binary16 h ->
  exists m, 0 <= m < 0x8000 /\ h = sign binary16 h * 0x8000 + m /\ mag binary16 h = mag binary16 m /\
    (is_finite binary16 h -> m < 0x7c00) /\ (is_inf binary16 h -> m = 0x7c00) /\ (is_nan binary16 h -> 0x7c00 < m).
Proof.
  intros Hh. destruct (pack_unpack binary16 h ltac:(cbn; lia) ltac:(cbn; lia) Hh) as (Hsg & He & Hs & E).
  unfold is_finite, is_inf, is_nan, mag in *. cbn [mb eb binary16] in *. change (2 ^ 5) with 32 in *. change (2 ^ 10) with 1024 in *.
  unfold pack in E. cbn [mb eb binary16] in E. change (2 ^ (10 + 5)) with 0x8000 in E. change (2 ^ 10) with 1024 in E.
  set (sg := sign binary16 h) in *. set (e := expo binary16 h) in *. set (s := frac binary16 h) in *. clearbody sg e s.
  exists (e * 1024 + s).
  assert (Hm : 0 <= 0 <= 1) by lia.
  destruct (pack_fields binary16 0 e s) as (_ & _ & P3 & P4); try (cbn; lia).
  unfold pack in P3, P4. cbn [mb eb binary16] in P3, P4. change (2 ^ 10) with 1024 in P3, P4.
  rewrite Z.mul_0_l, Z.add_0_l in P3, P4. rewrite P3, P4.
  repeat split; try lia.
Qed.

Lemma mag_max m : 0 <= m < 0x7c00 -> 0 <= mag binary16 m < 65520 * 2 ^ 24.
Proof.
  intros Hm. pose proof (H16_le 0 m ltac:(lia) ltac:(lia) ltac:(lia)) as H0. pose proof (H16_le m 0x7bff ltac:(lia) ltac:(lia) ltac:(lia)) as H1.
  change (H16 0x7bff) with 1098974756864 in H1. change (H16 0) with 0 in H0. unfold H16 in *.
  change (65520 * 2 ^ 24) with 1099243192320. lia.
Qed.

Lemma roundtrip_core F u (widen narrow : Z -> outcome Z) : 0 < u ->
  (forall h, is_pattern binary16 h -> widen_post F u h (widen h)) ->
  (forall f, is_pattern F f -> narrowing_ok Ok (Throw "runtime_error") (Throw "overflow_error") F u f (narrow f)) ->
  forall h, is_pattern binary16 h -> exists f, widen h = Ok f /\
    (~ is_nan binary16 h -> narrow f = Ok h) /\
    (is_nan binary16 h -> exists h', narrow f = Ok h' /\ is_nan binary16 h' /\ sign binary16 h' = sign binary16 h).
Proof.
  intros Hu HW HN h Hh.
  destruct (HW h Hh) as (f & E & Hp & Hs & Hn & Hi & Hf).
  exists f. split; auto.
  destruct (HN f Hp) as (N1 & N2 & N3 & N4 & N5 & N6 & N7). rewrite Hs in *.
  split; [|intros Hnan; apply N1, Hn, Hnan].
  intros Hnn. destruct (half_split h Hh) as (m & Hm & Eh & Em & F1 & F2 & F3).
  destruct (Z.eq_dec (expo binary16 h) (2 ^ eb binary16 - 1)) as [Ee|Ee].
  - assert (is_inf binary16 h) as Hinf.
    { split; auto. destruct (Z.eq_dec (frac binary16 h) 0); auto. exfalso; apply Hnn; split; auto. }
    rewrite N2 by (apply Hi; auto). f_equal. rewrite (F2 Hinf) in Eh. lia.
  - fold (is_finite binary16 h) in Ee. destruct (Hf Ee) as [Hfin Hmag]. specialize (F1 Ee).
    pose proof (mag_max m ltac:(lia)) as Hmx. rewrite Em in Hmag.
    destruct (Z.lt_ge_cases (mag F f) (2 ^ 10 * u)) as [L|L].
    + destruct N7 as (m' & E1 & Hm' & E2); auto.
      { rewrite Hmag. apply Z.mod_mul. lia. }
      rewrite Hmag in E2. apply Z.mul_cancel_r in E2; [|lia].
      assert (m' = m) by (apply H16_inj; auto; lia). subst m'. rewrite E1. f_equal. lia.
    + destruct N5 as (m' & E1 & E2); auto.
      { split; auto. rewrite Hmag. apply Z.mul_lt_mono_pos_r; lia. }
      rewrite Hmag in E2. apply nearest_even_exact in E2; auto; [|lia]. subst m'. rewrite E1. f_equal. lia.
Qed.
