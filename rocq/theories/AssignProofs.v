(** Rounding. *)
From Verif Require Import Base ParseIntModel ParseIntSpec ParseIntProofs AssignModel AssignSpec.
Open Scope Z_scope.

#[local] Opaque one unit1.

Lemma one_unit : one = unit1. Proof. reflexivity. Qed.
Lemma one_pow : one = 2 ^ 1074. Proof. reflexivity. Qed.
Lemma one_pos : 0 < one. Proof. rewrite one_pow. apply Z.pow_pos_nonneg; lia. Qed.
Global Opaque one unit1.

Lemma fmt_facts F : 24 <= fp F <= 53 /\ 0 <= fq F <= 925 /\ 1178 <= fe F <= 2045.
Proof. destruct F; cbn; lia. Qed.

Lemma magnitude_iff F n : magnitude F n <->
  exists m k, n = m * 2 ^ k /\ 0 <= m < 2 ^ fp F /\ fq F <= k <= fe F.
Proof.
  destruct F; unfold magnitude, fp, fq, fe; split.
  - intros (m & e & -> & H1 & H2). exists m, (e + 1074). repeat split; lia.
  - intros (m & k & -> & H1 & H2). exists m, (k - 1074). replace (k - 1074 + 1074) with k by lia. repeat split; lia.
  - intros (m & e & -> & H1 & H2). exists m, (e + 1074). repeat split; lia.
  - intros (m & k & -> & H1 & H2). exists m, (k - 1074). replace (k - 1074 + 1074) with k by lia. repeat split; lia.
Qed.
Lemma biggest_fmax F : biggest F = fmax F. Proof. destruct F; reflexivity. Qed.

(** ** rne *)
Lemma rne_cases n k : 0 <= k -> 0 <= n ->
  let q := n / 2 ^ k in
  (rne n k = q /\ n - q * 2 ^ k <= (q + 1) * 2 ^ k - n /\
     (n - q * 2 ^ k = (q + 1) * 2 ^ k - n -> Z.even q = true)) \/
  (rne n k = q + 1 /\ (q + 1) * 2 ^ k - n <= n - q * 2 ^ k /\
     (n - q * 2 ^ k = (q + 1) * 2 ^ k - n -> Z.even (q + 1) = true)).
Proof.
  intros Hk Hn q. assert (P : 0 < 2 ^ k) by (apply Z.pow_pos_nonneg; lia).
  pose proof (Z.div_mod n (2 ^ k) ltac:(lia)) as D. pose proof (Z.mod_pos_bound n (2 ^ k) P) as B.
  unfold rne. fold q. fold q in D. set (r := n mod 2 ^ k) in *. set (d := 2 ^ k) in *.
  destruct (Z.ltb_spec (2 * r) d); [left; repeat split; [nia|intros; nia]|].
  destruct (Z.ltb_spec d (2 * r)); [right; repeat split; [nia|intros; nia]|].
  destruct (Z.even q) eqn:E.
  - left. repeat split; nia.
  - right. repeat split; [nia|]. intros _. rewrite Z.even_add, E. reflexivity.
Qed.
Lemma rne_exact c k : 0 <= k -> rne (c * 2 ^ k) k = c.
Proof.
  intros Hk. assert (P : 0 < 2 ^ k) by (apply Z.pow_pos_nonneg; lia).
  unfold rne. rewrite Z.div_mul, Z.mod_mul by lia.
  destruct (Z.ltb_spec (2 * 0) (2 ^ k)); [reflexivity|lia].
Qed.
Lemma rne_ge n k c : 0 <= k -> 0 <= n -> c * 2 ^ k <= n -> c <= rne n k.
Proof.
  intros Hk Hn H. assert (P : 0 < 2 ^ k) by (apply Z.pow_pos_nonneg; lia).
  assert (c <= n / 2 ^ k) by (apply Z.div_le_lower_bound; lia).
  pose proof (rne_cases n k Hk Hn) as [(E & _)|(E & _)]; cbn zeta in E; lia.
Qed.
Lemma rne_le n k c : 0 <= k -> 0 <= n -> n <= c * 2 ^ k -> rne n k <= c.
Proof.
  intros Hk Hn H. assert (P : 0 < 2 ^ k) by (apply Z.pow_pos_nonneg; lia).
  pose proof (Z.div_mod n (2 ^ k) ltac:(lia)) as D. pose proof (Z.mod_pos_bound n (2 ^ k) P) as B.
  pose proof (rne_cases n k Hk Hn) as [(E & G & _)|(E & G & _)]; cbn zeta in E, G; rewrite E; nia.
Qed.

Lemma ulpe_nonneg F n : 0 <= ulpe F n.
Proof. unfold ulpe. pose proof (fmt_facts F). lia. Qed.
Lemma rmag_nonneg F n : 0 <= n -> 0 <= rmag F n.
Proof.
  intros H. unfold rmag. pose proof (ulpe_nonneg F n) as U. apply Z.mul_nonneg_nonneg.
  - apply rne_ge; lia.
  - apply Z.pow_nonneg; lia.
Qed.

(** n < 2^(ulpe + p). *)
Lemma ulpe_hi F n : 0 <= n -> n < 2 ^ (fp F + ulpe F n).
Proof.
  intros Hn. pose proof (fmt_facts F) as Hf.
  destruct (Z.eq_dec n 0) as [->|N0]; [apply Z.pow_pos_nonneg; pose proof (ulpe_nonneg F 0); lia|].
  pose proof (Z.log2_spec n ltac:(lia)) as [_ L]. eapply Z.lt_le_trans; [exact L|].
  pose proof (Z.log2_nonneg n). apply Z.pow_le_mono_r; unfold ulpe; lia.
Qed.
(** 2^(ulpe + p - 1) <= n unless the spacing is minimal. *)
Lemma ulpe_lo F n : 0 < n -> ulpe F n <> fq F -> 2 ^ (fp F - 1 + ulpe F n) <= n.
Proof.
  intros Hn U. pose proof (Z.log2_spec n Hn) as [L _]. pose proof (fmt_facts F).
  assert (E : ulpe F n = Z.log2 n - fp F + 1) by (unfold ulpe in *; lia).
  replace (fp F - 1 + ulpe F n) with (Z.log2 n) by lia. exact L.
Qed.

(** Values on the format's grid are rounded to themselves. *)
Lemma rmag_grid F n c : n = c * 2 ^ ulpe F n -> rmag F n = n.
Proof.
  intros E. unfold rmag. rewrite E at 1. rewrite rne_exact by apply ulpe_nonneg. symmetry. exact E.
Qed.
Lemma magnitude_grid F n : magnitude F n -> exists c, n = c * 2 ^ ulpe F n.
Proof.
  rewrite magnitude_iff. intros (m & k & -> & Hm & Hk). pose proof (fmt_facts F) as Hf.
  destruct (Z.eq_dec m 0) as [->|M0]; [exists 0; lia|].
  assert (P : 0 < m * 2 ^ k) by (apply Z.mul_pos_pos; [lia|apply Z.pow_pos_nonneg; lia]).
  assert (Hu : ulpe F (m * 2 ^ k) <= k).
  { unfold ulpe. rewrite Z.log2_mul_pow2 by lia.
    assert (Z.log2 m < fp F) by (apply Z.log2_lt_pow2; lia). lia. }
  exists (m * 2 ^ (k - ulpe F (m * 2 ^ k))). rewrite <- Z.mul_assoc, <- Z.pow_add_r.
  - f_equal. f_equal. lia.
  - lia.
  - apply ulpe_nonneg.
Qed.
Lemma rmag_id F n : magnitude F n -> rmag F n = n.
Proof. intros H. destruct (magnitude_grid F n H) as (c & E). exact (rmag_grid F n c E). Qed.

Lemma magnitude_bounds F n : magnitude F n -> 0 <= n <= fmax F.
Proof.
  rewrite magnitude_iff. intros (m & k & -> & Hm & Hk). pose proof (fmt_facts F).
  assert (P : 0 < 2 ^ k) by (apply Z.pow_pos_nonneg; lia).
  split; [apply Z.mul_nonneg_nonneg; lia|].
  unfold fmax. apply Z.mul_le_mono_nonneg; try lia. apply Z.pow_le_mono_r; lia.
Qed.
Lemma fround_id F s n : magnitude F n -> fround F s n = FFin s n.
Proof.
  intros H. unfold fround. rewrite (rmag_id F n H). pose proof (magnitude_bounds F n H).
  destruct (Z.ltb_spec (fmax F) n); [lia|reflexivity].
Qed.
Lemma f2f_id F x : is_flt F x -> f2f F x = x.
Proof. destruct x; cbn; intros; try reflexivity. now apply fround_id. Qed.
Lemma widen F G n : fsz_widens F G = true -> magnitude F n -> magnitude G n.
Proof.
  intros W. destruct F, G; try discriminate; auto.
  intros (m & e & -> & H1 & H2). exists m, e. repeat split; try lia.
Qed.
Lemma widen_flt F G x : fsz_widens F G = true -> is_flt F x -> is_flt G x.
Proof. destruct x; cbn; auto. apply widen. Qed.

(** A rounded value is a value of the format. *)
Lemma rmag_magnitude F n : 0 <= n -> rmag F n <= fmax F -> magnitude F (rmag F n).
Proof.
  intros Hn Hmax. rewrite magnitude_iff. pose proof (fmt_facts F) as Hf.
  pose proof (ulpe_hi F n Hn) as Hi. pose proof (ulpe_nonneg F n) as U0.
  assert (Q : 0 <= rne n (ulpe F n) <= 2 ^ fp F).
  { split; [apply rne_ge; lia|]. apply rne_le; try lia. rewrite <- Z.pow_add_r by lia. lia. }
  assert (Uq : fq F <= ulpe F n) by (unfold ulpe; lia).
  unfold rmag in *. set (u := ulpe F n) in *. set (c := rne n u) in *.
  assert (Pu : 0 < 2 ^ u) by (apply Z.pow_pos_nonneg; lia).
  assert (Pe : 0 < 2 ^ fe F) by (apply Z.pow_pos_nonneg; lia).
  assert (Pp : 2 ^ fp F = 2 * 2 ^ (fp F - 1)) by (rewrite <- Z.pow_succ_r by lia; f_equal; lia).
  assert (Pp1 : 0 < 2 ^ (fp F - 1)) by (apply Z.pow_pos_nonneg; lia).
  destruct (Z.eq_dec c (2 ^ fp F)) as [Ec|Ec].
  - (* rounded up to the next power of two *)
    assert (u < fe F).
    { destruct (Z.lt_ge_cases u (fe F)) as [|G]; auto. exfalso.
      assert (2 ^ fe F <= 2 ^ u) by (apply Z.pow_le_mono_r; lia). unfold fmax in Hmax. nia. }
    exists (2 ^ (fp F - 1)), (u + 1). split; [rewrite Ec, Pp, Z.pow_add_r, Z.pow_1_r by lia; ring|]. split; lia.
  - destruct (Z.eq_dec c 0) as [C0|C0]; [exists 0, (fq F); repeat split; lia|].
    exists c, u. split; [reflexivity|]. split; [lia|]. split; [lia|].
    destruct (Z.le_gt_cases u (fe F)) as [|G]; auto. exfalso.
    (* u > fe: c*2^u >= 2^(p-1)*2^(fe+1) > fmax *)
    assert (Nq : u <> fq F) by lia.
    assert (N0 : 0 < n).
    { destruct (Z.eq_dec n 0) as [E|]; [|lia]. exfalso. apply Nq. unfold u, ulpe. rewrite E. cbn [Z.log2]. lia. }
    pose proof (ulpe_lo F n N0 Nq) as Lo. fold u in Lo.
    assert (2 ^ (fp F - 1) <= c) by (apply rne_ge; try lia; rewrite <- Z.pow_add_r by lia; exact Lo).
    assert (2 ^ (fe F + 1) <= 2 ^ u) by (apply Z.pow_le_mono_r; lia).
    rewrite Z.pow_add_r, Z.pow_1_r in * by lia. unfold fmax in Hmax. nia.
Qed.
Lemma fround_flt F s n : 0 <= n -> is_flt F (fround F s n).
Proof.
  intros H. unfold fround. destruct (Z.ltb_spec (fmax F) (rmag F n)); cbn; auto.
  apply rmag_magnitude; lia.
Qed.
Lemma f2f_flt F G x : is_flt G x -> is_flt F (f2f F x).
Proof.
  destruct x; cbn; auto. intros H. apply fround_flt. pose proof (magnitude_bounds G mag H). lia.
Qed.
Lemma i2f_flt F z : is_flt F (i2f F z).
Proof. unfold i2f. apply fround_flt. pose proof one_pos. nia. Qed.

(** ** Nearest *)
(** Nothing of the format lies strictly between two neighbours of the grid. *)
Lemma magnitude_gap F n n' : 0 <= n -> magnitude F n' ->
  let u := ulpe F n in let q := n / 2 ^ u in
  n' <= q * 2 ^ u \/ (q + 1) * 2 ^ u <= n'.
Proof.
  intros Hn Hn' u q. pose proof (fmt_facts F) as Hf. pose proof (ulpe_nonneg F n) as U0. fold u in U0.
  assert (Pu : 0 < 2 ^ u) by (apply Z.pow_pos_nonneg; lia).
  rewrite magnitude_iff in Hn'. destruct Hn' as (m & k & -> & Hm & Hk).
  assert (Pk : 0 < 2 ^ k) by (apply Z.pow_pos_nonneg; lia).
  destruct (Z.le_gt_cases u k) as [G|G].
  - (* n' is a multiple of 2^u *)
    replace k with ((k - u) + u) by lia. rewrite Z.pow_add_r, Z.mul_assoc by lia.
    destruct (Z.le_gt_cases (m * 2 ^ (k - u)) q); [left|right]; nia.
  - (* k < u: n' < 2^p * 2^k <= 2^(p-1+u) <= q * 2^u *)
    left. assert (Nq : u <> fq F) by lia.
    assert (N0 : 0 < n).
    { destruct (Z.eq_dec n 0) as [E|]; [|lia]. exfalso. apply Nq. unfold u, ulpe. rewrite E. cbn [Z.log2]. lia. }
    pose proof (ulpe_lo F n N0 Nq) as Lo. fold u in Lo.
    assert (Q : 2 ^ (fp F - 1) <= q).
    { apply Z.div_le_lower_bound; [lia|]. rewrite <- Z.pow_add_r by lia. replace (u + (fp F - 1)) with (fp F - 1 + u) by lia. exact Lo. }
    assert (E1 : 2 ^ fp F * 2 ^ k <= 2 ^ (fp F - 1) * 2 ^ u).
    { rewrite <- !Z.pow_add_r by lia. apply Z.pow_le_mono_r; lia. }
    nia.
Qed.

Lemma even_sig_iff F n : even_sig F n <->
  exists m k, n = m * 2 ^ k /\ fq F <= k /\ (2 ^ (fp F - 1) <= m \/ k = fq F) /\ m < 2 ^ fp F /\ Z.even m = true.
Proof.
  destruct F; unfold even_sig, fp, fq; split; intros (m & k & -> & H).
  - exists m, (k + 1074). replace (24 - 1) with 23 by lia. repeat split; lia.
  - exists m, (k - 1074). replace (k - 1074 + 1074) with k by lia. replace (24 - 1) with 23 in H by lia. repeat split; lia.
  - exists m, (k + 1074). replace (53 - 1) with 52 by lia. repeat split; lia.
  - exists m, (k - 1074). replace (k - 1074 + 1074) with k by lia. replace (53 - 1) with 52 in H by lia. repeat split; lia.
Qed.

Lemma rmag_nearest F n n' : 0 <= n -> magnitude F n' ->
  Z.abs (n - rmag F n) <= Z.abs (n - n') /\
  (Z.abs (n - rmag F n) = Z.abs (n - n') -> n' = rmag F n \/ even_sig F (rmag F n)).
Proof.
  intros Hn Hn'. pose proof (magnitude_gap F n n' Hn Hn') as Gap. cbv zeta in Gap.
  pose proof (fmt_facts F) as Hf. pose proof (ulpe_nonneg F n) as U0.
  assert (Pu : 0 < 2 ^ ulpe F n) by (apply Z.pow_pos_nonneg; lia).
  pose proof (Z.div_mod n (2 ^ ulpe F n) ltac:(lia)) as D. pose proof (Z.mod_pos_bound n (2 ^ ulpe F n) Pu) as B.
  assert (Pp : 2 ^ fp F = 2 * 2 ^ (fp F - 1)) by (rewrite <- Z.pow_succ_r by lia; f_equal; lia).
  assert (Pp1 : 0 < 2 ^ (fp F - 1)) by (apply Z.pow_pos_nonneg; lia).
  assert (Ev : forall c, c = rne n (ulpe F n) -> Z.even c = true -> even_sig F (c * 2 ^ ulpe F n)).
  { intros c Ec Hev. rewrite even_sig_iff.
    assert (Hi : c <= 2 ^ fp F).
    { rewrite Ec. apply rne_le; try lia. rewrite <- Z.pow_add_r by lia. pose proof (ulpe_hi F n Hn). lia. }
    destruct (Z.eq_dec c (2 ^ fp F)) as [C|C].
    - exists (2 ^ (fp F - 1)), (ulpe F n + 1). split; [rewrite C, Pp, Z.pow_add_r, Z.pow_1_r by lia; ring|].
      repeat split; try lia; try (unfold ulpe; lia).
      replace (fp F - 1) with (1 + (fp F - 2)) by lia. rewrite Z.pow_add_r, Z.pow_1_r, Z.even_mul by lia. reflexivity.
    - exists c, (ulpe F n). split; [reflexivity|]. split; [unfold ulpe; lia|]. split; [|split; [lia|exact Hev]].
      destruct (Z.eq_dec (ulpe F n) (fq F)) as [Q|Q]; [right; exact Q|left].
      assert (N0 : 0 < n).
      { destruct (Z.eq_dec n 0) as [E|]; [|lia]. exfalso. apply Q. unfold ulpe. rewrite E. cbn [Z.log2]. lia. }
      rewrite Ec. apply rne_ge; try lia. rewrite <- Z.pow_add_r by lia. exact (ulpe_lo F n N0 Q). }
  pose proof (rne_cases n (ulpe F n) U0 Hn) as R. cbv zeta in R.
  unfold rmag. set (d := 2 ^ ulpe F n) in *. set (q := n / d) in *. set (r := n mod d) in *.
  destruct R as [(E & G & T)|(E & G & T)].
  - specialize (Ev q (eq_sym E)). rewrite E. destruct Gap as [Gap|Gap]; split.
    + nia. + intros Heq. left. nia. + nia. + intros Heq. right. apply Ev. apply T. nia.
  - specialize (Ev (q + 1) (eq_sym E)). rewrite E. destruct Gap as [Gap|Gap]; split.
    + nia. + intros Heq. right. apply Ev. apply T. nia. + nia. + intros Heq. left. nia.
Qed.

(** Overflow to infinity happens exactly from the half-way point on. *)
Lemma too_big_iff F n : 0 <= n -> (fmax F < rmag F n <-> too_big F <= n).
Proof.
  intros Hn. pose proof (fmt_facts F) as Hf. pose proof (ulpe_nonneg F n) as U0.
  assert (TB : too_big F = fmax F + 2 ^ (fe F - 1)) by (destruct F; reflexivity).
  assert (Pp : 2 ^ fp F = 2 * 2 ^ (fp F - 1)) by (rewrite <- Z.pow_succ_r by lia; f_equal; lia).
  assert (Pp1 : 4 <= 2 ^ (fp F - 1)) by (change 4 with (2 ^ 2); apply Z.pow_le_mono_r; lia).
  assert (Pe : 2 ^ fe F = 2 * 2 ^ (fe F - 1)) by (rewrite <- Z.pow_succ_r by lia; f_equal; lia).
  assert (Pe1 : 0 < 2 ^ (fe F - 1)) by (apply Z.pow_pos_nonneg; lia).
  unfold fmax in *. rewrite TB. clear TB. split.
  - intros H. destruct (Z.le_gt_cases ((2 ^ fp F - 1) * 2 ^ fe F + 2 ^ (fe F - 1)) n) as [|G]; auto. exfalso.
    (* n < fmax + half: then ulpe <= fe and the result is at most fmax *)
    assert (n < 2 ^ (fp F + fe F)) by (rewrite Z.pow_add_r by lia; rewrite Z.mul_sub_distr_r in G; lia).
    rewrite Z.pow_add_r in H0 by lia.
    assert (Hu : ulpe F n <= fe F).
    { unfold ulpe. destruct (Z.eq_dec n 0) as [->|]; [cbn [Z.log2]; lia|].
      assert (L : Z.log2 n < fp F + fe F) by (apply Z.log2_lt_pow2; [lia|rewrite Z.pow_add_r by lia; exact H0]). clear -L Hf; lia. }
    assert (Pu : 0 < 2 ^ ulpe F n) by (apply Z.pow_pos_nonneg; lia).
    unfold rmag in H. set (u := ulpe F n) in *.
    assert (rne n u * 2 ^ u <= (2 ^ fp F - 1) * 2 ^ fe F); [|lia].
    destruct (Z.eq_dec u (fe F)) as [Eu|Eu].
    + rewrite Eu in *. apply Z.mul_le_mono_nonneg_r; [lia|].
      pose proof (rne_cases n (fe F) ltac:(lia) Hn) as R. cbv zeta in R.
      pose proof (Z.div_mod n (2 ^ fe F) ltac:(lia)) as D. pose proof (Z.mod_pos_bound n (2 ^ fe F) ltac:(lia)) as B.
      set (q := n / 2 ^ fe F) in *.
      assert (Hq : q < 2 ^ fp F) by (apply Z.div_lt_upper_bound; [lia|rewrite Z.mul_comm; exact H0]).
      destruct R as [(E & _)|(E & R1 & _)]; [lia|]. rewrite E.
      destruct (Z.eq_dec q (2 ^ fp F - 1)) as [Eq|]; [|lia]. exfalso.
      rewrite Z.mul_add_distr_r in R1. rewrite Eq in R1. lia.
    + (* u < fe: n < 2^(p+u) <= 2^(p+fe-1) *)
      pose proof (ulpe_hi F n Hn) as Hi. fold u in Hi.
      assert (R : rne n u <= 2 ^ fp F) by (apply rne_le; try lia; rewrite <- Z.pow_add_r by lia; lia).
      assert (2 ^ u <= 2 ^ (fe F - 1)) by (apply Z.pow_le_mono_r; lia).
      rewrite Pe. nia.
  - intros H.
    (* q * 2^fe <= n with q = 2^p - 1, the excess at least half *)
    assert (N0 : 0 < n) by nia.
    assert (Hl : fp F + fe F - 1 <= Z.log2 n).
    { apply Z.log2_le_pow2; [lia|]. replace (fp F + fe F - 1) with (fp F - 1 + fe F) by lia. rewrite Z.pow_add_r by lia. nia. }
    assert (Hu : fe F <= ulpe F n) by (unfold ulpe; lia).
    unfold rmag. set (u := ulpe F n) in *.
    assert (Pu : 0 < 2 ^ u) by (apply Z.pow_pos_nonneg; lia).
    destruct (Z.eq_dec u (fe F)) as [Eu|Eu].
    + rewrite Eu in *. apply Z.mul_lt_mono_pos_r; [lia|].
      destruct (Z.le_gt_cases (2 ^ fp F * 2 ^ fe F) n) as [G|G].
      * pose proof (rne_ge n (fe F) (2 ^ fp F) ltac:(lia) Hn G). lia.
      * pose proof (rne_cases n (fe F) ltac:(lia) Hn) as R. cbv zeta in R.
        assert (Q : n / 2 ^ fe F = 2 ^ fp F - 1).
        { symmetry. apply Z.div_unique with (r := n - 2 ^ fe F * (2 ^ fp F - 1)); [left|]; nia. }
        rewrite Q in R. destruct R as [(E & R1 & R2)|(E & _)]; [|rewrite E; lia]. exfalso.
        assert (T : n - (2 ^ fp F - 1) * 2 ^ fe F = (2 ^ fp F - 1 + 1) * 2 ^ fe F - n) by nia.
        specialize (R2 T). rewrite Pp in R2. rewrite Z.even_sub, Z.even_mul in R2. cbn in R2. discriminate.
    + assert (Nq : u <> fq F) by lia. pose proof (ulpe_lo F n N0 Nq) as Lo. fold u in Lo.
      assert (2 ^ (fp F - 1) <= rne n u) by (apply rne_ge; try lia; rewrite <- Z.pow_add_r by lia; exact Lo).
      assert (2 * 2 ^ fe F <= 2 ^ u).
      { rewrite <- Z.pow_succ_r by lia. apply Z.pow_le_mono_r; lia. }
      nia.
Qed.

Lemma fround_nearest F s n : 0 <= n -> s = (fval s n <? 0) \/ n = 0 -> nearest F (fval s n) (fround F s n).
Proof.
  intros Hn Hs. split; [apply fround_flt; lia|]. pose proof (too_big_iff F n Hn) as T.
  assert (A : Z.abs (fval s n) = n) by (destruct s; cbn; lia).
  unfold fround. destruct (Z.ltb_spec (fmax F) (rmag F n)) as [G|G].
  - rewrite A. split; [tauto|]. destruct Hs as [Hs|Hs]; auto. exfalso.
    rewrite Hs in G. rewrite (rmag_grid F 0 0) in G by reflexivity.
    assert (0 <= fmax F) by (destruct F; vm_compute; discriminate). lia.
  - rewrite A. split; [lia|]. intros s' n' Hn'. cbv zeta.
    pose proof (rmag_nonneg F n Hn) as R0. pose proof (magnitude_bounds F n' Hn') as B.
    pose proof (rmag_nearest F n n' Hn Hn') as (N1 & N2).
    assert (Z0 : n = 0 -> rmag F n = 0) by (intros ->; apply (rmag_grid F 0 0); reflexivity).
    destruct s, s'; cbn [fval].
    + split; [lia|]. intros E. destruct (N2 ltac:(lia)) as [->|]; [left; lia|right; assumption].
    + split; [lia|]. intros E.
      (* the other sign: as close only if both are zero or tied with 0 *)
      destruct (N2 ltac:(lia)) as [->|]; [left; lia|right; assumption].
    + split; [lia|]. intros E. destruct (N2 ltac:(lia)) as [->|]; [left; lia|right; assumption].
    + split; [lia|]. intros E. destruct (N2 ltac:(lia)) as [->|]; [left; lia|right; assumption].
Qed.

(** Rounding an integer gives an integer. *)
Lemma rmag_int F a : 0 <= a -> exists c, rmag F (a * one) = c * one.
Proof.
  intros Ha. pose proof (ulpe_nonneg F (a * one)) as U0. set (u := ulpe F (a * one)) in *.
  destruct (Z.le_gt_cases u 1074) as [G|G].
  - exists a. apply (rmag_grid F (a * one) (a * 2 ^ (1074 - u))). fold u.
    rewrite one_pow, <- Z.mul_assoc, <- Z.pow_add_r by lia. f_equal. f_equal. lia.
  - exists (rne (a * one) u * 2 ^ (u - 1074)). unfold rmag. fold u. rewrite one_pow.
    rewrite <- Z.mul_assoc, <- Z.pow_add_r by lia. f_equal. f_equal. lia.
Qed.
