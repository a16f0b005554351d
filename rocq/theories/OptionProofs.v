From Verif Require Import Base ParseIntModel ParseIntSpec ScanModel AssignModel OptionModel OptionSpec.
Open Scope Z_scope.

Lemma cast_word b w : 0 < b -> word b w -> cast true b w = int_of_bits true b w.
Proof.
  unfold cast, int_of_bits, word; intros Hb Hw. rewrite Z.mod_small by lia. cbn [andb].
  destruct (Z.leb_spec (2 ^ (b - 1)) w), (Z.ltb_spec w (2 ^ (b - 1))); lia.
Qed.

Lemma isnan_spec F w : word (width F) w -> isnan_bits F w = true <-> flt_of_bits F w = FNan.
Proof.
  unfold word, isnan_bits, flt_of_bits; intros Hw.
  assert (Ha : Z.land w (abs_mask F) = w mod 2 ^ (width F - 1)).
  { rewrite <- land_mask by (destruct F; cbn; lia). now destruct F. }
  rewrite Ha; clear Ha.
  assert (He : (w / 2 ^ frac_bits F) mod 2 ^ exp_bits F = (w mod 2 ^ (width F - 1)) / 2 ^ frac_bits F).
  { destruct F; cbn [frac_bits exp_bits width].
    - change (2 ^ (32 - 1)) with (2 ^ 23 * 2 ^ 8).
      rewrite Z.rem_mul_r by lia. rewrite Z.mul_comm, Z.div_add by lia.
      rewrite (Z.div_small (w mod 2 ^ 23)); [lia|]. apply Z.mod_pos_bound; lia.
    - change (2 ^ (64 - 1)) with (2 ^ 52 * 2 ^ 11).
      rewrite Z.rem_mul_r by lia. rewrite Z.mul_comm, Z.div_add by lia.
      rewrite (Z.div_small (w mod 2 ^ 52)); [lia|]. apply Z.mod_pos_bound; lia. }
  assert (Hf : w mod 2 ^ frac_bits F = (w mod 2 ^ (width F - 1)) mod 2 ^ frac_bits F).
  { destruct F; cbn [frac_bits width].
    - change (2 ^ (32 - 1)) with (2 ^ 23 * 2 ^ 8). rewrite Z.rem_mul_r by lia.
      rewrite Z.mul_comm, Z.mod_add, Z.mod_mod by lia. reflexivity.
    - change (2 ^ (64 - 1)) with (2 ^ 52 * 2 ^ 11). rewrite Z.rem_mul_r by lia.
      rewrite Z.mul_comm, Z.mod_add, Z.mod_mod by lia. reflexivity. }
  rewrite He, Hf; clear He Hf.
  assert (Hu : 0 <= w mod 2 ^ (width F - 1) < 2 ^ (width F - 1)) by (apply Z.mod_pos_bound; destruct F; cbn; lia).
  set (u := w mod 2 ^ (width F - 1)) in *. clearbody u.
  assert (Hd := Z.div_mod u (2 ^ frac_bits F)).
  assert (Hm : 0 <= u mod 2 ^ frac_bits F < 2 ^ frac_bits F) by (apply Z.mod_pos_bound; destruct F; cbn; lia).
  set (q := u / 2 ^ frac_bits F) in *. set (r := u mod 2 ^ frac_bits F) in *. clearbody q r.
  assert (H0 : 2 ^ frac_bits F <> 0) by (destruct F; cbn; lia).
  specialize (Hd H0); clear H0.
  assert (Hx : exp_mask F = (2 ^ exp_bits F - 1) * 2 ^ frac_bits F) by (now destruct F).
  assert (Ht : 2 ^ (width F - 1) = 2 ^ exp_bits F * 2 ^ frac_bits F) by (now destruct F).
  rewrite Ht in Hu; rewrite Hx. clear Ht Hx.
  assert (Hp : 0 < 2 ^ frac_bits F) by (destruct F; cbn; lia).
  set (E := 2 ^ exp_bits F) in *. set (P := 2 ^ frac_bits F) in *.
  clearbody E P.
  rewrite Z.ltb_lt.
  destruct (Z.eqb_spec q (E - 1)) as [Hq|Hq].
  - destruct (Z.eqb_spec r 0) as [Hr|Hr]; split; intros H; try discriminate H; try reflexivity; subst; nia.
  - assert (q < E - 1 \/ E <= q) as [Hlt|Hge] by lia; [|exfalso; nia].
    split; intros H; [exfalso; nia|].
    destruct (q =? 0); discriminate H.
Qed.

Lemma na_bits_nan F : na_bits F = na_nan F.
Proof. now destruct F. Qed.

Lemma supported_iff T : na_supported T = true <-> has_reserved T \/ textual T.
Proof.
  unfold textual. destruct T; cbn; split; intros H; try now auto.
  all: try (destruct H as [H|[H|H]]; try discriminate; try contradiction).
  - unfold int_width; lia.
  - unfold int_width in H; lia.
  - left; lia.
  - lia.
Qed.

Lemma width_pos b : int_width b -> 0 < b.
Proof. unfold int_width; lia. Qed.

Lemma int_of_bits_min b : int_width b -> int_of_bits true b (cast false b (tmin true b)) = - 2 ^ (b - 1).
Proof. intros [ -> |[ -> |[ -> |[ -> | -> ]]]]; vm_compute; reflexivity. Qed.
Lemma cast_tmin_word b : int_width b -> word b (cast false b (tmin true b)).
Proof. unfold word; intros [ -> |[ -> |[ -> |[ -> | -> ]]]]; vm_compute; split; congruence. Qed.

(** is_na decides [missing] *)
Lemma is_na_kernel_spec T c : has_reserved T -> stores_type T c ->
  exists r, is_na_kernel T c = Ok r /\ (r = true <-> missing T c).
Proof.
  intros HT Hc. destruct T, c; cbn in HT, Hc; try contradiction; cbn [is_na_kernel missing]; eexists; (split; [reflexivity|]).
  - unfold word in Hc; lia.
  - destruct Hc as [Hb Hw]. rewrite cast_word by (auto using width_pos). unfold tmin. apply Z.eqb_eq.
  - subst b. destruct Hc as [_ Hw]. cbn [int_of_bits]. apply Z.eqb_eq.
  - apply isnan_spec; assumption.
  - rewrite na_bits_nan, andb_true_iff, !Z.eqb_eq. reflexivity.
  - tauto.
Qed.

Lemma is_na_kernel_text T c : textual T -> stores_type T c -> is_na_kernel T c = Ok false.
Proof.
  intros [ -> | -> ] Hc; destruct c; cbn in Hc; try contradiction; cbn [is_na_kernel]; f_equal;
    unfold str_begin; destruct (Z.leb_spec 0 msize); apply Z.eqb_neq; lia.
Qed.

Lemma assign_na_kernel_spec T c : has_reserved T -> stores_type T c ->
  exists c', assign_na_kernel T c = Ok c' /\ stores_type T c' /\ missing T c'.
Proof.
  intros HT Hc. destruct T, c; cbn in HT, Hc; try contradiction; cbn [assign_na_kernel]; eexists; (split; [reflexivity|]);
    cbn [stores_type missing].
  - unfold word, bool_na; lia.
  - split; [split; [assumption|now apply cast_tmin_word]|]. now apply int_of_bits_min.
  - subst b. split; [split; [apply Hc|]|]; unfold word; vm_compute; try reflexivity; split; congruence.
  - destruct F; split; [unfold word; cbn; lia|vm_compute; reflexivity|unfold word; cbn; lia|vm_compute; reflexivity].
  - destruct F; (split; [unfold word; cbn; lia|]); now vm_compute.
  - auto.
Qed.

Lemma assign_na_builtin_spec T c : has_reserved T -> (forall b, T <> OUInt b) -> stores_type T c ->
  stores_type T (assign_na_builtin T c) /\ missing T (assign_na_builtin T c).
Proof.
  intros HT HU Hc. destruct T, c; cbn in HT, Hc; try contradiction; cbn [assign_na_builtin];
    cbn [stores_type missing].
  - unfold word; lia.
  - split; [split; [assumption|now apply cast_tmin_word]|]. now apply int_of_bits_min.
  - now specialize (HU b).
  - destruct F; split; [unfold word; cbn; lia|vm_compute; reflexivity|unfold word; cbn; lia|vm_compute; reflexivity].
  - destruct F; (split; [unfold word; cbn; lia|]); now vm_compute.
  - auto.
Qed.

Lemma is_avail_agrees T c : has_reserved T -> stores_type T c ->
  is_na_kernel T c = Ok (negb (is_avail_builtin T c)).
Proof.
  intros HT Hc. destruct T, c; cbn in HT, Hc; try contradiction; cbn [is_na_kernel is_avail_builtin]; f_equal.
  - lia.
  - now rewrite negb_involutive.
  - subst b. cbn [Z.eqb Pos.eqb]. now rewrite negb_involutive.
  - now rewrite negb_involutive.
  - rewrite negb_orb, !negb_involutive. reflexivity.
Qed.
