(** The casts to integers, soundness of inexact mode, completeness, strictness. *)
From Verif Require Import Base ParseIntModel ParseIntSpec ParseIntProofs AssignModel AssignSpec AssignProofs.
Open Scope Z_scope.

Definition digits (sgn : bool) (b : Z) : Z := if sgn then b - 1 else b.
(** The destination's maximum after conversion to [F]. *)
Definition lim (F : fsz) (sgn : bool) (b : Z) : Z := if digits sgn b <=? fp F then tmax sgn b else tmax sgn b + 1.

Lemma i2f_max F sgn b : is_type (TInt sgn b) -> i2f F (tmax sgn b) = FFin false (lim F sgn b * one).
Proof. intros [->|[->|[->| ->]]]; destruct F, sgn; vm_compute; reflexivity. Qed.
Lemma i2f_min F b : is_type (TInt true b) -> i2f F (tmin true b) = FFin true (2 ^ (b - 1) * one).
Proof. intros [->|[->|[->| ->]]]; destruct F; vm_compute; reflexivity. Qed.

Lemma in_int_range sgn b z : in_int sgn b z <-> tmin sgn b <= z <= tmax sgn b.
Proof. destruct sgn; unfold in_int, tmin, tmax; tauto. Qed.
Lemma type_b sgn b : is_type (TInt sgn b) -> 8 <= b <= 64.
Proof. intros [->|[->|[->| ->]]]; lia. Qed.
Lemma tmax_pos sgn b : is_type (TInt sgn b) -> 127 <= tmax sgn b.
Proof. intros [->|[->|[->| ->]]]; destruct sgn; vm_compute; discriminate. Qed.
Lemma tmin_neg sgn b : is_type (TInt sgn b) -> tmin sgn b <= 0.
Proof. intros [->|[->|[->| ->]]]; destruct sgn; vm_compute; discriminate. Qed.

Lemma f2i_out_fin F sgn b s n : is_type (TInt sgn b) ->
  f2i_out F sgn b (FFin s n) = (fval s n <? tmin sgn b * one) || (lim F sgn b * one <? fval s n).
Proof.
  intros T. unfold f2i_out. rewrite (i2f_max F sgn b T).
  assert (L : (if sgn then flt_lt (FFin s n) (i2f F (tmin sgn b)) else flt_lt (FFin s n) fzero) = (fval s n <? tmin sgn b * one)).
  { destruct sgn.
    - rewrite (i2f_min F b T). cbn [flt_lt fval]. f_equal. unfold tmin. lia.
    - reflexivity. }
  rewrite L. reflexivity.
Qed.
Lemma f2i_out_inf F sgn b s : is_type (TInt sgn b) -> f2i_out F sgn b (FInf s) = true.
Proof.
  intros T. unfold f2i_out. rewrite (i2f_max F sgn b T). destruct s, sgn; try reflexivity.
  - rewrite (i2f_min F b T). reflexivity.
  - apply orb_true_r.
Qed.
Lemma f2i_out_nan F sgn b : f2i_out F sgn b FNan = false.
Proof. unfold f2i_out. destruct sgn; cbn [flt_lt orb]; unfold flt_lt; [destruct (i2f F (tmax true b))|destruct (i2f F (tmax false b))]; reflexivity. Qed.

Lemma quot_range sgn b v : is_type (TInt sgn b) -> tmin sgn b * one <= v <= tmax sgn b * one ->
  tmin sgn b <= Z.quot v one <= tmax sgn b.
Proof.
  intros T H. pose proof one_pos as P. pose proof (tmax_pos sgn b T) as M. pose proof (tmin_neg sgn b T) as N.
  split.
  - rewrite <- (Z.quot_mul (tmin sgn b) one) by lia. apply Z.quot_le_mono; lia.
  - rewrite <- (Z.quot_mul (tmax sgn b) one) by lia. apply Z.quot_le_mono; lia.
Qed.
Lemma f2i_in sgn b s n : is_type (TInt sgn b) -> tmin sgn b * one <= fval s n <= tmax sgn b * one ->
  f2i sgn b (FFin s n) = Ok (Z.quot (fval s n) one).
Proof.
  intros T H. pose proof (quot_range sgn b _ T H) as (Q1 & Q2). unfold f2i. cbv zeta.
  apply Z.leb_le in Q1, Q2. rewrite Q1, Q2. reflexivity.
Qed.
Lemma f2i_above sgn b s n : fval s n = (tmax sgn b + 1) * one -> f2i sgn b (FFin s n) = UB.
Proof.
  intros E. pose proof one_pos. unfold f2i. cbv zeta. rewrite E, Z.quot_mul by lia.
  destruct (Z.leb_spec (tmax sgn b + 1) (tmax sgn b)); [lia|]. rewrite andb_false_r. reflexivity.
Qed.

(** Above the maximum there is nothing up to its rounded value but that value. *)
Lemma above_max F sgn b n : is_type (TInt sgn b) -> magnitude F n ->
  tmax sgn b * one < n <= lim F sgn b * one -> n = (tmax sgn b + 1) * one /\ fp F < digits sgn b.
Proof.
  intros T Hn H. pose proof one_pos as P. unfold lim in H.
  destruct (Z.leb_spec (digits sgn b) (fp F)) as [|D]; [lia|]. split; [|exact D].
  rewrite magnitude_iff in Hn. destruct Hn as (m & k & -> & Hm & Hk).
  pose proof (fmt_facts F) as Hf. pose proof (type_b sgn b T) as Tb.
  assert (TM : tmax sgn b + 1 = 2 ^ digits sgn b) by (destruct sgn; unfold tmax, digits; lia).
  assert (K : 1074 <= k).
  { destruct (Z.le_gt_cases 1074 k) as [|G]; auto. exfalso.
    assert (2 ^ k <= one) by (rewrite one_pow; apply Z.pow_le_mono_r; lia).
    assert (2 ^ (fp F + 1) <= 2 ^ digits sgn b) by (apply Z.pow_le_mono_r; lia).
    rewrite Z.pow_add_r, Z.pow_1_r in * by lia.
    assert (Pp : 2 <= 2 ^ fp F) by (change 2 with (2 ^ 1) at 1; apply Z.pow_le_mono_r; lia).
    assert (m * 2 ^ k <= (2 ^ fp F - 1) * one).
    { apply Z.mul_le_mono_nonneg; try lia. }
    assert ((2 ^ fp F - 1) * one <= tmax sgn b * one) by (apply Z.mul_le_mono_nonneg_r; lia).
    lia. }
  replace k with ((k - 1074) + 1074) in * by lia. rewrite Z.pow_add_r, <- one_pow, Z.mul_assoc in * by lia.
  f_equal. set (q := m * 2 ^ (k - 1074)) in *. nia.
Qed.

Lemma ffloor_eq s n : flt_eq (ffloor (FFin s n)) (FFin s n) = (fval s n mod one =? 0).
Proof.
  pose proof one_pos as P. unfold ffloor. cbv zeta. cbn [flt_eq].
  set (v := fval s n). pose proof (Z.div_mod v one ltac:(lia)) as D.
  assert (E : fval (v / one * one <? 0) (Z.abs (v / one * one)) = v / one * one).
  { unfold fval. destruct (Z.ltb_spec (v / one * one) 0); lia. }
  rewrite E. destruct (Z.eqb_spec (v / one * one) v); destruct (Z.eqb_spec (v mod one) 0); auto; lia.
Qed.

(** ** overflow_cast / fractional_cast, completely. *)
Lemma overflow_f2i_spec F sgn b x : is_type (TInt sgn b) -> is_flt F x ->
  match num_of x with
  | NaN => overflow_f2i F sgn b x = UB
  | Inf _ => overflow_f2i F sgn b x = Throw "overflow_error"
  | Num v =>
      (tmin sgn b * one <= v <= tmax sgn b * one -> overflow_f2i F sgn b x = Ok (Z.quot v one)) /\
      (v = (tmax sgn b + 1) * one -> fp F < digits sgn b -> overflow_f2i F sgn b x = UB) /\
      (v < tmin sgn b * one \/ tmax sgn b * one < v -> ~ (v = (tmax sgn b + 1) * one /\ fp F < digits sgn b) ->
         overflow_f2i F sgn b x = Throw "overflow_error")
  end.
Proof.
  intros T Hx. pose proof one_pos as P. pose proof (tmax_pos sgn b T) as TM. unfold overflow_f2i.
  destruct x as [|s|s n]; cbn [num_of].
  - rewrite f2i_out_nan. reflexivity.
  - rewrite f2i_out_inf by exact T. reflexivity.
  - rewrite f2i_out_fin by exact T. change (if s then - n else n) with (fval s n). cbn [is_flt] in Hx.
    assert (L1 : tmax sgn b <= lim F sgn b <= tmax sgn b + 1) by (unfold lim; destruct (digits sgn b <=? fp F); lia).
    pose proof (magnitude_bounds F n Hx) as B.
    split; [|split].
    + intros H. rewrite (f2i_in sgn b s n T H).
      destruct (Z.ltb_spec (fval s n) (tmin sgn b * one)); [lia|].
      destruct (Z.ltb_spec (lim F sgn b * one) (fval s n)); [nia|]. reflexivity.
    + intros H D. rewrite (f2i_above sgn b s n H). pose proof (tmin_neg sgn b T).
      assert (L2 : lim F sgn b = tmax sgn b + 1) by (unfold lim; destruct (Z.leb_spec (digits sgn b) (fp F)); lia).
      rewrite L2, <- H. destruct (Z.ltb_spec (fval s n) (tmin sgn b * one)); [nia|].
      rewrite Z.ltb_irrefl. reflexivity.
    + intros H N. destruct (Z.ltb_spec (fval s n) (tmin sgn b * one)); [reflexivity|].
      destruct (Z.ltb_spec (lim F sgn b * one) (fval s n)) as [|G]; [reflexivity|]. exfalso. apply N.
      assert (S : fval s n = n) by (destruct s; cbn in *; [nia|reflexivity]).
      rewrite S in *. apply (above_max F sgn b n T Hx). lia.
Qed.
Lemma fractional_f2i_spec F sgn b x : is_type (TInt sgn b) -> is_flt F x ->
  match num_of x with
  | NaN => fractional_f2i F sgn b x = Throw "runtime_error"
  | Inf _ => fractional_f2i F sgn b x = Throw "overflow_error"
  | Num v =>
      (forall z, v = z * one -> tmin sgn b <= z <= tmax sgn b -> fractional_f2i F sgn b x = Ok z) /\
      (tmin sgn b * one <= v <= tmax sgn b * one -> v mod one <> 0 -> fractional_f2i F sgn b x = Throw "runtime_error") /\
      (v = (tmax sgn b + 1) * one -> fp F < digits sgn b -> fractional_f2i F sgn b x = UB) /\
      (v < tmin sgn b * one \/ tmax sgn b * one < v -> ~ (v = (tmax sgn b + 1) * one /\ fp F < digits sgn b) ->
         fractional_f2i F sgn b x = Throw "overflow_error")
  end.
Proof.
  intros T Hx. pose proof one_pos as P. pose proof (overflow_f2i_spec F sgn b x T Hx) as O.
  pose proof (tmax_pos sgn b T) as TM. pose proof (tmin_neg sgn b T) as TN.
  unfold overflow_f2i in O. unfold fractional_f2i.
  destruct x as [|s|s n]; cbn [num_of] in *.
  - rewrite f2i_out_nan. reflexivity.
  - rewrite f2i_out_inf by exact T. reflexivity.
  - change (if s then - n else n) with (fval s n) in *. rewrite ffloor_eq. destruct O as (O1 & O2 & O3).
    split; [|split; [|split]].
    + intros z E Hz. assert (R : tmin sgn b * one <= fval s n <= tmax sgn b * one) by (rewrite E; nia).
      specialize (O1 R). destruct (f2i_out F sgn b (FFin s n)); [discriminate|].
      rewrite E in *. rewrite Z.mod_mul by lia. cbn [Z.eqb negb]. rewrite O1, Z.quot_mul by lia. reflexivity.
    + intros H N. specialize (O1 H). destruct (f2i_out F sgn b (FFin s n)); [discriminate|].
      destruct (Z.eqb_spec (fval s n mod one) 0); [contradiction|reflexivity].
    + intros E D. specialize (O2 E D). destruct (f2i_out F sgn b (FFin s n)); [discriminate|].
      rewrite E, Z.mod_mul by lia. exact O2.
    + intros H N. specialize (O3 H N). destruct (f2i_out F sgn b (FFin s n)); [reflexivity|].
      unfold f2i in O3. cbv zeta in O3. destruct (_ && _) in O3; discriminate.
Qed.

(** ** integer to integer *)
Lemma i2i_spec ds db ss sb z : is_type (TInt ds db) -> is_type (TInt ss sb) -> in_int ss sb z ->
  overflow_i2i ds db ss sb z = (if (tmin ds db <=? z) && (z <=? tmax ds db) then Ok z else Throw "overflow_error").
Proof.
  intros T1 T2 H. pose proof (type_b _ _ T1). pose proof (type_b _ _ T2).
  assert (R : in_range ss sb z) by (apply in_int_range in H; unfold tmin, tmax in H; unfold in_range; destruct ss; lia).
  pose proof (is_overflow_ok ds db ss sb z ltac:(lia) ltac:(lia) ltac:(lia) R) as O.
  assert (RD : in_range ds db z <-> tmin ds db <= z <= tmax ds db) by (unfold in_range, tmin, tmax; destruct ds; lia).
  unfold overflow_i2i. destruct (is_overflow ds db ss sb z) eqn:E.
  - destruct (Z.leb_spec (tmin ds db) z); destruct (Z.leb_spec z (tmax ds db)); cbn; auto.
    exfalso. assert (X : true = false) by (apply O, RD; lia). discriminate.
  - pose proof (proj1 O eq_refl) as R2. rewrite cast_id by (auto; lia).
    apply RD in R2. destruct (Z.leb_spec (tmin ds db) z); destruct (Z.leb_spec z (tmax ds db)); cbn; auto; lia.
Qed.
Lemma nocheck_i2i ds db z : 1 <= db -> exists w, cast ds db z = w /\ tmin ds db <= w <= tmax ds db /\ (w - z) mod 2 ^ db = 0.
Proof.
  intros Hb. exists (cast ds db z). split; [reflexivity|].
  pose proof (cast_range ds db z Hb) as R. split; [unfold in_range, tmin, tmax in *; destruct ds; lia|].
  assert (P : 0 < 2 ^ db) by (apply Z.pow_pos_nonneg; lia).
  unfold cast. pose proof (Z.div_mod z (2 ^ db) ltac:(lia)) as D.
  set (m := z mod 2 ^ db) in *. destruct (ds && (2 ^ (db - 1) <=? m)).
  - replace (m - 2 ^ db - z) with ((-(z / 2 ^ db) - 1) * 2 ^ db) by lia. apply Z.mod_mul. lia.
  - replace (m - z) with (-(z / 2 ^ db) * 2 ^ db) by lia. apply Z.mod_mul. lia.
Qed.

(** ** check_i2f *)
Lemma i2f_num F z s n : i2f F z = FFin s n -> exists c, fval s n = c * one.
Proof.
  unfold i2f, fround. pose proof one_pos. destruct (fmax F <? rmag F (Z.abs z * one)); [discriminate|].
  intros E. injection E as <- <-. destruct (rmag_int F (Z.abs z)) as (c & ->); [lia|].
  destruct (z <? 0); cbn [fval]; [exists (- c)|exists c]; lia.
Qed.
Lemma i2f_exact F z : magnitude F (Z.abs z * one) -> num_of (i2f F z) = Num (z * one).
Proof.
  intros H. unfold i2f. rewrite fround_id by exact H. cbn [num_of]. f_equal.
  pose proof one_pos. destruct (Z.ltb_spec z 0); lia.
Qed.
Lemma check_i2f_sound F sgn b z d : check_i2f F sgn b z = Ok d -> d = i2f F z /\ num_of d = Num (z * one).
Proof.
  unfold check_i2f. destruct (i2f F z) as [|s|s n] eqn:E; try discriminate. cbn [f2i]. cbv zeta.
  destruct (_ && _) eqn:R; [|discriminate]. cbn [bind].
  destruct (Z.eqb_spec (Z.quot (fval s n) one) z) as [Q|]; [|discriminate]. cbn [negb]. intros X; injection X as <-.
  split; [reflexivity|]. destruct (i2f_num F z s n E) as (c & C). pose proof one_pos.
  rewrite C, Z.quot_mul in Q by lia. cbn [num_of]. f_equal. change (fval s n = z * one). congruence.
Qed.
Lemma check_i2f_complete F sgn b z : is_type (TInt sgn b) -> in_int sgn b z -> magnitude F (Z.abs z * one) ->
  exists d, check_i2f F sgn b z = Ok d /\ num_of d = Num (z * one).
Proof.
  intros T R H. pose proof one_pos as P. pose proof (i2f_exact F z H) as E. unfold check_i2f.
  destruct (i2f F z) as [|s|s n] eqn:X; cbn [num_of] in E; try discriminate.
  assert (V : fval s n = z * one) by (unfold fval; congruence).
  assert (R' : tmin sgn b * one <= fval s n <= tmax sgn b * one).
  { apply in_int_range in R. rewrite V. nia. }
  rewrite (f2i_in sgn b s n T R'). cbn [bind]. rewrite V, Z.quot_mul by lia. rewrite Z.eqb_refl. cbn [negb].
  exists (FFin s n). split; auto.
Qed.

(** ** Floating point comparisons *)
Lemma flt_eq_num x y : flt_eq x y = true -> num_of x = num_of y.
Proof.
  destruct x as [|s|s n], y as [|t|t m]; cbn; try discriminate; intros H.
  - apply eqb_prop in H. congruence.
  - apply Z.eqb_eq in H. unfold fval in H. congruence.
Qed.
Lemma flt_eq_fin x y v : num_of x = Num v -> num_of y = Num v -> flt_eq x y = true.
Proof.
  destruct x as [|s|s n], y as [|t|t m]; cbn; try discriminate. intros A B. injection A as A. injection B as B.
  apply Z.eqb_eq. unfold fval. congruence.
Qed.
Lemma flt_nz_false y : flt_nz y = false -> num_of y = Num 0.
Proof. unfold flt_nz. intros H. apply negb_false_iff in H. apply flt_eq_num in H. exact H. Qed.
Lemma flt_nz_zero y : num_of y = Num 0 -> flt_nz y = false.
Proof. intros H. unfold flt_nz. rewrite (flt_eq_fin y fzero 0 H eq_refl). reflexivity. Qed.
Lemma f_out_fin F s n : f_out F (FFin s n) = (fmax F <? Z.abs (fval s n)).
Proof.
  unfold f_out, flimit, fneg. cbn [flt_lt negb fval].
  assert (0 <= fmax F) by (destruct F; vm_compute; discriminate).
  change (fval true (fmax F)) with (- fmax F). change (fval false (fmax F)) with (fmax F).
  destruct (Z.ltb_spec (fval s n) (- fmax F)); destruct (Z.ltb_spec (fmax F) (fval s n));
    destruct (Z.ltb_spec (fmax F) (Z.abs (fval s n))); auto; lia.
Qed.
Lemma f_out_mag F s n : magnitude F n -> f_out F (FFin s n) = false.
Proof.
  intros H. rewrite f_out_fin. pose proof (magnitude_bounds F n H).
  destruct (Z.ltb_spec (fmax F) (Z.abs (fval s n))); auto. destruct s; cbn in *; lia.
Qed.
Lemma num_f2f F x : is_flt F x -> num_of (f2f F x) = num_of x.
Proof. intros H. rewrite f2f_id; auto. Qed.
