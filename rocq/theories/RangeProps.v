(* C109: integer ranges. *)
From Verif Require Import Base RangeModel RangeSpec.
Local Open Scope Z_scope.

Definition machine_type (t : ity) : Prop := In (i_bits t) [8; 16; 32; 64].
Definition of_type (t : ity) (v : Z) : Prop := in_type (i_signed t) (i_bits t) v.

Lemma cast_signed m h v :
  m = 2 * h -> - h <= v < h -> (if h <=? v mod m then v mod m - m else v mod m) = v.
Proof.
  intros -> H; destruct (Z_lt_ge_dec v 0) as [N | N].
  - replace (v mod (2 * h)) with (v + 2 * h)
      by (symmetry; rewrite <- (Z.mod_add v 1 (2 * h)) by lia; rewrite Z.mod_small; lia).
    destruct (Z.leb_spec h (v + 2 * h)); lia.
  - rewrite (Z.mod_small v (2 * h)) by lia; destruct (Z.leb_spec h v); lia.
Qed.

Lemma cast_in_type t v : machine_type t -> of_type t v -> cast t v = v.
Proof.
  unfold machine_type, of_type, in_type, cast; intros HT.
  destruct t as [sg b]; cbn [i_signed i_bits In] in *.
  destruct HT as [ <- | [ <- | [ <- | [ <- | [] ] ] ] ]; destruct sg; cbn [andb]; cbn -[Z.modulo Z.leb];
    intros H; try (rewrite Z.mod_small by lia; reflexivity).
  all: apply cast_signed; lia.
Qed.

Lemma to_ssize_s64 v : s64 v -> to_ssize v = v.
Proof.
  intros H; apply (cast_in_type (ITy true 64)); [ right; right; right; left; reflexivity | ].
  unfold of_type, in_type, s64 in *; cbn [i_signed i_bits]; change (64 - 1) with 63; lia.
Qed.

Lemma to_ssize_high v : 2 ^ 63 <= v < 2 ^ 64 -> to_ssize v = v - 2 ^ 64.
Proof.
  intros H; unfold to_ssize, cast; cbn [i_signed i_bits andb]; change (64 - 1) with 63.
  rewrite Z.mod_small by lia; destruct (Z.leb_spec (2 ^ 63) v); lia.
Qed.

Lemma quot_ceil d s : 0 < d -> 0 < s ->
  let n := Z.quot (d + s - 1) s in 0 < n /\ (n - 1) * s < d <= n * s.
Proof.
  intros Hd Hs n; unfold n; rewrite Z.quot_div_nonneg by lia.
  pose proof (Z.div_mod (d + s - 1) s ltac:(lia)); pose proof (Z.mod_pos_bound (d + s - 1) s ltac:(lia)).
  set (q := (d + s - 1) / s) in *; nia.
Qed.

Lemma formula_ok hi lo step :
  to_ssize step = step -> 0 < hi - lo -> 0 < step ->
  to_ssize hi - to_ssize lo = hi - lo -> hi - lo + step < 2 ^ 63 ->
  count_formula hi lo step = Ok (Z.quot (hi - lo + step - 1) step).
Proof.
  intros ES Hd Hs E B; unfold count_formula.
  rewrite sub64_ok by (unfold s64; lia); cbn [bind].
  rewrite E, ES.
  rewrite add64_ok by (unfold s64; lia); cbn [bind]; rewrite sub64_ok by (unfold s64; lia); cbn [bind].
  destruct (Z.eqb_spec step 0); [ lia | ]; unfold div64; destruct (Z.eqb_spec step 0); [ lia | ].
  apply chk64_ok; unfold s64; destruct (quot_ceil (hi - lo) step Hd Hs) as (Q1 & Q2 & Q3).
  set (q := Z.quot _ _) in *.
  assert (q - 1 < hi - lo) by nia; lia.
Qed.

Lemma of_type_between t lo hi v : of_type t lo -> of_type t hi -> lo <= v <= hi -> of_type t v.
Proof. unfold of_type, in_type; destruct (i_signed t); lia. Qed.

Lemma of_type_s64 t v : machine_type t -> of_type t v -> (i_bits t = 64 -> i_signed t = true) -> s64 v.
Proof.
  unfold machine_type, of_type, in_type, s64; destruct t as [sg b]; cbn [i_signed i_bits In].
  intros [ <- | [ <- | [ <- | [ <- | [] ] ] ] ]; destruct sg; intros H G; cbn in H; try lia.
Qed.

Lemma range_value_ok t begin end_ step i n :
  machine_type t -> of_type t begin -> of_type t end_ ->
  Z.abs (end_ - begin) < 2 ^ 63 ->
  (if 0 <? step then begin <= end_ else end_ <= begin) ->
  0 <= i < n -> (n - 1) * Z.abs step < Z.abs (end_ - begin) ->
  range_value t begin step i = Ok (begin + i * step) /\ before step (begin + i * step) end_.
Proof.
  intros HT HB HE HD HS Hi Hn.
  assert (I1 : i * Z.abs step < Z.abs (end_ - begin)) by nia.
  assert (BT : before step (begin + i * step) end_ /\ of_type t (begin + i * step) /\ Z.abs (i * step) < 2 ^ 63).
  { unfold before; destruct (Z.ltb_spec 0 step) as [L | L].
    - rewrite Z.abs_eq in I1 by lia; rewrite Z.abs_eq in I1, HD by lia.
      assert (0 <= i * step) by nia.
      split; [ lia | split; [ apply (of_type_between t begin end_); try assumption; lia | lia ] ].
    - rewrite (Z.abs_neq step) in I1 by lia; rewrite Z.abs_neq in I1, HD by lia.
      assert (0 <= i * - step) by nia.
      assert (i * step = - (i * - step)) by ring.
      split; [ lia | split; [ apply (of_type_between t end_ begin); try assumption; lia | lia ] ]. }
  destruct BT as (B1 & B2 & B3); split; [ | exact B1 ].
  unfold range_value; destruct ((i_bits t =? 64) && negb (i_signed t)) eqn:E.
  - rewrite cast_in_type by assumption; reflexivity.
  - assert (G : forall v, of_type t v -> s64 v).
    { intros v Hv; apply (of_type_s64 t); try assumption; intros X; rewrite X in E; cbn in E.
      destruct (i_signed t); [ reflexivity | discriminate ]. }
    rewrite mul64_ok by (unfold s64; lia); cbn [bind]; rewrite add64_ok by (apply G; exact B2); cbn [bind].
    rewrite cast_in_type by assumption; reflexivity.
Qed.

Lemma range_values_ok t begin step n : forall i,
  (forall j, i <= j < i + Z.of_nat n -> range_value t begin step j = Ok (begin + j * step)) ->
  exists l, range_values t begin step i n = Ok l /\ List.length l = n /\
            forall k, (k < n)%nat -> nth k l 0 = begin + (i + Z.of_nat k) * step.
Proof.
  induction n as [ | n IH ]; intros i H; cbn [range_values].
  - exists []; repeat split; intros k Hk; lia.
  - rewrite H by lia; cbn [bind]; destruct (IH (i + 1)) as (l & -> & L & N); [ intros j Hj; apply H; lia | ].
    cbn [bind]; eexists; split; [ reflexivity | split; [ cbn; lia | ] ].
    intros [ | k ] Hk; cbn [nth]; [ f_equal; f_equal; lia | ]; rewrite N by lia; f_equal; f_equal; lia.
Qed.

Lemma range_from_count t begin end_ step n :
  machine_type t -> of_type t begin -> of_type t end_ -> Z.abs (end_ - begin) < 2 ^ 63 ->
  (if 0 <? step then begin <= end_ else end_ <= begin) -> step <> 0 ->
  range_count t begin end_ step = Ok n -> 0 <= n ->
  (0 < n -> (n - 1) * Z.abs step < Z.abs (end_ - begin)) -> Z.abs (end_ - begin) <= n * Z.abs step ->
  exists l, old_range t begin end_ step = Ok (Some l) /\ is_range begin end_ step l.
Proof.
  intros HT HB HE HD HS HZ HC Hn H1 H2; unfold old_range; rewrite HC; cbn [bind].
  destruct (Z.ltb_spec n 0); [ lia | ].
  assert (V : forall j, 0 <= j < 0 + Z.of_nat (Z.to_nat n) ->
    range_value t begin step j = Ok (begin + j * step) /\ before step (begin + j * step) end_).
  { intros j Hj; apply (range_value_ok t begin end_ step j n); try assumption; try lia; apply H1; lia. }
  destruct (range_values_ok t begin step (Z.to_nat n) 0) as (l & -> & L & N); [ intros j Hj; apply V; exact Hj | ].
  cbn [bind]; exists l; split; [ reflexivity | split ].
  - intros k Hk; rewrite L in Hk; rewrite N by exact Hk; split; [ f_equal; f_equal; lia | ].
    apply V; lia.
  - rewrite L, Z2Nat.id by lia; unfold before; destruct (Z.ltb_spec 0 step) as [X | X].
    + rewrite !Z.abs_eq in H2 by lia; lia.
    + rewrite (Z.abs_neq step), (Z.abs_neq (end_ - begin)) in H2 by lia; lia.
Qed.

(* ================= C109: integer ranges ================= *)

(* The range has exactly the values begin, begin + step, ... before end, for
   every type of 8 to 64 bits, if the distance plus the step can be
   represented in 63 bits, the step can be negated, and uint64_t bounds lie on
   the same side of 2^63. *)
Theorem C109_range_correct_partial t begin end_ step :
  machine_type t -> of_type t begin -> of_type t end_ -> of_type t step ->
  step <> 0 -> (i_signed t = true -> step <> - 2 ^ (i_bits t - 1)) ->
  Z.abs (end_ - begin) + Z.abs step < 2 ^ 63 ->
  (begin < 2 ^ 63 <-> end_ < 2 ^ 63) ->
  exists l, old_range t begin end_ step = Ok (Some l) /\ is_range begin end_ step l.
Proof.
  intros HT HB HE HS HZ HM HD HU.
  assert (EMPTY : range_count t begin end_ step = Ok 0 -> ~ before step begin end_ ->
    exists l, old_range t begin end_ step = Ok (Some l) /\ is_range begin end_ step l).
  { intros H N; unfold old_range; rewrite H; cbn [bind]; exists []; split; [ reflexivity | split ].
    - intros k Hk; cbn in Hk; lia.
    - cbn [List.length]; rewrite Z.add_0_r; exact N. }
  assert (W : forall v, of_type t v -> - 2 ^ 63 <= v < 2 ^ 64).
  { intros v Hv; revert HT Hv; unfold machine_type, of_type, in_type; destruct t as [sg b]; cbn [i_signed i_bits In].
    intros [ <- | [ <- | [ <- | [ <- | [] ] ] ] ]; destruct sg; intros H; cbn in H; lia. }
  assert (DIFF : forall a b, of_type t a -> of_type t b -> (a < 2 ^ 63 <-> b < 2 ^ 63) ->
                 to_ssize a - to_ssize b = a - b).
  { intros a b Ha Hb H; pose proof (W a Ha); pose proof (W b Hb).
    destruct (Z_lt_ge_dec a (2 ^ 63)).
    - rewrite !to_ssize_s64 by (unfold s64; lia); reflexivity.
    - rewrite !to_ssize_high by lia; lia. }
  destruct (Z.ltb_spec 0 step) as [P | P].
  - (* upwards *)
    destruct (Z.leb_spec end_ begin) as [Q | Q].
    + apply EMPTY; [ | unfold before; destruct (Z.ltb_spec 0 step); lia ].
      unfold range_count; destruct (Z.ltb_spec 0 step); [ | lia ]; destruct (Z.leb_spec end_ begin); [ reflexivity | lia ].
    + destruct (quot_ceil (end_ - begin) step ltac:(lia) P) as (Q1 & Q2 & Q3).
      apply (range_from_count t begin end_ step (Z.quot (end_ - begin + step - 1) step)); try assumption; try lia.
      * destruct (Z.ltb_spec 0 step); lia.
      * unfold range_count; destruct (Z.ltb_spec 0 step); [ | lia ]; destruct (Z.leb_spec end_ begin); [ lia | ].
        apply formula_ok; try lia; [ apply to_ssize_s64; unfold s64; lia | apply DIFF; try assumption; lia ].
  - (* downwards: a signed type *)
    assert (SG : i_signed t = true).
    { destruct (i_signed t) eqn:E; [ reflexivity | ]; unfold of_type, in_type in HS; rewrite E in HS; lia. }
    specialize (HM SG).
    destruct (Z.leb_spec begin end_) as [Q | Q].
    + apply EMPTY; [ | unfold before; destruct (Z.ltb_spec 0 step); lia ].
      unfold range_count; destruct (Z.ltb_spec 0 step); [ lia | ]; rewrite SG; cbn [andb].
      destruct (Z.ltb_spec step 0); [ | lia ]; destruct (Z.leb_spec begin end_); [ reflexivity | lia ].
    + destruct (quot_ceil (begin - end_) (- step) ltac:(lia) ltac:(lia)) as (Q1 & Q2 & Q3).
      apply (range_from_count t begin end_ step (Z.quot (begin - end_ + - step - 1) (- step))); try assumption; try lia.
      * destruct (Z.ltb_spec 0 step); lia.
      * unfold range_count; destruct (Z.ltb_spec 0 step); [ lia | ]; rewrite SG; cbn [andb].
        destruct (Z.ltb_spec step 0); [ | lia ]; destruct (Z.leb_spec begin end_); [ lia | ].
        assert (NG : neg_t t step = Ok (- step)).
        { unfold neg_t; destruct (Z.ltb_spec (i_bits t) 32) as [X | X].
          - rewrite cast_in_type; [ reflexivity | exact HT | ].
            revert HS HM; unfold of_type, in_type; rewrite SG; lia.
          - unfold imin; rewrite SG; destruct (Z.eqb_spec step (- 2 ^ (i_bits t - 1))); [ contradiction | reflexivity ]. }
        rewrite NG; cbn [bind]; apply formula_ok; try lia; [ apply to_ssize_s64; unfold s64; lia | apply DIFF; try assumption; lia ].
Qed.
Print Assumptions C109_range_correct_partial.

(* For types of up to 32 bits only the most negative step is excluded. *)
Theorem C109_small_types_partial t begin end_ step :
  In (i_bits t) [8; 16; 32] -> of_type t begin -> of_type t end_ -> of_type t step ->
  step <> 0 -> (i_signed t = true -> step <> - 2 ^ (i_bits t - 1)) ->
  exists l, old_range t begin end_ step = Ok (Some l) /\ is_range begin end_ step l.
Proof.
  intros HT HB HE HS HZ HM.
  assert (W : forall v, of_type t v -> - 2 ^ 32 < v < 2 ^ 32).
  { intros v Hv; revert HT Hv; unfold of_type, in_type; destruct t as [sg b]; cbn [i_signed i_bits In].
    intros [ <- | [ <- | [ <- | [] ] ] ]; destruct sg; intros H; cbn in H; lia. }
  pose proof (W _ HB); pose proof (W _ HE); pose proof (W _ HS).
  apply C109_range_correct_partial; try assumption; try lia.
  destruct HT as [ E | [ E | [ E | [] ] ] ]; unfold machine_type; rewrite <- E; cbn; tauto.
Qed.
Print Assumptions C109_small_types_partial.

(* A zero step is refused, and nothing else is. *)
Theorem C109_zero_step_exact t begin end_ step :
  of_type t step -> ((exists e, old_range t begin end_ step = Throw e) <-> step = 0).
Proof.
  intros HS.
  assert (F : forall a b c e, count_formula a b c <> Throw e).
  { intros a b c e; unfold count_formula, sub64, add64, div64, chk64, bind.
    repeat match goal with |- context [if ?x then _ else _] => destruct x end; discriminate. }
  assert (G : forall n i e, range_values t begin step i n <> Throw e).
  { induction n as [ | n IH ]; intros i e; cbn [range_values]; [ discriminate | ].
    assert (RV : forall e', range_value t begin step i <> Throw e').
    { intros e'; unfold range_value, mul64, add64, chk64, bind.
      repeat match goal with |- context [if ?x then _ else _] => destruct x end; discriminate. }
    destruct (range_value t begin step i) as [ v | e0 | | ]; cbn [bind]; try discriminate; [ | exfalso; exact (RV e0 eq_refl) ].
    destruct (range_values t begin step (i + 1) n) as [ vs | e0 | | ] eqn:E; cbn [bind]; try discriminate.
    exfalso; exact (IH _ _ E). }
  unfold old_range; split.
  - intros [e E].
    destruct (range_count t begin end_ step) as [ n | e0 | | ] eqn:EC; cbn [bind] in E; try discriminate.
    + destruct (n <? 0); [ discriminate | ].
      destruct (range_values t begin step 0 (Z.to_nat n)) as [ | e1 | | ] eqn:EV; cbn [bind] in E; try discriminate.
      exfalso; exact (G _ _ _ EV).
    + unfold range_count in EC; destruct (Z.ltb_spec 0 step).
      { destruct (end_ <=? begin); [ discriminate | exfalso; exact (F _ _ _ _ EC) ]. }
      destruct (i_signed t) eqn:ES; cbn [andb] in EC.
      * destruct (Z.ltb_spec step 0); [ | lia ].
        destruct (begin <=? end_); [ discriminate | ].
        unfold neg_t in EC; destruct (i_bits t <? 32); cbn [bind] in EC; [ exfalso; exact (F _ _ _ _ EC) | ].
        destruct (step =? imin t); cbn [bind] in EC; [ discriminate | exfalso; exact (F _ _ _ _ EC) ].
      * unfold of_type, in_type in HS; rewrite ES in HS; lia.
  - intros ->; unfold range_count; cbn [Z.ltb Z.compare]; rewrite andb_false_r; eexists; reflexivity.
Qed.
Print Assumptions C109_zero_step_exact.

(* The range itself is unique, so a different list is a wrong one. *)
Theorem C109_range_unique begin end_ step l l' :
  step <> 0 -> is_range begin end_ step l -> is_range begin end_ step l' -> l = l'.
Proof.
  intros HZ (A1 & A2) (B1 & B2).
  assert (L : forall m n l0, is_range begin end_ step l0 -> List.length l0 = m -> (n < m)%nat ->
              before step (begin + Z.of_nat n * step) end_).
  { intros m n l0 (C1 & C2) Hm Hn; destruct (C1 n ltac:(lia)) as [E B]; rewrite E in B; exact B. }
  assert (E : List.length l = List.length l').
  { destruct (Nat.lt_trichotomy (List.length l) (List.length l')) as [X | [X | X]]; [ exfalso | exact X | exfalso ].
    - apply A2; apply (L _ _ l' (conj B1 B2) eq_refl X).
    - apply B2; apply (L _ _ l (conj A1 A2) eq_refl X). }
  apply (nth_ext l l' 0 0 E); intros k Hk; destruct (A1 k Hk) as [-> _]; destruct (B1 k ltac:(lia)) as [-> _]; reflexivity.
Qed.
Print Assumptions C109_range_unique.

(* Where it fails: the most negative step (int8_t: two values missing;
   int32_t: undefined), int64_t bounds further apart than 2^63 (undefined),
   and uint64_t bounds on the two sides of 2^63 (an empty var array). *)
Theorem C109_range_refuted :
  old_range (ITy true 8) 127 (-128) (-128) = Ok (Some []) /\
  is_range 127 (-128) (-128) [127; -1] /\
  old_range (ITy true 32) 5 0 (- 2 ^ 31) = UB /\
  old_range (ITy true 64) (- 2 ^ 63) (2 ^ 63 - 1) (2 ^ 62) = UB /\
  old_range (ITy false 64) (2 ^ 63 - 1) (2 ^ 63 + 1) 1 = UB /\
  old_range (ITy false 64) 0 (2 ^ 64 - 1) (2 ^ 62) = Ok (Some []) /\
  old_range (ITy false 64) 0 (2 ^ 64 - 1) 1 = Ok None.
Proof.
  split; [ vm_compute; reflexivity | split ].
  - split; [ | unfold before; cbn; lia ].
    intros [ | [ | k ] ] Hk; cbn [List.length] in Hk; [ split; [ reflexivity | unfold before; cbn; lia ] .. | lia ].
  - repeat split; vm_compute; reflexivity.
Qed.
Print Assumptions C109_range_refuted.

Example C109_example :
  old_range (ITy true 8) 100 (-128) (-100) = Ok (Some [100; 0; -100]) /\
  old_range (ITy false 64) (2 ^ 64 - 5) (2 ^ 64 - 1) 2 = Ok (Some [2 ^ 64 - 5; 2 ^ 64 - 3]) /\
  old_range (ITy false 8) 250 255 4 = Ok (Some [250; 254]).
Proof. repeat split; vm_compute; reflexivity. Qed.
