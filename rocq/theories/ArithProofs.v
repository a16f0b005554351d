(* Lemmas for the arithmetic kernels. *)
From Verif Require Import Base RangeModel RangeSpec RangeProps ArithModel ArithSpec.
Local Open Scope Z_scope.

Definition operand_type (t : ity) : Prop := machine_type t \/ t = bool1_t.
Definition opt (t : ity) : optype := op_of (i_signed t) (i_bits t).
Definition oty (o : optype) : ity := ITy (op_signed o) (op_bits o).
Definition res_type (ta tb : ity) : optype := op_later (opt ta) (opt tb).

Lemma operand_cases t : operand_type t ->
  t = bool1_t \/ (exists s b, t = ITy s b /\ (b = 8 \/ b = 16)) \/
  (exists o, t = oty o).
Proof.
  destruct t as [s b]; intros [H | H]; [ | left; exact H ].
  right; unfold machine_type in H; cbn [i_bits In] in H.
  destruct H as [H | [H | [H | [H | [] ] ] ] ]; subst b;
    [ left; exists s, 8; auto | left; exists s, 16; auto | right | right ]; destruct s.
  - exists I32; reflexivity.
  - exists U32; reflexivity.
  - exists I64; reflexivity.
  - exists U64; reflexivity.
Qed.

Lemma promote_opt t : operand_type t -> promote t = oty (opt t).
Proof.
  intros H; destruct (operand_cases t H) as [ -> | [ (s & b & -> & [ -> | -> ]) | (o & ->) ] ]; try reflexivity.
  destruct o; reflexivity.
Qed.

Lemma common_later o1 o2 :
  (if Bool.eqb (op_signed o1) (op_signed o2) then (if op_bits o1 <? op_bits o2 then oty o2 else oty o1)
   else let s := if op_signed o1 then oty o1 else oty o2 in
        let u := if op_signed o1 then oty o2 else oty o1 in
        if i_bits u <? i_bits s then s else u) = oty (op_later o1 o2).
Proof. destruct o1, o2; reflexivity. Qed.

Lemma common_oty ta tb : operand_type ta -> operand_type tb -> common ta tb = oty (res_type ta tb).
Proof.
  intros HA HB; unfold common; rewrite (promote_opt ta HA), (promote_opt tb HB).
  exact (common_later (opt ta) (opt tb)).
Qed.

Lemma machine_oty o : machine_type (oty o).
Proof. destruct o; unfold machine_type; cbn; auto. Qed.

Lemma cast_holds o v : op_holds o v -> cast (oty o) v = v.
Proof. intros H; apply cast_in_type; [ apply machine_oty | exact H ]. Qed.

Lemma cast_wrap_gen h v : 0 < h ->
  let u := v mod (2 * h) in
  (- h <= (if h <=? u then u - 2 * h else u) < h) /\
  exists k, (if h <=? u then u - 2 * h else u) = v + k * (2 * h).
Proof.
  intros H u; pose proof (Z.mod_pos_bound v (2 * h) ltac:(lia)) as B.
  pose proof (Z.div_mod v (2 * h) ltac:(lia)) as D; fold u in B, D.
  destruct (Z.leb_spec h u).
  - split; [ lia | exists (- (v / (2 * h)) - 1); lia ].
  - split; [ lia | exists (- (v / (2 * h))); lia ].
Qed.

Lemma cast_op_wrap o v : op_wrap o v (cast (oty o) v).
Proof.
  unfold op_wrap, op_holds, in_type, cast, oty; cbn [i_signed i_bits].
  destruct o; cbn [op_signed op_bits andb].
  - exact (cast_wrap_gen (2 ^ 31) v ltac:(reflexivity)).
  - split; [ apply Z.mod_pos_bound; reflexivity | exists (- (v / 2 ^ 32)) ].
    pose proof (Z.div_mod v (2 ^ 32) ltac:(discriminate)); lia.
  - exact (cast_wrap_gen (2 ^ 63) v ltac:(reflexivity)).
  - split; [ apply Z.mod_pos_bound; reflexivity | exists (- (v / 2 ^ 64)) ].
    pose proof (Z.div_mod v (2 ^ 64) ltac:(discriminate)); lia.
Qed.

Lemma holds_close o v w k : op_holds o v -> op_holds o w -> w = v + k * 2 ^ op_bits o -> v = w.
Proof.
  unfold op_holds, in_type; intros HV HW E.
  destruct o; cbn [op_signed op_bits] in *;
    match type of E with context [2 ^ ?b] => let x := eval vm_compute in (2 ^ b) in change (2 ^ b) with x in * end;
    repeat match goal with H : context [2 ^ ?b] |- _ =>
      let x := eval vm_compute in (2 ^ b) in change (2 ^ b) with x in * end; lia.
Qed.

Lemma op_wrap_fun o v w w' : op_wrap o v w -> op_wrap o v w' -> w = w'.
Proof.
  intros (H & k & E) (H' & k' & E'); apply (holds_close o w w' (k' - k)); auto; lia.
Qed.

Lemma op_wrap_holds o v : op_holds o v -> op_wrap o v v.
Proof. intros H; split; [ exact H | exists 0; lia ]. Qed.

Lemma op_wrap_cong o v v' w k : v' = v + k * 2 ^ op_bits o -> op_wrap o v w -> op_wrap o v' w.
Proof. intros E (H & k' & E'); split; [ exact H | exists (k' - k); lia ]. Qed.

Lemma wrap_cast o v w : op_wrap o v w -> cast (oty o) v = w.
Proof. intros H; exact (op_wrap_fun o v _ _ (cast_op_wrap o v) H). Qed.

Lemma op_holds_dec o v : {op_holds o v} + {~ op_holds o v}.
Proof.
  unfold op_holds, in_type; destruct (op_signed o).
  - destruct (Z_le_gt_dec (- 2 ^ (op_bits o - 1)) v), (Z_lt_ge_dec v (2 ^ (op_bits o - 1)));
      try (left; lia); right; lia.
  - destruct (Z_le_gt_dec 0 v), (Z_lt_ge_dec v (2 ^ op_bits o)); try (left; lia); right; lia.
Qed.

Lemma compute_spec o v :
  (op_holds o v -> compute (oty o) v = Ok v) /\
  (~ op_holds o v -> op_signed o = true -> compute (oty o) v = UB) /\
  (op_signed o = false -> compute (oty o) v = Ok (cast (oty o) v)).
Proof.
  unfold compute; cbn [oty i_signed].
  split; [ | split ].
  - intros H; destruct (op_signed o) eqn:S.
    + unfold op_holds, in_type in H; rewrite S in H.
      unfold imin, imax, oty; cbn [i_signed i_bits]; rewrite S.
      destruct (Z.leb_spec (- 2 ^ (op_bits o - 1)) v); [ | lia ].
      destruct (Z.leb_spec v (2 ^ (op_bits o - 1) - 1)); [ reflexivity | lia ].
    + f_equal; apply cast_holds; exact H.
  - intros N S; rewrite S; unfold op_holds, in_type in N; rewrite S in N.
    unfold imin, imax, oty; cbn [i_signed i_bits]; rewrite S.
    destruct (Z.leb_spec (- 2 ^ (op_bits o - 1)) v); [ | reflexivity ].
    destruct (Z.leb_spec v (2 ^ (op_bits o - 1) - 1)); [ lia | reflexivity ].
  - intros S; rewrite S; reflexivity.
Qed.

(* what an operand type fits into *)
Lemma operand_range t a : operand_type t -> of_type t a ->
  match opt t with
  | I32 => - 2 ^ 31 <= a < 2 ^ 31 | U32 => 0 <= a < 2 ^ 32
  | I64 => - 2 ^ 63 <= a < 2 ^ 63 | U64 => 0 <= a < 2 ^ 64
  end.
Proof.
  intros HT H; destruct (operand_cases t HT) as [ -> | [ (s & b & -> & [ -> | -> ]) | (o & ->) ] ];
    unfold of_type, in_type in H; cbn [bool1_t i_signed i_bits oty] in H.
  - change (opt bool1_t) with I32; cbv iota; change (0 <= a < 2) in H; lia.
  - change (opt (ITy s 8)) with I32; cbv iota; destruct s.
    + change (2 ^ (8 - 1)) with 128 in H; lia.
    + change (2 ^ 8) with 256 in H; lia.
  - change (opt (ITy s 16)) with I32; cbv iota; destruct s.
    + change (2 ^ (16 - 1)) with 32768 in H; lia.
    + change (2 ^ 16) with 65536 in H; lia.
  - destruct o; cbn [op_signed op_bits] in H;
      [ change (opt (oty I32)) with I32 | change (opt (oty U32)) with U32
      | change (opt (oty I64)) with I64 | change (opt (oty U64)) with U64 ]; exact H.
Qed.

Lemma op_later_l o1 o2 : op_rank o1 <= op_rank (op_later o1 o2).
Proof. destruct o1, o2; cbn; lia. Qed.
Lemma op_later_r o1 o2 : op_rank o2 <= op_rank (op_later o1 o2).
Proof. destruct o1, o2; cbn; lia. Qed.
Lemma op_later_comm o1 o2 : op_later o1 o2 = op_later o2 o1.
Proof. destruct o1, o2; reflexivity. Qed.

(* an operand is held by its own or a later type unless it is negative and the
   later type is unsigned *)
Lemma operand_holds t a o : operand_type t -> of_type t a -> op_rank (opt t) <= op_rank o ->
  (op_signed o = true \/ 0 <= a) -> op_holds o a.
Proof.
  intros HT H L D; pose proof (operand_range t a HT H) as R.
  unfold op_holds, in_type; destruct (opt t), o; cbn [op_rank op_signed op_bits] in *; try lia;
    destruct D as [D | D]; try discriminate;
    repeat match goal with
    | |- context [2 ^ ?b] => let x := eval vm_compute in (2 ^ b) in change (2 ^ b) with x in *
    | H : context [2 ^ ?b] |- _ => let x := eval vm_compute in (2 ^ b) in change (2 ^ b) with x in *
    end; lia.
Qed.

Lemma operand_not_held t a o : operand_type t -> of_type t a -> op_rank (opt t) <= op_rank o ->
  ~ op_holds o a -> op_signed o = false /\ - 2 ^ op_bits o < a < 0.
Proof.
  intros HT H L N.
  assert (S : op_signed o = false)
    by (destruct (op_signed o) eqn:S; auto; destruct N; apply (operand_holds t a o); auto).
  assert (A : a < 0) by (destruct (Z_lt_ge_dec a 0); auto; destruct N; apply (operand_holds t a o); auto; right; lia).
  split; [ exact S | split; [ | exact A ] ].
  pose proof (operand_range t a HT H) as R.
  destruct (opt t), o; cbn [op_rank op_signed op_bits] in *; try discriminate;
    repeat match goal with
    | |- context [2 ^ ?b] => let x := eval vm_compute in (2 ^ b) in change (2 ^ b) with x in *
    | H : context [2 ^ ?b] |- _ => let x := eval vm_compute in (2 ^ b) in change (2 ^ b) with x in *
    end; lia.
Qed.

Lemma cast_l_zero t b o : operand_type t -> of_type t b -> op_rank (opt t) <= op_rank o ->
  cast (oty o) b = 0 <-> b = 0.
Proof.
  intros HT H L; split.
  - intros E; destruct (op_holds_dec o b) as [Y | N]; [ rewrite (cast_holds _ _ Y) in E; exact E | ].
    destruct (operand_not_held t b o HT H L N) as (S & B).
    destruct (cast_op_wrap o b) as (_ & k & K); rewrite E in K.
    assert (P : 0 < 2 ^ op_bits o) by (destruct o; reflexivity).
    assert (b = - k * 2 ^ op_bits o) by lia.
    assert (0 < k \/ k <= 0) as [Q | Q] by lia; nia.
  - intros ->; apply cast_holds; unfold op_holds, in_type; destruct o; cbn; lia.
Qed.

(* a negative operand in an unsigned type *)
Lemma cast_negative t a o : operand_type t -> of_type t a -> op_rank (opt t) <= op_rank o ->
  op_signed o = false -> a < 0 -> cast (oty o) a = a + 2 ^ op_bits o.
Proof.
  intros HT H L S A.
  assert (N : ~ op_holds o a) by (unfold op_holds, in_type; rewrite S; lia).
  destruct (operand_not_held t a o HT H L N) as (_ & B).
  apply wrap_cast; split; [ | exists 1; lia ].
  unfold op_holds, in_type; rewrite S; lia.
Qed.

Lemma mod_bits o v w k i : w = v + k * 2 ^ op_bits o -> 0 <= i < op_bits o -> Z.testbit w i = Z.testbit v i.
Proof.
  intros -> H.
  rewrite <- (Z.mod_pow2_bits_low (v + k * 2 ^ op_bits o) (op_bits o) i) by lia.
  rewrite Z.mod_add by (destruct o; discriminate).
  apply Z.mod_pow2_bits_low; lia.
Qed.
