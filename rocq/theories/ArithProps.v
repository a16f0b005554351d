(* C110-C115: comparison, arithmetic, division, bitwise, unary and compound
   kernels on bool and the integer types. *)
From Verif Require Import Base RangeModel RangeSpec RangeProps ArithModel ArithSpec ArithProofs.
Local Open Scope Z_scope.

(* the operands of a binary operation *)
Definition operands (ta tb : ity) (a b : Z) : Prop :=
  operand_type ta /\ operand_type tb /\ of_type ta a /\ of_type tb b.

(* ---------------------------------------------------------------- C110 *)

Lemma compare_common o ta tb a b : operands ta tb a b ->
  compare o ta tb a b =
  cmp_exact o (cast (oty (res_type ta tb)) a) (cast (oty (res_type ta tb)) b).
Proof.
  intros (HA & HB & VA & VB); unfold compare.
  destruct (same_type ta tb) eqn:E; [ | rewrite common_oty; auto ].
  unfold same_type in E; apply andb_prop in E; destruct E as (E1 & E2).
  apply eqb_prop in E1; apply Z.eqb_eq in E2.
  assert (ta = tb) as <- by (destruct ta, tb; cbn in *; congruence).
  unfold res_type; replace (op_later (opt ta) (opt ta)) with (opt ta) by (destruct (opt ta); reflexivity).
  assert (H : forall v, of_type ta v -> op_holds (opt ta) v).
  { intros v V; pose proof (operand_range ta v HA V) as R; unfold op_holds, in_type.
    destruct (opt ta); exact R. }
  rewrite !cast_holds; auto.
Qed.

(* what each comparison asks of two integers *)
Definition meets (o : cop) (a b : Z) : Prop :=
  match o with
  | Lt => a < b | Le => a <= b | Eq => a = b | Ne => a <> b | Ge => a >= b | Gt => a > b
  end.
Lemma cmp_meets o a b : cmp_exact o a b = true <-> meets o a b.
Proof.
  destruct o; cbn [cmp_exact meets]; rewrite ?negb_true_iff, ?Z.ltb_lt, ?Z.leb_le, ?Z.eqb_eq, ?Z.eqb_neq; lia.
Qed.

(* When the type the comparison is done in can hold both values, and in
   particular when it is signed or neither value is negative, each of the six
   comparisons answers for the integers themselves. *)
Theorem C110_comparison_correct_partial o ta tb a b : operands ta tb a b ->
  op_signed (res_type ta tb) = true \/ (0 <= a /\ 0 <= b) ->
  compare o ta tb a b = true <-> meets o a b.
Proof.
  intros H D; rewrite <- cmp_meets; rewrite compare_common by auto; destruct H as (HA & HB & VA & VB).
  rewrite !cast_holds; [ tauto | | ];
    [ apply (operand_holds tb) | apply (operand_holds ta) ]; auto; try apply op_later_l; try apply op_later_r; tauto.
Qed.
Print Assumptions C110_comparison_correct_partial.

(* Operands of one type are always compared correctly. *)
Theorem C110_same_type_correct o t a b : operand_type t -> of_type t a -> of_type t b ->
  compare o t t a b = true <-> meets o a b.
Proof.
  intros _ _ _; rewrite <- cmp_meets; unfold compare, same_type; rewrite eqb_reflx, Z.eqb_refl; tauto.
Qed.
Print Assumptions C110_same_type_correct.

(* Otherwise the operation type is unsigned and a negative operand is replaced
   by the value 2^32 or 2^64 above it: the exact answer in every case. *)
Theorem C110_mixed_sign_exact o ta tb a b : operands ta tb a b ->
  op_signed (res_type ta tb) = false ->
  let m := 2 ^ op_bits (res_type ta tb) in
  compare o ta tb a b = true <->
  meets o (if a <? 0 then a + m else a) (if b <? 0 then b + m else b).
Proof.
  intros H S m; rewrite <- cmp_meets; rewrite compare_common by auto; destruct H as (HA & HB & VA & VB).
  assert (C : forall t v, operand_type t -> of_type t v -> op_rank (opt t) <= op_rank (res_type ta tb) ->
    cast (oty (res_type ta tb)) v = if v <? 0 then v + m else v).
  { intros t v HT V L; destruct (Z.ltb_spec v 0).
    - apply (cast_negative t); auto.
    - apply cast_holds, (operand_holds t); auto. }
  rewrite (C ta a), (C tb b); auto; try apply op_later_r; try apply op_later_l; tauto.
Qed.
Print Assumptions C110_mixed_sign_exact.

(* For every pair of operands the six answers are consistent with each other:
   exactly one of less, equal and greater holds, the others are the negations,
   and swapping the operands swaps the answers. *)
Theorem C110_trichotomy ta tb a b : operands ta tb a b ->
  let lt := compare Lt ta tb a b in
  let eq := compare Eq ta tb a b in
  let gt := compare Gt ta tb a b in
  ((lt = true /\ eq = false /\ gt = false) \/ (lt = false /\ eq = true /\ gt = false) \/
   (lt = false /\ eq = false /\ gt = true)) /\
  compare Ne ta tb a b = negb eq /\ compare Le ta tb a b = negb gt /\ compare Ge ta tb a b = negb lt /\
  compare Lt tb ta b a = gt /\ compare Eq tb ta b a = eq /\ compare Gt tb ta b a = lt.
Proof.
  intros H; assert (H' : operands tb ta b a) by (destruct H as (?&?&?&?); repeat split; auto).
  cbv zeta; rewrite !compare_common by auto.
  replace (res_type tb ta) with (res_type ta tb) by apply op_later_comm.
  set (x := cast (oty (res_type ta tb)) a); set (y := cast (oty (res_type ta tb)) b).
  unfold cmp_exact.
  destruct (Z.ltb_spec x y), (Z.eqb_spec x y), (Z.ltb_spec y x), (Z.leb_spec x y), (Z.leb_spec y x), (Z.eqb_spec y x);
    cbn [negb]; try lia; repeat split; auto.
Qed.
Print Assumptions C110_trichotomy.

(* The full claim fails: -1 is not less than 1, and -1 equals 2^64 - 1. *)
Theorem C110_comparison_refuted :
  ~ (forall o ta tb a b, operands ta tb a b -> (compare o ta tb a b = true <-> meets o a b)).
Proof.
  intros H; specialize (H Lt (ITy true 32) (ITy false 32) (-1) 1).
  assert (operands (ITy true 32) (ITy false 32) (-1) 1)
    by (repeat split; try (left; unfold machine_type; cbn; tauto); cbn; lia).
  specialize (H H0); apply proj2 in H; cbn [meets] in H; specialize (H ltac:(lia)); vm_compute in H; discriminate.
Qed.
Print Assumptions C110_comparison_refuted.

(* and equality across types is not transitive: int32 -1 equals uint32 2^32-1,
   which equals int64 2^32-1, which is not equal to int32 -1 *)
Theorem C110_equality_not_transitive : exists ta tb tc a b c,
  operands ta tb a b /\ operands tb tc b c /\
  compare Eq ta tb a b = true /\ compare Eq tb tc b c = true /\ compare Eq ta tc a c = false.
Proof.
  exists (ITy true 32), (ITy false 32), (ITy true 64), (-1), (2 ^ 32 - 1), (2 ^ 32 - 1).
  split; [ | split ];
    [ repeat split; try (left; unfold machine_type; cbn; tauto); cbn; lia
    | repeat split; try (left; unfold machine_type; cbn; tauto); cbn; lia
    | vm_compute; auto ].
Qed.
Print Assumptions C110_equality_not_transitive.

(* Tuples: equal if and only if all fields are, not_equal is the negation, and
   no field after the first that differs is looked at. *)
Definition field_equal (f : field) : Prop := let '(ta, tb, a, b) := f in compare Eq ta tb a b = true.
Theorem C110_tuple_equal fs :
  (fst (tuple_equal 0 fs) = true <-> Forall field_equal fs) /\
  fst (tuple_not_equal 0 fs) = negb (fst (tuple_equal 0 fs)) /\
  snd (tuple_not_equal 0 fs) = snd (tuple_equal 0 fs).
Proof.
  assert (G : forall n, (fst (tuple_equal n fs) = true <-> Forall field_equal fs) /\
    fst (tuple_not_equal n fs) = negb (fst (tuple_equal n fs)) /\
    snd (tuple_not_equal n fs) = snd (tuple_equal n fs)); [ | apply G ].
  induction fs as [ | [ [ [ta tb] a] b] fs IH ]; intros n; cbn [tuple_equal tuple_not_equal].
  - cbn; repeat split; auto.
  - assert (E : compare Ne ta tb a b = negb (compare Eq ta tb a b))
      by (unfold compare; destruct (same_type ta tb); reflexivity).
    rewrite E; destruct (compare Eq ta tb a b) eqn:Q; cbn [negb].
    + destruct (IH (Datatypes.S n)) as (I & J); split; [ | exact J ].
      rewrite I; split; intros F; [ constructor; auto | inversion F; auto ].
    + cbn [fst snd negb]; split; [ | auto ].
      split; [ discriminate | ]; intros F; inversion F as [ | x l P _ ]; subst; cbn in P; congruence.
Qed.
Print Assumptions C110_tuple_equal.

Theorem C110_tuple_short_circuit pre f post : Forall field_equal pre -> ~ field_equal f ->
  tuple_equal 0 (pre ++ f :: post) = (false, Datatypes.S (List.length pre)).
Proof.
  intros HP HF.
  assert (G : forall n, tuple_equal n (pre ++ f :: post) = (false, (n + Datatypes.S (List.length pre))%nat));
    [ | apply G ].
  induction HP as [ | [ [ [ta tb] a] b] pre P _ IH ]; intros n; cbn [app tuple_equal List.length].
  - destruct f as [ [ [ta tb] a] b]; cbn in HF; destruct (compare Eq ta tb a b); [ destruct HF; reflexivity | ].
    cbn [negb]; f_equal; lia.
  - cbn in P; rewrite P; cbn [negb]; rewrite IH; f_equal; lia.
Qed.
Print Assumptions C110_tuple_short_circuit.

(* ---------------------------------------------------------------- C111 *)

(* The type in which two operands are combined is the later of the two. *)
Theorem C111_result_type ta tb : operand_type ta -> operand_type tb ->
  i_signed (common ta tb) = op_signed (op_later (op_of (i_signed ta) (i_bits ta)) (op_of (i_signed tb) (i_bits tb))) /\
  i_bits (common ta tb) = op_bits (op_later (op_of (i_signed ta) (i_bits ta)) (op_of (i_signed tb) (i_bits tb))).
Proof. intros HA HB; rewrite common_oty by auto; split; reflexivity. Qed.
Print Assumptions C111_result_type.

Definition apply_op (o : aop) (a b : Z) : Z := match o with Add => a + b | Sub => a - b | Mul => a * b end.

Lemma aop_cong o a b k l m : exists j, aop_exact o (a + k * m) (b + l * m) = aop_exact o a b + j * m.
Proof.
  destruct o; cbn [aop_exact]; [ exists (k + l) | exists (k - l) | exists (k * b + l * a + k * l * m) ]; ring.
Qed.

(* add, subtract and multiply give the exact result whenever their result type
   can hold it, also for a negative operand combined in an unsigned type. If it
   cannot, the operation is undefined in a signed type and wraps around in an
   unsigned one. *)
Theorem C111_arithmetic_exact o ta tb a b : operands ta tb a b ->
  let c := res_type ta tb in
  (op_holds c (apply_op o a b) -> arith o ta tb a b = Ok (apply_op o a b)) /\
  (~ op_holds c (apply_op o a b) ->
   if op_signed c then arith o ta tb a b = UB
   else exists w, arith o ta tb a b = Ok w /\ op_wrap c (apply_op o a b) w).
Proof.
  intros (HA & HB & VA & VB) c; unfold arith; rewrite common_oty by auto; fold c.
  change (apply_op o a b) with (aop_exact o a b).
  destruct (compute_spec c (aop_exact o (cast (oty c) a) (cast (oty c) b))) as (P1 & P2 & P3).
  destruct (op_signed c) eqn:S.
  - assert (CA : cast (oty c) a = a) by (apply cast_holds, (operand_holds ta); auto; apply op_later_l).
    assert (CB : cast (oty c) b = b) by (apply cast_holds, (operand_holds tb); auto; apply op_later_r).
    rewrite CA, CB in *; split; auto.
  - rewrite (P3 eq_refl).
    destruct (cast_op_wrap c a) as (_ & k & KA); destruct (cast_op_wrap c b) as (_ & l & KB).
    destruct (aop_cong o a b k l (2 ^ op_bits c)) as (j & J).
    assert (W : op_wrap c (aop_exact o a b) (cast (oty c) (aop_exact o (cast (oty c) a) (cast (oty c) b)))).
    { pose proof (cast_op_wrap c (aop_exact o (cast (oty c) a) (cast (oty c) b))) as Q.
      refine (op_wrap_cong c _ _ _ (- j) _ Q).
      rewrite KA, KB, J; ring. }
    split; [ intros H | intros _; eauto ].
    f_equal; apply (op_wrap_fun c (aop_exact o a b)); [ exact W | apply op_wrap_holds, H ].
Qed.
Print Assumptions C111_arithmetic_exact.

(* Operands of 8 bits, and of 16 bits if they are only added or subtracted,
   never overflow: the result is always the exact one. *)
Theorem C111_narrow_never_overflows o ta tb a b : operands ta tb a b ->
  i_bits ta <= 16 -> i_bits tb <= 16 ->
  (o = Mul -> ta <> ITy false 16 \/ tb <> ITy false 16) ->
  arith o ta tb a b = Ok (apply_op o a b).
Proof.
  intros H LA LB U; apply (C111_arithmetic_exact o ta tb a b H).
  destruct H as (HA & HB & VA & VB).
  assert (NA : opt ta = I32) by (unfold opt, op_of; destruct (Z.ltb_spec (i_bits ta) 32); [ reflexivity | lia ]).
  assert (NB : opt tb = I32) by (unfold opt, op_of; destruct (Z.ltb_spec (i_bits tb) 32); [ reflexivity | lia ]).
  unfold res_type; rewrite NA, NB; cbn [op_later op_rank Z.ltb Z.compare].
  change (op_later I32 I32) with I32.
  unfold op_holds, in_type; cbn [op_signed op_bits]; change (2 ^ (32 - 1)) with 2147483648.
  assert (B : forall t v, operand_type t -> i_bits t <= 16 -> of_type t v ->
     -32768 <= v <= 65535 /\ (t <> ITy false 16 -> v <= 32767)).
  { intros t v HT L V; destruct (operand_cases t HT) as [ -> | [ (s & bb & -> & [ -> | -> ]) | (oo & ->) ] ];
      unfold of_type, in_type in V; cbn [bool1_t i_signed i_bits oty] in *.
    - change (0 <= v < 2) in V; lia.
    - destruct s; [ change (-128 <= v < 128) in V | change (0 <= v < 256) in V ]; lia.
    - destruct s; [ change (-32768 <= v < 32768) in V | change (0 <= v < 65536) in V ]; try lia.
      split; [ lia | intros N; destruct N; reflexivity ].
    - destruct oo; cbn [op_bits] in L; lia. }
  pose proof (B ta a HA LA VA) as (BA & BA'); pose proof (B tb b HB LB VB) as (BB & BB').
  destruct o; cbn [apply_op]; try lia.
  destruct (U eq_refl) as [N | N]; [ specialize (BA' N) | specialize (BB' N) ]; clear - BA BB BA' BB'; nia.
Qed.
Print Assumptions C111_narrow_never_overflows.

(* The claim that any two values of a type can be multiplied without undefined
   behaviour fails already for uint16. *)
Theorem C111_arithmetic_refuted :
  arith Mul (ITy false 16) (ITy false 16) 65535 65535 = UB /\
  arith Add (ITy true 32) (ITy true 32) (2 ^ 31 - 1) 1 = UB /\
  arith Sub (ITy false 32) (ITy false 32) 1 2 = Ok (2 ^ 32 - 1).
Proof. vm_compute; auto. Qed.
Print Assumptions C111_arithmetic_refuted.

(* ---------------------------------------------------------------- C112 *)

(* Dividing by zero is reported unless the dividend is signed (or bool) and the
   divisor is unsigned: then it is undefined. *)
Theorem C112_zero_divisor_exact o ta tb a : operands ta tb a 0 ->
  divide o ta tb a 0 =
  if (i_signed ta || (i_bits ta =? 1)) && (negb (i_signed tb) && negb (i_bits tb =? 1)) then UB
  else Throw "Integer division or modulo by zero.".
Proof.
  intros (HA & HB & VA & VB).
  unfold divide, needs_zero_check, is_signed_integral, is_unsigned_integral, is_bool, builtin_div.
  replace (cast (common ta tb) 0) with 0
    by (symmetry; rewrite common_oty by auto; apply (cast_l_zero tb 0); auto; apply op_later_r).
  rewrite Z.eqb_refl.
  destruct (i_bits ta =? 1), (i_bits tb =? 1), (i_signed ta), (i_signed tb); reflexivity.
Qed.
Print Assumptions C112_zero_divisor_exact.

Lemma quot_rem_spec a b : b <> 0 -> is_quotient a b (Z.quot a b) (Z.rem a b).
Proof.
  intros H; unfold is_quotient; pose proof (Z.quot_rem' a b) as Q.
  pose proof (Z.rem_bound_abs a b H).
  split; [ lia | split; [ lia | ] ].
  destruct (Z.eq_dec (Z.rem a b) 0); [ auto | right; apply Z.rem_sign_nz; auto ].
Qed.

Lemma is_quotient_unique a b q r q' r' : is_quotient a b q r -> is_quotient a b q' r' -> q = q' /\ r = r'.
Proof.
  intros (E & B & S) (E' & B' & S').
  assert (D : (q - q') * b = r' - r) by lia.
  assert (q = q'); [ | subst; split; auto; lia ].
  destruct (Z.eq_dec q q') as [ | N ]; auto; exfalso.
  assert (Z.abs b <= Z.abs (r' - r)) by (rewrite <- D, Z.abs_mul; nia).
  destruct S as [S | S], S' as [S' | S']; try lia.
Qed.

Lemma quot_le_abs a b : b <> 0 -> Z.abs (Z.quot a b) <= Z.abs a.
Proof.
  intros H; rewrite <- Z.quot_abs by auto.
  rewrite Z.quot_div_nonneg by lia.
  apply Z.div_le_upper_bound; [ lia | ].
  assert (1 <= Z.abs b) by lia; assert (0 <= Z.abs a) by lia; nia.
Qed.
Lemma rem_le_abs a b : b <> 0 -> Z.abs (Z.rem a b) <= Z.abs a.
Proof. intros H; rewrite <- Z.rem_abs by auto; apply Z.rem_le; lia. Qed.
Lemma quot_neg_one a b : a < 0 -> b <> 0 -> Z.quot a b = - a -> b = -1.
Proof.
  intros A H E.
  assert (F : Z.quot (Z.abs a) (Z.abs b) = Z.abs a) by (rewrite Z.quot_abs, E by auto; lia).
  rewrite Z.quot_div_nonneg in F by lia.
  assert (B : Z.abs b = 1).
  { destruct (Z.eq_dec (Z.abs b) 1); auto; exfalso.
    assert (Z.abs a / Z.abs b < Z.abs a) by (apply Z.div_lt; lia); lia. }
  assert (b = 1 \/ b = -1) as [ -> | -> ] by lia; auto.
  rewrite Z.quot_1_r in E; lia.
Qed.

(* Otherwise divide and mod give the truncated quotient and its remainder when
   both operands are held by the operation type, except for the smallest value
   of a signed type divided by -1, which is undefined. *)
Theorem C112_divide_correct_partial ta tb a b : operands ta tb a b -> b <> 0 ->
  let c := res_type ta tb in
  op_signed c = true \/ (0 <= a /\ 0 <= b) ->
  (op_signed c = true -> a = - 2 ^ (op_bits c - 1) -> b = -1 ->
     divide Div ta tb a b = UB /\ divide Mod ta tb a b = UB) /\
  (~ (op_signed c = true /\ a = - 2 ^ (op_bits c - 1) /\ b = -1) ->
     exists q r, divide Div ta tb a b = Ok q /\ divide Mod ta tb a b = Ok r /\ is_quotient a b q r /\
       op_holds c q /\ op_holds c r).
Proof.
  intros (HA & HB & VA & VB) NB c D.
  assert (OA : op_holds c a) by (apply (operand_holds ta); auto; [ apply op_later_l | tauto ]).
  assert (OB : op_holds c b) by (apply (operand_holds tb); auto; [ apply op_later_r | tauto ]).
  unfold divide, builtin_div; rewrite common_oty by auto; fold c.
  rewrite (cast_holds c a OA), (cast_holds c b OB).
  destruct (Z.eqb_spec b 0) as [ | _ ]; [ contradiction | ]; rewrite andb_false_r.
  unfold imin; cbn [oty i_signed i_bits].
  split.
  - intros S -> ->; rewrite S, Z.eqb_refl; split; reflexivity.
  - intros N; exists (Z.quot a b), (Z.rem a b).
    pose proof (quot_rem_spec a b NB) as Q.
    assert (X : op_signed c && (a =? (if op_signed c then - 2 ^ (op_bits c - 1) else 0)) && (b =? -1) = false).
    { destruct (op_signed c) eqn:S; cbn [andb]; auto.
      destruct (Z.eqb_spec a (- 2 ^ (op_bits c - 1))), (Z.eqb_spec b (-1)); auto; destruct N; auto. }
    rewrite X; split; [ reflexivity | split; [ reflexivity | split; [ exact Q | ] ] ].
    destruct Q as (E & R & SG); set (q := Z.quot a b) in *; set (r := Z.rem a b) in *.
    clear E R X.
    assert (AR : Z.abs r <= Z.abs a) by (apply rem_le_abs; exact NB).
    assert (AQ : Z.abs q <= Z.abs a) by (apply quot_le_abs; exact NB).
    assert (AP : 0 <= a -> 0 <= b -> 0 <= q).
    { intros; unfold q; apply Z.quot_pos; lia. }
    assert (RP : 0 <= a -> 0 <= r) by (intros; destruct SG as [ -> | SG ]; lia).
    assert (RN : a <= 0 -> r <= 0) by (intros; destruct SG as [ -> | SG ]; lia).
    clear SG; unfold op_holds, in_type in *; destruct (op_signed c) eqn:S; [ | lia ].
    clear VA VB D; set (h := 2 ^ (op_bits c - 1)) in *; clearbody h r.
    split; [ | lia ].
    destruct (Z.eq_dec (Z.abs q) (Z.abs a)) as [ EQ | NQ ]; [ | lia ].
    destruct (Z_lt_ge_dec q h); [ lia | exfalso ].
    assert (EA : a = - h) by lia.
    assert (QA : q = - a) by lia.
    assert (AP2 : a < 0) by lia.
    assert (b = -1); [ | destruct N; auto ].
    apply (quot_neg_one a b AP2 NB); exact QA.
Qed.
Print Assumptions C112_divide_correct_partial.

(* Whatever the operands, when divide returns then mod does, and the two agree:
   quotient times divisor plus remainder is the dividend in the operation type. *)
Theorem C112_divide_mod_identity ta tb a b q : operands ta tb a b ->
  divide Div ta tb a b = Ok q ->
  exists r k, divide Mod ta tb a b = Ok r /\
    a = q * b + r + k * 2 ^ op_bits (res_type ta tb).
Proof.
  intros (HA & HB & VA & VB); unfold divide.
  destruct (needs_zero_check ta tb && (b =? 0)); [ discriminate | ].
  unfold builtin_div; rewrite common_oty by auto.
  set (c := res_type ta tb).
  destruct (cast (oty c) b =? 0); [ discriminate | ].
  destruct (i_signed (oty c) && (cast (oty c) a =? imin (oty c)) && (cast (oty c) b =? -1)); [ discriminate | ].
  intros E; injection E as <-; eexists; 
    destruct (cast_op_wrap c a) as (_ & k & KA); destruct (cast_op_wrap c b) as (_ & l & KB).
  exists (Z.quot (cast (oty c) a) (cast (oty c) b) * l - k); split; [ reflexivity | ].
  pose proof (Z.quot_rem' (cast (oty c) a) (cast (oty c) b)).
  set (q := Z.quot (cast (oty c) a) (cast (oty c) b)) in *; set (r := Z.rem (cast (oty c) a) (cast (oty c) b)) in *.
  set (m := 2 ^ op_bits c) in *; clearbody q r m; rewrite KA, KB in H.
  assert (a = (b + l * m) * q + r - k * m) as -> by lia; ring.
Qed.
Print Assumptions C112_divide_mod_identity.

(* The claim that a zero divisor is always reported fails. *)
Theorem C112_divide_refuted :
  ~ (forall o ta tb a, operands ta tb a 0 -> exists msg, divide o ta tb a 0 = Throw msg).
Proof.
  intros H; destruct (H Div (ITy true 32) (ITy false 32) 7) as (m & E).
  - repeat split; try (left; unfold machine_type; cbn; tauto); cbn; lia.
  - vm_compute in E; discriminate.
Qed.
Print Assumptions C112_divide_refuted.
Example C112_mixed_sign_wrong : divide Div (ITy true 32) (ITy false 32) (-6) 2 = Ok 2147483645.
Proof. reflexivity. Qed.

(* ---------------------------------------------------------------- C113 *)

Definition apply_bop (o : bop) (a b : Z) : Z :=
  match o with BAnd => Z.land a b | BOr => Z.lor a b | BXor => Z.lxor a b end.

Lemma shiftr_signed m v : 0 <= m -> (Z.shiftr v m = 0 \/ Z.shiftr v m = -1) <-> - 2 ^ m <= v < 2 ^ m.
Proof.
  intros H; rewrite Z.shiftr_div_pow2 by auto.
  assert (P : 0 < 2 ^ m) by (apply Z.pow_pos_nonneg; lia).
  pose proof (Z.div_mod v (2 ^ m) ltac:(lia)) as D; pose proof (Z.mod_pos_bound v (2 ^ m) P) as B.
  split; [ intros [E | E]; rewrite E in D; lia | intros R ].
  assert (-1 <= v / 2 ^ m <= 0); [ nia | lia ].
Qed.

Lemma shiftr_unsigned m v : 0 <= m -> Z.shiftr v m = 0 <-> 0 <= v < 2 ^ m.
Proof.
  intros H; rewrite Z.shiftr_div_pow2 by auto.
  assert (P : 0 < 2 ^ m) by (apply Z.pow_pos_nonneg; lia).
  pose proof (Z.div_mod v (2 ^ m) ltac:(lia)) as D; pose proof (Z.mod_pos_bound v (2 ^ m) P) as B.
  split; [ intros E; rewrite E in D; lia | intros R; apply Z.div_small; lia ].
Qed.

Lemma bop_shiftr o x y m : Z.shiftr (apply_bop o x y) m = apply_bop o (Z.shiftr x m) (Z.shiftr y m).
Proof. destruct o; [ apply Z.shiftr_land | apply Z.shiftr_lor | apply Z.shiftr_lxor ]. Qed.

Lemma bop_holds o c x y : op_holds c x -> op_holds c y -> op_holds c (apply_bop o x y).
Proof.
  unfold op_holds, in_type; destruct (op_signed c).
  - assert (H : 0 <= op_bits c - 1) by (destruct c; cbn; lia).
    rewrite <- !shiftr_signed by auto; rewrite bop_shiftr.
    intros [ -> | -> ] [ -> | -> ]; destruct o; cbn; auto.
  - assert (H : 0 <= op_bits c) by (destruct c; cbn; lia).
    rewrite <- !shiftr_unsigned by auto; rewrite bop_shiftr.
    intros -> ->; destruct o; reflexivity.
Qed.

Lemma bop_testbit o x y i : 0 <= i ->
  Z.testbit (apply_bop o x y) i =
  match o with BAnd => Z.testbit x i && Z.testbit y i | BOr => Z.testbit x i || Z.testbit y i
             | BXor => xorb (Z.testbit x i) (Z.testbit y i) end.
Proof. intros _; destruct o; [ apply Z.land_spec | apply Z.lor_spec | apply Z.lxor_spec ]. Qed.

(* and, or and xor work on every bit of the two's complement representations:
   the result is the value of the result type that agrees with the operation on
   the unbounded representations in all its bits. In a signed result type, or
   for operands that are not negative, it is the unbounded result. *)
Theorem C113_bitwise_correct o ta tb a b : operands ta tb a b ->
  let c := res_type ta tb in
  exists r, bitwise o ta tb a b = Ok r /\ op_wrap c (apply_bop o a b) r /\
    (forall i, 0 <= i < op_bits c ->
      Z.testbit r i = match o with BAnd => Z.testbit a i && Z.testbit b i
                                 | BOr => Z.testbit a i || Z.testbit b i
                                 | BXor => xorb (Z.testbit a i) (Z.testbit b i) end) /\
    (op_signed c = true \/ (0 <= a /\ 0 <= b) -> r = apply_bop o a b).
Proof.
  intros (HA & HB & VA & VB) c; unfold bitwise; rewrite common_oty by auto; fold c.
  change (match o with BAnd => Z.land (cast (oty c) a) (cast (oty c) b)
    | BOr => Z.lor (cast (oty c) a) (cast (oty c) b) | BXor => Z.lxor (cast (oty c) a) (cast (oty c) b) end)
    with (apply_bop o (cast (oty c) a) (cast (oty c) b)).
  destruct (cast_op_wrap c a) as (OA & k & KA); destruct (cast_op_wrap c b) as (OB & l & KB).
  assert (PB : 0 < op_bits c) by (destruct c; reflexivity).
  assert (BITS : forall i, 0 <= i < op_bits c ->
    Z.testbit (apply_bop o (cast (oty c) a) (cast (oty c) b)) i = Z.testbit (apply_bop o a b) i).
  { intros i H; rewrite !bop_testbit by lia.
    rewrite (mod_bits c a _ k i KA H), (mod_bits c b _ l i KB H); reflexivity. }
  eexists; split; [ reflexivity | split; [ | split ] ].
  - split; [ apply bop_holds; auto | ].
    set (r := apply_bop o (cast (oty c) a) (cast (oty c) b)) in *; set (v := apply_bop o a b) in *.
    assert (M : r mod 2 ^ op_bits c = v mod 2 ^ op_bits c).
    { apply Z.bits_inj'; intros i I; destruct (Z_lt_ge_dec i (op_bits c)).
      - rewrite !Z.mod_pow2_bits_low by lia; apply BITS; lia.
      - rewrite !Z.mod_pow2_bits_high by lia; reflexivity. }
    exists (r / 2 ^ op_bits c - v / 2 ^ op_bits c).
    assert (P : 2 ^ op_bits c <> 0) by (destruct c; discriminate).
    pose proof (Z.div_mod r _ P); pose proof (Z.div_mod v _ P); lia.
  - intros i H; rewrite BITS by auto; apply bop_testbit; lia.
  - intros D; f_equal; apply cast_holds; [ apply (operand_holds ta) | apply (operand_holds tb) ]; auto;
      try apply op_later_l; try apply op_later_r; tauto.
Qed.
Print Assumptions C113_bitwise_correct.

Lemma ubits_pos t : operand_type t -> 0 < op_bits (opt t).
Proof. intros _; destruct (opt t); reflexivity. Qed.

(* right_shift is division by a power of two rounding down, defined exactly for
   counts from zero to the width (32 or 64) less one *)
Theorem C113_right_shift_exact ta tb a b : operands ta tb a b ->
  right_shift ta tb a b = if (0 <=? b) && (b <? op_bits (opt ta)) then Ok (a / 2 ^ b) else UB.
Proof.
  intros (HA & HB & VA & VB); unfold right_shift; rewrite promote_opt by auto; cbn [oty i_bits].
  destruct (Z.ltb_spec b 0), (Z.leb_spec 0 b); try lia; cbn [orb andb]; auto.
  destruct (Z.leb_spec (op_bits (opt ta)) b), (Z.ltb_spec b (op_bits (opt ta))); try lia; auto.
  rewrite Z.shiftr_div_pow2 by lia; reflexivity.
Qed.
Print Assumptions C113_right_shift_exact.

(* left_shift multiplies by a power of two. For a count in range and a value
   that is not negative the result is exact when the type holds it; in an
   unsigned type it wraps; in a signed type it is 2^width too small when only
   the sign bit is reached, and undefined beyond. A negative value is always
   undefined. *)
Theorem C113_left_shift_partial ta tb a b : operands ta tb a b ->
  let c := opt ta in
  (b < 0 \/ op_bits c <= b -> left_shift ta tb a b = UB) /\
  (0 <= b < op_bits c -> a < 0 -> left_shift ta tb a b = UB) /\
  (0 <= b < op_bits c -> 0 <= a ->
     (op_holds c (a * 2 ^ b) -> left_shift ta tb a b = Ok (a * 2 ^ b)) /\
     (op_signed c = false -> exists w, left_shift ta tb a b = Ok w /\ op_wrap c (a * 2 ^ b) w) /\
     (op_signed c = true -> 2 ^ (op_bits c - 1) <= a * 2 ^ b < 2 ^ op_bits c ->
        left_shift ta tb a b = Ok (a * 2 ^ b - 2 ^ op_bits c)) /\
     (op_signed c = true -> 2 ^ op_bits c <= a * 2 ^ b -> left_shift ta tb a b = UB)).
Proof.
  intros (HA & HB & VA & VB) c; unfold left_shift; rewrite promote_opt by auto; fold c; cbn [oty i_bits i_signed].
  split; [ | split ].
  - intros H; destruct (Z.ltb_spec b 0), (Z.leb_spec (op_bits c) b); try lia; reflexivity.
  - intros H N.
    assert (S : op_signed c = true).
    { destruct (op_signed c) eqn:S; auto; pose proof (operand_range ta a HA VA) as R; fold c in R.
      destruct c; try discriminate; lia. }
    destruct (Z.ltb_spec b 0), (Z.leb_spec (op_bits c) b); try lia; cbn [orb].
    rewrite S; destruct (Z.ltb_spec a 0); [ reflexivity | lia ].
  - intros H P.
    destruct (Z.ltb_spec b 0), (Z.leb_spec (op_bits c) b); try lia; cbn [orb].
    destruct (Z.ltb_spec a 0); [ lia | ]; cbn [orb].
    split; [ | split; [ | split ] ].
    + intros HO; pose proof (cast_holds c _ HO) as E; fold (oty c); rewrite E.
      destruct (op_signed c) eqn:S; auto.
      destruct (Z.leb_spec (2 ^ op_bits c) (a * 2 ^ b)) as [ L | ]; auto; exfalso.
      unfold op_holds, in_type in HO; rewrite S in HO.
      assert (2 ^ (op_bits c - 1) < 2 ^ op_bits c) by (destruct c; reflexivity); lia.
    + intros ->; eexists; split; [ reflexivity | apply cast_op_wrap ].
    + intros S R; rewrite S.
      destruct (Z.leb_spec (2 ^ op_bits c) (a * 2 ^ b)); [ lia | ]; f_equal.
      apply wrap_cast; split; [ | exists (-1); lia ].
      unfold op_holds, in_type; rewrite S.
      assert (2 ^ op_bits c = 2 * 2 ^ (op_bits c - 1)) by (destruct c; reflexivity); lia.
    + intros S L; rewrite S; destruct (Z.leb_spec (2 ^ op_bits c) (a * 2 ^ b)); [ reflexivity | lia ].
Qed.
Print Assumptions C113_left_shift_partial.

(* The claim that left_shift is exact whenever the result fits fails for any
   negative value. *)
Theorem C113_left_shift_refuted :
  left_shift (ITy true 32) (ITy true 32) (-1) 1 = UB /\ op_holds I32 (-1 * 2 ^ 1) /\
  left_shift (ITy true 8) (ITy true 8) (-1) 0 = UB.
Proof. split; [ reflexivity | split; [ unfold op_holds, in_type; cbn; lia | reflexivity ] ]. Qed.
Print Assumptions C113_left_shift_refuted.

(* ---------------------------------------------------------------- C114 *)

(* minus of an integer: exact when the promoted type holds it, undefined for
   the smallest value of int32 and int64, and wrapped for unsigned types. *)
Theorem C114_minus_exact t a : machine_type t -> of_type t a ->
  let c := opt t in
  (op_holds c (- a) -> minus t a = Ok (- a)) /\
  (op_signed c = true -> ~ op_holds c (- a) ->
     minus t a = UB /\ a = - 2 ^ (op_bits c - 1) /\ i_signed t = true /\ 32 <= i_bits t) /\
  (op_signed c = false -> 0 < a -> minus t a = Ok (2 ^ op_bits c - a)).
Proof.
  intros HT V c; assert (OT : operand_type t) by (left; exact HT).
  unfold minus, is_bool.
  destruct (Z.eqb_spec (i_bits t) 1) as [ E | _ ].
  { unfold machine_type in HT; rewrite E in HT; cbn in HT; lia. }
  rewrite promote_opt by auto; fold c.
  destruct (compute_spec c (- a)) as (P1 & P2 & P3).
  pose proof (operand_range t a OT V) as R; fold c in R.
  split; [ exact P1 | split ].
  - intros S N; split; [ auto | ].
    assert (A : a = - 2 ^ (op_bits c - 1)).
    { unfold op_holds, in_type in N; rewrite S in N; destruct c; try discriminate;
        cbn [op_bits] in *; [ change (32 - 1) with 31 in * | change (64 - 1) with 63 in * ]; lia. }
    split; [ exact A | ].
    destruct t as [s bts]; unfold machine_type in HT; cbn [i_bits i_signed In] in *.
    subst c; destruct HT as [ <- | [ <- | [ <- | [ <- | [] ] ] ] ]; destruct s;
      cbv [opt op_of i_signed i_bits Z.ltb Z.eqb Z.compare Pos.compare Pos.compare_cont Pos.eqb
           of_type in_type op_signed op_bits] in *; try discriminate; split; auto; try lia.
  - intros S L; rewrite (P3 S); f_equal; apply wrap_cast; split; [ | exists 1; lia ].
    unfold op_holds, in_type; rewrite S; destruct c; try discriminate; cbn [op_bits] in *; lia.
Qed.
Print Assumptions C114_minus_exact.

(* bitwise_not flips every bit of the promoted type, and is its own inverse. *)
Theorem C114_bitwise_not_correct t a : machine_type t -> of_type t a ->
  let c := opt t in
  exists r, bitwise_not t a = Ok r /\ op_holds c r /\
    (forall i, 0 <= i < op_bits c -> Z.testbit r i = negb (Z.testbit a i)) /\
    r = (if op_signed c then - a - 1 else 2 ^ op_bits c - 1 - a) /\
    bitwise_not (unary_type t) r = Ok a.
Proof.
  intros HT V c; assert (OT : operand_type t) by (left; exact HT).
  assert (NB : is_bool t = false).
  { unfold is_bool; destruct (Z.eqb_spec (i_bits t) 1) as [ E | ]; auto.
    unfold machine_type in HT; rewrite E in HT; cbn in HT; lia. }
  unfold bitwise_not at 1; rewrite NB; rewrite promote_opt by auto; fold c.
  pose proof (operand_range t a OT V) as R; fold c in R.
  assert (OA : op_holds c a).
  { unfold op_holds, in_type; destruct c; exact R. }
  assert (PW : 2 ^ op_bits c = 2 * 2 ^ (op_bits c - 1)) by (destruct c; reflexivity).
  assert (VAL : cast (oty c) (Z.lnot a) = if op_signed c then - a - 1 else 2 ^ op_bits c - 1 - a).
  { apply wrap_cast; unfold Z.lnot, op_wrap, op_holds, in_type in *; destruct (op_signed c).
    - split; [ lia | exists 0; lia ].
    - split; [ lia | exists 1; lia ]. }
  eexists; split; [ reflexivity | ].
  destruct (cast_op_wrap c (Z.lnot a)) as (O & k & K).
  split; [ exact O | split; [ | split; [ exact VAL | ] ] ].
  - intros i H; rewrite (mod_bits c (Z.lnot a) _ k i K H), Z.lnot_spec by lia; reflexivity.
  - unfold unary_type; rewrite NB, promote_opt by auto; fold c.
    unfold bitwise_not, is_bool; replace (i_bits (oty c) =? 1) with false by (destruct c; reflexivity).
    replace (promote (oty c)) with (oty c) by (destruct c; reflexivity).
    f_equal; rewrite VAL; apply wrap_cast; unfold Z.lnot, op_wrap; split; [ exact OA | ].
    destruct (op_signed c); [ exists 0 | exists 1 ]; lia.
Qed.
Print Assumptions C114_bitwise_not_correct.

(* On bool, minus is the identity and bitwise_not is the logical negation. *)
Theorem C114_bool_unary a : of_type bool1_t a ->
  minus bool1_t a = Ok a /\ plus bool1_t a = Ok a /\ bitwise_not bool1_t a = Ok (1 - a) /\
  logical_not bool1_t a = (1 - a =? 1).
Proof.
  unfold of_type, in_type; cbn [bool1_t i_signed i_bits]; change (2 ^ 1) with 2; intros H.
  assert (a = 0 \/ a = 1) as [ -> | -> ] by lia; cbn; auto.
Qed.
Print Assumptions C114_bool_unary.

(* The logical operations treat every non-zero value as true, on all types. *)
Theorem C114_logical_correct ta tb a b :
  (logical LAnd ta tb a b = true <-> a <> 0 /\ b <> 0) /\
  (logical LOr ta tb a b = true <-> a <> 0 \/ b <> 0) /\
  (logical LXor ta tb a b = true <-> ((a <> 0 /\ b = 0) \/ (a = 0 /\ b <> 0))) /\
  (logical_not ta a = true <-> a = 0).
Proof.
  unfold logical, logical_not, truth; destruct (Z.eqb_spec a 0), (Z.eqb_spec b 0); cbn;
    repeat split; intros; try lia; try discriminate; auto.
Qed.
Print Assumptions C114_logical_correct.

Theorem C114_minus_refuted : minus (ITy true 32) (- 2 ^ 31) = UB /\ minus (ITy false 32) 1 = Ok (2 ^ 32 - 1) /\
  minus bool1_t 1 = Ok 1.
Proof. vm_compute; auto. Qed.
Print Assumptions C114_minus_refuted.

(* ---------------------------------------------------------------- C115 *)

Lemma cast_small t v w k : machine_type t -> of_type t w -> v = w + k * 2 ^ i_bits t -> cast t v = w.
Proof.
  intros HT H ->; rewrite <- (cast_in_type t w HT H) at 2.
  unfold cast; rewrite Z.mod_add; [ reflexivity | ].
  destruct t as [s b]; unfold machine_type in HT; cbn in HT; destruct HT as [ <- | [ <- | [ <- | [ <- | [] ] ] ] ]; discriminate.
Qed.

Lemma bits_divide td ts : machine_type td -> machine_type ts ->
  exists n, 2 ^ op_bits (res_type td ts) = n * 2 ^ i_bits td.
Proof.
  intros HD HS; exists (2 ^ (op_bits (res_type td ts) - i_bits td)).
  rewrite <- Z.pow_add_r; [ f_equal; lia | | ];
    destruct td as [s b], ts as [s' b']; unfold machine_type in *; cbn [i_bits i_signed In] in *;
    destruct HD as [ <- | [ <- | [ <- | [ <- | [] ] ] ] ]; destruct HS as [ <- | [ <- | [ <- | [ <- | [] ] ] ] ];
    destruct s, s'; vm_compute; discriminate.
Qed.

(* += adds exactly whenever the destination type can hold the sum. *)
Theorem C115_compound_add_exact td ts d s : machine_type td -> machine_type ts -> of_type td d -> of_type ts s ->
  of_type td (d + s) -> compound_add td ts d s = Ok (d + s).
Proof.
  intros HD HS VD VS F; unfold compound_add.
  assert (OP : operands td ts d s) by (repeat split; try (left; assumption); auto).
  destruct (C111_arithmetic_exact Add td ts d s OP) as (P1 & P2); cbn [apply_op] in *.
  destruct (op_holds_dec (res_type td ts) (d + s)) as [ Y | N ].
  - rewrite (P1 Y); cbn [bind]; f_equal; apply cast_in_type; auto.
  - specialize (P2 N).
    destruct (op_signed (res_type td ts)) eqn:S.
    + destruct N; apply (operand_holds td); auto; [ left; auto | apply op_later_l ].
    + destruct P2 as (w & -> & _ & k & ->); cbn [bind]; f_equal.
      destruct (bits_divide td ts HD HS) as (n & ->).
      apply (cast_small td _ (d + s) (k * n)); auto; ring.
Qed.
Print Assumptions C115_compound_add_exact.

(* Adding a list of elements into one destination of 8 or 16 bits, or into an
   unsigned one, gives the exact total whenever the total fits, whatever the
   partial sums do; if all partial sums fit it does so for every type. *)
Lemma compound_add_cong td ts d s : machine_type td -> machine_type ts -> of_type td d -> of_type ts s ->
  i_bits td <= 16 /\ i_bits ts <= 16 \/ op_signed (res_type td ts) = false ->
  exists r k, compound_add td ts d s = Ok r /\ of_type td r /\ r = d + s + k * 2 ^ i_bits td.
Proof.
  intros HD HS VD VS C; unfold compound_add.
  assert (OP : operands td ts d s) by (repeat split; try (left; assumption); auto).
  assert (A : exists w j, arith Add td ts d s = Ok w /\ w = d + s + j * 2 ^ i_bits td).
  { destruct C as [ (LD & LS) | U ].
    - exists (d + s), 0; split; [ | lia ].
      apply (C111_narrow_never_overflows Add td ts d s OP LD LS); discriminate.
    - destruct (C111_arithmetic_exact Add td ts d s OP) as (P1 & P2); cbn [apply_op] in *.
      destruct (op_holds_dec (res_type td ts) (d + s)) as [ Y | N ].
      + exists (d + s), 0; split; [ auto | lia ].
      + specialize (P2 N); rewrite U in P2; destruct P2 as (w & E & _ & k & K).
        destruct (bits_divide td ts HD HS) as (n & B).
        exists w, (k * n); split; [ exact E | rewrite K, B; ring ]. }
  destruct A as (w & j & -> & ->); cbn [bind].
  assert (W : exists k, of_type td (cast td (d + s + j * 2 ^ i_bits td)) /\
    cast td (d + s + j * 2 ^ i_bits td) = d + s + j * 2 ^ i_bits td + k * 2 ^ i_bits td).
  { unfold cast, of_type, in_type; destruct td as [sg bts]; cbn [i_signed i_bits] in *; destruct sg; cbn [andb].
    - unfold machine_type in HD; cbn [i_bits In] in HD.
      assert (PH : 0 < 2 ^ (bts - 1)) by (apply Z.pow_pos_nonneg; lia).
      assert (PB : 2 ^ bts = 2 * 2 ^ (bts - 1)).
      { replace bts with (1 + (bts - 1)) at 1 by lia; rewrite Z.pow_add_r by lia; reflexivity. }
      rewrite PB; destruct (cast_wrap_gen (2 ^ (bts - 1)) (d + s + j * (2 * 2 ^ (bts - 1))) PH) as (B & k & K).
      exists k; split; [ exact B | exact K ].
    - assert (PB : 0 < 2 ^ bts) by (unfold machine_type in HD; cbn [i_bits In] in HD; apply Z.pow_pos_nonneg; lia).
      pose proof (Z.div_mod (d + s + j * 2 ^ bts) (2 ^ bts) ltac:(lia)).
      pose proof (Z.mod_pos_bound (d + s + j * 2 ^ bts) (2 ^ bts) PB).
      exists (- ((d + s + j * 2 ^ bts) / 2 ^ bts)); lia. }
  destruct W as (k & W1 & W2); exists (cast td (d + s + j * 2 ^ i_bits td)), (j + k).
  split; [ reflexivity | split; [ exact W1 | rewrite W2; ring ] ].
Qed.

Definition total (l : list Z) : Z := fold_right Z.add 0 l.

Theorem C115_accumulate_wrapping td ts d l : machine_type td -> machine_type ts -> of_type td d ->
  Forall (of_type ts) l ->
  i_bits td <= 16 /\ i_bits ts <= 16 \/ op_signed (res_type td ts) = false ->
  of_type td (d + total l) -> compound_sum td ts d l = Ok (d + total l).
Proof.
  intros HD HS VD VL C F.
  assert (G : exists r k, compound_sum td ts d l = Ok r /\ of_type td r /\ r = d + total l + k * 2 ^ i_bits td).
  { clear F; revert d VD; induction VL as [ | s l V VL IH ]; intros d VD; cbn [compound_sum total fold_right].
    - exists d, 0; repeat split; auto; lia.
    - destruct (compound_add_cong td ts d s HD HS VD V C) as (r & k & E & W & K).
      rewrite E; cbn [bind].
      destruct (IH r W) as (r' & k' & E' & W' & K').
      exists r', (k + k'); split; [ exact E' | split; [ exact W' | ] ].
      unfold total in K'; rewrite K', K; ring. }
  destruct G as (r & k & E & W & K); rewrite E; f_equal.
  rewrite <- (cast_in_type td r HD W); apply (cast_small td _ _ k); auto.
Qed.
Print Assumptions C115_accumulate_wrapping.

Theorem C115_accumulate_partial_sums td ts d l : machine_type td -> machine_type ts -> of_type td d ->
  Forall (of_type ts) l ->
  (forall n, of_type td (d + total (firstn n l))) -> compound_sum td ts d l = Ok (d + total l).
Proof.
  intros HD HS VD VL; revert d VD; induction VL as [ | s l V VL IH ]; intros d VD F; cbn [compound_sum total fold_right].
  - f_equal; lia.
  - rewrite C115_compound_add_exact; auto.
    + cbn [bind]; rewrite IH.
      * f_equal; unfold total; lia.
      * specialize (F 1%nat); cbn in F; rewrite Z.add_0_r in F; exact F.
      * intros n; specialize (F (Datatypes.S n)); cbn [firstn total fold_right] in F.
        unfold total; rewrite <- Z.add_assoc; exact F.
    + specialize (F 1%nat); cbn in F; rewrite Z.add_0_r in F; exact F.
Qed.
Print Assumptions C115_accumulate_partial_sums.

(* /= by a non-zero value stores the truncated quotient when both operands are
   held by the operation type and the quotient by the destination; by zero it
   is undefined for every pair of types. *)
Theorem C115_compound_div_exact td ts d s : machine_type td -> machine_type ts -> of_type td d -> of_type ts s ->
  (s = 0 -> compound_div td ts d s = UB) /\
  (s <> 0 -> op_signed (res_type td ts) = true \/ (0 <= d /\ 0 <= s) ->
   forall q r, is_quotient d s q r -> of_type td q -> compound_div td ts d s = Ok q).
Proof.
  intros HD HS VD VS.
  assert (OP : operands td ts d s) by (repeat split; try (left; assumption); auto).
  assert (OD : operand_type td) by (left; auto); assert (OS : operand_type ts) by (left; auto).
  unfold compound_div; split.
  - intros ->; unfold builtin_div; rewrite common_oty by auto.
    replace (cast (oty (res_type td ts)) 0) with 0
      by (symmetry; apply (cast_l_zero ts 0); auto; apply op_later_r); reflexivity.
  - intros N D q r Q F.
    destruct (C112_divide_correct_partial td ts d s OP N D) as (P1 & P2).
    assert (X : divide Div td ts d s = builtin_div Div td ts d s)
      by (unfold divide; destruct (Z.eqb_spec s 0); [ contradiction | rewrite andb_false_r; reflexivity ]).
    destruct P2 as (q' & r' & E & _ & Q' & _).
    + intros (S & A & B); subst s.
      assert (q = - d) as -> by (destruct Q as (E & R & _); lia).
      assert (H : op_holds (res_type td ts) (- d)) by (apply (operand_holds td); auto; apply op_later_l).
      unfold op_holds, in_type in H; rewrite S in H; lia.
    + rewrite <- X, E; cbn [bind].
      destruct (is_quotient_unique _ _ _ _ _ _ Q Q') as (<- & _).
      f_equal; apply cast_in_type; auto.
Qed.
Print Assumptions C115_compound_div_exact.

(* The claim that += and /= report what they cannot store fails: += wraps an
   int8 silently, and /= by zero is undefined where divide throws. *)
Theorem C115_compound_refuted :
  compound_add (ITy true 8) (ITy true 8) 127 1 = Ok (-128) /\
  compound_div (ITy true 32) (ITy true 32) 1 0 = UB /\
  divide Div (ITy true 32) (ITy true 32) 1 0 = Throw "Integer division or modulo by zero." /\
  compound_add (ITy true 32) (ITy true 32) (2 ^ 31 - 1) 1 = UB.
Proof. vm_compute; auto. Qed.
Print Assumptions C115_compound_refuted.

(* ------------------------------------------------ the hypotheses are met *)
Lemma i32 : operand_type (ITy true 32).
Proof. left; unfold machine_type; cbn; tauto. Qed.
Example operands_i8_u16 : operands (ITy true 8) (ITy false 16) (-5) 60000.
Proof. repeat split; try (left; unfold machine_type; cbn; tauto); cbn; lia. Qed.
Example operands_i64_u32 : operands (ITy true 64) (ITy false 32) (-5) 4000000000.
Proof. repeat split; try (left; unfold machine_type; cbn; tauto); cbn; lia. Qed.
Example operands_bool_i8 : operands bool1_t (ITy true 8) 1 (-128).
Proof. repeat split; try (left; unfold machine_type; cbn; tauto); try (right; reflexivity); cbn; lia. Qed.
Example cmp_i8_u16 : compare Lt (ITy true 8) (ITy false 16) (-5) 60000 = true.
Proof. reflexivity. Qed.
Example cmp_i64_u32 : compare Gt (ITy true 64) (ITy false 32) (-5) 4000000000 = false.
Proof. reflexivity. Qed.
Example add_i64_u32 : arith Add (ITy true 64) (ITy false 32) (-5) 4000000000 = Ok 3999999995.
Proof. reflexivity. Qed.
Example div_i64_u32 : divide Div (ITy true 64) (ITy true 32) (-7) 2 = Ok (-3) /\
  divide Mod (ITy true 64) (ITy true 32) (-7) 2 = Ok (-1) /\ is_quotient (-7) 2 (-3) (-1).
Proof. split; [ reflexivity | split; [ reflexivity | unfold is_quotient; cbn; lia ] ]. Qed.
Example xor_i8_u8 : bitwise BXor (ITy true 8) (ITy false 8) (-1) 255 = Ok (-256).
Proof. reflexivity. Qed.
Example sum_i8 : compound_sum (ITy true 8) (ITy true 8) 100 [100; -100; -50] = Ok 50.
Proof. reflexivity. Qed.
Example tuple_differs :
  tuple_equal 0 [ (ITy true 8, ITy true 8, 1, 1); (ITy true 8, ITy true 8, 1, 2); (ITy true 8, ITy true 8, 3, 4) ] =
  (false, 2%nat).
Proof. reflexivity. Qed.
