(** C40, C56: arithmetic promotion and lossless assignment. *)
From Coq Require Import QArith.
From Verif Require Import Base TypesModel PromoteModel PromoteSpec PromoteProofs PromoteProofs2.
Open Scope Z_scope.

(** C40: integers promote to the wider of the operands and int32, ... *)
Theorem C40_integers : forall a b, is_int a -> is_int b -> exists r, promote_types_arithmetic (B a) (B b) = Ok (B r) /\ promoted_int a b r.
Proof.
  intros a b A B. unfold is_int in *. destruct a; cbn [base_kind In] in A; try (exfalso; intuition discriminate); clear A; destruct b; cbn [base_kind In] in B; try (exfalso; intuition discriminate); clear B;
  (eexists; split; [vm_compute; reflexivity|]); (split; [vm_compute; reflexivity|]); (split; [cbn [In base_kind]; auto|]); cbn [base_kind data_size]; intuition congruence.
Qed.
Print Assumptions C40_integers.
(** ... a float and another float or an integer to the widest float, at least
    float32 (unless the first is float16 and the second an integer), ... *)
Theorem C40_floats_partial : forall a b, (base_kind a = float_kind /\ (is_int b \/ base_kind b = float_kind)) \/ (is_int a /\ base_kind b = float_kind) -> ~ (a = float16 /\ is_int b) ->
  exists r, promote_types_arithmetic (B a) (B b) = Ok (B r) /\ promoted_float a b r.
Proof.
  intros a b H N. unfold is_int in *. destruct a; cbn [base_kind In] in H; try (exfalso; intuition discriminate);
  destruct b; cbn [base_kind In] in H; try (exfalso; intuition discriminate); clear H;
  try (exfalso; apply N; split; [reflexivity|cbn [base_kind In]; tauto]); clear N;
  (eexists; split; [vm_compute; reflexivity|]); split; vm_compute; reflexivity.
Qed.
Print Assumptions C40_floats_partial.
(** ... and complex types absorb the rest. *)
Theorem C40_complex : forall a b, arithmetic a -> arithmetic b -> base_kind a = complex_kind \/ base_kind b = complex_kind ->
  exists r, promote_types_arithmetic (B a) (B b) = Ok (B r) /\ promoted_complex a b r.
Proof.
  intros a b (A1 & A2) (B1 & B2) H. destruct a; try congruence; destruct b; try congruence; cbn [base_kind] in H; try (exfalso; intuition discriminate); clear;
  (eexists; split; [vm_compute; reflexivity|]); (split; [vm_compute; reflexivity|]); cbn [In]; intuition congruence.
Qed.
Print Assumptions C40_complex.
(** Operands of one kind keep all their values; so do signed and unsigned integers
    whose promotion is signed. *)
Theorem C40_values : forall a b r, arithmetic a -> arithmetic b -> base_kind a = base_kind b \/ (is_int a /\ is_int b /\ base_kind r = int_kind) -> promote_types_arithmetic (B a) (B b) = Ok (B r) ->
  forall re im, (holds a re im -> holds r re im) /\ (holds b re im -> holds r re im).
Proof.
  intros a b r A B K E re im.
  assert (X : forall x y, lossless_builtin y x = Ok true -> arithmetic x -> arithmetic y -> holds x re im -> holds y re im).
  { intros x y L AX AY H. destruct (lossless_exact y x AY AX) as (q & E' & Q). rewrite E' in L. injection L as ->. apply Q; auto. }
  assert (Y : lossless_builtin r a = Ok true /\ lossless_builtin r b = Ok true /\ arithmetic r).
  { unfold is_int in K. destruct A as (A1 & A2), B as (B1 & B2). destruct a; try congruence; destruct b; try congruence; cbn [base_kind] in K; try (exfalso; clear - K; cbn [In] in K; intuition discriminate);
    vm_compute in E; injection E as <-; try (exfalso; clear - K; cbn [In base_kind] in K; intuition discriminate); (split; [reflexivity|split; [reflexivity|split; discriminate]]). }
  destruct Y as (Y1 & Y2 & Y3). split; apply X; auto.
Qed.
Print Assumptions C40_values.
(** Promotion is commutative on all types without float16, at any nesting, ... *)
Theorem C40_commutative_partial : forall t0 t1, wf t0 -> wf t1 -> no16 t0 -> no16 t1 -> promote_types_arithmetic t0 t1 = promote_types_arithmetic t1 t0.
Proof. intros t0 t1 W0 W1 N0 N1. eapply commutative; eauto. Qed.
Print Assumptions C40_commutative_partial.
(** ... and not commutative for float16 and any integer type. *)
Theorem C40_float16_refuted : forall b, is_int b -> promote_types_arithmetic (B float16) (B b) = Ok (B float16) /\ promote_types_arithmetic (B b) (B float16) = Ok (B float32).
Proof. intros b H. unfold is_int in H. destruct b; cbn [base_kind In] in H; try (exfalso; intuition discriminate); split; vm_compute; reflexivity. Qed.
Print Assumptions C40_float16_refuted.
(** Optional operands: the promotion of the values, made optional. *)
Theorem C40_option : forall a b, wf a -> wf b -> not_opt a -> not_opt b ->
  promote_types_arithmetic (Opt a) (Opt b) = (do r <- promote_types_arithmetic a b; Ok (Opt r)) /\
  promote_types_arithmetic (Opt a) b = (do r <- promote_types_arithmetic a b; Ok (Opt r)) /\
  promote_types_arithmetic a (Opt b) = (do r <- promote_types_arithmetic a b; Ok (Opt r)).
Proof.
  intros a b WA WB NA NB. rewrite (promote_unfold (Opt a) (Opt b)), (promote_unfold (Opt a) b), (promote_unfold a (Opt b)). cbv zeta.
  assert (VA : value_type a = a) by (destruct a; cbn [wf value_type] in *; tauto). assert (VB : value_type b = b) by (destruct b; cbn [wf value_type] in *; tauto). rewrite VA, VB.
  assert (OA : as_option a = None) by (destruct a; cbn [not_opt as_option] in *; tauto). assert (OB : as_option b = None) by (destruct b; cbn [not_opt as_option] in *; tauto).
  cbn [value_type as_builtin is_string_id andb as_option]. rewrite OA, OB, (andb_false_r (is_string_id a)).
  assert (X : (do r <- promote_types_arithmetic a b; make_option r) = (do r <- promote_types_arithmetic a b; Ok (Opt r))).
  { pose proof (promote_not_opt a b) as P. destruct (promote_types_arithmetic a b) as [r| | |]; cbn [bind]; auto. specialize (P r WA WB NA NB eq_refl). destruct r; cbn [not_opt] in P; tauto. }
  split; [exact X|]. destruct (as_builtin a), (as_builtin b); auto.
Qed.
Print Assumptions C40_option.
(** void is neutral on every type. *)
Theorem C40_void : forall t, wf t -> promote_types_arithmetic (B void) t = Ok t /\ promote_types_arithmetic t (B void) = Ok t.
Proof. exact void_neutral. Qed.
Print Assumptions C40_void.
(** The order in which integers are combined does not matter. *)
Theorem C40_associative : forall a b c, is_int a -> is_int b -> is_int c ->
  (do x <- promote_builtin a b; promote_builtin x c) = (do y <- promote_builtin b c; promote_builtin a y).
Proof.
  intros a b c A B C. unfold is_int in *. destruct a; cbn [base_kind In] in A; try (exfalso; intuition discriminate); clear A; destruct b; cbn [base_kind In] in B; try (exfalso; intuition discriminate); clear B;
  destruct c; cbn [base_kind In] in C; try (exfalso; intuition discriminate); clear C; vm_compute; reflexivity.
Qed.
Print Assumptions C40_associative.
Example C40_case : promote_types_arithmetic (Opt (B int8)) (B uint16) = Ok (Opt (B int32)) /\ promote_types_arithmetic (Var (B int64)) (Var (Opt (B float32))) = Ok (Var (Opt (B float32))) /\
  promote_types_arithmetic (B uint64) (B int64) = Ok (B uint64) /\ promote_types_arithmetic (Var (B int8)) (FixedDim 3 (B int8)) = Throw "type_error" /\ wf (Var (Opt (B float32))).
Proof. repeat split; vm_compute; try reflexivity; discriminate. Qed.

(** C56: is_lossless_assignment says yes for builtin types exactly when the
    destination holds every value of the source. *)
Theorem C56_builtin : forall dst src, arithmetic dst -> arithmetic src -> exists r, lossless (Bare dst) (Bare src) = Ok r /\ (r = true <-> forall re im, holds src re im -> holds dst re im).
Proof. exact lossless_exact. Qed.
Print Assumptions C56_builtin.
(** It is an order on the builtin types. *)
Theorem C56_order : forall a b c, arithmetic a -> arithmetic b -> arithmetic c -> lossless (Bare a) (Bare a) = Ok true /\
  (lossless (Bare b) (Bare a) = Ok true -> lossless (Bare c) (Bare b) = Ok true -> lossless (Bare c) (Bare a) = Ok true).
Proof.
  intros a b c A B C. cbn [lossless]. split; [destruct A as (A1 & A2), a; try congruence; reflexivity|].
  destruct (lossless_exact b a B A) as (r1 & -> & H1), (lossless_exact c b C B) as (r2 & -> & H2), (lossless_exact c a C A) as (r3 & -> & H3).
  intros [= ->] [= ->]. f_equal. apply H3. intros re im H. apply H2; [auto|]. apply H1; auto.
Qed.
Print Assumptions C56_order.
(** For optional types it says yes although a value is lost: int32's least number
    is the missing value of the optional int32, and the missing value has no
    counterpart in int32. *)
Definition missing (b : builtin) : option Z := match b with bool_ => Some 2 | int8 => Some (- 2 ^ 7) | int16 => Some (- 2 ^ 15) | int32 => Some (- 2 ^ 31) | int64 => Some (- 2 ^ 63) | int128 => Some (- 2 ^ 127) | _ => None end.
Theorem C56_option_refuted : forall b na, base_kind b = int_kind -> missing b = Some na ->
  lossless (Optional b) (Bare b) = Ok true /\ holds b (Num (inject_Z na)) (Num 0) /\ lossless (Bare b) (Optional b) = Ok true.
Proof.
  intros b na K M. destruct b; try discriminate K; injection M as <-; (split; [reflexivity|]); (split; [|reflexivity]); (split; [apply int_in; split; vm_compute; congruence|reflexivity]).
Qed.
Print Assumptions C56_option_refuted.
(** The compile-time trait says yes for an integer wider than the float. *)
Theorem C56_trait_refuted : trait_lossless float32 int64 = true /\ ~ (forall re im, holds int64 re im -> holds float32 re im).
Proof.
  split; [reflexivity|]. destruct (lossless_exact float32 int64) as (r & E & H); [split; discriminate|split; discriminate|]. vm_compute in E. injection E as <-. intros X. apply H in X. discriminate.
Qed.
Print Assumptions C56_trait_refuted.
Example C56_case : lossless (Bare float64) (Bare int32) = Ok true /\ lossless (Bare float32) (Bare int32) = Ok false /\ lossless (Bare complex_float32) (Bare uint16) = Ok true /\ lossless (Bare int16) (Bare uint8) = Ok true.
Proof. repeat split. Qed.
