(** Proofs about promotion. *)
From Coq Require Import QArith.
From Verif Require Import Base TypesModel PromoteModel PromoteSpec PromoteProofs.
Open Scope Z_scope.

(** Types without expression types and without the uninitialized type, in which
    no option holds an option (option_type.hpp:83-87). *)
Definition not_opt (t : ty) : Prop := match t with Opt _ => False | _ => True end.
Fixpoint wf (t : ty) : Prop :=
  match t with
  | B b => b <> uninitialized
  | Opt t => wf t /\ not_opt t
  | Var t | FixedDim _ t | FixedKind t => wf t
  | Adapt _ _ => False
  | _ => True
  end.
Fixpoint no16 (t : ty) : Prop :=
  match t with B b => b <> float16 | Opt t | Var t | FixedDim _ t | FixedKind t => no16 t | Adapt v s => no16 v /\ no16 s | _ => True end.

Lemma value_size t : (size (value_type t) <= size t)%nat.
Proof. destruct t; cbn [value_type size]; lia. Qed.
Lemma size_pos t : (0 < size t)%nat.
Proof. destruct t; cbn [size]; lia. Qed.

Lemma promote_fuel n : forall m t0 t1, (size t0 + size t1 <= n)%nat -> (size t0 + size t1 <= m)%nat -> promote n t0 t1 = promote m t0 t1.
Proof.
  induction n as [|n IH]; intros m t0 t1 L1 L2; [pose proof (size_pos t0); lia|].
  destruct m as [|m]; [pose proof (size_pos t0); lia|]. cbn [promote].
  pose proof (value_size t0) as V0. pose proof (value_size t1) as V1. generalize dependent (value_type t0). generalize dependent (value_type t1). intros v1 V1 v0 V0.
  destruct (as_builtin v0), (as_builtin v1); auto; (destruct (is_string_id v0 && is_string_id v1); [reflexivity|]);
  (assert (S0 : match as_option v0 with Some a => (size a < size v0)%nat | None => True end) by (destruct v0; cbn [as_option size]; auto; lia));
  (assert (S1 : match as_option v1 with Some a => (size a < size v1)%nat | None => True end) by (destruct v1; cbn [as_option size]; auto; lia));
  destruct (as_option v0), (as_option v1);
  try (rewrite (IH m) by lia; reflexivity);
  destruct (is_type_type v0 && base_is_string_kind v1); auto; destruct (base_is_string_kind v0 && is_type_type v1); auto;
  destruct (is_void_type v0); auto; destruct (is_void_type v1); auto;
  destruct (is_var v0 && base_is_dim_kind v1 || is_var v1 && base_is_dim_kind v0); auto;
  (destruct (element v0) as [e0| | |] eqn:E0; auto; destruct (element v1) as [e1| | |] eqn:E1; auto; cbn [bind];
   assert ((size e0 < size v0)%nat) by (destruct v0; cbn [element] in E0; try discriminate; injection E0 as <-; cbn [size]; lia);
   assert ((size e1 < size v1)%nat) by (destruct v1; cbn [element] in E1; try discriminate; injection E1 as <-; cbn [size]; lia);
   rewrite (IH m) by lia; reflexivity).
Qed.

Lemma promote_unfold t0 t1 : promote_types_arithmetic t0 t1 =
  let v0 := value_type t0 in
  let v1 := value_type t1 in
  match as_builtin v0, as_builtin v1 with
  | Some a, Some b => do r <- promote_builtin a b; Ok (B r)
  | _, _ =>
      if is_string_id v0 && is_string_id v1 then Ok Str else
      match as_option v0, as_option v1 with
      | Some a, Some b => do r <- promote_types_arithmetic a b; make_option r
      | Some a, None => do r <- promote_types_arithmetic a v1; make_option r
      | None, Some b => do r <- promote_types_arithmetic v0 b; make_option r
      | None, None =>
          if is_type_type v0 && base_is_string_kind v1 then Ok v0
          else if base_is_string_kind v0 && is_type_type v1 then Ok v1
          else if is_void_type v0 then Ok v1
          else if is_void_type v1 then Ok v0
          else if (is_var v0 && base_is_dim_kind v1) || (is_var v1 && base_is_dim_kind v0) then
            do e0 <- element v0; do e1 <- element v1; do r <- promote_types_arithmetic e0 e1; Ok (Var r)
          else Throw "type_error"
      end
  end.
Proof.
  unfold promote_types_arithmetic at 1. destruct (size t0 + size t1)%nat as [|n] eqn:EN; [pose proof (size_pos t0); lia|]. cbn [promote].
  pose proof (value_size t0) as V0. pose proof (value_size t1) as V1. generalize dependent (value_type t0). generalize dependent (value_type t1). intros v1 V1 v0 V0. cbv zeta.
  unfold promote_types_arithmetic.
  destruct (as_builtin v0), (as_builtin v1); auto; (destruct (is_string_id v0 && is_string_id v1); [reflexivity|]);
  (assert (S0 : match as_option v0 with Some a => (size a < size v0)%nat | None => True end) by (destruct v0; cbn [as_option size]; auto; lia));
  (assert (S1 : match as_option v1 with Some a => (size a < size v1)%nat | None => True end) by (destruct v1; cbn [as_option size]; auto; lia));
  destruct (as_option v0) as [oa|], (as_option v1) as [ob|];
  try (rewrite (promote_fuel n (size oa + size ob)) by lia; reflexivity);
  try (rewrite (promote_fuel n (size oa + size v1)) by lia; reflexivity);
  try (rewrite (promote_fuel n (size v0 + size ob)) by lia; reflexivity);
  destruct (is_type_type v0 && base_is_string_kind v1); auto; destruct (base_is_string_kind v0 && is_type_type v1); auto;
  destruct (is_void_type v0); auto; destruct (is_void_type v1); auto;
  destruct (is_var v0 && base_is_dim_kind v1 || is_var v1 && base_is_dim_kind v0); auto;
  (destruct (element v0) as [e0| | |] eqn:E0; auto; destruct (element v1) as [e1| | |] eqn:E1; auto; cbn [bind];
   assert ((size e0 < size v0)%nat) by (destruct v0; cbn [element] in E0; try discriminate; injection E0 as <-; cbn [size]; lia);
   assert ((size e1 < size v1)%nat) by (destruct v1; cbn [element] in E1; try discriminate; injection E1 as <-; cbn [size]; lia);
   rewrite (promote_fuel n (size e0 + size e1)) by lia; reflexivity).
Qed.

(** The builtin table. *)
Lemma builtin_total a b : a <> uninitialized -> b <> uninitialized -> exists r, promote_builtin a b = Ok r.
Proof. destruct a, b; intros A B; try congruence; eexists; vm_compute; reflexivity. Qed.
Lemma builtin_comm a b : a <> float16 -> b <> float16 -> a <> uninitialized -> b <> uninitialized -> promote_builtin a b = promote_builtin b a.
Proof. destruct a, b; intros A B C D; try congruence; vm_compute; reflexivity. Qed.
Lemma builtin_wf a b r : a <> uninitialized -> b <> uninitialized -> promote_builtin a b = Ok r -> r <> uninitialized.
Proof. destruct a, b; intros A B; try congruence; vm_compute; congruence. Qed.

Lemma promote_not_opt t0 t1 r : wf t0 -> wf t1 -> not_opt t0 -> not_opt t1 -> promote_types_arithmetic t0 t1 = Ok r -> not_opt r.
Proof.
  intros W0 W1 N0 N1. rewrite promote_unfold. cbv zeta.
  assert (V0 : value_type t0 = t0) by (destruct t0; cbn [wf value_type] in *; tauto). assert (V1 : value_type t1 = t1) by (destruct t1; cbn [wf value_type] in *; tauto). rewrite V0, V1.
  assert (O0 : as_option t0 = None) by (destruct t0; cbn [not_opt as_option] in *; tauto). assert (O1 : as_option t1 = None) by (destruct t1; cbn [not_opt as_option] in *; tauto). rewrite O0, O1.
  destruct (as_builtin t0) as [a|], (as_builtin t1) as [b|]; [destruct (promote_builtin a b); cbn [bind]; try discriminate; intros [= <-]; exact I|..];
  (destruct (is_string_id t0 && is_string_id t1); [intros [= <-]; exact I|]);
  (destruct (is_type_type t0 && base_is_string_kind t1); [intros [= <-]; auto|]); (destruct (base_is_string_kind t0 && is_type_type t1); [intros [= <-]; auto|]);
  (destruct (is_void_type t0); [intros [= <-]; auto|]); (destruct (is_void_type t1); [intros [= <-]; auto|]);
  (destruct (_ || _); [|discriminate]);
  (destruct (element t0); cbn [bind]; try discriminate; destruct (element t1); cbn [bind]; try discriminate; destruct (promote_types_arithmetic _ _); cbn [bind]; try discriminate; intros [= <-]; exact I).
Qed.

Lemma commutative n : forall t0 t1, (size t0 + size t1 <= n)%nat -> wf t0 -> wf t1 -> no16 t0 -> no16 t1 -> promote_types_arithmetic t0 t1 = promote_types_arithmetic t1 t0.
Proof.
  induction n as [|n IH]; intros t0 t1 L W0 W1 N0 N1; [pose proof (size_pos t0); lia|].
  rewrite (promote_unfold t0 t1), (promote_unfold t1 t0). cbv zeta.
  assert (V0 : value_type t0 = t0) by (destruct t0; cbn [wf value_type] in *; tauto). assert (V1 : value_type t1 = t1) by (destruct t1; cbn [wf value_type] in *; tauto). rewrite V0, V1.
  assert (OPT : forall t a, wf t -> no16 t -> as_option t = Some a -> wf a /\ no16 a /\ (size a < size t)%nat) by (intros [] x; cbn [wf no16 as_option size]; intros; try discriminate; match goal with H : Some _ = Some _ |- _ => injection H as <- end; intuition lia).
  assert (ELT : forall t a, wf t -> no16 t -> element t = Ok a -> wf a /\ no16 a /\ (size a < size t)%nat) by (intros [] x; cbn [wf no16 element size]; intros; try discriminate; match goal with H : Ok _ = Ok _ |- _ => injection H as <- end; intuition lia).
  destruct (as_builtin t0) as [a|] eqn:B0, (as_builtin t1) as [b|] eqn:B1.
  { destruct t0; try discriminate; injection B0 as ->. destruct t1; try discriminate; injection B1 as ->. cbn [wf no16] in *. rewrite (builtin_comm a b); auto. }
  all: rewrite (andb_comm (is_string_id t1)); destruct (is_string_id t0 && is_string_id t1); [reflexivity|];
  destruct (as_option t0) as [o0|] eqn:O0, (as_option t1) as [o1|] eqn:O1;
  try (destruct (OPT t0 o0 W0 N0 O0) as (? & ? & ?)); try (destruct (OPT t1 o1 W1 N1 O1) as (? & ? & ?));
  try (rewrite IH by (auto; lia); reflexivity);
  rewrite (andb_comm (base_is_string_kind t1)), (andb_comm (is_type_type t1)), (orb_comm (is_var t1 && _));
  destruct (is_type_type t0 && base_is_string_kind t1) eqn:TS, (base_is_string_kind t0 && is_type_type t1) eqn:ST; try reflexivity;
  try (apply andb_true_iff in TS as (? & ?); apply andb_true_iff in ST as (? & ?); destruct t0; discriminate);
  destruct (is_void_type t0) eqn:Z0, (is_void_type t1) eqn:Z1; try reflexivity;
  try (destruct t0; cbn [is_void_type] in Z0; discriminate); try (destruct t1; cbn [is_void_type] in Z1; discriminate);
  try (destruct t0; cbn [as_builtin is_void_type] in *; discriminate); try (destruct t1; cbn [as_builtin is_void_type] in *; discriminate);
  (destruct (is_var t0 && base_is_dim_kind t1 || is_var t1 && base_is_dim_kind t0) eqn:DD; [|reflexivity]);
  (destruct (element t0) as [e0| | |] eqn:E0; cbn [bind]);
  (destruct (element t1) as [e1| | |] eqn:E1; cbn [bind]);
  try reflexivity; try (destruct t0; discriminate); try (destruct t1; discriminate);
  destruct (ELT t0 e0 W0 N0 E0) as (? & ? & ?); destruct (ELT t1 e1 W1 N1 E1) as (? & ? & ?); rewrite IH by (auto; lia); reflexivity.
Qed.

Lemma void_neutral t : wf t -> promote_types_arithmetic (B void) t = Ok t /\ promote_types_arithmetic t (B void) = Ok t.
Proof.
  induction t as [b| | | |t IH|t IH|n t IH|t IH| |v IHv s IHs|n]; intros W; rewrite !promote_unfold; cbv zeta; try (split; reflexivity).
  - cbn [value_type as_builtin]. cbn [wf] in W. destruct b; try congruence; vm_compute; auto.
  - cbn [wf] in W. destruct W as (W & N). destruct (IH W) as (E1 & E2). cbn [value_type as_builtin as_option is_string_id andb]. rewrite E1, E2. cbn [bind]. destruct t; cbn [not_opt] in N; try tauto; auto.
  - destruct W.
Qed.
