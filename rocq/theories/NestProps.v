(** C152-C154: arrays from nested lists. *)
From Verif Require Import Base NestModel NestSpec NestProofs.
Open Scope Z_scope.

(** ** C152: the inferred type has one dimension for each depth: the size that all
    the lists of the level have, or var when there are two sizes. *)
Definition C152 : Prop := forall d x, is_depth d x ->
  exists s, shape d x = Ok s /\ List.length s = d /\ (forall i, (i < d)%nat -> dim_of (level i x) (nth i s 0)) /\ dims s (from_shape s).

(** Refuted: an empty list that should have lists in it. *)
Theorem C152_shape_refuted : ~ C152.
Proof.
  intros H. destruct (H 2%nat (Node []) ltac:(exists []; split; [reflexivity|constructor])) as (s & E & _). discriminate.
Qed.
(** It holds when no list above the last level is empty, to any depth. *)
Theorem C152_shape_partial : forall d x, is_depth d x -> nonempty d x ->
  exists s, shape d x = Ok s /\ List.length s = d /\ (forall i, (i < d)%nat -> dim_of (level i x) (nth i s 0)) /\ dims s (from_shape s).
Proof.
  intros d x D N. destruct (proj2 (shape_ok_iff d x D) N) as (s & E). destruct (shape_summary d x s D E) as (L & F).
  exists s. split; [exact E|]. split; [exact L|]. split; [exact F|apply from_shape_dims].
Qed.
(** Exactly then: otherwise the first element of an empty list is read. *)
Theorem C152_empty : forall d x, is_depth d x -> ~ nonempty d x -> shape d x = UB.
Proof.
  intros d x D N. destruct (shape_total d x D) as [H|H]; [|exact H]. exfalso. apply N. exact (proj1 (shape_ok_iff d x D) H).
Qed.

(** ** C153: lists of even sizes are stored side by side, and every element of the
    array is the element of the lists at the same indices; other indices throw.
    For every depth, element size and both kinds of containers. *)
Theorem C153_even : forall es kd d x, 0 < es -> is_depth d x -> nonempty d x -> (forall i, (i < d)%nat -> even i x) ->
  exists t m, make_array es kd d x = Ok (t, m) /\ reads es t m x /\
  exists s, dims s t /\ List.length s = d /\ forall i, (i < d)%nat -> nth i s 0 <> -1 /\ Forall (eq (nth i s 0)) (level i x).
Proof.
  intros es kd d x P D N V. destruct (proj2 (shape_ok_iff d x D) N) as (s & E). destruct (shape_summary d x s D E) as (L & F).
  assert (G : good kd s) by (intros i I _; rewrite L in I; apply (dim_of_even i x); [apply F; exact I|exact (V i I)]).
  assert (SZ : sized (from_shape s)) by (apply sized_shape; exact (summary_bound s d x (conj L F))).
  destruct (proj1 (mk_kernel_cases es kd s) G) as (k & K & KF). rewrite L in K.
  destruct (single_ok es P (from_shape s) k SZ KF (Mem [data_size es (from_shape s)] (fun _ _ => None)) 0%nat 0 x (data_size es (from_shape s))
    (shape_shaped d x s D E) eq_refl (Z.le_refl 0) ltac:(lia)) as (m & R & ST & _).
  exists (from_shape s), m. unfold make_array. rewrite E. cbn [bind]. rewrite K. cbn [bind]. rewrite R. cbn [bind]. split; [reflexivity|].
  split; [intros path; exact (stored_reads es _ m 0%nat 0 x path ST)|]. exists s. split; [apply from_shape_dims|]. split; [exact L|].
  intros i I. assert (Q : nth i s 0 <> -1) by (apply (dim_of_even i x); [apply F; exact I|exact (V i I)]). split; [exact Q|].
  destruct (F i I) as [(_ & _ & A)|(A & _)]; [exact A|contradiction].
Qed.

(** ** C154: lists of uneven sizes are stored as well. *)
Definition C154 (kd : kind) : Prop := forall es d x, 0 < es -> is_depth d x -> nonempty d x ->
  exists t m, make_array es kd d x = Ok (t, m) /\ reads es t m x.

Definition L (l : list Z) : nest := Node (map Leaf l).
(** Refuted for vectors of vectors, and for initializer lists of depth three. *)
Theorem C154_vector_refuted : ~ C154 Vec.
Proof.
  intros H. destruct (H 4 2%nat (Node [L [1; 2]; L [3]]) ltac:(lia)) as (t & m & E & _).
  - exists [L [1; 2]; L [3]]. split; [reflexivity|]. repeat constructor; eexists; (split; [reflexivity|]); repeat constructor; eexists; reflexivity.
  - intros i I Z. assert (i = 0)%nat by lia. subst i. destruct Z as [Z|[]]. discriminate.
  - discriminate.
Qed.
Theorem C154_list_refuted : ~ C154 IList.
Proof.
  intros H. destruct (H 4 3%nat (Node [Node [L [1]; L [2]]; Node [L [3]]]) ltac:(lia)) as (t & m & E & _).
  - eexists. split; [reflexivity|]. repeat constructor; eexists; (split; [reflexivity|]); repeat constructor; eexists; (split; [reflexivity|]); repeat constructor; eexists; reflexivity.
  - intros [|[|i]] I Z; [| |lia]; cbn in Z; intuition discriminate.
  - discriminate.
Qed.
(** What is stored: the levels above the last must be even, and for vectors the
    last too.  Then every element reads back. *)
Theorem C154_ragged_partial : forall es kd d x, 0 < es -> is_depth d x -> nonempty d x ->
  (forall i, (i < d)%nat -> (S i < d)%nat \/ kd = Vec -> even i x) ->
  exists t m, make_array es kd d x = Ok (t, m) /\ reads es t m x.
Proof.
  intros es kd d x P D N V. destruct (proj2 (shape_ok_iff d x D) N) as (s & E). destruct (shape_summary d x s D E) as (LS & F).
  assert (G : good kd s) by (intros i I C; rewrite LS in I, C; apply (dim_of_even i x); [apply F; exact I|exact (V i I C)]).
  assert (SZ : sized (from_shape s)) by (apply sized_shape; exact (summary_bound s d x (conj LS F))).
  destruct (proj1 (mk_kernel_cases es kd s) G) as (k & K & KF). rewrite LS in K.
  destruct (single_ok es P (from_shape s) k SZ KF (Mem [data_size es (from_shape s)] (fun _ _ => None)) 0%nat 0 x (data_size es (from_shape s))
    (shape_shaped d x s D E) eq_refl (Z.le_refl 0) ltac:(lia)) as (m & R & ST & _).
  exists (from_shape s), m. unfold make_array. rewrite E. cbn [bind]. rewrite K. cbn [bind]. rewrite R. cbn [bind]. split; [reflexivity|].
  intros path. exact (stored_reads es _ m 0%nat 0 x path ST).
Qed.
(** Exactly then: with any other lists the behaviour is undefined. *)
Theorem C154_exact : forall es kd d x, 0 < es -> is_depth d x ->
  ~ (nonempty d x /\ forall i, (i < d)%nat -> (S i < d)%nat \/ kd = Vec -> even i x) -> make_array es kd d x = UB.
Proof.
  intros es kd d x P D N. unfold make_array. destruct (shape_total d x D) as [(s & E)|E]; rewrite E; cbn [bind]; [|reflexivity].
  destruct (shape_summary d x s D E) as (LS & F). rewrite <- LS at 1. rewrite (proj2 (mk_kernel_cases es kd s)); [reflexivity|].
  intros G. apply N. split; [apply (shape_ok_iff d x D); exists s; exact E|]. intros i I C. apply (dim_of_even i x (nth i s 0)); [apply F; exact I|].
  apply G; rewrite LS; assumption.
Qed.

Print Assumptions C152_shape_refuted. Print Assumptions C152_shape_partial. Print Assumptions C152_empty. Print Assumptions C153_even.
Print Assumptions C154_vector_refuted. Print Assumptions C154_list_refuted. Print Assumptions C154_ragged_partial. Print Assumptions C154_exact.

(** ** Cases *)
Definition M23 : nest := Node [L [1; 2; 3]; L [4; 5; 6]].
Example case_even : is_depth 2 M23 /\ nonempty 2 M23 /\ (forall i, (i < 2)%nat -> even i M23).
Proof.
  split; [eexists; split; [reflexivity|]; repeat constructor; eexists; (split; [reflexivity|]); repeat constructor; eexists; reflexivity|]. split.
  - intros i I Z. assert (i = 0)%nat by lia. subst i. destruct Z as [Z|[]]. discriminate.
  - intros [|[|i]] I a b; [| |lia]; cbn; intuition lia.
Qed.
Example case_even_run : exists m, make_array 4 Vec 2 M23 = Ok (Fixed 2 (Fixed 3 Elem), m) /\ sizes m = [24] /\ read 4 (Fixed 2 (Fixed 3 Elem)) m 0 0 [1; 2]%nat = Ok 6.
Proof. eexists. split; [reflexivity|]. split; reflexivity. Qed.
Definition Rag : nest := Node [L [1; 2]; L []; L [3; 4; 5]].
Example case_ragged : is_depth 2 Rag /\ nonempty 2 Rag /\ (forall i, (i < 2)%nat -> (S i < 2)%nat \/ IList = Vec -> even i Rag) /\ ~ even 1 Rag.
Proof.
  split; [eexists; split; [reflexivity|]; repeat constructor; eexists; (split; [reflexivity|]); repeat constructor; eexists; reflexivity|]. split; [|split].
  - intros i I Z. assert (i = 0)%nat by lia. subst i. destruct Z as [Z|[]]. discriminate.
  - intros i I [C|C] a b; [|discriminate]. assert (i = 0)%nat by lia. subst i. cbn. intuition lia.
  - intros E. specialize (E 2 0 ltac:(cbn; auto) ltac:(cbn; auto)). discriminate.
Qed.
Example case_ragged_run : exists m, make_array 8 IList 2 Rag = Ok (Fixed 3 (Var Elem), m) /\ sizes m = [48; 16; 0; 24] /\
  read 8 (Fixed 3 (Var Elem)) m 0 0 [2; 1]%nat = Ok 4 /\ read 8 (Fixed 3 (Var Elem)) m 0 0 [1; 0]%nat = Throw "index out of bounds".
Proof. eexists. split; [reflexivity|]. repeat split. Qed.
Example case_ragged_vector : make_array 8 Vec 2 Rag = UB.
Proof. reflexivity. Qed.
