From Verif Require Import Base StridedModel StridedSpec.
Open Scope Z_scope.

(** The same with a set of scratch cells that may change. *)
Definition storedB (B : Z -> Prop) (m m' : mem) (dst ds : Z) (n : nat) (v : Z -> Z) : Prop :=
  (forall i, 0 <= i < Z.of_nat n -> m' (elem dst ds i) = Some (v i)) /\
  (forall a, ~ B a -> (forall i, 0 <= i < Z.of_nat n -> a <> elem dst ds i) -> m' a = m a) /\
  (forall a, m a <> None -> m' a <> None).
Definition appliedB (B : Z -> Prop) (f : list Z -> outcome Z) (m : mem) (dst ds : Z) (n : nat) (x : Z -> list Z) (o : outcome mem) : Prop :=
  (forall v, (forall i, 0 <= i < Z.of_nat n -> f (x i) = Ok (v i)) -> exists m', o = Ok m' /\ storedB B m m' dst ds n v) /\
  ((forall i, 0 <= i < Z.of_nat n -> (exists v, f (x i) = Ok v) \/ (exists e, f (x i) = Throw e)) ->
   (exists i e, 0 <= i < Z.of_nat n /\ f (x i) = Throw e) ->
   exists i e, 0 <= i < Z.of_nat n /\ f (x i) = Throw e /\ o = Throw e).

Lemma stored_B (B : Z -> Prop) m m' dst ds n v : stored m m' dst ds n v -> storedB B m m' dst ds n v.
Proof.
  intros (A & C). split; [exact A|]. split; [intros a _; apply C|].
  intros a V. destruct (m' a) eqn:E; [discriminate|]. exfalso.
  assert (N : forall i, 0 <= i < Z.of_nat n -> a <> elem dst ds i) by (intros i Hi ->; rewrite A in E by exact Hi; discriminate).
  rewrite (C a N) in E. contradiction.
Qed.
Lemma applied_B (B : Z -> Prop) f m dst ds n x o : applied f m dst ds n x o -> appliedB B f m dst ds n x o.
Proof.
  intros (A & C). split; [|exact C]. intros v Hv. destruct (A v Hv) as (m' & E & S). exists m'. split; [exact E|apply stored_B, S].
Qed.
Lemma storedB_none m m' dst ds n v : storedB (fun _ => False) m m' dst ds n v -> stored m m' dst ds n v.
Proof. intros (A & C & _). split; [exact A|]. intros a N. apply C; auto. Qed.
Lemma appliedB_none f m dst ds n x o : appliedB (fun _ => False) f m dst ds n x o -> applied f m dst ds n x o.
Proof.
  intros (A & C). split; [|exact C]. intros v Hv. destruct (A v Hv) as (m' & E & S). exists m'. split; [exact E|apply storedB_none, S].
Qed.

Definition vof (f : list Z -> outcome Z) (x : Z -> list Z) (i : Z) : Z := match f (x i) with Ok v => v | _ => 0 end.

(** Doing the first [n1] elements and then the rest. *)
Lemma chain (B : Z -> Prop) f m dst ds n1 n2 x o1 k :
  distinct ds (n1 + n2) ->
  (forall i, 0 <= i < Z.of_nat n1 -> ~ B (elem dst ds i)) ->
  appliedB B f m dst ds n1 x o1 ->
  (forall m1, o1 = Ok m1 -> storedB B m m1 dst ds n1 (vof f x) ->
     appliedB B f m1 (dst + Z.of_nat n1 * ds) ds n2 (fun i => x (Z.of_nat n1 + i)) (k m1)) ->
  appliedB B f m dst ds (n1 + n2) x (bind o1 k).
Proof.
  intros D NB (A1 & A2) H.
  assert (S1 : (forall i, 0 <= i < Z.of_nat n1 -> exists v, f (x i) = Ok v) ->
    exists m1, o1 = Ok m1 /\ storedB B m m1 dst ds n1 (vof f x)).
  { intros P. apply A1. intros i Hi. destruct (P i Hi) as (v & E). unfold vof. rewrite E. reflexivity. }
  split.
  - intros v Hv. destruct S1 as (m1 & E1 & St1); [intros i Hi; exists (v i); apply Hv; lia|].
    destruct (H m1 E1 St1) as (B1 & _).
    destruct (B1 (fun i => v (Z.of_nat n1 + i))) as (m2 & E2 & St2); [intros i Hi; apply Hv; lia|].
    exists m2. rewrite E1. split; [exact E2|].
    destruct St1 as (P1 & Q1 & R1), St2 as (P2 & Q2 & R2). split; [|split].
    + intros i Hi. destruct (Z.lt_ge_cases i (Z.of_nat n1)) as [L|G].
      * rewrite Q2.
        -- rewrite P1 by lia. unfold vof. rewrite (Hv i) by lia. reflexivity.
        -- apply NB. lia.
        -- intros j Hj. unfold elem. destruct D as [D|D]; [nia|lia].
      * specialize (P2 (i - Z.of_nat n1) ltac:(lia)). cbv beta in P2. replace (Z.of_nat n1 + (i - Z.of_nat n1)) with i in P2 by lia.
        replace (elem dst ds i) with (elem (dst + Z.of_nat n1 * ds) ds (i - Z.of_nat n1)) by (unfold elem; lia). exact P2.
    + intros a Na Hn. rewrite Q2; auto.
      * apply Q1; auto. intros i Hi. apply Hn. lia.
      * intros j Hj. specialize (Hn (Z.of_nat n1 + j) ltac:(lia)). unfold elem in *. lia.
    + auto.
  - intros T (i & e & Hi & E).
    assert (C : (forall j, 0 <= j < Z.of_nat n1 -> exists v, f (x j) = Ok v) \/ (exists j e, 0 <= j < Z.of_nat n1 /\ f (x j) = Throw e)).
    { clear - T. assert (G : forall k, (k <= n1)%nat -> (forall j, 0 <= j < Z.of_nat k -> exists v, f (x j) = Ok v) \/ (exists j e, 0 <= j < Z.of_nat k /\ f (x j) = Throw e)).
      { induction k as [|k IH]; intros L; [left; intros; lia|].
        destruct (IH ltac:(lia)) as [O|(j & e & Hj & E)].
        - destruct (T (Z.of_nat k) ltac:(lia)) as [(v & E)|(e & E)].
          + left. intros j Hj. destruct (Z.eq_dec j (Z.of_nat k)) as [->|]; eauto. apply O. lia.
          + right. exists (Z.of_nat k), e. split; [lia|exact E].
        - right. exists j, e. split; [lia|exact E]. }
      exact (G n1 (Nat.le_refl _)). }
    destruct C as [O|(j & e' & Hj & E')].
    + destruct (S1 O) as (m1 & E1 & St1). destruct (H m1 E1 St1) as (_ & B2).
      assert (Hi1 : Z.of_nat n1 <= i). { destruct (Z.lt_ge_cases i (Z.of_nat n1)); [|lia]. destruct (O i ltac:(lia)) as (v & E3). congruence. }
      destruct B2 as (j & e' & Hj & E' & Ek).
      * intros j Hj. apply T. lia.
      * exists (i - Z.of_nat n1), e. split; [lia|]. replace (Z.of_nat n1 + (i - Z.of_nat n1)) with i by lia. exact E.
      * exists (Z.of_nat n1 + j), e'. rewrite E1. split; [lia|]. split; [exact E'|exact Ek].
    + destruct A2 as (j2 & e2 & Hj2 & E2 & Eo).
      * intros q Hq. apply T. lia.
      * exists j, e'. auto.
      * exists j2, e2. rewrite Eo. split; [lia|]. split; [exact E2|reflexivity].
Qed.

Lemma loads_spec m srcs xs : map m srcs = map Some xs -> loads m srcs = Ok xs.
Proof.
  revert xs. induction srcs as [|a r IH]; intros [|y xs] H; try discriminate; [reflexivity|].
  cbn in H. injection H as H1 H2. cbn. unfold ld. rewrite H1. cbn. rewrite (IH xs H2). reflexivity.
Qed.
Lemma combine_fst (A C : Type) (a : list A) (b : list C) : List.length a = List.length b -> map fst (combine a b) = a.
Proof. revert b. induction a; intros [|y b] H; try discriminate; cbn in *; [reflexivity|]. rewrite IHa; congruence. Qed.
Lemma combine_advance srcs ss : List.length srcs = List.length ss ->
  combine (advance srcs ss) ss = map (fun p => (fst p + snd p, snd p)) (combine srcs ss).
Proof.
  unfold advance. revert ss. induction srcs; intros [|t ss] H; try discriminate; [reflexivity|].
  cbn. f_equal. apply IHsrcs. cbn in H. lia.
Qed.
Lemma advance_length srcs ss : List.length srcs = List.length ss -> List.length (advance srcs ss) = List.length ss.
Proof. intros H. unfold advance. rewrite map_length, combine_length. lia. Qed.

(** One element. *)
Lemma leaf_applied f m dst ds srcs ss x :
  valid m dst ds 1 -> holds m srcs ss 1 x -> applied f m dst ds 1 x (leaf f m dst srcs).
Proof.
  intros V (L & Hx). specialize (Hx 0 ltac:(lia)). specialize (V 0 ltac:(lia)). unfold elem in *. rewrite Z.mul_0_l, Z.add_0_r in V.
  assert (E : loads m srcs = Ok (x 0)).
  { apply loads_spec. rewrite <- Hx. rewrite <- (combine_fst _ _ srcs ss L) at 1. rewrite map_map. apply map_ext.
    intros (a & b). cbn. f_equal. lia. }
  unfold leaf. rewrite E. cbn. split.
  - intros v Hv. rewrite (Hv 0) by lia. cbn. unfold st. destruct (m dst) eqn:Md; [|contradiction].
    exists (upd m dst (v 0)). split; [reflexivity|]. unfold upd. split.
    + intros i Hi. replace i with 0 by lia. unfold elem. replace (dst + 0 * ds) with dst by lia. rewrite Z.eqb_refl. reflexivity.
    + intros a Na. specialize (Na 0 ltac:(lia)). unfold elem in Na. destruct (Z.eqb_spec a dst); [lia|reflexivity].
  - intros _ (i & e & Hi & Ei). replace i with 0 in Ei by lia. exists 0, e. rewrite Ei. split; [lia|auto].
Qed.

(** After one element the remaining operands satisfy the same hypotheses. *)
Lemma holds_tail m m' dst ds srcs ss n x :
  holds m srcs ss (S n) x ->
  (forall s t, In (s, t) (combine srcs ss) -> apart dst ds s t (S n)) ->
  (forall a, a <> dst -> m' a = m a) ->
  holds m' (advance srcs ss) ss n (fun i => x (1 + i)).
Proof.
  intros (L & H) A U. split; [apply advance_length, L|]. intros i Hi. rewrite combine_advance by exact L.
  rewrite <- (H (1 + i)) by lia. rewrite map_map. apply map_ext_in. intros (s & t) I. cbn [fst snd].
  rewrite U.
  - f_equal. unfold elem. lia.
  - intros E. apply (A s t I 0 (1 + i)); [lia|lia|]. unfold elem in *. lia.
Qed.
Lemma apart_tail dst ds srcs ss n : List.length srcs = List.length ss ->
  (forall s t, In (s, t) (combine srcs ss) -> apart dst ds s t (S n)) ->
  forall s t, In (s, t) (combine (advance srcs ss) ss) -> apart (dst + ds) ds s t n.
Proof.
  intros L A s t I. rewrite combine_advance in I by exact L. apply in_map_iff in I. destruct I as ((s0 & t0) & E & I).
  injection E as <- <-. intros i j Hi Hj E. apply (A s0 t0 I (1 + i) (1 + j)); [lia|lia|]. unfold elem in *. lia.
Qed.

Lemma base_strided_applies f : applies f (base_strided (leaf f)).
Proof.
  intros m dst ds srcs ss n x V D Hx A. apply appliedB_none. revert m dst srcs x V D Hx A.
  induction n as [|n IH]; intros m dst srcs x V D Hx A.
  - cbn. split.
    + intros v _. exists m. split; [reflexivity|]. split; [intros; lia|]. auto.
    + intros _ (i & _ & Hi & _). lia.
  - cbn [base_strided]. apply (chain (fun _ => False) f m dst ds 1 n x); auto.
    + apply applied_B. apply leaf_applied with (ss := ss).
      * intros i Hi. apply V. lia.
      * destruct Hx as (L & Hx). split; [exact L|]. intros i Hi. apply Hx. lia.
    + intros m1 E1 (P1 & Q1 & R1). change (Z.of_nat 1) with 1. rewrite Z.mul_1_l. apply IH.
      * intros i Hi. apply R1. specialize (V (1 + i) ltac:(lia)). unfold elem in *. replace (dst + ds + i * ds) with (dst + (1 + i) * ds) by lia. exact V.
      * destruct D as [D|D]; [left; exact D|right; lia].
      * apply holds_tail with (m := m) (dst := dst) (ds := ds); auto. intros a Na. apply Q1; auto.
        intros i Hi. replace i with 0 by lia. unfold elem. lia.
      * destruct Hx as (L & _). apply apart_tail; auto.
Qed.
