From Verif Require Import Base StridedModel StridedSpec StridedProofs StridedProofs2 StridedProofs3.
Open Scope Z_scope.

Lemma na_fill_leaf nav n : forall m dst ds, na_fill nav m dst ds [] [] n = base_strided (leaf (fun _ => Ok nav)) m dst ds [] [] n.
Proof.
  unfold na_fill. induction n as [|n IH]; intros m dst ds; [reflexivity|]. cbn [base_strided].
  change (leaf (fun _ => Ok nav) m dst []) with (st m dst nav). destruct (st m dst nav); cbn [bind]; auto.
Qed.
Lemma na_fill_applied nav m dst ds n x : valid m dst ds n -> distinct ds n ->
  applied (fun _ => Ok nav) m dst ds n x (na_fill nav m dst ds [] [] n).
Proof.
  intros V D. apply (applied_ext (fun _ => Ok nav) _ m dst ds n (fun _ => [])); [reflexivity|].
  rewrite na_fill_leaf. apply (base_strided_applies (fun _ => Ok nav)); auto; [|intros s t []].
  split; reflexivity.
Qed.

Section Option2.
  Variables (na : Z -> bool) (g : Z -> outcome Z) (is_na assign : strided_t) (nav : Z) (K : nat) (mis : Z).
  Hypotheses (HN : applies (on1 (na_flag na)) is_na) (HG : applies (on1 g) assign).
  Let B := bufset mis 1 K.
  Let h := on1 (o2o_single na g nav).
  Definition mem_of (o : outcome (mem * Z * Z)) : outcome mem := do r <- o; Ok (fst (fst r)).

  (** What is needed of the memory to process [n] elements whose flags start at [mp]. *)
  Record ready (M : mem) (mp dst ds cur ss : Z) (n : nat) (x : Z -> list Z) : Prop := {
    r_flags : forall i, 0 <= i < Z.of_nat n -> M (mp + i) = Some (flag na (x i)) /\ B (mp + i);
    r_valid : valid M dst ds n;
    r_dist : distinct ds n;
    r_holds : holds M [cur] [ss] n x;
    r_apart : apart dst ds cur ss n;
    r_dst : forall i, 0 <= i < Z.of_nat n -> ~ B (elem dst ds i);
    r_src : forall i, 0 <= i < Z.of_nat n -> ~ B (elem cur ss i)
  }.
  Lemma ready_shift M M' mp dst ds cur ss n1 n2 x v :
    ready M mp dst ds cur ss (n1 + n2) x -> stored M M' dst ds n1 v ->
    ready M' (mp + Z.of_nat n1) (dst + Z.of_nat n1 * ds) ds (cur + Z.of_nat n1 * ss) ss n2 (fun i => x (Z.of_nat n1 + i)).
  Proof.
    intros [Fl V D Hx A ND NS] (P & Q). destruct (stored_B (fun _ => False) _ _ _ _ _ _ (conj P Q)) as (_ & _ & R). constructor.
    - intros i Hi. destruct (Fl (Z.of_nat n1 + i) ltac:(lia)) as (F1 & F2). rewrite <- Z.add_assoc. split; [|exact F2].
      rewrite Q; [exact F1|]. intros j Hj E. apply (ND j ltac:(lia)). rewrite <- E. exact F2.
    - intros i Hi. apply R. rewrite elem_shift. apply V. lia.
    - eapply distinct_mono; [|exact D]. lia.
    - split; [reflexivity|]. intros i Hi. destruct Hx as (_ & Hx). rewrite <- (Hx (Z.of_nat n1 + i)) by lia. cbn [map combine fst snd].
      rewrite elem_shift. rewrite Q; [reflexivity|]. intros j Hj E. apply (A j (Z.of_nat n1 + i)); [lia|lia|]. auto.
    - intros i j Hi Hj. rewrite !elem_shift. apply A; lia.
    - intros i Hi. rewrite elem_shift. apply ND. lia.
    - intros i Hi. rewrite elem_shift. apply NS. lia.
  Qed.
  Lemma ready_mono M mp dst ds cur ss n n' x : (n' <= n)%nat -> ready M mp dst ds cur ss n x -> ready M mp dst ds cur ss n' x.
  Proof.
    intros L [Fl V D Hx A ND NS]. constructor.
    - intros i Hi. apply Fl. lia.
    - eapply valid_mono; eauto.
    - eapply distinct_mono; eauto.
    - eapply holds_mono; eauto.
    - intros i j Hi Hj. apply A; lia.
    - intros i Hi. apply ND. lia.
    - intros i Hi. apply NS. lia.
  Qed.

  Definition avail (xs : list Z) : Prop := flag na xs = 0.
  (** Chaining with plain [stored] results. *)
  Lemma chain0 f m dst ds n1 n2 x o1 k :
    distinct ds (n1 + n2) ->
    applied f m dst ds n1 x o1 ->
    (forall m1, o1 = Ok m1 -> stored m m1 dst ds n1 (vof f x) ->
       applied f m1 (dst + Z.of_nat n1 * ds) ds n2 (fun i => x (Z.of_nat n1 + i)) (k m1)) ->
    applied f m dst ds (n1 + n2) x (bind o1 k).
  Proof.
    intros D A H. apply appliedB_none. apply chain; auto. { apply applied_B, A. }
    intros m1 E S. apply applied_B. apply H; auto. apply storedB_none, S.
  Qed.
  Lemma applied_zero f m dst ds x : applied f m dst ds 0 x (Ok m).
  Proof. apply appliedB_none, appliedB_zero. Qed.

  (** A run of available, and of missing values. *)
  Lemma avail_run M mp dst ds cur ss n x : ready M mp dst ds cur ss n x -> (forall i, 0 <= i < Z.of_nat n -> flag na (x i) <> 1) ->
    applied h M dst ds n x (assign M dst ds [cur] [ss] n).
  Proof.
    intros [Fl V D Hx A ND NS] AV. apply (applied_ext (on1 g) _ M dst ds n x x).
    - intros i Hi. destruct (holds1 _ _ _ _ _ Hx i Hi) as (y & Xi & _). specialize (AV i Hi).
      unfold h, on1, o2o_single, flag in *. rewrite Xi in *. destruct (na y); [congruence|reflexivity].
    - apply HG; auto. apply apart1, A.
  Qed.
  Lemma na_run M mp dst ds cur ss n x : ready M mp dst ds cur ss n x -> (forall i, 0 <= i < Z.of_nat n -> flag na (x i) <> 0) ->
    applied h M dst ds n x (na_fill nav M dst ds [] [] n).
  Proof.
    intros [Fl V D Hx A ND NS] AV. apply (applied_ext (fun _ => Ok nav) _ M dst ds n x x).
    - intros i Hi. destruct (holds1 _ _ _ _ _ Hx i Hi) as (y & Xi & _). specialize (AV i Hi).
      unfold h, on1, o2o_single, flag in *. rewrite Xi in *. destruct (na y); [reflexivity|congruence].
    - apply na_fill_applied; auto.
  Qed.

  (** Where the pointer array has moved to after the chunk. *)
  Definition moved (x : Z -> list Z) (n : nat) (ss sp sp' : Z) : Prop :=
    (flag na (x (Z.of_nat n - 1)) = 1 -> sp' = sp) /\
    (flag na (x (Z.of_nat n - 1)) = 0 -> exists l, 0 < l <= Z.of_nat n /\ sp' = sp + l * ss).

  Lemma flag01 xs : flag na xs = 0 \/ flag na xs = 1.
  Proof. unfold flag. destruct xs as [|y]; [auto|]. destruct (na y); auto. Qed.

  Lemma runs_spec fuel : forall M mp dst ds cur ss sp n x,
    (n <= fuel)%nat -> (1 <= n)%nat -> ready M mp dst ds cur ss n x ->
    applied h M dst ds n x (mem_of (o2o_runs assign nav fuel M mp dst ds cur ss sp n)) /\
    ((forall i, 0 <= i < Z.of_nat n -> exists v, h (x i) = Ok v) ->
     exists m' sp', o2o_runs assign nav fuel M mp dst ds cur ss sp n = Ok (m', dst + Z.of_nat n * ds, sp') /\ moved x n ss sp sp').
  Proof.
    induction fuel as [|fuel IH]; intros M mp dst ds cur ss sp n x L N1 Rd; [lia|].
    cbn [o2o_runs]. destruct (memchr_spec M mp 1 (fun i => flag na (x i)) n) as [(s1 & Hs1 & Fs1 & Av1 & Mc1)|(Av1 & Mc1)].
    { intros i Hi. destruct (r_flags _ _ _ _ _ _ _ _ Rd i Hi) as (F & _). exact F. }
    2:{ (* all available *)
      rewrite Mc1. cbn [bind]. pose proof (avail_run M mp dst ds cur ss n x Rd Av1) as AR. split.
      - unfold mem_of. rewrite bind_assoc. cbn [bind fst].
        replace (do a <- assign M dst ds [cur] [ss] n; Ok a) with (assign M dst ds [cur] [ss] n) by (destruct (assign M dst ds [cur] [ss] n); reflexivity).
        exact AR.
      - intros AO. destruct AR as (A1 & _). destruct (A1 (vof h x)) as (m1 & E1 & _).
        { intros i Hi. destruct (AO i Hi) as (v & E). unfold vof. rewrite E. reflexivity. }
        rewrite E1. cbn [bind]. exists m1, (sp + Z.of_nat n * ss). split; [reflexivity|]. split.
        + intros F. exfalso. apply (Av1 (Z.of_nat n - 1)); [lia|exact F].
        + intros _. exists (Z.of_nat n). split; [lia|reflexivity]. }
    rewrite Mc1. cbn [bind]. replace (mp + s1 - mp) with s1 by lia. set (n1 := Z.to_nat s1). assert (Zn1 : Z.of_nat n1 = s1) by lia.
    set (n2 := (n - n1)%nat). assert (N : (n = n1 + n2)%nat) by lia.
    (* the available run, empty or not *)
    set (o1 := if mp <? mp + s1 then assign M dst ds [cur] [ss] n1 else Ok M).
    assert (A1 : applied h M dst ds n1 x o1).
    { unfold o1. destruct (Z.ltb_spec mp (mp + s1)) as [G|G].
      - apply (avail_run M mp dst ds cur ss n1 x); [eapply ready_mono; [|exact Rd]; lia|]. intros i Hi. apply Av1. lia.
      - assert (n1 = 0%nat) by lia. replace n1 with 0%nat by lia. apply applied_zero. }
    (* the rest, for a memory where it is done *)
    set (rest := fun m : mem =>
      do r <- memchr m (mp + s1) 0 n2;
      match r with
      | Some q2 =>
          do m0 <- (if mp + s1 <? q2 then na_fill nav m (dst + Z.of_nat n1 * ds) ds [] [] (Z.to_nat (q2 - (mp + s1))) else Ok m);
          if (n2 - Z.to_nat (q2 - (mp + s1)) =? 0)%nat
          then Ok (m0, dst + Z.of_nat n1 * ds + Z.of_nat (Z.to_nat (q2 - (mp + s1))) * ds, sp)
          else o2o_runs assign nav fuel m0 q2 (dst + Z.of_nat n1 * ds + Z.of_nat (Z.to_nat (q2 - (mp + s1))) * ds) ds
                 (cur + Z.of_nat n1 * ss + Z.of_nat (Z.to_nat (q2 - (mp + s1))) * ss) ss sp (n2 - Z.to_nat (q2 - (mp + s1)))
      | None => do m0 <- na_fill nav m (dst + Z.of_nat n1 * ds) ds [] [] n2;
                Ok (m0, dst + Z.of_nat n1 * ds + Z.of_nat n2 * ds, sp)
      end).
    change (applied h M dst ds n x (mem_of (do m <- o1; rest m)) /\
      ((forall i, 0 <= i < Z.of_nat n -> exists v, h (x i) = Ok v) ->
       exists m' sp', (do m <- o1; rest m) = Ok (m', dst + Z.of_nat n * ds, sp') /\ moved x n ss sp sp')).
    assert (RS : forall m1 v1, stored M m1 dst ds n1 v1 ->
      applied h m1 (dst + Z.of_nat n1 * ds) ds n2 (fun i => x (Z.of_nat n1 + i)) (mem_of (rest m1)) /\
      ((forall i, 0 <= i < Z.of_nat n -> exists v, h (x i) = Ok v) ->
       exists m' sp', rest m1 = Ok (m', dst + Z.of_nat n * ds, sp') /\ moved x n ss sp sp')).
    { intros m1 v1 St1. pose proof Rd as Rd1. rewrite N in Rd1. apply (ready_shift M m1 mp dst ds cur ss n1 n2 x v1) in Rd1; [|exact St1].
      rewrite Zn1 in Rd1 at 1. unfold rest.
      destruct (memchr_spec m1 (mp + s1) 0 (fun i => flag na (x (Z.of_nat n1 + i))) n2) as [(s2 & Hs2 & Fs2 & Av2 & Mc2)|(Av2 & Mc2)].
      { intros i Hi. destruct (r_flags _ _ _ _ _ _ _ _ Rd1 i Hi) as (F & _). exact F. }
      2:{ rewrite Mc2. cbn [bind]. pose proof (na_run m1 _ _ ds _ ss n2 _ Rd1 Av2) as AR. split.
        - unfold mem_of. rewrite bind_assoc. cbn [bind fst].
          match goal with |- applied _ _ _ _ _ _ (bind ?o _) => replace (do a <- o; Ok a) with o by (destruct o; reflexivity) end. exact AR.
        - intros AO. destruct AR as (AR & _). destruct (AR (vof h (fun i => x (Z.of_nat n1 + i)))) as (m2 & E2 & _).
          { intros i Hi. destruct (AO (Z.of_nat n1 + i)) as (v & E); [lia|]. unfold vof. rewrite E. reflexivity. }
          rewrite E2. cbn [bind]. exists m2, sp. split.
          + do 3 f_equal. lia.
          + split; [reflexivity|]. intros F. exfalso. apply (Av2 (Z.of_nat n2 - 1)); [lia|].
            replace (Z.of_nat n1 + (Z.of_nat n2 - 1)) with (Z.of_nat n - 1) by lia. exact F. }
      assert (P2 : 0 < s2).
      { destruct (Z.eq_dec s2 0) as [->|]; [|lia]. rewrite Z.add_0_r, Zn1 in Fs2. congruence. }
      rewrite Mc2. cbn [bind]. destruct (Z.ltb_spec (mp + s1) (mp + s1 + s2)); [|lia].
      replace (mp + s1 + s2 - (mp + s1)) with s2 by lia. set (k1 := Z.to_nat s2). assert (Zk1 : Z.of_nat k1 = s2) by lia.
      set (k2 := (n2 - k1)%nat). assert (N2 : (n2 = k1 + k2)%nat) by lia. assert (K2 : (1 <= k2)%nat) by lia.
      destruct (Nat.eqb_spec k2 0) as [|_]; [lia|].
      assert (AR : applied h m1 (dst + Z.of_nat n1 * ds) ds k1 (fun i => x (Z.of_nat n1 + i)) (na_fill nav m1 (dst + Z.of_nat n1 * ds) ds [] [] k1)).
      { apply (na_run m1 (mp + s1) _ ds (cur + Z.of_nat n1 * ss) ss).
        - eapply ready_mono; [|exact Rd1]. lia.
        - intros i Hi. apply Av2. lia. }
      assert (RC : forall m2 v2, stored m1 m2 (dst + Z.of_nat n1 * ds) ds k1 v2 ->
        ready m2 (mp + s1 + s2) (dst + Z.of_nat n1 * ds + Z.of_nat k1 * ds) ds (cur + Z.of_nat n1 * ss + Z.of_nat k1 * ss) ss k2
          (fun i => x (Z.of_nat n1 + (Z.of_nat k1 + i)))).
      { intros m2 v2 St2. pose proof Rd1 as Rd2. rewrite N2 in Rd2.
        apply (ready_shift m1 m2 (mp + s1) _ ds _ ss k1 k2 _ v2) in Rd2; [|exact St2]. rewrite Zk1 in Rd2 at 1. exact Rd2. }
      split.
      - unfold mem_of. rewrite bind_assoc. rewrite N2 at 1. apply chain0.
        + rewrite <- N2. eapply distinct_mono; [|exact (r_dist _ _ _ _ _ _ _ _ Rd)]. lia.
        + exact AR.
        + intros m2 E2 St2. destruct (IH m2 (mp + s1 + s2) (dst + Z.of_nat n1 * ds + Z.of_nat k1 * ds) ds (cur + Z.of_nat n1 * ss + Z.of_nat k1 * ss) ss sp k2 _ ltac:(lia) K2 (RC m2 _ St2)) as (I1 & _).
          exact I1.
      - intros AO. destruct AR as (AR & _). destruct (AR (vof h (fun i => x (Z.of_nat n1 + i)))) as (m2 & E2 & St2).
        { intros i Hi. destruct (AO (Z.of_nat n1 + i)) as (v & E); [lia|]. unfold vof. rewrite E. reflexivity. }
        rewrite E2. cbn [bind].
        destruct (IH m2 (mp + s1 + s2) (dst + Z.of_nat n1 * ds + Z.of_nat k1 * ds) ds (cur + Z.of_nat n1 * ss + Z.of_nat k1 * ss) ss sp k2 _ ltac:(lia) K2 (RC m2 _ St2)) as (_ & I2).
        destruct I2 as (m' & sp' & E3 & Mv).
        { intros i Hi. apply AO. lia. }
        exists m', sp'. split.
        + rewrite E3. do 3 f_equal. lia.
        + unfold moved in *. replace (Z.of_nat n1 + (Z.of_nat k1 + (Z.of_nat k2 - 1))) with (Z.of_nat n - 1) in Mv by lia.
          destruct Mv as (Mv1 & Mv2). split; [exact Mv1|]. intros F. destruct (Mv2 F) as (l & Hl & El). exists l. split; [lia|exact El]. }
    split.
    - unfold mem_of. rewrite bind_assoc. rewrite N at 1. apply chain0.
      + rewrite <- N. exact (r_dist _ _ _ _ _ _ _ _ Rd).
      + exact A1.
      + intros m1 E1 St1. destruct (RS m1 _ St1) as (R1 & _). exact R1.
    - intros AO. destruct A1 as (A1 & _). destruct (A1 (vof h x)) as (m1 & E1 & St1).
      { intros i Hi. destruct (AO i ltac:(lia)) as (v & E). unfold vof. rewrite E. reflexivity. }
      rewrite E1. cbn [bind]. destruct (RS m1 _ St1) as (_ & R2). exact (R2 AO).
  Qed.
End Option2.
