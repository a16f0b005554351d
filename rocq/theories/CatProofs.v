(** Lemmas for C138-C144. *)
From Verif Require Import Base StridedModel SearchModel SearchSpec SearchProps CatModel CatSpec.
From Coq Require Import Sorted Permutation.
Open Scope Z_scope.

Section Order.
  Variable lt : Z -> Z -> bool.
  Hypothesis T : strict_total lt.
  Let irr : forall x, lt x x = false. Proof. exact (proj1 T). Qed.
  Let trans : forall x y z, lt x y = true -> lt y z = true -> lt x z = true. Proof. exact (proj1 (proj2 T)). Qed.
  Let tot : forall x y, lt x y = true \/ x = y \/ lt y x = true. Proof. exact (proj2 (proj2 T)). Qed.

  Lemma lt_asym : forall x y, lt x y = true -> lt y x = false.
  Proof.
    intros x y H. destruct (lt y x) eqn:E; [|reflexivity]. pose proof (trans _ _ _ H E) as Q. rewrite irr in Q. discriminate.
  Qed.
  Lemma equivalent_eq : forall x y, equivalent lt x y <-> x = y.
  Proof.
    intros x y. split.
    - intros [A B]. destruct (tot x y) as [H|[H|H]]; [congruence|exact H|congruence].
    - intros ->. split; apply irr.
  Qed.
  Lemma weak : weak_order lt.
  Proof.
    split; [intros x y H; apply lt_asym; exact H|].
    intros x y z H. destruct (tot x y) as [Q|[Q|Q]]; [left; exact Q|subst y; right; exact H|right; exact (trans _ _ _ Q H)].
  Qed.

  (** Two ascending lists with the same elements are equal. *)
  Lemma asc_unique : forall l m, ascending lt l -> ascending lt m -> (forall x, In x l <-> In x m) -> l = m.
  Proof.
    induction l as [|a l IH]; intros m Hl Hm E.
    - destruct m as [|b m]; [reflexivity|]. destruct (proj2 (E b) (or_introl eq_refl)).
    - destruct m as [|b m]; [destruct (proj1 (E a) (or_introl eq_refl))|].
      apply StronglySorted_inv in Hl as [Sl Fl]. apply StronglySorted_inv in Hm as [Sm Fm].
      rewrite Forall_forall in Fl, Fm.
      assert (a = b).
      { destruct (proj1 (E a) (or_introl eq_refl)) as [Q|Q]; [symmetry; exact Q|].
        destruct (proj2 (E b) (or_introl eq_refl)) as [R|R]; [exact R|].
        pose proof (Fm a Q) as X. pose proof (Fl b R) as Y. rewrite (lt_asym _ _ X) in Y. discriminate. }
      subst b. f_equal. apply IH; [exact Sl|exact Sm|]. intros x. split; intros H.
      + destruct (proj1 (E x) (or_intror H)) as [Q|Q]; [|exact Q]. subst x. pose proof (Fl a H) as X. rewrite irr in X. discriminate.
      + destruct (proj2 (E x) (or_intror H)) as [Q|Q]; [|exact Q]. subst x. pose proof (Fm a H) as X. rewrite irr in X. discriminate.
  Qed.
  Lemma asc_nodup : forall l, ascending lt l -> NoDup l.
  Proof.
    induction l as [|a l IH]; intros H; [constructor|]. apply StronglySorted_inv in H as [S F].
    constructor; [|apply IH; exact S]. intros I. rewrite Forall_forall in F. pose proof (F a I) as X. rewrite irr in X. discriminate.
  Qed.
  Lemma asc_nth : forall l i j x y, ascending lt l -> (i < j)%nat -> nth_error l i = Some x -> nth_error l j = Some y -> lt x y = true.
  Proof.
    induction l as [|a l IH]; intros i j x y H L X Y; [destruct i; discriminate|].
    apply StronglySorted_inv in H as [S F]. rewrite Forall_forall in F.
    destruct j as [|j]; [lia|]. cbn in Y. destruct i as [|i]; cbn in X.
    - injection X as <-. apply F. exact (nth_error_In _ _ Y).
    - exact (IH i j x y S ltac:(lia) X Y).
  Qed.

  Notation K := (working lt).
  Lemma find_spec : forall v u, ascending lt u -> exists b, set_find K v u = Ok b /\ (b = true <-> In v u).
  Proof.
    intros v. induction u as [|x u IH]; intros H; cbn [set_find].
    - exists false. split; [reflexivity|]. split; [discriminate|intros []].
    - apply StronglySorted_inv in H as [S F]. rewrite Forall_forall in F. cbn [less working k_less bind].
      destruct (lt x v) eqn:E.
      + destruct (IH S) as (b & -> & B). exists b. split; [reflexivity|]. rewrite B. split; [right; assumption|].
        intros [Q|Q]; [|exact Q]. subst. rewrite irr in E. discriminate.
      + exists (negb (lt v x)). split; [reflexivity|]. destruct (lt v x) eqn:E'; cbn.
        * split; [discriminate|]. intros [Q|Q]; [subst; congruence|]. pose proof (F v Q). congruence.
        * split; [|reflexivity]. intros _. left. destruct (tot x v) as [Q|[Q|Q]]; [congruence|exact Q|congruence].
  Qed.
  Lemma insert_spec : forall v u, ascending lt u -> exists u', set_insert K v u = Ok u' /\ ascending lt u' /\
    (forall x, In x u' <-> x = v \/ In x u).
  Proof.
    intros v. induction u as [|x u IH]; intros H; cbn [set_insert].
    - exists [v]. split; [reflexivity|]. split; [repeat constructor|]. intros x. cbn. intuition.
    - pose proof H as H0. apply StronglySorted_inv in H as [S F]. cbn [less working k_less bind].
      destruct (lt x v) eqn:E.
      + destruct (IH S) as (u' & -> & A & M). cbn [bind]. exists (x :: u'). split; [reflexivity|]. split.
        * constructor; [exact A|]. rewrite Forall_forall in *. intros y Y. apply M in Y as [->|Y]; [exact E|exact (F y Y)].
        * intros y. cbn. rewrite M. intuition.
      + destruct (lt v x) eqn:E'.
        * exists (v :: x :: u). split; [reflexivity|]. split.
          -- constructor; [exact H0|]. constructor; [exact E'|]. rewrite Forall_forall in *. intros y Y. exact (trans _ _ _ E' (F y Y)).
          -- intros y. cbn. intuition.
        * exists (x :: u). split; [reflexivity|]. split; [exact H0|].
          assert (x = v) by (destruct (tot x v) as [Q|[Q|Q]]; [congruence|exact Q|congruence]). subst.
          intros y. cbn. intuition.
  Qed.
  Lemma fill_unique_ok : forall cats u, ascending lt u -> NoDup cats -> (forall x, In x cats -> ~ In x u) ->
    exists u', fill_unique K cats u = Ok u' /\ ascending lt u' /\ (forall x, In x u' <-> In x cats \/ In x u).
  Proof.
    induction cats as [|v cats IH]; intros u A N D; cbn [fill_unique].
    - exists u. split; [reflexivity|]. split; [exact A|]. intros x. cbn. intuition.
    - inversion N as [|? ? Nv N']; subst. destruct (find_spec v u A) as (b & -> & B). cbn [bind].
      destruct b; [destruct (D v (or_introl eq_refl) (proj1 B eq_refl))|].
      destruct (insert_spec v u A) as (u1 & -> & A1 & M1). cbn [bind].
      destruct (IH u1 A1 N') as (u' & Q & A' & M').
      { intros x X Y. apply M1 in Y as [->|Y]; [contradiction|]. exact (D x (or_intror X) Y). }
      exists u'. split; [exact Q|]. split; [exact A'|]. intros x. rewrite M', M1. cbn. intuition.
  Qed.
  Lemma fill_unique_dup : forall cats u, ascending lt u -> (~ NoDup cats \/ exists x, In x cats /\ In x u) ->
    fill_unique K cats u = Throw "runtime_error: categories must be unique".
  Proof.
    induction cats as [|v cats IH]; intros u A D; cbn [fill_unique].
    - destruct D as [D|(x & [] & _)]. destruct D. constructor.
    - destruct (find_spec v u A) as (b & -> & B). cbn [bind]. destruct b; [reflexivity|].
      destruct (insert_spec v u A) as (u1 & -> & A1 & M1). cbn [bind]. apply IH; [exact A1|].
      destruct D as [D|(x & [X|X] & Y)].
      + destruct (in_dec Z.eq_dec v cats) as [I|I].
        * right. exists v. split; [exact I|]. apply M1. left. reflexivity.
        * left. intros N. apply D. constructor; assumption.
      + subst x. apply B in Y. discriminate.
      + right. exists x. split; [exact X|]. apply M1. right. exact Y.
  Qed.
  Lemma fill_factor_ok : forall vals u, ascending lt u ->
    exists u', fill_factor K vals u = Ok u' /\ ascending lt u' /\ (forall x, In x u' <-> In x vals \/ In x u).
  Proof.
    induction vals as [|v vals IH]; intros u A; cbn [fill_factor].
    - exists u. split; [reflexivity|]. split; [exact A|]. intros x. cbn. intuition.
    - destruct (find_spec v u A) as (b & -> & B). cbn [bind]. destruct b.
      + destruct (IH u A) as (u' & Q & A' & M'). exists u'. split; [exact Q|]. split; [exact A'|].
        intros x. rewrite M'. cbn. pose proof (proj1 B eq_refl). split; [intuition|]. intros [[<-|X]|X]; intuition.
      + destruct (insert_spec v u A) as (u1 & -> & A1 & M1). cbn [bind].
        destruct (IH u1 A1) as (u' & Q & A' & M'). exists u'. split; [exact Q|]. split; [exact A'|].
        intros x. rewrite M', M1. cbn. intuition.
  Qed.
  Lemma map_copy_id : forall l, map_copy K l = Ok l.
  Proof. induction l as [|x l IH]; cbn [map_copy]; [reflexivity|]. cbn [copy working k_copy bind]. rewrite IH. reflexivity. Qed.

  (** The sort of the indices. *)
  Lemma elem_ok : forall {A} (l : list A) i x, nth_error l i = Some x -> elem l i = Ok x.
  Proof. intros A l i x H. unfold elem. rewrite H. reflexivity. Qed.
  Definition key (cats : list Z) (i : nat) := nth i cats 0.
  Lemma insert_index_spec : forall cats i l, (i < List.length cats)%nat -> Forall (fun j => (j < List.length cats)%nat) l ->
    ~ In (key cats i) (map (key cats) l) -> ascending lt (map (key cats) l) ->
    exists l', insert_index K cats i l = Ok l' /\ Permutation l' (i :: l) /\ ascending lt (map (key cats) l').
  Proof.
    intros cats i. induction l as [|j l IH]; intros I F N A; cbn [insert_index].
    - exists [i]. split; [reflexivity|]. split; [reflexivity|]. repeat constructor.
    - inversion F as [|? ? Fj F']; subst. cbn [map] in A. pose proof A as A0. apply StronglySorted_inv in A as [S FA].
      rewrite (elem_ok cats j (key cats j)) by (apply nth_error_nth'; exact Fj).
      rewrite (elem_ok cats i (key cats i)) by (apply nth_error_nth'; exact I).
      cbn [less working k_less bind]. destruct (lt (key cats j) (key cats i)) eqn:E.
      + destruct IH as (l' & -> & P & A'); [exact I|exact F'|intros Q; apply N; right; exact Q|exact S|].
        cbn [bind]. exists (j :: l'). split; [reflexivity|]. split.
        * rewrite P. constructor.
        * cbn [map]. constructor; [exact A'|]. rewrite Forall_forall in *. intros y Y.
          apply (Permutation_in _ (Permutation_map (key cats) P)) in Y. cbn in Y. destruct Y as [<-|Y]; [exact E|exact (FA y Y)].
      + exists (i :: j :: l). split; [reflexivity|]. split; [reflexivity|]. cbn [map]. constructor; [exact A0|].
        assert (E' : lt (key cats i) (key cats j) = true).
        { destruct (tot (key cats i) (key cats j)) as [Q|[Q|Q]]; [exact Q| |congruence]. destruct N. left. symmetry. exact Q. }
        constructor; [exact E'|]. rewrite Forall_forall in *. intros y Y. exact (trans _ _ _ E' (FA y Y)).
  Qed.
  Lemma sort_indices_spec : forall cats l, Forall (fun j => (j < List.length cats)%nat) l -> NoDup (map (key cats) l) ->
    exists l', sort_indices K cats l = Ok l' /\ Permutation l' l /\ ascending lt (map (key cats) l').
  Proof.
    intros cats. induction l as [|i l IH]; intros F N; cbn [sort_indices].
    - exists []. repeat split; constructor.
    - inversion F; subst. inversion N; subst. destruct IH as (l' & -> & P & A); [assumption|assumption|]. cbn [bind].
      destruct (insert_index_spec cats i l') as (l2 & -> & P2 & A2).
      + assumption.
      + rewrite Forall_forall in *. intros x X. apply (Permutation_in _ P) in X. auto.
      + intros Q. apply (Permutation_in _ (Permutation_map (key cats) P)) in Q. contradiction.
      + exact A.
      + exists l2. split; [reflexivity|]. split; [rewrite P2, P; reflexivity|exact A2].
  Qed.
  Lemma map_key_seq : forall cats, map (key cats) (seq 0 (List.length cats)) = cats.
  Proof.
    intros cats. apply (nth_ext _ _ 0 0); [rewrite map_length, seq_length; reflexivity|]. intros n N. rewrite map_length, seq_length in N.
    rewrite (nth_indep _ 0 (key cats 0%nat)) by (rewrite map_length, seq_length; exact N).
    rewrite map_nth, seq_nth by exact N. reflexivity.
  Qed.
End Order.

(** The inversion of the permutation. *)
Lemma put_spec : forall l i v, (i < List.length l)%nat -> exists l', put l i v = Ok l' /\ List.length l' = List.length l /\
  nth_error l' i = Some v /\ forall j, j <> i -> nth_error l' j = nth_error l j.
Proof.
  induction l as [|x l IH]; intros i v I; cbn in I; [lia|]. destruct i as [|i]; cbn [put].
  - exists (v :: l). split; [reflexivity|]. split; [reflexivity|]. split; [reflexivity|]. intros [|j] J; [lia|reflexivity].
  - destruct (IH i v ltac:(lia)) as (l' & -> & L & E & N). cbn [bind]. exists (x :: l'). split; [reflexivity|].
    split; [cbn; lia|]. split; [exact E|]. intros [|j] J; [reflexivity|]. cbn. apply N. lia.
Qed.
Lemma invert_spec : forall p k acc, NoDup p -> Forall (fun i => (i < List.length acc)%nat) p ->
  exists r, invert p k acc = Ok r /\ List.length r = List.length acc /\
    (forall j i, nth_error p j = Some i -> nth_error r i = Some (k + j)%nat) /\
    (forall i, ~ In i p -> nth_error r i = nth_error acc i).
Proof.
  induction p as [|a p IH]; intros k acc N F; cbn [invert].
  - exists acc. split; [reflexivity|]. split; [reflexivity|]. split; [intros [|j] i H; discriminate|reflexivity].
  - inversion N as [|? ? Na N']; subst. inversion F as [|? ? Fa F']; subst.
    destruct (put_spec acc a k Fa) as (l1 & -> & L1 & E1 & O1). cbn [bind].
    destruct (IH (S k) l1 N') as (r & -> & L & H & O); [rewrite L1; exact F'|].
    exists r. split; [reflexivity|]. split; [lia|]. split.
    + intros [|j] i Q; cbn in Q.
      * injection Q as <-. rewrite O by exact Na. rewrite E1. f_equal. lia.
      * rewrite (H j i Q). f_equal. lia.
    + intros i I. rewrite O by (intros Q; apply I; right; exact Q). apply O1. intros ->. apply I. left. reflexivity.
Qed.

(** What every categorical type satisfies. *)
Record good (lt : Z -> Z -> bool) (cats : list Z) (c : cat) : Prop := {
  g_len : List.length (c_sorted c) = List.length cats;
  g_leni : List.length (c_i2v c) = List.length cats;
  g_lenv : List.length (c_v2i c) = List.length cats;
  g_asc : ascending lt (c_sorted c);
  g_elems : forall x, In x (c_sorted c) <-> In x cats;
  g_fwd : forall i, (i < List.length cats)%nat -> exists j, (j < List.length cats)%nat /\
    nth_error (c_v2i c) i = Some j /\ nth_error (c_i2v c) j = Some i /\ nth_error (c_sorted c) j = nth_error cats i;
  g_bwd : forall j, (j < List.length cats)%nat -> exists i, (i < List.length cats)%nat /\
    nth_error (c_i2v c) j = Some i /\ nth_error (c_v2i c) i = Some j;
  g_storage : c_storage c = storage_of (List.length cats) }.

Lemma nth_error_seq : forall n i, (i < n)%nat -> nth_error (seq 0 n) i = Some i.
Proof. intros n i I. rewrite (nth_error_nth' _ 0%nat) by (rewrite seq_length; exact I). rewrite seq_nth by exact I. reflexivity. Qed.
Lemma presorted_good : forall lt cats, ascending lt cats -> good lt cats (presorted cats).
Proof.
  intros lt cats A. split; cbn; rewrite ?seq_length; try reflexivity; try exact A.
  - intros i I. exists i. rewrite nth_error_seq by exact I. auto.
  - intros i I. exists i. rewrite nth_error_seq by exact I. auto.
Qed.
Lemma construct_good : forall lt junk cats, strict_total lt -> List.length junk = List.length cats -> NoDup cats ->
  exists c, construct (working lt) junk cats = Ok c /\ good lt cats c.
Proof.
  intros lt junk cats T J N. unfold construct. set (n := List.length cats) in *.
  destruct (fill_unique_ok lt T cats []) as (u & -> & A & M); [constructor|exact N|intros ? ? []|]. cbn [bind].
  destruct (sort_indices_spec lt T cats (seq 0 n)) as (p & -> & P & AP).
  { rewrite Forall_forall. intros x X. apply in_seq in X. fold n. lia. }
  { unfold n. rewrite map_key_seq. exact N. }
  cbn [bind].
  assert (NP : NoDup p) by (apply (Permutation_NoDup (Permutation_sym P)); apply seq_NoDup).
  assert (RP : forall i, In i p <-> (i < n)%nat).
  { intros i. split; intros H; [apply (Permutation_in _ P) in H; apply in_seq in H; lia|].
    apply (Permutation_in _ (Permutation_sym P)). apply in_seq. lia. }
  assert (LP : List.length p = n) by (rewrite (Permutation_length P), seq_length; reflexivity).
  destruct (invert_spec p 0 junk NP) as (v & -> & LV & HV & _).
  { rewrite Forall_forall. intros x X. apply RP in X. lia. }
  cbn [bind]. rewrite map_copy_id. cbn [bind].
  assert (U : map (key cats) p = u).
  { apply (asc_unique lt T); [exact AP|exact A|]. intros x. rewrite M.
    assert (Q : In x (map (key cats) p) <-> In x cats).
    { rewrite <- (map_key_seq cats) at 2. fold n. split; apply Permutation_in; [|apply Permutation_sym]; apply Permutation_map; exact P. }
    rewrite Q. cbn. intuition. }
  exists (Cat u p v (storage_of n)). split; [reflexivity|].
  assert (BW : forall j, (j < n)%nat -> exists i, (i < n)%nat /\ nth_error p j = Some i /\ nth_error v i = Some j).
  { intros j Jn. destruct (nth_error p j) as [i|] eqn:E; [|apply nth_error_None in E; lia].
    exists i. split; [apply RP; exact (nth_error_In _ _ E)|]. split; [reflexivity|]. exact (HV j i E). }
  split; cbn [c_sorted c_i2v c_v2i c_storage]; fold n.
  - rewrite <- U, map_length. exact LP.
  - exact LP.
  - lia.
  - exact A.
  - intros x. rewrite M. cbn. intuition.
  - intros i I. destruct (In_nth_error p i (proj2 (RP i) I)) as [j E]. exists j.
    assert (Jn : (j < n)%nat) by (rewrite <- LP; apply nth_error_Some; congruence).
    split; [exact Jn|]. split; [exact (HV j i E)|]. split; [exact E|].
    rewrite <- U, (map_nth_error (key cats) j p E). symmetry. apply nth_error_nth'. exact I.
  - exact BW.
  - reflexivity.
Qed.
Lemma construct_dup : forall lt junk cats, strict_total lt -> ~ NoDup cats ->
  construct (working lt) junk cats = Throw "runtime_error: categories must be unique".
Proof.
  intros lt junk cats T N. unfold construct. rewrite (fill_unique_dup lt T); [reflexivity|constructor|left; exact N].
Qed.
Lemma made_good : forall lt cats c, strict_total lt -> made lt cats c -> good lt cats c.
Proof.
  intros lt cats c T M. destruct M as [junk c J E|A]; [|apply presorted_good; exact A].
  destruct (ListDec.NoDup_dec Z.eq_dec cats) as [N|N].
  - destruct (construct_good lt junk cats T J N) as (d & E' & G). rewrite E in E'. injection E' as ->. exact G.
  - rewrite (construct_dup lt junk cats T N) in E. discriminate.
Qed.
Lemma made_nodup : forall lt cats c, strict_total lt -> made lt cats c -> NoDup cats.
Proof.
  intros lt cats c T M. destruct M as [junk c J E|A]; [|exact (asc_nodup lt T cats A)].
  destruct (ListDec.NoDup_dec Z.eq_dec cats) as [N|N]; [exact N|]. rewrite (construct_dup lt junk cats T N) in E. discriminate.
Qed.

(** The functions. *)
Lemma skipn_nth : forall {A} (l : list A) i x, nth_error l i = Some x -> skipn i l = x :: skipn (S i) l.
Proof.
  induction l as [|y l IH]; intros [|i] x H; try discriminate; [injection H as ->; reflexivity|].
  cbn in H. specialize (IH i x H). exact IH.
Qed.
Section Funs.
  Variables (lt : Z -> Z -> bool) (cats : list Z) (c : cat).
  Hypothesis T : strict_total lt.
  Hypothesis G : good lt cats c.
  Lemma count_len : count c = Z.of_nat (List.length cats).
  Proof. unfold count. rewrite (g_len _ _ _ G). reflexivity. Qed.
  Lemma category_of_ok : forall i x, Z.of_nat i < 2 ^ 32 -> nth_error cats i = Some x -> category_of_value c (Z.of_nat i) = Ok x.
  Proof.
    intros i x B X. assert (I : (i < List.length cats)%nat) by (apply nth_error_Some; congruence).
    unfold category_of_value. rewrite Z.mod_small by lia. rewrite count_len. destruct (Z.leb_spec (Z.of_nat (List.length cats)) (Z.of_nat i)); [lia|].
    rewrite Nat2Z.id. destruct (g_fwd _ _ _ G i I) as (j & Jn & E1 & _ & E2). rewrite (elem_ok _ _ _ E1). cbn [bind].
    apply elem_ok. congruence.
  Qed.
  Lemma category_of_throw : forall v, 0 <= v < 2 ^ 32 -> Z.of_nat (List.length cats) <= v ->
    category_of_value c v = Throw "runtime_error: category value is out of bounds".
  Proof.
    intros v B H. unfold category_of_value. rewrite Z.mod_small by lia. rewrite count_len.
    destruct (Z.leb_spec (Z.of_nat (List.length cats)) v); [reflexivity|lia].
  Qed.
  Lemma value_of : forall x, Z.of_nat (List.length cats) < 2 ^ 63 ->
    (forall i, nth_error cats i = Some x -> value_of_category lt c x = Ok (Z.of_nat i mod 2 ^ 32)) /\
    (~ In x cats -> value_of_category lt c x = Throw "runtime_error: Unrecognized category value").
  Proof.
    intros x B. unfold value_of_category. rewrite count_len. set (n := List.length cats) in *.
    set (s := c_sorted c).
    destruct (C82_binary_search_partial lt (array_mem s x) 0 (Z.of_nat n) 1 (-1) x (fun i => nth (Z.to_nat i) s 0))
      as (r & -> & R1 & R2).
    - split; lia.
    - reflexivity.
    - intros i I. unfold array_mem. replace (0 + i * 1) with i by ring. destruct (Z.eqb_spec i (-1)); [lia|].
      destruct (Z.leb_spec 0 i); [|lia]. apply nth_error_nth'. unfold s. rewrite (g_len _ _ _ G). fold n. lia.
    - cbn [bind].
      assert (O : in_order lt (fun i => nth (Z.to_nat i) s 0) (Z.of_nat n)).
      { intros i j I J. apply (lt_asym lt T). apply (asc_nth lt T s (Z.to_nat i) (Z.to_nat j)).
        - exact (g_asc _ _ _ G).
        - lia.
        - apply nth_error_nth'. unfold s. rewrite (g_len _ _ _ G). fold n. lia.
        - apply nth_error_nth'. unfold s. rewrite (g_len _ _ _ G). fold n. lia. }
      specialize (R2 (weak lt T) O). split.
      + intros i I. assert (IL : (i < n)%nat) by (apply nth_error_Some; congruence).
        destruct (g_fwd _ _ _ G i IL) as (j & Jn & _ & E2 & E3). fold n in Jn. fold s in E3.
        assert (SJ : nth j s 0 = x) by (apply nth_error_nth; congruence).
        destruct (Z.ltb_spec r 0) as [RN|RN].
        * exfalso. destruct R1 as [R1|(R1 & _)]; [|lia]. apply (proj1 R2 R1 (Z.of_nat j)); [lia|].
          apply (equivalent_eq lt T). rewrite Nat2Z.id. symmetry. exact SJ.
        * destruct R1 as [R1|(R1 & E)]; [lia|]. apply (equivalent_eq lt T) in E.
          assert (Z.to_nat r = j).
          { apply (proj1 (NoDup_nth s 0) (asc_nodup lt T s (g_asc _ _ _ G))).
            - unfold s. rewrite (g_len _ _ _ G). fold n. lia.
            - unfold s. rewrite (g_len _ _ _ G). fold n. lia.
            - congruence. }
          rewrite H. rewrite (elem_ok _ _ _ E2). reflexivity.
      + intros N. destruct (Z.ltb_spec r 0) as [RN|RN]; [reflexivity|]. exfalso.
        destruct R1 as [R1|(R1 & E)]; [lia|]. apply (equivalent_eq lt T) in E. apply N. apply (g_elems _ _ _ G).
        fold s. rewrite E. apply nth_In. unfold s. rewrite (g_len _ _ _ G). fold n. lia.
  Qed.
  Lemma get_from_ok : forall n i, Z.of_nat (List.length cats) <= 2 ^ 32 -> (i + n = List.length cats)%nat ->
    get_from (working lt) c (Z.of_nat i) n = Ok (skipn i cats).
  Proof.
    induction n as [|n IH]; intros i B E; cbn [get_from].
    - rewrite skipn_all2 by lia. reflexivity.
    - destruct (nth_error cats i) as [x|] eqn:X; [|apply nth_error_None in X; lia].
      rewrite (category_of_ok i x) by (lia || exact X). cbn [bind copy working k_copy].
      replace (Z.of_nat i + 1) with (Z.of_nat (S i)) by lia. rewrite IH by lia. cbn [bind]. f_equal.
      symmetry. exact (skipn_nth cats i x X).
  Qed.
  Lemma print_rest_ok : forall n i, Z.of_nat (List.length cats) <= 2 ^ 32 -> (i + n = List.length cats)%nat ->
    print_rest c (Z.of_nat i) n = Ok (skipn i cats).
  Proof.
    induction n as [|n IH]; intros i B E; cbn [print_rest].
    - rewrite skipn_all2 by lia. reflexivity.
    - destruct (nth_error cats i) as [x|] eqn:X; [|apply nth_error_None in X; lia].
      rewrite (category_of_ok i x) by (lia || exact X). cbn [bind].
      replace (Z.of_nat i + 1) with (Z.of_nat (S i)) by lia. rewrite IH by lia. cbn [bind]. f_equal.
      symmetry. exact (skipn_nth cats i x X).
  Qed.
End Funs.

Lemma list_eqb_spec : forall {A} (eqb : A -> A -> bool), (forall x y, eqb x y = true <-> x = y) ->
  forall l m, list_eqb eqb l m = true <-> l = m.
Proof.
  intros A eqb E. unfold list_eqb. induction l as [|x l IH]; intros [|y m]; cbn; try (split; [discriminate|discriminate]); [split; reflexivity|].
  specialize (IH m). cbn in IH. rewrite !andb_true_iff in *. rewrite E. split.
  - intros (L & -> & F). f_equal. apply IH. auto.
  - intros H. injection H as -> ->. destruct (proj2 IH eq_refl). auto.
Qed.
Lemma equal_iff : forall c d, equal c d = true <-> c_sorted c = c_sorted d /\ c_i2v c = c_i2v d /\ c_v2i c = c_v2i d.
Proof.
  intros c d. unfold equal. rewrite !andb_true_iff, (list_eqb_spec Z.eqb Z.eqb_eq), !(list_eqb_spec Nat.eqb Nat.eqb_eq). intuition.
Qed.
Lemma nth_error_ext : forall {A} (l m : list A), (forall i, nth_error l i = nth_error m i) -> l = m.
Proof.
  induction l as [|x l IH]; intros [|y m] H; [reflexivity|discriminate (H 0%nat)|discriminate (H 0%nat)|].
  f_equal; [injection (H 0%nat) as ->; reflexivity|]. apply IH. intros i. exact (H (S i)).
Qed.
Lemma good_equal : forall lt cats cats' c d, strict_total lt -> good lt cats c -> good lt cats' d ->
  (equal c d = true <-> cats = cats').
Proof.
  intros lt cats cats' c d T G H. rewrite equal_iff. split.
  - intros (S & I & V).
    assert (L : List.length cats = List.length cats') by (rewrite <- (g_len _ _ _ G), <- (g_len _ _ _ H), S; reflexivity).
    apply nth_error_ext. intros i. destruct (Nat.lt_ge_cases i (List.length cats)) as [IL|IL].
    + destruct (g_fwd _ _ _ G i IL) as (j & _ & E1 & _ & E2). destruct (g_fwd _ _ _ H i ltac:(lia)) as (j' & _ & E1' & _ & E2').
      rewrite V in E1. rewrite E1 in E1'. injection E1' as <-. rewrite <- E2, <- E2', S. reflexivity.
    + rewrite (proj2 (nth_error_None cats i) IL). symmetry. apply nth_error_None. lia.
  - intros <-.
    assert (S : c_sorted c = c_sorted d).
    { apply (asc_unique lt T); [exact (g_asc _ _ _ G)|exact (g_asc _ _ _ H)|]. intros x. rewrite (g_elems _ _ _ G), (g_elems _ _ _ H). reflexivity. }
    assert (V : c_v2i c = c_v2i d).
    { apply nth_error_ext. intros i. destruct (Nat.lt_ge_cases i (List.length cats)) as [IL|IL].
      - destruct (g_fwd _ _ _ G i IL) as (j & Jn & E1 & _ & E2). destruct (g_fwd _ _ _ H i IL) as (j' & Jn' & E1' & _ & E2').
        rewrite E1, E1'. f_equal. rewrite <- S in E2'.
        apply (proj1 (NoDup_nth_error (c_sorted c)) (asc_nodup lt T _ (g_asc _ _ _ G))).
        + rewrite (g_len _ _ _ G). exact Jn.
        + congruence.
      - rewrite (proj2 (nth_error_None (c_v2i c) i)) by (rewrite (g_lenv _ _ _ G); exact IL). symmetry. apply nth_error_None.
        rewrite (g_lenv _ _ _ H). exact IL. }
    split; [exact S|]. split; [|exact V].
    apply nth_error_ext. intros j. destruct (Nat.lt_ge_cases j (List.length cats)) as [JL|JL].
    + destruct (g_bwd _ _ _ G j JL) as (i & IL & E1 & E2). destruct (g_fwd _ _ _ H i IL) as (j' & _ & E1' & E2' & _).
      rewrite V, E1' in E2. injection E2 as ->. congruence.
    + rewrite (proj2 (nth_error_None (c_i2v c) j)) by (rewrite (g_leni _ _ _ G); exact JL). symmetry. apply nth_error_None.
      rewrite (g_leni _ _ _ H). exact JL.
Qed.
