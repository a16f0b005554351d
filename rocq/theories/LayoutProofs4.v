(** The destruction of data: C57. *)
From Coq Require Import Permutation.
From Verif Require Import Base LayoutModel LayoutSpec LayoutProofs LayoutProofs2 LayoutProofs3.
Open Scope Z_scope.

Definition idx {A} (f : nat -> list A) (n : nat) : list A := flat_map f (seq 0 n).
Fixpoint elems (m : mem) (t : lt) (a d : Z) : list Z :=
  match t with
  | Leaf _ _ true => [d]
  | Option e => elems m e a d
  | FixedDim n e => idx (fun i => elems m e (a + 16) (d + Z.of_nat i * m (a + 8))) (Z.to_nat n)
  | Tuple l => (fix go (l : list lt) (offs : list Z) (k : Z) : list Z := match l, offs with f :: l, o :: offs => elems m f (a + o) (d + m (a + 8 * k)) ++ go l offs (k + 1) | _, _ => [] end) l (arrmeta_offsets l) 0
  | _ => []
  end.
Definition elems_fields (m : mem) (a d : Z) : list lt -> list Z -> Z -> list Z :=
  fix go (l : list lt) (offs : list Z) (k : Z) : list Z := match l, offs with f :: l, o :: offs => elems m f (a + o) (d + m (a + 8 * k)) ++ go l offs (k + 1) | _, _ => [] end.
Lemma elems_fields_cons m a d f l o offs k : elems_fields m a d (f :: l) (o :: offs) k = elems m f (a + o) (d + m (a + 8 * k)) ++ elems_fields m a d l offs (k + 1).
Proof. reflexivity. Qed.
Lemma elems_tuple m l a d : elems m (Tuple l) a d = elems_fields m a d l (arrmeta_offsets l) 0.
Proof. reflexivity. Qed.

Definition ds_fields (m : mem) (a data stride : Z) (ic : nat * nat) : list lt -> list Z -> Z -> outcome (list Z) :=
  fix go (l : list lt) (offs : list Z) (k : Z) : outcome (list Z) :=
           match l, offs with
           | f :: l, o :: offs =>
               do x <- (if has_destructor f then destruct_strided m f (a + o) (data + Z.of_nat (fst ic) * stride + m (a + 8 * k)) stride (snd ic) else Ok []);
               do y <- go l offs (k + 1); Ok (x ++ y)
           | _, _ => Ok []
           end.
Lemma ds_tuple m l a data stride count : destruct_strided m (Tuple l) a data stride count = cat (map (fun ic => ds_fields m a data stride ic l (arrmeta_offsets l) 0) (chunks count 0 count)).
Proof. reflexivity. Qed.
Lemma ds_fields_cons m a data stride ic f l o offs k : ds_fields m a data stride ic (f :: l) (o :: offs) k =
               do x <- (if has_destructor f then destruct_strided m f (a + o) (data + Z.of_nat (fst ic) * stride + m (a + 8 * k)) stride (snd ic) else Ok []);
               do y <- ds_fields m a data stride ic l offs (k + 1); Ok (x ++ y).
Proof. reflexivity. Qed.
Definition dd_fields (m : mem) (a data : Z) : list lt -> list Z -> Z -> outcome (list Z) :=
  fix go (l : list lt) (offs : list Z) (k : Z) : outcome (list Z) :=
         match l, offs with
         | f :: l, o :: offs =>
             do x <- (if has_destructor f then data_destruct m f (a + o) (data + m (a + 8 * k)) else Ok []);
             do y <- go l offs (k + 1); Ok (x ++ y)
         | _, _ => Ok []
         end.
Lemma dd_tuple m l a data : data_destruct m (Tuple l) a data = dd_fields m a data l (arrmeta_offsets l) 0.
Proof. reflexivity. Qed.
Lemma dd_fields_cons m a data f l o offs k : dd_fields m a data (f :: l) (o :: offs) k =
             do x <- (if has_destructor f then data_destruct m f (a + o) (data + m (a + 8 * k)) else Ok []);
             do y <- dd_fields m a data l offs (k + 1); Ok (x ++ y).
Proof. reflexivity. Qed.

Lemma no_destructor_elems m t : forall a d, has_destructor t = false -> elems m t a d = [].
Proof.
  induction t as [s0 al|s0 al de|e IH|e IH|e IH|n e IH|l IH] using lt_ind'; intros a d H; try reflexivity.
  - cbn in H. subst. reflexivity.
  - cbn in *. auto.
  - cbn [elems has_destructor] in *. unfold idx. induction (seq 0 (Z.to_nat n)) as [|i s IHs]; [reflexivity|]. cbn [flat_map]. rewrite IHs, IH; auto.
  - rewrite elems_tuple. cbn [has_destructor] in H. generalize (arrmeta_offsets l) 0. induction IH as [|f l F IH IH2]; intros offs k; [reflexivity|]. cbn [existsb] in H. apply orb_false_iff in H as (H1 & H2).
    destruct offs as [|o offs]; [reflexivity|]. rewrite elems_fields_cons, F, IH2; auto.
Qed.
Lemma cat_perm {A} (g : A -> outcome (list Z)) (h : A -> list Z) l : (forall x, In x l -> exists r, g x = Ok r /\ Permutation r (h x)) -> exists r, cat (map g l) = Ok r /\ Permutation r (flat_map h l).
Proof.
  induction l as [|x l IH]; intros H; [exists []; auto|]. destruct (H x (or_introl eq_refl)) as (r & E & P). destruct IH as (q & E2 & Q); [intros y Y; apply H; right; auto|].
  exists (r ++ q). cbn [map cat flat_map]. rewrite E, E2. cbn. split; auto. apply Permutation_app; auto.
Qed.
Lemma flat_map_perm_app {A} (f g : A -> list Z) l : Permutation (flat_map (fun i => f i ++ g i) l) (flat_map f l ++ flat_map g l).
Proof.
  induction l as [|i l IH]; [auto|]. cbn [flat_map]. rewrite IH. rewrite <- !app_assoc. apply Permutation_app_head. rewrite !app_assoc. apply Permutation_app_tail. apply Permutation_app_comm.
Qed.
Lemma chunks_spec : forall fuel i c, (c <= fuel)%nat -> flat_map (fun ic : nat * nat => seq (fst ic) (snd ic)) (chunks fuel i c) = seq i c.
Proof.
  induction fuel as [|fuel IH]; intros i c H; [destruct c; [reflexivity|lia]|]. destruct c as [|c]; [reflexivity|]. cbn [chunks flat_map fst snd]. set (k := Nat.min (S c) CHUNK). assert (K : (1 <= k <= S c)%nat) by (unfold k, CHUNK; lia).
  rewrite IH by lia. rewrite <- seq_app. f_equal. lia.
Qed.
Lemma flat_map_flat_map {A B C} (f : A -> list B) (g : B -> list C) l : flat_map g (flat_map f l) = flat_map (fun x => flat_map g (f x)) l.
Proof. induction l as [|x l IH]; [reflexivity|]. cbn [flat_map]. rewrite flat_map_app, IH. reflexivity. Qed.
Lemma idx_shift {A} (f : nat -> list A) k n : flat_map f (seq k n) = idx (fun i => f (k + i)%nat) n.
Proof.
  unfold idx. assert (G : forall n z, flat_map f (seq (k + z) n) = flat_map (fun i => f (k + i)%nat) (seq z n)).
  { clear. induction n as [|n IH]; intros z; [reflexivity|]. cbn [seq flat_map]. f_equal. rewrite <- Nat.add_succ_r. apply IH. }
  rewrite <- (G n 0%nat), Nat.add_0_r. reflexivity.
Qed.
Lemma map_single (f : nat -> Z) l : map f l = flat_map (fun i => [f i]) l.
Proof. induction l as [|x l IH]; [reflexivity|]. cbn [map flat_map app]. rewrite IH. reflexivity. Qed.

Definition strided_ok (m : mem) (t : lt) : Prop := forall a d stride count, no_pointer t -> has_destructor t = true -> exists r, destruct_strided m t a d stride count = Ok r /\ Permutation r (idx (fun i => elems m t a (d + Z.of_nat i * stride)) count).
Lemma ds_fields_ok m a d stride ic l : Forall (strided_ok m) l -> forall offs k, fold_right (fun f P => no_pointer f /\ P) True l ->
  exists r, ds_fields m a d stride ic l offs k = Ok r /\ Permutation r (idx (fun i => elems_fields m a (d + Z.of_nat (fst ic + i) * stride) l offs k) (snd ic)).
Proof.
  assert (Z0 : forall n, [] = idx (fun _ : nat => @nil Z) n) by (intros n; unfold idx; induction (seq 0 n); auto).
  induction 1 as [|f l F FA IH]; intros offs k NP.
  - exists []. split; [reflexivity|]. cbn [elems_fields]. rewrite <- Z0. auto.
  - destruct offs as [|o offs]; [exists []; split; [reflexivity|]; cbn [elems_fields]; rewrite <- Z0; auto|]. cbn [fold_right] in NP. destruct NP as (N1 & N2).
    assert (E : exists r, (if has_destructor f then destruct_strided m f (a + o) (d + Z.of_nat (fst ic) * stride + m (a + 8 * k)) stride (snd ic) else Ok []) = Ok r /\ Permutation r (idx (fun i => elems m f (a + o) (d + Z.of_nat (fst ic + i) * stride + m (a + 8 * k))) (snd ic))).
    { destruct (has_destructor f) eqn:D.
      - destruct (F (a + o) (d + Z.of_nat (fst ic) * stride + m (a + 8 * k)) stride (snd ic) N1 D) as (r & E & P). exists r. split; auto. rewrite P. unfold idx. erewrite flat_map_ext; [apply Permutation_refl|]. intros i. cbn beta. f_equal. rewrite Nat2Z.inj_add. lia.
      - exists []. split; auto. unfold idx. erewrite flat_map_ext; [|intros i; rewrite no_destructor_elems by auto; reflexivity]. fold (idx (fun _ : nat => @nil Z) (snd ic)). rewrite <- Z0. auto. }
    destruct E as (r & E & P). destruct (IH offs (k + 1) N2) as (q & E2 & Q). exists (r ++ q). rewrite ds_fields_cons, E. cbn [bind]. rewrite E2. cbn [bind]. split; auto.
    rewrite P, Q. unfold idx. erewrite (flat_map_ext (fun i => elems_fields m a (d + Z.of_nat (fst ic + i) * stride) (f :: l) (o :: offs) k)); [|intros i; apply elems_fields_cons]. rewrite flat_map_perm_app. apply Permutation_refl.
Qed.
Lemma destruct_strided_ok m t : strided_ok m t.
Proof.
  induction t as [s0 al|s0 al de|e IH|e IH|e IH|n e IH|l IH] using lt_ind'; intros a d stride count NP H; try discriminate.
  - cbn in H. subst. cbn [destruct_strided elems]. eexists. split; [reflexivity|]. rewrite map_single. apply Permutation_refl.
  - cbn in NP, H. congruence.
  - cbn [destruct_strided elems]. apply IH; auto.
  - cbn [destruct_strided elems]. unfold idx at 1. apply cat_perm. intros i _. apply IH; auto.
  - rewrite ds_tuple. cbn [no_pointer] in NP.
    destruct (cat_perm (fun ic => ds_fields m a d stride ic l (arrmeta_offsets l) 0) (fun ic => idx (fun i => elems_fields m a (d + Z.of_nat (fst ic + i) * stride) l (arrmeta_offsets l) 0) (snd ic)) (chunks count 0 count)) as (r & E & P).
    { intros ic _. apply ds_fields_ok; auto. }
    exists r. split; auto. rewrite P. unfold idx at 2. rewrite <- (chunks_spec count 0 count) at 1 by auto. rewrite flat_map_flat_map. erewrite flat_map_ext; [apply Permutation_refl|]. intros (i, c). cbn [fst snd]. rewrite idx_shift. reflexivity.
Qed.
Lemma data_destruct_ok m t : forall a d, no_pointer t -> has_destructor t = true -> exists r, data_destruct m t a d = Ok r /\ Permutation r (elems m t a d).
Proof.
  induction t as [s0 al|s0 al de|e IH|e IH|e IH|n e IH|l IH] using lt_ind'; intros a d NP H; try discriminate.
  - cbn in H. subst. exists [d]. auto.
  - cbn in NP, H. congruence.
  - cbn [data_destruct elems]. apply IH; auto.
  - cbn [data_destruct elems]. apply destruct_strided_ok; auto.
  - rewrite dd_tuple, elems_tuple. cbn [no_pointer] in NP. clear H. generalize (arrmeta_offsets l) 0. induction IH as [|f l F IH IH2]; intros offs k; [exists []; auto|]. destruct offs as [|o offs]; [exists []; auto|].
    cbn [fold_right] in NP. destruct NP as (N1 & N2). rewrite dd_fields_cons, elems_fields_cons. destruct (IH2 N2 offs (k + 1)) as (q & E2 & Q). rewrite E2.
    destruct (has_destructor f) eqn:D.
    + destruct (F (a + o) (d + m (a + 8 * k)) N1 eq_refl) as (r & E & P). exists (r ++ q). rewrite E. split; [reflexivity|]. apply Permutation_app; auto.
    + exists q. rewrite no_destructor_elems by auto. auto.
Qed.

(** The values [elems] lists are those at the paths to a value with a destructor. *)
Lemma elems_path m t : forall a d x, In x (elems m t a d) <-> exists p u a', at_path m t a d p = Some (u, a', x) /\ destructible u.
Proof.
  assert (NO : forall t a d x, ~ destructible t -> (forall a d i p, at_path m t a d (i :: p) = None) -> ~ exists p u a', at_path m t a d p = Some (u, a', x) /\ destructible u).
  { intros t0 a d x N1 N2 ([|i p] & u & a' & E & D); [|rewrite N2 in E; discriminate]. apply N1. destruct t0; cbn in E; injection E as <- _ _; exact D. }
  induction t as [s0 al|s0 al de|e IH|e IH|e IH|n e IH|l IH] using lt_ind'; intros a d x.
  - split; [intros []|]. intros H. exfalso. revert H. apply NO; [intros []|reflexivity].
  - destruct de; cbn [elems].
    + split.
      * intros [<-|[]]. exists [], (Leaf s0 al true), a. split; reflexivity.
      * intros ([|i p] & u & a' & E & D); [|discriminate]. cbn in E. injection E as _ _ <-. left. reflexivity.
    + split; [intros []|]. intros H. exfalso. revert H. apply NO; [discriminate|reflexivity].
  - split; [intros []|]. intros H. exfalso. revert H. apply NO; [intros []|reflexivity].
  - split; [intros []|]. intros H. exfalso. revert H. apply NO; [intros []|reflexivity].
  - cbn [elems]. rewrite IH. split.
    + intros ([|i p] & u & a' & E & D).
      * exists [], (Option e), a. assert (e = u /\ d = x) as (-> & ->) by (destruct e; cbn in E; injection E; auto). split; [reflexivity|exact D].
      * exists (i :: p), u, a'. split; auto.
    + intros ([|i p] & u & a' & E & D).
      * cbn in E. injection E as <- <- <-. exists [], e, a. split; [destruct e; reflexivity|exact D].
      * exists (i :: p), u, a'. split; auto.
  - cbn [elems]. unfold idx. rewrite in_flat_map. split.
    + intros (i & I & X). apply in_seq in I. apply IH in X as (p & u & a' & E & D). exists (Z.of_nat i :: p), u, a'. split; auto. cbn [at_path].
      destruct (Z.leb_spec 0 (Z.of_nat i)); [|lia]. destruct (Z.ltb_spec (Z.of_nat i) n); [|lia]. exact E.
    + intros ([|i p] & u & a' & E & D); [cbn in E; injection E as <- _ _; destruct D|]. cbn [at_path] in E. destruct (Z.leb_spec 0 i); [|discriminate]. destruct (Z.ltb_spec i n); [|discriminate]. cbn [andb] in E.
      exists (Z.to_nat i). split; [apply in_seq; lia|]. apply IH. exists p, u, a'. rewrite Z2Nat.id by lia. auto.
  - rewrite elems_tuple.
    assert (G : forall offs k, In x (elems_fields m a d l offs k) <-> exists i f o, nth_error l i = Some f /\ nth_error offs i = Some o /\ In x (elems m f (a + o) (d + m (a + 8 * (k + Z.of_nat i))))).
    { clear. induction l as [|f l IH]; intros offs k.
      - split; [intros []|]. intros ([|i] & f & o & H & _); discriminate.
      - destruct offs as [|o offs]; [split; [intros []|]; intros ([|i] & f' & o & _ & H & _); discriminate|]. rewrite elems_fields_cons, in_app_iff, IH. split.
        + intros [H|(i & g & o' & H1 & H2 & H3)].
          * exists O, f, o. rewrite Z.add_0_r. auto.
          * exists (S i), g, o'. replace (k + Z.of_nat (S i)) with (k + 1 + Z.of_nat i) by lia. auto.
        + intros ([|i] & g & o' & H1 & H2 & H3).
          * left. cbn in H1, H2. injection H1 as <-. injection H2 as <-. rewrite Z.add_0_r in H3. exact H3.
          * right. exists i, g, o'. replace (k + Z.of_nat (S i)) with (k + 1 + Z.of_nat i) in H3 by lia. auto. }
    rewrite G. rewrite Forall_forall in IH. split.
    + intros (i & f & o & H1 & H2 & H3). apply IH in H3 as (p & u & a' & E & D); [|eapply nth_error_In; eauto]. exists (Z.of_nat i :: p), u, a'. split; auto. rewrite at_tuple, Nat2Z.id, H1, H2.
      destruct (Z.leb_spec 0 (Z.of_nat i)); [|lia]. exact E.
    + intros ([|i p] & u & a' & E & D); [cbn in E; injection E as <- _ _; destruct D|]. rewrite at_tuple in E. destruct (Z.leb_spec 0 i); [|discriminate]. destruct (nth_error l (Z.to_nat i)) as [f|] eqn:F; [|discriminate].
      destruct (nth_error (arrmeta_offsets l) (Z.to_nat i)) as [o|] eqn:O; [|discriminate]. exists (Z.to_nat i), f, o. split; [exact F|]. split; [exact O|]. apply IH; [eapply nth_error_In; eauto|]. exists p, u, a'. rewrite Z2Nat.id by lia. auto.
Qed.
Lemma destructible_size u : wf u -> destructible u -> 0 < tsize u.
Proof. induction u; intros H D; cbn in *; try contradiction; subst; try tauto. Qed.

Lemma nodup_flat_map {A B} (f : A -> list B) l : NoDup l -> (forall i, In i l -> NoDup (f i)) -> (forall i j x, In i l -> In j l -> i <> j -> In x (f i) -> In x (f j) -> False) -> NoDup (flat_map f l).
Proof.
  induction 1 as [|i l N ND IH]; intros H1 H2; [constructor|]. cbn [flat_map].
  assert (G : forall a b : list B, NoDup a -> NoDup b -> (forall x, In x a -> In x b -> False) -> NoDup (a ++ b)).
  { clear. induction a as [|x a IH]; intros b Na Nb H; [auto|]. inversion Na; subst. cbn. constructor; [|apply IH; auto; intros y Y1 Y2; eapply H; [right; eauto|auto]]. rewrite in_app_iff. intros [?|?]; [contradiction|]. eapply H; [left; reflexivity|auto]. }
  apply G.
  - apply H1. left. reflexivity.
  - apply IH; [intros j J; apply H1; right; auto|]. intros j k x J K. apply H2; right; auto.
  - intros x X Y. apply in_flat_map in Y as (j & J & Y). eapply (H2 i j x); eauto; [left; auto|right; auto|congruence].
Qed.
Lemma elems_fields_flat m a d l offs : List.length offs = List.length l -> forall k, elems_fields m a d l offs k =
  flat_map (fun i => match nth_error l i, nth_error offs i with Some f, Some o => elems m f (a + o) (d + m (a + 8 * (k + Z.of_nat i))) | _, _ => [] end) (seq 0 (List.length l)).
Proof.
  revert offs. induction l as [|f l IH]; intros offs L k; [reflexivity|]. destruct offs as [|o offs]; [discriminate|]. cbn [List.length] in L. rewrite elems_fields_cons. cbn [List.length seq flat_map nth_error]. rewrite Z.add_0_r. f_equal.
  rewrite (IH offs) by lia. rewrite (idx_shift _ 1). unfold idx. apply flat_map_ext. intros i. cbn [Nat.add nth_error]. replace (k + Z.of_nat (S i)) with (k + 1 + Z.of_nat i) by lia. reflexivity.
Qed.
Lemma elems_nodup m t : forall a d, wf t -> tsize t < 2 ^ 63 -> tmeta t < W -> laid m t a -> NoDup (elems m t a d).
Proof.
  induction t as [s0 al|s0 al de|e IH|e IH|e IH|n e IH|l IH] using lt_ind'; intros a d H B BM L; try constructor.
  - cbn [elems]. destruct de; repeat constructor. intros [].
  - cbn [elems]. inversion L; subst. apply IH; auto.
  - cbn [elems]. unfold idx. apply nodup_flat_map.
    + apply seq_NoDup.
    + intros i I. apply in_seq in I. pose proof H as (N & We). destruct (laid_fixed_stride m n e a (Z.of_nat i) We ltac:(lia) B L) as (S & Se). inversion L; subst. cbn [tmeta] in BM. apply IH; auto. lia.
    + intros i j x I J NE X Y. apply in_seq in I. apply in_seq in J. apply elems_path in X as (p & u & a1 & E1 & D1). apply elems_path in Y as (q & v & a2 & E2 & D2).
      assert (P1 : at_path m (FixedDim n e) a d (Z.of_nat i :: p) = Some (u, a1, x)) by (cbn [at_path]; destruct (Z.leb_spec 0 (Z.of_nat i)); [|lia]; destruct (Z.ltb_spec (Z.of_nat i) n); [|lia]; exact E1).
      assert (P2 : at_path m (FixedDim n e) a d (Z.of_nat j :: q) = Some (v, a2, x)) by (cbn [at_path]; destruct (Z.leb_spec 0 (Z.of_nat j)); [|lia]; destruct (Z.ltb_spec (Z.of_nat j) n); [|lia]; exact E2).
      pose proof (siblings m _ a d (Z.of_nat i) (Z.of_nat j) p q u v a1 a2 x x H B BM L ltac:(lia) P1 P2) as S.
      destruct (at_path_place m _ _ _ _ _ _ _ H B BM L P1) as ([W1 _ _ _ _ _ _] & _). destruct (at_path_place m _ _ _ _ _ _ _ H B BM L P2) as ([W2 _ _ _ _ _ _] & _).
      pose proof (destructible_size u W1 D1). pose proof (destructible_size v W2 D2). unfold disjoint in S. lia.
  - assert (LN : List.length (arrmeta_offsets l) = List.length l) by (rewrite arrmeta_offsets_spec by auto; apply mo_length).
    rewrite elems_tuple, elems_fields_flat by auto. apply nodup_flat_map.
    + apply seq_NoDup.
    + intros i I. destruct (nth_error l i) as [f|] eqn:F; [|constructor]. destruct (nth_error (arrmeta_offsets l) i) as [o|] eqn:O; [|constructor].
      destruct (tuple_nth m l a i f o H B BM L F O) as (p & P & _ & P1 & P2 & P3 & Wf & Lf). destruct (meta_sub l i f o BM F O) as (M1 & M2 & M3).
      rewrite Forall_forall in IH. apply IH; auto; [eapply nth_error_In; eauto|lia].
    + intros i j x I J NE X Y.
      destruct (nth_error l i) as [f|] eqn:F; [|destruct X]. destruct (nth_error (arrmeta_offsets l) i) as [o|] eqn:O; [|destruct X].
      destruct (nth_error l j) as [g|] eqn:G; [|destruct Y]. destruct (nth_error (arrmeta_offsets l) j) as [o'|] eqn:O'; [|destruct Y].
      apply elems_path in X as (p & u & a1 & E1 & D1). apply elems_path in Y as (q & v & a2 & E2 & D2).
      assert (P1 : at_path m (Tuple l) a d (Z.of_nat i :: p) = Some (u, a1, x)) by (rewrite at_tuple, Nat2Z.id, F, O; destruct (Z.leb_spec 0 (Z.of_nat i)); [exact E1|lia]).
      assert (P2 : at_path m (Tuple l) a d (Z.of_nat j :: q) = Some (v, a2, x)) by (rewrite at_tuple, Nat2Z.id, G, O'; destruct (Z.leb_spec 0 (Z.of_nat j)); [exact E2|lia]).
      pose proof (siblings m _ a d (Z.of_nat i) (Z.of_nat j) p q u v a1 a2 x x H B BM L ltac:(lia) P1 P2) as S.
      destruct (at_path_place m _ _ _ _ _ _ _ H B BM L P1) as ([W1 _ _ _ _ _ _] & _). destruct (at_path_place m _ _ _ _ _ _ _ H B BM L P2) as ([W2 _ _ _ _ _ _] & _).
      pose proof (destructible_size u W1 D1). pose proof (destructible_size v W2 D2). unfold disjoint in S. lia.
Qed.
