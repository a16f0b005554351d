(* Proofs about shortvector: the invariant and every operation. *)
From Verif Require Import Base ShortVecModel ShortVecSpec.
Local Open Scope nat_scope.

(* ------------------------------------------------------------------- lists *)
Lemma setn_length : forall {A} (l : list A) k v, List.length (setn l k v) = List.length l.
Proof. induction l as [|x l IH]; intros [|k] v; simpl; auto. Qed.
Lemma setn_nth : forall {A} (l : list A) k v j,
  nth_error (setn l k v) j =
  if Nat.eqb j k then (if k <? List.length l then Some v else None) else nth_error l j.
Proof.
  induction l as [|x l IH]; intros [|k] v [|j]; simpl; auto.
  - destruct (Nat.eqb j k); reflexivity.
  - rewrite IH. destruct (Nat.eqb j k); auto.
Qed.
Lemma replace_length : forall {A} (l : list A) k v, List.length (replace l k v) = List.length l.
Proof.
  intros. unfold replace. rewrite app_length.
  rewrite <- (firstn_skipn k l) at 3. rewrite app_length. f_equal.
  destruct (skipn k l); reflexivity.
Qed.
Lemma replace_nth : forall {A} (l : list A) k v j,
  nth_error (replace l k v) j =
  if Nat.eqb j k then (if k <? List.length l then Some v else None) else nth_error l j.
Proof.
  unfold replace. induction l as [|x l IH]; intros [|k] v [|j]; simpl; auto.
  - destruct (Nat.eqb j k); reflexivity.
  - rewrite (IH k v j). destruct (Nat.eqb j k); auto.
Qed.

Lemma nth_firstn : forall {A} (l : list A) n k,
  nth_error (firstn n l) k = if k <? n then nth_error l k else None.
Proof.
  induction l as [|x l IH]; intros [|n] [|k]; simpl; auto.
  - destruct (_ <? _); reflexivity.
  - rewrite IH. reflexivity.
Qed.
Lemma nth_copy : forall {A} (l old : list A) n k, n <= List.length l ->
  nth_error (firstn n l ++ skipn n old)%list k =
  if k <? n then nth_error l k else nth_error old k.
Proof.
  intros A l old n k H. destruct (Nat.ltb_spec k n).
  - rewrite nth_error_app1; [|rewrite firstn_length; lia]. rewrite nth_firstn.
    destruct (Nat.ltb_spec k n); [reflexivity|lia].
  - rewrite nth_error_app2; [|rewrite firstn_length; lia]. rewrite firstn_length.
    replace (Nat.min n (List.length l)) with n by lia.
    revert n l k H H0. induction old as [|x old IH]; intros n l k H H0.
    + rewrite skipn_nil. destruct (k - n), k; reflexivity.
    + destruct n; simpl; [rewrite Nat.sub_0_r; reflexivity|].
      destruct k; [lia|]. simpl. destruct l; simpl in H; [lia|]. apply (IH n l k); lia.
Qed.

(* ---------------------------------------------------------------- contents *)
(* the memory b has at least the known elements of l *)
Definition covers (l b : list cell) : Prop :=
  List.length l <= List.length b /\
  forall k v, nth_error l k = Some (Some v) -> nth_error b k = Some (Some v).

Lemma covers_refl : forall l, covers l l.
Proof. split; auto. Qed.
Lemma covers_unwritten : forall n b, n <= List.length b -> covers (unwritten n) b.
Proof.
  unfold unwritten. intros n b H. split; [rewrite repeat_length; auto|].
  intros k v E. exfalso. apply nth_error_In in E. apply repeat_spec in E. discriminate.
Qed.
Lemma covers_nil : forall b, covers [] b.
Proof. intros. split; [simpl; lia|]. intros [|k] v; discriminate. Qed.
Lemma firstn_unwritten : forall n, firstn n (unwritten n) = unwritten n.
Proof. intros. unfold unwritten. rewrite <- (repeat_length (@None Z) n) at 1. apply firstn_all. Qed.
Lemma covers_firstn_copy : forall l b old n, covers l b -> n <= List.length l -> n <= List.length old ->
  covers (firstn n l) (firstn n b ++ skipn n old).
Proof.
  intros l b old n [H1 H2] Hn Ho. split.
  - rewrite app_length, !firstn_length, skipn_length. lia.
  - intros k v. rewrite nth_firstn. destruct (Nat.ltb_spec k n); [|discriminate].
    intros E. rewrite nth_copy by lia. destruct (Nat.ltb_spec k n); [|lia]. apply H2, E.
Qed.
Lemma copy_all : forall (b old : list cell), List.length b = List.length old ->
  (firstn (List.length old) b ++ skipn (List.length old) old)%list = b.
Proof. intros. rewrite skipn_all, app_nil_r, <- H, firstn_all. reflexivity. Qed.
Lemma covers_replace : forall l b k v, covers l b -> k < List.length l ->
  covers (replace l k (Some v)) (setn b k (Some v)).
Proof.
  intros l b k v [H1 H2] H. split; [rewrite replace_length, setn_length; auto|].
  intros j w. rewrite replace_nth, setn_nth.
  destruct (Nat.eqb j k); [|apply H2].
  destruct (Nat.ltb_spec k (List.length l)), (Nat.ltb_spec k (List.length b)); try lia; auto.
Qed.
Lemma known_length : forall l, List.length (known l) = List.length l.
Proof. intros. unfold known. apply map_length. Qed.

(* -------------------------------------------------------------- invariant *)
Section Inv.
Variable N : nat.

(* object i holds the list l *)
Definition holds (s : st) (i : nat) (l : list cell) : Prop :=
  exists o b, objs s i = Some o /\ List.length (short o) = N /\ covers l b /\
    ((data o = Short i /\ b = short o) \/
     exists a, data o = Heap a /\ nth_error (heap s) a = Some (Some b)).

Record inv (v : vectors) (s : st) : Prop := {
  i_some : forall i l, v i = Some l -> holds s i l;
  i_none : forall i, v i = None -> objs s i = None;
  i_uniq : forall i j oi oj a, objs s i = Some oi -> objs s j = Some oj ->
             data oi = Heap a -> data oj = Heap a -> i = j;
  i_own : forall a b, nth_error (heap s) a = Some (Some b) ->
             exists i o, objs s i = Some o /\ data o = Heap a
}.

Lemma inv_empty : inv none no_objects.
Proof.
  constructor; simpl; try discriminate; auto.
  intros a b H. destruct a; discriminate.
Qed.

Lemma upd_same : forall {A} (f : nat -> A) i x, upd f i x i = x.
Proof. intros. unfold upd. rewrite Nat.eqb_refl. reflexivity. Qed.
Lemma upd_other : forall {A} (f : nat -> A) i j x, j <> i -> upd f i x j = f j.
Proof. intros. unfold upd. apply Nat.eqb_neq in H. rewrite H. reflexivity. Qed.

Lemma short_eqb : forall i, ptr_is_short (Short i) i = true.
Proof. intros. apply Nat.eqb_refl. Qed.

(* the generic change: object i gets a new record and list; the heap keeps the
   blocks of the other objects *)
Lemma inv_put : forall v s i o' h' l',
  inv v s -> List.length (short o') = N ->
  (exists b, covers l' b /\
     ((data o' = Short i /\ b = short o') \/
      exists a, data o' = Heap a /\ nth_error h' a = Some (Some b))) ->
  (* the blocks of other objects *)
  (forall j oj a, j <> i -> objs s j = Some oj -> data oj = Heap a ->
     nth_error h' a = nth_error (heap s) a /\ data o' <> Heap a) ->
  (* live blocks are owned *)
  (forall a b, nth_error h' a = Some (Some b) ->
     data o' = Heap a \/ exists j oj, j <> i /\ objs s j = Some oj /\ data oj = Heap a) ->
  inv (with_ v i (Some l')) (mkst (upd (objs s) i (Some o')) h').
Proof.
  intros v s i o' h' l' I Hl (b & Hc & Hb) Ho Hw. constructor; simpl.
  - intros j l. unfold with_. destruct (Nat.eqb_spec j i) as [->|Hne].
    + intros [= <-]. exists o', b. simpl. rewrite upd_same. auto.
    + intros E. destruct (i_some _ _ I j l E) as (o & c & E1 & E2 & E3 & E4).
      exists o, c. simpl. rewrite upd_other by auto. repeat split; auto; try apply E3.
      destruct E4 as [E4|(a & E4 & E5)]; [left; auto|right].
      exists a. split; [auto|]. destruct (Ho j o a Hne E1 E4) as [-> _]. auto.
  - intros j. unfold with_, upd. destruct (Nat.eqb_spec j i); [discriminate|]. apply (i_none _ _ I).
  - intros j k oj ok a. unfold upd.
    destruct (Nat.eqb_spec j i) as [->|Hj]; destruct (Nat.eqb_spec k i) as [->|Hk]; auto.
    + intros [= <-] E2 D1 D2. exfalso. apply (proj2 (Ho k ok a Hk E2 D2)). auto.
    + intros E1 [= <-] D1 D2. exfalso. apply (proj2 (Ho j oj a Hj E1 D1)). auto.
    + apply (i_uniq _ _ I).
  - intros a c H. destruct (Hw a c H) as [E|(j & oj & Hne & E1 & E2)].
    + exists i, o'. rewrite upd_same. auto.
    + exists j, oj. rewrite upd_other by auto. auto.
Qed.

(* memory of live vectors *)
Lemma heap_live : forall v s j oj a, inv v s -> objs s j = Some oj -> data oj = Heap a ->
  exists b, nth_error (heap s) a = Some (Some b).
Proof.
  intros v s j oj a I E D. destruct (v j) as [l|] eqn:Ev.
  - destruct (i_some _ _ I j l Ev) as (o & b & E1 & _ & _ & [[E2 _]|(a' & E2 & E3)]).
    + rewrite E1 in E. injection E as <-. congruence.
    + rewrite E1 in E. injection E as <-. exists b. congruence.
  - rewrite (i_none _ _ I j Ev) in E. discriminate.
Qed.

Lemma shape : forall v s i l, inv v s -> v i = Some l ->
  exists o, objs s i = Some o /\ List.length (short o) = N /\
   ((data o = Short i /\ covers l (short o)) \/
    (exists a b, data o = Heap a /\ nth_error (heap s) a = Some (Some b) /\ covers l b)).
Proof.
  intros v s i l I E. destruct (i_some _ _ I i l E) as (o & b & E1 & E2 & E3 & [[E4 ->]|(a & E4 & E5)]);
  exists o; (split; [auto|split; [auto|]]); [left|right]; eauto.
Qed.

(* owned by no other *)
Lemma not_other : forall v s i oi a j oj, inv v s -> objs s i = Some oi -> data oi = Heap a ->
  j <> i -> objs s j = Some oj -> data oj <> Heap a.
Proof. intros v s i oi a j oj I E1 D1 Hne E2 D2. apply Hne. eapply (i_uniq _ _ I); eauto. Qed.
Lemma not_end : forall v s j oj, inv v s -> objs s j = Some oj -> data oj <> Heap (List.length (heap s)).
Proof.
  intros v s j oj I E D. destruct (heap_live v s j oj _ I E D) as [b Hb].
  assert (nth_error (heap s) (List.length (heap s)) <> None) by (rewrite Hb; discriminate).
  apply nth_error_Some in H. lia.
Qed.

(* ------------------------------------------------------------ constructors *)
Lemma construct_ok : forall v s i n ok, inv v s -> v i = None -> granted N n ok = true ->
  exists o b s1,
    construct N s i n ok = Ok (s1, true) /\ s1 = mkst (upd (objs s) i (Some o)) (heap s1) /\
    List.length (short o) = N /\ n <= List.length b /\ block s1 (data o) = Ok b /\
    inv (with_ v i (Some (unwritten n))) s1 /\
    (forall j oj, j <> i -> objs s j = Some oj -> objs s1 j = Some oj) /\
    List.length (heap s1) = List.length (heap s) + (if negb (n <=? N) && ok then 1 else 0) /\
    forall l', (exists b', covers l' b') -> True.
Proof.
  intros v s i n ok I E G. unfold construct, fresh. rewrite (i_none _ _ I i E). simpl.
  unfold granted in G. destruct (Nat.leb_spec n N) as [Hn|Hn]; simpl in G.
  - exists (mkobj (Short i) (repeat None N)), (repeat None N), (put_obj s i (mkobj (Short i) (repeat None N))).
    simpl. split; [reflexivity|]. split; [reflexivity|]. rewrite repeat_length.
    split; [reflexivity|]. split; [lia|].
    split. { unfold get_obj. simpl. rewrite upd_same. reflexivity. }
    split.
    { apply inv_put; auto; simpl.
      - apply repeat_length.
      - exists (repeat None N). split; [apply covers_unwritten; rewrite repeat_length; lia|auto].
      - intros. split; [reflexivity|discriminate].
      - intros a b H. right. destruct (i_own _ _ I a b H) as (j & oj & E1 & E2).
        exists j, oj. split; auto. intros ->. rewrite (i_none _ _ I i E) in E1. discriminate. }
    split. { intros j oj Hne H. simpl. rewrite upd_other; auto. }
    split; [lia|auto].
  - subst ok. simpl.
    exists (mkobj (Heap (List.length (heap s))) (repeat None N)), (repeat None n), (put_obj (mkst (objs s) (heap s ++ [Some (repeat None n)])%list) i (mkobj (Heap (List.length (heap s))) (repeat None N))).
    simpl. split; [reflexivity|]. split; [reflexivity|]. rewrite !repeat_length.
    split; [reflexivity|]. split; [lia|].
    split. { rewrite nth_error_app2, Nat.sub_diag by lia. reflexivity. }
    split.
    { apply (inv_put v s i _ _ _ I); simpl.
      - apply repeat_length.
      - exists (repeat None n). split; [apply covers_unwritten; rewrite repeat_length; lia|].
        right. eexists. split; [reflexivity|]. rewrite nth_error_app2, Nat.sub_diag by lia. reflexivity.
      - intros j oj a Hne E1 D. split.
        + destruct (heap_live v s j oj a I E1 D) as [b Hb]. apply nth_error_app1.
          apply nth_error_Some. rewrite Hb. discriminate.
        + intros [= <-]. apply (not_end v s j oj I E1). auto.
      - intros a b H. destruct (Nat.ltb_spec a (List.length (heap s))).
        + rewrite nth_error_app1 in H by auto. right.
          destruct (i_own _ _ I a b H) as (j & oj & E1 & E2).
          exists j, oj. split; auto. intros ->. rewrite (i_none _ _ I i E) in E1. discriminate.
        + left. rewrite nth_error_app2 in H by auto. f_equal.
          destruct (a - List.length (heap s)) as [|k] eqn:Ek; [lia|]. simpl in H. destruct k; discriminate. }
    split. { intros j oj Hne H. simpl. rewrite upd_other; auto. }
    split; [rewrite app_length; simpl; lia|auto].
Qed.

(* writing into the memory of vector i *)
Lemma put_block : forall v s i l l' o b c, inv v s -> v i = Some l -> objs s i = Some o ->
  block s (data o) = Ok b -> List.length c = List.length b -> covers l' c ->
  exists s1, set_block s (data o) c = Ok s1 /\ inv (with_ v i (Some l')) s1 /\
    List.length (heap s1) = List.length (heap s) /\ (forall j oj, j <> i -> objs s j = Some oj -> objs s1 j = Some oj).
Proof.
  intros v s i l l' o b c I E Eo Eb Hlen Hc.
  destruct (shape v s i l I E) as (o2 & E1 & E2 & E3). rewrite Eo in E1. injection E1 as <-.
  destruct E3 as [[D Hs]|(a & b2 & D & Hb2 & Hs)]; rewrite D in *; simpl in *.
  - unfold get_obj in Eb. rewrite Eo in Eb. simpl in Eb. injection Eb as <-.
    unfold set_short, get_obj. rewrite Eo. simpl. eexists. split; [reflexivity|]. split; [|split; [reflexivity|]].
    + apply inv_put; auto; simpl.
      * lia.
      * exists c. auto.
      * intros j oj a Hne _ _. rewrite D. split; [reflexivity|discriminate].
      * intros a b H. right. destruct (i_own _ _ I a b H) as (j & oj & F1 & F2).
        exists j, oj. split; auto. intros ->. rewrite Eo in F1. injection F1 as <-. congruence.
    + intros j oj Hne H. simpl. rewrite upd_other; auto.
  - rewrite Hb2 in Eb. injection Eb as ->.
    eexists. split; [reflexivity|]. split; [|split; [simpl; apply setn_length|auto]].
    assert (Ha : a < List.length (heap s)) by (apply nth_error_Some; rewrite Hb2; discriminate).
    assert (P : inv (with_ v i (Some l')) (mkst (upd (objs s) i (Some o)) (setn (heap s) a (Some c)))).
    { apply inv_put; auto; simpl.
      - exists c. split; auto. right. exists a. split; auto. rewrite setn_nth, Nat.eqb_refl.
        destruct (Nat.ltb_spec a (List.length (heap s))); [reflexivity|lia].
      - intros j oj a' Hne F1 F2. assert (a' <> a) by (intros ->; eapply (not_other v s i o a j oj); eauto).
        split; [|congruence]. rewrite setn_nth. apply Nat.eqb_neq in H. rewrite H. reflexivity.
      - intros a' b' H. destruct (Nat.eq_dec a' a) as [->|Hne]; [left; auto|right].
        rewrite setn_nth in H. apply Nat.eqb_neq in Hne. rewrite Hne in H.
        destruct (i_own _ _ I a' b' H) as (j & oj & F1 & F2). exists j, oj. split; auto.
        intros ->. rewrite Eo in F1. injection F1 as <-. apply Nat.eqb_neq in Hne. congruence. }
    destruct P as [P1 P2 P3 P4]. simpl in *.
    assert (Hu : forall j, upd (objs s) i (Some o) j = objs s j).
    { intros j. unfold upd. destruct (Nat.eqb_spec j i); congruence. }
    constructor; simpl.
    + intros j l2 H. destruct (P1 j l2 H) as (o2 & b3 & F1 & F2). exists o2, b3. simpl in *. rewrite Hu in F1. auto.
    + intros j H. rewrite <- Hu. auto.
    + intros j k oj ok a'. rewrite <- !Hu. apply P3.
    + intros a' b' H. destruct (P4 a' b' H) as (j & oj & F1 & F2). exists j, oj. rewrite <- Hu. auto.
Qed.

Lemma with_with : forall v i x y j, with_ (with_ v i x) i y j = with_ v i y j.
Proof. intros. unfold with_. destruct (Nat.eqb j i); reflexivity. Qed.
Lemma inv_ext : forall v v' s, inv v s -> (forall j, v' j = v j) -> inv v' s.
Proof.
  intros v v' s [H1 H2 H3 H4] E. constructor; auto.
  - intros i l. rewrite E. auto.
  - intros i. rewrite E. auto.
Qed.

(* copying a list into the memory of vector i *)
Lemma copy_into : forall v s i n l o b src, inv (with_ v i (Some (unwritten n))) s ->
  objs s i = Some o -> block s (data o) = Ok b -> n <= List.length b ->
  covers l src -> n <= List.length l ->
  exists s1, memcpy_list s (data o) src n = Ok s1 /\ inv (with_ v i (Some (firstn n l))) s1 /\
    List.length (heap s1) = List.length (heap s).
Proof.
  intros v s i n l o b src I Eo Eb Hb Hc Hn. unfold memcpy_list. rewrite Eb. simpl.
  destruct Hc as [Hc1 Hc2] eqn:EHc. clear EHc.
  destruct (Nat.leb_spec n (List.length src)); [|lia].
  destruct (Nat.leb_spec n (List.length b)); [|lia]. simpl.
  destruct (put_block _ s i (unwritten n) (firstn n l) o b (firstn n src ++ skipn n b)%list I) as (s1 & F1 & F2 & F3 & _); auto.
  - unfold with_. rewrite Nat.eqb_refl. reflexivity.
  - rewrite app_length, firstn_length, skipn_length. lia.
  - apply covers_firstn_copy; auto.
  - exists s1. split; auto. split; auto. eapply inv_ext; [apply F2|]. intros j. rewrite with_with. reflexivity.
Qed.
Lemma covers_known : forall l, covers (known l) (map Some l).
Proof. intros. apply covers_refl. Qed.

Lemma cells_of : forall v s j l, inv v s -> v j = Some l ->
  exists o b, objs s j = Some o /\ block s (data o) = Ok b /\ covers l b.
Proof.
  intros v s j l I E. destruct (shape v s j l I E) as (o & E1 & E2 & [[D H]|(a & b & D & H1 & H2)]).
  - exists o, (short o). rewrite D. simpl. unfold get_obj. rewrite E1. auto.
  - exists o, b. rewrite D. simpl. rewrite H1. auto.
Qed.

(* ------------------------------------------- the invariant without ownership *)
Record inv0 (v : vectors) (s : st) : Prop := {
  z_some : forall i l, v i = Some l -> holds s i l;
  z_none : forall i, v i = None -> objs s i = None;
  z_uniq : forall i j oi oj a, objs s i = Some oi -> objs s j = Some oj ->
             data oi = Heap a -> data oj = Heap a -> i = j
}.
Definition owned (s : st) : Prop := forall a b, nth_error (heap s) a = Some (Some b) ->
  exists i o, objs s i = Some o /\ data o = Heap a.
Lemma inv_split : forall v s, inv v s <-> inv0 v s /\ owned s.
Proof.
  split.
  - intros [H1 H2 H3 H4]. split; [constructor; auto|exact H4].
  - intros [[H1 H2 H3] H4]. constructor; auto.
Qed.

Lemma put0 : forall v s i o' h' l',
  inv0 v s -> List.length (short o') = N ->
  (exists b, covers l' b /\
     ((data o' = Short i /\ b = short o') \/
      exists a, data o' = Heap a /\ nth_error h' a = Some (Some b))) ->
  (forall j oj a, j <> i -> objs s j = Some oj -> data oj = Heap a ->
     nth_error h' a = nth_error (heap s) a /\ data o' <> Heap a) ->
  inv0 (with_ v i (Some l')) (mkst (upd (objs s) i (Some o')) h').
Proof.
  intros v s i o' h' l' I Hl (b & Hc & Hb) Ho. constructor; simpl.
  - intros j l. unfold with_. destruct (Nat.eqb_spec j i) as [->|Hne].
    + intros [= <-]. exists o', b. simpl. rewrite upd_same. auto.
    + intros E. destruct (z_some _ _ I j l E) as (o & c & E1 & E2 & E3 & E4).
      exists o, c. simpl. rewrite upd_other by auto. repeat split; auto; try apply E3.
      destruct E4 as [E4|(a & E4 & E5)]; [left; auto|right].
      exists a. split; [auto|]. destruct (Ho j o a Hne E1 E4) as [-> _]. auto.
  - intros j. unfold with_, upd. destruct (Nat.eqb_spec j i); [discriminate|]. apply (z_none _ _ I).
  - intros j k oj ok a. unfold upd.
    destruct (Nat.eqb_spec j i) as [->|Hj]; destruct (Nat.eqb_spec k i) as [->|Hk]; auto.
    + intros [= <-] E2 D1 D2. exfalso. apply (proj2 (Ho k ok a Hk E2 D2)). auto.
    + intros E1 [= <-] D1 D2. exfalso. apply (proj2 (Ho j oj a Hj E1 D1)). auto.
    + apply (z_uniq _ _ I).
Qed.
(* a put that keeps the heap *)
Lemma put_short : forall v s i l lst, inv0 v s -> List.length l = N -> covers lst l ->
  inv0 (with_ v i (Some lst)) (mkst (upd (objs s) i (Some (mkobj (Short i) l))) (heap s)).
Proof.
  intros. apply put0; auto; simpl.
  - exists l. auto.
  - intros. split; [reflexivity|discriminate].
Qed.
Lemma put_long : forall v s i l lst a b, inv0 v s -> List.length l = N -> covers lst b ->
  nth_error (heap s) a = Some (Some b) ->
  (forall j oj, j <> i -> objs s j = Some oj -> data oj <> Heap a) ->
  inv0 (with_ v i (Some lst)) (mkst (upd (objs s) i (Some (mkobj (Heap a) l))) (heap s)).
Proof.
  intros. apply put0; auto; simpl.
  - exists b. split; auto. right. exists a. auto.
  - intros j oj a' Hne E D. split; [reflexivity|]. intros [= <-]. apply (H3 j oj Hne E D).
Qed.

Lemma inv0_ext : forall v v' s s', inv0 v s -> (forall j, v' j = v j) ->
  (forall j, objs s' j = objs s j) -> heap s' = heap s -> inv0 v' s'.
Proof.
  intros v v' s s' [H1 H2 H3] E1 E2 E3. constructor.
  - intros i l. rewrite E1. intros E. destruct (H1 i l E) as (o & b & F). exists o, b. rewrite E2, E3. auto.
  - intros i. rewrite E1, E2. auto.
  - intros i j oi oj a. rewrite !E2. apply H3.
Qed.

(* ----------------------------------------------------------------- release *)
Definition rel (s : st) (o : obj) : list (option (list cell)) :=
  match data o with Short _ => heap s | Heap a => setn (heap s) a None end.

Lemma rel_len : forall s o, List.length (rel s o) = List.length (heap s).
Proof. intros. unfold rel. destruct (data o); auto using setn_length. Qed.
Lemma release : forall v s i o, inv v s -> objs s i = Some o ->
  (if ptr_is_short (data o) i then Ok s else delete_ s (data o)) = Ok (mkst (objs s) (rel s o)).
Proof.
  intros v s i o I E. unfold rel. destruct (data o) as [k|a] eqn:D; simpl.
  - destruct (v i) as [l|] eqn:Ev.
    + destruct (shape v s i l I Ev) as (o2 & E1 & _ & [[D2 _]|(a & b & D2 & _)]); rewrite E in E1; injection E1 as <-.
      * rewrite D in D2. injection D2 as ->. rewrite Nat.eqb_refl. destruct s; reflexivity.
      * congruence.
    + rewrite (i_none _ _ I i Ev) in E. discriminate.
  - destruct (heap_live v s i o a I E D) as [b ->]. reflexivity.
Qed.
Lemma rel_other : forall v s i o j oj a, inv v s -> objs s i = Some o -> j <> i -> objs s j = Some oj ->
  data oj = Heap a -> nth_error (rel s o) a = nth_error (heap s) a.
Proof.
  intros v s i o j oj a I Ei Hne Ej D. unfold rel. destruct (data o) as [k|a'] eqn:Do; auto.
  rewrite setn_nth. destruct (Nat.eqb_spec a a') as [->|]; auto.
  exfalso. apply Hne. eapply (i_uniq _ _ I); eauto.
Qed.
Lemma rel_owned : forall v s i o a b, inv v s -> objs s i = Some o ->
  nth_error (rel s o) a = Some (Some b) -> exists j oj, j <> i /\ objs s j = Some oj /\ data oj = Heap a.
Proof.
  intros v s i o a b I Ei H. unfold rel in H. destruct (data o) as [k|a'] eqn:Do.
  - destruct (i_own _ _ I a b H) as (j & oj & F1 & F2). exists j, oj. split; auto. intros ->. congruence.
  - rewrite setn_nth in H. destruct (Nat.eqb_spec a a') as [->|Hne].
    + destruct (_ <? _); discriminate.
    + destruct (i_own _ _ I a b H) as (j & oj & F1 & F2). exists j, oj. split; auto. intros ->. congruence.
Qed.

(* -------------------------------------------------------------------- init *)
Lemma init_ok : forall v s i n ok l0, inv v s -> v i = Some l0 -> granted N n ok = true ->
  exists o b s1,
    init N s i n ok = Ok (s1, true) /\ objs s1 i = Some o /\
    n <= List.length b /\ block s1 (data o) = Ok b /\
    inv (with_ v i (Some (unwritten n))) s1 /\
    (forall j, j <> i -> objs s1 j = objs s j) /\
    (forall j oj bj, j <> i -> objs s j = Some oj -> block s (data oj) = Ok bj -> block s1 (data oj) = Ok bj) /\
    List.length (heap s1) = List.length (heap s) + (if negb (n <=? N) && ok then 1 else 0).
Proof.
  intros v s i n ok l0 I E G. destruct (shape v s i l0 I E) as (o & Eo & Hl & _).
  unfold init, get_obj. rewrite Eo. simpl. rewrite (release v s i o I Eo). simpl.
  unfold granted in G. destruct (Nat.leb_spec n N) as [Hn|Hn]; simpl in G.
  - unfold set_data, get_obj. simpl. rewrite Eo. simpl.
    exists (mkobj (Short i) (short o)), (short o), (mkst (upd (objs s) i (Some (mkobj (Short i) (short o)))) (rel s o)).
    simpl. split; [reflexivity|]. split; [apply upd_same|]. split; [lia|].
    split; [unfold get_obj; simpl; rewrite upd_same; reflexivity|].
    split.
    { apply (inv_put v s i _ _ _ I); simpl; auto.
      - exists (short o). split; [apply covers_unwritten; lia|auto].
      - intros j oj a Hne E1 D. split; [eapply (rel_other v s i o j oj); eauto|discriminate].
      - intros a b H. right. eapply rel_owned; eauto. }
    split; [intros; apply upd_other; auto|]. split; [|rewrite rel_len; lia].
    intros j oj bj Hne Ej Hb.
    destruct (v j) as [lj|] eqn:Evj; [|rewrite (i_none _ _ I j Evj) in Ej; discriminate].
    destruct (shape v s j lj I Evj) as (o2 & F1 & F2 & [[D _]|(a & c & D & Hc & _)]);
      rewrite Ej in F1; injection F1 as <-; rewrite D in *; simpl in *.
    + unfold get_obj in *. simpl. rewrite upd_other by auto. auto.
    + rewrite (rel_other v s i o j oj a I Eo Hne Ej D). auto.
  - subst ok. simpl. unfold set_data, get_obj. simpl. rewrite Eo. simpl. rewrite rel_len.
    exists (mkobj (Heap (List.length (heap s))) (short o)), (repeat None n),
      (mkst (upd (objs s) i (Some (mkobj (Heap (List.length (heap s))) (short o)))) (rel s o ++ [Some (repeat None n)])%list).
    assert (Hend : nth_error (rel s o ++ [Some (repeat (@None Z) n)])%list (List.length (heap s)) = Some (Some (repeat None n))).
    { rewrite nth_error_app2; rewrite rel_len, ?Nat.sub_diag; auto. }
    simpl. split; [reflexivity|]. split; [apply upd_same|]. split; [rewrite repeat_length; lia|].
    split; [rewrite Hend; reflexivity|].
    split.
    { apply (inv_put v s i _ _ _ I); simpl; auto.
      - exists (repeat None n). split; [apply covers_unwritten; rewrite repeat_length; lia|]. right. eauto.
      - intros j oj a Hne E1 D. split.
        + destruct (heap_live v s j oj a I E1 D) as [b Hb]. rewrite nth_error_app1.
          * eapply (rel_other v s i o j oj); eauto.
          * rewrite rel_len. apply nth_error_Some. rewrite Hb. discriminate.
        + intros [= <-]. apply (not_end v s j oj I E1). auto.
      - intros a b H. destruct (Nat.ltb_spec a (List.length (heap s))).
        + rewrite nth_error_app1 in H by (rewrite rel_len; auto). right. eapply rel_owned; eauto.
        + left. rewrite nth_error_app2, rel_len in H by (rewrite rel_len; auto). f_equal.
          destruct (a - List.length (heap s)) as [|k] eqn:Ek; [lia|]. simpl in H. destruct k; discriminate. }
    split; [intros; apply upd_other; auto|]. split; [|rewrite app_length, rel_len; simpl; lia].
    intros j oj bj Hne Ej Hb.
    destruct (v j) as [lj|] eqn:Evj; [|rewrite (i_none _ _ I j Evj) in Ej; discriminate].
    destruct (shape v s j lj I Evj) as (o2 & F1 & F2 & [[D _]|(a & c & D & Hc & _)]);
      rewrite Ej in F1; injection F1 as <-; rewrite D in *; simpl in *.
    + unfold get_obj in *. simpl. rewrite upd_other by auto. auto.
    + rewrite nth_error_app1; [|rewrite rel_len; apply nth_error_Some; rewrite Hc; discriminate].
      rewrite (rel_other v s i o j oj a I Eo Hne Ej D). auto.
Qed.

(* -------------------------------------------------------------------- dtor *)
Lemma dtor_ok : forall v s i l, inv v s -> v i = Some l ->
  exists s1, dtor s i = Ok s1 /\ inv (with_ v i None) s1 /\ List.length (heap s1) = List.length (heap s).
Proof.
  intros v s i l I E. destruct (shape v s i l I E) as (o & Eo & _). unfold dtor, get_obj.
  rewrite Eo. simpl. rewrite (release v s i o I Eo). simpl. eexists. split; [reflexivity|].
  split; [|simpl; apply rel_len]. constructor; simpl.
  - intros j lj. unfold with_. destruct (Nat.eqb_spec j i) as [->|Hne]; [discriminate|]. intros Ej.
    destruct (i_some _ _ I j lj Ej) as (oj & b & F1 & F2 & F3 & F4). exists oj, b. simpl.
    rewrite upd_other by auto. split; [auto|]. split; [auto|]. split; [auto|].
    destruct F4 as [F4|(a & F4 & F5)]; [left; auto|right]. exists a. split; auto.
    rewrite (rel_other v s i o j oj a I Eo Hne F1 F4). auto.
  - intros j. unfold with_, upd. destruct (Nat.eqb_spec j i); auto. apply (i_none _ _ I).
  - intros j k oj ok a. unfold upd. destruct (Nat.eqb_spec j i); [discriminate|].
    destruct (Nat.eqb_spec k i); [discriminate|]. apply (i_uniq _ _ I).
  - intros a b H. destruct (rel_owned v s i o a b I Eo H) as (j & oj & F1 & F2 & F3).
    exists j, oj. rewrite upd_other by auto. auto.
Qed.

(* -------------------------------------------------------------------- moves *)
Lemma copy_N : forall (b old : list cell), List.length b = N -> List.length old = N ->
  (firstn N b ++ skipn N old)%list = b.
Proof.
  intros b old H1 H2. rewrite skipn_all2 by lia. rewrite app_nil_r. apply firstn_all2. lia.
Qed.
Lemma copy_shorts : forall s i l j oi oj, objs s i = Some oi -> objs s j = Some oj ->
  l = short oj -> List.length (short oi) = N -> List.length (short oj) = N ->
  memcpy_list s (Short i) l N = Ok (put_obj s i (mkobj (data oi) (short oj))).
Proof.
  intros s i l j oi oj Ei Ej -> Hi Hj. unfold memcpy_list, block, set_block, set_short, get_obj.
  rewrite Ei. simpl. rewrite Hi, Hj, Nat.leb_refl. simpl. rewrite (copy_N (short oj) (short oi)) by auto. reflexivity.
Qed.

Lemma move_from_short : forall s i j oi oj, i <> j -> objs s i = Some oi -> objs s j = Some oj ->
  List.length (short oi) = N -> List.length (short oj) = N -> data oj = Short j ->
  exists s1, move_from N s i j = Ok s1 /\ heap s1 = heap s /\
    forall k, objs s1 k = upd (objs s) i (Some (mkobj (Short i) (short oj))) k.
Proof.
  intros s i j oi oj Hne Ei Ej Hi Hj D. unfold move_from, memcpy, get_obj. rewrite Ej. simpl. rewrite D. simpl.
  rewrite Nat.eqb_refl. unfold get_obj. rewrite Ej. simpl.
  rewrite (copy_shorts s i _ j oi oj); auto. simpl. unfold set_data, get_obj. simpl. rewrite upd_same. simpl.
  eexists. split; [reflexivity|]. split; [reflexivity|]. intros k. unfold put_obj, upd. simpl.
  destruct (Nat.eqb k i); reflexivity.
Qed.
Lemma move_from_long : forall s i j oi oj a, i <> j -> objs s i = Some oi -> objs s j = Some oj ->
  data oj = Heap a ->
  exists s1, move_from N s i j = Ok s1 /\ heap s1 = heap s /\
    forall k, objs s1 k = upd (upd (objs s) j (Some (mkobj (Short j) (short oj)))) i (Some (mkobj (Heap a) (short oi))) k.
Proof.
  intros s i j oi oj a Hne Ei Ej D. unfold move_from, set_data, get_obj. rewrite Ej. simpl. rewrite D. simpl.
  rewrite Ei. simpl. rewrite upd_other by auto. rewrite Ej. simpl.
  eexists. split; [reflexivity|]. split; [reflexivity|]. intros k. unfold put_obj, upd. simpl.
  destruct (Nat.eqb_spec k i), (Nat.eqb_spec k j); subst; try reflexivity. congruence.
Qed.

Lemma covers_short : forall v s i l o, inv0 v s -> v i = Some l -> objs s i = Some o ->
  List.length (short o) = N /\
  ((data o = Short i /\ covers l (short o)) \/
   (exists a b, data o = Heap a /\ nth_error (heap s) a = Some (Some b) /\ covers l b)).
Proof.
  intros v s i l o I E Eo. destruct (z_some _ _ I i l E) as (o2 & b & E1 & E2 & E3 & F).
  rewrite Eo in E1. injection E1 as <-. split; auto.
  destruct F as [[D ->]|(a & D & H)]; [left; auto|right]. exists a, b. auto.
Qed.

Lemma move_ok : forall v s i j l oi, i <> j -> objs s i = Some oi -> List.length (short oi) = N ->
  inv0 (with_ v i (Some [])) (mkst (upd (objs s) i (Some (mkobj (Short i) (short oi)))) (heap s)) ->
  v j = Some l ->
  (forall a b, nth_error (heap s) a = Some (Some b) -> exists k ok, k <> i /\ objs s k = Some ok /\ data ok = Heap a) ->
  exists s1, move_from N s i j = Ok s1 /\
    inv (with_ (with_ v i (Some l)) j (Some [])) s1 /\ heap s1 = heap s.
Proof.
  intros v s i j l oi Hne Ei Hi I Ej Own.
  assert (Wj : with_ v i (Some []) j = Some l).
  { unfold with_. destruct (Nat.eqb_spec j i); [congruence|auto]. }
  destruct (z_some _ _ I j l Wj) as (oj & b & Eoj & Hj & Hc & F). simpl in Eoj, F.
  rewrite upd_other in Eoj by auto.
  destruct F as [[D ->]|(a & D & Hb)].
  - destruct (move_from_short s i j oi oj Hne Ei Eoj Hi Hj D) as (s1 & M & Hh & Ho).
    exists s1. split; [auto|]. split; [|auto]. apply inv_split. split.
    + pose proof (put_short _ _ i (short oj) l I Hj Hc) as P1.
      pose proof (put_short _ _ j (short oj) [] P1 Hj (covers_nil _)) as P2. simpl in P2.
      eapply inv0_ext; [apply P2| | |auto].
      * intros k. unfold with_. destruct (Nat.eqb k j); auto. destruct (Nat.eqb k i); auto.
      * intros k. simpl. rewrite Ho. unfold upd.
        destruct (Nat.eqb_spec k j), (Nat.eqb_spec k i); subst; auto; try congruence.
        rewrite Eoj. destruct oj as [dj sj]. simpl in *. congruence.
    + intros a b H. rewrite Hh in H. destruct (Own a b H) as (k & ok & Hk & F1 & F2).
      exists k, ok. rewrite Ho, upd_other; auto.
  - destruct (move_from_long s i j oi oj a Hne Ei Eoj D) as (s1 & M & Hh & Ho).
    exists s1. split; [auto|]. split; [|auto]. apply inv_split. split.
    + pose proof (put_short _ _ j (short oj) [] I Hj (covers_nil _)) as P1. simpl in P1.
      pose proof (put_long _ _ i (short oi) l a b P1 Hi Hc Hb) as P2. simpl in P2.
      eapply inv0_ext; [apply P2| | |auto].
      * intros k ok Hk. unfold upd. destruct (Nat.eqb_spec k j) as [->|Hkj].
        { intros [= <-]. simpl. discriminate. }
        destruct (Nat.eqb_spec k i); [congruence|]. intros E D2. apply Hkj.
        refine (z_uniq _ _ I k j ok oj a _ _ D2 D); simpl; rewrite upd_other; auto.
      * intros k. unfold with_. destruct (Nat.eqb_spec k j), (Nat.eqb_spec k i); subst; auto; congruence.
      * intros k. simpl. rewrite Ho. unfold upd.
        destruct (Nat.eqb_spec k i), (Nat.eqb_spec k j); subst; auto; congruence.
    + intros a' b' H. rewrite Hh in H. destruct (Own a' b' H) as (k & ok & Hk & F1 & F2).
      destruct (Nat.eq_dec k j) as [->|Hkj].
      * exists i. eexists. rewrite Ho, upd_same. split; [reflexivity|]. simpl. congruence.
      * exists k, ok. rewrite Ho, !upd_other; auto.
Qed.

(* --------------------------------------------------------------------- swap *)
Lemma swap_short_short : forall s i j oi oj, i <> j -> objs s i = Some oi -> objs s j = Some oj ->
  List.length (short oi) = N -> List.length (short oj) = N -> data oi = Short i -> data oj = Short j ->
  exists s1, swap N s i j = Ok s1 /\ heap s1 = heap s /\
    forall k, objs s1 k = upd (upd (objs s) i (Some (mkobj (Short i) (short oj)))) j (Some (mkobj (Short j) (short oi))) k.
Proof.
  intros s i j oi oj Hne Ei Ej Hi Hj Di Dj. unfold swap, memcpy.
  repeat (unfold set_data, get_obj, put_obj, block; simpl; rewrite ?upd_same, ?(upd_other _ j i), ?(upd_other _ i j), ?Ei, ?Ej, ?Di, ?Dj, ?Nat.eqb_refl by auto).
  rewrite (copy_shorts _ i (short oj) j (mkobj (Short i) (short oi)) (mkobj (Short j) (short oj))); [| | |reflexivity| |]; simpl;
    rewrite ?upd_same, ?(upd_other _ j i), ?(upd_other _ i j), ?upd_same by auto; try reflexivity; auto.
  simpl. eexists. split; [|split].
  - unfold memcpy_list, block, set_block, set_short, get_obj. simpl.
    rewrite ?upd_same, ?(upd_other _ j i), ?(upd_other _ i j), ?upd_same by auto. simpl.
    rewrite Hi, Hj, Nat.leb_refl. simpl. reflexivity.
  - reflexivity.
  - intros k. simpl. unfold upd.
    rewrite (copy_N (short oi) (short oj)) by auto.
    destruct (Nat.eqb_spec k i), (Nat.eqb_spec k j); subst; auto; congruence.
Qed.
Lemma swap_short_long : forall s i j oi oj a, i <> j -> objs s i = Some oi -> objs s j = Some oj ->
  List.length (short oi) = N -> List.length (short oj) = N -> data oi = Short i -> data oj = Heap a ->
  exists s1, swap N s i j = Ok s1 /\ heap s1 = heap s /\
    forall k, objs s1 k = upd (upd (objs s) i (Some (mkobj (Heap a) (short oi)))) j (Some (mkobj (Short j) (short oi))) k.
Proof.
  intros s i j oi oj a Hne Ei Ej Hi Hj Di Dj. unfold swap, memcpy.
  repeat (unfold set_data, get_obj, put_obj, block; simpl; rewrite ?upd_same, ?(upd_other _ j i), ?(upd_other _ i j), ?Ei, ?Ej, ?Di, ?Dj, ?Nat.eqb_refl by auto).
  rewrite (copy_shorts _ j (short oi) i (mkobj (Short j) (short oj)) (mkobj (Heap a) (short oi))); [| | |reflexivity| |]; simpl;
    rewrite ?upd_same, ?(upd_other _ j i), ?(upd_other _ i j), ?upd_same by auto; try reflexivity; auto.
  eexists. split; [reflexivity|]. split; [reflexivity|].
  intros k. simpl. unfold upd.
  destruct (Nat.eqb_spec k i), (Nat.eqb_spec k j); subst; auto; congruence.
Qed.
Lemma swap_long_short : forall s i j oi oj a, i <> j -> objs s i = Some oi -> objs s j = Some oj ->
  List.length (short oi) = N -> List.length (short oj) = N -> data oi = Heap a -> data oj = Short j ->
  exists s1, swap N s i j = Ok s1 /\ heap s1 = heap s /\
    forall k, objs s1 k = upd (upd (objs s) j (Some (mkobj (Heap a) (short oj)))) i (Some (mkobj (Short i) (short oj))) k.
Proof.
  intros s i j oi oj a Hne Ei Ej Hi Hj Di Dj. unfold swap, memcpy.
  repeat (unfold set_data, get_obj, put_obj, block; simpl; rewrite ?upd_same, ?(upd_other _ j i), ?(upd_other _ i j), ?Ei, ?Ej, ?Di, ?Dj, ?Nat.eqb_refl by auto).
  rewrite (copy_shorts _ i (short oj) j (mkobj (Short i) (short oi)) (mkobj (Heap a) (short oj))); [| | |reflexivity| |]; simpl;
    rewrite ?upd_same, ?(upd_other _ j i), ?(upd_other _ i j), ?upd_same by auto; try reflexivity; auto.
  eexists. split; [reflexivity|]. split; [reflexivity|].
  intros k. simpl. unfold upd.
  destruct (Nat.eqb_spec k i), (Nat.eqb_spec k j); subst; auto; congruence.
Qed.
Lemma swap_long_long : forall s i j oi oj a b, i <> j -> objs s i = Some oi -> objs s j = Some oj ->
  data oi = Heap a -> data oj = Heap b ->
  exists s1, swap N s i j = Ok s1 /\ heap s1 = heap s /\
    forall k, objs s1 k = upd (upd (objs s) i (Some (mkobj (Heap b) (short oi)))) j (Some (mkobj (Heap a) (short oj))) k.
Proof.
  intros s i j oi oj a b Hne Ei Ej Di Dj. unfold swap.
  repeat (unfold set_data, get_obj, put_obj, block; simpl; rewrite ?upd_same, ?(upd_other _ j i), ?(upd_other _ i j), ?Ei, ?Ej, ?Di, ?Dj, ?Nat.eqb_refl by auto).
  eexists. split; [reflexivity|]. split; [reflexivity|].
  intros k. simpl. unfold upd.
  destruct (Nat.eqb_spec k i), (Nat.eqb_spec k j); subst; auto; congruence.
Qed.
Lemma swap_self : forall s i oi, objs s i = Some oi -> List.length (short oi) = N ->
  data oi = Short i \/ (exists a, data oi = Heap a) ->
  exists s1, swap N s i i = Ok s1 /\ heap s1 = heap s /\ forall k, objs s1 k = objs s k.
Proof.
  intros s i oi Ei Hi [D|[a D]]; unfold swap, memcpy.
  - repeat (unfold set_data, get_obj, put_obj, block; simpl; rewrite ?upd_same, ?Ei, ?D, ?Nat.eqb_refl).
    rewrite (copy_shorts _ i (short oi) i (mkobj (Short i) (short oi)) (mkobj (Short i) (short oi))); [| | |reflexivity| |]; simpl;
      rewrite ?upd_same; try reflexivity; auto.
    simpl. rewrite (copy_shorts _ i (short oi) i (mkobj (Short i) (short oi)) (mkobj (Short i) (short oi))); [| | |reflexivity| |]; simpl;
      rewrite ?upd_same; try reflexivity; auto.
    eexists. split; [reflexivity|]. split; [reflexivity|]. intros k. simpl. unfold upd.
    destruct (Nat.eqb_spec k i); subst; auto. rewrite Ei. destruct oi; simpl in *; congruence.
  - repeat (unfold set_data, get_obj, put_obj, block; simpl; rewrite ?upd_same, ?Ei, ?D, ?Nat.eqb_refl).
    eexists. split; [reflexivity|]. split; [reflexivity|]. intros k. simpl. unfold upd.
    destruct (Nat.eqb_spec k i); subst; auto. rewrite Ei. destruct oi; simpl in *; congruence.
Qed.

Lemma swap_ok : forall v s i j li lj, inv v s -> v i = Some li -> v j = Some lj ->
  exists s1, swap N s i j = Ok s1 /\ inv (with_ (with_ v i (Some lj)) j (Some li)) s1 /\ heap s1 = heap s.
Proof.
  intros v s i j li lj I Vi Vj. destruct (proj1 (inv_split v s) I) as [I0 Ow].
  destruct (shape v s i li I Vi) as (oi & Ei & Hi & Si).
  destruct (shape v s j lj I Vj) as (oj & Ej & Hj & Sj).
  destruct (Nat.eq_dec i j) as [<-|Hne].
  { destruct (swap_self s i oi Ei Hi) as (s1 & M & Hh & Ho).
    { destruct Si as [[D _]|(a & b & D & _)]; eauto. }
    exists s1. split; [auto|]. split; [|auto]. apply inv_split. split.
    - eapply inv0_ext; [apply I0| |auto|auto]. intros k. unfold with_. destruct (Nat.eqb_spec k i); subst; auto.
    - intros a b H. rewrite Hh in H. destruct (Ow a b H) as (k & ok & F). exists k, ok. rewrite Ho. auto. }
  destruct Si as [[Di Ci]|(a & ba & Di & Ba & Ci)]; destruct Sj as [[Dj Cj]|(b & bb & Dj & Bb & Cj)].
  - destruct (swap_short_short s i j oi oj Hne Ei Ej Hi Hj Di Dj) as (s1 & M & Hh & Ho).
    exists s1. split; [auto|]. split; [|auto]. apply inv_split. split.
    + pose proof (put_short _ _ i (short oj) lj I0 Hj Cj) as P1.
      pose proof (put_short _ _ j (short oi) li P1 Hi Ci) as P2. simpl in P2.
      eapply inv0_ext; [apply P2|reflexivity| |auto]. intros k. rewrite Ho. reflexivity.
    + intros x y H. rewrite Hh in H. destruct (Ow x y H) as (k & ok & F1 & F2).
      exists k, ok. split; [|auto]. rewrite Ho, !upd_other; auto; intros ->; congruence.
  - destruct (swap_short_long s i j oi oj b Hne Ei Ej Hi Hj Di Dj) as (s1 & M & Hh & Ho).
    exists s1. split; [auto|]. split; [|auto]. apply inv_split. split.
    + pose proof (put_short _ _ j (short oi) li I0 Hi Ci) as P1. simpl in P1.
      pose proof (put_long _ _ i (short oi) lj b bb P1 Hi Cj Bb) as P2. simpl in P2.
      eapply inv0_ext; [apply P2| | |auto].
      * intros k ok Hk. unfold upd. destruct (Nat.eqb_spec k j) as [->|Hkj].
        { intros [= <-]. simpl. discriminate. }
        intros E D2. apply Hkj. apply (z_uniq _ _ I0 k j ok oj b E Ej D2 Dj).
      * intros k. unfold with_. destruct (Nat.eqb_spec k j), (Nat.eqb_spec k i); subst; auto; congruence.
      * intros k. rewrite Ho. simpl. unfold upd.
        destruct (Nat.eqb_spec k j), (Nat.eqb_spec k i); subst; auto; congruence.
    + intros x y H. rewrite Hh in H. destruct (Ow x y H) as (k & ok & F1 & F2).
      destruct (Nat.eq_dec k j) as [->|Hkj].
      * exists i. eexists. rewrite Ho, upd_other, upd_same by auto. split; [reflexivity|]. simpl. congruence.
      * exists k, ok. split; [|auto]. rewrite Ho, !upd_other; auto; intros ->; congruence.
  - destruct (swap_long_short s i j oi oj a Hne Ei Ej Hi Hj Di Dj) as (s1 & M & Hh & Ho).
    exists s1. split; [auto|]. split; [|auto]. apply inv_split. split.
    + pose proof (put_short _ _ i (short oj) lj I0 Hj Cj) as P1. simpl in P1.
      pose proof (put_long _ _ j (short oj) li a ba P1 Hj Ci Ba) as P2. simpl in P2.
      eapply inv0_ext; [apply P2| | |auto].
      * intros k ok Hk. unfold upd. destruct (Nat.eqb_spec k i) as [->|Hki].
        { intros [= <-]. simpl. discriminate. }
        intros E D2. apply Hki. apply (z_uniq _ _ I0 k i ok oi a E Ei D2 Di).
      * intros k. unfold with_. destruct (Nat.eqb_spec k j), (Nat.eqb_spec k i); subst; auto; congruence.
      * intros k. rewrite Ho. simpl. unfold upd.
        destruct (Nat.eqb_spec k j), (Nat.eqb_spec k i); subst; auto; congruence.
    + intros x y H. rewrite Hh in H. destruct (Ow x y H) as (k & ok & F1 & F2).
      destruct (Nat.eq_dec k i) as [->|Hki].
      * exists j. eexists. rewrite Ho, upd_other, upd_same by auto. split; [reflexivity|]. simpl. congruence.
      * exists k, ok. split; [|auto]. rewrite Ho, !upd_other; auto; intros ->; congruence.
  - destruct (swap_long_long s i j oi oj a b Hne Ei Ej Di Dj) as (s1 & M & Hh & Ho).
    exists s1. split; [auto|]. split; [|auto]. apply inv_split. split.
    + pose proof (put_short _ _ j (short oj) [] I0 Hj (covers_nil _)) as P1. simpl in P1.
      pose proof (put_long _ _ i (short oi) lj b bb P1 Hi Cj Bb) as P2. simpl in P2.
      pose proof (put_long _ _ j (short oj) li a ba (P2 ltac:(intros k ok Hk; unfold upd;
         destruct (Nat.eqb_spec k j) as [->|Hkj];
         [intros [= <-]; simpl; discriminate
         |intros E D2; apply Hkj; apply (z_uniq _ _ I0 k j ok oj b E Ej D2 Dj)])) Hj Ci Ba) as P3. simpl in P3.
      eapply inv0_ext; [apply P3| | |auto].
      * intros k ok Hk. unfold upd. destruct (Nat.eqb_spec k i) as [->|Hki].
        { intros [= <-]. simpl. intros [= ->].
          apply Hne. apply (z_uniq _ _ I0 i j oi oj a); auto. }
        destruct (Nat.eqb_spec k j); [congruence|].
        intros E D2. apply Hki. apply (z_uniq _ _ I0 k i ok oi a E Ei D2 Di).
      * intros k. unfold with_. destruct (Nat.eqb_spec k j), (Nat.eqb_spec k i); subst; auto; congruence.
      * intros k. rewrite Ho. simpl. unfold upd.
        destruct (Nat.eqb_spec k j), (Nat.eqb_spec k i); subst; auto; congruence.
    + intros x y H. rewrite Hh in H. destruct (Ow x y H) as (k & ok & F1 & F2).
      destruct (Nat.eq_dec k i) as [->|Hki]; [|destruct (Nat.eq_dec k j) as [->|Hkj]].
      * exists j. eexists. rewrite Ho, upd_same by auto. split; [reflexivity|]. simpl. congruence.
      * exists i. eexists. rewrite Ho, upd_other, upd_same by auto. split; [reflexivity|]. simpl. congruence.
      * exists k, ok. split; [|auto]. rewrite Ho, !upd_other; auto.
Qed.

(* --------------------------------------------------------------- operations *)
Lemma make_no : forall v s i n ok, inv v s -> v i = None -> granted N n ok = false ->
  construct N s i n ok = Ok (s, false) /\ negb (n <=? N) && ok = false.
Proof.
  intros v s i n ok I E G. unfold construct, fresh. rewrite (i_none _ _ I i E). simpl.
  unfold granted in G. destruct (n <=? N); simpl in *; [discriminate|]. rewrite G. auto.
Qed.
Lemma live_obj : forall v s i l, inv v s -> v i = Some l -> exists o, objs s i = Some o.
Proof. intros v s i l I E. destruct (shape v s i l I E) as (o & H & _). eauto. Qed.

Definition good (s : st) (o : op) (r : vectors * event) : Prop :=
  exists s', step N s o = Ok (s', snd r) /\ inv (fst r) s' /\
    List.length (heap s') = List.length (heap s) + (if big N o then 1 else 0).

Lemma step_ok : forall v s o r, inv v s -> allowed N v o = Some r -> good s o r.
Proof.
  intros v s o r I A. unfold good. destruct o as [i|i n ok|i n j ok|i n l ok|i j|i j|i n ok|i n l ok|i n j ok|i j|i k x|i k|i]; simpl in A |- *.
  - unfold make in A. destruct (v i) as [?|] eqn:Ev; [discriminate|].
    destruct (construct_ok v s i 0 true I Ev eq_refl) as (o & b & s1 & C & _ & _ & _ & _ & P & _ & H & _).
    unfold construct in C. simpl in C. unfold fresh in *. rewrite (i_none _ _ I i Ev) in *. simpl in *.
    injection C as <-. injection A as <-. simpl. eexists. split; [reflexivity|]. split; [exact P|]. simpl in *. lia.
  - unfold make in A. destruct (v i) as [?|] eqn:Ev; [discriminate|].
    destruct (granted N n ok) eqn:G.
    + destruct (construct_ok v s i n ok I Ev G) as (o & b & s1 & C & _ & _ & _ & _ & P & _ & H & _).
      rewrite C. injection A as <-. simpl. eexists. split; [reflexivity|]. rewrite firstn_unwritten. auto.
    + destruct (make_no v s i n ok I Ev G) as [C B]. rewrite C, B. injection A as <-. simpl.
      eexists. split; [reflexivity|]. split; auto. 
  - destruct (v j) as [lj|] eqn:Evj; [|discriminate]. destruct (Nat.leb_spec n (List.length lj)) as [Hn|]; [|discriminate].
    unfold make in A. destruct (v i) as [?|] eqn:Ev; [discriminate|].
    destruct (granted N n ok) eqn:G.
    + destruct (construct_ok v s i n ok I Ev G) as (o & b & s1 & C & S1 & Hs & Hb & B & P & Ot & H & _).
      assert (Hne : i <> j) by (intros ->; congruence).
      assert (Wj : with_ v i (Some (unwritten n)) j = Some lj).
      { unfold with_. destruct (Nat.eqb_spec j i); [congruence|auto]. }
      destruct (cells_of _ s1 j lj P Wj) as (oj & bj & Eoj & Bj & Cj).
      assert (Eo : objs s1 i = Some o) by (rewrite S1; simpl; apply upd_same).
      destruct (copy_into v s1 i n lj o b bj P Eo B Hb Cj Hn) as (s2 & M & P2 & H2).
      rewrite C. injection A as <-. simpl. unfold then_copy, get_obj. simpl. rewrite Eo, Eoj. simpl.
      unfold memcpy. rewrite Bj. simpl. rewrite M. simpl. eexists. split; [reflexivity|]. split; auto. lia.
    + destruct (make_no v s i n ok I Ev G) as [C B]. rewrite C, B. injection A as <-. simpl.
      eexists. split; [reflexivity|]. split; auto. 
  - destruct (Nat.leb_spec n (List.length l)) as [Hn|]; [|discriminate].
    unfold make in A. destruct (v i) as [?|] eqn:Ev; [discriminate|].
    destruct (granted N n ok) eqn:G.
    + destruct (construct_ok v s i n ok I Ev G) as (o & b & s1 & C & S1 & Hs & Hb & B & P & Ot & H & _).
      assert (Eo : objs s1 i = Some o) by (rewrite S1; simpl; apply upd_same).
      destruct (copy_into v s1 i n (known l) o b (map Some l) P Eo B Hb (covers_known l)) as (s2 & M & P2 & H2).
      { rewrite known_length. auto. }
      rewrite C. injection A as <-. simpl. unfold then_copy, get_obj. simpl. rewrite Eo. simpl.
      rewrite M. simpl. eexists. split; [reflexivity|]. split; auto. lia.
    + destruct (make_no v s i n ok I Ev G) as [C B]. rewrite C, B. injection A as <-. simpl.
      eexists. split; [reflexivity|]. split; auto. 
  - destruct (v i) as [?|] eqn:Ev; [discriminate|]. destruct (v j) as [l|] eqn:Evj; [|discriminate].
    injection A as <-. unfold fresh. rewrite (i_none _ _ I i Ev). simpl.
    assert (Hne : i <> j) by (intros ->; congruence).
    destruct (proj1 (inv_split v s) I) as [I0 Ow].
    pose proof (put_short v s i (repeat None N) [] I0 (repeat_length _ _) (covers_nil _)) as P.
    destruct (move_ok v (put_obj s i (mkobj (Short i) (repeat None N))) i j l (mkobj (Short i) (repeat None N)) Hne) as (s1 & M & P1 & H1); auto.
    + simpl. apply upd_same.
    + simpl. apply repeat_length.
    + eapply inv0_ext; [apply P|reflexivity| |reflexivity]. intros k. simpl. unfold upd. destruct (Nat.eqb k i); reflexivity.
    + simpl. intros a b H. destruct (Ow a b H) as (k & ok & F1 & F2).
      assert (k <> i) by (intros ->; rewrite (i_none _ _ I i Ev) in F1; discriminate).
      exists k, ok. rewrite upd_other; auto.
    + rewrite M. simpl. eexists. split; [reflexivity|]. split; auto. rewrite H1. simpl. lia.
  - destruct (v i) as [li|] eqn:Ev; [|discriminate]. destruct (v j) as [l|] eqn:Evj; [|discriminate].
    destruct (shape v s i li I Ev) as (oi & Ei & Hi & _).
    destruct (Nat.eqb_spec i j) as [->|Hne]; injection A as <-.
    + unfold get_obj. rewrite Ei. simpl. eexists. split; [reflexivity|]. split; auto.
    + unfold get_obj. rewrite Ei. simpl. rewrite (release v s i oi I Ei). simpl.
      destruct (proj1 (inv_split v s) I) as [I0 Ow].
      destruct (move_ok v (mkst (objs s) (rel s oi)) i j l oi Hne) as (s1 & M & P1 & H1); auto.
      * simpl. apply (put0 v s i (mkobj (Short i) (short oi)) (rel s oi) []); auto; simpl.
        { exists (short oi). split; [apply covers_nil|auto]. }
        intros k ok a Hk E1 D. split; [eapply (rel_other v s i oi k ok); eauto|discriminate].
      * simpl. intros a b H. apply (rel_owned v s i oi a b I Ei H).
      * rewrite M. simpl. eexists. split; [reflexivity|]. split; auto. rewrite H1. simpl. rewrite rel_len. lia.
  - unfold remake in A. destruct (v i) as [l0|] eqn:Ev; [|discriminate].
    destruct (granted N n ok) eqn:G; [|discriminate].
    destruct (init_ok v s i n ok l0 I Ev G) as (o & b & s1 & C & Eo & Hb & B & P & _ & _ & H).
    rewrite C. injection A as <-. simpl. eexists. split; [reflexivity|]. rewrite firstn_unwritten. auto.
  - destruct (Nat.leb_spec n (List.length l)) as [Hn|]; [|discriminate].
    unfold remake in A. destruct (v i) as [l0|] eqn:Ev; [|discriminate].
    destruct (granted N n ok) eqn:G; [|discriminate].
    destruct (init_ok v s i n ok l0 I Ev G) as (o & b & s1 & C & Eo & Hb & B & P & _ & _ & H).
    destruct (copy_into v s1 i n (known l) o b (map Some l) P Eo B Hb (covers_known l)) as (s2 & M & P2 & H2).
    { rewrite known_length. auto. }
    rewrite C. injection A as <-. simpl. unfold then_copy, get_obj. simpl. rewrite Eo. simpl.
    rewrite M. simpl. eexists. split; [reflexivity|]. split; auto. lia.
  - destruct (v j) as [lj|] eqn:Evj; [|discriminate].
    destruct (Nat.eqb_spec i j) as [|Hne]; [discriminate|]. simpl in A.
    destruct (Nat.leb_spec n (List.length lj)) as [Hn|]; [|discriminate].
    unfold remake in A. destruct (v i) as [l0|] eqn:Ev; [|discriminate].
    destruct (granted N n ok) eqn:G; [|discriminate].
    destruct (init_ok v s i n ok l0 I Ev G) as (o & b & s1 & C & Eo & Hb & B & P & Ot & Bl & H).
    destruct (cells_of v s j lj I Evj) as (oj & bj & Eoj & Bj & Cj).
    destruct (copy_into v s1 i n lj o b bj P Eo B Hb Cj Hn) as (s2 & M & P2 & H2).
    unfold get_obj. rewrite Eoj. simpl. rewrite C. injection A as <-. simpl. unfold then_copy. simpl. rewrite Eo. simpl.
    unfold memcpy. rewrite (Bl j oj bj) by auto. simpl. rewrite M. simpl.
    eexists. split; [reflexivity|]. split; auto. lia.
  - destruct (v i) as [li|] eqn:Ev; [|discriminate]. destruct (v j) as [lj|] eqn:Evj; [|discriminate].
    injection A as <-. destruct (swap_ok v s i j li lj I Ev Evj) as (s1 & M & P & H).
    rewrite M. simpl. eexists. split; [reflexivity|]. split; auto. rewrite H. lia.
  - destruct (v i) as [l|] eqn:Ev; [|discriminate]. destruct (Nat.ltb_spec k (List.length l)) as [Hk|]; [|discriminate].
    injection A as <-. destruct (cells_of v s i l I Ev) as (o & b & Eo & B & C).
    unfold get_obj. rewrite Eo. simpl. rewrite B. simpl.
    destruct (Nat.ltb_spec k (List.length b)) as [|Hb]; [|pose proof (proj1 C) as C1; unfold cell in *; lia].
    destruct (put_block v s i l (replace l k (Some x)) o b (setn b k (Some x)) I Ev Eo B) as (s1 & F1 & F2 & F3 & _).
    + apply setn_length.
    + apply covers_replace; auto.
    + rewrite F1. simpl. eexists. split; [reflexivity|]. split; auto. lia.
  - destruct (v i) as [l|] eqn:Ev; [|discriminate].
    destruct (nth_error l k) as [[x|]|] eqn:En; try discriminate.
    injection A as <-. destruct (cells_of v s i l I Ev) as (o & b & Eo & B & C).
    unfold get_obj. rewrite Eo. simpl. rewrite B. simpl. rewrite (proj2 C k x En).
    eexists. split; [reflexivity|]. simpl. split; auto.
  - destruct (v i) as [l|] eqn:Ev; [|discriminate]. injection A as <-.
    destruct (dtor_ok v s i l I Ev) as (s1 & M & P & H). rewrite M. simpl.
    eexists. split; [reflexivity|]. split; auto. lia.
Qed.

Lemma run_ok : forall ops v s v' es, inv v s -> history N ops v = Some (v', es) ->
  exists s', run N ops s = Ok (s', es) /\ inv v' s' /\
    List.length (heap s') = List.length (heap s) + List.length (filter (big N) ops).
Proof.
  induction ops as [|o ops IH]; intros v s v' es I H; simpl in *.
  - injection H as <- <-. exists s. split; auto.
  - destruct (allowed N v o) as [[v1 e]|] eqn:A; [|discriminate].
    destruct (history N ops v1) as [[v2 es2]|] eqn:Hh; [|discriminate]. injection H as <- <-.
    destruct (step_ok v s o (v1, e) I A) as (s1 & M & P & L). simpl in *.
    destruct (IH v1 s1 v2 es2 P Hh) as (s2 & M2 & P2 & L2).
    rewrite M. simpl. rewrite M2. simpl. exists s2. split; auto. split; auto.
    destruct (big N o); simpl; lia.
Qed.
End Inv.
