(* Proofs about multi_shortvector. *)
From Verif Require Import Base ShortVecModel ShortVecSpec ShortVecProofs.
Local Open Scope Z_scope.

Lemma offsets_ok : forall M n, 0 <= n -> Z.of_nat M * n < 2147483648 ->
  offsets M n = Ok (map (fun i => Z.of_nat i * n) (seq 0 M)).
Proof.
  induction M as [|M IH]; intros n Hn Hb; [reflexivity|].
  change (offsets (S M) n) with (do l <- offsets M n; do x <- chk32 (Z.of_nat M * n); Ok (l ++ [x])%list).
  rewrite IH by nia. cbn [bind]. unfold chk32, is_s32.
  assert (0 <= Z.of_nat M * n < 2147483648) by nia.
  destruct (Z.leb_spec (-2147483648) (Z.of_nat M * n)); [|lia].
  destruct (Z.ltb_spec (Z.of_nat M * n) 2147483648); [|lia]. cbn [bind andb].
  rewrite seq_S, map_app. reflexivity.
Qed.

Lemma never_back_cons : forall N n ns, never_back N (n :: ns) ->
  never_back N ns /\ (Z.of_nat N < n -> forall m, In m ns -> Z.of_nat N < m).
Proof.
  intros N n ns H. split.
  - intros i j a b Hij Ha Hb. apply (H (S i) (S j)); auto. lia.
  - intros Hn m Hm. apply In_nth_error in Hm. destruct Hm as [k Hk].
    apply (H O (S k) n m); auto. lia.
Qed.
Lemma never_back_intro : forall N n ns, never_back N ns ->
  (Z.of_nat N < n -> forall m, In m ns -> Z.of_nat N < m) -> never_back N (n :: ns).
Proof.
  intros N n ns H1 H2 i j a b Hij Ha Hb. destruct j as [|j]; [lia|]. destruct i as [|i]; simpl in *.
  - injection Ha as <-. intros Hn. apply H2; auto. eapply nth_error_In; eauto.
  - apply (H1 i j); auto. lia.
Qed.

Section Multi.
Variables N M : nat.
Hypothesis HN : (0 < N)%nat.
Hypothesis HM : (0 < M)%nat.
Hypothesis HNM : Z.of_nat N * Z.of_nat M < 2147483648.

(* the rows have n elements each (at least one), in one block *)
Definition width (n : Z) : Z := if n =? 0 then 1 else n.
Definition rows_of (w : where_) (n : Z) : list (where_ * Z) :=
  map (fun i => (w, Z.of_nat i * width n)) (seq 0 M).

Record minv (g : option (Z * grid)) (s : mst) : Prop := {
  y_static : List.length (m_static s) = (N * M)%nat;
  y_dead : forall a b, nth_error (m_heap s) a = Some (Some b) -> m_alloc s = Some a;
  y_none : g = None -> m_alloc s = None;
  y_some : forall n f, g = Some (n, f) -> 0 <= n /\
    exists w b, m_rows s = rows_of w n /\ m_block s w = Ok b /\
      Z.of_nat M * width n <= Z.of_nat (List.length b) /\
      (forall i j x, (i < M)%nat -> Z.of_nat j < n -> f i j = Some x ->
         nth_error b (Z.to_nat (Z.of_nat i * width n) + j) = Some (Some x)) /\
      ((n <= Z.of_nat N /\ w = Static /\ m_alloc s = None) \/
       (exists a, Z.of_nat N < n /\ w = Alloc a /\ m_alloc s = Some a))
}.

Lemma minv_empty : minv None (m_empty N M).
Proof.
  constructor; simpl; auto; try discriminate.
  - apply repeat_length.
  - intros [|a] b; discriminate.
Qed.

Definition large (g : option (Z * grid)) : Prop := exists n f, g = Some (n, f) /\ Z.of_nat N < n.

Lemma m_delete_ok : forall g s, minv g s ->
  exists h, m_delete s = Ok (mkm (m_rows s) (m_static s) (m_alloc s) h) /\
    (forall a b, nth_error h a = Some (Some b) -> False) /\ (m_alloc s <> None -> large g).
Proof.
  intros g s I. unfold m_delete. destruct (m_alloc s) as [a|] eqn:E.
  - destruct g as [[n f]|]; [|rewrite (y_none _ _ I eq_refl) in E; discriminate].
    destruct (y_some _ _ I n f eq_refl) as (Hn & w & b & R & B & L & C & [(_ & _ & F)|(a' & Hl & -> & F)]); [congruence|].
    rewrite E in F. injection F as <-. simpl in B.
    destruct (nth_error (m_heap s) a) as [[c|]|] eqn:Eh; try discriminate.
    exists (setn (m_heap s) a None). split; [reflexivity|]. split.
    + intros a2 b2 H. rewrite setn_nth in H. destruct (Nat.eqb_spec a2 a) as [->|Hne].
      * destruct (_ <? _)%nat; discriminate.
      * apply (y_dead _ _ I) in H. congruence.
    + intros _. exists n, f. auto.
  - exists (m_heap s). split; [destruct s; simpl in *; congruence|]. split; [|congruence].
    intros a b H. apply (y_dead _ _ I) in H. congruence.
Qed.

Lemma init_step : forall g s n, minv g s -> 0 <= n -> Z.of_nat M * n < 2147483648 ->
  (large g -> Z.of_nat N < n) ->
  exists s1, mstep N M s (MInit n true) = Ok (s1, Done) /\ minv (Some (n, fun _ _ => None)) s1.
Proof.
  intros g s n I Hn Hb Hl. destruct (m_delete_ok g s I) as (h & D & Hd & Ha).
  unfold mstep. rewrite D. simpl. unfold internal_init.
  destruct (Z.leb_spec n (Z.of_nat N)) as [Hs|Hs].
  - assert (Hw : 1 <= width n <= Z.of_nat N).
    { unfold width. destruct (Z.eqb_spec n 0); lia. }
    assert (HwM : Z.of_nat M * width n <= Z.of_nat N * Z.of_nat M) by nia.
    fold (width n). rewrite offsets_ok by lia. simpl.
    replace (forallb _ _) with true.
    2:{ symmetry. apply forallb_forall. intros x Hx. apply in_map_iff in Hx. destruct Hx as (i & <- & Hi).
        apply in_seq in Hi. apply andb_true_intro. split; apply Z.leb_le; [nia|].
        rewrite Nat2Z.inj_mul. nia. }
    simpl. eexists. split; [reflexivity|].
    assert (En : m_alloc s = None).
    { destruct (m_alloc s) as [a|] eqn:E; auto. exfalso.
      assert (large g) by (apply Ha; discriminate). specialize (Hl H). lia. }
    constructor; simpl.
    + apply (y_static _ _ I).
    + intros a b H. exfalso. eapply Hd, H.
    + discriminate.
    + intros n0 f [= <- <-]. split; auto. exists Static, (m_static s).
      split; [unfold rows_of; rewrite map_map; reflexivity|]. split; [reflexivity|].
      split; [rewrite (y_static _ _ I), Nat2Z.inj_mul; lia|]. split; [discriminate|auto].
  - assert (Hw : width n = n) by (unfold width; destruct (Z.eqb_spec n 0); lia).
    assert (Hp : 0 <= n * Z.of_nat M < 2147483648) by nia.
    unfold chk32, is_s32.
    destruct (Z.leb_spec (-2147483648) (n * Z.of_nat M)); [|lia].
    destruct (Z.ltb_spec (n * Z.of_nat M) 2147483648); [|lia]. simpl.
    rewrite offsets_ok by lia. simpl. eexists. split; [reflexivity|].
    assert (He : nth_error (h ++ [Some (repeat (@None Z) (Z.to_nat (n * Z.of_nat M)))])%list (List.length h)
                 = Some (Some (repeat None (Z.to_nat (n * Z.of_nat M))))).
    { rewrite nth_error_app2, Nat.sub_diag by lia. reflexivity. }
    constructor; simpl.
    + apply (y_static _ _ I).
    + intros a b Hx. destruct (Nat.ltb_spec a (List.length h)) as [Hlt|Hge].
      * rewrite nth_error_app1 in Hx by auto. exfalso. eapply Hd, Hx.
      * rewrite nth_error_app2 in Hx by auto. destruct (a - List.length h)%nat as [|k] eqn:Ek.
        { f_equal. lia. } simpl in Hx. destruct k; discriminate.
    + discriminate.
    + intros n0 f [= <- <-]. split; auto. exists (Alloc (List.length h)), (repeat None (Z.to_nat (n * Z.of_nat M))).
      split; [unfold rows_of; rewrite map_map, Hw; reflexivity|].
      split; [unfold m_block; simpl; rewrite He; reflexivity|].
      split; [rewrite repeat_length, Hw; lia|].
      split; [discriminate|]. right. eauto.
Qed.

(* after a large one, a small init leaves the deleted pointer behind *)
Lemma init_back : forall g s n, minv g s -> large g -> 0 <= n <= Z.of_nat N ->
  exists s1 a, mstep N M s (MInit n true) = Ok (s1, Done) /\ m_alloc s1 = Some a /\
    nth_error (m_heap s1) a = Some None.
Proof.
  intros g s n I (m & f & -> & Hm) Hn.
  destruct (y_some _ _ I m f eq_refl) as (H0 & w & b & R & B & L & C & [(Hs & _)|(a & _ & -> & E)]); [lia|].
  unfold mstep, m_delete. rewrite E. simpl in B.
  destruct (nth_error (m_heap s) a) as [[c|]|] eqn:Eh; try discriminate. simpl.
  unfold internal_init. destruct (Z.leb_spec n (Z.of_nat N)); [|lia].
  assert (Hw : 1 <= width n <= Z.of_nat N).
  { unfold width. destruct (Z.eqb_spec n 0); lia. }
  assert (HwM : Z.of_nat M * width n <= Z.of_nat N * Z.of_nat M) by nia.
  fold (width n). rewrite offsets_ok by lia. simpl.
  replace (forallb _ _) with true.
  2:{ symmetry. apply forallb_forall. intros x Hx. apply in_map_iff in Hx. destruct Hx as (i & <- & Hi).
      apply in_seq in Hi. apply andb_true_intro. split; apply Z.leb_le; [nia|].
      rewrite Nat2Z.inj_mul. nia. }
  simpl. eexists _, a. split; [reflexivity|]. simpl. split; [auto|].
  rewrite setn_nth, Nat.eqb_refl. destruct (Nat.ltb_spec a (List.length (m_heap s))); [reflexivity|].
  exfalso. assert (a < List.length (m_heap s))%nat; [|lia]. apply nth_error_Some. rewrite Eh. discriminate.
Qed.
Lemma dead_ub : forall ops s a, m_alloc s = Some a -> nth_error (m_heap s) a = Some None ->
  match ops with MSet _ _ _ :: _ | MGet _ _ :: _ => False | _ => True end ->
  mrun N M ops s = UB.
Proof.
  intros ops s a E H. destruct ops as [|[n ok|i j x|i j] ops]; simpl; try contradiction; intros _;
    unfold m_delete; rewrite E, H; reflexivity.
Qed.

Lemma rows_nth : forall w n i, (i < M)%nat ->
  nth_error (rows_of w n) i = Some (w, Z.of_nat i * width n).
Proof.
  intros w n i H. unfold rows_of.
  assert (E : nth_error (seq 0 M) i = Some i).
  { rewrite (nth_error_nth' _ O) by (rewrite seq_length; auto). rewrite seq_nth by auto. reflexivity. }
  rewrite (map_nth_error _ i (seq 0 M) E). reflexivity.
Qed.
Lemma width_ge : forall n, 0 <= n -> n <= width n /\ 0 < width n.
Proof. intros. unfold width. destruct (Z.eqb_spec n 0); lia. Qed.

Lemma place_ok : forall n f s i j, minv (Some (n, f)) s -> (i < M)%nat -> Z.of_nat j < n ->
  exists w b, m_rows s = rows_of w n /\ m_block s w = Ok b /\
    m_place s i j = Ok (w, (Z.to_nat (Z.of_nat i * width n) + j)%nat, b) /\
    (Z.to_nat (Z.of_nat i * width n) + j < List.length b)%nat.
Proof.
  intros n f s i j I Hi Hj.
  destruct (y_some _ _ I n f eq_refl) as (H0 & w & b & R & B & L & _).
  exists w, b. split; [auto|]. split; [auto|]. unfold m_place. rewrite R, (rows_nth w n i Hi), B. simpl.
  pose proof (width_ge n H0).
  assert (Z.to_nat (Z.of_nat i * width n) + j < List.length b)%nat.
  { apply Nat2Z.inj_lt. rewrite Nat2Z.inj_add, Z2Nat.id by nia. nia. }
  destruct (Nat.ltb_spec (Z.to_nat (Z.of_nat i * width n) + j) (List.length b)); [auto|lia].
Qed.

Lemma place_inj : forall n i j k l, 0 <= n -> Z.of_nat j < n -> Z.of_nat l < n ->
  (Z.to_nat (Z.of_nat i * width n) + j = Z.to_nat (Z.of_nat k * width n) + l)%nat -> i = k /\ j = l.
Proof.
  intros n i j k l H0 Hj Hl E. pose proof (width_ge n H0).
  assert (E' : Z.of_nat i * width n + Z.of_nat j = Z.of_nat k * width n + Z.of_nat l).
  { rewrite <- (Z2Nat.id (Z.of_nat i * width n)), <- (Z2Nat.id (Z.of_nat k * width n)) by nia. lia. }
  assert (i = k) by nia. subst. split; [auto|lia].
Qed.

Lemma mset_step : forall n f s i j x, minv (Some (n, f)) s -> (i < M)%nat -> Z.of_nat j < n ->
  exists s1, mstep N M s (MSet i j x) = Ok (s1, Done) /\
    minv (Some (n, fun a b => if Nat.eqb a i && Nat.eqb b j then Some x else f a b)) s1.
Proof.
  intros n f s i j x I Hi Hj. destruct (place_ok n f s i j I Hi Hj) as (w & b & R & B & P & K).
  unfold mstep. rewrite P. simpl. eexists. split; [reflexivity|].
  destruct (y_some _ _ I n f eq_refl) as (H0 & w' & b' & R' & B' & L & C & T).
  assert (w' = w).
  { rewrite R in R'. unfold rows_of in R'. destruct M; [lia|]. simpl in R'. injection R' as E _. auto. }
  subst w'. rewrite B in B'. injection B' as <-.
  set (k := (Z.to_nat (Z.of_nat i * width n) + j)%nat) in *.
  assert (Hm : forall c, c = setn b k (Some x) ->
     forall i0 j0 y, (i0 < M)%nat -> Z.of_nat j0 < n ->
       (if Nat.eqb i0 i && Nat.eqb j0 j then Some x else f i0 j0) = Some y ->
       nth_error c (Z.to_nat (Z.of_nat i0 * width n) + j0) = Some (Some y)).
  { intros c -> i0 j0 y Hi0 Hj0 E. rewrite setn_nth.
    destruct (Nat.eqb_spec (Z.to_nat (Z.of_nat i0 * width n) + j0) k) as [Ek|Nk].
    - destruct (place_inj n i0 j0 i j H0 Hj0 Hj Ek) as [-> ->]. rewrite !Nat.eqb_refl in E. simpl in E.
      match goal with |- (if ?c then _ else _) = _ => replace c with true by (symmetry; apply Nat.ltb_lt; exact K) end. injection E as <-. reflexivity.
    - apply C; auto. destruct (Nat.eqb_spec i0 i) as [->|], (Nat.eqb_spec j0 j) as [->|]; simpl in E; auto.
      exfalso. apply Nk. reflexivity. }
  destruct w as [|a]; simpl in *.
  - injection B as B. constructor; simpl.
    + rewrite <- (y_static _ _ I), <- B. apply setn_length.
    + apply (y_dead _ _ I).
    + discriminate.
    + intros n0 f0 [= <- <-]. split; auto. exists Static, (setn b k (Some x)).
      split; [auto|]. split; [reflexivity|]. split; [rewrite setn_length; auto|]. split; [|exact T].
      apply Hm. reflexivity.
  - destruct (nth_error (m_heap s) a) as [[c|]|] eqn:Eh; try discriminate. injection B as ->.
    assert (Ha : (a < List.length (m_heap s))%nat) by (apply nth_error_Some; rewrite Eh; discriminate).
    assert (Ea : m_alloc s = Some a) by (eapply (y_dead _ _ I); eauto).
    constructor; simpl.
    + apply (y_static _ _ I).
    + intros a2 b2 H. rewrite setn_nth in H. destruct (Nat.eqb_spec a2 a) as [->|]; auto.
      eapply (y_dead _ _ I); eauto.
    + discriminate.
    + intros n0 f0 [= <- <-]. split; auto. exists (Alloc a), (setn b k (Some x)).
      split; [auto|]. split.
      { unfold m_block. simpl. rewrite setn_nth, Nat.eqb_refl.
        destruct (Nat.ltb_spec a (List.length (m_heap s))); [reflexivity|lia]. }
      split; [rewrite setn_length; auto|]. split; [|exact T]. apply Hm. reflexivity.
Qed.

Lemma mget_step : forall n f s i j x, minv (Some (n, f)) s -> (i < M)%nat -> Z.of_nat j < n ->
  f i j = Some x -> mstep N M s (MGet i j) = Ok (s, Val x).
Proof.
  intros n f s i j x I Hi Hj E. destruct (place_ok n f s i j I Hi Hj) as (w & b & R & B & P & K).
  unfold mstep. rewrite P. simpl.
  destruct (y_some _ _ I n f eq_refl) as (H0 & w' & b' & R' & B' & L & C & T).
  assert (w' = w).
  { rewrite R in R'. unfold rows_of in R'. destruct M; [lia|]. simpl in R'. injection R' as E' _. auto. }
  subst w'. rewrite B in B'. injection B' as <-. rewrite (C i j x Hi Hj E). reflexivity.
Qed.

Definition fits (ns : list Z) : Prop := forall n, In n ns -> Z.of_nat M * n < 2147483648.

Theorem multi_ok : forall ops g s es, minv g s -> mhistory M ops g = Some es ->
  never_back N (sizes ops) -> fits (sizes ops) -> (large g -> forall m, In m (sizes ops) -> Z.of_nat N < m) ->
  exists s', mrun N M ops s = Ok (s', es) /\ forall a b, nth_error (m_heap s') a = Some (Some b) -> False.
Proof.
  induction ops as [|o ops IH]; intros g s es I H NB F L.
  - simpl in *. injection H as <-. destruct (m_delete_ok g s I) as (h & -> & Hd & _). simpl. eauto.
  - simpl in H. destruct (mallowed M g o) as [[g1 e]|] eqn:A; [|discriminate].
    destruct (mhistory M ops g1) as [es'|] eqn:Hh; [|discriminate]. injection H as <-.
    assert (S1 : exists s1, mstep N M s o = Ok (s1, e) /\ minv g1 s1 /\
       never_back N (sizes ops) /\ fits (sizes ops) /\ (large g1 -> forall m, In m (sizes ops) -> Z.of_nat N < m)).
    { destruct o as [n ok|i j x|i j]; simpl in A.
      - destruct (Z.leb_spec 0 n); simpl in A; [|discriminate]. destruct ok; [|discriminate]. injection A as <- <-.
        simpl in NB, F, L. destruct (never_back_cons _ _ _ NB) as [NB1 NB2].
        assert (HnM : Z.of_nat M * n < 2147483648) by (apply F; simpl; auto).
        destruct (init_step g s n I) as (s1 & M1 & P1); [assumption|assumption| |].
        { intros Hl. apply L; simpl; auto. }
        exists s1. split; [auto|]. split; [auto|]. split; [auto|]. split.
        { intros m Hm. apply F. simpl. auto. }
        intros (m & f & [= <- _] & Hm). auto.
      - destruct g as [[n f]|]; [|discriminate]. destruct (Nat.ltb_spec i M); [|discriminate].
        destruct (Z.ltb_spec (Z.of_nat j) n); [|discriminate]. simpl in A. injection A as <- <-.
        destruct (mset_step n f s i j x I) as (s1 & M1 & P1); auto.
        exists s1. split; [auto|]. split; [auto|]. split; [auto|]. split; [auto|].
        intros (m & f' & [= <- _] & Hm). apply L. exists n, f. auto.
      - destruct g as [[n f]|]; [|discriminate]. destruct (Nat.ltb_spec i M); [|discriminate].
        destruct (Z.ltb_spec (Z.of_nat j) n); [|discriminate]. simpl in A.
        destruct (f i j) as [x|] eqn:Ef; [|discriminate]. injection A as <- <-.
        exists s. split; [apply (mget_step n f s i j x I); auto|]. auto. }
    destruct S1 as (s1 & M1 & P1 & NB1 & F1 & L1).
    destruct (IH g1 s1 es' P1 Hh NB1 F1 L1) as (s2 & M2 & D2).
    cbn [mrun]. rewrite M1. cbn [bind fst snd]. rewrite M2. simpl. eauto.
Qed.

Definition inits (ns : list Z) : list mop := map (fun n => MInit n true) ns.
Lemma sizes_inits : forall ns, sizes (inits ns) = ns.
Proof. induction ns; simpl; congruence. Qed.

Lemma multi_inits : forall ns g s, minv g s -> (forall n, In n ns -> 0 <= n) -> fits ns ->
  (never_back N ns /\ (large g -> forall m, In m ns -> Z.of_nat N < m) ->
     exists r, mrun N M (inits ns) s = Ok r) /\
  (~ (never_back N ns /\ (large g -> forall m, In m ns -> Z.of_nat N < m)) ->
     mrun N M (inits ns) s = UB).
Proof.
  induction ns as [|n ns IH]; intros g s I H0 F.
  - split.
    + intros _. simpl. destruct (m_delete_ok g s I) as (h & -> & _). simpl. eauto.
    + intros H. exfalso. apply H. split; [|intros _ m []].
      intros i j a b Hij Ha. destruct i; discriminate.
  - assert (Dec : (large g -> Z.of_nat N < n) \/ (large g /\ n <= Z.of_nat N)).
    { destruct (Z.le_gt_cases n (Z.of_nat N)); [|left; lia].
      destruct g as [[m f]|]; [|left; intros (? & ? & ? & _); discriminate].
      destruct (Z.le_gt_cases m (Z.of_nat N)).
      - left. intros (? & ? & [= <- <-] & ?). lia.
      - right. split; auto. exists m, f. split; [reflexivity|lia]. }
    assert (Hn : 0 <= n) by (apply H0; simpl; auto).
    destruct Dec as [Hg|[Hg Hs]].
    + destruct (init_step g s n I Hn) as (s1 & M1 & P1); auto; [apply F; simpl; auto|].
      assert (R : mrun N M (inits (n :: ns)) s = do r' <- mrun N M (inits ns) s1; Ok (fst r', Done :: snd r')).
      { cbn [inits map mrun]. rewrite M1. reflexivity. }
      destruct (IH _ s1 P1) as [IH1 IH2].
      { intros m Hm. apply H0. simpl. auto. } { intros m Hm. apply F. simpl. auto. }
      rewrite R. split.
      * intros [NB L]. destruct (never_back_cons _ _ _ NB) as [NB1 NB2].
        destruct IH1 as [r Hr].
        { split; auto. intros (m & f & [= <- _] & Hm). auto. }
        rewrite Hr. simpl. eauto.
      * intros H. rewrite IH2; [reflexivity|]. intros [NB L]. apply H. split.
        { apply never_back_intro; auto. intros Hb. apply L. exists n, (fun _ _ => None). auto. }
        intros Hl m [<-|Hm]; auto. apply L; auto. exists n, (fun _ _ => None). auto.
    + split.
      * intros [_ L]. specialize (L Hg n (or_introl eq_refl)). lia.
      * intros _. destruct (init_back g s n I Hg (conj Hn Hs)) as (s1 & a & M1 & E1 & E2).
        cbn [inits map mrun]. rewrite M1. cbn [bind fst snd].
        rewrite (dead_ub (map (fun n0 => MInit n0 true) ns) s1 a E1 E2); [reflexivity|].
        destruct ns; simpl; auto.
Qed.
End Multi.
