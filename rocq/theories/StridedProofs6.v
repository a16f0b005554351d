From Verif Require Import Base StridedModel StridedSpec StridedProofs StridedProofs2 StridedProofs3.
Open Scope Z_scope.

Lemma base_strided_frame f : writes_only_output (base_strided (leaf f)).
Proof.
  intros m dst ds srcs ss n. revert m dst srcs. induction n as [|n IH]; intros m dst srcs m' E a Ha.
  - cbn in E. injection E as <-. reflexivity.
  - cbn [base_strided] in E. destruct (leaf f m dst srcs) as [m1| | |] eqn:E1; try discriminate. cbn [bind] in E.
    rewrite (IH _ _ _ _ E a).
    + unfold leaf in E1. destruct (loads m srcs); try discriminate. cbn [bind] in E1. destruct (f a0); try discriminate. cbn [bind] in E1.
      unfold st in E1. destruct (m dst); [|discriminate]. injection E1 as <-. unfold upd.
      specialize (Ha 0 ltac:(lia)). unfold elem in Ha. destruct (Z.eqb_spec a dst); [lia|reflexivity].
    + intros i Hi. specialize (Ha (1 + i) ltac:(lia)). unfold elem in *. lia.
Qed.

Lemma holds_cons m s srcs t ss n x : holds m (s :: srcs) (t :: ss) n x ->
  holds m [s] [t] n (fun i => [hd 0 (x i)]) /\ holds m srcs ss n (fun i => tl (x i)) /\
  (forall i, 0 <= i < Z.of_nat n -> x i = hd 0 (x i) :: tl (x i)).
Proof.
  intros (L & H).
  assert (C : forall i, 0 <= i < Z.of_nat n -> exists y r, x i = y :: r /\ m (elem s t i) = Some y /\
    map (fun p => m (elem (fst p) (snd p) i)) (combine srcs ss) = map Some r).
  { intros i Hi. specialize (H i Hi). cbn in H. destruct (x i) as [|y r]; [discriminate|]. cbn in H. injection H as H1 H2. eauto. }
  split; [|split].
  - split; [reflexivity|]. intros i Hi. destruct (C i Hi) as (y & r & -> & E & _). cbn. rewrite E. reflexivity.
  - split; [cbn in L; lia|]. intros i Hi. destruct (C i Hi) as (y & r & -> & _ & E). exact E.
  - intros i Hi. destruct (C i Hi) as (y & r & -> & _). reflexivity.
Qed.
Lemma holds_cons_intro m s srcs t ss n x y : (forall i, 0 <= i < Z.of_nat n -> m (elem s t i) = Some (y i)) ->
  holds m srcs ss n x -> holds m (s :: srcs) (t :: ss) n (fun i => y i :: x i).
Proof.
  intros A (L & H). split; [cbn; lia|]. intros i Hi. cbn. rewrite A by exact Hi. f_equal. apply H, Hi.
Qed.
Lemma holds_frame m m' srcs ss n x : (forall s t i, In (s, t) (combine srcs ss) -> 0 <= i < Z.of_nat n -> m' (elem s t i) = m (elem s t i)) ->
  holds m srcs ss n x -> holds m' srcs ss n x.
Proof.
  intros F (L & H). split; [exact L|]. intros i Hi. rewrite <- (H i Hi). apply map_ext_in. intros (s & t) I. cbn. apply F; auto.
Qed.
Lemma buffers_ok_frame K m m' bufs : (forall a, m a <> None -> m' a <> None) -> buffers_ok K m bufs -> buffers_ok K m' bufs.
Proof.
  intros R. induction bufs as [|[b|] r IH]; cbn; auto. intros (V & D & A & O). split; [|auto]. intros i Hi. apply R, V, Hi.
Qed.

(** Filling the buffers from the first [n] elements of the sources. *)
Lemma fill_spec K n : (n <= K)%nat -> forall bufs m srcs ss x y,
  List.length bufs = List.length srcs -> buffers_ok K m bufs -> holds m srcs ss n x ->
  (forall s t i, In (s, t) (combine srcs ss) -> 0 <= i < Z.of_nat n -> ~ buf_cell K bufs (elem s t i)) ->
  (forall i, 0 <= i < Z.of_nat n -> conv_all bufs (x i) = Ok (y i)) ->
  exists m1, fill_bufs m bufs srcs ss n = Ok m1 /\ (forall a, ~ buf_cell K bufs a -> m1 a = m a) /\ (forall a, m a <> None -> m1 a <> None) /\
    holds m1 (buf_srcs bufs srcs) (buf_strides bufs ss) n y.
Proof.
  intros L. induction bufs as [|[b|] r IH]; intros m srcs ss x y LL OK Hx NS Hy.
  - destruct srcs; [|discriminate]. destruct ss; [|destruct Hx as (C & _); discriminate]. exists m. cbn.
    split; [reflexivity|]. split; [auto|]. split; [auto|]. split; [reflexivity|]. intros i Hi. specialize (Hy i Hi). cbn in Hy. injection Hy as Hy. rewrite <- Hy. reflexivity.
  - destruct srcs as [|s srcs]; [discriminate|]. destruct ss as [|t ss]; [destruct Hx as (C & _); discriminate|].
    cbn in OK. destruct OK as (V & D & A & OK). destruct (holds_cons _ _ _ _ _ _ _ Hx) as (H1 & H2 & XC).
    assert (Y : forall i, 0 <= i < Z.of_nat n -> exists w ws, y i = w :: ws /\ cb_conv b (hd 0 (x i)) = Ok w /\ conv_all r (tl (x i)) = Ok ws).
    { intros i Hi. specialize (Hy i Hi). rewrite (XC i Hi) in Hy. cbn [conv_all] in Hy.
      destruct (cb_conv b (hd 0 (x i))) as [w| | |]; try discriminate. cbn [bind] in Hy.
      destruct (conv_all r (tl (x i))) as [ws| | |]; try discriminate. cbn [bind] in Hy. injection Hy as Hy. eauto. }
    destruct (leafs_applies (cb_conv b) m (cb_addr b) (cb_stride b) [s] [t] n _ (valid_mono _ _ _ _ _ L V) (distinct_mono _ _ _ L D) H1) as (A1 & _).
    { apply apart1. intros i j Hi Hj E. apply (NS s t j); [left; reflexivity|exact Hj|]. exists b, i. split; [left; reflexivity|]. split; [lia|auto]. }
    destruct (A1 (fun i => hd 0 (y i))) as (m1 & E1 & St1).
    { intros i Hi. destruct (Y i Hi) as (w & ws & Yi & C & _). cbn. rewrite C, Yi. reflexivity. }
    destruct (stored_B (fun _ => False) _ _ _ _ _ _ St1) as (_ & _ & R1). destruct St1 as (P1 & Q1).
    assert (FR : forall a, ~ buf_cell K (Some b :: r) a -> m1 a = m a).
    { intros a Na. apply Q1. intros i Hi E. apply Na. exists b, i. split; [left; reflexivity|]. split; [lia|exact E]. }
    destruct (IH m1 srcs ss (fun i => tl (x i)) (fun i => tl (y i))) as (m2 & E2 & F2 & R2 & H3).
    + cbn in LL. lia.
    + apply (buffers_ok_frame K m); auto.
    + apply (holds_frame m); auto. intros s' t' i I Hi. apply FR. apply NS; [right; exact I|exact Hi].
    + intros s' t' i I Hi (b' & j & I' & Hj & E). apply (NS s' t' i); [right; exact I|exact Hi|]. exists b', j. split; [right; exact I'|auto].
    + intros i Hi. destruct (Y i Hi) as (w & ws & Yi & _ & C). rewrite C, Yi. reflexivity.
    + exists m2. cbn [fill_bufs buf_srcs buf_strides]. rewrite E1. cbn [bind]. split; [exact E2|]. split; [|split].
      * intros a Na. rewrite F2, FR; auto. intros (b' & j & I' & Hj & E). apply Na. exists b', j. split; [right; exact I'|auto].
      * auto.
      * destruct (holds_cons_intro m2 (cb_addr b) (buf_srcs r srcs) (cb_stride b) (buf_strides r ss) n (fun i => tl (y i)) (fun i => hd 0 (y i))) as (Hl & Hh).
        -- intros i Hi. rewrite F2; [apply P1, Hi|]. apply A. lia.
        -- exact H3.
        -- split; [exact Hl|]. intros i Hi. rewrite (Hh i Hi). destruct (Y i Hi) as (w & ws & Yi & _). rewrite Yi. reflexivity.
  - destruct srcs as [|s srcs]; [discriminate|]. destruct ss as [|t ss]; [destruct Hx as (C & _); discriminate|].
    cbn in OK. destruct (holds_cons _ _ _ _ _ _ _ Hx) as (H1 & H2 & XC).
    assert (Y : forall i, 0 <= i < Z.of_nat n -> exists ws, y i = hd 0 (x i) :: ws /\ conv_all r (tl (x i)) = Ok ws).
    { intros i Hi. specialize (Hy i Hi). rewrite (XC i Hi) in Hy. cbn [conv_all] in Hy.
      destruct (conv_all r (tl (x i))) as [ws| | |]; try discriminate. cbn [bind] in Hy. injection Hy as Hy. eauto. }
    assert (BC : forall a, buf_cell K r a <-> buf_cell K (None :: r) a).
    { intros a. split; intros (b' & j & I' & Hj & E); exists b', j; split; auto; [right; exact I'|destruct I'; [discriminate|assumption]]. }
    destruct (IH m srcs ss (fun i => tl (x i)) (fun i => tl (y i))) as (m2 & E2 & F2 & R2 & H3); auto.
    + intros s' t' i I Hi C. apply (NS s' t' i); [right; exact I|exact Hi|]. apply BC, C.
    + intros i Hi. destruct (Y i Hi) as (ws & Yi & C). rewrite C, Yi. reflexivity.
    + exists m2. cbn [fill_bufs buf_srcs buf_strides]. split; [exact E2|]. split; [|split].
      * intros a Na. apply F2. intros C. apply Na, BC, C.
      * exact R2.
      * destruct (holds_cons_intro m2 s (buf_srcs r srcs) t (buf_strides r ss) n (fun i => tl (y i)) (fun i => hd 0 (x i))) as (Hl & Hh).
        -- intros i Hi. rewrite F2; [|intros C; apply (NS s t i); [left; reflexivity|exact Hi|apply BC, C]].
           destruct (holds1 _ _ _ _ _ H1 i Hi) as (y0 & Ey & My). injection Ey as ->. exact My.
        -- exact H3.
        -- split; [exact Hl|]. intros i Hi. rewrite (Hh i Hi). destruct (Y i Hi) as (ws & Yi & _). rewrite Yi. reflexivity.
Qed.

Lemma buf_combine bufs srcs ss s t : In (s, t) (combine (buf_srcs bufs srcs) (buf_strides bufs ss)) ->
  In (s, t) (combine srcs ss) \/ exists b, In (Some b) bufs /\ s = cb_addr b /\ t = cb_stride b.
Proof.
  revert srcs ss. induction bufs as [|[b|] r IH]; intros [|s0 srcs] [|t0 ss]; cbn; auto; try tauto.
  - intros [E|I]; [injection E as <- <-; right; exists b; auto|]. destruct (IH _ _ I) as [J|(b' & J & E)]; [auto|right; exists b'; auto].
  - intros [E|I]; [auto|]. destruct (IH _ _ I) as [J|(b' & J & E)]; [auto|right; exists b'; auto].
Qed.

Lemma convert_small f child K bufs m dst ds srcs ss n x v :
  applies f child -> (n <= K)%nat -> List.length bufs = List.length srcs -> buffers_ok K m bufs ->
  valid m dst ds n -> distinct ds n -> holds m srcs ss n x ->
  (forall s t, In (s, t) (combine srcs ss) -> apart dst ds s t n) ->
  (forall s t i, In (s, t) (combine srcs ss) -> 0 <= i < Z.of_nat n -> ~ buf_cell K bufs (elem s t i)) ->
  (forall i, 0 <= i < Z.of_nat n -> ~ buf_cell K bufs (elem dst ds i)) ->
  (forall i, 0 <= i < Z.of_nat n -> convert_single f bufs (x i) = Ok (v i)) ->
  exists m', convert_strided K child bufs m dst ds srcs ss n = Ok m' /\
    (forall i, 0 <= i < Z.of_nat n -> m' (elem dst ds i) = Some (v i)) /\
    (forall a, ~ buf_cell K bufs a -> (forall i, 0 <= i < Z.of_nat n -> a <> elem dst ds i) -> m' a = m a).
Proof.
  intros HF L LL OK V D Hx A NS ND Hv. unfold convert_strided. destruct n as [|n0].
  { exists m. split; [reflexivity|]. split; [intros; lia|auto]. }
  set (n := S n0) in *. set (y := fun i => match conv_all bufs (x i) with Ok ys => ys | _ => [] end).
  assert (Hy : forall i, 0 <= i < Z.of_nat n -> conv_all bufs (x i) = Ok (y i)).
  { intros i Hi. specialize (Hv i Hi). unfold convert_single in Hv. unfold y. destruct (conv_all bufs (x i)); try discriminate. reflexivity. }
  destruct (fill_spec K n L bufs m srcs ss x y LL OK Hx NS Hy) as (m1 & E1 & F1 & R1 & H1).
  destruct (HF m1 dst ds (buf_srcs bufs srcs) (buf_strides bufs ss) n y) as (A1 & _); auto.
  { intros i Hi. apply R1, V, Hi. }
  { intros s t I. destruct (buf_combine _ _ _ _ _ I) as [J|(b & Ib & -> & ->)]; [apply A, J|].
    intros i j Hi Hj E. apply (ND i Hi). exists b, j. split; [exact Ib|]. split; [lia|exact E]. }
  destruct (A1 v) as (m2 & E2 & St2).
  { intros i Hi. specialize (Hv i Hi). unfold convert_single in Hv. rewrite (Hy i Hi) in Hv. exact Hv. }
  destruct (stored_B (fun _ => False) _ _ _ _ _ _ St2) as (_ & _ & R2). destruct St2 as (P2 & Q2).
  destruct (fill_spec K n L bufs m2 srcs ss x y LL) as (m3 & E3 & F3 & R3 & _); auto.
  { apply (buffers_ok_frame K m); auto. }
  { apply (holds_frame m); auto. intros s t i I Hi. rewrite Q2, F1; [reflexivity|apply NS; auto|].
    intros j Hj E. apply (A s t I j i); auto. }
  exists m3. unfold n. cbn [convert_loop]. fold n. replace (Nat.min n K) with n by lia. rewrite E1. cbn [bind]. rewrite E2. cbn [bind]. rewrite E3. cbn [bind].
  replace (n - n)%nat with 0%nat by lia. split; [destruct n0; reflexivity|]. split.
  - intros i Hi. rewrite F3 by (apply ND, Hi). apply P2, Hi.
  - intros a Na Ha. rewrite F3, Q2, F1; auto.
Qed.

Lemma fill_frame K n : (n <= K)%nat -> forall bufs m srcs ss m', fill_bufs m bufs srcs ss n = Ok m' ->
  forall a, ~ buf_cell K bufs a -> m' a = m a.
Proof.
  intros L. induction bufs as [|[b|] r IH]; intros m srcs ss m' E a Na; cbn [fill_bufs] in E.
  - injection E as <-. reflexivity.
  - destruct srcs as [|s srcs]; [injection E as <-; reflexivity|]. destruct ss as [|t ss]; [injection E as <-; reflexivity|].
    destruct (leafs (cb_conv b) m (cb_addr b) (cb_stride b) [s] [t] n) as [m1| | |] eqn:E1; try discriminate. cbn [bind] in E.
    rewrite (IH _ _ _ _ E a).
    + apply (base_strided_frame _ _ _ _ _ _ _ _ E1). intros i Hi Ea. apply Na. exists b, i. split; [left; reflexivity|]. split; [lia|exact Ea].
    + intros (b' & j & I & Hj & Ea). apply Na. exists b', j. split; [right; exact I|auto].
  - destruct srcs as [|s srcs]; [injection E as <-; reflexivity|]. destruct ss as [|t ss]; [injection E as <-; reflexivity|].
    apply (IH _ _ _ _ E). intros (b' & j & I & Hj & Ea). apply Na. exists b', j. split; [right; exact I|auto].
Qed.

(** However large the count, only the first [K] elements of dst are written. *)
Lemma convert_frame K child bufs dst ds srcs ss bstr fuel : writes_only_output child -> forall m bsrc count m',
  convert_loop K child bufs fuel m dst ds srcs ss bsrc bstr count = Ok m' ->
  forall a, ~ buf_cell K bufs a -> (forall i, 0 <= i < Z.of_nat (Nat.min count K) -> a <> elem dst ds i) -> m' a = m a.
Proof.
  intros W. induction fuel as [|fuel IH]; intros m bsrc count m' E a Na Ha.
  - destruct count; cbn in E; [injection E as <-; reflexivity|discriminate].
  - destruct count as [|c]; [cbn in E; injection E as <-; reflexivity|]. cbn [convert_loop] in E. set (n := Nat.min (S c) K) in *.
    destruct (fill_bufs m bufs srcs ss n) as [m1| | |] eqn:E1; try discriminate. cbn [bind] in E.
    destruct (child m1 dst ds bsrc bstr n) as [m2| | |] eqn:E2; try discriminate. cbn [bind] in E.
    destruct (fill_bufs m2 bufs srcs ss n) as [m3| | |] eqn:E3; try discriminate. cbn [bind] in E.
    rewrite (IH _ _ _ _ E a Na) by (intros i Hi; apply Ha; lia).
    rewrite (fill_frame K n ltac:(lia) _ _ _ _ _ E3 a Na). rewrite (W _ _ _ _ _ _ _ E2 a Ha). apply (fill_frame K n ltac:(lia) _ _ _ _ _ E1 a Na).
Qed.
