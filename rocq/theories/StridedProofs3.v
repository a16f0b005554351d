From Verif Require Import Base StridedModel StridedSpec StridedProofs StridedProofs2.
Open Scope Z_scope.

Lemma bind_assoc {A C D} (o : outcome A) (k1 : A -> outcome C) (k2 : C -> outcome D) :
  bind (bind o k1) k2 = bind o (fun a => bind (k1 a) k2).
Proof. destruct o; reflexivity. Qed.

Lemma appliedB_ext (B : Z -> Prop) f f' m dst ds n x x' o :
  (forall i, 0 <= i < Z.of_nat n -> f (x i) = f' (x' i)) -> appliedB B f m dst ds n x o -> appliedB B f' m dst ds n x' o.
Proof.
  intros H (A1 & A2). split.
  - intros v Hv. apply A1. intros i Hi. rewrite H by exact Hi. apply Hv, Hi.
  - intros T (i & e & Hi & E). destruct A2 as (j & e' & Hj & E' & Eo).
    + intros j Hj. rewrite H by exact Hj. apply T, Hj.
    + exists i, e. rewrite H by exact Hi. auto.
    + exists j, e'. rewrite <- H by exact Hj. auto.
Qed.
Lemma applied_ext f f' m dst ds n x x' o :
  (forall i, 0 <= i < Z.of_nat n -> f (x i) = f' (x' i)) -> applied f m dst ds n x o -> applied f' m dst ds n x' o.
Proof.
  intros H (A1 & A2). split.
  - intros v Hv. apply A1. intros i Hi. rewrite H by exact Hi. apply Hv, Hi.
  - intros T (i & e & Hi & E). destruct A2 as (j & e' & Hj & E' & Eo).
    + intros j Hj. rewrite H by exact Hj. apply T, Hj.
    + exists i, e. rewrite H by exact Hi. auto.
    + exists j, e'. rewrite <- H by exact Hj. auto.
Qed.
Lemma appliedB_zero (B : Z -> Prop) f m dst ds x : appliedB B f m dst ds 0 x (Ok m).
Proof.
  split; [intros v _; exists m; split; [reflexivity|]; split; [intros; lia|]; auto|intros _ (i & _ & Hi & _); lia].
Qed.

Lemma any_missing_spec m p (b : Z -> Z) n : (forall i, 0 <= i < Z.of_nat n -> m (p + i) = Some (b i)) ->
  (exists i, 0 <= i < Z.of_nat n /\ b i <> 0) /\ any_missing m p n = Ok true \/
  (forall i, 0 <= i < Z.of_nat n -> b i = 0) /\ any_missing m p n = Ok false.
Proof.
  revert p b. induction n as [|n IH]; intros p b H; [right; split; [intros; lia|reflexivity]|].
  cbn [any_missing]. unfold ld. pose proof (H 0 ltac:(lia)) as H0. rewrite Z.add_0_r in H0. rewrite H0. cbn [bind].
  destruct (Z.eqb_spec (b 0) 0) as [E|E].
  - destruct (IH (p + 1) (fun i => b (1 + i))) as [((i & Hi & Bi) & A)|(Al & A)].
    + intros i Hi. rewrite <- (H (1 + i)) by lia. f_equal. lia.
    + left. split; [exists (1 + i); split; [lia|exact Bi]|exact A].
    + right. split; [|exact A]. intros i Hi. destruct (Z.eq_dec i 0) as [->|]; [exact E|].
      replace i with (1 + (i - 1)) by lia. apply Al. lia.
  - left. split; [exists 0; split; [lia|exact E]|reflexivity].
Qed.
Lemma memchr_spec m p c (b : Z -> Z) n : (forall i, 0 <= i < Z.of_nat n -> m (p + i) = Some (b i)) ->
  (exists i, 0 <= i < Z.of_nat n /\ b i = c /\ (forall j, 0 <= j < i -> b j <> c) /\ memchr m p c n = Ok (Some (p + i))) \/
  (forall i, 0 <= i < Z.of_nat n -> b i <> c) /\ memchr m p c n = Ok None.
Proof.
  revert p b. induction n as [|n IH]; intros p b H; [right; split; [intros; lia|reflexivity]|].
  cbn [memchr]. unfold ld. pose proof (H 0 ltac:(lia)) as H0. rewrite Z.add_0_r in H0. rewrite H0. cbn [bind].
  destruct (Z.eqb_spec (b 0) c) as [E|E].
  - left. exists 0. rewrite Z.add_0_r. split; [lia|]. split; [exact E|]. split; [intros; lia|reflexivity].
  - destruct (IH (p + 1) (fun i => b (1 + i))) as [(i & Hi & Bi & F & A)|(Al & A)].
    + intros i Hi. rewrite <- (H (1 + i)) by lia. f_equal. lia.
    + left. exists (1 + i). split; [lia|]. split; [exact Bi|]. split.
      * intros j Hj. destruct (Z.eq_dec j 0) as [->|]; [exact E|]. replace j with (1 + (j - 1)) by lia. apply F. lia.
      * rewrite A. do 2 f_equal. lia.
    + right. split; [|exact A]. intros i Hi. destruct (Z.eq_dec i 0) as [->|]; [exact E|].
      replace i with (1 + (i - 1)) by lia. apply Al. lia.
Qed.

Definition flag (na : Z -> bool) (xs : list Z) : Z := match xs with y :: _ => if na y then 1 else 0 | [] => 0 end.

(** The flags of a chunk. *)
Lemma flags_stored na is_na K mis M src ss n x :
  applies (on1 (na_flag na)) is_na -> (n <= K)%nat -> valid M mis 1 K -> holds M [src] [ss] n x ->
  (forall i, 0 <= i < Z.of_nat n -> ~ bufset mis 1 K (elem src ss i)) ->
  exists m1, is_na M mis 1 [src] [ss] n = Ok m1 /\ stored M m1 mis 1 n (fun i => flag na (x i)).
Proof.
  intros HN L VB Hx NS. destruct (HN M mis 1 [src] [ss] n x) as (A & _).
  - eapply valid_mono; [exact L|exact VB].
  - left. lia.
  - exact Hx.
  - apply apart1. intros i j Hi Hj E. apply (NS j Hj). exists i. split; [lia|auto].
  - apply A. intros i Hi. destruct (holds1 _ _ _ _ _ Hx i Hi) as (y & -> & _). reflexivity.
Qed.

Lemma storedB_trans (B : Z -> Prop) m m1 m2 dst ds n v :
  (forall a, ~ B a -> m1 a = m a) -> (forall a, m a <> None -> m1 a <> None) ->
  storedB B m1 m2 dst ds n v -> storedB B m m2 dst ds n v.
Proof.
  intros H R (P & Q & S). split; [exact P|]. split; [|auto]. intros a Na Ha. rewrite Q by auto. apply H, Na.
Qed.
Lemma appliedB_trans (B : Z -> Prop) f m m1 dst ds n x o :
  (forall a, ~ B a -> m1 a = m a) -> (forall a, m a <> None -> m1 a <> None) ->
  appliedB B f m1 dst ds n x o -> appliedB B f m dst ds n x o.
Proof.
  intros H R (A1 & A2). split; [|exact A2]. intros v Hv. destruct (A1 v Hv) as (m2 & E & S). exists m2. split; [exact E|].
  eapply storedB_trans; eauto.
Qed.

Section Option.
  Variables (na : Z -> bool) (g : Z -> outcome Z) (is_na assign : strided_t) (K : nat) (mis : Z).
  Hypotheses (HN : applies (on1 (na_flag na)) is_na) (HG : applies (on1 g) assign).
  Let B := bufset mis 1 K.

  Lemma flags_frame M m1 n v : (n <= K)%nat -> stored M m1 mis 1 n v ->
    (forall a, ~ B a -> m1 a = M a) /\ (forall a, M a <> None -> m1 a <> None).
  Proof.
    intros L S. destruct (stored_B (fun _ => False) _ _ _ _ _ _ S) as (_ & _ & R). split; [|exact R].
    intros a Na. apply S. intros i Hi E. apply Na. exists i. split; [lia|exact E].
  Qed.

  Lemma o2v_step M dst ds src ss n x :
    (n <= K)%nat -> valid M mis 1 K -> valid M dst ds n -> distinct ds n -> holds M [src] [ss] n x ->
    apart dst ds src ss n ->
    (forall i, 0 <= i < Z.of_nat n -> ~ B (elem dst ds i)) -> (forall i, 0 <= i < Z.of_nat n -> ~ B (elem src ss i)) ->
    appliedB B (on1 (o2v_single na g)) M dst ds n x
      (do m <- is_na M mis 1 [src] [ss] n; do b <- any_missing m mis n;
       if (b : bool) then Throw "overflow_error" else assign m dst ds [src] [ss] n).
  Proof.
    intros L VB V D Hx A ND NS. pose proof (holds1 _ _ _ _ _ Hx) as X.
    destruct (flags_stored na is_na K mis M src ss n x HN L VB Hx NS) as (m1 & E1 & St1). rewrite E1. cbn [bind].
    destruct (flags_frame M m1 n _ L St1) as (Fr & R).
    destruct (any_missing_spec m1 mis (fun i => flag na (x i)) n) as [((i & Hi & Bi) & Am)|(Al & Am)].
    { intros i Hi. destruct St1 as (P & _). specialize (P i Hi). unfold elem in P. rewrite Z.mul_1_r in P. exact P. }
    - rewrite Am. cbn [bind]. destruct (X i Hi) as (y & Xi & _). assert (N : na y = true) by (unfold flag in Bi; rewrite Xi in Bi; destruct (na y); congruence).
      split.
      + intros v Hv. specialize (Hv i Hi). unfold on1, o2v_single in Hv. rewrite Xi, N in Hv. discriminate.
      + intros _ _. exists i, "overflow_error"%string. split; [exact Hi|]. split; [|reflexivity]. unfold on1, o2v_single. rewrite Xi, N. reflexivity.
    - rewrite Am. cbn [bind]. apply (appliedB_trans _ _ _ m1); [exact Fr|exact R|].
      apply (appliedB_ext B (on1 g) _ m1 dst ds n x x).
      + intros i Hi. destruct (X i Hi) as (y & Xi & _). specialize (Al i Hi). unfold flag, on1, o2v_single in *. rewrite Xi in *. destruct (na y); [discriminate|reflexivity].
      + apply applied_B. apply HG; auto.
        * intros i Hi. apply R, V, Hi.
        * split; [reflexivity|]. intros i Hi. destruct Hx as (_ & Hx). rewrite <- (Hx i Hi). cbn. rewrite Fr by (apply NS, Hi). reflexivity.
        * apply apart1. exact A.
  Qed.

  Lemma o2v_loop_spec fuel : forall M dst ds src ss count x,
    (count <= fuel)%nat -> (1 <= K)%nat -> valid M mis 1 K ->
    valid M dst ds count -> distinct ds count -> holds M [src] [ss] count x -> apart dst ds src ss count ->
    (forall i, 0 <= i < Z.of_nat count -> ~ B (elem dst ds i)) -> (forall i, 0 <= i < Z.of_nat count -> ~ B (elem src ss i)) ->
    appliedB B (on1 (o2v_single na g)) M dst ds count x (o2v_loop K is_na assign mis fuel M dst ds src ss count).
  Proof.
    induction fuel as [|fuel IH]; intros M dst ds src ss count x L K1 VB V D Hx A ND NS.
    - assert (count = 0%nat) by lia. subst count. apply appliedB_zero.
    - destruct count as [|c]; [apply appliedB_zero|]. cbn [o2v_loop]. set (n1 := Nat.min (S c) K). set (n2 := (S c - n1)%nat).
      assert (N : (S c = n1 + n2)%nat) by lia. assert (N1 : (n1 <= S c)%nat) by lia.
      match goal with |- appliedB _ _ _ _ _ _ _ ?o => assert (EO : o =
        bind (do m <- is_na M mis 1 [src] [ss] n1; do b <- any_missing m mis n1;
              if (b : bool) then Throw "overflow_error" else assign m dst ds [src] [ss] n1)
             (fun m => o2v_loop K is_na assign mis fuel m (dst + Z.of_nat n1 * ds) ds (src + Z.of_nat n1 * ss) ss n2)) end.
      { destruct (is_na M mis 1 [src] [ss] n1); cbn [bind]; auto. destruct (any_missing a mis n1) as [[]| | |]; reflexivity. }
      rewrite EO. clear EO. rewrite N at 1. apply chain.
      + rewrite <- N. exact D.
      + intros i Hi. apply ND. lia.
      + apply o2v_step; auto; try lia; unfold n1.
        * eapply valid_mono; [exact N1|exact V].
        * eapply distinct_mono; [exact N1|exact D].
        * eapply holds_mono; [exact N1|exact Hx].
        * intros i j Hi Hj. apply A; lia.
        * intros i Hi. apply ND. lia.
        * intros i Hi. apply NS. lia.
      + intros m1 E1 (P1 & Q1 & R1). apply IH; auto; try lia.
        * intros i Hi. apply R1, VB, Hi.
        * intros i Hi. apply R1. rewrite elem_shift. apply V. lia.
        * eapply distinct_mono; [|exact D]. lia.
        * split; [reflexivity|]. intros i Hi. destruct Hx as (_ & Hx). rewrite <- (Hx (Z.of_nat n1 + i)) by lia. cbn [map combine fst snd].
          rewrite elem_shift. rewrite Q1; [reflexivity| |].
          -- apply NS. lia.
          -- intros j Hj E. apply (A j (Z.of_nat n1 + i)); [lia|lia|]. auto.
        * intros i j Hi Hj. rewrite !elem_shift. apply A; lia.
        * intros i Hi. rewrite elem_shift. apply ND. lia.
        * intros i Hi. rewrite elem_shift. apply NS. lia.
  Qed.

  Lemma o2v_strided_applied junk m dst ds src ss n x :
    (1 <= K)%nat -> (forall i, 0 <= i < Z.of_nat K -> m (mis + i) = None) ->
    valid m dst ds n -> distinct ds n -> holds m [src] [ss] n x -> apart dst ds src ss n ->
    applied (on1 (o2v_single na g)) m dst ds n x (o2v_strided K is_na assign mis junk m dst ds [src] [ss] n).
  Proof.
    intros K1 Fr V D Hx A. pose proof (holds1 _ _ _ _ _ Hx) as X.
    assert (Fr' : forall i, 0 <= i < Z.of_nat K -> m (elem mis 1 i) = None) by (intros i Hi; unfold elem; rewrite Z.mul_1_r; apply Fr, Hi).
    assert (ND : forall i, 0 <= i < Z.of_nat n -> ~ B (elem dst ds i)).
    { intros i Hi (j & Hj & E). apply (V i Hi). rewrite E. apply Fr', Hj. }
    assert (NS : forall i, 0 <= i < Z.of_nat n -> ~ B (elem src ss i)).
    { intros i Hi (j & Hj & E). destruct (X i Hi) as (y & _ & Y). rewrite E, Fr' in Y by exact Hj. discriminate. }
    unfold o2v_strided. apply unbuffer with (junk := junk); auto. apply o2v_loop_spec; auto; try lia.
    - apply alloc_valid.
    - intros i Hi. rewrite alloc_other by (apply ND, Hi). apply V, Hi.
    - split; [reflexivity|]. intros i Hi. destruct Hx as (_ & Hx). rewrite <- (Hx i Hi). cbn [map combine fst snd]. rewrite alloc_other by (apply NS, Hi). reflexivity.
  Qed.
End Option.
