From Verif Require Import Base StridedModel StridedSpec StridedProofs.
Open Scope Z_scope.

Lemma leafs_applies f : applies (on1 f) (leafs f).
Proof. exact (base_strided_applies (on1 f)). Qed.

Lemma ok_or_throw (h : Z -> outcome Z) n :
  (forall i, 0 <= i < Z.of_nat n -> (exists v, h i = Ok v) \/ (exists e, h i = Throw e)) ->
  (forall i, 0 <= i < Z.of_nat n -> exists v, h i = Ok v) \/ (exists i e, 0 <= i < Z.of_nat n /\ h i = Throw e).
Proof.
  intros T. assert (G : forall k, (k <= n)%nat -> (forall j, 0 <= j < Z.of_nat k -> exists v, h j = Ok v) \/ (exists j e, 0 <= j < Z.of_nat k /\ h j = Throw e)).
  { induction k as [|k IH]; intros L; [left; intros; lia|].
    destruct (IH ltac:(lia)) as [O|(j & e & Hj & E)].
    - destruct (T (Z.of_nat k) ltac:(lia)) as [(v & E)|(e & E)].
      + left. intros j Hj. destruct (Z.eq_dec j (Z.of_nat k)) as [->|]; eauto. apply O. lia.
      + right. exists (Z.of_nat k), e. split; [lia|exact E].
    - right. exists j, e. split; [lia|exact E]. }
  exact (G n (Nat.le_refl _)).
Qed.

Definition bufset (buf bs : Z) (K : nat) (a : Z) : Prop := exists i, 0 <= i < Z.of_nat K /\ a = elem buf bs i.
Lemma in_buf_iff buf bs K a : in_buf buf bs K a = true <-> bufset buf bs K a.
Proof.
  unfold in_buf, bufset, elem. rewrite existsb_exists. split.
  - intros (i & I & E). apply in_seq in I. exists (Z.of_nat i). lia.
  - intros (i & Hi & E). exists (Z.to_nat i). rewrite in_seq. rewrite Z2Nat.id by lia. split; [lia|]. apply Z.eqb_eq. exact E.
Qed.

(** one source *)
Lemma holds1 m src ss n x : holds m [src] [ss] n x -> forall i, 0 <= i < Z.of_nat n -> exists y, x i = [y] /\ m (elem src ss i) = Some y.
Proof.
  intros (_ & H) i Hi. specialize (H i Hi). cbn in H. destruct (x i) as [|y [|]]; cbn in H; try discriminate.
  injection H as H. eauto.
Qed.
Lemma holds1_intro m src ss n y : (forall i, 0 <= i < Z.of_nat n -> m (elem src ss i) = Some (y i)) -> holds m [src] [ss] n (fun i => [y i]).
Proof. intros H. split; [reflexivity|]. intros i Hi. cbn. rewrite H by exact Hi. reflexivity. Qed.
Lemma holds_mono m srcs ss n n' x : (n' <= n)%nat -> holds m srcs ss n x -> holds m srcs ss n' x.
Proof. intros L (A & H). split; [exact A|]. intros i Hi. apply H. lia. Qed.
Lemma valid_mono m b s n n' : (n' <= n)%nat -> valid m b s n -> valid m b s n'.
Proof. intros L V i Hi. apply V. lia. Qed.
Lemma distinct_mono s n n' : (n' <= n)%nat -> distinct s n -> distinct s n'.
Proof. intros L [D|D]; [left|right]; lia. Qed.
Lemma apart1 dst ds src ss n : apart dst ds src ss n -> forall s t, In (s, t) (combine [src] [ss]) -> apart dst ds s t n.
Proof. intros A s t [E|[]]. injection E as <- <-. exact A. Qed.

Lemma valid_shift m b s n1 n : valid m b s (n1 + n) -> valid m (b + Z.of_nat n1 * s) s n.
Proof. intros V i Hi. specialize (V (Z.of_nat n1 + i) ltac:(lia)). unfold elem in *. replace (b + Z.of_nat n1 * s + i * s) with (b + (Z.of_nat n1 + i) * s) by lia. exact V. Qed.
Lemma elem_shift b s n1 i : elem (b + Z.of_nat n1 * s) s i = elem b s (Z.of_nat n1 + i).
Proof. unfold elem. lia. Qed.

Section Compose.
  Variables (f g : Z -> outcome Z) (first second : strided_t) (K : nat) (buf bs : Z).
  Hypotheses (HF : applies (on1 f) first) (HG : applies (on1 g) second) (BD : distinct bs K).
  Let h := on1 (fun x => do y <- f x; g y).
  Let B := bufset buf bs K.

  Lemma compose_step M dst ds src ss n x :
    (n <= K)%nat -> valid M buf bs K -> valid M dst ds n -> distinct ds n -> holds M [src] [ss] n x ->
    apart dst ds src ss n ->
    (forall i, 0 <= i < Z.of_nat n -> ~ B (elem dst ds i)) -> (forall i, 0 <= i < Z.of_nat n -> ~ B (elem src ss i)) ->
    appliedB B h M dst ds n x (do m <- first M buf bs [src] [ss] n; second m dst ds [buf] [bs] n).
  Proof.
    intros L VB V D Hx A ND NS. pose proof (holds1 _ _ _ _ _ Hx) as X.
    destruct (HF M buf bs [src] [ss] n x (valid_mono _ _ _ _ _ L VB) (distinct_mono _ _ _ L BD) Hx) as (F1 & F2).
    { apply apart1. intros i j Hi Hj E. apply (NS j Hj). exists i. split; [lia|auto]. }
    assert (S2 : forall m1 v1, stored M m1 buf bs n v1 -> applied (on1 g) m1 dst ds n (fun i => [v1 i]) (second m1 dst ds [buf] [bs] n)).
    { intros m1 v1 (P & Q). apply HG; auto.
      - intros i Hi. rewrite Q; [apply V, Hi|]. intros j Hj E. apply (ND i Hi). exists j. split; [lia|auto].
      - apply holds1_intro. exact P.
      - apply apart1. intros i j Hi Hj E. apply (ND i Hi). exists j. split; [lia|auto]. }
    split.
    - intros v Hv. destruct (F1 (vof (on1 f) x)) as (m1 & E1 & St1).
      { intros i Hi. destruct (X i Hi) as (y & Xi & _). specialize (Hv i Hi). unfold h, vof, on1 in *. rewrite Xi in *.
        destruct (f y); cbn in Hv; try discriminate. reflexivity. }
      destruct (S2 m1 _ St1) as (G1 & _). destruct (G1 v) as (m2 & E2 & (P2 & Q2)).
      { intros i Hi. destruct (X i Hi) as (y & Xi & _). specialize (Hv i Hi). unfold h, vof, on1 in *. rewrite Xi in *.
        destruct (f y); cbn in Hv; try discriminate. exact Hv. }
      exists m2. rewrite E1. split; [exact E2|]. destruct St1 as (P1 & Q1).
      split; [exact P2|]. split.
      + intros a Na Ha. rewrite Q2 by exact Ha. apply Q1. intros i Hi E. apply Na. exists i. split; [lia|exact E].
      + intros a Va. destruct (stored_B (fun _ => False) _ _ _ _ _ _ (conj P2 Q2)) as (_ & _ & R2).
        destruct (stored_B (fun _ => False) _ _ _ _ _ _ (conj P1 Q1)) as (_ & _ & R1). auto.
    - intros T (i & e & Hi & E).
      assert (TF : forall i, 0 <= i < Z.of_nat n -> (exists v, on1 f (x i) = Ok v) \/ (exists e, on1 f (x i) = Throw e)).
      { intros j Hj. destruct (X j Hj) as (y & Xj & _). specialize (T j Hj). unfold h, on1 in *. rewrite Xj in *.
        destruct (f y); cbn in T; eauto; destruct T as [(? & ?)|(? & ?)]; discriminate. }
      destruct (ok_or_throw _ _ TF) as [AllOk|(j & e' & Hj & E')].
      + destruct (F1 (vof (on1 f) x)) as (m1 & E1 & St1).
        { intros j Hj. destruct (AllOk j Hj) as (w & Ew). unfold vof. rewrite Ew. reflexivity. }
        destruct (S2 m1 _ St1) as (_ & G2).
        assert (HH : forall j, 0 <= j < Z.of_nat n -> h (x j) = on1 g [vof (on1 f) x j]).
        { intros j Hj. destruct (AllOk j Hj) as (w & Ew). destruct (X j Hj) as (y & Xj & _). unfold h, vof, on1 in *. rewrite Xj in *. rewrite Ew. reflexivity. }
        destruct G2 as (j & e' & Hj & E' & Eo).
        * intros j Hj. rewrite <- (HH j Hj). apply T, Hj.
        * exists i, e. split; [exact Hi|]. rewrite <- (HH i Hi). exact E.
        * exists j, e'. rewrite E1. cbn [bind]. split; [exact Hj|]. split; [rewrite (HH j Hj); exact E'|exact Eo].
      + destruct F2 as (j2 & e2 & Hj2 & E2 & Eo); [exact TF|eauto|].
        exists j2, e2. rewrite Eo. split; [exact Hj2|]. split; [|reflexivity].
        destruct (X j2 Hj2) as (y & Xj & _). unfold h, on1 in *. rewrite Xj in *. rewrite E2. reflexivity.
  Qed.

  Lemma compose_loop_spec fuel : forall M dst ds src ss chunk count x,
    (count <= fuel)%nat -> (1 <= K)%nat -> valid M buf bs K ->
    let dst' := dst + Z.of_nat chunk * ds in let src' := src + Z.of_nat chunk * ss in
    valid M dst' ds count -> distinct ds count -> holds M [src'] [ss] count x ->
    apart dst' ds src' ss count ->
    (forall i, 0 <= i < Z.of_nat count -> ~ B (elem dst' ds i)) -> (forall i, 0 <= i < Z.of_nat count -> ~ B (elem src' ss i)) ->
    appliedB B h M dst' ds count x (compose_loop K first second buf bs fuel M dst ds src ss chunk count).
  Proof.
    induction fuel as [|fuel IH]; intros M dst ds src ss chunk count x L K1 VB dst' src' V D Hx A ND NS.
    - assert (count = 0%nat) by lia. subst count. cbn. split.
      + intros v _. exists M. split; [reflexivity|]. split; [intros; lia|]. auto.
      + intros _ (i & _ & Hi & _). lia.
    - destruct count as [|c]; [cbn; split; [intros v _; exists M; split; [reflexivity|]; split; [intros; lia|]; auto|intros _ (i & _ & Hi & _); lia]|].
      cbn [compose_loop]. fold dst' src'. set (n1 := Nat.min (S c) K). set (n2 := (S c - n1)%nat).
      assert (N : (S c = n1 + n2)%nat) by lia.
      assert (N1 : (n1 <= S c)%nat) by lia.
      assert (BA : forall (o : outcome mem) (k1 k2 : mem -> outcome mem), bind o (fun m => bind (k1 m) k2) = bind (bind o k1) k2)
        by (intros [] k1 k2; reflexivity).
      rewrite BA. rewrite N at 1. apply chain.
      + rewrite <- N. exact D.
      + intros i Hi. apply ND. lia.
      + apply compose_step; auto; try lia; unfold n1.
        * eapply valid_mono; [exact N1|exact V].
        * eapply distinct_mono; [exact N1|exact D].
        * eapply holds_mono; [exact N1|exact Hx].
        * intros i j Hi Hj. apply A; lia.
        * intros i Hi. apply ND. lia.
        * intros i Hi. apply NS. lia.
      + intros m1 E1 (P1 & Q1 & R1). apply IH; auto; try lia.
        * intros i Hi. apply R1, VB, Hi.
        * intros i Hi. apply R1. apply (valid_shift M dst' ds n1 n2); [rewrite <- N; exact V|exact Hi].
        * eapply distinct_mono; [|exact D]. lia.
        * split; [reflexivity|]. intros i Hi. destruct Hx as (_ & Hx). rewrite <- (Hx (Z.of_nat n1 + i)) by lia. cbn [map combine fst snd].
          rewrite elem_shift. rewrite Q1; [reflexivity| |].
          -- apply NS. lia.
          -- intros j Hj E. apply (A j (Z.of_nat n1 + i)); [lia|lia|]. auto.
        * intros i j Hi Hj. rewrite !elem_shift. apply A; lia.
        * intros i Hi. rewrite elem_shift. apply ND. lia.
        * intros i Hi. rewrite elem_shift. apply NS. lia.
  Qed.

  (** Allocating and freeing the buffer around it. *)
  Lemma alloc_other m junk a : ~ B a -> alloc_buf m buf bs K junk a = m a.
  Proof. intros N. unfold alloc_buf. destruct (in_buf buf bs K a) eqn:E; [|reflexivity]. apply in_buf_iff in E. contradiction. Qed.
  Lemma alloc_valid m junk : valid (alloc_buf m buf bs K junk) buf bs K.
  Proof.
    intros i Hi. unfold alloc_buf. destruct (in_buf buf bs K (elem buf bs i)) eqn:E; [discriminate|].
    exfalso. assert (in_buf buf bs K (elem buf bs i) = true) by (apply in_buf_iff; exists i; auto). congruence.
  Qed.
  Lemma unbuffer hh m dst ds n x junk o : (forall i, 0 <= i < Z.of_nat K -> m (elem buf bs i) = None) ->
    (forall i, 0 <= i < Z.of_nat n -> ~ B (elem dst ds i)) ->
    appliedB B hh (alloc_buf m buf bs K junk) dst ds n x o ->
    applied hh m dst ds n x (do m' <- o; Ok (free_buf m' buf bs K)).
  Proof.
    intros Fr ND (A1 & A2). split.
    - intros v Hv. destruct (A1 v Hv) as (m' & -> & P & Q & _). cbn. exists (free_buf m' buf bs K). split; [reflexivity|].
      unfold free_buf. split.
      + intros i Hi. destruct (in_buf buf bs K (elem dst ds i)) eqn:E; [apply in_buf_iff in E; exfalso; exact (ND i Hi E)|]. apply P, Hi.
      + intros a Na. destruct (in_buf buf bs K a) eqn:E.
        * apply in_buf_iff in E. destruct E as (i & Hi & ->). symmetry. apply Fr, Hi.
        * assert (NB : ~ B a) by (intros C; apply in_buf_iff in C; congruence).
          rewrite Q; auto. apply alloc_other, NB.
    - intros T C. destruct (A2 T C) as (i & e & Hi & E & ->). exists i, e. auto.
  Qed.
End Compose.

Lemma compose_strided_applied f g first second K buf bs junk m dst ds src ss n x :
  applies (on1 f) first -> applies (on1 g) second -> (1 <= K)%nat -> distinct bs K ->
  (forall i, 0 <= i < Z.of_nat K -> m (elem buf bs i) = None) ->
  valid m dst ds n -> distinct ds n -> holds m [src] [ss] n x -> apart dst ds src ss n ->
  applied (on1 (fun x => do y <- f x; g y)) m dst ds n x (compose_strided K first second buf bs junk m dst ds [src] [ss] n).
Proof.
  intros HF HG K1 BD Fr V D Hx A. pose proof (holds1 _ _ _ _ _ Hx) as X.
  assert (ND : forall i, 0 <= i < Z.of_nat n -> ~ bufset buf bs K (elem dst ds i)).
  { intros i Hi (j & Hj & E). apply (V i Hi). rewrite E. apply Fr, Hj. }
  assert (NS : forall i, 0 <= i < Z.of_nat n -> ~ bufset buf bs K (elem src ss i)).
  { intros i Hi (j & Hj & E). destruct (X i Hi) as (y & _ & Y). rewrite E, Fr in Y by exact Hj. discriminate. }
  unfold compose_strided. set (M := alloc_buf m buf bs K junk). set (n1 := Nat.min n K). set (n2 := (n - n1)%nat).
  assert (BA : forall (o : outcome mem) (k1 k2 : mem -> outcome mem), bind o (fun m => bind (k1 m) k2) = bind (bind o k1) k2)
    by (intros [] k1 k2; reflexivity).
  rewrite BA. rewrite BA. apply unbuffer with (junk := junk); auto. fold M.
  assert (N : (n = n1 + n2)%nat) by lia. assert (N1 : (n1 <= n)%nat) by lia.
  assert (MV : forall i, 0 <= i < Z.of_nat n -> M (elem dst ds i) = m (elem dst ds i)) by (intros i Hi; apply alloc_other, ND, Hi).
  assert (MS : forall i, 0 <= i < Z.of_nat n -> M (elem src ss i) = m (elem src ss i)) by (intros i Hi; apply alloc_other, NS, Hi).
  rewrite N at 1. apply chain.
  - rewrite <- N. exact D.
  - intros i Hi. apply ND. lia.
  - apply compose_step; auto; try lia.
    + apply alloc_valid.
    + intros i Hi. rewrite MV by lia. apply V. lia.
    + eapply distinct_mono; [exact N1|exact D].
    + split; [reflexivity|]. intros i Hi. destruct Hx as (_ & Hx). rewrite <- (Hx i) by lia. cbn [map combine fst snd]. rewrite MS by lia. reflexivity.
    + intros i j Hi Hj. apply A; lia.
    + intros i Hi. apply ND. lia.
    + intros i Hi. apply NS. lia.
  - intros m1 E1 (P1 & Q1 & R1). apply compose_loop_spec; auto; try lia.
    + intros i Hi. apply R1. apply alloc_valid. exact Hi.
    + intros i Hi. apply R1. rewrite elem_shift, MV by lia. apply V. lia.
    + eapply distinct_mono; [|exact D]. lia.
    + split; [reflexivity|]. intros i Hi. destruct Hx as (_ & Hx). rewrite <- (Hx (Z.of_nat n1 + i)) by lia. cbn [map combine fst snd].
      rewrite elem_shift, Q1, MS; [reflexivity|lia| |].
      * apply NS. lia.
      * intros j Hj E. apply (A j (Z.of_nat n1 + i)); [lia|lia|]. auto.
    + intros i j Hi Hj. rewrite !elem_shift. apply A; lia.
    + intros i Hi. rewrite elem_shift. apply ND. lia.
    + intros i Hi. rewrite elem_shift. apply NS. lia.
Qed.
