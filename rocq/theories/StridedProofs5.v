From Verif Require Import Base StridedModel StridedSpec StridedProofs StridedProofs2 StridedProofs3 StridedProofs4.
Open Scope Z_scope.

Section Option3.
  Variables (na : Z -> bool) (g : Z -> outcome Z) (is_na assign : strided_t) (nav : Z) (K : nat) (mis : Z).
  Hypotheses (HN : applies (on1 (na_flag na)) is_na) (HG : applies (on1 g) assign).
  Let B := bufset mis 1 K.
  Let h := on1 (o2o_single na g nav).

  Lemma chunk_ready M dst ds src ss n x :
    (n <= K)%nat -> valid M mis 1 K -> valid M dst ds n -> distinct ds n -> holds M [src] [ss] n x -> apart dst ds src ss n ->
    (forall i, 0 <= i < Z.of_nat n -> ~ B (elem dst ds i)) -> (forall i, 0 <= i < Z.of_nat n -> ~ B (elem src ss i)) ->
    exists m1, is_na M mis 1 [src] [ss] n = Ok m1 /\ (forall a, ~ B a -> m1 a = M a) /\ (forall a, M a <> None -> m1 a <> None) /\
      ready na K mis m1 mis dst ds src ss n x.
  Proof.
    intros L VB V D Hx A ND NS. destruct (flags_stored na is_na K mis M src ss n x HN L VB Hx NS) as (m1 & E1 & St1).
    destruct (flags_frame K mis M m1 n _ L St1) as (Fr & R). exists m1. split; [exact E1|]. split; [exact Fr|]. split; [exact R|].
    constructor; auto.
    - intros i Hi. destruct St1 as (P & _). specialize (P i Hi). unfold elem in P. rewrite Z.mul_1_r in P. split; [exact P|].
      exists i. unfold elem. split; lia.
    - intros i Hi. apply R, V, Hi.
    - split; [reflexivity|]. intros i Hi. destruct Hx as (_ & Hx). rewrite <- (Hx i Hi). cbn [map combine fst snd]. rewrite Fr by (apply NS, Hi). reflexivity.
  Qed.

  (** Reading the same chunk again and again, when it stores a constant. *)
  Lemma loop_const c ds src ss x fuel : forall M dst count,
    (count <= fuel)%nat -> (1 <= K)%nat -> valid M mis 1 K -> valid M dst ds count -> distinct ds count ->
    holds M [src] [ss] (Nat.min count K) x ->
    (forall i j, 0 <= i < Z.of_nat count -> 0 <= j < Z.of_nat (Nat.min count K) -> elem dst ds i <> elem src ss j) ->
    (forall i, 0 <= i < Z.of_nat count -> ~ B (elem dst ds i)) -> (forall i, 0 <= i < Z.of_nat (Nat.min count K) -> ~ B (elem src ss i)) ->
    (forall i, 0 <= i < Z.of_nat (Nat.min count K) -> h (x i) = Ok c) ->
    (ss = 0 \/ forall i, 0 <= i < Z.of_nat (Nat.min count K) -> flag na (x i) = 1) ->
    exists m', o2o_loop K is_na assign nav mis fuel M dst ds src ss 0 count = Ok m' /\ storedB B M m' dst ds count (fun _ => c).
  Proof.
    induction fuel as [|fuel IH]; intros M dst count L K1 VB V D Hx A ND NS Hc Hsp.
    - assert (count = 0%nat) by lia. subst. exists M. split; [reflexivity|]. split; [intros; lia|]. auto.
    - destruct count as [|c0]; [exists M; split; [reflexivity|]; split; [intros; lia|]; auto|].
      cbn [o2o_loop]. cbn [negb Z.eqb]. set (n1 := Nat.min (S c0) K) in *. set (n2 := (S c0 - n1)%nat).
      assert (N : (S c0 = n1 + n2)%nat) by lia. assert (N1 : (n1 <= S c0)%nat) by lia. assert (N2 : (1 <= n1)%nat) by lia.
      destruct (chunk_ready M dst ds src ss n1 x) as (m1 & E1 & Fr & R & Rd); auto; try lia.
      { eapply valid_mono; [exact N1|exact V]. } { eapply distinct_mono; [exact N1|exact D]. }
      { intros i j Hi Hj. apply A; lia. } { intros i Hi. apply ND. lia. }
      rewrite E1. cbn [bind].
      destruct (runs_spec na g assign nav K mis HG n1 m1 mis dst ds src ss 0 n1 x (Nat.le_refl _) N2 Rd) as ((Ap & _) & Mv).
      destruct (Ap (fun _ => c)) as (m2 & E2 & St2); [exact Hc|].
      destruct Mv as (m2' & sp' & E3 & Mv). { intros i Hi. exists c. apply Hc, Hi. }
      assert (SP : sp' = 0).
      { destruct Mv as (Mv1 & Mv2). destruct Hsp as [->|Hf].
        - destruct (flag01 na (x (Z.of_nat n1 - 1))) as [F|F]; [destruct (Mv2 F) as (l & _ & E); lia|exact (Mv1 F)].
        - apply Mv1. apply Hf. lia. }
      rewrite E3 in *. cbn [mem_of bind fst] in *. injection E2 as ->. subst sp'.
      assert (S1 : storedB B M m2 dst ds n1 (fun _ => c)) by (apply (storedB_trans B M m1); auto; apply stored_B, St2).
      destruct S1 as (P1 & Q1 & R1).
      destruct (IH m2 (dst + Z.of_nat n1 * ds) n2) as (m' & E4 & (P2 & Q2 & R2)); auto; try lia.
      { intros i Hi. apply R1, VB, Hi. }
      { intros i Hi. rewrite elem_shift. apply R1. apply V. lia. }
      { eapply distinct_mono; [|exact D]. lia. }
      { split; [reflexivity|]. intros i Hi. destruct Hx as (_ & Hx). rewrite <- (Hx i) by lia. cbn [map combine fst snd]. rewrite Q1; [reflexivity|apply NS; lia|].
        intros j Hj E. apply (A j i); [lia|lia|auto]. }
      { intros i j Hi Hj. rewrite elem_shift. apply A; lia. }
      { intros i Hi. rewrite elem_shift. apply ND. lia. }
      { intros i Hi. apply NS. lia. }
      { intros i Hi. apply Hc. lia. }
      { destruct Hsp as [|Hf]; [auto|right; intros i Hi; apply Hf; lia]. }
      exists m'. split; [exact E4|]. split; [|split].
      + intros i Hi. destruct (Z.lt_ge_cases i (Z.of_nat n1)) as [G|G].
        * rewrite Q2; [apply P1; lia|apply ND; lia|]. intros j Hj. rewrite elem_shift. unfold elem. destruct D as [D|D]; [nia|lia].
        * specialize (P2 (i - Z.of_nat n1) ltac:(lia)). rewrite elem_shift in P2. replace (Z.of_nat n1 + (i - Z.of_nat n1)) with i in P2 by lia. exact P2.
      + intros a Na Ha. rewrite Q2; auto.
        * apply Q1; auto. intros i Hi. apply Ha. lia.
        * intros j Hj. rewrite elem_shift. apply Ha. lia.
      + auto.
  Qed.

  (** One chunk is the whole of it when count <= K. *)
  Lemma loop_once M dst ds src ss count x :
    (count <= K)%nat -> valid M mis 1 K -> valid M dst ds count -> distinct ds count -> holds M [src] [ss] count x -> apart dst ds src ss count ->
    (forall i, 0 <= i < Z.of_nat count -> ~ B (elem dst ds i)) -> (forall i, 0 <= i < Z.of_nat count -> ~ B (elem src ss i)) ->
    appliedB B h M dst ds count x (o2o_loop K is_na assign nav mis count M dst ds src ss 0 count).
  Proof.
    intros L VB V D Hx A ND NS. destruct count as [|c0]; [apply appliedB_zero|].
    cbn [o2o_loop]. cbn [negb Z.eqb]. replace (Nat.min (S c0) K) with (S c0) by lia.
    destruct (chunk_ready M dst ds src ss (S c0) x) as (m1 & E1 & Fr & R & Rd); auto. rewrite E1. cbn [bind].
    destruct (runs_spec na g assign nav K mis HG (S c0) m1 mis dst ds src ss 0 (S c0) x (Nat.le_refl _) ltac:(lia) Rd) as (Ap & _).
    apply (appliedB_trans B h M m1); auto. apply applied_B. unfold mem_of in Ap.
    match type of Ap with applied _ _ _ _ _ _ ?o => match goal with |- applied _ _ _ _ _ _ ?o' => replace o' with o; [exact Ap|] end end.
    destruct (o2o_runs assign nav (S c0) m1 mis dst ds src ss 0 (S c0)) as [((m' & d') & s')| | |]; cbn [bind fst]; try reflexivity.
    replace (S c0 - S c0)%nat with 0%nat by lia. destruct c0; reflexivity.
  Qed.

  Lemma fresh_cells m dst ds n : (forall i, 0 <= i < Z.of_nat K -> m (mis + i) = None) -> valid m dst ds n ->
    forall i, 0 <= i < Z.of_nat n -> ~ B (elem dst ds i).
  Proof. intros Fr V i Hi (j & Hj & E). apply (V i Hi). rewrite E. unfold elem. rewrite Z.mul_1_r. apply Fr, Hj. Qed.
  Lemma holds_valid m src ss n x : holds m [src] [ss] n x -> valid m src ss n.
  Proof. intros H i Hi. destruct (holds1 _ _ _ _ _ H i Hi) as (y & _ & ->). discriminate. Qed.
  Lemma holds_alloc m junk src ss n x : (forall i, 0 <= i < Z.of_nat n -> ~ B (elem src ss i)) -> holds m [src] [ss] n x ->
    holds (alloc_buf m mis 1 K junk) [src] [ss] n x.
  Proof.
    intros NS Hx. split; [reflexivity|]. intros i Hi. destruct Hx as (_ & Hx). rewrite <- (Hx i Hi). cbn [map combine fst snd].
    rewrite alloc_other by (apply NS, Hi). reflexivity.
  Qed.
  Lemma valid_alloc m junk dst ds n : (forall i, 0 <= i < Z.of_nat n -> ~ B (elem dst ds i)) -> valid m dst ds n -> valid (alloc_buf m mis 1 K junk) dst ds n.
  Proof. intros ND V i Hi. rewrite alloc_other by (apply ND, Hi). apply V, Hi. Qed.
  Lemma fresh_elem (m : mem) : (forall i, 0 <= i < Z.of_nat K -> m (mis + i) = None) -> forall i, 0 <= i < Z.of_nat K -> m (elem mis 1 i) = None.
  Proof. intros Fr i Hi. unfold elem. rewrite Z.mul_1_r. apply Fr, Hi. Qed.

  Lemma o2o_small junk m dst ds src ss n x :
    (n <= K)%nat -> (forall i, 0 <= i < Z.of_nat K -> m (mis + i) = None) ->
    valid m dst ds n -> distinct ds n -> holds m [src] [ss] n x -> apart dst ds src ss n ->
    applied h m dst ds n x (o2o_strided K is_na assign nav mis junk m dst ds [src] [ss] n).
  Proof.
    intros L Fr V D Hx A. pose proof (fresh_cells m dst ds n Fr V) as ND. pose proof (fresh_cells m src ss n Fr (holds_valid _ _ _ _ _ Hx)) as NS.
    unfold o2o_strided. apply unbuffer with (junk := junk); auto; [apply fresh_elem, Fr|].
    apply loop_once; auto; [apply alloc_valid|apply valid_alloc; auto|apply holds_alloc; auto].
  Qed.

  (** When the chunk of the source that is read stores a constant. *)
  Lemma o2o_const c junk m dst ds src ss n x :
    (1 <= K)%nat -> (forall i, 0 <= i < Z.of_nat K -> m (mis + i) = None) ->
    valid m dst ds n -> distinct ds n -> holds m [src] [ss] (Nat.min n K) x ->
    (forall i j, 0 <= i < Z.of_nat n -> 0 <= j < Z.of_nat (Nat.min n K) -> elem dst ds i <> elem src ss j) ->
    (forall i, 0 <= i < Z.of_nat (Nat.min n K) -> h (x i) = Ok c) ->
    (ss = 0 \/ forall i, 0 <= i < Z.of_nat (Nat.min n K) -> flag na (x i) = 1) ->
    exists m', o2o_strided K is_na assign nav mis junk m dst ds [src] [ss] n = Ok m' /\ stored m m' dst ds n (fun _ => c).
  Proof.
    intros K1 Fr V D Hx A Hc Hsp. pose proof (fresh_cells m dst ds n Fr V) as ND. pose proof (fresh_cells m src ss _ Fr (holds_valid _ _ _ _ _ Hx)) as NS.
    destruct (loop_const c ds src ss x n (alloc_buf m mis 1 K junk) dst n) as (m' & E & St); auto; [apply alloc_valid|apply valid_alloc; auto|apply holds_alloc; auto|].
    destruct (unbuffer K mis 1 (fun _ => Ok c) m dst ds n x junk (o2o_loop K is_na assign nav mis n (alloc_buf m mis 1 K junk) dst ds src ss 0 n) (fresh_elem m Fr) ND) as (U & _).
    - split.
      + intros v Hv. exists m'. split; [exact E|]. destruct St as (P & Q & R). split; [|auto]. intros i Hi. rewrite (P i Hi). specialize (Hv i Hi). injection Hv as ->. reflexivity.
      + intros _ (i & e & _ & E0). discriminate.
    - destruct (U (fun _ => c)) as (m2 & E2 & St2); [reflexivity|]. exists m2. split; [exact E2|exact St2].
  Qed.

  Lemma o2o_stride0 junk m dst ds src n x :
    (1 <= K)%nat -> (forall i, 0 <= i < Z.of_nat K -> m (mis + i) = None) ->
    valid m dst ds n -> distinct ds n -> holds m [src] [0] n x -> apart dst ds src 0 n ->
    applied h m dst ds n x (o2o_strided K is_na assign nav mis junk m dst ds [src] [0] n).
  Proof.
    intros K1 Fr V D Hx A. destruct n as [|n0].
    { unfold o2o_strided. apply unbuffer with (junk := junk); [apply fresh_elem, Fr|intros; lia|]. apply appliedB_zero. }
    assert (X0 : exists y, forall i, 0 <= i < Z.of_nat (S n0) -> x i = [y]).
    { destruct (holds1 _ _ _ _ _ Hx 0 ltac:(lia)) as (y & _ & My). exists y. intros i Hi.
      destruct (holds1 _ _ _ _ _ Hx i Hi) as (y' & Xi & My'). unfold elem in *. rewrite !Z.mul_0_r in *. congruence. }
    destruct X0 as (y & X0). set (n := S n0) in *.
    assert (HM : holds m [src] [0] (Nat.min n K) x) by (eapply holds_mono; [|exact Hx]; lia).
    split.
    - intros v Hv. destruct (o2o_const (v 0) junk m dst ds src 0 n x) as (m' & E & (P & Q)); auto.
      + intros i j Hi Hj. apply A; lia.
      + intros i Hi. rewrite <- (Hv 0) by lia. rewrite (X0 i), (X0 0) by lia. reflexivity.
      + exists m'. split; [exact E|]. split; [|exact Q]. intros i Hi. rewrite (P i Hi). f_equal.
        assert (Ok (v 0) = Ok (v i)) by (rewrite <- (Hv 0), <- (Hv i), (X0 i), (X0 0) by lia; reflexivity). congruence.
    - intros T (i & e & Hi & E). exists i, e. split; [exact Hi|]. split; [exact E|].
      pose proof (fresh_cells m dst ds n Fr V) as ND. pose proof (fresh_cells m src 0 n Fr (holds_valid _ _ _ _ _ Hx)) as NS.
      set (n1 := Nat.min n K). assert (N1 : (n1 <= n)%nat) by lia.
      destruct (chunk_ready (alloc_buf m mis 1 K junk) dst ds src 0 n1 x) as (m1 & E1 & _ & _ & Rd); try lia.
      + apply alloc_valid.
      + apply valid_alloc; [intros j Hj; apply ND; lia|]. eapply valid_mono; [exact N1|exact V].
      + eapply distinct_mono; [exact N1|exact D].
      + apply holds_alloc; [intros j Hj; apply NS; lia|exact HM].
      + intros j k Hj Hk. apply A; lia.
      + intros j Hj. apply ND. lia.
      + intros j Hj. apply NS. lia.
      + destruct (runs_spec na g assign nav K mis HG n1 m1 mis dst ds src 0 0 n1 x (Nat.le_refl _) ltac:(lia) Rd) as ((_ & Ap) & _).
        destruct Ap as (j & e' & Hj & E' & Eo).
        * intros j Hj. apply T. lia.
        * exists 0, e. split; [lia|]. rewrite (X0 0) by lia. rewrite <- (X0 i) by lia. exact E.
        * assert (e' = e). { rewrite (X0 j) in E' by lia. rewrite (X0 i) in E by lia. change (h [y] = Throw e') in E'. congruence. } subst e'.
          unfold o2o_strided, n. cbn [o2o_loop]. cbn [negb Z.eqb]. fold n. fold n1. rewrite E1. cbn [bind].
          unfold mem_of in Eo. destruct (o2o_runs assign nav n1 m1 mis dst ds src 0 0 n1) as [((? & ?) & ?)| | |]; cbn [bind] in *; try discriminate. congruence.
  Qed.

  (** More than one chunk with a stride: the pointer array is moved. *)
  Lemma o2o_moved junk m dst ds src ss n x :
    (1 <= K < n)%nat -> ss <> 0 -> (forall i, 0 <= i < Z.of_nat K -> m (mis + i) = None) ->
    valid m dst ds n -> distinct ds n -> holds m [src] [ss] K x -> apart dst ds src ss K ->
    (forall i, 0 <= i < Z.of_nat K -> exists v, h (x i) = Ok v) -> flag na (x (Z.of_nat K - 1)) = 0 ->
    o2o_strided K is_na assign nav mis junk m dst ds [src] [ss] n = UB.
  Proof.
    intros L S0 Fr V D Hx A AO F. pose proof (fresh_cells m dst ds n Fr V) as ND. pose proof (fresh_cells m src ss _ Fr (holds_valid _ _ _ _ _ Hx)) as NS.
    destruct (chunk_ready (alloc_buf m mis 1 K junk) dst ds src ss K x) as (m1 & E1 & _ & _ & Rd); try lia.
    - apply alloc_valid.
    - apply valid_alloc; [intros j Hj; apply ND; lia|]. eapply valid_mono; [|exact V]. lia.
    - eapply distinct_mono; [|exact D]. lia.
    - apply holds_alloc; auto.
    - exact A.
    - intros j Hj. apply ND. lia.
    - exact NS.
    - destruct (runs_spec na g assign nav K mis HG K m1 mis dst ds src ss 0 K x (Nat.le_refl _) ltac:(lia) Rd) as (_ & Mv).
      destruct (Mv AO) as (m' & sp' & E3 & (_ & M2)). destruct (M2 F) as (l & Hl & ->).
      unfold o2o_strided. destruct n as [|n0]; [lia|]. cbn [o2o_loop]. cbn [negb Z.eqb]. replace (Nat.min (S n0) K) with K by lia.
      rewrite E1. cbn [bind]. rewrite E3. cbn [bind].
      destruct (S n0 - K)%nat as [|r] eqn:R; [lia|]. destruct n0 as [|n1]; [lia|]. cbn [o2o_loop].
      destruct (Z.eqb_spec (0 + l * ss) 0) as [Z0|]; [nia|]. reflexivity.
  Qed.
End Option3.
