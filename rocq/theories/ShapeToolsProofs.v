From Coq Require Import Permutation Sorted.
From Verif Require Import Base ShapeToolsModel ShapeToolsSpec.

(** * shape_can_broadcast *)
Lemma sc_loop_spec src : forall dst, List.length dst = List.length src ->
  sc_loop dst src = true <-> Forall2 (fun s d => s = 1 \/ s = d) src dst.
Proof.
  induction src as [|s src IH]; intros [|d dst] Hl; cbn in *; try lia.
  - split; auto.
  - destruct (Z.eqb_spec s 1), (Z.eqb_spec s d); cbn [negb andb]; rewrite ?IH by lia;
      (split; intros H; [ try discriminate; constructor; auto | inversion H; subst; auto ]).
    destruct H3; congruence.
Qed.

Lemma shape_can_broadcast_spec dst src :
  shape_can_broadcast dst src = true <-> broadcasts dst src.
Proof.
  unfold shape_can_broadcast, broadcasts.
  destruct (Nat.leb_spec (List.length src) (List.length dst)) as [H|H].
  - rewrite sc_loop_spec by (rewrite skipn_length; lia). split.
    + intros F. exists (firstn (List.length dst - List.length src) dst), (skipn (List.length dst - List.length src) dst).
      rewrite firstn_skipn; auto.
    + intros (lead & al & E & F). pose proof (Forall2_length F) as L.
      subst dst. rewrite app_length in *. replace (List.length lead + List.length al - List.length src)%nat with (List.length lead) by lia.
      rewrite skipn_app, skipn_all, Nat.sub_diag. exact F.
  - split; [discriminate|]. intros (lead & al & -> & F). pose proof (Forall2_length F). rewrite app_length in *. lia.
Qed.

Lemma broadcasts_refl s : broadcasts s s.
Proof. exists [], s; split; auto. induction s; constructor; auto. Qed.

Lemma broadcasts_trans a b c : broadcasts a b -> broadcasts b c -> broadcasts a c.
Proof.
  intros (l1 & a1 & -> & F1) (l2 & b1 & -> & F2).
  apply Forall2_app_inv_l in F1 as (x & y & Fx & Fy & ->).
  exists (l1 ++ x), y; split; [now rewrite app_assoc|].
  clear - F2 Fy. revert y Fy; induction F2 as [|s d src dst [-> | ->] F IH]; intros y Fy; inversion Fy; subst; constructor; auto.
Qed.

(** * strides_to_axis_perm *)
Lemma intptr_abs_abs x : intptr_abs x = Z.abs x.
Proof. unfold intptr_abs; destruct (Z.leb_spec 0 x); lia. Qed.

Lemma abs_less_swo st : strict_weak_order (abs_less st).
Proof.
  unfold abs_less; repeat split; intros; rewrite ?Z.ltb_ge, ?Z.ltb_lt in *; lia.
Qed.

Lemma reversal_perm n : axis_permutation n (reversal n).
Proof. unfold axis_permutation; symmetry; apply Permutation_rev. Qed.

Lemma strides_to_axis_perm_perm sort st : std_sort_contract sort ->
  axis_permutation (List.length st) (strides_to_axis_perm sort st).
Proof.
  intros Hs; unfold strides_to_axis_perm, axis_permutation.
  remember (List.length st) as n; destruct n as [|[|[|[|n]]]]; cbn [seq].
  - constructor.
  - repeat constructor.
  - destruct (_ <=? _); [apply perm_swap | reflexivity].
  - repeat match goal with |- context [if ?c then _ else _] => destruct c end;
      first [reflexivity | (apply NoDup_Permutation; [repeat constructor; cbn; intuition lia | repeat constructor; cbn; intuition lia | cbn; intuition])].
  - rewrite (proj1 (Hs _ _ (abs_less_swo st))). apply (reversal_perm (S (S (S (S n))))).
Qed.

Lemma strides_to_axis_perm_sorted sort st : std_sort_contract sort ->
  sorted_by (abs_stride st) (strides_to_axis_perm sort st).
Proof.
  intros Hs; unfold strides_to_axis_perm, sorted_by, abs_stride.
  assert (A : forall i, intptr_abs (at_ st i) = Z.abs (nth i st 0)) by (intros; apply intptr_abs_abs).
  destruct (List.length st) as [|[|[|[|n]]]] eqn:En.
  - constructor.
  - repeat constructor.
  - rewrite !A. destruct (Z.leb_spec (Z.abs (nth 1 st 0)) (Z.abs (nth 0 st 0))); repeat constructor; lia.
  - rewrite !A.
    repeat match goal with |- context [if ?a <=? ?b then _ else _] => destruct (Z.leb_spec a b) end;
      repeat constructor; lia.
  - destruct (Hs _ (reversal (S (S (S (S n))))) (abs_less_swo st)) as [_ H].
    revert H; generalize (sort (abs_less st) (reversal (S (S (S (S n)))))) as l.
    induction 1 as [|x l Hl IH Hx]; constructor; auto.
    eapply Forall_impl; [|exact Hx]. intros y Hy. unfold abs_less in Hy. rewrite !A in Hy. lia.
Qed.

(** Two sorted permutations for an injective weight coincide. *)
Lemma sorted_unique (w : nat -> Z) l1 l2 :
  Permutation l1 l2 -> sorted_by w l1 -> sorted_by w l2 ->
  (forall i j, In i l1 -> In j l1 -> w i = w j -> i = j) -> l1 = l2.
Proof.
  unfold sorted_by; intros P S1; revert l2 P; induction S1 as [|x l1 S1 IH F1]; intros l2 P S2 Inj.
  - now apply Permutation_nil in P.
  - destruct S2 as [|y l2 S2 F2]; [symmetry in P; now apply Permutation_nil in P|].
    assert (x = y) as ->.
    { assert (Hy : In y (x :: l1)) by (symmetry in P; eapply Permutation_in; [exact P|cbn; auto]).
      assert (Hx : In x (y :: l2)) by (eapply Permutation_in; [exact P|cbn; auto]).
      apply Inj; [cbn; auto|auto|].
      rewrite Forall_forall in F1, F2.
      destruct Hx as [->|Hx]; auto. destruct Hy as [->|Hy]; auto.
      specialize (F1 _ Hy); specialize (F2 _ Hx); lia. }
    f_equal. apply IH; auto.
    + now apply Permutation_cons_inv in P.
    + intros; apply Inj; cbn; auto.
Qed.

Lemma sorted_reversal (w : nat -> Z) n :
  (forall i j, (i < j < n)%nat -> w j <= w i) -> sorted_by w (reversal n).
Proof.
  unfold sorted_by, reversal. induction n as [|n IH]; intros H; [constructor|].
  rewrite seq_S, rev_app_distr; cbn. constructor.
  - apply IH; intros; apply H; lia.
  - apply Forall_forall; intros x Hx; apply in_rev, in_seq in Hx; apply H; lia.
Qed.

Lemma strides_to_axis_perm_c_order sort st : std_sort_contract sort ->
  c_ordered st -> strides_to_axis_perm sort st = reversal (List.length st).
Proof.
  intros Hs Hc. apply sorted_unique with (w := abs_stride st).
  - rewrite (strides_to_axis_perm_perm sort st Hs). symmetry; apply reversal_perm.
  - now apply strides_to_axis_perm_sorted.
  - apply sorted_reversal; intros i j Hij. specialize (Hc i j Hij); lia.
  - intros i j Hi Hj E.
    apply (Permutation_in _ (strides_to_axis_perm_perm sort st Hs)) in Hi, Hj. apply in_seq in Hi, Hj.
    destruct (lt_eq_lt_dec i j) as [[L| ->]|L]; auto.
    + specialize (Hc i j ltac:(lia)); lia.
    + specialize (Hc j i ltac:(lia)); lia.
Qed.

(** Ranks up to 3 keep the reversal even with equal strides. *)
Lemma strides_to_axis_perm_c_order_ties sort st : (List.length st <= 3)%nat ->
  (forall i j, (i < j < List.length st)%nat -> abs_stride st j <= abs_stride st i) ->
  strides_to_axis_perm sort st = reversal (List.length st).
Proof.
  intros Hl Hc; unfold strides_to_axis_perm, abs_stride in *.
  assert (A : forall i, intptr_abs (at_ st i) = Z.abs (nth i st 0)) by (intros; apply intptr_abs_abs).
  destruct (List.length st) as [|[|[|[|n]]]] eqn:En; try lia; try reflexivity; rewrite !A.
  - specialize (Hc 0 1)%nat. destruct (Z.leb_spec (Z.abs (nth 1 st 0)) (Z.abs (nth 0 st 0))); [reflexivity|lia].
  - pose proof (Hc 0 1)%nat. pose proof (Hc 1 2)%nat.
    destruct (Z.leb_spec (Z.abs (nth 1 st 0)) (Z.abs (nth 0 st 0))); [|lia].
    destruct (Z.leb_spec (Z.abs (nth 2 st 0)) (Z.abs (nth 1 st 0))); [|lia]. reflexivity.
Qed.

(** * multistrides_to_axis_perm *)
Lemma find_ipos_le ops perm x i1n : forall ipos, (i1n <= ipos)%nat ->
  (find_ipos ops perm x i1n ipos <= ipos)%nat.
Proof.
  induction i1n as [|i1 IH]; intros ipos H; cbn [find_ipos]; [lia|].
  destruct (compare_strides ops (nth i1 perm 0%nat) x) as [[] lt]; cbn [negb].
  - apply IH; lia.
  - destruct lt; cbn [negb]; [lia|]. specialize (IH i1); lia.
Qed.

Lemma split_nth (l : list nat) i : (i < List.length l)%nat ->
  l = firstn i l ++ nth i l 0%nat :: skipn (S i) l.
Proof.
  revert i; induction l as [|a l IH]; intros [|i] H; cbn in *; try lia; auto.
  f_equal; apply IH; lia.
Qed.

Lemma insert_at_eq perm i0 ipos x : (ipos <= i0 < List.length perm)%nat -> x = nth i0 perm 0%nat ->
  insert_at perm i0 ipos x =
  firstn ipos (firstn i0 perm) ++ x :: skipn ipos (firstn i0 perm) ++ skipn (S i0) perm.
Proof.
  intros H ->. unfold insert_at.
  rewrite firstn_firstn, (Nat.min_l ipos i0) by lia.
  destruct (Nat.eqb_spec ipos i0) as [->|Hn].
  - rewrite skipn_all2 by (rewrite firstn_length; lia). apply split_nth; lia.
  - cbn [app]. rewrite skipn_firstn_comm. reflexivity.
Qed.

Lemma ms_step_perm ops perm i0 : (i0 < List.length perm)%nat ->
  Permutation (ms_step ops perm i0) perm.
Proof.
  intros H; unfold ms_step.
  pose proof (find_ipos_le ops perm (nth i0 perm 0%nat) i0 i0 (le_n _)) as L.
  rewrite insert_at_eq by (auto; lia).
  set (p := find_ipos _ _ _ _ _) in *; clearbody p.
  rewrite app_comm_cons, app_assoc.
  transitivity ((nth i0 perm 0%nat :: firstn i0 perm) ++ skipn (S i0) perm).
  - apply Permutation_app_tail. rewrite <- Permutation_middle. now rewrite firstn_skipn.
  - cbn [app]. rewrite Permutation_middle. now rewrite <- split_nth by lia.
Qed.

Lemma ms_fold_perm ops is_ : forall perm, (forall i, In i is_ -> (i < List.length perm)%nat) ->
  Permutation (fold_left (ms_step ops) is_ perm) perm.
Proof.
  induction is_ as [|i is_ IH]; intros perm H; cbn [fold_left]; [reflexivity|].
  pose proof (ms_step_perm ops perm i (H i (or_introl eq_refl))) as P.
  rewrite IH; [exact P|]. intros j Hj. rewrite (Permutation_length P). apply H; cbn; auto.
Qed.

Lemma multistrides_perm ndim ops :
  axis_permutation ndim (multistrides_to_axis_perm ndim ops).
Proof.
  unfold axis_permutation, multistrides_to_axis_perm.
  destruct ndim as [|[|[|n]]].
  - constructor.
  - reflexivity.
  - destruct (compare_strides ops 0 1) as [[] []]; cbn; try reflexivity; apply perm_swap.
  - rewrite ms_fold_perm.
    + apply reversal_perm.
    + intros i Hi; apply in_seq in Hi. unfold reversal; rewrite rev_length, seq_length; lia.
Qed.

Lemma compare_loop_agree ops w i j : forall amb lt,
  (forall st, In st ops -> nth i st 0 <> 0 -> nth j st 0 <> 0 ->
     (abs_stride st i <= abs_stride st j <-> w i <= w j)) ->
  (amb = false -> lt = true <-> w i <= w j) -> (amb = true -> lt = false) ->
  let r := compare_strides_loop ops i j amb lt in
  (fst r = true <-> amb = true /\ forall st, In st ops -> nth i st 0 = 0 \/ nth j st 0 = 0) /\
  (fst r = false -> (snd r = true <-> w i <= w j)).
Proof.
  induction ops as [|st ops IH]; intros amb lt Hag Hf Ht; cbn [compare_strides_loop].
  - cbn. split; [split; [intros ->; split; [reflexivity | intros ? []] | intros [? _]; auto] | auto].
  - unfold at_. destruct (Z.eqb_spec (nth i st 0) 0) as [Ei|Ei]; [|destruct (Z.eqb_spec (nth j st 0) 0) as [Ej|Ej]]; cbn [negb andb].
    + destruct (IH amb lt) as [H1 H2]; [intros; apply Hag; cbn; auto|auto|auto|].
      split; [|exact H2]. rewrite H1. split; intros [Hamb H]; split; auto; intros s Hs.
      * destruct Hs as [<-|Hs]; auto.
      * apply H; cbn; auto.
    + destruct (IH amb lt) as [H1 H2]; [intros; apply Hag; cbn; auto|auto|auto|].
      split; [|exact H2]. rewrite H1. split; intros [Hamb H]; split; auto; intros s Hs.
      * destruct Hs as [<-|Hs]; auto.
      * apply H; cbn; auto.
    + pose proof (Hag st (or_introl eq_refl) Ei Ej) as Hw. unfold abs_stride in Hw.
      rewrite !intptr_abs_abs.
      destruct (Z.leb_spec (Z.abs (nth i st 0)) (Z.abs (nth j st 0))) as [L|L].
      * cbn. split; [split; [discriminate|]|].
        -- intros [_ H]. destruct (H st (or_introl eq_refl)); congruence.
        -- intros _. split; auto. intros _. now apply Hw.
      * assert (Hlt : ~ w i <= w j) by (rewrite <- Hw; lia).
        destruct amb.
        -- destruct (IH false false) as [H1 H2]; [intros; apply Hag; cbn; auto|intros _; split; [discriminate|tauto]|discriminate|].
           split; [|exact H2]. rewrite H1. split; [intros [? _]; discriminate|].
           intros [_ H]. destruct (H st (or_introl eq_refl)); congruence.
        -- destruct (IH false lt) as [H1 H2]; [intros; apply Hag; cbn; auto|auto|discriminate|].
           split; [|exact H2]. rewrite H1. split; intros [? _]; discriminate.
Qed.

Lemma compare_agree ops w n i j : agree ops w n -> (i < n)%nat -> (j < n)%nat -> i <> j ->
  exists lt, compare_strides ops i j = (false, lt) /\ (lt = true <-> w i <= w j).
Proof.
  intros [Hag Hex] Hi Hj Hij. unfold compare_strides.
  destruct (compare_loop_agree ops w i j true false) as [H1 H2]; auto; [discriminate|].
  destruct (compare_strides_loop ops i j true false) as [amb lt]; cbn in *.
  assert (amb = false) as ->.
  { destruct amb; auto. destruct H1 as [H1 _]. destruct (H1 eq_refl) as [_ H].
    destruct (Hex i j Hi Hj Hij) as (st & Hin & Hni & Hnj). destruct (H st Hin); congruence. }
  exists lt; auto.
Qed.

(** The scan finds the insertion point in a sorted prefix. *)
Lemma find_ipos_sorted ops w n perm x i0 :
  agree ops w n -> (i0 <= List.length perm)%nat -> (x < n)%nat ->
  (forall k, (k < i0)%nat -> (nth k perm 0%nat < n)%nat /\ nth k perm 0%nat <> x) ->
  forall i1n ipos, (i1n <= ipos <= i0)%nat ->
  (ipos = i1n) ->
  (forall k, (ipos <= k < i0)%nat -> w x < w (nth k perm 0%nat)) ->
  let p := find_ipos ops perm x i1n ipos in
  (p <= i0)%nat /\ (forall k, (p <= k < i0)%nat -> w x < w (nth k perm 0%nat)) /\
  (p = 0%nat \/ ((p - 1) < i0)%nat /\ w (nth (p - 1) perm 0%nat) <= w x).
Proof.
  intros Hag Hlen Hx Hk i1n; induction i1n as [|i1 IH]; intros ipos Hb He Hgt; cbn [find_ipos].
  - split; [lia|]. split; [exact Hgt|left; lia].
  - destruct (Hk i1 ltac:(lia)) as [Hi1 Hne].
    destruct (compare_agree ops w n (nth i1 perm 0%nat) x Hag Hi1 Hx Hne) as (lt & -> & Hlt).
    cbn [negb]. destruct lt; cbn [negb].
    + cbn. split; [lia|]. split; [exact Hgt|]. right. subst ipos.
      replace (S i1 - 1)%nat with i1 by lia. split; [lia|]. now apply Hlt.
    + apply IH; try lia. intros k Hkk.
      destruct (Nat.eq_dec k i1) as [->|]; [|apply Hgt; lia].
      destruct Hlt as [_ Hlt]. destruct (Z.leb_spec (w (nth i1 perm 0%nat)) (w x)) as [L|L]; auto.
      discriminate (Hlt L).
Qed.

Lemma StronglySorted_app {A} (R : A -> A -> Prop) l1 l2 :
  StronglySorted R (l1 ++ l2) <->
  StronglySorted R l1 /\ StronglySorted R l2 /\ (forall x y, In x l1 -> In y l2 -> R x y).
Proof.
  induction l1 as [|a l1 IH]; cbn [app].
  - split; [intros H; split; [constructor | split; [exact H | intros x y []]] | tauto].
  - split.
    + intros H. apply StronglySorted_inv in H as [H HF]. apply IH in H as (H1 & H2 & H3).
      apply Forall_app in HF as [HF1 HF2]. rewrite Forall_forall in HF2.
      split; [constructor; auto|]. split; [exact H2|].
      intros x y [<-|Hx] Hy; auto.
    + intros (H1 & H2 & H3). apply StronglySorted_inv in H1 as [H1 HF].
      constructor; [apply IH; split; auto; split; auto; intros; apply H3; cbn; auto|].
      apply Forall_app; split; auto. apply Forall_forall; intros y Hy; apply H3; cbn; auto.
Qed.

Lemma nth_firstn_lt {A} (l : list A) d k i : (k < i)%nat -> nth k (firstn i l) d = nth k l d.
Proof.
  revert k l; induction i as [|i IH]; intros [|k] [|a l] H; cbn; try lia; auto. apply IH; lia.
Qed.

Lemma nth_In' (l : list nat) i0 k : (k < i0)%nat -> (i0 <= List.length l)%nat -> In (nth k l 0%nat) (firstn i0 l).
Proof.
  intros H H2. rewrite <- (nth_firstn_lt l 0%nat k i0) by lia. apply nth_In. rewrite firstn_length; lia.
Qed.

Lemma in_firstn_nth (l : list nat) y i0 : In y (firstn i0 l) -> exists k, (k < i0)%nat /\ (k < List.length l)%nat /\ nth k l 0%nat = y.
Proof.
  intros H; apply (In_nth _ _ 0%nat) in H as (k & Hk & <-).
  rewrite firstn_length in Hk. exists k; rewrite nth_firstn_lt by lia; repeat split; lia.
Qed.

Lemma ms_step_sorted ops w n perm i0 :
  agree ops w n -> Permutation perm (seq 0 n) -> (i0 < n)%nat ->
  sorted_by w (firstn i0 perm) -> sorted_by w (firstn (S i0) (ms_step ops perm i0)).
Proof.
  intros Hag HP Hi0 HS.
  assert (HL : List.length perm = n) by (rewrite (Permutation_length HP); apply seq_length).
  assert (HND : NoDup perm) by (eapply Permutation_NoDup; [symmetry; exact HP | apply seq_NoDup]).
  assert (Hlt : forall y, In y perm -> (y < n)%nat).
  { intros y Hy. apply (Permutation_in _ HP), in_seq in Hy. lia. }
  unfold ms_step. set (x := nth i0 perm 0%nat).
  assert (Hxin : In x perm) by (apply nth_In; lia).
  destruct (find_ipos_sorted ops w n perm x i0 Hag ltac:(lia) (Hlt _ Hxin)) with (i1n := i0) (ipos := i0)
    as (Hp & Hgt & Hle); try lia.
  { intros k Hk; split; [apply Hlt, nth_In; lia|].
    intros E. apply (proj1 (NoDup_nth perm 0%nat) HND) in E; lia. }
  set (p := find_ipos ops perm x i0 i0) in *; clearbody p.
  rewrite insert_at_eq by (auto; lia).
  rewrite firstn_app, firstn_all2 by (rewrite !firstn_length; lia).
  rewrite !firstn_length. replace (S i0 - Nat.min p (Nat.min i0 (List.length perm)))%nat with (S (i0 - p)) by lia.
  cbn [firstn]. rewrite firstn_app, (firstn_all2 (n := i0 - p)) by (rewrite skipn_length, firstn_length; lia).
  rewrite skipn_length, firstn_length. replace (i0 - p - (Nat.min i0 (List.length perm) - p))%nat with 0%nat by lia.
  cbn [firstn]. rewrite app_nil_r.
  unfold sorted_by in *.
  assert (HS' : StronglySorted (fun i j => w i <= w j) (firstn p (firstn i0 perm) ++ skipn p (firstn i0 perm))) by now rewrite firstn_skipn.
  apply StronglySorted_app in HS' as (S1 & S2 & S3).
  assert (H2 : forall y, In y (skipn p (firstn i0 perm)) -> w x <= w y).
  { intros y Hy. apply (In_nth _ _ 0%nat) in Hy as (k & Hk & <-). rewrite skipn_length, firstn_length in Hk.
    rewrite <- (firstn_skipn p (firstn i0 perm)) in S1.
    assert (E : nth k (skipn p (firstn i0 perm)) 0%nat = nth (p + k) perm 0%nat).
    { rewrite <- (nth_firstn_lt perm 0%nat (p + k) i0) by lia.
      rewrite <- (firstn_skipn p (firstn i0 perm)) at 2.
      rewrite app_nth2 by (rewrite !firstn_length; lia).
      f_equal. rewrite !firstn_length; lia. }
    rewrite E. specialize (Hgt (p + k)%nat ltac:(lia)). lia. }
  apply StronglySorted_app; split; [exact S1|]. split.
  - constructor; auto. apply Forall_forall; auto.
  - intros a b Ha Hb.
    assert (Hax : w a <= w x).
    { rewrite firstn_firstn, Nat.min_l in Ha by lia.
      apply in_firstn_nth in Ha as (k & Hk & _ & <-).
      destruct Hle as [->|[Hp1 Hle]]; [lia|].
      destruct (Nat.eq_dec k (p - 1)) as [->|]; [exact Hle|].
      etransitivity; [|exact Hle].
      rewrite <- (nth_firstn_lt perm 0%nat k i0), <- (nth_firstn_lt perm 0%nat (p-1) i0) by lia.
      clear - HS n0 Hk Hp1 HL Hi0.
      assert (G : forall l : list nat, StronglySorted (fun i j => w i <= w j) l -> forall a b, (a < b < List.length l)%nat -> w (nth a l 0%nat) <= w (nth b l 0%nat)).
      { induction 1 as [|y l Hs IH Hf]; intros c d Hcd; cbn in Hcd; [lia|].
        destruct d as [|d]; [lia|]. destruct c as [|c]; cbn.
        - rewrite Forall_forall in Hf. apply Hf, nth_In; lia.
        - apply IH; lia. }
      apply (G _ HS). rewrite firstn_length. lia. }
    destruct Hb as [<-|Hb]; [exact Hax|]. specialize (H2 _ Hb). lia.
Qed.

Lemma ms_fold_sorted ops w n : agree ops w n -> forall m i0 perm,
  Permutation perm (seq 0 n) -> (i0 + m <= n)%nat ->
  sorted_by w (firstn i0 perm) ->
  sorted_by w (firstn (i0 + m) (fold_left (ms_step ops) (seq i0 m) perm)).
Proof.
  intros Hag m; induction m as [|m IH]; intros i0 perm HP Hb HS; cbn [seq fold_left].
  - now rewrite Nat.add_0_r.
  - replace (i0 + S m)%nat with (S i0 + m)%nat by lia. apply IH; [|lia|].
    + rewrite ms_step_perm; auto. rewrite (Permutation_length HP), seq_length; lia.
    + eapply ms_step_sorted; eauto; lia.
Qed.

Lemma multistrides_sorted ops w n : agree ops w n ->
  sorted_by w (multistrides_to_axis_perm n ops).
Proof.
  intros Hag. pose proof (multistrides_perm n ops) as P. unfold multistrides_to_axis_perm in *.
  destruct n as [|[|[|n]]].
  - constructor.
  - repeat constructor.
  - destruct (compare_agree ops w 2 0 1 Hag) as (lt & E & Hlt); try lia. rewrite E in *. cbn [orb].
    destruct lt; cbn [negb]; repeat constructor; [now apply Hlt|].
    destruct Hlt as [_ Hlt]. destruct (Z.leb_spec (w 0%nat) (w 1%nat)); [discriminate (Hlt H) | lia].
  - remember (S (S (S n))) as N.
    pose proof (ms_fold_sorted ops w N Hag (N - 1) 1 (reversal N) (reversal_perm N) ltac:(lia)) as H.
    replace (1 + (N - 1))%nat with N in H by lia. rewrite (firstn_all2 (n:=N)) in H.
    + apply H. subst N. unfold reversal. rewrite seq_S, rev_app_distr. cbn. repeat constructor.
    + rewrite (Permutation_length P), seq_length. lia.
Qed.

(** One operand without zero strides. *)
Lemma agree_single st : (forall i, (i < List.length st)%nat -> nth i st 0 <> 0) ->
  agree [st] (abs_stride st) (List.length st).
Proof.
  intros H; split.
  - intros s i j [<-|[]] Hi Hj _ _. reflexivity.
  - intros i j Hi Hj _; exists st; cbn; auto.
Qed.

(** C-order operands, broadcast axes allowed. *)
Lemma compare_loop_c_order ops i j n : (i < j < n)%nat ->
  (forall st, In st ops -> List.length st = n /\ c_ordered_bc st) ->
  forall amb lt, (amb = true -> lt = false) ->
  let r := compare_strides_loop ops j i amb lt in
  (amb = false -> lt = true) -> fst r = false -> snd r = true.
Proof.
  intros Hij Hc; revert Hc; induction ops as [|st ops IH]; intros Hc amb lt Ha r Hl; subst r; cbn [compare_strides_loop].
  - cbn; auto.
  - unfold at_. destruct (Hc st (or_introl eq_refl)) as [Hlen Ho]. specialize (Ho i j ltac:(lia)).
    assert (Hc' : forall st, In st ops -> List.length st = n /\ c_ordered_bc st) by (intros; apply Hc; cbn; auto).
    destruct (Z.eqb_spec (nth j st 0) 0) as [Ej|Ej]; [|destruct (Z.eqb_spec (nth i st 0) 0) as [Ei|Ei]]; cbn [negb andb]; try (apply IH; auto).
    rewrite !intptr_abs_abs. unfold abs_stride in Ho.
    destruct (Z.leb_spec (Z.abs (nth j st 0)) (Z.abs (nth i st 0))); [cbn; auto | lia].
Qed.

Lemma compare_loop_c_order' ops i j n : (i < j < n)%nat ->
  (forall st, In st ops -> List.length st = n /\ c_ordered_bc st) ->
  forall amb, 
  snd (compare_strides_loop ops i j amb false) = false.
Proof.
  intros Hij Hc; induction ops as [|st ops IH]; intros amb; cbn [compare_strides_loop]; auto.
  unfold at_. destruct (Hc st (or_introl eq_refl)) as [Hlen Ho]. specialize (Ho i j ltac:(lia)).
  assert (Hc' : forall st, In st ops -> List.length st = n /\ c_ordered_bc st) by (intros; apply Hc; cbn; auto).
  specialize (IH Hc').
  destruct (Z.eqb_spec (nth i st 0) 0) as [Ei|Ei]; [|destruct (Z.eqb_spec (nth j st 0) 0) as [Ej|Ej]]; cbn [negb andb]; auto.
  rewrite !intptr_abs_abs. unfold abs_stride in Ho.
  destruct (Z.leb_spec (Z.abs (nth i st 0)) (Z.abs (nth j st 0))); [lia|]. destruct amb; auto.
Qed.

Lemma find_ipos_c_order ops perm x i1n i0 :
  (forall k, (k < i1n)%nat -> forall lt, compare_strides ops (nth k perm 0%nat) x = (false, lt) -> lt = true) ->
  find_ipos ops perm x i1n i0 = i0.
Proof.
  induction i1n as [|i1 IH]; intros H; cbn [find_ipos]; auto.
  destruct (compare_strides ops (nth i1 perm 0%nat) x) as [[] lt] eqn:E; cbn [negb].
  - apply IH; intros k Hk; apply H; lia.
  - rewrite (H i1 ltac:(lia) lt E). reflexivity.
Qed.

Lemma nth_reversal n k : (k < n)%nat -> nth k (reversal n) 0%nat = (n - 1 - k)%nat.
Proof.
  intros H; unfold reversal. rewrite rev_nth; rewrite seq_length; [|lia]. rewrite seq_nth; lia.
Qed.

Lemma multistrides_c_order n ops :
  (forall st, In st ops -> List.length st = n /\ c_ordered_bc st) ->
  multistrides_to_axis_perm n ops = reversal n.
Proof.
  intros Hc; unfold multistrides_to_axis_perm. destruct n as [|[|[|n]]]; try reflexivity.
  - pose proof (compare_loop_c_order' ops 0 1 2 ltac:(lia) Hc true) as H. unfold compare_strides.
    destruct (compare_strides_loop ops 0 1 true false) as [amb lt]; cbn in H; subst lt.
    rewrite orb_true_r. reflexivity.
  - remember (S (S (S n))) as N. clear HeqN n.
    assert (H : forall m i0, (i0 + m <= N)%nat -> fold_left (ms_step ops) (seq i0 m) (reversal N) = reversal N).
    { induction m as [|m IH]; intros i0 Hm; cbn [seq fold_left]; auto.
      replace (ms_step ops (reversal N) i0) with (reversal N); [apply IH; lia|].
      unfold ms_step. rewrite find_ipos_c_order.
      - unfold insert_at. now rewrite Nat.eqb_refl.
      - intros k Hk lt. rewrite !nth_reversal by lia. intros E.
        pose proof (compare_loop_c_order ops (N - 1 - i0) (N - 1 - k) N ltac:(lia) Hc true false) as G.
        unfold compare_strides in E. rewrite E in G. cbn in G. apply G; auto; discriminate. }
    destruct N as [|N]; [reflexivity|]. apply H; lia.
Qed.

(** * axis_perm_to_strides: what the code does (it stores the extents) *)
Lemma update_length {A} i (v : A) l : List.length (update i v l) = List.length l.
Proof. revert i; induction l as [|a l IH]; intros [|i]; cbn; auto. Qed.
Lemma update_nth {A} i (v : A) l d k : (i < List.length l)%nat ->
  nth k (update i v l) d = if (k =? i)%nat then v else nth k l d.
Proof.
  revert i k; induction l as [|a l IH]; intros [|i] [|k] H; cbn in *; try lia; auto. apply IH; lia.
Qed.

Lemma axis_perm_to_strides_stores_shape perm : forall shape elsize out res,
  (forall a, In a perm -> (a < List.length out)%nat) ->
  axis_perm_to_strides perm shape elsize out = Ok res ->
  List.length res = List.length out /\
  forall a, nth a res 0 = if in_dec Nat.eq_dec a perm then nth a shape 0 else nth a out 0.
Proof.
  induction perm as [|p perm IH]; intros shape elsize out res Hin; cbn [axis_perm_to_strides].
  - intros [= <-]; split; auto.
  - unfold mul64, chk64. destruct (is_s64 _); cbn [bind]; [|discriminate].
    intros H. apply IH in H as [HL H]; [|intros a Ha; rewrite !update_length; apply Hin; cbn; auto].
    rewrite !update_length in HL. split; auto. intros a. rewrite H. clear H.
    rewrite !update_nth by (rewrite ?update_length; apply Hin; cbn; auto).
    destruct (in_dec Nat.eq_dec a perm) as [i|i]; destruct (in_dec Nat.eq_dec a (p :: perm)) as [i'|i'];
      try (exfalso; apply i'; cbn; auto; fail); auto.
    + destruct (Nat.eqb_spec a p) as [->|Hne]; auto. destruct i' as [->|]; [congruence|contradiction].
    + destruct (Nat.eqb_spec a p) as [->|Hne]; auto. exfalso; apply i'; cbn; auto.
Qed.
