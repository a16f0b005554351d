(** Proofs about multiple dispatch. *)
From Coq Require Import Relations.Relation_Operators Relations.Operators_Properties Sorting.Permutation.
From Verif Require Import Base DispatchModel DispatchSpec DispatchProofs.

Section Dispatch.
Context {type : Type} (matches : type -> type -> bool) {T : Type} (sig : T -> list type) (N : nat).
Hypothesis SIG : forall t, List.length (sig t) = N.
Notation accepts := (accepts matches).
Notation more_specific := (more_specific matches).
Notation edge := (edge matches).
Notation ambiguous := (ambiguous matches).

Lemma supercedes_iff l r : List.length l = List.length r -> supercedes matches l r = true <-> accepts r l.
Proof.
  revert r. induction l as [|x l IH]; intros [|y r] L; cbn [supercedes] in *; try discriminate.
  - split; auto. constructor.
  - injection L as L. specialize (IH r L). destruct (matches y x) eqn:M; cbn [negb].
    + rewrite IH. split; [intros; constructor; auto|intros H; inversion H; auto].
    + split; [discriminate|intros H; inversion H; congruence].
Qed.
Lemma consistent_iff l r : List.length l = List.length r -> consistent matches l r = true <-> comparable matches l r.
Proof.
  revert r. induction l as [|x l IH]; intros [|y r] L; cbn [consistent] in *; try discriminate.
  - split; auto. constructor.
  - injection L as L. specialize (IH r L). destruct (matches x y) eqn:M1, (matches y x) eqn:M2; cbn [negb andb];
      try (rewrite IH; split; [intros; constructor; auto|intros H; inversion H; auto]).
    split; [discriminate|intros H; inversion H as [|? ? ? ? [|] ]; congruence].
Qed.
Lemma edge_iff u v : List.length u = List.length v -> edge u v = true <-> more_specific u v.
Proof.
  intros L. unfold DispatchModel.edge, DispatchSpec.more_specific. rewrite <- !supercedes_iff by auto. destruct (supercedes matches u v), (supercedes matches v u); split; try tauto; try discriminate; try (intros (A & B)); try tauto; try discriminate. auto.
Qed.
Lemma ambiguous_iff u v : List.length u = List.length v -> ambiguous u v = true <-> comparable matches u v /\ ~ accepts u v /\ ~ accepts v u.
Proof.
  intros L. unfold DispatchModel.ambiguous. rewrite andb_true_iff, negb_true_iff, orb_false_iff, consistent_iff by auto. rewrite <- (supercedes_iff u v), <- (supercedes_iff v u) by auto.
  destruct (supercedes matches u v), (supercedes matches v u); intuition congruence.
Qed.
Lemma same_len t u : List.length (sig t) = List.length (sig u).
Proof. now rewrite !SIG. Qed.

(** The loops of [assign] over non-null callables. *)
Variable ts : list T.
Let n := List.length ts.
Definition at_ (i : nat) (t : T) := nth_error ts i = Some t.
Lemma at_lt i : (i < n)%nat -> exists t, at_ i t.
Proof. intros H. apply nth_error_Some in H. unfold at_. destruct (nth_error ts i); [eauto|tauto]. Qed.
Lemma at_range i t : at_ i t -> (i < n)%nat.
Proof. intros H. apply nth_error_Some. unfold at_ in H. congruence. Qed.
Lemma sig_at_ok i t : at_ i t -> sig_at sig (map Some ts) i = Ok (sig t).
Proof. unfold at_, sig_at. intros E. now rewrite (map_nth_error Some i ts E). Qed.
Lemma vs_len : List.length (map (@Some T) ts) = n.
Proof. apply map_length. Qed.

Lemma resolved_ok ti tj : List.length ti = N -> List.length tj = N -> forall ks ok, (forall k, In k ks -> (k < n)%nat) ->
  exists b, resolved matches sig (map Some ts) ks ti tj ok = Ok b /\ (b = true <-> ok = true \/ exists k t, In k ks /\ at_ k t /\ accepts ti (sig t) /\ accepts tj (sig t)).
Proof.
  intros LI LJ. induction ks as [|k ks IH]; intros ok R; cbn [resolved].
  - exists ok. split; auto. split; auto. intros [|(? & ? & [] & _)]; auto.
  - destruct (at_lt k (R k (or_introl eq_refl))) as (t & A). rewrite (sig_at_ok k t A). cbn [bind].
    destruct (IH (if supercedes matches (sig t) ti && supercedes matches (sig t) tj then true else ok) (fun k' H => R k' (or_intror H))) as (b & E & B).
    exists b. split; auto. rewrite B. clear B E.
    assert (X : supercedes matches (sig t) ti && supercedes matches (sig t) tj = true <-> accepts ti (sig t) /\ accepts tj (sig t)) by (rewrite andb_true_iff, !supercedes_iff by (rewrite SIG; auto); tauto).
    split.
    + intros [H|(k' & t' & I & H)]; [|right; exists k', t'; split; [now right|auto]].
      destruct (supercedes matches (sig t) ti && supercedes matches (sig t) tj); [|auto]. right. exists k, t. split; [now left|]. tauto.
    + intros [->|(k' & t' & [<-|I] & A' & H)]; [destruct (_ && _); auto| |right; eauto].
      unfold at_ in *. rewrite A in A'. injection A' as <-. apply X in H. rewrite H. auto.
Qed.

Definition unres (u v : T) := unresolved matches sig ts u v.
Definition e_at (a b : nat) := exists u v, at_ a u /\ at_ b v /\ edge (sig u) (sig v) = true.

Lemma succ_upd es i j a b : (i < List.length es)%nat -> succ (upd es i (fun l => l ++ [j])) a b <-> succ es a b \/ (a = i /\ b = j).
Proof.
  intros L. unfold succ. rewrite upd_nth. destruct (Nat.eqb_spec a i) as [->|NE].
  - assert (X : exists l, nth_error es i = Some l) by (apply nth_error_Some in L; destruct (nth_error es i); [eauto|tauto]). destruct X as (l & E). rewrite E. cbn [option_map]. split.
    + intros (js & [= <-] & I). apply in_app_or in I as [I|[<-|[]]]; [left; eauto|right; auto].
    + intros [(js & [= <-] & I)|(_ & ->)]; eexists; (split; [reflexivity|]); apply in_or_app; [auto|right; now left].
  - split; [auto|intros [|(-> & _)]; [auto|congruence]].
Qed.

Lemma loop_j_ok i ti : at_ i ti -> forall js es, (forall j, In j js -> (i < j < n)%nat) -> List.length es = n ->
  (exists es', loop_j matches sig (map Some ts) js i (sig ti) es = Ok es' /\ List.length es' = n /\
     (forall a b, succ es' a b <-> succ es a b \/ (a = i /\ In b js /\ e_at a b) \/ (b = i /\ In a js /\ e_at a b)) /\
     (forall j tj, In j js -> at_ j tj -> ~ unres ti tj)) \/
  (loop_j matches sig (map Some ts) js i (sig ti) es = Throw "ambiguous" /\ exists j tj, In j js /\ at_ j tj /\ unres ti tj).
Proof.
  intros AI. induction js as [|j js IH]; intros es R L; cbn [loop_j].
  - left. exists es. split; auto. split; auto. split; [|easy]. intros a b. split; [auto|]. intros [|[(_ & [] & _)|(_ & [] & _)]]; auto.
  - destruct (R j (or_introl eq_refl)) as (R1 & R2). destruct (at_lt j R2) as (tj & AJ). rewrite (sig_at_ok j tj AJ). cbn [bind].
    rewrite vs_len. destruct (resolved_ok (sig ti) (sig tj) (SIG ti) (SIG tj) (seq 0 n) false) as (b & EB & HB). { intros k K. apply in_seq in K. lia. }
    pose proof (ambiguous_iff (sig ti) (sig tj) (same_len ti tj)) as AMB.
    assert (U : unres ti tj <-> ambiguous (sig ti) (sig tj) = true /\ b = false).
    { unfold unres, unresolved. rewrite AMB. split.
      - intros (A & B & C & D). split; auto. destruct b; auto. exfalso. apply D. destruct (proj1 HB eq_refl) as [|(k & t & _ & A1 & A2 & A3)]; [discriminate|]. exists t. split; [eapply nth_error_In; exact A1|auto].
      - intros ((A & B & C) & ->). split; auto. split; auto. split; auto. intros (w & I & A1 & A2). apply In_nth_error in I as (k & K). enough (false = true) by discriminate. apply HB. right. exists k, w. split; [|auto]. apply in_seq. pose proof (at_range k w K). lia. }
    set (es1 := if edge (sig ti) (sig tj) then upd es i (fun l => l ++ [j]) else if edge (sig tj) (sig ti) then upd es j (fun l => l ++ [i]) else es).
    assert (L1 : List.length es1 = n) by (unfold es1; destruct (edge _ _); [|destruct (edge _ _)]; rewrite ?upd_length; auto).
    assert (S1 : forall a b, succ es1 a b <-> succ es a b \/ (a = i /\ b = j /\ e_at a b) \/ (b = i /\ a = j /\ e_at a b)).
    { intros a c. assert (EX : edge (sig ti) (sig tj) = true -> edge (sig tj) (sig ti) = true -> False). { intros X1 X2. apply edge_iff in X1, X2; try apply same_len. destruct X1, X2. tauto. }
      assert (E1 : e_at i j <-> edge (sig ti) (sig tj) = true). { split; [intros (u & v & A1 & A2 & A3); unfold at_ in *; congruence|intros; exists ti, tj; auto]. }
      assert (E2 : e_at j i <-> edge (sig tj) (sig ti) = true). { split; [intros (u & v & A1 & A2 & A3); unfold at_ in *; congruence|intros; exists tj, ti; auto]. }
      unfold es1. destruct (edge (sig ti) (sig tj)) eqn:X1; [|destruct (edge (sig tj) (sig ti)) eqn:X2].
      - rewrite succ_upd by lia. split; [intros [|(-> & ->)]; [auto|right; left; tauto]|intros [|[(-> & -> & _)|(-> & -> & H)]]; [auto|auto|]]. apply E2 in H. exfalso. auto.
      - rewrite succ_upd by lia. split; [intros [|(-> & ->)]; [auto|right; right; tauto]|intros [|[(-> & -> & H)|(-> & -> & _)]]; [auto| |auto]]. apply E1 in H. discriminate.
      - split; [auto|intros [|[(-> & -> & H)|(-> & -> & H)]]; [auto| |]]; [apply E1 in H|apply E2 in H]; discriminate. }
    assert (CONT : ~ unres ti tj -> (exists es', loop_j matches sig (map Some ts) js i (sig ti) es1 = Ok es' /\ List.length es' = n /\
     (forall a b, succ es' a b <-> succ es a b \/ (a = i /\ In b (j :: js) /\ e_at a b) \/ (b = i /\ In a (j :: js) /\ e_at a b)) /\
     (forall j' tj', In j' (j :: js) -> at_ j' tj' -> ~ unres ti tj')) \/
      (loop_j matches sig (map Some ts) js i (sig ti) es1 = Throw "ambiguous" /\ exists j' tj', In j' (j :: js) /\ at_ j' tj' /\ unres ti tj')).
    { intros NU. destruct (IH es1 (fun j' H => R j' (or_intror H)) L1) as [(es' & E & LE & SE & UE)|(E & j' & tj' & I & A & U')].
      - left. exists es'. split; auto. split; auto. split.
        + intros a c. rewrite SE, S1. cbn [In]. intuition (subst; auto).
        + intros j' tj' [<-|I] A; [|eauto]. unfold at_ in *. rewrite AJ in A. injection A as <-. auto.
      - right. split; auto. exists j', tj'. split; [now right|auto]. }
    destruct (ambiguous (sig ti) (sig tj)) eqn:AM.
    + rewrite EB. cbn [bind]. destruct b.
      * apply CONT. rewrite U. intros (_ & ?). discriminate.
      * right. split; auto. exists j, tj. split; [now left|]. split; auto. apply U. auto.
    + cbn [bind]. apply CONT. rewrite U. intros (? & _). discriminate.
Qed.

Lemma loop_i_ok : forall is es, (forall i, In i is -> (i < n)%nat) -> List.length es = n ->
  (exists es', loop_i matches sig (map Some ts) is es = Ok es' /\ List.length es' = n /\
     (forall a b, succ es' a b <-> succ es a b \/ (In a is /\ (a < b)%nat /\ e_at a b) \/ (In b is /\ (b < a)%nat /\ e_at a b)) /\
     (forall i j ti tj, In i is -> (i < j)%nat -> at_ i ti -> at_ j tj -> ~ unres ti tj)) \/
  (loop_i matches sig (map Some ts) is es = Throw "ambiguous" /\ exists i j ti tj, (i < j)%nat /\ at_ i ti /\ at_ j tj /\ unres ti tj).
Proof.
  induction is as [|i is IH]; intros es R L; cbn [loop_i].
  - left. exists es. split; auto. split; auto. split; [|easy]. intros a b. split; [auto|]. intros [|[([] & _)|([] & _)]]; auto.
  - destruct (at_lt i (R i (or_introl eq_refl))) as (ti & AI). rewrite (sig_at_ok i ti AI). cbn [bind]. rewrite vs_len.
    assert (SEQ : forall j, In j (seq (S i) (n - S i)) <-> (i < j < n)%nat) by (intros j; rewrite in_seq; lia).
    destruct (loop_j_ok i ti AI (seq (S i) (n - S i)) es (fun j H => proj1 (SEQ j) H) L) as [(es1 & E1 & L1 & S1 & U1)|(E1 & j & tj & I & AJ & U)].
    + rewrite E1. cbn [bind]. destruct (IH es1 (fun j' H => R j' (or_intror H)) L1) as [(es' & E & LE & SE & UE)|(E & X)]; [left|right; auto].
      exists es'. split; auto. split; auto. split.
      * intros a b. rewrite SE, S1, !SEQ. cbn [In]. assert (RG : e_at a b -> (a < n)%nat /\ (b < n)%nat) by (intros (u & v & A1 & A2 & _); split; eapply at_range; eauto).
        split.
        -- intros [[|[(-> & ? & ?)|(-> & ? & ?)]]|[(? & ? & ?)|(? & ? & ?)]]; auto 6; [right; left|right; right]; intuition lia.
        -- intros [|[([->|?] & ? & HE)|([->|?] & ? & HE)]]; auto; destruct (RG HE).
           ++ left. right. left. intuition lia.
           ++ left. right. right. intuition lia.
      * intros i' j' ti' tj' [<-|I] LT A A'; [|eauto]. unfold at_ in A, AI. rewrite AI in A. injection A as <-. eapply U1; [|exact A']. apply SEQ. pose proof (at_range j' tj' A'). lia.
    + rewrite E1. cbn [bind]. right. split; auto. exists i, j, ti, tj. split; [|auto]. apply SEQ in I. lia.
Qed.

Lemma two_of_at u v : two_of ts u v <-> exists i j, (i < j)%nat /\ at_ i u /\ at_ j v.
Proof.
  unfold two_of, at_. split.
  - intros (l1 & l2 & l3 & ->). exists (List.length l1), (List.length l1 + S (List.length l2))%nat. split; [lia|]. split.
    + rewrite nth_error_app2, Nat.sub_diag by lia. reflexivity.
    + rewrite nth_error_app2 by lia. replace (_ - _)%nat with (S (List.length l2)) by lia. cbn [nth_error]. rewrite nth_error_app2, Nat.sub_diag by lia. reflexivity.
  - intros (i & j & LT & A & B). apply nth_error_split in A as (l1 & r & -> & <-). rewrite nth_error_app2 in B by lia.
    destruct (j - List.length l1)%nat as [|k] eqn:EK; [lia|]. cbn [nth_error] in B. apply nth_error_split in B as (l2 & l3 & -> & _). exists l1, l2, l3. reflexivity.
Qed.

Definition sorted (l : list T) := forall l1 u l2, l = l1 ++ u :: l2 -> forall w, In w l2 -> ~ more_specific (sig w) (sig u).

Lemma Forall2_split {A B} (P : A -> B -> Prop) l m1 y m2 : Forall2 P l (m1 ++ y :: m2) -> exists l1 x l2, l = l1 ++ x :: l2 /\ P x y /\ Forall2 P l1 m1 /\ Forall2 P l2 m2.
Proof. intros H. apply Forall2_app_inv_r in H as (l1 & r & H1 & H2 & ->). inversion H2; subst. eexists _, _, _. split; [reflexivity|auto]. Qed.
Lemma pick_all {A} (vs : list A) : forall order o, Permutation order (seq 0 (List.length vs)) -> Forall2 (fun i v => nth_error vs i = Some v) order o -> Permutation o vs.
Proof.
  intros order o P F.
  assert (X : exists o', Forall2 (fun i v => nth_error vs i = Some v) (seq 0 (List.length vs)) o' /\ Permutation o o').
  { revert o F. induction P as [|x l l' P IH|x y l|l l' l'' P1 IH1 P2 IH2]; intros o F.
    - inversion F; subst. exists []. split; constructor.
    - inversion F; subst. destruct (IH _ H3) as (o' & F' & Q). eexists (_ :: o'). split; [constructor; eauto|now constructor].
    - inversion F as [|? ? ? ? HA F1]; subst. inversion F1 as [|? ? ? ? HB F2]; subst. eexists (_ :: _ :: _). split; [constructor; [exact HB|constructor; [exact HA|exact F2]]|apply perm_swap].
    - destruct (IH1 _ F) as (o1 & F1 & Q1). destruct (IH2 _ F1) as (o2 & F2 & Q2). exists o2. split; auto. now transitivity o1. }
  destruct X as (o' & F' & Q). enough (o' = vs) by congruence. clear - F'.
  assert (Y : forall (pre l o'' : list A), Forall2 (fun i v => nth_error (pre ++ l) i = Some v) (seq (List.length pre) (List.length l)) o'' -> o'' = l).
  { intros pre l. revert pre. induction l as [|x l IH]; intros pre o'' F; cbn [List.length seq] in F; inversion F as [|? ? ? ? HA F2]; subst; auto.
    rewrite nth_error_app2, Nat.sub_diag in HA by lia. cbn [nth_error] in HA. injection HA as <-. f_equal. apply (IH (pre ++ [x])). rewrite <- app_assoc, app_length. cbn [app List.length]. rewrite Nat.add_1_r. exact F2. }
  apply (Y [] vs). exact F'.
Qed.

Theorem assign_ok ch : (0 < n)%nat ->
  match assign matches sig ch (map Some ts) with
  | (ch', Ok _) => (exists ts', ch' = map Some ts' /\ Permutation ts' ts /\ sorted ts') /\ (forall u v, two_of ts u v -> ~ unres u v)
  | (ch', Throw e) => (e = "ambiguous"%string /\ ch' = resize ch n /\ exists u v, two_of ts u v /\ unres u v) \/
                      (e = "not a dag"%string /\ (forall u v, two_of ts u v -> ~ unres u v) /\ exists i, clos_trans nat e_at i i)
  | _ => False
  end.
Proof.
  intros POS. unfold assign. rewrite vs_len.
  destruct (loop_i_ok (seq 0 n) (repeat [] n)) as [(es & E & LE & SE & UE)|(E & i & j & ti & tj & LT & A & B & U)].
  - intros i I. apply in_seq in I. lia.
  - apply repeat_length.
  - rewrite E.
    assert (S0 : forall a b, succ es a b <-> e_at a b).
    { intros a b. rewrite SE. split.
      - intros [(js & H & I)|[(_ & _ & H)|(_ & _ & H)]]; auto. apply nth_error_In, repeat_spec in H. subst. destruct I.
      - intros H. pose proof H as (u & v & A & B & X). pose proof (at_range _ _ A). pose proof (at_range _ _ B). destruct (Nat.lt_trichotomy a b) as [LT|[->|LT]].
        + right. left. split; [apply in_seq; lia|auto].
        + exfalso. unfold at_ in *. rewrite A in B. injection B as <-. apply edge_iff in X; auto. destruct X. tauto.
        + right. right. split; [apply in_seq; lia|auto]. }
    assert (GR : graph (List.length (map Some ts)) es).
    { split; [now rewrite vs_len|]. intros a b S. apply S0 in S as (u & v & _ & B & _). rewrite vs_len. eapply at_range; eauto. }
    assert (NU : forall u v, two_of ts u v -> ~ unres u v).
    { intros u v H. apply two_of_at in H as (i & j & LT & A & B). apply (UE i j); auto. apply in_seq. pose proof (at_range _ _ A). lia. }
    assert (LR : List.length (resize ch n) = List.length (map Some ts)).
    { rewrite vs_len. unfold resize. rewrite app_length, firstn_length, repeat_length. lia. }
    pose proof (sort_good (map Some ts) es GR (resize ch n) LR ltac:(rewrite vs_len; exact POS)) as H.
    destruct (topological_sort (map Some ts) es (resize ch n)) as [o [[]| | |]]; auto.
    + split; auto. destruct H as (order & (P & TP) & F). rewrite vs_len in P.
      assert (FT : exists ts', o = map Some ts' /\ Forall2 at_ order ts').
      { clear P TP. induction F as [|i v order o HI F IH].
        - exists []. split; auto.
        - destruct IH as (ts' & -> & F'). rewrite nth_error_map in HI. unfold option_map in HI. destruct (nth_error ts i) as [t|] eqn:ET; [|discriminate]. injection HI as <-. exists (t :: ts'). split; auto. }
      destruct FT as (ts' & -> & FT). exists ts'. split; auto. split; [apply (pick_all ts order); auto|].
      intros l1 u l2 -> w IW MS. apply in_split in IW as (l3 & l4 & ->).
      apply Forall2_split in FT as (o1 & a & r & -> & AU & _ & FT). apply Forall2_split in FT as (o2 & b & o3 & -> & AW & _ & _).
      assert (SB : succ es b a). { apply S0. exists w, u. split; auto. split; auto. apply edge_iff; auto. apply same_len. }
      destruct (TP b a SB) as (m1 & m2 & m3 & EQ).
      assert (ND : NoDup (o1 ++ a :: o2 ++ b :: o3)) by (eapply Permutation_NoDup; [apply Permutation_sym; exact P|apply seq_NoDup]).
      clear - EQ ND. revert m1 EQ ND. induction o1 as [|x o1 IH]; intros [|y m1] EQ ND; cbn [app] in *.
      * injection EQ as <- _. inversion ND as [|? ? X _]; subst. apply X. apply in_or_app. right. now left.
      * injection EQ as <- EQ. inversion ND as [|? ? X _]; subst. apply X. rewrite EQ. apply in_or_app. right. right. apply in_or_app. right. now left.
      * injection EQ as <- EQ. inversion ND as [|? ? X _]; subst. apply X. apply in_or_app. right. right. apply in_or_app. right. now left.
      * injection EQ as <- EQ. inversion ND; subst. eauto.
    + destruct H as (-> & (k & CY)). right. split; auto. split; auto.
      assert (CL : forall a b, clos_trans nat (succ es) a b -> clos_trans nat e_at a b).
      { intros a b C. induction C as [a b C|a b c _ IH1 _ IH2]; [apply t_step, S0; auto|eapply t_trans; eauto]. }
      exists k. auto.
  - rewrite E. left. split; auto. split; auto. exists ti, tj. split; auto. apply two_of_at. exists i, j. auto.
Qed.
End Dispatch.
