(** Proofs about the topological sort. *)
From Coq Require Import Relations.Relation_Operators Relations.Operators_Properties Sorting.Permutation.
From Verif Require Import Base DispatchModel DispatchSpec.

Lemma upd_length {A} (l : list A) i f : List.length (upd l i f) = List.length l.
Proof. revert i. induction l as [|x l IH]; intros [|i]; cbn [upd List.length]; auto. Qed.
Lemma upd_nth {A} (l : list A) i f k : nth_error (upd l i f) k = if (k =? i)%nat then option_map f (nth_error l k) else nth_error l k.
Proof.
  revert i k. induction l as [|x l IH]; intros i k.
  - cbn [upd]. destruct k; cbn [nth_error option_map]; destruct (_ =? i)%nat; auto.
  - destruct i as [|i], k as [|k]; cbn [upd nth_error]; auto. rewrite IH. reflexivity.
Qed.
Lemma upd_app {A} (l : list A) x r f i : i = List.length l -> upd (l ++ x :: r) i f = l ++ f x :: r.
Proof. intros ->. induction l as [|y l IH]; cbn [upd List.length app]; [auto|]. now rewrite IH. Qed.

Lemma sort_unfold {V} (vertices : list V) edges res : (0 < List.length vertices)%nat -> topological_sort vertices edges res =
  let n := List.length vertices in
  let (s, r) := visit_all vertices edges (S n) (seq 0 n) (mkts (repeat Unmarked n) res (n - 1)) in (out s, r).
Proof. unfold topological_sort. destruct (List.length vertices) as [|m]; [lia|]. intros _. cbv zeta. replace (S m - 1)%nat with m by lia. reflexivity. Qed.

Section Sort.
Context {V : Type}.
Variable vertices : list V.
Variable edges : list (list nat).
Let n := List.length vertices.
Hypothesis G : graph n edges.

Definition done_ok (done : list nat) := forall l1 i l2, done = l1 ++ i :: l2 -> forall j, succ edges i j -> In j l2.
Fixpoint chain (st : list nat) : Prop := match st with t0 :: ((t1 :: _) as r) => succ edges t1 t0 /\ chain r | _ => True end.
Definition Inv (s : @tstate V) (stack done : list nat) : Prop :=
  List.length (marks s) = n /\
  (forall i, In i done -> nth_error (marks s) i = Some Marked) /\
  (forall i, In i stack -> nth_error (marks s) i = Some Temporary) /\
  (forall i, nth_error (marks s) i = Some Marked -> In i done) /\
  (forall i, nth_error (marks s) i = Some Temporary -> In i stack) /\
  NoDup done /\ NoDup stack /\ chain stack /\ done_ok done /\
  (exists pre suf, out s = pre ++ suf /\ List.length pre = (n - List.length done)%nat /\ Forall2 (fun i v => nth_error vertices i = Some v) done suf) /\
  pos s = (n - 1 - List.length done)%nat.

Lemma in_range (s : @tstate V) i m : List.length (marks s) = n -> nth_error (marks s) i = Some m -> (i < n)%nat.
Proof. intros L E. rewrite <- L. apply nth_error_Some. congruence. Qed.
Lemma chain_path x l i : chain (x :: l) -> In i (x :: l) -> i = x \/ clos_trans nat (succ edges) i x.
Proof.
  revert x. induction l as [|y l IH]; intros x C [->|I]; auto; [destruct I|]. right. destruct C as (C1 & C2).
  destruct (IH y C2 I) as [->|P]; [now apply t_step|]. eapply t_trans; [exact P|]. now apply t_step.
Qed.
Lemma small (l : list nat) : NoDup l -> (forall i, In i l -> (i < n)%nat) -> (List.length l <= n)%nat.
Proof. intros N R. rewrite <- (seq_length n 0). apply NoDup_incl_length; auto. intros i I. apply in_seq. specialize (R i I). lia. Qed.

(** The inner loop of [visit], named. *)
Definition go (fuel : nat) := fix go (js : list nat) (s : @tstate V) : @tstate V * outcome unit :=
  match js with
  | [] => (s, Ok tt)
  | j :: js => match visit vertices edges fuel j s with (s, Ok _) => go js s | r => r end
  end.
Lemma visit_S fuel i s : visit vertices edges (S fuel) i s =
  match nth_error (marks s) i with
  | None => (s, UB)
  | Some Temporary => (s, Throw "not a dag")
  | Some Marked => (s, Ok tt)
  | Some Unmarked =>
      match nth_error edges i with
      | None => (s, UB)
      | Some js => match go fuel js (set_mark s i Temporary) with
                   | (s, Ok _) => emit vertices (set_mark s i Marked) i
                   | r => r
                   end
      end
  end.
Proof. reflexivity. Qed.

Definition good (s : @tstate V) (stack done : list nat) (is : list nat) (r : @tstate V * outcome unit) : Prop :=
  match r with
  | (s', Ok _) => exists done', Inv s' stack done' /\ incl is done' /\ incl done done'
  | (s', Throw e) => e = "not a dag"%string /\ exists k, clos_trans nat (succ edges) k k
  | _ => False
  end.

Lemma visit_good fuel : forall i s stack done, Inv s stack done -> (i < n)%nat -> (n - List.length stack < fuel)%nat ->
  (match stack with [] => True | t :: _ => succ edges t i end) -> good s stack done [i] (visit vertices edges fuel i s).
Proof.
  induction fuel as [|fuel IH]; intros i s stack done I HI F T; [lia|].
  rewrite visit_S. pose proof I as (I1 & I2 & I3 & I4 & I5 & I6 & I7 & I8 & I9 & (pre & suf & O1 & O2 & O3) & I11).
  destruct (nth_error (marks s) i) as [[]|] eqn:M.
  - (* unmarked *)
    destruct G as (G1 & G2). destruct (nth_error edges i) as [js|] eqn:E; [|apply nth_error_None in E; lia].
    assert (NS : ~ In i stack) by (intros H; apply I3 in H; congruence).
    assert (ND : ~ In i done) by (intros H; apply I2 in H; congruence).
    assert (J : Inv (set_mark s i Temporary) (i :: stack) done).
    { unfold Inv. cbn [set_mark marks out pos]. split; [now rewrite upd_length|]. split; [|split; [|split; [|split; [|split; [|split; [|split; [|split; [|split]]]]]]]]; auto.
      - intros k K. rewrite upd_nth. destruct (Nat.eqb_spec k i) as [->|]; [tauto|auto].
      - intros k [<-|K]; rewrite upd_nth; [rewrite Nat.eqb_refl, M; reflexivity|]. destruct (Nat.eqb_spec k i) as [->|]; [tauto|auto].
      - intros k. rewrite upd_nth. destruct (Nat.eqb_spec k i) as [->|]; [rewrite M; discriminate|auto].
      - intros k. rewrite upd_nth. destruct (Nat.eqb_spec k i) as [->|]; [now left|right; auto].
      - now constructor.
      - destruct stack; cbn [chain]; auto.
      - eauto. }
    assert (L : (List.length (i :: stack) <= n)%nat).
    { apply small; [now constructor|]. intros k [<-|K]; auto. apply I3 in K. eapply in_range; eauto. }
    cbn [List.length] in L.
    assert (GO : forall js' s' done', (forall j, In j js' -> In j js) -> Inv s' (i :: stack) done' -> good s' (i :: stack) done' js' (go fuel js' s')).
    { induction js' as [|j js' IHj]; intros s' done' SUB J'.
      - exists done'. split; auto. split; [easy|apply incl_refl].
      - cbn [go]. assert (SJ : succ edges i j) by (exists js; split; [auto|apply SUB; now left]).
        assert (H := IH j s' (i :: stack) done' J' (G2 i j SJ) ltac:(cbn [List.length]; lia) SJ).
        destruct (visit vertices edges fuel j s') as [s2 [[]| | |]]; cbn [good] in H; auto.
        destruct H as (d2 & J2 & IN & INC).
        specialize (IHj s2 d2 (fun j' H => SUB j' (or_intror H)) J2). fold (go fuel js' s2).
        destruct (go fuel js' s2) as [s3 [[]| | |]]; cbn [good] in IHj |- *; auto.
        destruct IHj as (d3 & J3 & IN3 & INC3). exists d3. split; auto. split.
        + intros k [<-|K]; auto. apply INC3, IN. now left.
        + intros k K. auto. }
    specialize (GO js _ done (fun j H => H) J). destruct (go fuel js (set_mark s i Temporary)) as [s2 [[]| | |]]; cbn [good] in GO; auto.
    destruct GO as (d2 & J2 & IN & INC). pose proof J2 as (K1 & K2 & K3 & K4 & K5 & K6 & K7 & K8 & K9 & (pre2 & suf2 & P1 & P2 & P3) & K11).
    assert (MI : nth_error (marks s2) i = Some Temporary) by (apply K3; now left).
    assert (ND2 : ~ In i d2) by (intros H; apply K2 in H; congruence).
    assert (L2 : (List.length (i :: d2) <= n)%nat).
    { apply small; [now constructor|]. intros k [<-|K]; auto. apply K2 in K. eapply in_range; eauto. }
    cbn [List.length] in L2.
    unfold emit. destruct (nth_error vertices i) as [v|] eqn:EV; [|apply nth_error_None in EV; fold n in EV; lia].
    cbn [set_mark marks out pos].
    assert (LO : List.length (out s2) = n). { rewrite P1, app_length, <- (Forall2_length P3), P2. lia. }
    destruct (Nat.ltb_spec (pos s2) (List.length (out s2))) as [_|BAD]; [|rewrite LO, K11 in BAD; lia].
    destruct (exists_last (l := pre2)) as (pre3 & x & EP); [intros ->; cbn [List.length] in P2; lia|].
    assert (LP : List.length pre3 = (n - 1 - List.length d2)%nat) by (rewrite EP, app_length in P2; cbn [List.length] in P2; lia).
    cbn [good]. exists (i :: d2). split; [|split; [intros k [<-|[]]; now left|intros k K; right; auto]].
    unfold Inv. cbn [marks out pos]. split; [now rewrite upd_length|]. split; [|split; [|split; [|split; [|split; [|split; [|split; [|split; [|split]]]]]]]]; auto.
    + intros k [<-|K]; rewrite upd_nth; [rewrite Nat.eqb_refl, MI; reflexivity|]. destruct (Nat.eqb_spec k i) as [->|]; [tauto|auto].
    + intros k K. rewrite upd_nth. destruct (Nat.eqb_spec k i) as [->|]; [tauto|]. apply K3. now right.
    + intros k. rewrite upd_nth. destruct (Nat.eqb_spec k i) as [->|]; [now left|right; auto].
    + intros k. rewrite upd_nth. destruct (Nat.eqb_spec k i) as [->|NE]; [rewrite MI; discriminate|]. intros K. destruct (K5 k K) as [E'|]; [congruence|auto].
    + now constructor.
    + intros l1 k l2 EQ j SJ. destruct l1 as [|y l1]; injection EQ as -> EQ.
      * subst l2. destruct SJ as (js' & E' & IJ). rewrite E in E'. injection E' as <-. auto.
      * eapply K9; eauto.
    + exists pre3, (v :: suf2). rewrite P1, EP. split; [rewrite <- app_assoc; cbn [app]; apply upd_app; lia|]. split; [cbn [List.length]; lia|]. now constructor.
    + cbn [List.length]. rewrite K11. destruct (Nat.eqb_spec (n - 1 - List.length d2) 0); lia.
  - (* temporary *)
    cbn [good]. split; auto. specialize (I5 i M). destruct stack as [|t stack]; [destruct I5|].
    exists i. destruct (chain_path t stack i I8 I5) as [->|P]; [now apply t_step|]. eapply t_trans; [exact P|now apply t_step].
  - (* marked *)
    cbn [good]. exists done. split; auto. split; [intros k [<-|[]]; auto|apply incl_refl].
  - apply nth_error_None in M. lia.
Qed.

Lemma visit_all_good fuel : (n < fuel)%nat -> forall is s done, (forall i, In i is -> (i < n)%nat) -> Inv s [] done -> good s [] done is (visit_all vertices edges fuel is s).
Proof.
  intros F. induction is as [|i is IH]; intros s done R I.
  - exists done. split; auto. split; [easy|apply incl_refl].
  - cbn [visit_all]. assert (H := visit_good fuel i s [] done I (R i (or_introl eq_refl)) ltac:(cbn [List.length]; lia) Logic.I).
    destruct (visit vertices edges fuel i s) as [s2 [[]| | |]]; cbn [good] in H; auto.
    destruct H as (d2 & J2 & IN & INC). specialize (IH s2 d2 (fun k K => R k (or_intror K)) J2).
    destruct (visit_all vertices edges fuel is s2) as [s3 [[]| | |]]; cbn [good] in IH |- *; auto.
    destruct IH as (d3 & J3 & IN3 & INC3). exists d3. split; auto. split; [intros k [<-|K]; auto; apply INC3, IN; now left|intros k K; auto].
Qed.

Lemma topological_acyclic order : topological n edges order -> acyclic edges.
Proof.
  intros (P & T) i C.
  assert (ND : NoDup order) by (eapply Permutation_NoDup; [apply Permutation_sym; exact P|apply seq_NoDup]).
  assert (X : forall a b, clos_trans nat (succ edges) a b -> exists l1 l2 l3, order = l1 ++ a :: l2 ++ b :: l3).
  { intros a b H. apply clos_trans_tn1 in H. induction H as [b H|b c H _ IH]; [now apply T|].
    destruct IH as (l1 & l2 & l3 & E). destruct (T b c H) as (m1 & m2 & m3 & E').
    assert (E2 : (l1 ++ a :: l2) ++ b :: l3 = m1 ++ b :: m2 ++ c :: m3) by (rewrite <- app_assoc; cbn [app]; congruence).
    assert (l3 = m2 ++ c :: m3).
    { rewrite E in ND. replace (l1 ++ a :: l2 ++ b :: l3) with ((l1 ++ a :: l2) ++ b :: l3) in ND by (rewrite <- app_assoc; reflexivity).
      revert E2 ND. generalize (l1 ++ a :: l2). intros l E2 ND. clear - E2 ND. revert m1 E2.
      induction l as [|x l IH]; intros [|y m1] E2; cbn [app] in *; inversion E2; subst; auto.
      - inversion ND as [|? ? N _]; subst. exfalso. apply N. apply in_or_app. right. now left.
      - inversion ND as [|? ? N _]; subst. exfalso. apply N. apply in_or_app. right. now left.
      - inversion ND; subst. eauto. }
    subst l3. exists l1, (l2 ++ b :: m2), m3. rewrite E, <- app_assoc. reflexivity. }
  destruct (X i i C) as (l1 & l2 & l3 & E). rewrite E in ND. apply NoDup_remove_2 in ND. apply ND. apply in_or_app. right. apply in_or_app. right. now left.
Qed.

Theorem sort_good res : List.length res = n -> (0 < n)%nat ->
  match topological_sort vertices edges res with
  | (o, Ok _) => exists order, topological n edges order /\ Forall2 (fun i v => nth_error vertices i = Some v) order o
  | (_, Throw e) => e = "not a dag"%string /\ exists k, clos_trans nat (succ edges) k k
  | _ => False
  end.
Proof.
  intros LR POS. rewrite sort_unfold by (exact POS). fold n. cbv zeta. set (m := (n - 1)%nat).
  assert (I0 : Inv (mkts (repeat Unmarked n) res m) [] []).
  { unfold Inv. cbn [marks out pos]. split; [apply repeat_length|]. split; [easy|]. split; [easy|]. split; [|split; [|split; [|split; [|split; [|split; [|split]]]]]].
    - intros i E. apply nth_error_In, repeat_spec in E. discriminate.
    - intros i E. apply nth_error_In, repeat_spec in E. discriminate.
    - constructor.
    - constructor.
    - exact Logic.I.
    - intros [|? ?] ? ? E; discriminate.
    - exists res, []. split; [now rewrite app_nil_r|]. cbn [List.length]. split; [lia|constructor].
    - subst m. cbn [List.length]. lia. }
  assert (H := visit_all_good (S n) ltac:(lia) (seq 0 n) _ [] (fun i K => proj2 (proj1 (in_seq _ _ _) K)) I0).
  destruct (visit_all vertices edges (S n) (seq 0 n) (mkts (repeat Unmarked n) res m)) as [s2 [[]| | |]]; cbn [good] in H; auto.
  destruct H as (d & (K1 & K2 & K3 & K4 & K5 & K6 & K7 & K8 & K9 & (pre & suf & P1 & P2 & P3) & K11) & IN & _).
  assert (PM : Permutation d (seq 0 n)).
  { apply NoDup_Permutation; auto; [apply seq_NoDup|]. intros k. split; [|apply IN]. intros K. apply in_seq. apply K2 in K. apply in_range in K; auto. lia. }
  assert (LD : List.length d = n) by (rewrite (Permutation_length PM); apply seq_length).
  exists d. split.
  - split; auto. intros i j S. destruct G as (G1 & G2). assert (II : In i d). { apply IN, in_seq. destruct S as (js & E & _). assert (i < List.length edges)%nat by (apply nth_error_Some; congruence). lia. }
    apply in_split in II as (l1 & l2 & E). pose proof (K9 l1 i l2 E j S) as J. apply in_split in J as (l3 & l4 & ->). exists l1, l3, l4. exact E.
  - rewrite P1. destruct pre; [exact P3|]. cbn [List.length] in P2. lia.
Qed.
End Sort.
