(** C42: reference counting, for every number of threads and every interleaving. *)
From Verif Require Import Base RefCountModel RefCountSpec RefCountProofs RefCountProofs2 RefCountProofs3 RefCountProofs4 RefCountProofs5 RefCountEffect.
Open Scope nat_scope.

(** No step of any thread ever touches a deleted object (or any other undefined
    behaviour): a thread in the middle of an operation can always go on. *)
Theorem C42_safe_partial : forall n t s i x, reachable n t s -> nth_error (thr s) i = Some (Some x) -> exists s', exec s i = Ok s'.
Proof. intros n t s i x R T. destruct (exec_ok s i x (reachable_inv n t s R) T) as (s' & E & _). eauto. Qed.
Print Assumptions C42_safe_partial.
(** No destructor runs twice. *)
Theorem C42_freed_once : forall n t s o b, reachable n t s -> nth_error (heap s) o = Some b -> frees b = if alive b then 0 else 1.
Proof. intros n t s o b R. apply (I_frees s (reachable_inv n t s R)). Qed.
Print Assumptions C42_freed_once.
(** An object the program can get at is not freed, at any point of any schedule. *)
Theorem C42_not_early : forall n t s o, reachable n t s -> held s o -> is_alive s o.
Proof.
  intros n t s o R H. pose proof (reachable_inv n t s R) as I. induction H as [v c o V O P|o b i o' H IH B F].
  - apply refs_alive; auto. pose proof (owned_refs s v c o V O P). unfold refs. lia.
  - destruct IH as (b' & B' & A). rewrite B in B'. injection B' as <-. apply refs_alive; auto. assert (0 < RF s o') by (eapply field_refs_pos; eauto; eapply nth_error_In; eauto). unfold refs. lia.
Qed.
Print Assumptions C42_not_early.
(** Between operations, exactly the objects the program can get at are alive, and
    each count is the number of references. *)
Theorem C42_exact : forall n t s, reachable n t s -> quiet s ->
  (forall o, is_alive s o <-> held s o) /\
  (forall o b, nth_error (heap s) o = Some b -> alive b = true -> cnt b = Z.of_nat (var_refs s o + field_refs s o) /\ 0 < var_refs s o + field_refs s o).
Proof.
  intros n t s R Q. pose proof (reachable_inv n t s R) as I.
  assert (T0 : forall f, sumf (wt f) (thr s) = 0). { intros f. destruct (sumf (wt f) (thr s)) eqn:E; auto. destruct (sumf_pos (wt f) (thr s)) as (i & x & X & P); [lia|]. apply Q in X. subst x. cbn in P. lia. }
  assert (OW : forall v c, nth_error (vars s) v = Some c -> owned c = true). { intros v c V. destruct (owned c) eqn:O; auto. destruct (I_own s I v c V O) as (i & p & k & X & _). apply Q in X. discriminate. }
  assert (RVE : forall o, RV s o = var_refs s o). { intros o. unfold RV, var_refs. change (sum (map (fun c => points o (ptr c)) (vars s))) with (sumf (fun c => points o (ptr c)) (vars s)). apply sumf_ext. intros c C. apply In_nth_error in C as (v & C). unfold wv. rewrite (OW v c C). reflexivity. }
  assert (RFE : forall o, RF s o = field_refs s o) by (intros o; reflexivity).
  assert (POS : forall o, is_alive s o -> 0 < RV s o + RF s o). { intros o A. pose proof (I_del s I o A) as D. unfold DT in D. rewrite T0 in D. destruct (Nat.eqb_spec (refs s o) 0); [discriminate|]. unfold refs, TR in *. rewrite T0 in *. lia. }
  split.
  - intros o. split; [|eapply C42_not_early; eauto]. intros A.
    remember (List.length (heap s) - o) as d eqn:Ed. revert o A Ed. induction d as [d IH] using lt_wf_ind. intros o A Ed. pose proof (POS o A) as P.
    destruct (RV s o) eqn:V.
    + destruct (sumf_pos (wf o) (heap s)) as (o' & b & B & W); [unfold RF in P; lia|]. unfold wf in W. destruct (alive b) eqn:AB; [|lia].
      destruct (sumf_pos (points o) (fields b) W) as (j & q & F & PQ). apply points_pos in PQ. subst q.
      assert (L : o < o') by (eapply (I_acyc s I); eauto; eapply nth_error_In; eauto). assert (L2 : o' < List.length (heap s)) by (apply nth_error_Some; congruence).
      eapply held_field with (o := o'); eauto. apply (IH (List.length (heap s) - o')); auto; [lia|]. exists b; auto.
    + destruct (sumf_pos (wv o) (vars s)) as (v & c & C & W); [unfold RV in V; lia|]. unfold wv in W. destruct (owned c) eqn:O; [|lia]. apply points_pos in W. eapply held_var; eauto.
  - intros o b B A. pose proof (I_alive s I o b B A) as X. unfold PT, refs, TR in X. rewrite !T0 in X. rewrite <- RVE, <- RFE. split; [lia|]. apply POS. exists b; auto.
Qed.
Print Assumptions C42_exact.

(** Every operation ends, destructors included: a step always lowers this number. *)
Definition weight (m : micro) : nat :=
  match m with
  | MRetain _ | MDelete _ | MMoveC _ _ | MMoveA2 _ _ | MSwap _ _ | MUse _ => 1
  | MRelease _ | MAssign2 _ _ | MRaw2 _ _ | MCopy _ _ => 2
  | MNew _ fs => 2 * List.length fs + 1
  | MDestroy _ => 3 | MMoveA1 _ _ => 4 | MAssign1 _ _ | MRaw1 _ _ => 5
  end.
Definition work (s : state) : nat :=
  sumf (fun x => match x with Some (_, k) => S (sumf weight k) | None => 0 end) (thr s) + sumf (fun b => if alive b then 2 * List.length (fields b) else 0) (heap s).
Lemma release_weight p : sumf weight (release p) <= 2.
Proof. destruct p; cbn; lia. Qed.
Lemma releases_weight l : sumf weight (flat_map release l) <= 2 * List.length l.
Proof. induction l as [|p l IH]; [cbn; lia|]. cbn [flat_map List.length]. rewrite sumf_app. pose proof (release_weight p). lia. Qed.
Lemma retain_weight p : sumf weight (retain p) <= 1.
Proof. destruct p; cbn; lia. Qed.
Theorem C42_ends : forall s i s', exec s i = Ok s' -> work s' < work s.
Proof.
  intros s i s' E. unfold exec in E. destruct (nth_error (thr s) i) as [[(p, [|m k])|]|] eqn:T; try discriminate.
  - injection E as <-. unfold work. cbn [thr heap]. pose proof (sumf_upd (fun x => match x with Some (_, k) => S (sumf weight k) | None => 0 end) (thr s) i _ None T) as X. cbn beta iota in X. lia.
  - destruct (exec_micro s m) as [((vs, h), ms)| | |] eqn:M; try discriminate. cbn [bind fst snd] in E. injection E as <-.
    unfold work. cbn [thr heap]. pose proof (sumf_upd (fun x => match x with Some (_, k) => S (sumf weight k) | None => 0 end) (thr s) i _ (Some (p, ms ++ k)) T) as X. cbn beta iota in X. rewrite sumf_app, sumf_cons in X.
    set (g := fun b : obj => if alive b then 2 * List.length (fields b) else 0).
    enough (sumf weight ms + sumf g h < weight m + sumf g (heap s)) by lia. clear X T.
    destruct m as [o|o|o|v fs|v r|v x|v r|v r|v r|v q|v x|v x|v x|v|x]; cbn [exec_micro weight] in *;
      try (unfold at_obj in M; destruct (nth_error (heap s) o) as [b|] eqn:B; try discriminate; destruct (alive b) eqn:A; try discriminate; cbn [bind fst snd] in M; injection M as <- <- <-;
           match goal with |- context [upd (heap s) o ?b'] => pose proof (sumf_upd g (heap s) o b b' B) as G end; unfold g in G at 2 4; cbn [alive fields] in G; rewrite A in G).
    + rewrite sumf_nil. lia.
    + destruct (_ =? _)%Z; rewrite ?sumf_cons, ?sumf_nil; cbn [weight]; lia.
    + pose proof (releases_weight (fields b)). lia.
    + injection M as <- <- <-. rewrite sumf_app, sumf_cons, !sumf_nil. unfold g at 2. cbn [alive fields]. rewrite map_length. lia.
    + destruct (read s r) as [q| | |]; try discriminate. cbn [bind] in M. injection M as <- <- <-. pose proof (retain_weight q). lia.
    + injection M as <- <- <-. rewrite sumf_nil. lia.
    + injection M as <- <- <-. rewrite sumf_app, sumf_cons, sumf_nil. cbn [weight]. pose proof (release_weight (getv s v)). lia.
    + destruct (read s r) as [q| | |]; try discriminate. cbn [bind] in M. injection M as <- <- <-. pose proof (retain_weight q). lia.
    + destruct (read s r) as [q| | |]; try discriminate. cbn [bind] in M. injection M as <- <- <-. rewrite sumf_app, sumf_cons, sumf_nil. cbn [weight]. pose proof (release_weight (getv s v)). lia.
    + injection M as <- <- <-. pose proof (retain_weight q). lia.
    + injection M as <- <- <-. rewrite sumf_app, sumf_cons, sumf_nil. cbn [weight]. pose proof (release_weight (getv s v)). lia.
    + injection M as <- <- <-. rewrite sumf_nil. lia.
    + injection M as <- <- <-. rewrite sumf_nil. lia.
    + injection M as <- <- <-. pose proof (release_weight (getv s v)). lia.
    + destruct (getv s x) as [o|]; [|discriminate]. unfold at_obj in M. destruct (nth_error (heap s) o) as [b|]; try discriminate. destruct (alive b); try discriminate. injection M as <- <- <-. rewrite sumf_nil. lia.
Qed.
Print Assumptions C42_ends.
(** So from every state the threads can be run to the end of what they are doing. *)
Inductive runs : state -> state -> Prop :=
| runs_end s : runs s s
| runs_step s i s1 s2 : exec s i = Ok s1 -> runs s1 s2 -> runs s s2.
Theorem C42_drains : forall n t s, reachable n t s -> exists s', runs s s' /\ quiet s'.
Proof.
  intros n t s R. remember (work s) as w eqn:W. revert s R W. induction w as [w IH] using lt_wf_ind. intros s R W.
  destruct (Exists_dec (fun x => x <> None) (thr s)) as [X|X].
  { intros [x|]; [left; discriminate|right; intros H; apply H; reflexivity]. }
  - apply Exists_exists in X as (x & X & NX). apply In_nth_error in X as (i & X). destruct x as [x|]; [|congruence].
    destruct (C42_safe_partial n t s i x R X) as (s1 & E). pose proof (C42_ends s i s1 E). destruct (IH (work s1) ltac:(lia) s1) as (s2 & R2 & Q2); [eapply reach_exec; eauto|reflexivity|].
    exists s2. split; auto. eapply runs_step; eauto.
  - exists s. split; [constructor|]. intros i x H. destruct x as [x|]; auto. exfalso. apply X. apply Exists_exists. exists (Some x). split; [eapply nth_error_In; eauto|discriminate].
Qed.
Print Assumptions C42_drains.

(** When an operation ends, whatever the others did meanwhile, the variables it names
    hold what it is meant to give them. *)
Theorem C42_effect : forall n t s i p s', reachable n t s -> nth_error (thr s) i = Some None -> pre s p -> alias_free p ->
  (forall j q k, nth_error (thr s) j = Some (Some (q, k)) -> compatible p q) -> during i (start s i p) s' -> nth_error (thr s') i = Some None -> effect s p s'.
Proof.
  intros n t s i p s' R T PR AL CO D E. destruct (during_busy n t s i p s' R T PR AL CO D) as (_ & _ & _ & _ & [(k & TI & _)|(_ & X)]); [congruence|exact X].
Qed.
Print Assumptions C42_effect.

(** A schedule: start an operation in a thread, or let it make a step. *)
Inductive event := Start (i : nat) (p : op) | Step (i : nat).
Fixpoint play (s : state) (l : list event) : outcome state :=
  match l with
  | [] => Ok s
  | Start i p :: l => match nth_error (thr s) i with Some None => play (start s i p) l | _ => UB end
  | Step i :: l => do s' <- exec s i; play s' l
  end.
(** Refuted without the alias condition: assigning the only pointer to itself, by
    either assignment operator, increments the count of the deleted object, ... *)
Theorem C42_self_assign_refuted : forall p, p = Assign 0 (SVar 0) \/ p = AssignRaw 0 (SVar 0) ->
  exists s, play (initial 2 1) [Start 0 (New 0 []); Step 0; Step 0] = Ok s /\ reachable 2 1 s /\ quiet s /\ pre s p /\ play s [Start 0 p; Step 0; Step 0; Step 0; Step 0; Step 0] = UB.
Proof.
  intros p H. exists {| vars := [{| ptr := Some 0; owned := true |}; {| ptr := None; owned := true |}]; heap := [{| cnt := 1; alive := true; fields := []; frees := 0 |}]; thr := [None] |}.
  split; [reflexivity|]. split; [|split; [|split]].
  - eapply reach_exec with (i := 0); [eapply reach_exec with (i := 0); [eapply reach_start with (i := 0) (p := New 0 [])|]|].
    + apply reach_initial.
    + reflexivity.
    + split; [split; [reflexivity|constructor; [intros []|constructor]]|]. intros v [ <- |[]]. cbn. lia.
    + exact Logic.I.
    + intros [|[|j]] q k T; discriminate.
    + reflexivity.
    + reflexivity.
  - intros [|[|i]] x X; cbn in X; congruence.
  - destruct H as [ -> | -> ]; (split; [cbn; lia|]); intros v V; cbn in V |- *; destruct V as [ <- |[ <- |[]]]; lia.
  - destruct H as [ -> | -> ]; reflexivity.
Qed.
Print Assumptions C42_self_assign_refuted.
(** ... and so does assigning to the only pointer a member of its own object, as
    tp = tp.extended<base_dim_type>()->get_element_type() does. *)
Theorem C42_member_assign_refuted : forall p, p = Assign 0 (SField 0 0) \/ p = AssignRaw 0 (SField 0 0) ->
  exists s, play (initial 2 1) [Start 0 (New 1 []); Step 0; Step 0; Start 0 (New 0 [1]); Step 0; Step 0] = Ok s /\ pre s p /\
  play s ([Start 0 p; Step 0; Step 0; Step 0; Step 0; Step 0; Step 0] ++ match p with AssignRaw _ _ => [Step 0] | _ => [] end) = UB.
Proof.
  intros p H. exists {| vars := [{| ptr := Some 1; owned := true |}; {| ptr := None; owned := true |}];
    heap := [{| cnt := 1; alive := true; fields := []; frees := 0 |}; {| cnt := 1; alive := true; fields := [Some 0]; frees := 0 |}]; thr := [None] |}.
  split; [reflexivity|]. split.
  - destruct H as [ -> | -> ]; (split; [cbn; eexists; eexists; split; [reflexivity|split; [reflexivity|cbn; lia]]|]); intros v V; cbn in V |- *; destruct V as [ <- |[ <- |[]]]; lia.
  - destruct H as [ -> | -> ]; reflexivity.
Qed.
Print Assumptions C42_member_assign_refuted.
(** Refuted: != of two smart pointers says what == says. *)
Theorem C42_not_equal_refuted : forall p, op_ne p p = true /\ (p <> None -> op_ne p None = false).
Proof. intros [q|]; split; cbn; auto; [apply Nat.eqb_refl|congruence]. Qed.
Print Assumptions C42_not_equal_refuted.
(** Two threads copy one variable at the same time, then all three pointers go. *)
Example C42_case : exists s, play (initial 3 2) [Start 0 (New 0 []); Step 0; Step 0; Start 0 (Copy 1 (SVar 0)); Start 1 (Copy 2 (SVar 0)); Step 0; Step 1; Step 1; Step 0; Step 0; Step 1;
    Start 0 (Destroy 0); Start 1 (Destroy 2); Step 1; Step 0; Step 0; Step 1; Step 0; Step 1; Start 1 (Destroy 1); Step 1; Step 1; Step 1; Step 1] = Ok s /\
  heap s = [{| cnt := 0; alive := false; fields := []; frees := 1 |}] /\ compatible (Copy 1 (SVar 0)) (Copy 2 (SVar 0)).
Proof.
  exists {| vars := [{| ptr := None; owned := true |}; {| ptr := None; owned := true |}; {| ptr := None; owned := true |}];
            heap := [{| cnt := 0; alive := false; fields := []; frees := 1 |}]; thr := [None; None] |}.
  split; [vm_compute; reflexivity|]. split; [reflexivity|]. split; cbn; intros v V; lia.
Qed.
