(** C41: the type-id registry, for every history of calls. *)
From Coq Require FinFun.
From Verif Require Import Base TypesModel RegistryModel RegistrySpec RegistryProofs.

(** new_id gives each id once, and never a predefined one. *)
Theorem C41_fresh : forall h, let ids := issued (snd (run initial h)) in
  NoDup ids /\ (forall i, In i ids -> Z.of_nat (List.length predefined) <= i) /\ List.length ids = List.length (registered h).
Proof.
  intros h. cbv zeta. rewrite run_issued. split; [|split].
  - apply FinFun.Injective_map_NoDup; [intros x y; apply Nat2Z.inj|apply seq_NoDup].
  - intros i H. apply in_map_iff in H as (k & <- & H). apply in_seq in H. change (List.length (infos initial)) with (List.length predefined) in H. lia.
  - rewrite map_length, seq_length. reflexivity.
Qed.
Print Assumptions C41_fresh.
(** The id new_id returns has the given name and base, and keeps them, as all ids do,
    whatever is called later. *)
Theorem C41_stable : forall h1 n b h2, let '(r, a) := step (fst (run initial h1)) (New n b) in
  exists i, a = Id (Z.of_nat i) /\ nth_error (known (h1 ++ New n b :: h2)) i = Some (n, b) /\
  nth_error (heads (fst (run r h2))) i = Some (n, b) /\ get_base_id (fst (run r h2)) (Z.of_nat i) = Ok b /\
  (forall j x, nth_error (known h1) j = Some x -> nth_error (heads (fst (run r h2))) j = Some x).
Proof.
  intros h1 n b h2. pose proof (step_heads (fst (run initial h1)) (New n b)) as S. cbn [step] in *.
  pose proof (new_infos (fst (run initial h1)) n b) as (_ & N). destruct (new_id (fst (run initial h1)) n b) as (r, i). cbn [fst snd] in *.
  exists (List.length (known h1)). rewrite run_initial in S. rewrite <- run_initial, heads_length. rewrite N. split; [reflexivity|].
  assert (K : nth_error (known (h1 ++ New n b :: h2)) (List.length (infos (fst (run initial h1)))) = Some (n, b)).
  { unfold known. assert (X : registered (h1 ++ New n b :: h2) = registered h1 ++ (n, b) :: registered h2) by (clear; induction h1 as [|[] h1 IH]; cbn [app registered]; [reflexivity|rewrite IH; reflexivity|exact IH|exact IH]).
    rewrite X, app_assoc. change (predefined ++ registered h1) with (known h1). rewrite <- heads_length, run_initial, nth_error_app2, Nat.sub_diag by lia. reflexivity. }
  assert (K2 : nth_error (heads (fst (run r h2))) (List.length (infos (fst (run initial h1)))) = Some (n, b)).
  { rewrite run_heads, S, <- app_assoc, <- heads_length, run_initial, nth_error_app2, Nat.sub_diag by lia. reflexivity. }
  split; [exact K|split; [exact K2|split]].
  - unfold get_base_id. rewrite Nat2Z.id. unfold heads in K2. rewrite nth_error_map in K2. destruct (nth_error (infos (fst (run r h2))) _) as [e|]; [|discriminate]. injection K2 as <- <-.
    match goal with |- (if ?c then _ else _) = _ => destruct c eqn:? end; [lia|reflexivity].
  - intros j x J. try rewrite run_initial in J. rewrite run_heads, S, <- app_assoc. rewrite nth_error_app1; [exact J|]. apply nth_error_Some. congruence.
Qed.
Print Assumptions C41_stable.
(** lookup_id_by_name finds the least id of the name, with its entry, or nothing. *)
Theorem C41_lookup : forall h n, let r := fst (run initial h) in
  (exists i e, lookup_id_by_name r n = (Z.of_nat i, Some (gen r, i)) /\ least_id (known h) n i /\ deref r (gen r, i) = Ok e /\ name e = n) \/
  (lookup_id_by_name r n = (0, None) /\ unknown (known h) n).
Proof.
  intros h n. cbv zeta. pose proof (lookup_spec (fst (run initial h)) n) as L. destruct (lookup_id_by_name (fst (run initial h)) n) as (i, [p|]).
  - left. destruct L as (k & -> & -> & L). rewrite run_initial in L. 
    assert (X : exists e, nth_error (infos (fst (run initial h))) k = Some e /\ name e = n).
    { destruct L as ((b & L) & _). rewrite <- run_initial in L. unfold heads in L. rewrite nth_error_map in L. destruct (nth_error _ k) as [e|]; [|discriminate]. injection L as <- _. eauto. }
    destruct X as (e & X1 & X2). exists k, e. split; [reflexivity|]. split; [exact L|]. split; [|exact X2]. unfold deref. cbn [fst snd]. rewrite Nat.eqb_refl, X1. reflexivity.
  - right. destruct L as (-> & L). rewrite run_initial in L. auto.
Qed.
Print Assumptions C41_lookup.
(** A successful registration with a constructor (or a singleton) takes effect, and
    is the last for that id: later registrations throw and nothing changes it. *)
Theorem C41_once : forall h1 id s c p r, step (fst (run initial h1)) (Register id s c p) = (r, Done (Ok tt)) -> (s <> None \/ c <> None) ->
  (exists q, construction r id = Some (s, c, q) /\ (c <> None -> q = Some (match p with Some f => f | None => default_parse end)) /\
   forall h2, construction (fst (run r h2)) id = Some (s, c, q) /\
     forall s' c' p', step (fst (run r h2)) (Register id s' c' p') = (fst (run r h2), Done (Throw "runtime_error"))) /\
  construction (fst (run initial h1)) id = Some (None, None, None) /\
  (forall j, 0 <= j -> j <> id -> construction r j = construction (fst (run initial h1)) j).
Proof.
  intros h1 id s c p r E NN. cbn [step] in E. pose proof (register_spec (fst (run initial h1)) id s c p) as R. destruct (register_known (fst (run initial h1)) id s c p) as (r', o).
  injection E as -> ->. destruct R as [(_ & m & [=])|(R & C0 & _ & _ & H & C & F & _)]. split; [|split; [exact C0|intros; apply F; auto]].
  eexists. split; [exact C|]. split; [destruct c; [destruct p; reflexivity|congruence]|]. intros h2.
  match goal with |- ?A /\ _ => assert (X : A) end. { apply run_construction; [lia|exact C|]. destruct s, c; try (intros [=]; fail). destruct NN; congruence. }
  split; [exact X|]. intros s' c' p'. cbn [step]. unfold register_known.
  assert (L : Z.of_nat (List.length (infos (fst (run r h2)))) > id).
  { rewrite <- heads_length, run_heads, app_length, H, heads_length. lia. }
  destruct (Z.ltb_spec id 0); [lia|]. destruct (Z.geb_spec id (Z.of_nat (List.length (infos (fst (run r h2)))))); [lia|]. cbn [orb].
  unfold construction in X. destruct (nth_error (infos (fst (run r h2))) (Z.to_nat id)) as [ii|]; [|discriminate]. injection X as X1 X2 X3. rewrite X1, X2.
  destruct s, c; cbn [is_some orb]; try reflexivity. destruct NN; congruence.
Qed.
Print Assumptions C41_once.
(** Bases that were ids when given: from every id the bases lead to the root, in
    every history. *)
Theorem C41_rooted : forall h id, bases_valid (Z.of_nat (List.length predefined)) h -> 0 <= id < Z.of_nat (List.length (known h)) -> rooted (fst (run initial h)) id.
Proof.
  intros h id V I. rewrite <- run_initial, heads_length in I. replace id with (Z.of_nat (Z.to_nat id)) by lia. apply initial_rooted_prefix; [|lia].
  intros i e E P. assert (B : bases_ok (heads (fst (run initial h)))).
  { rewrite run_initial. apply registered_bases; [apply predefined_bases|vm_compute; lia|exact V]. }
  eapply (B i (name e)); [|exact P]. unfold heads. rewrite nth_error_map, E. reflexivity.
Qed.
Print Assumptions C41_rooted.
(** The table agrees with the enum: each builtin type is found at its own id and has
    the base promotion and assignment assume. *)
Definition kind_id (k : kind) : Z := match k with uninitialized_kind => 0 | bool_kind => 3 | int_kind => 5 | uint_kind => 11 | float_kind => 17 | complex_kind => 22 | scalar_kind => 2 end.
Theorem C41_builtin_ids : forall h b, get_base_id (fst (run initial h)) (id_of b) = Ok (kind_id (base_kind b)).
Proof.
  intros h b. assert (X : nth_error (heads (fst (run initial h))) (Z.to_nat (id_of b)) = nth_error predefined (Z.to_nat (id_of b))).
  { rewrite run_initial. unfold known. apply nth_error_app1. destruct b; vm_compute; lia. }
  unfold get_base_id. unfold heads in X. rewrite nth_error_map in X. destruct (nth_error (infos (fst (run initial h))) (Z.to_nat (id_of b))) as [e|].
  - assert (X2 : Some (base_id e) = option_map snd (nth_error predefined (Z.to_nat (id_of b)))) by (rewrite <- X; reflexivity). clear X. destruct b; vm_compute in X2 |- *; injection X2 as ->; reflexivity.
  - destruct b; vm_compute in X; discriminate.
Qed.
Print Assumptions C41_builtin_ids.

(** Refuted: a registration that throws leaves the singleton behind, and the id can
    then never be registered. *)
Theorem C41_failed_refuted : forall k p, let '(r, a) := step initial (Register 36 (Some k) None (Some p)) in
  a = Done (Throw "runtime_error") /\ construction r 36 <> construction initial 36 /\
  forall h s c q, snd (step (fst (run r h)) (Register 36 s c q)) = Done (Throw "runtime_error").
Proof.
  intros k p. cbn. split; [reflexivity|]. split; [discriminate|]. intros h s c q.
  set (r := {| infos := _; cap := _; gen := _ |}).
  assert (X : construction (fst (run r h)) 36 = Some (Some k, None, None)) by (apply run_construction; [lia|reflexivity|discriminate]).
  assert (L : (37 <= List.length (infos (fst (run r h))))%nat). { rewrite <- heads_length, run_heads, app_length. change (List.length (heads r)) with 61%nat. lia. }
  unfold register_known. cbn [Z.ltb Z.compare orb]. destruct (Z.geb_spec 36 (Z.of_nat (List.length (infos (fst (run r h)))))); [lia|].
  unfold construction in X. change (Z.to_nat 36) with 36%nat in *. destruct (nth_error (infos (fst (run r h))) 36) as [ii|]; [|discriminate]. injection X as -> -> ->. reflexivity.
Qed.
Print Assumptions C41_failed_refuted.
(** Refuted: the entry pointer a lookup returned is dead after the first new_id. *)
Theorem C41_pointer_refuted : forall n m b i p, lookup_id_by_name initial n = (i, Some p) -> deref (fst (new_id initial m b)) p = UB.
Proof.
  intros n m b i p H. pose proof (lookup_spec initial n) as L. rewrite H in L. destruct L as (k & _ & -> & _). reflexivity.
Qed.
Print Assumptions C41_pointer_refuted.
(** Refuted: the empty name is found, as the uninitialised id. *)
Theorem C41_empty_name_refuted : forall h, exists p, lookup_id_by_name (fst (run initial h)) "" = (0, Some p).
Proof.
  intros h. destruct (C41_lookup h "") as [(i & e & E & L & _)|(_ & U)].
  - exists (gen (fst (run initial h)), i). rewrite E. destruct i as [|i]; [reflexivity|]. exfalso. destruct L as (_ & L). apply (L 0%nat 0); [lia|]. reflexivity.
  - exfalso. apply (U 0%nat 0). reflexivity.
Qed.
Print Assumptions C41_empty_name_refuted.
Example C41_case : let h := [New "celsius" 20; Lookup "celsius"; Register 61 None (Some 7) None; New "celsius" 61; Lookup "celsius"; Register 61 None (Some 8) None] in
  snd (run initial h) = [Id 61; Found 61 (Some (1%nat, 61%nat)); Done (Ok tt); Id 62; Found 61 (Some (1%nat, 61%nat)); Done (Throw "runtime_error")] /\ bases_valid 61 h.
Proof. cbv zeta. split; [vm_compute; reflexivity|]. cbn. lia. Qed.
