(** C37-C39, C54, C55: topological sort and multiple dispatch. *)
From Coq Require Import Relations.Relation_Operators Sorting.Permutation.
From Verif Require Import Base DispatchModel DispatchSpec DispatchProofs DispatchProofs2 DispatchProofs3.

(** C37: on a graph without cycles the sort succeeds and the output lists every
    vertex once, each before its successors; ... *)
Theorem C37_sort_partial : forall V (vertices : list V) edges res, graph (List.length vertices) edges -> List.length res = List.length vertices -> vertices <> [] -> acyclic edges ->
  exists order output, topological (List.length vertices) edges order /\ Forall2 (fun i v => nth_error vertices i = Some v) order output /\ Permutation output vertices /\
    topological_sort vertices edges res = (output, Ok tt).
Proof.
  intros V vertices edges res G L NE A. pose proof (sort_good vertices edges G res L ltac:(destruct vertices; [congruence|cbn [List.length]; lia])) as H.
  destruct (topological_sort vertices edges res) as [o [[]| | |]]; try tauto.
  - destruct H as (order & T & F). exists order, o. split; auto. split; auto. split; auto. destruct T as (P & _). eapply pick_all; eauto.
  - destruct H as (_ & k & C). destruct (A k C).
Qed.
Print Assumptions C37_sort_partial.
(** ... on a graph with a cycle it throws. *)
Theorem C37_cycle : forall V (vertices : list V) edges res k, graph (List.length vertices) edges -> List.length res = List.length vertices -> vertices <> [] -> clos_trans nat (succ edges) k k ->
  snd (topological_sort vertices edges res) = Throw "not a dag".
Proof.
  intros V vertices edges res k G L NE C. pose proof (sort_good vertices edges G res L ltac:(destruct vertices; [congruence|cbn [List.length]; lia])) as H.
  destruct (topological_sort vertices edges res) as [o [[]| | |]]; try tauto.
  - destruct H as (order & T & _). exfalso. exact (topological_acyclic vertices edges order T k C).
  - destruct H as (-> & _). reflexivity.
Qed.
Print Assumptions C37_cycle.
(** For the empty graph the sort forms an iterator before the output range. *)
Theorem C37_empty_refuted : forall V edges, snd (topological_sort (@nil V) edges []) = UB.
Proof. reflexivity. Qed.
Print Assumptions C37_empty_refuted.
Example C37_case : topological_sort ["a"; "b"; "c"; "d"]%string [[2]; [0; 3]; []; [2]]%nat ["x"; "x"; "x"; "x"]%string = (["b"; "d"; "a"; "c"]%string, Ok tt).
Proof. reflexivity. Qed.
Example C37_case2 : snd (topological_sort [10; 20; 30] [[1]; [2]; [0]]%nat [0; 0; 0]) = Throw "not a dag".
Proof. reflexivity. Qed.

(** C38: a call answers with a registered overload that accepts the arguments and
    none that accepts them is strictly more specific; it throws out_of_range
    exactly when none accepts them.  No assumption on [match]. *)
Theorem C38_most_specific : forall type (matches : type -> type -> bool) T (sig : T -> list type) N, (forall t, List.length (sig t) = N) ->
  forall reg ch tps, built matches sig reg ch -> List.length tps = N ->
  match call matches sig ch tps with
  | Ok t => In t reg /\ accepts matches (sig t) tps /\ forall u, In u reg -> accepts matches (sig u) tps -> ~ more_specific matches (sig u) (sig t)
  | Throw e => e = "out_of_range"%string /\ forall u, In u reg -> ~ accepts matches (sig u) tps
  | _ => False
  end.
Proof.
  intros type matches T sig N SIG reg ch tps B L. destruct (built_sorted matches sig N SIG reg ch B) as (ts & -> & P & S & _).
  pose proof (call_ok matches sig N SIG ts tps L S) as H. destruct (call matches sig (map Some ts) tps); auto.
  - destruct H as (I & A & U). split; [now rewrite <- P|]. split; auto. intros u IU. apply U. now rewrite P.
  - destruct H as (-> & U). split; auto. intros u IU. apply U. now rewrite P.
Qed.
Print Assumptions C38_most_specific.

(** C39: building fails with the ambiguity error exactly when two overloads are
    comparable, neither accepts the other, and none is accepted by both: the
    constructor, ... *)
Theorem C39_construct : forall type (matches : type -> type -> bool) T (sig : T -> list type) N, (forall t, List.length (sig t) = N) ->
  (forall a b c, matches a b = true -> matches b c = true -> matches a c = true) -> forall ts, ts <> [] ->
  (snd (construct matches sig ts) = Throw "ambiguous" <-> exists u v, two_of ts u v /\ unresolved matches sig ts u v) /\
  (snd (construct matches sig ts) = Throw "ambiguous" \/ snd (construct matches sig ts) = Ok tt).
Proof.
  intros type matches T sig N SIG TR ts NE. unfold construct. pose proof (assign_ok matches sig N SIG ts [] ltac:(destruct ts; [congruence|cbn [List.length]; lia])) as H.
  destruct (assign matches sig [] (map Some ts)) as [ch [[]|e| |]]; cbn [snd]; try tauto.
  - destruct H as (_ & H). split; auto. split; [discriminate|]. intros (u & v & A & B). destruct (H u v A B).
  - destruct H as [(-> & _ & H)|(-> & _ & i & C)]; [tauto|]. destruct (no_cycle matches sig N SIG ts TR i C).
Qed.
Print Assumptions C39_construct.
(** ... and insert, for the registered overloads and the new ones together. *)
Theorem C39_insert : forall type (matches : type -> type -> bool) T (sig : T -> list type) N, (forall t, List.length (sig t) = N) ->
  (forall a b c, matches a b = true -> matches b c = true -> matches a c = true) -> forall reg ch ts, built matches sig reg ch ->
  (snd (insert matches sig ch ts) = Throw "ambiguous" <-> exists u v, two_of (reg ++ ts) u v /\ unresolved matches sig (reg ++ ts) u v) /\
  (snd (insert matches sig ch ts) = Throw "ambiguous" \/ snd (insert matches sig ch ts) = Ok tt).
Proof.
  intros type matches T sig N SIG TR reg ch ts B. destruct (built_sorted matches sig N SIG reg ch B) as (ts0 & -> & P & S & NE).
  unfold insert. rewrite <- map_app. assert (PA : Permutation (ts0 ++ ts) (reg ++ ts)) by now apply Permutation_app_tail.
  pose proof (assign_ok matches sig N SIG (ts0 ++ ts) (map Some ts0) ltac:(rewrite app_length, (Permutation_length P); destruct reg; [congruence|cbn [List.length]; lia])) as H.
  destruct (assign matches sig (map Some ts0) (map Some (ts0 ++ ts))) as [ch [[]|e| |]]; cbn [snd]; try tauto.
  - destruct H as (_ & H). split; auto. split; [discriminate|]. intros X. apply (unresolved_perm matches sig (reg ++ ts) (ts0 ++ ts)) in X as (u & v & X & Y); [|now symmetry]. destruct (H u v X Y).
  - destruct H as [(-> & _ & H)|(-> & _ & i & C)]; [|destruct (no_cycle matches sig N SIG _ TR i C)]. split; auto. split; auto. intros _. eapply unresolved_perm; eauto.
Qed.
Print Assumptions C39_insert.

(** A type lattice for the examples. *)
Inductive ty := Any | Int | I32 | I64 | Flt.
Definition tmatch (p t : ty) : bool :=
  match p, t with Any, _ => true | Int, (Int | I32 | I64) => true | I32, I32 => true | I64, I64 => true | Flt, Flt => true | _, _ => false end.
Definition osig (o : string * list ty) := let (_, l) := o in l.
Example C38_hyp : forall a b c, tmatch a b = true -> tmatch b c = true -> tmatch a c = true.
Proof. intros [] [] []; cbn; congruence. Qed.
Definition name (r : outcome (string * list ty)) : outcome string := do p <- r; Ok (fst p).
Example C38_case : let d := fst (construct tmatch osig [("any", [Any; Any]); ("ii", [Int; Int]); ("i32", [I32; I32])]%string) in
  name (call tmatch osig d [I32; I32]) = Ok "i32"%string /\ name (call tmatch osig d [I32; I64]) = Ok "ii"%string /\ name (call tmatch osig d [Flt; I64]) = Ok "any"%string.
Proof. split; [|split]; reflexivity. Qed.
Example C38_built : built tmatch osig [("any", [Any; Any]); ("ii", [Int; Int])]%string [Some ("ii", [Int; Int]); Some ("any", [Any; Any])]%string.
Proof. apply built_new; [discriminate|reflexivity]. Qed.
Example C39_case : snd (construct tmatch osig [("l", [Int; Any]); ("r", [Any; Int])]%string) = Throw "ambiguous" /\
  snd (construct tmatch osig [("l", [Int; Any]); ("r", [Any; Int]); ("b", [Int; Int])]%string) = Ok tt.
Proof. split; reflexivity. Qed.

(** C54: when one overload accepts the arguments and is strictly more specific
    than every other that accepts them, it is the answer, whatever the order and
    grouping of the registrations and whatever else is registered; ... *)
Theorem C54_stable_partial : forall type (matches : type -> type -> bool) T (sig : T -> list type) N, (forall t, List.length (sig t) = N) ->
  forall reg ch tps t, built matches sig reg ch -> List.length tps = N -> In t reg -> accepts matches (sig t) tps ->
  (forall u, In u reg -> accepts matches (sig u) tps -> u = t \/ more_specific matches (sig t) (sig u)) -> call matches sig ch tps = Ok t.
Proof.
  intros type matches T sig N SIG reg ch tps t B L I A U. pose proof (C38_most_specific type matches T sig N SIG reg ch tps B L) as H.
  destruct (call matches sig ch tps) as [u| | |]; try tauto.
  - destruct H as (IU & AU & M). destruct (U u IU AU) as [->|MS]; auto. destruct (M t I A MS).
  - destruct H as (_ & H). destruct (H t I A).
Qed.
Print Assumptions C54_stable_partial.
(** ... with two overloads of one signature, registering a third that does not
    accept the arguments changes the answer; ... *)
Theorem C54_duplicate_refuted : exists d1 d2, built tmatch osig [("a", [I32]); ("b", [I32])]%string d1 /\ insert tmatch osig d1 [("c", [Flt])]%string = (d2, Ok tt) /\
  name (call tmatch osig d1 [I32]) = Ok "b"%string /\ name (call tmatch osig d2 [I32]) = Ok "a"%string.
Proof.
  exists [Some ("b", [I32]); Some ("a", [I32])]%string, [Some ("c", [Flt]); Some ("a", [I32]); Some ("b", [I32])]%string.
  split; [apply built_new; [discriminate|vm_compute; reflexivity]|]. split; [vm_compute; reflexivity|]. split; vm_compute; reflexivity.
Qed.
Print Assumptions C54_duplicate_refuted.
(** ... and an accepted overload set may still hold two equally good answers, of
    which the order of registration picks one. *)
Theorem C54_ambiguous_refuted : exists d1 d2, built tmatch osig [("l", [Int; Any]); ("r", [Any; Int]); ("b", [I32; I32])]%string d1 /\
  built tmatch osig [("r", [Any; Int]); ("l", [Int; Any]); ("b", [I32; I32])]%string d2 /\
  name (call tmatch osig d1 [I64; I64]) = Ok "r"%string /\ name (call tmatch osig d2 [I64; I64]) = Ok "l"%string.
Proof.
  exists [Some ("b", [I32; I32]); Some ("r", [Any; Int]); Some ("l", [Int; Any])]%string, [Some ("b", [I32; I32]); Some ("l", [Int; Any]); Some ("r", [Any; Int])]%string.
  split; [apply built_new; [discriminate|vm_compute; reflexivity]|]. split; [apply built_new; [discriminate|vm_compute; reflexivity]|]. split; vm_compute; reflexivity.
Qed.
Print Assumptions C54_ambiguous_refuted.

(** C55: a rejected registration appends null overloads: calls that had an answer
    keep it, ... *)
Theorem C55_answers_partial : forall type (matches : type -> type -> bool) T (sig : T -> list type) N, (forall t, List.length (sig t) = N) ->
  forall reg ch ts ch' tps t, built matches sig reg ch -> insert matches sig ch ts = (ch', Throw "ambiguous") -> List.length tps = N ->
  call matches sig ch tps = Ok t -> call matches sig ch' tps = Ok t.
Proof.
  intros type matches T sig N SIG reg ch ts ch' tps t B E L C. destruct (built_sorted matches sig N SIG reg ch B) as (ts0 & -> & P & S & NE).
  unfold insert in E. rewrite <- map_app in E.
  pose proof (assign_ok matches sig N SIG (ts0 ++ ts) (map Some ts0) ltac:(rewrite app_length, (Permutation_length P); destruct reg; [congruence|cbn [List.length]; lia])) as H. rewrite E in H.
  destruct H as [(_ & -> & _)|(X & _)]; [|discriminate]. unfold resize. rewrite firstn_all2 by (rewrite map_length, app_length; lia).
  rewrite (call_app matches sig N) by auto. now rewrite C.
Qed.
Print Assumptions C55_answers_partial.
(** ... and calls that threw out_of_range now dereference a null pointer. *)
Theorem C55_unusable_refuted : forall type (matches : type -> type -> bool) T (sig : T -> list type) N, (forall t, List.length (sig t) = N) ->
  forall reg ch ts ch' tps e, built matches sig reg ch -> insert matches sig ch ts = (ch', Throw "ambiguous") -> ts <> [] -> List.length tps = N ->
  call matches sig ch tps = Throw e -> call matches sig ch' tps = UB.
Proof.
  intros type matches T sig N SIG reg ch ts ch' tps e B E NT L C. destruct (built_sorted matches sig N SIG reg ch B) as (ts0 & -> & P & S & NE).
  unfold insert in E. rewrite <- map_app in E.
  pose proof (assign_ok matches sig N SIG (ts0 ++ ts) (map Some ts0) ltac:(rewrite app_length, (Permutation_length P); destruct reg; [congruence|cbn [List.length]; lia])) as H. rewrite E in H.
  destruct H as [(_ & -> & _)|(X & _)]; [|discriminate]. unfold resize. rewrite firstn_all2 by (rewrite map_length, app_length; lia).
  rewrite (call_app matches sig N) by auto. rewrite C. rewrite map_length, app_length. replace (_ + _ - _)%nat with (List.length ts) by lia. destruct ts; [congruence|reflexivity].
Qed.
Print Assumptions C55_unusable_refuted.
Example C55_case : exists d d', built tmatch osig [("l", [Int; Any])]%string d /\ insert tmatch osig d [("r", [Any; Int])]%string = (d', Throw "ambiguous") /\
  name (call tmatch osig d [Flt; Flt]) = Throw "out_of_range" /\ name (call tmatch osig d' [Flt; Flt]) = UB.
Proof.
  exists [Some ("l", [Int; Any])]%string, [Some ("l", [Int; Any]); None]%string.
  split; [apply built_new; [discriminate|vm_compute; reflexivity]|]. split; [vm_compute; reflexivity|]. split; vm_compute; reflexivity.
Qed.
