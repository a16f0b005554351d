(* C124: which argument a call gives to which parameter; C125: their types. *)
From Verif Require Import Base TypesModel MatchModel MatchSpec MatchProofs MatchProofs2 MatchProofs3 CallModel CallSpec CallProofs.
Local Open Scope string_scope.
Local Open Scope list_scope.

(* ---------------------------------------------------------------- C124 *)
Section C124.
Context {P T V A : Type}.
Variable matches : P -> T -> V -> option V.
Variables (type_of value_type_of : A -> T) (as_type : A -> option T).
Let call := @call P T V A matches type_of value_type_of as_type.
Implicit Types (s : @sig P) (pos : list A) (kw : list (string * A)).

(* the positional arguments that are left over for keywords *)
Definition extras s pos : list A := if s_variadic s then [] else skipn (List.length (s_args s)) pos.
(* what a keyword parameter should receive *)
Definition expected s pos kw (k : nat) (kd : @kwd P) : @slot A :=
  match nth_error (extras s pos) k with
  | Some a => Given a
  | None => match passed (k_name kd) kw with Some a => Given a | None => if k_opt kd then NA else Empty end
  end.
Definition names s := map k_name (s_kwds s).
Definition special n := n = "dst_tp" \/ n = "dst".

Lemma start_slots (ex : list A) n m k : (List.length ex <= n)%nat -> (k < m)%nat ->
  nth_error (map Given ex ++ skipn (List.length ex) (repeat Empty (n + m))) k =
  Some (match nth_error ex k with Some a => Given a | None => Empty end).
Proof.
  intros L K; destruct (Nat.lt_ge_cases k (List.length ex)) as [ H | H ].
  - rewrite nth_error_app1 by (rewrite map_length; auto); rewrite nth_error_map.
    destruct (nth_error ex k) eqn:E; auto; apply nth_error_None in E; lia.
  - rewrite nth_error_app2 by (rewrite map_length; auto); rewrite map_length.
    rewrite (proj2 (nth_error_None ex k)) by lia.
    assert (X : forall (l : list (@slot A)) i j, nth_error (skipn i l) j = nth_error l (i + j)).
    { induction l as [ | x l IH ]; intros [ | i ] j; cbn; auto; destruct j; auto. }
    rewrite X; replace (List.length ex + (k - List.length ex))%nat with k by lia.
    assert (Y : forall j i, (i < j)%nat -> nth_error (repeat (@Empty A) j) i = Some Empty).
    { induction j as [ | j IH ]; intros [ | i ] Q; cbn; auto; try lia; apply IH; lia. }
    apply Y; lia.
Qed.

Lemma start_empties (ex : list A) n m : (List.length ex <= n)%nat ->
  (empties (firstn m (map Given ex ++ skipn (List.length ex) (repeat Empty (n + m)))) = m - List.length ex)%nat.
Proof.
  unfold empties; revert n m; induction ex as [ | a ex IH ]; intros n m L; cbn [map app skipn List.length].
  - rewrite Nat.sub_0_r; revert n L; induction m as [ | m IH ]; intros n L; cbn [firstn]; auto.
    rewrite Nat.add_comm; cbn [Nat.add repeat firstn filter is_empty List.length]; rewrite Nat.add_comm; f_equal.
    apply IH; lia.
  - destruct m as [ | m ]; cbn [firstn]; auto; cbn [List.length] in L; destruct n as [ | n ]; [ lia | ].
    cbn [Nat.add repeat skipn filter is_empty]; replace (n + S m)%nat with (S n + m)%nat by lia.
    rewrite IH by lia; lia.
Qed.

Lemma call_unfold s v0 pos kw b : call s v0 pos kw = Ok b ->
  (s_variadic s = true \/ (List.length (s_args s) <= List.length pos)%nat) /\
  exists v slots d v2,
    (if s_variadic s then v = v0 else check_args matches type_of (s_args s) pos v0 = Ok v) /\
    (s_kwd_variadic s = true \/ (List.length (extras s pos) <= List.length (s_kwds s))%nat) /\
    bind_kwds matches type_of value_type_of as_type (s_kwds s) kw
      (map Given (extras s pos) ++ skipn (List.length (extras s pos)) (repeat Empty (List.length pos + List.length (s_kwds s))))
      NoDst v = Ok (slots, d, v2) /\
    match d with NoDst => b_vars b = v2 | Dst t _ => matches (s_ret s) t v2 = Some (b_vars b) end /\
    b_args b = (if s_variadic s then pos else firstn (List.length (s_args s)) pos) /\
    b_slots b = fst (fill (s_kwds s) slots) /\ b_dst b = d /\
    b_nkwd b = (List.length (extras s pos) + List.length kw + snd (fill (s_kwds s) slots))%nat /\
    (List.length (s_kwds s) <= b_nkwd b)%nat.
Proof.
  unfold call, CallModel.call, extras.
  destruct (s_variadic s) eqn:VA; cbn [negb andb].
  - cbn [bind]; intros E; split; [ auto | ].
    destruct (bind_kwds _ _ _ _ _ _ _ _ _) as [ ((slots, d), v2) | | | ] eqn:B in E; try discriminate; cbn [bind] in E.
    exists v0, slots, d, v2; split; auto; split; [ right; cbn; lia | ]; split; [ exact B | ].
    destruct d as [ | t a ]; cbn [bind] in E.
    + destruct (Nat.ltb_spec (List.length (@nil A) + List.length kw + snd (fill (s_kwds s) slots)) (List.length (s_kwds s))); [ discriminate | ].
      injection E as <-; cbn; auto 10.
    + destruct (matches (s_ret s) t v2) eqn:M; [ | discriminate ]; cbn [bind] in E.
      destruct (Nat.ltb_spec (List.length (@nil A) + List.length kw + snd (fill (s_kwds s) slots)) (List.length (s_kwds s))); [ discriminate | ].
      injection E as <-; cbn; auto 10.
  - destruct (Nat.ltb_spec (List.length pos) (List.length (s_args s))) as [ | LE ]; [ discriminate | ].
    intros E; split; [ auto | ].
    destruct (check_args matches type_of (s_args s) pos v0) as [ v | | | ] eqn:CA; try discriminate; cbn [bind] in E.
    destruct (negb (s_kwd_variadic s) && (List.length (s_kwds s) <? List.length pos - List.length (s_args s))%nat) eqn:TM; [ discriminate | ].
    assert (KV : s_kwd_variadic s = true \/ (List.length (skipn (List.length (s_args s)) pos) <= List.length (s_kwds s))%nat).
    { rewrite skipn_length; apply andb_false_iff in TM; destruct TM as [ TM | TM ]; [ left; destruct (s_kwd_variadic s); auto | right; apply Nat.ltb_ge; auto ]. }
    cbn [bind] in E.
    destruct (bind_kwds _ _ _ _ _ _ _ _ _) as [ ((slots, d), v2) | | | ] eqn:B in E; try discriminate; cbn [bind] in E.
    exists v, slots, d, v2; split; auto; split; auto; split; [ exact B | ].
    destruct d as [ | t a ]; cbn [bind] in E.
    + destruct (Nat.ltb_spec (List.length (skipn (List.length (s_args s)) pos) + List.length kw + snd (fill (s_kwds s) slots)) (List.length (s_kwds s))); [ discriminate | ].
      injection E as <-; cbn; auto 10.
    + destruct (matches (s_ret s) t v2) eqn:M; [ | discriminate ]; cbn [bind] in E.
      destruct (Nat.ltb_spec (List.length (skipn (List.length (s_args s)) pos) + List.length kw + snd (fill (s_kwds s) slots)) (List.length (s_kwds s))); [ discriminate | ].
      injection E as <-; cbn; auto 10.
Qed.

Lemma extras_le s pos : (List.length (extras s pos) <= List.length pos)%nat.
Proof. unfold extras; destruct (s_variadic s); [ cbn; lia | rewrite skipn_length; lia ]. Qed.

(* A call that goes through gave each parameter the argument it should have. *)
Theorem C124_call_binds s v0 pos kw b : NoDup (names s) -> call s v0 pos kw = Ok b ->
  b_args b = (if s_variadic s then pos else firstn (List.length (s_args s)) pos) /\
  (forall k kd, nth_error (s_kwds s) k = Some kd -> nth_error (b_slots b) k = Some (expected s pos kw k kd)) /\
  (forall n a, In (n, a) kw -> In n (names s) \/ special n).
Proof.
  intros ND E; apply call_unfold in E; destruct E as (_ & v & slots & d & v2 & _ & _ & B & _ & -> & -> & _).
  destruct (bind_ok _ _ _ _ _ ND _ _ _ _ _ _ _ B) as (L & N & I & _).
  split; [ auto | split ].
  - intros k kd K; destruct (fill_ok (s_kwds s) slots) as (_ & F & _); rewrite F, N; unfold slot_after.
    assert (KL : (k < List.length (s_kwds s))%nat) by (apply nth_error_Some; congruence).
    rewrite start_slots, K by (auto using extras_le); unfold expected.
    destruct (nth_error (extras s pos) k); auto; destruct (passed (k_name kd) kw); auto.
  - intros n a X; destruct (I n a X) as [ (k & K & _) | (_ & D) ]; [ left | right; exact D ].
    destruct (index_some _ _ _ K) as (kd & KD & <-); apply in_map; apply nth_error_In in KD; auto.
Qed.

(* No argument is dropped: every keyword that was passed is received by the
   parameter of that name, which no positional argument has, and no keyword is
   passed twice. *)
Theorem C124_nothing_dropped s v0 pos kw b : NoDup (names s) -> call s v0 pos kw = Ok b ->
  (forall n a, In (n, a) kw -> In n (names s) ->
     exists k kd, nth_error (s_kwds s) k = Some kd /\ k_name kd = n /\ nth_error (b_slots b) k = Some (Given a)) /\
  (s_kwd_variadic s = false -> forall k a, nth_error (extras s pos) k = Some a -> nth_error (b_slots b) k = Some (Given a)).
Proof.
  intros ND E; pose proof (C124_call_binds s v0 pos kw b ND E) as (_ & SL & _).
  apply call_unfold in E; destruct E as (_ & v & slots & d & v2 & _ & EX & B & _).
  destruct (bind_inv _ _ _ _ _ ND _ _ _ _ _ _ _ B) as (_ & _ & ON & _).
  destruct (bind_ok _ _ _ _ _ ND _ _ _ _ _ _ _ B) as (_ & _ & I & _).
  split.
  - intros n a X M; destruct (I n a X) as [ (k & K & EM) | (K & _) ]; [ | apply index_none in K; contradiction ].
    destruct (index_some _ _ _ K) as (kd & KD & KN); exists k, kd; repeat split; auto.
    rewrite (SL k kd KD); unfold expected.
    assert (KL : (k < List.length (s_kwds s))%nat) by (apply nth_error_Some; congruence).
    rewrite start_slots in EM by (auto using extras_le).
    destruct (nth_error (extras s pos) k); [ discriminate | ]; rewrite KN.
    assert (Q : passed n kw = Some a); [ | rewrite Q; auto ].
    clear -X K ON; induction kw as [ | (m, c) kw IH ]; [ contradiction | ]; cbn [passed map filter fst] in *.
    destruct (String.eqb_spec m n) as [ -> | NE ].
    + destruct X as [ X | X ]; [ congruence | ]; rewrite K in ON; inversion ON as [ | ? ? NI _ ]; subst; destruct NI.
      apply filter_In; rewrite K; split; auto; apply (in_map fst _ (_, a) X).
    + destruct X as [ X | X ]; [ congruence | ]; apply IH; auto.
      destruct (kwd_index (s_kwds s) m); [ inversion ON; auto | auto ].
  - intros KV k a X; destruct EX as [ EX | EX ]; [ congruence | ].
    assert (KL : (k < List.length (extras s pos))%nat) by (apply nth_error_Some; congruence).
    destruct (nth_error (s_kwds s) k) as [ kd | ] eqn:KD; [ | apply nth_error_None in KD; lia ].
    rewrite (SL k kd KD); unfold expected; rewrite X; auto.
Qed.

Lemma specials_none s kw : (forall n a, In (n, a) kw -> In n (names s)) -> specials (s_kwds s) kw = 0%nat.
Proof.
  unfold specials; induction kw as [ | (n, a) kw IH ]; intros H; cbn [filter fst List.length]; auto.
  destruct (kwd_index (s_kwds s) n) eqn:K; [ apply IH; intros; eapply H; right; eauto | ].
  apply index_none in K; destruct K; apply (H n a); left; auto.
Qed.

Lemma empties_none (l : list (@slot A)) : empties l = 0%nat -> forall k, nth_error l k <> Some Empty.
Proof.
  unfold empties; induction l as [ | x l IH ]; intros H [ | k ]; cbn [nth_error]; try discriminate; cbn [filter] in H.
  - intros E; injection E as ->; discriminate.
  - destruct (is_empty x); [ discriminate | auto ].
Qed.

(* When neither dst nor dst_tp is passed, no required keyword is missing. *)
Theorem C124_required_partial s v0 pos kw b : NoDup (names s) ->
  (forall n a, In (n, a) kw -> In n (names s)) -> call s v0 pos kw = Ok b ->
  forall k kd, nth_error (s_kwds s) k = Some kd -> nth_error (b_slots b) k <> Some Empty.
Proof.
  intros ND NS E k kd K; apply call_unfold in E; destruct E as (_ & v & slots & d & v2 & _ & EX & B & _ & _ & -> & _ & NK & LE).
  destruct (bind_ok _ _ _ _ _ ND _ _ _ _ _ _ _ B) as (_ & _ & _ & C).
  destruct (fill_ok (s_kwds s) slots) as (_ & _ & F).
  rewrite start_empties in C by apply extras_le; rewrite specials_none in C by auto.
  assert (KL : (k < List.length (s_kwds s))%nat) by (apply nth_error_Some; congruence).
  pose proof (empties_none (firstn (List.length (s_kwds s)) (fst (fill (s_kwds s) slots))) ltac:(lia) k) as H.
  intros X; apply H; rewrite <- X.
  generalize (fst (fill (s_kwds s) slots)); clear -KL; revert k KL; generalize (List.length (s_kwds s)).
  induction n as [ | n IH ]; intros [ | k ] H l; try lia; destruct l; cbn; auto; apply IH; lia.
Qed.

(* In general as many may be missing as special keywords were passed. *)
Theorem C124_missing_bound s v0 pos kw b : NoDup (names s) -> call s v0 pos kw = Ok b ->
  (List.length (filter (fun x => match x with Empty => true | _ => false end)
     (firstn (List.length (s_kwds s)) (b_slots b))) <=
   List.length (filter (fun p => if in_dec string_dec (fst p) (names s) then false else true) kw))%nat.
Proof.
  intros ND E; apply call_unfold in E; destruct E as (_ & v & slots & d & v2 & _ & EX & B & _ & _ & -> & _ & NK & LE).
  destruct (bind_ok _ _ _ _ _ ND _ _ _ _ _ _ _ B) as (_ & _ & _ & C).
  destruct (fill_ok (s_kwds s) slots) as (_ & _ & F).
  rewrite start_empties in C by apply extras_le.
  change (List.length (filter (fun x => match x with Empty => true | _ => false end)
     (firstn (List.length (s_kwds s)) (fst (fill (s_kwds s) slots))))) with (empties (firstn (List.length (s_kwds s)) (fst (fill (s_kwds s) slots)))).
  assert (X : specials (s_kwds s) kw = List.length (filter (fun p => if in_dec string_dec (fst p) (names s) then false else true) kw)).
  { unfold specials; f_equal; apply filter_ext; intros (n, a); cbn [fst].
    destruct (kwd_index (s_kwds s) n) eqn:K; destruct (in_dec string_dec n (names s)) as [ Y | Y ]; auto.
    - destruct (index_some _ _ _ K) as (kd & KD & <-); destruct Y; apply in_map; apply nth_error_In in KD; auto.
    - apply index_none in K; contradiction. }
  rewrite <- X; lia.
Qed.

Lemma match_args_length pats : forall args v v', match_args matches type_of pats args v = Some v' -> (List.length pats <= List.length args)%nat.
Proof.
  induction pats as [ | p pats IH ]; intros [ | a args ] v v'; cbn [match_args List.length]; try discriminate; try lia.
  destruct (matches p (type_of a) v); [ intros X; apply IH in X; lia | discriminate ].
Qed.

(* A call with everything in place goes through. *)
Theorem C124_accepts s v0 v1 v2 v3 pos kw : NoDup (names s) ->
  (if s_variadic s then v1 = v0 else match_args matches type_of (s_args s) pos v0 = Some v1) ->
  (s_kwd_variadic s = true \/ (List.length (extras s pos) <= List.length (s_kwds s))%nat) ->
  (forall n a, In (n, a) kw ->
     (exists k kd, nth_error (s_kwds s) k = Some kd /\ k_name kd = n /\ nth_error (extras s pos) k = None) \/
     (~ In n (names s) /\ (n = "dst_tp" /\ as_type a <> None \/ n = "dst"))) ->
  NoDup (map fst kw) ->
  match_kwds matches value_type_of (s_kwds s) kw v1 = Some v2 ->
  match asked type_of as_type (s_kwds s) kw NoDst with NoDst => v3 = v2 | Dst t _ => matches (s_ret s) t v2 = Some v3 end ->
  (forall k kd, nth_error (s_kwds s) k = Some kd -> expected s pos kw k kd <> Empty) ->
  exists b, call s v0 pos kw = Ok b /\ b_vars b = v3 /\ b_dst b = asked type_of as_type (s_kwds s) kw NoDst.
Proof.
  intros ND MA EX KW ON MK MD RQ.
  destruct (bind_complete matches type_of value_type_of as_type (s_kwds s) ND kw
    (map Given (extras s pos) ++ skipn (List.length (extras s pos)) (repeat Empty (List.length pos + List.length (s_kwds s))))
    NoDst v1 v2) as (slots & B).
  { intros n a X; destruct (KW n a X) as [ (k & kd & KD & KN & F) | (K & D) ].
    - left; exists k; split; [ rewrite <- KN; apply index_nth; auto | ].
      assert (KL : (k < List.length (s_kwds s))%nat) by (apply nth_error_Some; congruence).
      rewrite start_slots, F by (auto using extras_le); auto.
    - right; split; [ apply index_none; auto | auto ]. }
  { apply NoDup_filter; auto. }
  { auto. }
  destruct (bind_ok _ _ _ _ _ ND _ _ _ _ _ _ _ B) as (L & N & _ & C).
  destruct (fill_ok (s_kwds s) slots) as (_ & F & FC).
  rewrite start_empties in C by apply extras_le.
  assert (Z0 : empties (firstn (List.length (s_kwds s)) (fst (fill (s_kwds s) slots))) = 0%nat).
  { unfold empties; apply length_zero_iff_nil.
    destruct (filter is_empty _) as [ | x l ] eqn:Q; auto; exfalso.
    assert (I : In x (filter is_empty (firstn (List.length (s_kwds s)) (fst (fill (s_kwds s) slots))))) by (rewrite Q; left; auto).
    apply filter_In in I; destruct I as (I & IE); destruct x; try discriminate.
    apply In_nth_error in I; destruct I as (k & K).
    assert (KL : (k < List.length (s_kwds s))%nat).
    { assert (k < List.length (firstn (List.length (s_kwds s)) (fst (fill (s_kwds s) slots))))%nat by (apply nth_error_Some; congruence).
      rewrite firstn_length in H; lia. }
    destruct (nth_error (s_kwds s) k) as [ kd | ] eqn:KD; [ | apply nth_error_None in KD; lia ].
    apply (RQ k kd KD).
    assert (K2 : nth_error (fst (fill (s_kwds s) slots)) k = Some Empty).
    { rewrite <- K; clear -KL; generalize (fst (fill (s_kwds s) slots)); revert k KL; generalize (List.length (s_kwds s)).
      induction n as [ | n IH ]; intros [ | k ] H l; try lia; destruct l; cbn; auto; apply IH; lia. }
    rewrite F, N in K2; unfold slot_after in K2; rewrite start_slots, KD in K2 by (auto using extras_le).
    unfold expected; destruct (nth_error (extras s pos) k); [ congruence | ].
    destruct (passed (k_name kd) kw); [ congruence | ]; destruct (k_opt kd); congruence. }
  assert (LE : (List.length (s_kwds s) <= List.length (extras s pos) + List.length kw + snd (fill (s_kwds s) slots))%nat) by lia.
  unfold call, CallModel.call, extras in *.
  destruct (s_variadic s) eqn:VA; cbn [negb andb bind].
  - subst v1; cbn [map app List.length skipn] in *; rewrite B; cbn [bind].
    destruct (asked type_of as_type (s_kwds s) kw NoDst) as [ | t a ]; [ | rewrite MD ]; cbn [bind];
      (match goal with |- context [(?x <? ?y)%nat] => destruct (Nat.ltb_spec x y); [ cbn [List.length Nat.add] in *; lia | ] end);
      eexists; split; try reflexivity; cbn; auto.
  - destruct (Nat.ltb_spec (List.length pos) (List.length (s_args s))) as [ X | X ].
    { pose proof (match_args_length (s_args s) pos v0 v1 MA); lia. }
    rewrite (check_args_match _ _ _ _ _ _ MA); cbn [bind].
    destruct (negb (s_kwd_variadic s) && (List.length (s_kwds s) <? List.length pos - List.length (s_args s))%nat) eqn:TM.
    { apply andb_true_iff in TM; destruct TM as (T1 & T2); apply Nat.ltb_lt in T2; rewrite skipn_length in EX.
      destruct EX as [ EX | EX ]; [ rewrite EX in T1; discriminate | lia ]. }
    cbn [bind]; rewrite B; cbn [bind].
    destruct (asked type_of as_type (s_kwds s) kw NoDst) as [ | t a ]; [ | rewrite MD ]; cbn [bind];
      (destruct (Nat.ltb_spec (List.length (skipn (List.length (s_args s)) pos) + List.length kw + snd (fill (s_kwds s) slots)) (List.length (s_kwds s))); [ lia | ]);
      eexists; split; try reflexivity; cbn; auto.
Qed.

Lemma asked_skip s kw : forall d, (forall n a, In (n, a) kw -> In n (names s)) -> asked type_of as_type (s_kwds s) kw d = d.
Proof.
  induction kw as [ | (n, a) kw IH ]; intros d H; cbn [asked]; auto.
  destruct (kwd_index (s_kwds s) n) eqn:K; [ apply IH; intros; eapply H; right; eauto | ].
  apply index_none in K; destruct K; apply (H n a); left; auto.
Qed.
Lemma asked_app s kw kw' : forall d, asked type_of as_type (s_kwds s) (kw ++ kw') d =
  asked type_of as_type (s_kwds s) kw' (asked type_of as_type (s_kwds s) kw d).
Proof.
  induction kw as [ | (n, a) kw IH ]; intros d; cbn [asked app]; auto.
  destruct (kwd_index (s_kwds s) n); [ auto | ]; destruct (n =? "dst_tp"); [ destruct (as_type a) | ]; auto.
Qed.

(* The destination is what the last of the special keywords says, and none when
   there is no special keyword. *)
Theorem C124_dst s v0 pos kw b : NoDup (names s) -> call s v0 pos kw = Ok b ->
  ((forall n a, In (n, a) kw -> In n (names s)) -> b_dst b = NoDst) /\
  (forall l l' n a, kw = l ++ (n, a) :: l' -> ~ In n (names s) -> (forall m c, In (m, c) l' -> In m (names s)) ->
     (n = "dst" /\ b_dst b = Dst (type_of a) (Some a)) \/
     (n = "dst_tp" /\ exists t, as_type a = Some t /\ b_dst b = Dst t None)).
Proof.
  intros ND E; apply call_unfold in E; destruct E as (_ & v & slots & d & v2 & _ & _ & B & _ & _ & _ & -> & _).
  destruct (bind_inv _ _ _ _ _ ND _ _ _ _ _ _ _ B) as (_ & -> & _ & AT).
  destruct (bind_ok _ _ _ _ _ ND _ _ _ _ _ _ _ B) as (_ & _ & I & _).
  split; [ intros H; apply asked_skip; auto | ].
  intros l l' n a -> NI H; rewrite asked_app; cbn [asked].
  assert (K : kwd_index (s_kwds s) n = None) by (apply index_none; auto).
  rewrite K; assert (X : In (n, a) (l ++ (n, a) :: l')) by (apply in_or_app; right; left; auto).
  destruct (I n a X) as [ (k & Q & _) | (_ & [ -> | -> ]) ]; [ congruence | right | left ].
  - split; auto; cbn [String.eqb Ascii.eqb Bool.eqb].
    destruct (as_type a) as [ t | ] eqn:TA; [ exists t; split; auto; apply asked_skip; auto | destruct (AT a X K TA) ].
  - split; auto; apply asked_skip; auto.
Qed.
End C124.
Print Assumptions C124_dst.
Print Assumptions C124_call_binds.
Print Assumptions C124_nothing_dropped.
Print Assumptions C124_required_partial.
Print Assumptions C124_missing_bound.
Print Assumptions C124_accepts.

(* ---------------------------------------------------------------- C125 *)
(* With the matching of types that is modelled in MatchModel. *)
Definition tmatch (p c : ty) (vs : env) : option env :=
  match match_ p c vs with Ok (true, vs') => Some vs' | _ => None end.

Section C125.
Context {A : Type}.
Variables (type_of value_type_of : A -> ty) (as_type : A -> option ty).
Let call := @call ty ty env A tmatch type_of value_type_of as_type.
Definition real (c : ty) : Prop := concrete c = true /\ plain_options c = true.

Lemma tmatch_sound p c vs vs' : sound_pattern p = true -> real c -> vars_ok vs -> tmatch p c vs = Some vs' ->
  vars_ok vs' /\ ext false vs vs' /\ inst broadcasts_to (meaning vs') p c.
Proof.
  unfold tmatch; intros SP (C1 & C2) V E; destruct (match_ p c vs) as [ ([ | ], w) | | | ] eqn:M; try discriminate.
  injection E as ->; destruct (sound false p c vs vs' SP C1 C2 V ltac:(discriminate) M) as (X & Y & Z & _); auto.
Qed.

Lemma args_sound pats : forall args vs vs', Forall (fun p => sound_pattern p = true) pats ->
  (forall a, In a args -> real (type_of a)) -> vars_ok vs ->
  check_args tmatch type_of pats args vs = Ok vs' ->
  vars_ok vs' /\ ext false vs vs' /\
  forall i p a, nth_error pats i = Some p -> nth_error args i = Some a -> inst broadcasts_to (meaning vs') p (type_of a).
Proof.
  induction pats as [ | p pats IH ]; intros args vs vs' F R V; cbn [check_args].
  - intros X; injection X as <-; repeat split; auto using ext_refl; intros [ | i ]; discriminate.
  - destruct args as [ | a args ]; [ discriminate | ].
    destruct (tmatch p (type_of a) vs) as [ v1 | ] eqn:M; [ | discriminate ]; intros X.
    inversion F as [ | ? ? SP F' ]; subst.
    destruct (tmatch_sound _ _ _ _ SP (R a (or_introl eq_refl)) V M) as (V1 & E1 & I1).
    destruct (IH args v1 vs' F' (fun b B => R b (or_intror B)) V1 X) as (V2 & E2 & I2).
    split; [ auto | split; [ eapply ext_trans; eauto | ] ].
    intros [ | i ] q b; cbn [nth_error]; [ | apply I2 ].
    intros Q B; injection Q as <-; injection B as <-; exact (inst_mono false _ _ E2 _ _ I1).
Qed.

Lemma kwds_sound kwds : Forall (fun kd => sound_pattern (k_pat kd) = true) kwds ->
  forall kw vs vs', (forall n a, In (n, a) kw -> real (value_type_of a)) -> vars_ok vs ->
  match_kwds tmatch value_type_of kwds kw vs = Some vs' ->
  vars_ok vs' /\ ext false vs vs' /\
  forall n a k kd, In (n, a) kw -> kwd_index kwds n = Some k -> nth_error kwds k = Some kd ->
    inst broadcasts_to (meaning vs') (k_pat kd) (value_type_of a).
Proof.
  intros F; induction kw as [ | (n, a) kw IH ]; intros vs vs' R V; cbn [match_kwds].
  - intros X; injection X as <-; repeat split; auto using ext_refl; intros n a k kd [].
  - destruct (kwd_index kwds n) as [ k | ] eqn:K.
    + destruct (nth_error kwds k) as [ kd | ] eqn:KD; [ | discriminate ].
      destruct (tmatch (k_pat kd) (value_type_of a) vs) as [ v1 | ] eqn:M; [ | discriminate ]; intros X.
      pose proof (proj1 (Forall_forall _ _) F kd (nth_error_In _ _ KD)) as SP.
      destruct (tmatch_sound _ _ _ _ SP (R n a (or_introl eq_refl)) V M) as (V1 & E1 & I1).
      destruct (IH v1 vs' (fun m b B => R m b (or_intror B)) V1 X) as (V2 & E2 & I2).
      split; [ auto | split; [ eapply ext_trans; eauto | ] ].
      intros m b j kj [ Y | Y ] J KJ; [ | eauto ].
      injection Y as <- <-; assert (j = k) by congruence; subst j; assert (kj = kd) by congruence; subst kj.
      exact (inst_mono false _ _ E2 _ _ I1).
    + intros X; destruct (IH vs vs' (fun m b B => R m b (or_intror B)) V X) as (V2 & E2 & I2).
      repeat split; auto; intros m b j kj [ Y | Y ] J KJ; [ congruence | eauto ].
Qed.

(* One assignment of the type variables makes every argument that has a declared
   type an instance of it: the positional ones, the keywords that were passed by
   name, and the destination. *)
Theorem C125_call_types_partial s pos kw b : NoDup (names s) ->
  Forall (fun p => sound_pattern p = true) (s_args s) ->
  Forall (fun kd => sound_pattern (k_pat kd) = true) (s_kwds s) -> sound_pattern (s_ret s) = true ->
  (forall a, In a pos -> real (type_of a)) -> (forall n a, In (n, a) kw -> real (value_type_of a)) ->
  (forall t a, b_dst b = Dst t a -> real t) ->
  call s [] pos kw = Ok b ->
  (s_variadic s = false -> forall i p a, nth_error (s_args s) i = Some p -> nth_error pos i = Some a ->
     inst broadcasts_to (meaning (b_vars b)) p (type_of a)) /\
  (forall kd a, In kd (s_kwds s) -> In (k_name kd, a) kw ->
     inst broadcasts_to (meaning (b_vars b)) (k_pat kd) (value_type_of a)) /\
  (forall t a, b_dst b = Dst t a -> inst broadcasts_to (meaning (b_vars b)) (s_ret s) t).
Proof.
  intros ND FA FK FR RP RK RD E; apply call_unfold in E.
  destruct E as (_ & v & slots & d & v2 & CA & _ & B & MD & _ & _ & BD & _); subst d.
  destruct (bind_inv _ _ _ _ _ ND _ _ _ _ _ _ _ B) as (MK & _).
  assert (V0 : vars_ok []) by (intros x t; discriminate).
  assert (S1 : vars_ok v /\ (s_variadic s = false -> forall i p a, nth_error (s_args s) i = Some p -> nth_error pos i = Some a ->
     inst broadcasts_to (meaning v) p (type_of a))).
  { destruct (s_variadic s); [ subst v; split; auto; discriminate | ].
    destruct (args_sound _ _ _ _ FA RP V0 CA) as (X & _ & Y); auto. }
  destruct S1 as (V1 & I1); destruct (kwds_sound _ FK _ _ _ RK V1 MK) as (V2 & E2 & I2).
  assert (S3 : ext false v2 (b_vars b) /\ forall t a, b_dst b = Dst t a -> inst broadcasts_to (meaning (b_vars b)) (s_ret s) t).
  { destruct (b_dst b) as [ | t a ] eqn:BD.
    - rewrite MD; split; [ apply ext_refl | discriminate ].
    - destruct (tmatch_sound _ _ _ _ FR (RD t a eq_refl) V2 MD) as (_ & X & Y); split; auto.
      intros u c Q; injection Q as <- <-; auto. }
  destruct S3 as (E3 & I3); repeat split; auto.
  - intros VA i p a P1 P2; apply (inst_mono false _ _ (ext_trans _ _ _ _ E2 E3)); apply (I1 VA i p a P1 P2).
  - intros kd a K I; apply (inst_mono false _ _ E3).
    apply In_nth_error in K; destruct K as (k & K); apply (I2 (k_name kd) a k kd I); auto.
    apply index_nth; auto.
Qed.
End C125.
Print Assumptions C125_call_types_partial.

(* ---------------------------------------------------------------- examples *)
Definition f64 := TBuiltin float64.
Definition i32 := TBuiltin int32.
Definition T_ := TTypevar "T".
(* (Fixed... * T, T, x: T, y: ?T, z: float64) -> T *)
Definition ex_sig : @sig ty :=
  Sig false [TEllipsis "Dims" T_; T_] false
    [Kwd "x" T_ false; Kwd "y" T_ true; Kwd "z" f64 false] T_.
Definition arr := TFixedDim 3 f64.
Definition tcall := @call ty ty env ty tmatch (fun t => t) (fun t => t) Some.

Example C124_example :
  exists b, tcall ex_sig [] [arr; f64; f64] [("z", f64)] = Ok b /\
  b_args b = [arr; f64] /\ b_slots b <> [] /\ firstn 3 (b_slots b) = [Given f64; NA; Given f64] /\ NoDup (names ex_sig).
Proof.
  eexists; split; [ vm_compute; reflexivity | ]; repeat split; try discriminate.
  repeat constructor; cbn; intuition discriminate.
Qed.

Example C125_example :
  exists b, tcall ex_sig [] [arr; f64] [("z", f64); ("dst", f64); ("x", f64)] = Ok b /\
  b_dst b = Dst f64 (Some f64) /\ inst broadcasts_to (meaning (b_vars b)) (TEllipsis "Dims" T_) arr /\
  tcall ex_sig [] [arr; f64] [("z", f64); ("x", i32)] = Throw "keyword does not match".
Proof.
  eexists; split; [ vm_compute; reflexivity | ]; repeat split.
  exists [DFixed 3], f64; repeat split; intros _; exists [DFixed 3]; split; [ reflexivity | ].
  exists [], [DFixed 3]; split; auto; constructor; [ left; auto | constructor ].
Qed.

(* With dst, a required keyword may be missing: the implementation gets a null
   array for x. *)
Theorem C124_required_refuted : exists s pos kw b k kd, NoDup (names s) /\ tcall s [] pos kw = Ok b /\
  nth_error (s_kwds s) k = Some kd /\ k_opt kd = false /\ ~ In (k_name kd) (map fst kw) /\
  nth_error (b_slots b) k = Some Empty.
Proof.
  exists ex_sig, [arr; f64], [("dst", f64); ("z", f64)], (Bound [arr; f64] [Empty; NA; Given f64; Empty; Empty] 3
    [("T", f64); ("Dims", TDimFragment [3%Z])] (Dst f64 (Some f64))), 0%nat, (Kwd "x" T_ false).
  split; [ repeat constructor; cbn; intuition discriminate | ].
  split; [ vm_compute; reflexivity | ].
  repeat split; cbn; intuition discriminate.
Qed.
Print Assumptions C124_required_refuted.

(* The same keyword passed by position is not checked at all: z: float64 receives
   an int32, which by name is refused. *)
Theorem C125_positional_keyword_refuted : exists s b kd, NoDup (names s) /\ s_variadic s = false /\
  tcall s [] [i32] [] = Ok b /\ s_kwds s = [kd] /\
  nth_error (b_slots b) 0 = Some (Given i32) /\ (forall R g, ~ inst R g (k_pat kd) i32) /\
  tcall s [] [] [(k_name kd, i32)] = Throw "keyword does not match".
Proof.
  exists (Sig false [] false [Kwd "z" f64 false] f64), (Bound [] [Given i32; Empty] 1 [] NoDst), (Kwd "z" f64 false).
  split; [ repeat constructor; cbn; tauto | ].
  repeat split; try (vm_compute; reflexivity); intros R g; cbn; discriminate.
Qed.
Print Assumptions C125_positional_keyword_refuted.

(* A callable that takes any keyword refuses the ones it does not name. *)
Theorem C124_any_keyword_refuted : exists s, s_kwd_variadic s = true /\
  tcall s [] [] [("other", f64)] = Throw "unexpected keyword".
Proof. exists (Sig false [] true [] f64); split; reflexivity. Qed.
Print Assumptions C124_any_keyword_refuted.
