(* C129-C131: shortvector and multi_shortvector. *)
From Verif Require Import Base ShortVecModel ShortVecSpec ShortVecProofs ShortVecMulti.
Local Open Scope nat_scope.

(* C129. Whatever legal sequence of operations a program makes on any number of
   vectors, every call returns what the specification says (reading gives what was
   last written, also after moves and swaps; a refused constructor throws and
   changes nothing), nothing is read or deleted that is not there, and new[] is
   called only for vectors of more than N elements, once for each. *)
Theorem C129_history : forall N ops v es,
  history N ops none = Some (v, es) ->
  exists s, run N ops no_objects = Ok (s, es) /\
    List.length (heap s) = List.length (filter (big N) ops).
Proof.
  intros N ops v es H. destruct (run_ok N ops none no_objects v es (inv_empty N) H) as (s & M & _ & L).
  exists s. split; [exact M|]. simpl in L. exact L.
Qed.
Print Assumptions C129_history.

(* Memory: a block that is not deleted belongs to exactly one vector that exists;
   so when all vectors are destroyed everything has been deleted. *)
Theorem C129_no_leak : forall N ops v es,
  history N ops none = Some (v, es) ->
  exists s, run N ops no_objects = Ok (s, es) /\
    (forall a b, nth_error (heap s) a = Some (Some b) ->
       exists i o, v i <> None /\ objs s i = Some o /\ data o = Heap a /\
         forall j oj, objs s j = Some oj -> data oj = Heap a -> j = i) /\
    ((forall i, v i = None) -> forall a b, nth_error (heap s) a <> Some (Some b)).
Proof.
  intros N ops v es H. destruct (run_ok N ops none no_objects v es (inv_empty N) H) as (s & M & I & _).
  exists s. split; [exact M|].
  assert (P : forall a b, nth_error (heap s) a = Some (Some b) ->
       exists i o, v i <> None /\ objs s i = Some o /\ data o = Heap a /\
         forall j oj, objs s j = Some oj -> data oj = Heap a -> j = i).
  { intros a b E. destruct (i_own _ _ _ I a b E) as (i & o & F1 & F2). exists i, o. split.
    { intros Ev. rewrite (i_none _ _ _ I i Ev) in F1. discriminate. }
    split; [auto|]. split; [auto|]. intros j oj G1 G2. eapply (i_uniq _ _ _ I); eauto. }
  split; [exact P|]. intros Hn a b E. destruct (P a b E) as (i & o & F & _). apply F, Hn.
Qed.
Print Assumptions C129_no_leak.

(* a history with vectors of both kinds, swapped, moved, grown and destroyed *)
Example C129_example :
  let ops := [CtorData 0 2 [7; 8]%Z true; CtorData 1 4 [1; 2; 3; 4]%Z true; Swap 0 1; Get 0 3; Get 1 1;
              MoveCtor 2 0; Get 2 2; Init 0 5 true; Set_ 0 4 9%Z; Get 0 4; CtorCopy 3 4 2 false; MoveAssign 1 2;
              Get 1 0; Swap 0 0; Dtor 0; Dtor 1; Dtor 2] in
  exists v, history 3 ops none =
    Some (v, [Done; Done; Done; Val 4; Val 8; Done; Val 3; Done; Done; Val 9; Thrown; Done; Val 1; Done; Done; Done; Done]%Z)
    /\ (v 0 = None /\ v 1 = None /\ v 2 = None /\ v 3 = None) /\ filter (big 3) ops = [CtorData 1 4 [1; 2; 3; 4]%Z true; Init 0 5 true].
Proof. eexists. split; [vm_compute; reflexivity|]. split; [repeat split|reflexivity]. Qed.

(* C130. When memory runs out in init, or a vector is given its own elements,
   nothing is lost. Refuted for vectors of more than N elements: whatever happened
   before, destroying the vector after the refused init deletes its block again,
   and init(n, v.get()) copies from the deleted block. *)
Theorem C130_refused_refuted : forall N ops v es i n l,
  history N ops none = Some (v, es) -> v i = Some l -> N < List.length l -> N < n ->
  run N (ops ++ [Init i n false; Dtor i]) no_objects = UB.
Proof.
  intros N ops v es i n l H Ev Hl Hn.
  destruct (run_ok N ops none no_objects v es (inv_empty N) H) as (s & M & I & _).
  assert (R : forall ops1 s0 s1 es1 ops2, run N ops1 s0 = Ok (s1, es1) -> run N ops2 s1 = UB ->
            run N (ops1 ++ ops2) s0 = UB).
  { induction ops1 as [|o ops1 IH]; intros s0 s1 es1 ops2 E1 E2; simpl in *.
    - injection E1 as <- _. exact E2.
    - destruct (step N s0 o) as [[s2 e2]| | |]; simpl in *; try discriminate.
      destruct (run N ops1 s2) as [[s3 es3]| | |] eqn:E3; simpl in *; try discriminate.
      injection E1 as <- _. rewrite (IH s2 s3 es3 ops2 E3 E2). reflexivity. }
  apply (R ops no_objects s es _ M).
  destruct (shape N v s i l I Ev) as (o & Eo & Hs & [[D C]|(a & b & D & Hb & C)]).
  - pose proof (proj1 C). unfold cell in *. lia.
  - cbn [run step]. unfold init, get_obj. rewrite Eo. cbn [bind]. rewrite D. cbn [ptr_is_short delete_].
    rewrite Hb. cbn [bind]. destruct (Nat.leb_spec n N); [lia|]. cbn [then_copy snd fst bind].
    unfold dtor, get_obj. cbn [objs]. rewrite Eo. cbn [bind]. rewrite D. cbn [ptr_is_short delete_ heap].
    rewrite setn_nth, Nat.eqb_refl. destruct (_ <? _); reflexivity.
Qed.
Print Assumptions C130_refused_refuted.

Theorem C130_self_refuted : forall N ops v es i n l ok,
  history N ops none = Some (v, es) -> v i = Some l -> N < List.length l -> n <= List.length l ->
  granted N n ok = true ->
  run N (ops ++ [InitFrom i n i ok]) no_objects = UB.
Proof.
  intros N ops v es i n l ok H Ev Hl Hn G.
  destruct (run_ok N ops none no_objects v es (inv_empty N) H) as (s & M & I & _).
  assert (R : forall ops1 s0 s1 es1 ops2, run N ops1 s0 = Ok (s1, es1) -> run N ops2 s1 = UB ->
            run N (ops1 ++ ops2) s0 = UB).
  { induction ops1 as [|o ops1 IH]; intros s0 s1 es1 ops2 E1 E2; simpl in *.
    - injection E1 as <- _. exact E2.
    - destruct (step N s0 o) as [[s2 e2]| | |]; simpl in *; try discriminate.
      destruct (run N ops1 s2) as [[s3 es3]| | |] eqn:E3; simpl in *; try discriminate.
      injection E1 as <- _. rewrite (IH s2 s3 es3 ops2 E3 E2). reflexivity. }
  apply (R ops no_objects s es _ M).
  destruct (shape N v s i l I Ev) as (o & Eo & Hs & [[D C]|(a & b & D & Hb & C)]).
  - pose proof (proj1 C). unfold cell in *. lia.
  - assert (Ha : a < List.length (heap s)) by (apply nth_error_Some; rewrite Hb; discriminate).
    assert (De : nth_error (setn (heap s) a (@None (list cell))) a = Some None).
    { rewrite setn_nth, Nat.eqb_refl. destruct (Nat.ltb_spec a (List.length (heap s))); [reflexivity|lia]. }
    cbn [run step]. unfold init, get_obj. rewrite Eo. cbn [bind]. rewrite D. cbn [ptr_is_short delete_].
    rewrite Hb. cbn [bind]. unfold granted in G. destruct (n <=? N); cbn [orb] in G.
    + unfold set_data, get_obj. cbn [objs heap]. rewrite Eo. cbn [bind then_copy snd fst]. unfold memcpy.
      unfold get_obj, put_obj. cbn [objs heap]. rewrite upd_same. cbn [bind data block heap]. rewrite De. reflexivity.
    + rewrite G. cbn [new_ objs heap bind]. unfold set_data, get_obj. cbn [objs heap]. rewrite Eo.
      cbn [bind then_copy snd fst]. unfold memcpy, get_obj, put_obj. cbn [objs heap]. rewrite upd_same.
      cbn [bind data block heap]. rewrite nth_error_app1 by (rewrite setn_length; exact Ha). rewrite De. reflexivity.
Qed.
Print Assumptions C130_self_refuted.

(* As long as no vector has needed memory, a refused init changes nothing at all. *)
Theorem C130_refused_partial : forall N ops v es i n l,
  history N ops none = Some (v, es) -> filter (big N) ops = [] -> v i = Some l -> N < n ->
  exists s, run N ops no_objects = Ok (s, es) /\ step N s (Init i n false) = Ok (s, Thrown).
Proof.
  intros N ops v es i n l H Hb Ev Hn.
  destruct (run_ok N ops none no_objects v es (inv_empty N) H) as (s & M & I & L).
  exists s. split; [exact M|]. rewrite Hb in L. simpl in L.
  destruct (shape N v s i l I Ev) as (o & Eo & Hs & [[D C]|(a & b & D & Hc & C)]).
  - cbn [step]. unfold init, get_obj. rewrite Eo. cbn [bind]. rewrite D. cbn [ptr_is_short].
    rewrite Nat.eqb_refl. cbn [bind]. destruct (Nat.leb_spec n N); [lia|]. reflexivity.
  - assert (a < List.length (heap s)) by (apply nth_error_Some; rewrite Hc; discriminate). lia.
Qed.
Print Assumptions C130_refused_partial.

Example C130_example :
  (exists v es, history 3 [CtorData 0 4 [1; 2; 3; 4]%Z true] none = Some (v, es) /\
     v 0 = Some [Some 1; Some 2; Some 3; Some 4]%Z) /\
  (exists v es, history 3 [CtorData 0 2 [1; 2]%Z true; Swap 0 0] none = Some (v, es) /\ v 0 = Some [Some 1; Some 2]%Z).
Proof. split; (eexists; eexists; split; [vm_compute; reflexivity|reflexivity]). Qed.

(* C131. The M vectors of a multi_shortvector are independent arrays of n elements,
   whatever is written and read and however often it is initialised again, and all
   memory is freed at the end; provided it never goes back from a size that needed
   memory to one that does not. *)
Theorem C131_multi_partial : forall N M ops es, 0 < N -> 0 < M ->
  (Z.of_nat N * Z.of_nat M < 2147483648)%Z ->
  mhistory M ops None = Some es -> never_back N (sizes ops) ->
  (forall n, In n (sizes ops) -> Z.of_nat M * n < 2147483648)%Z ->
  exists s, mrun N M ops (m_empty N M) = Ok (s, es) /\
    forall a b, nth_error (m_heap s) a <> Some (Some b).
Proof.
  intros N M ops es HN HM HNM H NB F.
  destruct (multi_ok N M HN HM HNM ops None (m_empty N M) es (minv_empty N M) H NB F) as (s & R & D).
  - intros (n & f & E & _). discriminate.
  - exists s. split; [exact R|]. intros a b E. eapply D, E.
Qed.
Print Assumptions C131_multi_partial.

(* Exactly: a sequence of inits and the destructor are well defined if and only if
   it never goes back. *)
Theorem C131_reinit_exact : forall N M ns, 0 < N -> 0 < M ->
  (Z.of_nat N * Z.of_nat M < 2147483648)%Z ->
  (forall n, In n ns -> 0 <= n /\ Z.of_nat M * n < 2147483648)%Z ->
  ((exists r, mrun N M (map (fun n => MInit n true) ns) (m_empty N M) = Ok r) <-> never_back N ns) /\
  (~ never_back N ns -> mrun N M (map (fun n => MInit n true) ns) (m_empty N M) = UB).
Proof.
  intros N M ns HN HM HNM H.
  destruct (multi_inits N M HN HM HNM ns None (m_empty N M) (minv_empty N M)) as [P1 P2].
  { intros n Hn. apply H, Hn. } { intros n Hn. apply H, Hn. }
  assert (L : large N None -> forall m, In m ns -> (Z.of_nat N < m)%Z).
  { intros (n & f & E & _). discriminate. }
  assert (Q : ~ never_back N ns -> mrun N M (map (fun n => MInit n true) ns) (m_empty N M) = UB).
  { intros Hx. apply P2. intros [NB _]. auto. }
  split; [|exact Q]. split.
  - intros [r Hr].
    assert (Dec : never_back N ns \/ ~ never_back N ns).
    { clear. induction ns as [|n ns IH].
      - left. intros i j a b Hij Ha. destruct i; discriminate.
      - destruct IH as [IH|IH].
        + destruct (Z.le_gt_cases n (Z.of_nat N)).
          * left. apply never_back_intro; auto. intros. lia.
          * destruct (forallb (fun m => (Z.of_nat N <? m)%Z) ns) eqn:E.
            { left. apply never_back_intro; auto. intros _ m Hm.
              rewrite forallb_forall in E. apply Z.ltb_lt, E, Hm. }
            right. intros Hc. destruct (never_back_cons _ _ _ Hc) as [_ Hc2].
            assert (forallb (fun m => (Z.of_nat N <? m)%Z) ns = true); [|congruence].
            apply forallb_forall. intros m Hm. apply Z.ltb_lt. apply Hc2; auto.
        + right. intros Hc. apply IH. apply (never_back_cons _ _ _ Hc). }
    destruct Dec as [|Hx]; [assumption|]. rewrite (Q Hx) in Hr. discriminate.
  - intros NB. apply P1. auto.
Qed.
Print Assumptions C131_reinit_exact.

(* ten elements, then two: the block is deleted twice *)
Theorem C131_reinit_refuted :
  mrun 3 2 [MInit 10 true; MInit 2 true] (m_empty 3 2) = UB.
Proof. vm_compute. reflexivity. Qed.
Print Assumptions C131_reinit_refuted.

Example C131_example :
  let ops := [MInit 2 true; MSet 1 1 5; MSet 0 1 6; MGet 1 1; MInit 4 true; MSet 0 3 1; MSet 1 0 2; MGet 0 3; MInit 9 true]%Z in
  mhistory 2 ops None = Some [Done; Done; Done; Val 5; Done; Done; Done; Val 1; Done]%Z /\ sizes ops = [2; 4; 9]%Z.
Proof. split; vm_compute; reflexivity. Qed.
Example C131_never_back : never_back 3 [2; 4; 9]%Z.
Proof.
  intros i j n m H. destruct i as [|[|[|i]]]; destruct j as [|[|[|j]]]; simpl; try lia; intros E1 E2;
    try (injection E1 as <-; injection E2 as <-; lia); try (destruct j; discriminate); try (destruct i; discriminate).
Qed.
