(** C80-C86: the order of strings, binary_search, take, where, and the iterators
    that sort uses. *)
From Verif Require Import Base ParseIntModel StridedModel StridedSpec StridedProofs StridedProofs2 EncodingSpec SearchModel SearchSpec SearchProofs SearchProofs2.
Open Scope Z_scope.

(** ** C80: the comparison operators of strings are those of one strict total
    order, and equality is equality of contents. *)
Theorem C80_string_order : forall s t u, Forall byte s -> Forall byte t ->
  str_lt s s = false /\
  (str_lt s t = true -> str_lt t u = true -> str_lt s u = true) /\
  (str_lt s t = true \/ s = t \/ str_lt t s = true) /\
  (str_lt s t = true -> str_lt t s = false) /\
  (str_eq s t = true <-> s = t) /\
  (str_le s t = true <-> str_lt s t = true \/ s = t) /\
  (str_gt s t = true <-> str_lt t s = true) /\
  (str_ge s t = true <-> str_gt s t = true \/ s = t).
Proof.
  intros s t u Bs Bt.
  assert (AS : forall a b, lex_compare a b = true -> lex_compare b a = false).
  { intros a b H. destruct (lex_compare b a) eqn:E; [|reflexivity].
    pose proof (lex_trans _ _ _ H E) as Q. rewrite lex_irrefl in Q. discriminate. }
  assert (TRI : lex_compare s t = true \/ s = t \/ lex_compare t s = true).
  { destruct (lex_compare s t) eqn:E; [left; reflexivity|]. destruct (lex_compare t s) eqn:E'; [right; right; reflexivity|].
    right; left. apply lex_total; assumption. }
  unfold str_lt, str_le, str_gt, str_ge.
  split; [apply lex_irrefl|]. split; [apply lex_trans|]. split; [exact TRI|]. split; [apply AS|].
  split; [apply str_eq_iff|]. split; [|split; [reflexivity|]]; rewrite negb_true_iff.
  - split.
    + intros H. destruct TRI as [?|[?|Q]]; [left; assumption|right; assumption|]. rewrite Q in H. discriminate.
    + intros [H| ->]; [apply AS; exact H|apply lex_irrefl].
  - split.
    + intros H. destruct TRI as [Q|[?|?]]; [|right; assumption|left; assumption]. rewrite Q in H. discriminate.
    + intros [H| ->]; [apply AS; exact H|apply lex_irrefl].
Qed.
Print Assumptions C80_string_order.
Example C80_case : Forall byte [97; 98] /\ str_lt [97] [97; 98] = true /\ str_lt [97; 98] [98] = true /\ str_eq [97; 98] [97; 98] = true /\
  str_ge [98] [97; 98] = true.
Proof. repeat split; repeat constructor; unfold byte; lia. Qed.

(** ** C81: texts are ordered by their code points. *)
(** Texts of ASCII characters are. *)
Theorem C81_ascii_partial : forall s t, Forall (fun c => 0 <= c < 128) s -> Forall (fun c => 0 <= c < 128) t ->
  (str_lt s t = true <-> lexico (fun c => c) s t).
Proof.
  intros s t Hs Ht. unfold str_lt. rewrite lex_iff; [|eapply Forall_impl; [|exact Hs]; cbn; lia|eapply Forall_impl; [|exact Ht]; cbn; lia].
  split; intros L.
  - induction L as [| a b s t L | a s t L IH]; [constructor| |].
    + apply lex_head. inversion Hs; inversion Ht; subst. rewrite !schar_lo in L by lia. exact L.
    + apply lex_tail. inversion Hs; inversion Ht; subst. apply IH; assumption.
  - induction L as [| a b s t L | a s t L IH]; [constructor| |].
    + apply lex_head. inversion Hs; inversion Ht; subst. rewrite !schar_lo by lia. exact L.
    + apply lex_tail. inversion Hs; inversion Ht; subst. apply IH; assumption.
Qed.
Print Assumptions C81_ascii_partial.
(** In general every code point from 0x80 up comes before all of ASCII, and
    otherwise the order is that of the code points. *)
Theorem C81_utf8_order_partial : forall cps1 s1 cps2 s2, text utf8_of cps1 s1 -> text utf8_of cps2 s2 ->
  (str_lt s1 s2 = true <-> lexico (fun cp => if cp <? 128 then cp else cp - 0x110000) cps1 cps2).
Proof. intros cps1 s1 cps2 s2. apply text_lex. Qed.
Print Assumptions C81_utf8_order_partial.
(** U+00E9 is less than the letter z. *)
Theorem C81_code_point_order_refuted : exists cps1 s1 cps2 s2, text utf8_of cps1 s1 /\ text utf8_of cps2 s2 /\
  lexico (fun c => c) cps2 cps1 /\ str_lt s1 s2 = true.
Proof.
  exists [233], [195; 169], [122], [122]. split; [|split; [|split]].
  - apply (text_cons utf8_of 233 [195; 169] [] []); [|constructor]. apply (utf8_2 3 41); lia.
  - apply (text_cons utf8_of 122 [122] [] []); [|constructor]. apply (utf8_1 122); lia.
  - apply lex_head. lia.
  - reflexivity.
Qed.
Print Assumptions C81_code_point_order_refuted.
Example C81_case : text utf8_of [0x20AC; 97] [226; 130; 172; 97] /\ str_lt [226; 130; 172; 97] [226; 130; 172; 98] = true.
Proof.
  split; [|reflexivity]. apply (text_cons utf8_of 0x20AC [226; 130; 172] [97] [97]).
  - apply (utf8_3 2 2 44); unfold scalar; lia.
  - apply (text_cons utf8_of 97 [97] [] []); [apply (utf8_1 97); lia|constructor].
Qed.

(** ** C82: binary_search returns the index of an element equivalent to the one
    searched for, or -1, whatever the order of the array; on an array in order it
    returns -1 only if there is none. *)
Theorem C82_binary_search_partial : forall lt m src0 n stride val v x, s64 n -> m val = Some v ->
  (forall i, 0 <= i < n -> m (src0 + i * stride) = Some (x i)) ->
  exists r, binary_search lt m src0 n stride val = Ok r /\
    (r = -1 \/ (0 <= r < n /\ equivalent lt v (x r))) /\
    (weak_order lt -> in_order lt x n ->
     (r = -1 <-> forall i, 0 <= i < n -> ~ equivalent lt v (x i))).
Proof.
  intros lt m src0 n stride val v x N V X. unfold binary_search.
  destruct (Z.lt_ge_cases n 0) as [NN|NN].
  - exists (-1). replace (Z.to_nat n) with O by lia. cbn. destruct (Z.ltb_spec 0 n); [lia|].
    split; [reflexivity|]. split; [left; reflexivity|]. intros _ _. split; [intros; lia|reflexivity].
  - destruct (bs_sound lt m src0 stride val v n x N V X (Z.to_nat n) 0 n) as (r & -> & H); [lia|lia|lia|].
    exists r. split; [reflexivity|]. split.
    + destruct H as [(-> & _)|H]; [left; reflexivity|right; exact H].
    + intros W O. destruct H as [(-> & C)|(R & E)].
      * split; [|reflexivity]. intros _ i I (E1 & E2).
        destruct (C W O ltac:(intros; lia) ltac:(intros; lia) i I); congruence.
      * split; [intros ->; lia|]. intros Q. exfalso. exact (Q r R E).
Qed.
Print Assumptions C82_binary_search_partial.
(** The type of the argument is not looked at: an int64 is read as an int32, and
    an element is found that is not equal to it. *)
Theorem C82_other_type_refuted : exists xs v r, in_order Z.ltb (fun i => nth (Z.to_nat i) xs 0) (Z.of_nat (List.length xs)) /\
  s64 v /\ ~ In v xs /\ binary_search_int32 xs v = Ok r /\ 0 <= r.
Proof.
  exists [5], (2 ^ 32 + 5), 0. split; [|split; [|split; [|split]]].
  - intros i j H1 H2. cbn in H2. lia.
  - unfold s64. lia.
  - cbn. lia.
  - reflexivity.
  - lia.
Qed.
Print Assumptions C82_other_type_refuted.
(** An int32 argument is searched correctly. *)
Theorem C82_int32_partial : forall xs v, Forall (fun x => - 2 ^ 31 <= x < 2 ^ 31) xs -> - 2 ^ 31 <= v < 2 ^ 31 ->
  Z.of_nat (List.length xs) < 2 ^ 63 ->
  exists r, binary_search_int32 xs v = Ok r /\ (r = -1 \/ (0 <= r /\ nth_error xs (Z.to_nat r) = Some v)) /\
    (in_order Z.ltb (fun i => nth (Z.to_nat i) xs 0) (Z.of_nat (List.length xs)) -> (r = -1 <-> ~ In v xs)).
Proof.
  intros xs v B Bv LN.
  assert (CV : cast true 32 v = v).
  { unfold cast. cbn [andb]. destruct (Z.lt_ge_cases v 0) as [NV|NV].
    - assert (E : v mod 2 ^ 32 = v + 2 ^ 32) by (symmetry; apply (Z.mod_unique v (2 ^ 32) (-1)); lia).
      rewrite E. destruct (Z.leb_spec (2 ^ (32 - 1)) (v + 2 ^ 32)); cbn -[Z.pow] in *; lia.
    - rewrite Z.mod_small by lia. destruct (Z.leb_spec (2 ^ (32 - 1)) v); cbn -[Z.pow] in *; lia. }
  destruct (C82_binary_search_partial Z.ltb (array_mem xs (cast true 32 v)) 0 (Z.of_nat (List.length xs)) 1 (-1) v
              (fun i => nth (Z.to_nat i) xs 0)) as (r & R1 & R2 & R3).
  - unfold s64. lia.
  - rewrite CV. reflexivity.
  - intros i I. unfold array_mem. replace (0 + i * 1) with i by ring.
    destruct (Z.eqb_spec i (-1)); [lia|]. destruct (Z.leb_spec 0 i); [|lia].
    apply nth_error_nth'. lia.
  - exists r. split; [exact R1|]. split.
    + destruct R2 as [R2|(I & E1 & E2)]; [left; exact R2|right]. split; [lia|].
      rewrite (nth_error_nth' xs 0) by lia. f_equal. lia.
    + intros O. rewrite (R3 ltac:(split; intros; lia) O). split.
      * intros H IN. destruct (In_nth xs v 0 IN) as (i & L & E). apply (H (Z.of_nat i)); [lia|]. unfold equivalent. rewrite Nat2Z.id, E. lia.
      * intros NI i I (E1 & E2). apply NI. assert (v = nth (Z.to_nat i) xs 0) as -> by lia. apply nth_In. lia.
Qed.
Print Assumptions C82_int32_partial.
Example C82_case : weak_order Z.ltb /\ in_order Z.ltb (fun i => 2 * i) 5 /\
  binary_search_int32 [0; 2; 4; 6; 8] 6 = Ok 3 /\ binary_search_int32 [0; 2; 4; 6; 8] 5 = Ok (-1) /\
  binary_search_int32 [8; 0; 2] 8 = Ok (-1).
Proof. split; [split; intros; lia|]. split; [intros i j; lia|]. repeat split; reflexivity. Qed.

(** ** C83: taking with a mask gives the elements whose mask is set, in order,
    and nothing else is written. *)
Theorem C83_masked_take : forall k f m begin ds junk src0 ss mask ms (n : nat) b x v,
  applies f k -> distinct ds n ->
  (forall i j, 0 <= i < Z.of_nat n -> 0 <= j < Z.of_nat n -> elem begin ds i <> elem mask ms j /\ elem begin ds i <> elem src0 ss j) ->
  (forall i, 0 <= i < Z.of_nat n -> m (elem mask ms i) = Some (b i)) ->
  (forall i, 0 <= i < Z.of_nat n -> m (elem src0 ss i) = Some (x i)) ->
  (forall i, 0 <= i < Z.of_nat n -> b i <> 0 -> f [x i] = Ok (v i)) ->
  let taken := selected (tabulate n (fun i => negb (b i =? 0))) (tabulate n v) in
  exists m', masked_take_call k m begin ds junk src0 ss (Z.of_nat n) mask ms (Z.of_nat n) = Ok (m', Z.of_nat (List.length taken)) /\
    (forall j, (j < List.length taken)%nat -> m' (elem begin ds (Z.of_nat j)) = Some (nth j taken 0)) /\
    (forall a, (forall j, 0 <= j < Z.of_nat n -> a <> elem begin ds j) -> m' a = m a).
Proof.
  intros k f m begin ds junk src0 ss mask ms n b x v K DI AP M X FX taken.
  unfold masked_take_call. rewrite Z.eqb_refl. unfold masked_take. rewrite Nat2Z.id.
  set (m0 := alloc_buf m begin ds n junk).
  assert (OUT : forall a, (forall j, 0 <= j < Z.of_nat n -> a <> elem begin ds j) -> m0 a = m a).
  { intros a A. unfold m0, alloc_buf. destruct (in_buf begin ds n a) eqn:E; [|reflexivity].
    apply in_buf_iff in E. destruct E as (j & J & E). exfalso. exact (A j J E). }
  assert (VA : valid m0 begin ds n).
  { intros i I. unfold m0, alloc_buf. destruct (in_buf begin ds n (elem begin ds i)) eqn:E; [discriminate|].
    assert (in_buf begin ds n (elem begin ds i) = true) by (apply in_buf_iff; exists i; split; [exact I|reflexivity]). congruence. }
  destruct (masked_spec k f K src0 ss mask ms ds (Z.of_nat n) b x v n n 0 m0 begin 0) as (m' & E & R1 & R2).
  - lia.
  - lia.
  - lia.
  - exact VA.
  - exact DI.
  - intros j J. rewrite OUT; [apply M; exact J|]. intros a A Q. destruct (AP a j A J) as (Q1 & _). apply Q1. symmetry. exact Q.
  - intros j J. rewrite OUT; [apply X; exact J|]. intros a A Q. destruct (AP a j A J) as (_ & Q1). apply Q1. symmetry. exact Q.
  - intros j J. apply FX. exact J.
  - intros a j A J. apply AP; assumption.
  - assert (SEL : sel b v n 0 = taken) by (rewrite sel_selected; reflexivity).
    rewrite !elem_0, SEL, Z.add_0_l in E. rewrite SEL in R1, R2. rewrite E. cbn [bind].
    assert (LEN : (List.length taken <= n)%nat) by (rewrite <- SEL; apply (sel_length b x v n 0)).
    eexists. split; [reflexivity|]. cbv beta. rewrite Nat2Z.id. split.
    + intros j J.
      assert (IB : in_buf begin ds (List.length taken) (elem begin ds (Z.of_nat j)) = true)
        by (apply in_buf_iff; exists (Z.of_nat j); split; [lia|reflexivity]).
      rewrite IB, andb_false_r. apply R1. exact J.
    + intros a A. destruct (in_buf begin ds n a) eqn:IB.
      * apply in_buf_iff in IB. destruct IB as (j & J & Q). exfalso. exact (A j J Q).
      * cbn [andb]. rewrite R2; [apply OUT; exact A|]. intros j J. apply A. lia.
Qed.
Print Assumptions C83_masked_take.
(** A mask of another size is refused. *)
Theorem C83_mask_size : forall k m begin ds junk src0 ss n mask ms nmask, n <> nmask ->
  masked_take_call k m begin ds junk src0 ss n mask ms nmask = Throw "invalid_argument".
Proof. intros. unfold masked_take_call. destruct (Z.eqb_spec n nmask); [contradiction|reflexivity]. Qed.
Print Assumptions C83_mask_size.
(** Elements 0 .. 4 at 0, their masks at 10, the result at 20. *)
Definition take_ex : mem := fun a =>
  if (0 <=? a) && (a <? 5) then nth_error [7; 8; 9; 10; 11] (Z.to_nat a)
  else if (10 <=? a) && (a <? 15) then nth_error [0; 1; 1; 0; 1] (Z.to_nat (a - 10)) else None.
Example C83_case :
  applies (on1 (fun v => Ok (v + 100))) (leafs (fun v => Ok (v + 100))) /\ distinct 1 5 /\
  match masked_take_call (leafs (fun v => Ok (v + 100))) take_ex 20 1 (fun _ => -1) 0 1 5 10 1 5 with
  | Ok (m', n) => n = 3 /\ m' 20 = Some 108 /\ m' 21 = Some 109 /\ m' 22 = Some 111 /\ m' 23 = None /\ m' 0 = Some 7
  | _ => False
  end.
Proof. split; [apply leafs_applies|]. split; [left; lia|]. cbv. auto 10. Qed.

(** ** C84: taking with indices. *)
(** The kernel assigns the elements the indices designate, negative ones
    counting from the end, and throws if one designates none. *)
Theorem C84_indexed_take_kernel_partial : forall f m dst ds src0 ss n index is_ count ix x, s64 n -> 0 <= n ->
  (forall i, 0 <= i < Z.of_nat count -> m (elem index is_ i) = Some (ix i)) ->
  (forall j, 0 <= j < n -> m (elem src0 ss j) = Some (x j)) ->
  valid m dst ds count -> distinct ds count ->
  (forall i j, 0 <= i < Z.of_nat count -> 0 <= j < n -> elem dst ds i <> elem src0 ss j) ->
  (forall i j, 0 <= i < Z.of_nat count -> 0 <= j < Z.of_nat count -> elem dst ds i <> elem index is_ j) ->
  (forall d v, (forall i, 0 <= i < Z.of_nat count -> designates (ix i) n (d i) /\ f (x (d i)) = Ok (v i)) ->
     exists m', indexed_loop (leaf1 f) m dst ds src0 ss n index is_ count = Ok m' /\ stored m m' dst ds count v) /\
  ((forall y, exists v, f y = Ok v) -> (exists i, 0 <= i < Z.of_nat count /\ forall d, ~ designates (ix i) n d) ->
     indexed_loop (leaf1 f) m dst ds src0 ss n index is_ count = Throw "index_out_of_bounds").
Proof.
  intros f m dst ds src0 ss n index is_ count ix x N N0 I X VA DI A1 A2.
  assert (P : ix_pre src0 ss n is_ ds x m dst index count ix) by (unfold ix_pre; auto 10).
  split; [intros d v H; exact (indexed_ok f src0 ss n is_ ds x N count m dst index ix d v P H)|].
  intros T B. exact (indexed_bad f src0 ss n is_ ds x N N0 T count m dst index ix P B).
Qed.
Print Assumptions C84_indexed_take_kernel_partial.
(** nd::take itself: the call graph starts with the element assignment, so the
    call assigns element 0 to element 0, whatever the indices. *)
Theorem C84_take_copies_first : forall f m dst ds src0 ss n index is_ count x v,
  m src0 = Some x -> f x = Ok v -> m dst <> None ->
  take_indices (leaf1 f) ds ss n is_ count m dst [src0; index] = Ok (upd m dst v).
Proof. intros f m dst ds src0 ss n index is_ count x v E F D. exact (leaf1_one f m dst src0 x v E F D). Qed.
Print Assumptions C84_take_copies_first.
(** Elements 7, 8, 9 at 0, indices -1, 0, 1 at 10, the result at 20. *)
Definition index_ex : mem := fun a =>
  if (0 <=? a) && (a <? 3) then nth_error [7; 8; 9] (Z.to_nat a)
  else if (10 <=? a) && (a <? 13) then nth_error [-1; 0; 1] (Z.to_nat (a - 10))
  else if (20 <=? a) && (a <? 23) then Some 0 else None.
Theorem C84_take_refuted : exists m', take_indices (leaf1 (fun v => Ok v)) 1 1 3 1 3 index_ex 20 [0; 10] = Ok m' /\
  designates (-1) 3 2 /\ index_ex 10 = Some (-1) /\ index_ex 2 = Some 9 /\ m' 20 = Some 7.
Proof.
  exists (upd index_ex 20 7). split; [apply (C84_take_copies_first _ _ _ _ _ _ _ _ _ _ 7 7); [reflexivity|reflexivity|discriminate]|].
  split; [unfold designates; lia|]. repeat split; reflexivity.
Qed.
Print Assumptions C84_take_refuted.
Example C84_case : designates (-1) 3 2 /\ (forall d, ~ designates 3 3 d) /\
  match indexed_loop (leaf1 (fun v => Ok v)) index_ex 20 1 0 1 3 10 1 3 with
  | Ok m' => m' 20 = Some 9 /\ m' 21 = Some 7 /\ m' 22 = Some 8
  | _ => False
  end /\
  indexed_loop (leaf1 (fun v => Ok v)) index_ex 20 1 0 1 3 0 1 3 = Throw "index_out_of_bounds" /\
  match take_indices (leaf1 (fun v => Ok v)) 1 1 3 1 3 index_ex 20 [0; 10] with
  | Ok m' => m' 20 = Some 7 /\ m' 21 = Some 0 /\ m' 22 = Some 0
  | _ => False
  end.
Proof. split; [unfold designates; lia|]. split; [unfold designates; intros; lia|]. split; [cbv; auto|]. split; [reflexivity|cbv; auto]. Qed.

(** ** C85: where collects the indices that satisfy the predicate, in order. *)
Theorem C85_where_partial : forall p n cells cap, exists cells' cap',
  where_loop (fun i => Ok (p i)) n 0 (cells, O, cap) = Ok (cells', List.length (filter p (tabulate n (fun i => i))), cap') /\
  firstn (List.length (filter p (tabulate n (fun i => i)))) cells' = filter p (tabulate n (fun i => i)).
Proof.
  intros p n cells cap. destruct (where_from_empty p n 0 cells cap) as (cells' & cap' & E & H1 & H2).
  rewrite hits_filter in *. change (fun j => 0 + Z.of_nat j) with (fun j => Z.of_nat j) in *.
  exists cells', cap'. split; [exact E|]. fold (tabulate n (fun i => i)) in *.
  unfold tabulate in *. destruct (filter p _) eqn:F; [reflexivity|]. rewrite H1 by discriminate. apply firstn_all.
Qed.
Print Assumptions C85_where_partial.
(** A result that already holds elements is not cleared: the first new index is
    written beyond its memory. *)
Theorem C85_nonempty_refuted : exists p n cells,
  where_loop (fun i => Ok (p i)) n 0 (cells, List.length cells, O) = UB.
Proof. exists (fun _ => true), 1%nat, [7]. reflexivity. Qed.
Print Assumptions C85_nonempty_refuted.
Example C85_case : where_loop (fun i => Ok (Z.odd i)) 5 0 ([], O, O) = Ok ([1; 3], 2%nat, 2%nat).
Proof. reflexivity. Qed.

(** ** C86: the iterators over an array that sort gives to std::sort satisfy the
    laws of random access iterators: for positions i and j. *)
Definition at_ (src0 size stride i : Z) : siter := si_add (sort_begin src0 size stride) i.
Theorem C86_iterator_partial : forall src0 size stride i j, 0 < stride ->
  let a := at_ src0 size stride i in let b := at_ src0 size stride j in
  (si_lt a b = true <-> i < j) /\ (si_le a b = true <-> i <= j) /\ (si_eq a b = true <-> i = j) /\
  si_diff b a = Ok (j - i) /\ si_add a (j - i) = b /\ si_sub b (j - i) = a /\
  si_inc a = at_ src0 size stride (i + 1) /\ si_dec a = at_ src0 size stride (i - 1) /\
  sort_begin src0 size stride = at_ src0 size stride 0 /\ (forall n, sort_end src0 size stride n = at_ src0 size stride n).
Proof.
  intros src0 size stride i j P a b. subst a b. unfold at_, sort_begin, sort_end, si_lt, si_le, si_eq, si_diff, si_add, si_sub, si_inc, si_dec.
  cbn [si_data si_size si_stride].
  split; [rewrite Z.ltb_lt; nia|]. split; [rewrite Z.leb_le; nia|]. split; [rewrite Z.eqb_eq; nia|].
  split. { destruct (Z.eqb_spec stride 0); [lia|]. f_equal.
           replace (src0 + j * stride - (src0 + i * stride)) with ((j - i) * stride) by ring. apply Z.quot_mul. lia. }
  repeat split; f_equal; ring.
Qed.
Print Assumptions C86_iterator_partial.
(** Over a reversed array the order of the positions is backwards. *)
Theorem C86_reversed_order : forall src0 size stride i j, stride < 0 ->
  let a := at_ src0 size stride i in let b := at_ src0 size stride j in
  (si_lt a b = true <-> j < i) /\ (si_eq a b = true <-> i = j) /\ si_diff b a = Ok (j - i) /\ si_inc a = at_ src0 size stride (i + 1).
Proof.
  intros src0 size stride i j P a b. subst a b. unfold at_, sort_begin, si_lt, si_eq, si_diff, si_add, si_inc.
  cbn [si_data si_size si_stride].
  split; [rewrite Z.ltb_lt; nia|]. split; [rewrite Z.eqb_eq; nia|].
  split. { destruct (Z.eqb_spec stride 0); [lia|]. f_equal.
           replace (src0 + j * stride - (src0 + i * stride)) with ((j - i) * stride) by ring. apply Z.quot_mul. lia. }
  f_equal. ring.
Qed.
Print Assumptions C86_reversed_order.
Theorem C86_iterator_refuted : (exists src0 size stride n, 0 < n /\
    si_lt (sort_begin src0 size stride) (sort_end src0 size stride n) = false) /\
  (exists src0 size stride n, 0 < n /\ si_diff (sort_end src0 size stride n) (sort_begin src0 size stride) = UB) /\
  (exists a b, si_inc (si_assign a b) <> si_inc b).
Proof.
  split; [|split].
  - exists 100, 4, (-4), 3. split; [lia|reflexivity].
  - exists 100, 4, 0, 3. split; [lia|reflexivity].
  - exists (SI 0 4 0), (SI 100 4 4). intros E. discriminate E.
Qed.
Print Assumptions C86_iterator_refuted.
Example C86_case : si_lt (at_ 100 4 4 1) (at_ 100 4 4 3) = true /\ si_diff (at_ 100 4 4 3) (at_ 100 4 4 1) = Ok 2.
Proof. split; reflexivity. Qed.
