(* C121: the layout of empty_like and eval; C122: axis order classification;
   C123: substitute_shape. *)
From Coq Require Import Sorting.Permutation Sorting.Sorted.
From Verif Require Import Base ShapeToolsModel ShapeToolsSpec ShapeToolsProofs KeepModel KeepSpec KeepProofs.
Local Open Scope Z_scope.

(* a source with fixed dimensions of the given strides *)
Fixpoint strided_source (strides : list Z) : sty :=
  match strides with [] => SScalar | s :: l => SFixed s (strided_source l) end.

Lemma sndim_source l : sndim (strided_source l) = List.length l.
Proof. induction l; cbn; auto. Qed.

Lemma read_source l : forall p c, exists c', read_strides (List.length l) (strided_source l) p c = (l, SScalar, false, c').
Proof.
  induction l as [ | s l IH ]; intros p c; cbn [List.length read_strides strided_source]; eauto.
  destruct (IH (if s =? 0 then p else s) (if s =? 0 then c else if negb (p =? 0) && (p <? s) then false else c)) as (c' & ->); eauto.
Qed.

(* ---------------------------------------------------------------- C121 *)

(* The new array, for every source: its strides give each element its own slot
   of the block that was allocated for it. *)
Theorem C121_new_like_fills fuel sort shape el src out : std_sort_contract sort -> 0 < el ->
  new_like fuel sort shape el src = Ok out ->
  List.length out = List.length shape /\ fills shape out el.
Proof.
  unfold new_like; intros SC EL E.
  pose proof (reorder_packed fuel sort src el SC EL shape) as H; rewrite E in H.
  destruct H as (perm & P & K); split; [ apply K | eapply packed_fills; eauto ].
Qed.
Print Assumptions C121_new_like_fills.

(* For sources with fixed dimensions, at least as many as the new array's, it
   always succeeds. *)
Theorem C121_new_like_total fuel sort shape el strides : std_sort_contract sort -> 0 < el ->
  List.length strides = List.length shape ->
  exists out, new_like fuel sort shape el (strided_source strides) = Ok out.
Proof.
  intros SC EL L; unfold new_like.
  pose proof (reorder_packed fuel sort (strided_source strides) el SC EL shape) as H.
  destruct (reorder fuel sort shape (default_strides shape el) (strided_source strides)) as [ o | | | ] eqn:E; try contradiction; [ eauto | exfalso ].
  destruct shape as [ | n0 [ | n1 shape ] ]; try discriminate E.
  cbn [default_strides] in E; rewrite reorder_step in E by discriminate; cbv zeta in E.
  cbn [List.length] in E; rewrite default_length in E.
  rewrite sndim_source, L in E; cbn [List.length] in E; rewrite Nat.ltb_irrefl in E.
  destruct (read_source strides 0 true) as (c' & R); rewrite L in R; cbn [List.length] in R; rewrite R in E.
  destruct c'; cbn [bind] in E; [ rewrite Nat.ltb_irrefl in E; discriminate | ].
  change (fold_right Z.mul el (n1 :: shape) :: fold_right Z.mul el shape :: default_strides shape el)
    with (default_strides (n0 :: n1 :: shape) el) in E.
  rewrite (start_ok fuel (n0 :: n1 :: shape) el) in E by (auto; discriminate).
  cbn [bind] in E; rewrite Nat.ltb_irrefl in E; discriminate.
Qed.
Print Assumptions C121_new_like_total.

Lemma read_c_order l : forall p c, Forall (fun s => 0 <= s) l -> 0 <= p ->
  snd (read_strides (List.length l) (strided_source l) p c) = true ->
  c = true /\ (0 < p -> forall i, (i < List.length l)%nat -> nth i l 0 <= p) /\
  (forall i j, (i < j < List.length l)%nat -> 0 < nth i l 0 -> nth j l 0 <= nth i l 0).
Proof.
  induction l as [ | s l IH ]; intros p c F P; cbn [List.length read_strides strided_source].
  - cbn; intros ->; split; [ auto | split; intros; lia ].
  - inversion F as [ | ? ? S0 F' ]; subst.
    pose proof (IH (if s =? 0 then p else s) (if s =? 0 then c else if negb (p =? 0) && (p <? s) then false else c) F') as H.
    destruct (read_strides _ _ _ _) as [ [ [ l0 la ] b ] c' ]; cbn [snd] in *; intros ->.
    destruct H as (H1 & H2 & H3); [ destruct (s =? 0); lia | reflexivity | ].
    destruct (Z.eqb_spec s 0) as [ -> | NZ ].
    + split; [ auto | split ].
      * intros PP [ | i ] I; cbn [nth]; [ lia | apply H2; auto; lia ].
      * intros [ | i ] [ | j ] IJ; cbn [nth]; try lia; apply H3; lia.
    + destruct (Z.eqb_spec p 0), (Z.ltb_spec p s); cbn in H1; try discriminate; (split; [ auto | split ]);
        try (intros PP [ | i ] I; cbn [nth]; [ lia | specialize (H2 ltac:(lia) i ltac:(lia)); lia ]);
        intros [ | i ] [ | j ] IJ; cbn [nth]; try lia; try (intros; apply H2; lia); apply H3; lia.
Qed.

Lemma prod_ge1 l : Forall (fun n => 1 <= n) l -> 1 <= prodZ l.
Proof. induction 1; cbn [prodZ]; nia. Qed.

Lemma prefix_le (sizes : list Z) perm el kj ki : Forall (fun n => 1 <= n) sizes -> 0 < el ->
  axis_permutation (List.length sizes) perm -> (kj < ki <= List.length perm)%nat ->
  sz sizes (nth kj perm 0%nat) * (el * prodZ (map (sz sizes) (firstn kj perm))) <= el * prodZ (map (sz sizes) (firstn ki perm)).
Proof.
  intros F EL P K.
  assert (G : forall l, incl l perm -> 1 <= prodZ (map (sz sizes) l)).
  { intros l I; apply prod_ge1, Forall_forall; intros x X; apply in_map_iff in X; destruct X as (a & <- & A).
    apply I in A; apply (Permutation_in _ P) in A; apply in_seq in A.
    unfold sz; apply (proj1 (Forall_forall _ _) F); apply nth_In; lia. }
  assert (E : firstn ki perm = firstn kj perm ++ nth kj perm 0%nat :: firstn (ki - Datatypes.S kj) (skipn (Datatypes.S kj) perm)).
  { clear - K; revert kj ki K; induction perm as [ | a perm IH ]; intros kj ki K; cbn [List.length] in K; [ lia | ].
    destruct ki as [ | ki ]; [ lia | ]; destruct kj as [ | kj ]; cbn [firstn nth app skipn].
    - rewrite Nat.sub_succ, Nat.sub_0_r; reflexivity.
    - f_equal; rewrite (IH kj ki) by lia; reflexivity. }
  rewrite E, map_app, prodZ_app; cbn [map prodZ].
  set (q := prodZ (map (sz sizes) (firstn (ki - Datatypes.S kj) (skipn (Datatypes.S kj) perm)))).
  assert (Q : 1 <= q).
  { apply G; intros x X; rewrite <- (firstn_skipn (Datatypes.S kj) perm); apply in_or_app; right.
    rewrite <- (firstn_skipn (ki - Datatypes.S kj) (skipn (Datatypes.S kj) perm)); apply in_or_app; left; auto. }
  assert (A : 1 <= prodZ (map (sz sizes) (firstn kj perm))).
  { apply G; intros x X; rewrite <- (firstn_skipn kj perm); apply in_or_app; left; auto. }
  assert (B : 1 <= sz sizes (nth kj perm 0%nat)).
  { specialize (G [nth kj perm 0%nat]); cbn [map prodZ] in G; rewrite Z.mul_1_r in G; apply G.
    intros x [ <- | [] ]; apply nth_In; lia. }
  clearbody q; revert A B; generalize (prodZ (map (sz sizes) (firstn kj perm))) (sz sizes (nth kj perm 0%nat)).
  intros x y X Y; clear - EL Q X Y.
  assert (1 * (y * (el * x)) <= q * (y * (el * x))) by (apply Z.mul_le_mono_nonneg_r; nia); nia.
Qed.

Lemma packed_order sizes perm el out ai aj ki kj : Forall (fun n => 1 <= n) sizes -> 0 < el ->
  axis_permutation (List.length sizes) perm -> packed perm sizes el out ->
  (kj < ki < List.length perm)%nat -> ai = nth ki perm 0%nat -> aj = nth kj perm 0%nat ->
  1 < sz sizes ai -> 1 < sz sizes aj -> sz sizes aj * nth aj out 0 <= nth ai out 0.
Proof.
  intros F EL P (L & K) KK -> -> NI NJ.
  rewrite (K kj), (K ki) by (auto; lia); apply prefix_le; auto; lia.
Qed.

(* The order of the axes: where the source has a larger stride, so has the new
   array, for sources with strides that are not negative. *)
Theorem C121_keeps_order_partial fuel sort shape el strides out : std_sort_contract sort -> 0 < el ->
  Forall (fun n => 1 <= n) shape -> Forall (fun s => 0 <= s) strides -> List.length strides = List.length shape ->
  new_like fuel sort shape el (strided_source strides) = Ok out ->
  forall i j, (i < List.length shape)%nat -> (j < List.length shape)%nat ->
  1 < nth i shape 0 -> 1 < nth j shape 0 -> 0 < nth j strides 0 < nth i strides 0 ->
  nth j shape 0 * nth j out 0 <= nth i out 0.
Proof.
  intros SC EL FS FN L E i j I J NI NJ S; unfold new_like in E.
  destruct shape as [ | n0 [ | n1 shape0 ] ]; cbn [List.length] in I, J; [ lia | assert (i = 0%nat /\ j = 0%nat) as (-> & ->) by lia; lia | ].
  set (shape := n0 :: n1 :: shape0) in *.
  change (default_strides shape el) with (fold_right Z.mul el (n1 :: shape0) :: default_strides (n1 :: shape0) el) in E.
  rewrite reorder_step in E by (cbn [default_strides]; discriminate); cbv zeta in E.
  change (fold_right Z.mul el (n1 :: shape0) :: default_strides (n1 :: shape0) el) with (default_strides shape el) in E.
  rewrite default_length, sndim_source, L, Nat.ltb_irrefl in E.
  destruct (read_source strides 0 true) as (c' & R).
  rewrite L in R; rewrite R in E.
  destruct c'; cbn [bind] in E; rewrite ?Nat.ltb_irrefl in E.
  - injection E as <-.
    assert (CO := read_c_order strides 0 true FN ltac:(lia)); rewrite L, R in CO; destruct (CO eq_refl) as (_ & _ & H).
    assert (IJ : (i < j)%nat).
    { destruct (Nat.lt_ge_cases i j) as [ X | X ]; auto; exfalso.
      destruct (Nat.eq_dec i j) as [ -> | ]; [ lia | ].
      specialize (H j i ltac:(unfold shape; cbn [List.length]; lia) ltac:(lia)); lia. }
    set (n := List.length shape).
    eapply (packed_order shape (reversal n) el _ i j (n - 1 - i) (n - 1 - j)); auto.
    + apply reversal_perm.
    + apply default_packed.
    + unfold reversal; rewrite rev_length, seq_length; unfold n, shape in *; cbn [List.length] in *; lia.
    + rewrite nth_reversal; unfold n, shape in *; cbn [List.length] in *; lia.
    + rewrite nth_reversal; unfold n, shape in *; cbn [List.length] in *; lia.
  - rewrite (start_ok fuel shape el) in E by (auto; discriminate); cbn [bind] in E; rewrite ?Nat.ltb_irrefl in E.
    injection E as <-.
    pose proof (strides_to_axis_perm_perm sort strides SC) as P; rewrite L in P.
    pose proof (strides_to_axis_perm_sorted sort strides SC) as SO.
    set (perm := strides_to_axis_perm sort strides) in *.
    assert (II : In i perm) by (apply (Permutation_in _ (Permutation_sym P)), in_seq; unfold shape; cbn [List.length]; lia).
    assert (JJ : In j perm) by (apply (Permutation_in _ (Permutation_sym P)), in_seq; unfold shape; cbn [List.length]; lia).
    apply (In_nth _ _ 0%nat) in II; destruct II as (ki & KI & EI).
    apply (In_nth _ _ 0%nat) in JJ; destruct JJ as (kj & KJ & EJ).
    assert (KK : (kj < ki)%nat).
    { destruct (Nat.lt_ge_cases kj ki) as [ X | X ]; auto; exfalso.
      destruct (Nat.eq_dec ki kj) as [ -> | ]; [ assert (i = j) by congruence; subst; lia | ].
      assert (W : forall l a b, StronglySorted (fun x y => abs_stride strides x <= abs_stride strides y) l -> (a < b < List.length l)%nat ->
        abs_stride strides (nth a l 0%nat) <= abs_stride strides (nth b l 0%nat)).
      { clear; intros l a b SS; revert a b; induction SS as [ | x l SS IH FA ]; intros a b AB; cbn [List.length] in AB; [ lia | ].
        destruct b as [ | b ]; [ lia | ]; destruct a as [ | a ]; cbn [nth].
        - apply (proj1 (Forall_forall _ _) FA); apply nth_In; lia.
        - apply IH; lia. }
      specialize (W perm ki kj SO ltac:(lia)); rewrite EI, EJ in W; unfold abs_stride in W; lia. }
    eapply (packed_order shape perm el _ i j ki kj); auto; try lia.
    apply assign_packed; [ exact P | exact (default_length shape el) ].
Qed.
Print Assumptions C121_keeps_order_partial.

(* With a negative stride the order is lost: strides 8 and -16 count as C
   order. *)
Theorem C121_keeps_order_refuted fuel sort : exists shape el strides out i j,
  new_like fuel sort shape el (strided_source strides) = Ok out /\
  1 < nth i shape 0 /\ 1 < nth j shape 0 /\ 0 < Z.abs (nth j strides 0) < Z.abs (nth i strides 0) /\
  nth i out 0 < nth j out 0.
Proof. exists [2; 3], 8, [8; -16], [24; 8], 1%nat, 0%nat; cbn; repeat split; lia. Qed.
Print Assumptions C121_keeps_order_refuted.

(* Elements of size zero, such as an empty struct: the loop that looks for a
   stride does not end. *)
Theorem C121_terminates_refuted : exists shape strides, forall fuel sort,
  new_like fuel sort shape 0 (strided_source strides) = NoFuel.
Proof.
  exists [2; 3], [8; 16]; intros fuel sort; unfold new_like; cbn.
  unfold start_stride; cbn; assert (G : find_stride fuel 0 = NoFuel) by (induction fuel; auto).
  rewrite G; reflexivity.
Qed.
Print Assumptions C121_terminates_refuted.

(* A pointer after dimensions that are not in C order: eval reads a stride that
   was never written. *)
Theorem C121_initialised_refuted : exists shape el src, forall fuel sort,
  new_like fuel sort shape el src = UB.
Proof. exists [2; 3; 4], 4, (SFixed 8 (SFixed 16 (SPtr (SFixed 4 SScalar)))); intros; reflexivity. Qed.
Print Assumptions C121_initialised_refuted.

(* ---------------------------------------------------------------- C122 *)

Definition extents (strides : list Z) : list Z := filter (fun s => negb (s =? 0)) (map Z.abs strides).

Lemma classify_strided_exact l c : l <> [] ->
  classify_strided (strided_source l) c = Ok
    (match extents l with
     | [] => ANone
     | e => if forallb (fun s => s <? c) e then AC else if forallb (fun s => c <=? s) e then AF else ANeither
     end).
Proof.
  induction l as [ | s l IH ]; intros N; [ congruence | ]; cbn [strided_source classify_strided]; rewrite sndim_source.
  assert (X : (if (0 <? List.length l)%nat then classify_strided (strided_source l) c else Ok ANone) = Ok
    (match extents l with
     | [] => ANone
     | e => if forallb (fun s => s <? c) e then AC else if forallb (fun s => c <=? s) e then AF else ANeither
     end)).
  { destruct l as [ | t l ]; [ reflexivity | ]; cbn [List.length Nat.ltb Nat.leb]; apply IH; discriminate. }
  unfold extents in *; cbn [map filter].
  destruct (Z.eqb_spec (Z.abs s) 0) as [ E | E ]; cbn [negb]; [ exact X | ].
  rewrite X; cbn [bind forallb]; clear X IH.
  destruct (filter (fun s => negb (s =? 0)) (map Z.abs l)) as [ | e es ]; cbn [forallb].
  - destruct (Z.ltb_spec (Z.abs s) c), (Z.leb_spec c (Z.abs s)); cbn; try reflexivity; lia.
  - destruct (Z.ltb_spec (Z.abs s) c), (Z.leb_spec c (Z.abs s)); try lia; cbn [andb].
    all: destruct (Z.ltb_spec e c), (Z.leb_spec c e); try lia; cbn [andb];
      destruct (forallb (fun s => s <? c) es), (forallb (fun s => c <=? s) es); reflexivity.
Qed.

(* What is reported, for every array with fixed dimensions: every stride is
   compared with the first that is not zero, and with no other. *)
Theorem C122_classify_exact strides :
  classify (strided_source strides) = Ok
    (match extents strides with
     | [] | [_] => ANone
     | s :: e => if forallb (fun t => t <? s) e then AC else if forallb (fun t => s <=? t) e then AF else ANeither
     end).
Proof.
  induction strides as [ | s l IH ]; [ reflexivity | ]; cbn [strided_source classify]; rewrite sndim_source.
  destruct l as [ | t l ].
  { cbn; unfold extents; cbn [map filter]; destruct (negb (Z.abs s =? 0)); reflexivity. }
  cbn [List.length Nat.ltb Nat.leb].
  unfold extents in *; cbn [map filter] in *.
  destruct (Z.eqb_spec s 0) as [ -> | N ]; [ cbn [Z.abs negb Z.eqb]; exact IH | ].
  destruct (Z.eqb_spec (Z.abs s) 0); [ lia | ]; cbn [negb].
  rewrite classify_strided_exact by discriminate; unfold extents; cbn [map filter].
  destruct (if negb (Z.abs t =? 0) then _ else _) as [ | e es ]; reflexivity.
Qed.
Print Assumptions C122_classify_exact.

Lemma forallb_Forall {A} (f : A -> bool) (P : A -> Prop) l : (forall x, f x = true <-> P x) -> forallb f l = true <-> Forall P l.
Proof. intros H; rewrite forallb_forall, Forall_forall; split; intros G x X; apply H; auto. Qed.

(* An array in C order, and one in Fortran order, are reported as such; with up
   to two strides that are not zero the report is right in both directions. *)
Theorem C122_ordered_is_reported strides : (2 <= List.length (extents strides))%nat ->
  (decreasing (extents strides) -> classify (strided_source strides) = Ok AC) /\
  (increasing (extents strides) -> classify (strided_source strides) = Ok AF).
Proof.
  rewrite C122_classify_exact; destruct (extents strides) as [ | s [ | t e ] ]; cbn [List.length]; intros L; try lia.
  split.
  - intros (D & _); apply (proj2 (forallb_Forall (fun t => t <? s) (fun t => t < s) (t :: e) ltac:(intros; apply Z.ltb_lt))) in D.
    rewrite D; reflexivity.
  - intros (D & _).
    apply (proj2 (forallb_Forall (fun t => s <=? t) (fun t => s <= t) (t :: e) ltac:(intros; apply Z.leb_le))) in D.
    rewrite D; cbn [forallb] in *; destruct (Z.ltb_spec t s); [ | reflexivity ].
    destruct (Z.leb_spec s t); [ lia | discriminate ].
Qed.
Print Assumptions C122_ordered_is_reported.

Theorem C122_classify_partial strides : List.length (extents strides) = 2%nat ->
  (classify (strided_source strides) = Ok AC <-> decreasing (extents strides)) /\
  (classify (strided_source strides) = Ok AF <-> increasing (extents strides)).
Proof.
  intros L; destruct (C122_ordered_is_reported strides ltac:(lia)) as (H1 & H2).
  split; split; auto; rewrite C122_classify_exact; destruct (extents strides) as [ | s [ | t [ | ] ] ]; try discriminate L;
    cbn [forallb decreasing increasing]; destruct (Z.ltb_spec t s), (Z.leb_spec s t); cbn; intros E; try discriminate; repeat constructor; auto; lia.
Qed.
Print Assumptions C122_classify_partial.

(* With three the order of the second and the third is not looked at. *)
Theorem C122_classify_refuted : exists s1 s2, 
  classify (strided_source s1) = Ok AC /\ ~ decreasing (extents s1) /\
  classify (strided_source s2) = Ok AF /\ ~ increasing (extents s2).
Proof.
  exists [96; 4; 12], [4; 96; 12]; repeat split; try reflexivity.
  - intros (_ & D & _); inversion D; lia.
  - intros (_ & D & _); inversion D; lia.
Qed.
Print Assumptions C122_classify_refuted.

(* ---------------------------------------------------------------- C123 *)

(* what a size (or -1 where it is not known) makes of a dimension of the pattern *)
Inductive takes : pdim -> Z -> pdim -> Prop :=
| take_kind n : 0 <= n -> takes PKind n (PFixed n)
| take_fixed m n : n < 0 \/ n = m -> takes (PFixed m) n (PFixed m)
| take_var n : takes PVar n PVar.
Inductive takes_all : list pdim -> list Z -> list pdim -> Prop :=
| takes_nil p : takes_all p [] p
| takes_cons d n o p shape out : takes d n o -> takes_all p shape out -> takes_all (d :: p) (n :: shape) (o :: out).

Lemma visit_exact : forall p pre s shape, 
  (List.length (s :: shape) <= List.length p)%nat ->
  (exists out, substitute_visit p (List.length (pre ++ s :: shape)) (List.length pre) (pre ++ s :: shape) = Ok out /\
     takes_all p (s :: shape) out) \/
  (substitute_visit p (List.length (pre ++ s :: shape)) (List.length pre) (pre ++ s :: shape) = Throw "type_error" /\
     forall out, ~ takes_all p (s :: shape) out).
Proof.
  induction p as [ | d p IH ]; intros pre s shape L; cbn [List.length] in L; [ lia | ].
  cbn [substitute_visit].
  rewrite nth_error_app2, Nat.sub_diag by lia; cbn [nth_error].
  assert (SUB : (exists out, (if (Datatypes.S (List.length pre) <? List.length (pre ++ s :: shape))%nat
       then substitute_visit p (List.length (pre ++ s :: shape)) (Datatypes.S (List.length pre)) (pre ++ s :: shape) else Ok p) = Ok out /\
       takes_all p shape out) \/
     ((if (Datatypes.S (List.length pre) <? List.length (pre ++ s :: shape))%nat
       then substitute_visit p (List.length (pre ++ s :: shape)) (Datatypes.S (List.length pre)) (pre ++ s :: shape) else Ok p) = Throw "type_error" /\
       forall out, ~ takes_all p shape out)).
  { destruct shape as [ | t shape ].
    - left; exists p; rewrite app_length; cbn [List.length].
      destruct (Nat.ltb_spec (Datatypes.S (List.length pre)) (List.length pre + 1)); [ lia | ]; split; [ auto | constructor ].
    - destruct (Nat.ltb_spec (Datatypes.S (List.length pre)) (List.length (pre ++ s :: t :: shape))) as [ H | H ].
      + specialize (IH (pre ++ [s]) t shape ltac:(cbn [List.length] in *; lia)).
        rewrite <- app_assoc in IH; cbn [app] in IH.
        replace (List.length (pre ++ [s])) with (Datatypes.S (List.length pre)) in IH by (rewrite app_length; cbn; lia).
        exact IH.
      + rewrite app_length in H; cbn [List.length] in H; lia. }
  destruct SUB as [ (out & -> & T) | (-> & T) ]; cbn [bind].
  - destruct d as [ | m | | ].
    + destruct (Z.leb_spec 0 s); [ left; eexists; split; [ reflexivity | constructor; [ constructor; auto | auto ] ] | ].
      right; split; [ reflexivity | ]; intros o X; inversion X as [ | ? ? ? ? ? ? T1 T2 ]; subst; inversion T1; lia.
    + destruct (Z.ltb_spec s 0); cbn [orb]; [ left; eexists; split; [ reflexivity | constructor; [ constructor; auto | auto ] ] | ].
      destruct (Z.eqb_spec s m); [ left; eexists; split; [ reflexivity | constructor; [ constructor; auto | auto ] ] | ].
      right; split; [ reflexivity | ]; intros o X; inversion X as [ | ? ? ? ? ? ? T1 T2 ]; subst; inversion T1; lia.
    + left; eexists; split; [ reflexivity | constructor; [ constructor | auto ] ].
    + right; split; [ reflexivity | ]; intros o X; inversion X as [ | ? ? ? ? ? ? T1 T2 ]; subst; inversion T1.
  - right; split; [ reflexivity | ]; intros o X; inversion X as [ | ? ? ? ? ? ? T1 T2 ]; subst; eapply T; eauto.
Qed.

Lemma takes_length p shape out : takes_all p shape out -> (List.length shape <= List.length p)%nat.
Proof. induction 1; cbn; lia. Qed.
Lemma takes_fun p shape o1 o2 : takes_all p shape o1 -> takes_all p shape o2 -> o1 = o2.
Proof.
  intros H; revert o2; induction H as [ | d n o p shape out T TA IH ]; intros o2 H2; inversion H2 as [ | ? ? ? ? ? ? T2 TA2 ]; subst; auto.
  f_equal; [ | auto ]; inversion T; subst; inversion T2; auto.
Qed.

(* substitute_shape: each dimension takes its size, the dimensions of the
   pattern after those of the shape are kept, and where a dimension cannot take
   its size, or there are too few dimensions, a type_error is thrown. *)
Theorem C123_substitute_partial p shape : (shape = [] -> p = []) ->
  (forall out, substitute_shape p shape = Ok out <-> takes_all p shape out) /\
  ((forall out, ~ takes_all p shape out) -> substitute_shape p shape = Throw "type_error").
Proof.
  intros N; unfold substitute_shape.
  destruct (Nat.ltb_spec (List.length p) (List.length shape)) as [ H | H ].
  - split; [ | auto ]; intros out; split; [ discriminate | ]; intros X; apply takes_length in X; lia.
  - destruct shape as [ | s shape ].
    + rewrite N by auto; cbn; split.
      * intros out; split; [ intros E; injection E as <-; constructor | intros X; inversion X; auto ].
      * intros X; destruct (X []); constructor.
    + destruct (visit_exact p [] s shape H) as [ (out & E & T) | (E & T) ]; cbn [app List.length] in E; cbn [List.length]; rewrite E.
      * split; [ | intros X; destruct (X out T) ].
        intros o; split; [ intros Q; injection Q as <-; auto | intros X; f_equal; eapply takes_fun; eauto ].
      * split; [ | auto ]; intros o; split; [ discriminate | intros X; destruct (T o X) ].
Qed.
Print Assumptions C123_substitute_partial.

(* The shape of a scalar has no sizes, but the first is read: for instance
   asarray of a scalar to Fixed * int32. *)
Theorem C123_scalar_refuted p : p <> [] -> substitute_shape p [] = UB.
Proof. destruct p; [ congruence | intros; reflexivity ]. Qed.
Print Assumptions C123_scalar_refuted.

(* The result has no Fixed left among the dimensions that were given a size, and
   matches the pattern. *)
Definition dim_matches (pat d : pdim) : Prop :=
  match pat with PKind => d = PKind \/ exists n, d = PFixed n /\ 0 <= n | _ => d = pat end.
Theorem C123_result_matches p shape out : substitute_shape p shape = Ok out -> (shape = [] -> p = []) ->
  Forall2 dim_matches p out /\ Forall (fun d => d <> PKind) (firstn (List.length shape) out).
Proof.
  intros E N; apply (proj1 (C123_substitute_partial p shape N)) in E; clear N.
  induction E as [ p | d n o p shape out T E (IH1 & IH2) ]; cbn [List.length firstn].
  - split; [ | constructor ]; induction p as [ | d p IH ]; constructor; auto; destruct d; cbn; auto.
  - split; constructor; auto; inversion T; subst; cbn; eauto; try discriminate.
Qed.
Print Assumptions C123_result_matches.

(* ------------------------------------------------ the hypotheses are met *)

(* a Fortran-order source gives a Fortran-order result *)
Example like_f sort : new_like 0 sort [2; 3] 4 (strided_source [8; 16]) = Ok [4; 8].
Proof. reflexivity. Qed.
Example like_c sort : new_like 0 sort [2; 3; 5] 4 (strided_source [240; 80; 8]) = Ok [60; 20; 4].
Proof. reflexivity. Qed.
Example like_3 sort : new_like 0 sort [2; 3; 5] 4 (strided_source [8; 80; 16]) = Ok [4; 40; 8].
Proof. reflexivity. Qed.
Example like_ptr sort : new_like 0 sort [2; 3; 5] 4 (SFixed 8 (SPtr (SFixed 4 (SFixed 12 SScalar)))) = Ok [60; 20; 4].
Proof. reflexivity. Qed.
Example class_f : classify (strided_source [4; 0; -8; 24]) = Ok AF.
Proof. reflexivity. Qed.
Example subst_1 : substitute_shape [PKind; PVar; PFixed 3; PKind] [5; -1; -1] = Ok [PFixed 5; PVar; PFixed 3; PKind].
Proof. reflexivity. Qed.
Example subst_2 : substitute_shape [PKind; PFixed 3] [5; 4] = Throw "type_error".
Proof. reflexivity. Qed.
