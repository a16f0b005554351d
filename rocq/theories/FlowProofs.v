(* Lemmas for the combining kernels. *)
From Verif Require Import Base FlowModel FlowSpec.
Local Open Scope Z_scope.

Definition elts (srcs strides : list Z) (k : nat) : list Z :=
  map (fun p => elt (fst p) (snd p) k) (combine srcs strides).

Lemma elts_advance srcs : forall strides k, elts (advance srcs strides) strides k = elts srcs strides (Datatypes.S k).
Proof.
  unfold elts; induction srcs as [ | s srcs IH ]; intros strides k; [ reflexivity | ].
  destruct strides as [ | d strides ]; [ reflexivity | ].
  cbn [advance combine map fst snd]; rewrite IH; f_equal; unfold elt; lia.
Qed.

Lemma elts_zero srcs : forall strides, List.length srcs = List.length strides -> elts srcs strides 0 = srcs.
Proof.
  unfold elts; induction srcs as [ | s srcs IH ]; intros [ | d strides ] E; try discriminate; [ reflexivity | ].
  cbn [combine map fst snd]; rewrite IH by (cbn in E; lia); f_equal; unfold elt; lia.
Qed.

Lemma advance_length srcs : forall strides, List.length srcs = List.length strides ->
  List.length (advance srcs strides) = List.length strides.
Proof.
  induction srcs as [ | s srcs IH ]; intros [ | d strides ] E; try discriminate; auto.
  cbn in *; f_equal; apply IH; lia.
Qed.

Lemma elt_S p s k : elt p s (Datatypes.S k) = elt (p + s) s k.
Proof. unfold elt; lia. Qed.
Lemma elt_0 p s : elt p s 0 = p.
Proof. unfold elt; lia. Qed.

Lemma strided_other op n : forall m dst ds srcs strides a,
  (forall k, (k < n)%nat -> a <> elt dst ds k) -> strided op n m dst ds srcs strides a = m a.
Proof.
  induction n as [ | n IH ]; intros m dst ds srcs strides a H; cbn [strided]; auto.
  rewrite IH.
  - unfold store; destruct (Z.eqb_spec a dst); auto.
    exfalso; apply (H 0%nat); [ lia | rewrite elt_0; auto ].
  - intros k K; rewrite <- elt_S; apply H; lia.
Qed.

(* no element is read after it has been overwritten, and none is written twice *)
Definition in_order (n : nat) (dst ds : Z) (srcs strides : list Z) : Prop :=
  (forall k j, (k < j < n)%nat -> ~ In (elt dst ds k) (elts srcs strides j)) /\
  (forall k j, (k < j < n)%nat -> elt dst ds k <> elt dst ds j).

Lemma strided_spec op n : forall m dst ds srcs strides, List.length srcs = List.length strides ->
  in_order n dst ds srcs strides ->
  forall k, (k < n)%nat ->
  strided op n m dst ds srcs strides (elt dst ds k) = op (map m (elts srcs strides k)).
Proof.
  induction n as [ | n IH ]; intros m dst ds srcs strides L (H1 & H2) k K; [ lia | ]; cbn [strided].
  destruct k as [ | k ].
  - rewrite strided_other.
    + rewrite elt_0; unfold store; rewrite Z.eqb_refl, elts_zero; auto.
    + intros j J E; rewrite <- elt_S in E; apply (H2 0%nat (Datatypes.S j)); auto; lia.
  - rewrite elt_S, IH.
    + rewrite elts_advance; f_equal; apply map_ext_in; intros a A.
      unfold store; destruct (Z.eqb_spec a dst) as [ -> | ]; auto.
      exfalso; apply (H1 0%nat (Datatypes.S k)); [ lia | rewrite elt_0; auto ].
    + apply advance_length; auto.
    + split; intros i j IJ.
      * rewrite elts_advance, <- elt_S; apply H1; lia.
      * rewrite <- !elt_S; apply H2; lia.
    + lia.
Qed.

Lemma strided_ext op n : forall m m' dst ds srcs strides a, (forall x, m x = m' x) ->
  strided op n m dst ds srcs strides a = strided op n m' dst ds srcs strides a.
Proof.
  induction n as [ | n IH ]; intros m m' dst ds srcs strides a H; cbn [strided]; auto.
  apply IH; intros x; unfold store; destruct (x =? dst); auto.
  f_equal; apply map_ext; auto.
Qed.

(* one chunk of compose *)
Section Chunk.
Variables (f g : Z -> Z) (buf bs ds ss : Z).
Hypothesis BS : forall k j, (k < j < chunk_max)%nat -> elt buf bs k <> elt buf bs j.
Definition in_buf (a : Z) : Prop := exists k, (k < chunk_max)%nat /\ a = elt buf bs k.

Lemma chunk_ok m dst src n : (n <= chunk_max)%nat ->
  (forall k, (k < n)%nat -> ~ in_buf (elt src ss k) /\ ~ in_buf (elt dst ds k)) ->
  (forall k j, (k < j < n)%nat -> elt dst ds k <> elt dst ds j) ->
  let m' := strided (unary g) n (strided (unary f) n m buf bs [src] [ss]) dst ds [buf] [bs] in
  (forall k, (k < n)%nat -> m' (elt dst ds k) = g (f (m (elt src ss k)))) /\
  (forall a, ~ in_buf a -> (forall k, (k < n)%nat -> a <> elt dst ds k) -> m' a = m a).
Proof.
  intros N D I; cbv zeta; split.
  - intros k K; rewrite strided_spec; auto.
    + unfold elts; cbn [combine map fst snd unary]; rewrite (strided_spec (unary f)); auto.
      split; [ | intros; apply BS; lia ].
      intros i j IJ [E | [] ]; cbn in E; apply (proj1 (D j ltac:(lia))); exists i; split; [ lia | auto ].
    + split; auto.
      intros i j IJ [E | [] ]; cbn in E; apply (proj2 (D i ltac:(lia))); exists j; split; [ lia | auto ].
  - intros a NB NO; rewrite strided_other by auto; apply strided_other.
    intros k K E; apply NB; exists k; split; [ lia | auto ].
Qed.

Lemma compose_loop_ok fuel : forall m dst src chunk count, (count <= fuel)%nat ->
  let dst' := dst + Z.of_nat chunk * ds in
  let src' := src + Z.of_nat chunk * ss in
  (forall k, (k < count)%nat -> ~ in_buf (elt src' ss k) /\ ~ in_buf (elt dst' ds k)) ->
  (forall k j, (k < j < count)%nat -> elt dst' ds k <> elt dst' ds j /\ elt dst' ds k <> elt src' ss j) ->
  exists m', compose_loop fuel f g buf bs m dst ds src ss chunk count = Ok m' /\
    (forall k, (k < count)%nat -> m' (elt dst' ds k) = g (f (m (elt src' ss k)))) /\
    (forall a, ~ in_buf a -> (forall k, (k < count)%nat -> a <> elt dst' ds k) -> m' a = m a).
Proof.
  induction fuel as [ | fuel IH ]; intros m dst src chunk count F dst' src' D I.
  - destruct count; [ | lia ]; exists m; split; [ reflexivity | split; auto; intros; lia ].
  - destruct count as [ | count ]; [ exists m; split; [ reflexivity | split; auto; intros; lia ] | ].
    cbn [compose_loop]; fold dst'; fold src'.
    set (c := Nat.min (Datatypes.S count) chunk_max).
    assert (C : (1 <= c <= Datatypes.S count)%nat /\ (c <= chunk_max)%nat).
    { unfold c, chunk_max; lia. }
    destruct (chunk_ok m dst' src' c) as (P1 & P2).
    + lia.
    + intros k K; apply D; lia.
    + intros k j K; apply I; lia.
    + set (m2 := strided (unary g) c (strided (unary f) c m buf bs [src'] [ss]) dst' ds [buf] [bs]) in *.
      assert (ED : forall k, elt (dst' + Z.of_nat c * ds) ds k = elt dst' ds (c + k)%nat) by (intros; unfold elt; lia).
      assert (ES : forall k, elt (src' + Z.of_nat c * ss) ss k = elt src' ss (c + k)%nat) by (intros; unfold elt; lia).
      destruct (IH m2 dst' src' c (Datatypes.S count - c)%nat) as (m' & E & Q1 & Q2).
      * lia.
      * intros k K; rewrite ED, ES; apply D; lia.
      * intros k j K; rewrite !ED, ES; apply I; lia.
      * exists m'; split; [ exact E | split ].
        -- intros k K; destruct (Nat.lt_ge_cases k c) as [ L | L ].
           ++ rewrite Q2.
              ** apply P1; auto.
              ** apply D; lia.
              ** intros j J; rewrite ED; apply I; lia.
           ++ replace k with (c + (k - c))%nat by lia.
              rewrite <- ED, Q1, ES by lia.
              f_equal; f_equal; apply P2; [ apply D; lia | ].
              intros j J; apply not_eq_sym; apply I; lia.
        -- intros a NB NO; rewrite Q2; auto.
           ++ apply P2; auto; intros k K; apply NO; lia.
           ++ intros k K; rewrite ED; apply NO; lia.
Qed.
End Chunk.

(* -------------------------------------------------------------- outer *)

Fixpoint src_move (loops : list (nat * Z)) (idx : list Z) (srcs : list Z) : list Z :=
  match loops, idx with
  | (j, st) :: loops', i :: idx' => src_move loops' idx' (bump j (i * st) srcs)
  | _, _ => srcs
  end.

Lemma bump_bump j a b srcs : bump j a (bump j b srcs) = bump j (b + a) srcs.
Proof.
  revert j; induction srcs as [ | s srcs IH ]; intros [ | j ]; cbn; auto; f_equal; auto; lia.
Qed.
Lemma bump_zero j srcs : bump j 0 srcs = srcs.
Proof. revert j; induction srcs as [ | s srcs IH ]; intros [ | j ]; cbn; auto; f_equal; auto; lia. Qed.
Lemma bump_swap i j a b srcs : bump i a (bump j b srcs) = bump j b (bump i a srcs).
Proof.
  revert i j; induction srcs as [ | s srcs IH ]; intros [ | i ] [ | j ]; cbn; auto; f_equal; auto; lia.
Qed.
Lemma bump_length j a srcs : List.length (bump j a srcs) = List.length srcs.
Proof. revert j; induction srcs as [ | s srcs IH ]; intros [ | j ]; cbn; auto. Qed.

Lemma flat_map_map {A B C} (f : B -> list C) (g : A -> B) l : flat_map f (map g l) = flat_map (fun x => f (g x)) l.
Proof. induction l; cbn; auto; f_equal; auto. Qed.
Lemma map_flat_map {A B C} (f : B -> C) (g : A -> list B) l : map f (flat_map g l) = flat_map (fun x => map f (g x)) l.
Proof. induction l; cbn; auto; rewrite map_app; f_equal; auto. Qed.

Lemma outer_run_ok : forall loops dims dst srcs, List.length loops = List.length dims ->
  outer_run loops dims dst srcs =
  map (fun idx => (dst + dot idx (map snd dims), src_move loops idx srcs)) (indices (map fst dims)).
Proof.
  induction loops as [ | [j st] loops IH ]; intros [ | [n ds] dims ] dst srcs L; try discriminate.
  - cbn; rewrite Z.add_0_r; reflexivity.
  - cbn [outer_run map fst snd indices].
    rewrite map_flat_map.
    assert (G : forall k dst srcs,
      (fix go (k : nat) (dst : Z) (srcs : list Z) : list (Z * list Z) :=
         match k with
         | O => []
         | Datatypes.S k' => outer_run loops dims dst srcs ++ go k' (dst + ds) (bump j st srcs)
         end) k dst srcs =
      flat_map (fun x => outer_run loops dims (dst + Z.of_nat x * ds) (bump j (Z.of_nat x * st) srcs)) (seq 0 k)).
    { induction k as [ | k IK ]; intros d s; [ reflexivity | ].
      cbn [seq flat_map]; f_equal.
      - rewrite Z.add_0_r; change (Z.of_nat 0 * st) with 0; rewrite bump_zero; reflexivity.
      - rewrite IK, <- seq_shift, flat_map_map; apply flat_map_ext; intros x.
        rewrite bump_bump; f_equal; [ lia | f_equal; lia ]. }
    rewrite G; apply flat_map_ext; intros x.
    rewrite IH by (cbn in L; lia); rewrite map_map; apply map_ext; intros idx.
    cbn [dot src_move]; f_equal; lia.
Qed.

(* the loops of outer in order: argument 0, then argument 1, ... *)
Fixpoint loops_from (i : nat) (args : list (list Z)) : list nat :=
  match args with
  | [] => []
  | a :: args' => repeat i (List.length a) ++ loops_from (Datatypes.S i) args'
  end.

Lemma skip_ge i rest : (i <= skip_scalars i rest)%nat.
Proof.
  revert i; induction rest as [ | [ | x a ] rest IH ]; intros i; cbn; try lia.
  specialize (IH (Datatypes.S i)); lia.
Qed.

Lemma skip_spec : forall rest i,
  let p := (skip_scalars i rest - i)%nat in
  (p <= List.length rest)%nat /\ firstn p rest = repeat [] p /\
  match skipn p rest with [] => True | a :: _ => a <> [] end.
Proof.
  induction rest as [ | [ | x a ] rest IH ]; intros i; cbn [skip_scalars List.length]; cbv zeta.
  - rewrite Nat.sub_diag; cbn; auto.
  - destruct (IH (Datatypes.S i)) as (P1 & P2 & P3); pose proof (skip_ge (Datatypes.S i) rest).
    replace (skip_scalars (Datatypes.S i) rest - i)%nat
      with (Datatypes.S (skip_scalars (Datatypes.S i) rest - Datatypes.S i)) by lia.
    cbn [firstn skipn repeat]; split; [ lia | split; [ f_equal; exact P2 | exact P3 ] ].
  - rewrite Nat.sub_diag; cbn; split; [ lia | split; [ reflexivity | discriminate ] ].
Qed.

Lemma loops_from_repeat p : forall i rest, loops_from i (repeat [] p ++ rest) = loops_from (i + p) rest.
Proof.
  induction p as [ | p IH ]; intros i rest; cbn [repeat app loops_from List.length].
  - f_equal; lia.
  - rewrite IH; f_equal; lia.
Qed.
Lemma concat_repeat p (rest : list (list Z)) : List.concat (repeat [] p ++ rest) = List.concat rest.
Proof. induction p; cbn; auto. Qed.

(* what is left to walk when the arguments before i are used up *)
Lemma outer_resolve_ok : forall fuel i rest, (List.length (List.concat rest) < fuel)%nat ->
  match rest with [] => False | a :: _ => a <> [] end ->
  outer_resolve fuel i (repeat [] i ++ rest) = Ok (loops_from i rest, List.concat rest).
Proof.
  induction fuel as [ | fuel IH ]; intros i rest F H; [ lia | ].
  destruct rest as [ | [ | n a ] rest ]; try contradiction.
  cbn [outer_resolve].
  rewrite nth_error_app2 by (rewrite repeat_length; lia); rewrite repeat_length, Nat.sub_diag; cbn [nth_error].
  assert (SN : set_nth i a (repeat [] i ++ (n :: a) :: rest) = repeat [] i ++ a :: rest).
  { unfold set_nth. rewrite firstn_app, repeat_length, Nat.sub_diag; cbn [firstn]; rewrite app_nil_r.
    rewrite firstn_all2 by (rewrite repeat_length; lia); f_equal; f_equal.
    rewrite skipn_app, repeat_length, skipn_all2 by (rewrite repeat_length; lia).
    replace (Datatypes.S i - i)%nat with 1%nat by lia; reflexivity. }
  rewrite SN.
  assert (SK : skipn i (repeat [] i ++ a :: rest) = a :: rest).
  { rewrite skipn_app, repeat_length, Nat.sub_diag, skipn_all2 by (rewrite repeat_length; lia); reflexivity. }
  rewrite SK, app_length, repeat_length.
  destruct (skip_spec (a :: rest) i) as (P1 & P2 & P3).
  pose proof (skip_ge i (a :: rest)) as GE.
  set (i' := skip_scalars i (a :: rest)) in *; set (p := (i' - i)%nat) in *.
  assert (EI : i' = (i + p)%nat) by lia.
  assert (SPL : a :: rest = repeat [] p ++ skipn p (a :: rest)).
  { rewrite <- P2; symmetry; apply firstn_skipn. }
  cbn [List.length]; destruct (Nat.ltb_spec i' (i + Datatypes.S (List.length rest))) as [ L | L ].
  - assert (NE : match skipn p (a :: rest) with [] => False | x :: _ => x <> [] end).
    { pose proof (skipn_length p (a :: rest)) as SL; cbn [List.length] in SL.
      destruct (skipn p (a :: rest)); [ cbn [List.length] in SL; lia | exact P3 ]. }
    rewrite SPL at 1; rewrite app_assoc, <- repeat_app, <- EI, IH; auto.
    + cbn [bind fst snd]; f_equal; f_equal.
      * cbn [loops_from List.length repeat]; cbn [app]; f_equal.
        change (repeat i (List.length a) ++ loops_from (Datatypes.S i) rest) with (loops_from i (a :: rest)).
        rewrite SPL at 2; rewrite loops_from_repeat; f_equal; lia.
      * cbn [List.concat app]; f_equal.
        change (a ++ List.concat rest) with (List.concat (a :: rest)).
        rewrite SPL at 2; rewrite concat_repeat; reflexivity.
    + cbn [List.concat app List.length] in F.
      change (a ++ List.concat rest) with (List.concat (a :: rest)) in F.
      rewrite SPL, concat_repeat in F; lia.
  - assert (p = List.length (a :: rest)) by (cbn [List.length] in *; lia).
    assert (AE : a :: rest = repeat [] p).
    { rewrite SPL at 1; rewrite skipn_all2 by lia; rewrite app_nil_r; reflexivity. }
    clear SPL P2 P3 EI GE L P1 SK SN F H H0; clearbody p.
    destruct p as [ | p' ]; [ discriminate AE | ]; injection AE as -> ->.
    cbn [loops_from List.length repeat app List.concat]; f_equal; f_equal; f_equal.
    + rewrite <- (app_nil_r (repeat [] p')), loops_from_repeat; reflexivity.
    + rewrite <- (app_nil_r (repeat [] p')), concat_repeat; reflexivity.
Qed.

(* the sources after the moves of the loops of all arguments *)
Lemma src_move_app : forall l1 i1 l2 i2 srcs, List.length l1 = List.length i1 ->
  src_move (l1 ++ l2) (i1 ++ i2) srcs = src_move l2 i2 (src_move l1 i1 srcs).
Proof.
  induction l1 as [ | [j st] l1 IH ]; intros [ | i i1 ] l2 i2 srcs L; try discriminate; auto.
  cbn [app src_move]; apply IH; cbn in L; lia.
Qed.

Lemma src_move_one i : forall strides idx srcs, List.length strides = List.length idx ->
  src_move (combine (repeat i (List.length strides)) strides) idx srcs = bump i (dot idx strides) srcs.
Proof.
  induction strides as [ | st strides IH ]; intros [ | k idx ] srcs L; try discriminate.
  - cbn; rewrite bump_zero; reflexivity.
  - cbn [List.length repeat combine src_move dot]; rewrite IH by (cbn in L; lia).
    rewrite bump_bump; f_equal; lia.
Qed.

Lemma bump_app j st pre srcs : bump (List.length pre + j) st (pre ++ srcs) = pre ++ bump j st srcs.
Proof. induction pre as [ | x pre IH ]; cbn; auto; f_equal; auto. Qed.

Lemma combine_app {A B} (a1 a2 : list A) (b1 b2 : list B) : List.length a1 = List.length b1 ->
  combine (a1 ++ a2) (b1 ++ b2) = combine a1 b1 ++ combine a2 b2.
Proof. revert b1; induction a1; intros [ | b b1 ] L; try discriminate; cbn; auto; f_equal; auto. Qed.

Lemma src_move_all : forall (strides : list (list Z)) pre srcs idx,
  List.length srcs = List.length strides -> List.length idx = List.length (List.concat strides) ->
  src_move (combine (loops_from (List.length pre) strides) (List.concat strides)) idx (pre ++ srcs) =
  pre ++ map (fun p => fst (fst p) + dot (snd p) (snd (fst p)))
             (combine (combine srcs strides) (pieces (map (@List.length Z) strides) idx)).
Proof.
  induction strides as [ | st strides IH ]; intros pre [ | s srcs ] idx L I; try discriminate.
  - cbn; reflexivity.
  - cbn [loops_from List.concat map pieces combine] in *.
    rewrite app_length in I; cbn in L.
    rewrite combine_app by apply repeat_length.
    rewrite <- (firstn_skipn (List.length st) idx) at 1.
    assert (LF : List.length (firstn (List.length st) idx) = List.length st) by (apply firstn_length_le; lia).
    rewrite src_move_app by (rewrite combine_length, repeat_length; lia).
    rewrite src_move_one by lia.
    rewrite <- (Nat.add_0_r (List.length pre)) at 2; rewrite bump_app; cbn [bump].
    replace (Datatypes.S (List.length pre)) with (List.length (pre ++ [s + dot (firstn (List.length st) idx) st]))
      by (rewrite app_length; cbn; lia).
    replace (pre ++ (s + dot (firstn (List.length st) idx) st) :: srcs)
      with ((pre ++ [s + dot (firstn (List.length st) idx) st]) ++ srcs) by (rewrite <- app_assoc; reflexivity).
    rewrite IH; [ rewrite <- app_assoc; reflexivity | lia | rewrite skipn_length; lia ].
Qed.

(* ------------------------------------------------------- neighborhood *)

Lemma nb_while_ok next ds ss : forall k dst src,
  nb_while k ds ss next dst src =
  (flat_map (fun t => next (elt dst ds t) (elt src ss t)) (seq 0 k), (elt dst ds k, elt src ss k)).
Proof.
  induction k as [ | k IH ]; intros dst src; cbn [nb_while].
  - rewrite !elt_0; reflexivity.
  - rewrite IH; cbn [fst snd seq flat_map]; rewrite !elt_0, <- !elt_S; f_equal; f_equal.
    rewrite <- seq_shift, flat_map_map; apply flat_map_ext; intros t; rewrite !elt_S; reflexivity.
Qed.

Lemma indices_length shape idx : In idx (indices shape) -> List.length idx = List.length shape.
Proof.
  revert idx; induction shape as [ | n shape IH ]; intros idx H; cbn in H.
  - destruct H as [ <- | [] ]; reflexivity.
  - apply in_flat_map in H; destruct H as (k & _ & H); apply in_map_iff in H.
    destruct H as (idx' & <- & H); cbn; f_equal; auto.
Qed.
