(** From events to the result of a reduction. *)
From Verif Require Import Base StridedModel ReduceModel ReduceSpec ReduceProofs.
Open Scope Z_scope.

Definition dims_of (axes : list axis) : list (bool * nat) := map (fun a => (a_reduce a, a_size a)) axes.
Lemma kept_label keep axes : forall dm o, kept_in (label keep axes dm) o <-> in_kept (dims_of axes) o.
Proof.
  induction axes as [|[[] n s] axes IH]; intros dm o; cbn.
  - destruct o; reflexivity.
  - apply IH.
  - destruct o as [|k o]; [reflexivity|]. rewrite IH. reflexivity.
Qed.
Lemma srcs_label keep axes : forall dm o src, in_kept (dims_of axes) o ->
  srcs (label keep axes dm) o src = map (fun ix => src + dot (map a_stride axes) ix) (indices (dims_of axes) o).
Proof.
  induction axes as [|[[] n s] axes IH]; intros dm o src K; cbn [label dims_of map a_reduce a_size a_stride srcs indices] in *.
  - cbn. rewrite Z.add_0_r. reflexivity.
  - rewrite map_flat_map. apply flat_map_ext. intros i. fold (dims_of axes). rewrite IH by exact K. rewrite map_map. apply map_ext. intros ix. cbn [dot]. ring.
  - destruct o as [|k o]; [contradiction|]. fold (dims_of axes) in *. rewrite IH by apply K. rewrite map_map. apply map_ext. intros ix. cbn [dot]. ring.
Qed.
Definition fits (keep : bool) (axes : list axis) (dm : list Z) : Prop :=
  if keep then List.length dm = List.length axes
  else List.length dm = kept_count (dims_of axes) /\ (kept_count (dims_of axes) <= 1)%nat.
Lemma off_zero keep axes : forall dm o, kept_count (dims_of axes) = O -> off (label keep axes dm) o = 0.
Proof.
  induction axes as [|[[] n s] axes IH]; intros dm o K; cbn in *; [reflexivity| |discriminate]. apply IH. exact K.
Qed.
Lemma off_label keep axes : forall dm o, fits keep axes dm -> in_kept (dims_of axes) o ->
  off (label keep axes dm) o = dot (kept_strides keep (dims_of axes) dm) o.
Proof.
  destruct keep; cbn [fits].
  - induction axes as [|[[] n s] axes IH]; intros dm o L K; cbn in *.
    + destruct dm; reflexivity.
    + destruct dm as [|d dm]; [discriminate|]. cbn. apply IH; [|exact K]. cbn in L. lia.
    + destruct dm as [|d dm]; [discriminate|]. destruct o as [|k o]; [contradiction|]. cbn. f_equal. apply IH; [|apply K]. cbn in L. lia.
  - induction axes as [|[[] n s] axes IH]; intros dm o (L & C) K.
    + destruct dm; [|discriminate]. reflexivity.
    + cbn [label off a_reduce]. rewrite IH; [|split; assumption|exact K]. destruct (dims_of axes) as [|[] ?]; reflexivity.
    + destruct dm as [|d dm]; [discriminate|]. destruct o as [|k o]; [contradiction|].
      unfold kept_count in *. cbn in L, C. fold (dims_of axes) in *.
      cbn [label off a_reduce hd]. rewrite off_zero by (unfold kept_count; lia). cbn [kept_strides dims_of map dot]. f_equal.
      destruct dm; [reflexivity|cbn in L; lia].
Qed.
Lemma enough_label keep axes : forall dm, fits keep axes dm -> enough keep axes dm.
Proof.
  destruct keep; cbn [fits].
  - induction axes as [|[[] n s] axes IH]; intros dm L; cbn in *; [exact I| |];
      (destruct dm as [|d dm]; [discriminate|]; split; [(left; reflexivity) || (right; discriminate)|apply IH; cbn in *; lia]).
  - assert (G : forall axes dm, dm <> [] \/ kept_count (dims_of axes) = O -> enough false axes dm).
    { clear. induction axes as [|[[] n s] axes IH]; intros dm H; cbn; [exact I| |].
      - split; [left; reflexivity|]. apply IH. exact H.
      - destruct H as [H|H]; [|discriminate]. split; [right; exact H|]. apply IH. left. exact H. }
    intros dm (L & C). apply G. destruct dm; [right; symmetry; exact L|left; discriminate].
Qed.
Lemma inner_kept_label keep axes dm : inner_kept (label keep axes dm) -> exists n, dims_of axes = [(false, n)].
Proof.
  destruct axes as [|[[] n s] [|b axes]]; cbn; try contradiction. intros _. exists n. reflexivity.
Qed.
Lemma wf_keep0 axes : forall dm, axes <> [] -> regular (dims_of axes) [] -> kept_count (dims_of axes) = O -> wf (label false axes dm).
Proof.
  induction axes as [|[[] n s] axes IH]; intros dm NE R C; [contradiction| |discriminate].
  destruct axes as [|b axes]; [exact I|]. cbn [dims_of map a_reduce a_size regular] in R. destruct R as (R1 & R2).
  change (label false (AX true n s :: b :: axes) dm) with ((true, n, s, hd 0 dm) :: label false (b :: axes) dm).
  cbn [label]. split; [lia|]. apply (IH dm); [discriminate|exact R2|exact C].
Qed.
Lemma wf_label keep axes : forall dm, axes <> [] -> fits keep axes dm -> regular (dims_of axes) (kept_strides keep (dims_of axes) dm) ->
  wf (label keep axes dm).
Proof.
  destruct keep; cbn [fits].
  - induction axes as [|[[] n s] axes IH]; intros dm NE L R; [contradiction| |].
    + destruct axes as [|b axes]; [exact I|]. destruct dm as [|d dm]; [discriminate|].
      change (label true (AX true n s :: b :: axes) (d :: dm)) with ((true, n, s, d) :: label true (b :: axes) dm).
      change (regular ((true, n) :: dims_of (b :: axes)) (kept_strides true (dims_of (b :: axes)) dm)) in R.
      assert (R' : n <> O /\ regular (dims_of (b :: axes)) (kept_strides true (dims_of (b :: axes)) dm)) by exact R.
      destruct R' as (R1 & R2).
      assert (Q : wf (label true (b :: axes) dm)) by (apply IH; [discriminate|cbn in *; lia|exact R2]).
      cbn [label] in *. split; [lia|exact Q].
    + destruct axes as [|b axes]; [exact I|]. destruct dm as [|d dm]; [discriminate|].
      change (label true (AX false n s :: b :: axes) (d :: dm)) with ((false, n, s, d) :: label true (b :: axes) dm).
      assert (R' : (d <> 0 \/ n = 1%nat /\ ~ exists n', dims_of (b :: axes) = [(false, n')]) /\
                   regular (dims_of (b :: axes)) (kept_strides true (dims_of (b :: axes)) dm)) by exact R.
      destruct R' as (R1 & R2).
      assert (Q : wf (label true (b :: axes) dm)) by (apply IH; [discriminate|cbn in *; lia|exact R2]).
      assert (Q1 : d <> 0 \/ n = 1%nat /\ ~ inner_kept (label true (b :: axes) dm)).
      { destruct R1 as [R1|(R1 & R3)]; [left; exact R1|right; split; [exact R1|]]. intros K. apply R3. exact (inner_kept_label _ _ _ K). }
      cbn [label] in *. split; [exact Q1|exact Q].
  - induction axes as [|[[] n s] axes IH]; intros dm NE (L & C) R; [contradiction| |].
    + destruct axes as [|b axes]; [exact I|].
      change (label false (AX true n s :: b :: axes) dm) with ((true, n, s, hd 0 dm) :: label false (b :: axes) dm).
      assert (R' : n <> O /\ regular (dims_of (b :: axes)) dm) by exact R. destruct R' as (R1 & R2).
      assert (Q : wf (label false (b :: axes) dm)) by (apply IH; [discriminate|split; assumption|exact R2]).
      cbn [label] in *. split; [lia|exact Q].
    + destruct axes as [|b axes]; [exact I|]. destruct dm as [|d dm]; [discriminate|].
      unfold kept_count in *. cbn in L, C. destruct dm as [|? ?]; [|cbn in L; lia].
      change (label false (AX false n s :: b :: axes) [d]) with ((false, n, s, d) :: label false (b :: axes) [d]).
      assert (R' : (d <> 0 \/ n = 1%nat /\ ~ exists n', dims_of (b :: axes) = [(false, n')]) /\ regular (dims_of (b :: axes)) []) by exact R.
      destruct R' as (R1 & R2).
      assert (Q : wf (label false (b :: axes) [d])) by (apply wf_keep0; [discriminate|exact R2|unfold kept_count; cbn in *; lia]).
      assert (Q1 : d <> 0 \/ n = 1%nat /\ ~ inner_kept (label false (b :: axes) [d])).
      { destruct R1 as [R1|(R1 & R3)]; [left; exact R1|right; split; [exact R1|]]. intros K. apply R3. exact (inner_kept_label _ _ _ K). }
      cbn [label] in *. split; [exact Q1|exact Q].
Qed.

Lemma upd_same' m a v : upd m a v a = Some v.
Proof. unfold upd. rewrite Z.eqb_refl. reflexivity. Qed.
Section Main.
  Variables (op : Z -> Z -> outcome Z) (ident : Z).
  Lemma reduce_main keep axes dm m dst src (x : list Z -> Z) (v : list Z -> Z) :
    let dims := dims_of axes in let ks := kept_strides keep dims dm in let ss := map a_stride axes in
    fits keep axes dm -> regular dims ks ->
    (forall o o', in_kept dims o -> in_kept dims o' -> dot ks o = dot ks o' -> o = o') ->
    (forall o, in_kept dims o -> m (dst + dot ks o) <> None) ->
    (forall o ix, in_kept dims o -> In ix (indices dims o) -> m (src + dot ss ix) = Some (x ix)) ->
    (forall o o' ix, in_kept dims o -> in_kept dims o' -> In ix (indices dims o') -> dst + dot ks o <> src + dot ss ix) ->
    (forall o, in_kept dims o -> ofold op ident (map x (indices dims o)) = Ok (v o)) ->
    exists m', reduce_call op ident keep axes dm m dst src = Ok m' /\
      (forall o, in_kept dims o -> m' (dst + dot ks o) = Some (v o)) /\
      (forall a, (forall o, in_kept dims o -> a <> dst + dot ks o) -> m' a = m a).
  Proof.
    intros dims ks ss FI RE INJ VA X AP FO.
    destruct axes as [|a0 axes0].
    { assert (E0 : forall o, dst + dot ks o = dst + dot ks [] /\ dot ks [] = 0).
      { intros o. assert (Q : dm = []) by (destruct keep; cbn [fits] in FI; [|destruct FI as (FI & _)]; destruct dm; (reflexivity || discriminate)).
        unfold ks. rewrite Q. destruct keep; split; reflexivity. }
      destruct (E0 []) as (_ & E1). assert (V0 := VA [] I). assert (X0 := X [] [] I (or_introl eq_refl)). assert (F0 := FO [] I).
      assert (A0 := AP [] [] [] I I (or_introl eq_refl)).
      cbn [dims dims_of map indices ss dot ofold] in *. rewrite E1, ?Z.add_0_r in *.
      unfold reduce_call, acc_single, st, ld. destruct (m dst) eqn:M; [|contradiction]. cbn [bind].
      rewrite upd_same'. cbn [bind]. unfold upd at 1. apply not_eq_sym, Z.eqb_neq in A0. rewrite A0, X0. cbn [bind].
      destruct (op ident (x [])) as [w| | |] eqn:O; cbn [bind] in F0; try discriminate. inversion F0; subst w. cbn [bind].
      rewrite ?upd_same'. eexists. split; [reflexivity|]. split.
      - intros o K. destruct o; [|contradiction]. rewrite E1, Z.add_0_r. unfold upd. rewrite Z.eqb_refl. reflexivity.
      - intros a NA. specialize (NA [] I). rewrite E1, Z.add_0_r in NA. unfold upd. apply Z.eqb_neq in NA. rewrite NA. reflexivity. }
    assert (NE : a0 :: axes0 <> []) by discriminate.
    change (reduce_call op ident keep (a0 :: axes0) dm m dst src) with
      (bind (build op ident keep (a0 :: axes0) dm) (fun k => single_first k m dst src)).
    set (axes := a0 :: axes0) in *. clearbody axes. clear a0 axes0.
    set (l := label keep axes dm).
    assert (W : wf l) by (apply wf_label; assumption).
    destruct (build_represents op ident keep axes dm NE (enough_label _ _ _ FI) W) as (k & -> & (K1 & _)). cbn [bind].
    rewrite K1. fold l.
    assert (KL : forall o, kept_in l o <-> in_kept dims o) by (intros o; apply kept_label).
    assert (OL : forall o, in_kept dims o -> off l o = dot ks o) by (intros o; apply off_label; exact FI).
    assert (SL : forall o, in_kept dims o -> srcs l o src = map (fun ix => src + dot ss ix) (indices dims o)) by (intros o; apply srcs_label).
    assert (JL : inj l).
    { intros o o' K K' E. rewrite KL in K, K'. apply INJ; [exact K|exact K'|]. rewrite <- !OL by assumption. exact E. }
    assert (NL : l <> []) by (exact (wf_ne _ W)).
    set (es := first l dst src).
    set (val := fun s => match m s with Some z => z | None => 0 end).
    assert (PJ : forall o, in_kept dims o -> filter (fun e => target e =? dst + dot ks o) es =
                   Init (dst + dot ks o) :: map (Acc (dst + dot ks o)) (map (fun ix => src + dot ss ix) (indices dims o))).
    { intros o K. rewrite <- OL, <- SL by exact K. apply proj_first; [exact NL|exact JL|exact W|apply KL; exact K]. }
    assert (TG : forall e, In e es -> exists o, in_kept dims o /\ target e = dst + dot ks o).
    { intros e IE. destruct (first_target _ _ _ _ IE) as (o & K & E). rewrite KL in K. exists o. rewrite <- OL by exact K. split; assumption. }
    assert (HIT : forall o, in_kept dims o -> exists e, In e es /\ target e = dst + dot ks o).
    { intros o K. exists (Init (dst + dot ks o)). split; [|reflexivity].
      assert (Q : In (Init (dst + dot ks o)) (filter (fun e => target e =? dst + dot ks o) es)) by (rewrite PJ by exact K; left; reflexivity).
      apply filter_In in Q. apply Q. }
    assert (PC : forall o z, in_kept dims o -> pc op ident val (dst + dot ks o) es z = Ok (v o)).
    { intros o z K. rewrite pc_filter, PJ by exact K. cbn [pc]. rewrite Z.eqb_refl, pc_accs, map_map.
      rewrite <- (FO o K). f_equal. apply map_ext_in. intros ix IX. unfold val. rewrite (X o ix K IX). reflexivity. }
    set (w := fun a => match pc op ident val a es 0 with Ok z => z | _ => 0 end).
    assert (WV : forall o, in_kept dims o -> w (dst + dot ks o) = v o).
    { intros o K. unfold w. rewrite PC by exact K. reflexivity. }
    destruct (run_pc op ident val es m w) as (m' & RUN & H1 & H2).
    - intros e IE. destruct (TG e IE) as (o & K & ->). apply VA. exact K.
    - intros e s IE RS. destruct (TG e IE) as (o & K & E).
      assert (Q : In e (filter (fun e => target e =? dst + dot ks o) es)) by (apply filter_In; split; [exact IE|apply Z.eqb_eq; exact E]).
      rewrite PJ in Q by exact K. destruct Q as [<-|Q]; [destruct RS|]. rewrite map_map in Q. apply in_map_iff in Q.
      destruct Q as (ix & <- & IX). cbn in RS. destruct RS as [<-|[]]. split.
      + unfold val. rewrite (X o ix K IX). reflexivity.
      + intros e' IE'. destruct (TG e' IE') as (o' & K' & ->). apply (AP o' o ix); assumption.
    - intros a z (e & IE & EA) MA. destruct (TG e IE) as (o & K & E). subst a. rewrite E. rewrite PC, WV by exact K. reflexivity.
    - exists m'. split; [exact RUN|]. split.
      + intros o K. rewrite H1 by (apply HIT; exact K). f_equal. apply WV. exact K.
      + intros a NA. apply H2. intros e IE EA. destruct (TG e IE) as (o & K & E). apply (NA o K). rewrite <- EA. exact E.
  Qed.
End Main.

(** ** New results *)
Definition in_shape (shape : list nat) (ix : list Z) : Prop := Forall2 (fun n i => 0 <= i < Z.of_nat n) shape ix.
Lemma new_bound shape : forall ix, in_shape shape ix -> 0 <= dot (fst (new_strides shape)) ix < snd (new_strides shape).
Proof.
  induction shape as [|n shape IH]; intros ix H; inversion H as [|? i ? r I R]; subst; [cbn; lia|].
  cbn. specialize (IH r R). destruct (new_strides shape) as (ss & z). cbn in *.
  destruct n as [|[|n]]; [lia| |].
  - change (1 <? 1)%nat with false. cbv iota. lia.
  - change (1 <? S (S n))%nat with true. cbv iota. nia.
Qed.
Lemma new_inj shape : forall ix ix', in_shape shape ix -> in_shape shape ix' -> dot (fst (new_strides shape)) ix = dot (fst (new_strides shape)) ix' -> ix = ix'.
Proof.
  induction shape as [|n shape IH]; intros ix ix' H H'; inversion H as [|? i ? r I R]; inversion H' as [|? i' ? r' I' R']; subst; [reflexivity|].
  cbn. specialize (IH r r' R R'). assert (B := new_bound shape r R). assert (B' := new_bound shape r' R').
  destruct (new_strides shape) as (ss & z). cbn in *.
  destruct n as [|[|n]]; [lia| |].
  - change (1 <? 1)%nat with false. cbv iota. intros E. f_equal; [lia|]. apply IH. lia.
  - change (1 <? S (S n))%nat with true. cbv iota. intros E. assert (i = i') by nia. subst i'. f_equal. apply IH. lia.
Qed.
Lemma new_length shape : List.length (fst (new_strides shape)) = List.length shape.
Proof. induction shape as [|n shape IH]; [reflexivity|]. cbn. destruct (new_strides shape). cbn in *. rewrite IH. reflexivity. Qed.
Lemma new_pos shape : Forall (fun n => n <> O) shape -> 0 < snd (new_strides shape).
Proof. induction 1 as [|n shape N F IH]; [cbn; lia|]. cbn. destruct (new_strides shape). cbn in *. nia. Qed.

(** The index of the destination for kept coordinates. *)
Fixpoint expand (keep : bool) (dims : list (bool * nat)) (o : list Z) : list Z :=
  match dims, o with
  | [], _ => []
  | (true, _) :: r, o => if keep then 0 :: expand keep r o else expand keep r o
  | (false, _) :: r, k :: o => k :: expand keep r o
  | (false, _) :: _, [] => []
  end.
Lemma expand_in keep axes : forall o, in_kept (dims_of axes) o -> in_shape (result_shape keep axes) (expand keep (dims_of axes) o).
Proof.
  induction axes as [|[[] n s] axes IH]; intros o K; cbn in *.
  - constructor.
  - destruct keep; [constructor; [lia|]|]; apply IH; exact K.
  - destruct o as [|k o]; [contradiction|]. constructor; [apply K|]. apply IH. apply K.
Qed.
Lemma expand_inj keep dims : forall o o', in_kept dims o -> in_kept dims o' -> expand keep dims o = expand keep dims o' -> o = o'.
Proof.
  induction dims as [|[[] n] dims IH]; intros o o' K K' E; cbn in *.
  - destruct o, o'; try contradiction. reflexivity.
  - destruct keep; [inversion E as [E']|]; apply IH; assumption.
  - destruct o as [|k o], o' as [|k' o']; try contradiction. inversion E; subst. f_equal. apply IH; [apply K|apply K'|assumption].
Qed.
Lemma dot_nil ix : dot [] ix = 0.
Proof. destruct ix; reflexivity. Qed.
Lemma expand_dot keep axes : forall dm o, List.length dm = List.length (result_shape keep axes) -> in_kept (dims_of axes) o ->
  dot (kept_strides keep (dims_of axes) dm) o = dot dm (expand keep (dims_of axes) o).
Proof.
  destruct keep.
  - induction axes as [|[[] n s] axes IH]; intros dm o L K; cbn in *.
    + destruct dm; reflexivity.
    + destruct dm as [|d dm]; [discriminate|]. cbn. rewrite IH; [reflexivity|cbn in L; lia|exact K].
    + destruct dm as [|d dm]; [discriminate|]. destruct o as [|k o]; [contradiction|]. cbn. f_equal. apply IH; [cbn in L; lia|apply K].
  - intros dm o _ K.
    assert (kept_strides false (dims_of axes) dm = dm) as -> by (destruct (dims_of axes) as [|[] ?]; reflexivity).
    f_equal. revert o K. induction axes as [|[[] n s] axes IH]; intros o K; cbn in *.
    + destruct o; [reflexivity|contradiction].
    + apply IH. exact K.
    + destruct o as [|k o]; [contradiction|]. f_equal. apply IH. apply K.
Qed.
Lemma shape_length keep axes : List.length (result_shape keep axes) = if keep then List.length axes else kept_count (dims_of axes).
Proof.
  unfold kept_count. induction axes as [|[[] n s] axes IH]; cbn; [destruct keep; reflexivity| |]; destruct keep; cbn; rewrite IH; reflexivity.
Qed.
Lemma new_regular keep axes : Forall (fun a => a_size a <> O) axes -> no_unit_before_last (dims_of axes) ->
  regular (dims_of axes) (kept_strides keep (dims_of axes) (fst (new_strides (result_shape keep axes)))).
Proof.
  intros F. induction F as [|[[] n s] axes N F IH]; intros U; [exact I| |]; cbn [a_size] in N.
  - destruct axes as [|b axes]; [exact I|].
    assert (U' : no_unit_before_last (dims_of (b :: axes))) by exact U. specialize (IH U').
    set (ks := kept_strides keep _ _) in *.
    assert (E : kept_strides keep (dims_of (AX true n s :: b :: axes)) (fst (new_strides (result_shape keep (AX true n s :: b :: axes)))) = ks).
    { unfold ks. destruct keep; [|reflexivity].
      change (result_shape true (AX true n s :: b :: axes)) with (1%nat :: result_shape true (b :: axes)).
      cbn [new_strides]. destruct (new_strides (result_shape true (b :: axes))) as (ss & z). reflexivity. }
    rewrite E. split; [exact N|exact IH].
  - destruct axes as [|b axes]; [exact I|].
    assert (U' : no_unit_before_last (dims_of (b :: axes))) by (destruct axes as [|c axes]; destruct b as [[] ? ?]; first [exact I|exact U]). specialize (IH U').
    assert (P : 0 < snd (new_strides (result_shape keep (b :: axes)))).
    { apply new_pos. clear -F. revert F. generalize (b :: axes). clear. induction 1 as [|[[] n s] axes N F IH]; cbn; [constructor| |].
      - destruct keep; [constructor; [lia|]|]; exact IH.
      - constructor; [exact N|exact IH]. }
    set (ks := kept_strides keep _ _) in *.
    assert (E : kept_strides keep (dims_of (AX false n s :: b :: axes)) (fst (new_strides (result_shape keep (AX false n s :: b :: axes)))) =
                (if (1 <? n)%nat then snd (new_strides (result_shape keep (b :: axes))) else 0) :: ks).
    { unfold ks. change (result_shape keep (AX false n s :: b :: axes)) with (n :: result_shape keep (b :: axes)).
      cbn [new_strides]. destruct (new_strides (result_shape keep (b :: axes))) as (ss & z). cbn [fst snd].
      destruct keep; [reflexivity|]. cbn [dims_of map kept_strides]. reflexivity. }
    rewrite E. cbn [dims_of map a_reduce a_size] in *. split; [|exact IH].
    destruct (Nat.ltb_spec 1 n); [left; lia|right]. split; [lia|].
    intros (n' & E'). destruct b as [[] ? ?], axes as [|c axes]; try discriminate E'. cbn in U. lia.
Qed.
