(** The view refers to what was selected. *)
From Verif Require Import Base LinearIndexModel LinearIndexSpec LayoutModel LayoutSpec LayoutProofs LayoutProofs2 LayoutProofs5 IndexModel IndexSpec IndexProofs IndexProofs2.
Open Scope Z_scope.

Definition VV (idx : list irange) (m dm : mem) (t : lt) (a d : Z) (m' : mem) (rt : lt) (out d' : Z) : Prop :=
  (forall p' p, selects m dm t a d idx p' p -> value m' dm rt out d' p' = value m dm t a d p) /\
  (forall p' v, (slices idx <= List.length p')%nat -> value m' dm rt out d' p' = Some v -> exists p, selects m dm t a d idx p' p).
Lemma VV_same idx m n dm t a d m' n' rt out d' : wsame n m t a a -> wsame m' n' rt out out -> VV idx m dm t a d m' rt out d' -> VV idx n dm t a d n' rt out d'.
Proof.
  intros S S' (V1 & V2). split.
  - intros p' p H. rewrite (value_same m' n' dm p' rt out out d' S'). rewrite (V1 p' p (selects_same n m dm t a d idx p' p H a S)). apply value_same. exact S.
  - intros p' v L H. rewrite (value_same m' n' dm p' rt out out d' S') in H. destruct (V2 p' v L H) as (p & P). exists p. eapply selects_same; [exact P|]. apply wsame_sym. exact S.
Qed.
Lemma VV_nil m dm t a d m' out : wsame m m' t a out -> VV [] m dm t a d m' t out d.
Proof.
  intros S. split.
  - intros p' p H. inversion H; subst. apply value_same. exact S.
  - intros p' v _ _. exists p'. constructor.
Qed.
Lemma VV_index r idx m dm t a d m' rt out d' n i e b c : dim_of m dm t a d = Some n -> r_step r = 0 -> at_index (r_start r) n i -> item m dm t a d i = Some (e, b, c) ->
  VV idx m dm e b c m' rt out d' -> VV (r :: idx) m dm t a d m' rt out d'.
Proof.
  intros D R A I (V1 & V2). split.
  - intros p' p H. inversion H as [|? ? ? ? ? n0 i0 e0 b0 c0 ? q D0 R0 A0 I0 S|]; subst; [|contradiction]. rewrite D in D0. injection D0 as <-. destruct A as (A & _), A0 as (A0 & _). subst i i0. rewrite I in I0. injection I0 as <- <- <-.
    cbn [value]. rewrite I. apply V1. exact S.
  - intros p' v L H. unfold slices in L. cbn [filter] in L. rewrite R, Z.eqb_refl in L. cbn [negb] in L. destruct (V2 p' v L H) as (p & P). exists (i :: p). eapply sel_index; eauto.
Qed.
Lemma VV_slice r idx m dm t a d m' rt out d' n : dim_of m dm t a d = Some n -> r_step r <> 0 ->
  (forall j i, in_slice r n j i -> exists e b c re rb rc, item m dm t a d i = Some (e, b, c) /\ item m' dm rt out d' j = Some (re, rb, rc) /\ VV idx m dm e b c m' re rb rc) ->
  (forall j x, item m' dm rt out d' j = Some x -> exists i, in_slice r n j i) ->
  VV (r :: idx) m dm t a d m' rt out d'.
Proof.
  intros D R H1 H2. split.
  - intros p' p H. inversion H as [|? ? ? ? ? ? ? ? ? ? ? ? ? R0|? ? ? ? ? n0 j i e b c q' q D0 R0 A0 I0 S]; subst; [congruence|]. rewrite D in D0. injection D0 as <-. destruct (H1 j i A0) as (e0 & b0 & c0 & re & rb & rc & I1 & I2 & (V1 & _)).
    rewrite I1 in I0. injection I0 as -> -> ->. cbn [value]. rewrite I1, I2. apply V1. exact S.
  - intros p' v L H. unfold slices in L. cbn [filter] in L. destruct (Z.eqb_spec (r_step r) 0); [contradiction|]. cbn [negb List.length] in L. destruct p' as [|j p']; [cbn [List.length] in L; lia|]. cbn [value List.length] in *.
    destruct (item m' dm rt out d' j) as [((re0, rb0), rc0)|] eqn:I; [|discriminate]. destruct (H2 j _ I) as (i & A). destruct (H1 j i A) as (e & b & c & re & rb & rc & I1 & I2 & (_ & V2)). rewrite I in I2. injection I2 as -> -> ->.
    destruct (V2 p' v ltac:(unfold slices; lia) H) as (p & P). exists (i :: p). eapply sel_slice; eauto.
Qed.
Lemma VV_pointer r idx m dm e a d m' re out d' : VV (r :: idx) m dm e (a + 16) (dm d + m (a + 8)) m' re (out + 16) (dm d' + m' (out + 8)) -> VV (r :: idx) m dm (Pointer e) a d m' (Pointer re) out d'.
Proof.
  assert (G : forall m e a d p, value m dm (Pointer e) a d p = value m dm e (a + 16) (dm d + m (a + 8)) p) by (intros m0 e0 a0 d0 [|i p]; reflexivity).
  intros (V1 & V2). split.
  - intros p' p H. rewrite !G. apply V1. inversion H as [|? ? ? ? ? n0 i0 e0 b0 c0 ? q D0 R0 A0 I0 S|? ? ? ? ? n0 j i e0 b c q' q D0 R0 A0 I0 S]; subst; [eapply sel_index; eauto|eapply sel_slice; eauto].
  - intros p' v L H. rewrite G in H. destruct (V2 p' v L H) as (p & P). exists p. inversion P as [|? ? ? ? ? n0 i0 e0 b0 c0 ? q D0 R0 A0 I0 S|? ? ? ? ? n0 j i e0 b c q' q D0 R0 A0 I0 S]; subst; [eapply sel_index; eauto|eapply sel_slice; eauto].
Qed.

(** Full slices do not change the type. *)
Lemma seq_out_ok {A} (l : list (outcome A)) r : seq_out l = Ok r -> Forall2 (fun x y => x = Ok y) l r.
Proof.
  revert r. induction l as [|x l IH]; intros r H; cbn in H; [injection H as <-; constructor|]. apply bind_ok in H as (a & E & H). apply bind_ok in H as (b & E2 & H). injection H as <-. constructor; auto.
Qed.
Lemma dims64_in l f : fold_right (fun f P => dims64 f /\ P) True l -> In f l -> dims64 f.
Proof. induction l as [|g l IH]; intros H []; cbn in H; [subst; tauto|apply IH; tauto]. Qed.
Lemma nth_seq_id {A} (l : list A) x : map (fun i => nth i l x) (seq 0 (List.length l)) = l.
Proof.
  induction l as [|y l IH]; [reflexivity|]. cbn [List.length seq map nth]. f_equal. rewrite <- seq_shift, map_map. exact IH.
Qed.
Lemma full_type idx : Forall full idx -> forall t t', dims64 t -> index_type idx t false = Ok t' -> t' = t.
Proof.
  induction 1 as [|r idx F FA IH]; intros t t' D E; [injection E as <-; reflexivity|]. pose proof F as F0. apply nop_full in F0. assert (S0 : (r_step r =? 0) = false) by (destruct F as (_ & _ & ->); reflexivity).
  revert t' D E. induction t as [s0 al|s0 al de|e IHe|e IHe|e IHe|n e IHe|l _] using lt_ind'; intros t' D E; try discriminate; cbn [index_type dims64] in *.
  - rewrite S0, F0 in E. apply bind_ok in E as (e' & E1 & E). injection E as <-. f_equal. apply IH; auto.
  - apply bind_ok in E as (e' & E1 & E). injection E as <-. f_equal. apply IHe; auto.
  - destruct D as (N & D). rewrite (sli_full r n N F) in E. cbn [bind o_remove] in E. apply bind_ok in E as (e' & E1 & E). cbn [o_size] in E. injection E as <-. f_equal. apply IH; auto.
  - destruct D as (N & D). rewrite (sli_full r _ (conj (Nat2Z.is_nonneg _) N) F) in E. cbn [bind o_remove o_start o_stride o_size] in E. apply bind_ok in E as (l' & E1 & E). injection E as <-. f_equal. apply seq_out_ok in E1. rewrite Nat2Z.id in E1.
    rewrite <- (nth_seq_id l (Builtin 0 1)). assert (Q : forall i, In i (seq 0 (List.length l)) -> In (nth i l (Builtin 0 1)) l) by (intros i I; apply nth_In; apply in_seq in I; lia).
    revert l' E1 Q. generalize (seq 0 (List.length l)). induction l0 as [|i s IHs]; intros l' E1 Q; cbn [map] in E1; inversion E1 as [|? y ? ? E2 E3]; subst; [reflexivity|]. cbn [map]. f_equal.
    + replace (Z.to_nat (Z.of_nat i * 1)) with i in E2 by lia. apply (IH _ _ (dims64_in l _ D (Q i (or_introl eq_refl))) E2).
    + apply IHs; auto. intros k K. apply Q. right. exact K.
Qed.
Lemma builtin_type idx e l re : is_builtin e = true -> index_type idx e l = Ok re -> idx = [] /\ re = e.
Proof. destruct e; try discriminate. intros _ E. destruct idx; [injection E as <-; auto|discriminate]. Qed.

Definition is_some {A} (o : option A) : bool := match o with Some _ => true | None => false end.
Definition result_ok (idx : list irange) (m dm : mem) (t : lt) (a : Z) (rt : lt) (out : Z) (lead : option Z) (x : outcome iout) : Prop :=
  match x with
  | Ok (m', off, lead') => same_outside m m' out (tmeta rt) /\
      match lead with
      | None => lead' = None /\ forall d, VV idx m dm t a d m' rt out (d + off)
      | Some data => exists d', lead' = Some d' /\ VV idx m dm t a data m' rt out (d' + off)
      end
  | Throw s => s = "index_out_of_bounds"%string /\ exists data, lead = Some data /\ forall p' p, ~ selects m dm t a data idx p' p
  | _ => False
  end.
Definition good (idx : list irange) (dm : mem) : Prop := forall t a rt out emb m lead, dims64 t -> tmeta t < W -> tmeta rt < W -> disjoint out (tmeta rt) a (tmeta t) ->
  supported idx t (is_some lead) -> index_type idx t (is_some lead) = Ok rt ->
  (is_builtin t = false -> result_ok idx m dm t a rt out lead (index_meta dm idx t a rt out emb lead m)).
Lemma good_nil dm : good [] dm.
Proof.
  intros t a rt out emb m lead D B BR DJ S E _. cbn in E. injection E as <-. cbn [index_meta]. destruct (index0_ok emb t a out m B DJ) as (S1 & S2). split; [exact S2|].
  destruct lead as [data|].
  - exists data. split; [reflexivity|]. rewrite Z.add_0_r. apply VV_nil. exact S1.
  - split; [reflexivity|]. intros d. rewrite Z.add_0_r. apply VV_nil. exact S1.
Qed.
(** The call for an element, including the case that it is builtin and left alone. *)
Definition call (dm : mem) (idx : list irange) (t : lt) (a : Z) (rt : lt) (out emb : Z) (lead : option Z) (m : mem) : outcome iout :=
  if is_builtin t then Ok (m, 0, lead) else index_meta dm idx t a rt out emb lead m.
Lemma call_ok idx dm : good idx dm -> forall t a rt out emb m lead, dims64 t -> tmeta t < W -> tmeta rt < W -> disjoint out (tmeta rt) a (tmeta t) ->
  supported idx t (is_some lead) -> index_type idx t (is_some lead) = Ok rt -> result_ok idx m dm t a rt out lead (call dm idx t a rt out emb lead m).
Proof.
  intros G t a rt out emb m lead D B BR DJ S E. unfold call. destruct (is_builtin t) eqn:Bt; [|apply G; auto].
  destruct (builtin_type _ _ _ _ Bt E) as (-> & ->). split; [intros x _; reflexivity|]. destruct t; try discriminate. destruct lead as [data|].
  - exists data. split; [reflexivity|]. rewrite Z.add_0_r. apply VV_nil. constructor.
  - split; [reflexivity|]. intros d. rewrite Z.add_0_r. apply VV_nil. constructor.
Qed.
