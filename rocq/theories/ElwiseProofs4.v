From Verif Require Import Base StridedModel ElwiseModel ElwiseSpec ElwiseProofs ElwiseProofs2 ElwiseProofs3.
Open Scope Z_scope.

Lemma ones_last_tl d t : ones_last (d :: t) -> ones_last t.
Proof. intros H l1 l2 E. apply (H (d :: l1) l2). rewrite E. reflexivity. Qed.
Lemma ones_locate ro shape : forall t sm sm' p idx, Forall (eq (DF 1)) t -> (List.length t <= List.length shape)%nat ->
  List.length sm' = meta_words t -> List.length idx = List.length shape -> locate ro t shape (effmeta t sm) p idx = locate ro t shape sm' p idx.
Proof.
  induction shape as [|n shape IH]; intros t sm sm' p idx O LT LM LI; [reflexivity|].
  destruct idx as [|i idx]; [discriminate|]. injection LI as LI. cbn [locate List.length] in *.
  destruct (Nat.ltb_spec (List.length t) (S (List.length shape))); [apply IH; assumption || lia|].
  destruct O as [|d t <- O]; [cbn in *; lia|]. cbn [effmeta Z.eqb Pos.eqb]. cbn [meta_words] in LM. destruct sm' as [|w0 [|w1 sm']]; try discriminate.
  injection LM as LM. apply IH; [exact O|cbn in LT; lia|exact LM|exact LI].
Qed.
Lemma ones_conforms ro shape : forall t sm sm' p, Forall (eq (DF 1)) t -> (List.length t <= List.length shape)%nat ->
  List.length sm' = meta_words t -> conforms ro t shape sm' p -> conforms ro t shape (effmeta t sm) p.
Proof.
  induction shape as [|n shape IH]; intros t sm sm' p O LT LM C; [exact C|]. cbn [conforms List.length] in *.
  destruct (Nat.ltb_spec (List.length t) (S (List.length shape))); [eapply IH; eassumption || lia|].
  destruct O as [|d t <- O]; [cbn in *; lia|]. cbn [effmeta Z.eqb Pos.eqb] in *. cbn [meta_words] in LM. destruct sm' as [|w0 [|w1 sm']]; try discriminate.
  injection LM as LM. destruct C as (C1 & C2). split; [exact C1|]. intros i Hi. specialize (C2 i Hi). eapply IH; [exact O|cbn in LT; lia|exact LM|exact C2].
Qed.
Lemma last_locate ro shape : forall t sm p idx, ones_last t -> (List.length t <= List.length shape)%nat -> List.length sm = meta_words t ->
  List.length idx = List.length shape -> locate ro t shape (effmeta t sm) p idx = locate ro t shape sm p idx.
Proof.
  induction shape as [|n shape IH]; intros t sm p idx O LT LM LI; [reflexivity|].
  destruct idx as [|i idx]; [discriminate|]. injection LI as LI. cbn [locate List.length] in *.
  destruct (Nat.ltb_spec (List.length t) (S (List.length shape))); [apply IH; assumption || lia|].
  destruct t as [|[k|] t]; [cbn in *; lia| |]; cbn [List.length meta_words effmeta] in *.
  - destruct sm as [|w0 [|w1 sm]]; try discriminate. injection LM as LM. destruct (Z.eqb_spec k 1) as [K|K].
    + subst k. apply ones_locate; [apply (O [] t eq_refl)|lia|exact LM|exact LI].
    + apply IH; [eapply ones_last_tl, O|lia|exact LM|exact LI].
  - destruct sm as [|w0 [|w1 [|w2 sm]]]; try discriminate. injection LM as LM. destruct (ro p); [|reflexivity]. destruct (ro (p + 1)); [|reflexivity].
    apply IH; [eapply ones_last_tl, O|lia|exact LM|exact LI].
Qed.
Lemma last_conforms ro shape : forall t sm p, ones_last t -> (List.length t <= List.length shape)%nat -> List.length sm = meta_words t ->
  conforms ro t shape sm p -> conforms ro t shape (effmeta t sm) p.
Proof.
  induction shape as [|n shape IH]; intros t sm p O LT LM C; [exact C|]. cbn [conforms List.length] in *.
  destruct (Nat.ltb_spec (List.length t) (S (List.length shape))); [apply IH; assumption || lia|].
  destruct t as [|[k|] t]; [cbn in *; lia| |]; cbn [List.length meta_words effmeta] in *.
  - destruct sm as [|w0 [|w1 sm]]; try discriminate. injection LM as LM. destruct C as (C1 & C2). destruct (Z.eqb_spec k 1) as [K|K].
    + subst k. split; [exact C1|]. intros i Hi. specialize (C2 i Hi). eapply ones_conforms; [apply (O [] t eq_refl)|lia|exact LM|exact C2].
    + split; [exact C1|]. intros i Hi. apply IH; [eapply ones_last_tl, O|lia|exact LM|apply C2, Hi].
  - destruct sm as [|w0 [|w1 [|w2 sm]]]; try discriminate. injection LM as LM. destruct C as (b & z & Eb & Ez & Hz & C2). exists b, z.
    split; [exact Eb|]. split; [exact Ez|]. split; [exact Hz|]. intros i Hi. apply IH; [eapply ones_last_tl, O|lia|exact LM|apply C2, Hi].
Qed.
Lemma words_fit t : forall sm, List.length sm = meta_words t \/ (meta_words t <= List.length sm)%nat -> fits t sm.
Proof.
  induction t as [|[k|] t IH]; intros sm L; [exact I| |]; cbn [meta_words fits] in *.
  - destruct (k =? 1); [apply IH; right; lia|]. destruct sm as [|w0 [|w1 sm]]; cbn [List.length] in L; try lia. apply IH. right. lia.
  - destruct sm as [|w0 [|w1 [|w2 sm]]]; cbn [List.length] in L; try lia. apply IH. right. lia.
Qed.

Lemma classify_fv dst args : classify false dst args = FV -> (dst = None \/ exists n d, dst = Some (fixed (n :: d))) -> exists u, In (DV :: u) args.
Proof.
  intros C D. assert (A : forallb (fun t => negb (is_var t)) args = false).
  { destruct (forallb (fun t => negb (is_var t)) args) eqn:A; [|reflexivity]. unfold classify in C. rewrite A in C.
    destruct D as [ -> |(n & d & -> )]; cbn in C; discriminate. }
  clear - A. induction args as [|t args IH]; [discriminate|]. cbn [forallb] in A. destruct t as [|[n|] t]; cbn [is_var negb andb] in A.
  - destruct (IH A) as (u & I). exists u. right. exact I.
  - destruct (IH A) as (u & I). exists u. right. exact I.
  - exists t. left. reflexivity.
Qed.

Lemma goods_supported nd : forall dst args nodes rt shape, resolve false nd dst args = Ok (nodes, rt) -> List.length shape = nd ->
  dst = None /\ rt = fixed shape \/ dst = Some (fixed shape) -> supported nd args -> goods nd dst args.
Proof.
  induction nd as [|nd IH]; intros dst args nodes rt shape E L D SU; [exact I|]. destruct shape as [|n shape]; [discriminate|]. injection L as L.
  cbn [resolve] in E. destruct (_ && _); [discriminate|]. destruct (resolve false nd _ _) as [(ns & t)| | |] eqn:R; try discriminate. cbn [bind fst snd] in E. injection E as _ E.
  cbn [supported goods] in *. destruct SU as (S1 & S2).
  assert (KV : classify false dst args <> VF).
  { intros K. rewrite K in E. destruct D as [(-> & ->)| -> ]; [discriminate|]. unfold classify in K. destruct (forallb _ args); cbn in K; discriminate. }
  split; [exact KV|]. split.
  - apply Forall_forall. intros u Iu. destruct (S1 u Iu) as (S3 & S4 & S5). split; [exact S3|]. unfold arg_lead.
    destruct (Nat.ltb_spec (List.length u) (S nd)) as [H|H].
    + destruct u as [|[k|] u]; try reflexivity. elim (S4 H u eq_refl).
    + destruct u as [|[k|] u]; try exact I. intros K K1.
      destruct (classify_fv dst args K) as (w & Iw); [destruct D as [(-> & _)| -> ]; [left; reflexivity|right; exists n, shape; reflexivity]|].
      destruct (S5 k u w ltac:(lia) eq_refl Iw) as [?|O]; [contradiction|exact O].
  - eapply IH; [exact R|exact L| |exact S2].
    destruct D as [( -> & -> )| -> ]; [left; split; [reflexivity|]; injection E as _ ->; reflexivity|right; reflexivity].
Qed.

Lemma any_arrays f al dst shape dstr args m ro dp x nodes rt :
  dst = None /\ rt = fixed shape \/ dst = Some (fixed shape) ->
  elwise_resolve false dst (map aa_ty args) = Ok (nodes, rt) ->
  supported (List.length shape) (map aa_ty args) ->
  Forall (fun a => ones_last (aa_ty a) /\ List.length (aa_meta a) = meta_words (aa_ty a)) args ->
  part_of ro m -> output_ok ro m dp dstr shape ->
  Forall (fun a => conforms ro (aa_ty a) shape (aa_meta a) (aa_base a)) args ->
  (forall idx, In idx (indices shape) -> map (fun a => ro (locate ro (aa_ty a) shape (aa_meta a) (aa_base a) idx)) args = map Some (x idx)) ->
  applied_nd f m dp dstr shape x
    (elwise_call f al false dst (map aa_ty args) (meta shape dstr) (map aa_meta args) m dp (map aa_base args)).
Proof.
  intros DD E SU OK Pm OO CF X. unfold elwise_call. rewrite E. cbn [bind fst].
  assert (LN : entry_ndim false dst (map aa_ty args) = Ok (List.length shape) /\ resolve false (List.length shape) dst (map aa_ty args) = Ok (nodes, rt)).
  { unfold elwise_resolve in E. destruct (entry_ndim false dst _) as [nd| | |] eqn:EN; try discriminate. cbn [bind] in E.
    pose proof (resolve_length _ _ _ _ _ E) as LN. assert (nd = List.length shape) as ->; [|auto].
    destruct DD as [( -> & -> )| -> ]; [rewrite fixed_length in LN; auto|].
    unfold entry_ndim in EN. rewrite <- (fixed_length shape). revert EN. set (q := fold_left _ _ _).
    destruct (Nat.ltb_spec q (List.length (fixed shape))); [congruence|].
    destruct (Nat.ltb_spec (List.length (fixed shape)) q); [discriminate|]. intros [= <-]. lia. }
  destruct LN as (_ & R). rewrite (resolve_nodes _ _ _ _ _ _ R).
  assert (LA : Forall (fun a => (List.length (aa_ty a) <= List.length shape)%nat) args).
  { clear - SU CF. destruct shape as [|n shape].
    - eapply Forall_impl; [|exact CF]. intros a C. cbn [conforms] in C. rewrite C. cbn. lia.
    - apply Forall_forall. intros a I. cbn [List.length supported] in SU. apply (proj1 SU (aa_ty a)). apply in_map, I. }
  set (gs := map (fun a => G (aa_ty a) (effmeta (aa_ty a) (aa_meta a)) (Some (aa_meta a))) args).
  assert (G1 : map aa_ty args = map gt gs) by (unfold gs; rewrite map_map; reflexivity).
  assert (G2 : map Some (map aa_meta args) = map gsm gs) by (unfold gs; rewrite !map_map; reflexivity).
  rewrite G1, G2.
  destruct (run_spec f al ro shape dst dstr gs) as (k & EK & H).
  - apply OO.
  - rewrite <- G1. eapply goods_supported; [exact R|reflexivity|exact DD|exact SU].
  - unfold gs. apply Forall_map. eapply Forall_impl; [|exact OK]. intros a (_ & L). eexists. cbn [gt gmt gsm]. split; [reflexivity|]. split; [|reflexivity].
    apply words_fit. left. exact L.
  - rewrite EK. cbn [bind]. rewrite (H m dp (map aa_base args) x); [apply (stores_applied f ro), OO|exact Pm| | |].
    + unfold conf, gs. clear - OK CF LA. induction args as [|a args IH]; [constructor|]. inversion OK; inversion CF; inversion LA; subst. cbn [map]. constructor; [|apply IH; assumption].
      cbn [gt gmt]. destruct H1 as (O & L). apply last_conforms; assumption.
    + intros idx I. apply (proj1 (proj2 OO) idx I).
    + intros idx I. rewrite <- (X idx I). unfold gs, locs. apply indices_length in I. clear - OK LA I. induction args as [|a args IH]; [reflexivity|].
      inversion OK; inversion LA; subst. cbn [map combine fst snd gt gmt]. rewrite (IH H2 H6). destruct H1 as (O & L). rewrite last_locate by assumption. reflexivity.
Qed.
