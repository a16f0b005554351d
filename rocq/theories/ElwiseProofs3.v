From Verif Require Import Base StridedModel ElwiseModel ElwiseSpec ElwiseProofs ElwiseProofs2.
Open Scope Z_scope.

Lemma stores_all f (A : Type) (d : A -> Z) (x : A -> list Z) (v : A -> Z) l : forall m,
  (forall i, In i l -> f (x i) = Ok (v i)) -> (forall i, In i l -> m (d i) <> None) ->
  (forall i j, In i l -> In j l -> d i = d j -> i = j) ->
  exists m', stores f m (map (fun i => (d i, x i)) l) = Ok m' /\ (forall i, In i l -> m' (d i) = Some (v i)) /\
    (forall a, (forall i, In i l -> a <> d i) -> m' a = m a).
Proof.
  induction l as [|i l IH]; intros m F V D; [exists m; repeat split; intros; contradiction|].
  cbn [map stores]. rewrite (F i (or_introl eq_refl)). cbn [bind]. unfold st. destruct (m (d i)) eqn:E; [|elim (V i (or_introl eq_refl)); exact E].
  cbn [bind]. destruct (IH (upd m (d i) (v i))) as (m' & E' & A1 & A2).
  - intros j I. apply F. right. exact I.
  - intros j I. unfold upd. destruct (_ =? _); [discriminate|apply V; right; exact I].
  - intros j k Ij Ik. apply D; right; assumption.
  - exists m'. split; [exact E'|]. split.
    + intros j [ <- |I]; [|apply A1, I]. destruct (in_dec Z.eq_dec (d i) (map d l)) as [I|N].
      * apply in_map_iff in I. destruct I as (k & Ek & Ik). rewrite <- Ek, (A1 k Ik). f_equal. f_equal. apply D; [right; exact Ik|left; reflexivity|exact Ek].
      * rewrite A2; [unfold upd; rewrite Z.eqb_refl; reflexivity|]. intros k Ik Ek. apply N. rewrite Ek. apply in_map, Ik.
    + intros a N. rewrite A2; [|intros k Ik; apply N; right; exact Ik]. unfold upd. destruct (Z.eqb_spec a (d i)) as [Ea|]; [|reflexivity].
      elim (N i (or_introl eq_refl)). exact Ea.
Qed.
Lemma stores_applied f ro m dp dstr shape x : output_ok ro m dp dstr shape ->
  applied_nd f m dp dstr shape x (stores f m (points shape dp dstr x)).
Proof.
  intros (_ & V & D). split.
  - intros v F. destruct (stores_all f _ (at_ dp dstr) x v (indices shape) m F) as (m' & E & A1 & A2); [intros i I; apply V, I|exact D|].
    exists m'. split; [exact E|]. split; assumption.
  - intros l1 idx l2 e E F T. unfold points. rewrite E, map_app, stores_app. cbn [map stores].
    destruct (stores_all f _ (at_ dp dstr) x (fun i => match f (x i) with Ok v => v | _ => 0 end) l1 m) as (m' & E' & _).
    + intros i I. destruct (F i I) as (v & ->). reflexivity.
    + intros i I. apply V. rewrite E. apply in_or_app. left. exact I.
    + intros i j I J. apply D; rewrite E; apply in_or_app; left; assumption.
    + rewrite E'. cbn [bind]. rewrite T. reflexivity.
Qed.

(** Fixed arguments *)
Lemma indices_length shape : forall idx, In idx (indices shape) -> List.length idx = List.length shape.
Proof.
  induction shape as [|n shape IH]; cbn [indices]; intros idx I; [destruct I as [ <- |[]]; reflexivity|].
  apply in_flat_map in I. destruct I as (j & _ & I). apply in_map_iff in I. destruct I as (x & <- & I). cbn. rewrite (IH x I). reflexivity.
Qed.
Lemma meta_fits a : forall b s, List.length s = List.length b -> (List.length a <= List.length b)%nat -> fits (fixed a) (meta b s).
Proof.
  induction a as [|k a IH]; intros b s L LB; [exact I|]. cbn [fixed map fits]. cbn [List.length] in LB. destruct (k =? 1); [apply IH; [exact L|lia]|].
  destruct b as [|w b]; [cbn in LB; lia|]. destruct s as [|u s]; [discriminate|]. cbn [meta]. apply IH; cbn in *; lia.
Qed.
Lemma arg_index_lead a i idx : (List.length a <= List.length idx)%nat -> arg_index a (i :: idx) = arg_index a idx.
Proof. intros L. unfold arg_index. cbn [List.length]. replace (S (List.length idx) - List.length a)%nat with (S (List.length idx - List.length a)) by lia. reflexivity. Qed.
Lemma arg_index_cons k a i idx : List.length a = List.length idx -> arg_index (k :: a) (i :: idx) = (if k =? 1 then 0 else i) :: arg_index a idx.
Proof. intros L. unfold arg_index. cbn [List.length]. rewrite L, !Nat.sub_diag. reflexivity. Qed.

Lemma locate_fixed ro shape : forall a b s p idx, List.length s = List.length b -> (List.length a <= List.length b)%nat ->
  (List.length a <= List.length shape)%nat -> List.length idx = List.length shape ->
  locate ro (fixed a) shape (effmeta (fixed a) (meta b s)) p idx = at_ p (eff_strides a s) (arg_index a idx).
Proof.
  induction shape as [|n shape IH]; intros a b s p idx LS LB LA LI.
  - destruct a; [|cbn in LA; lia]. destruct idx; [|discriminate]. reflexivity.
  - destruct idx as [|i idx]; [discriminate|]. injection LI as LI. cbn [locate]. rewrite fixed_length. cbn [List.length] in *.
    destruct (Nat.ltb_spec (List.length a) (S (List.length shape))) as [H|H].
    + rewrite arg_index_lead by lia. apply IH; assumption || lia.
    + destruct a as [|k a]; [cbn in H; lia|]. cbn [List.length] in *. rewrite arg_index_cons by lia. cbn [fixed map effmeta eff_strides].
      destruct (k =? 1) eqn:K; cbn [at_].
      * replace (p + 0 * 0) with (p + 0) by lia. apply IH; lia.
      * destruct b as [|w b]; [cbn in LB; lia|]. destruct s as [|u s]; [discriminate|]. cbn [meta at_]. apply IH; cbn in *; lia.
Qed.
Lemma conforms_fixed ro shape : forall a sm p, fits (fixed a) sm -> broadcasts shape a -> conforms ro (fixed a) shape (effmeta (fixed a) sm) p.
Proof.
  induction shape as [|n shape IH]; intros a sm p FT B.
  - apply broadcasts_length in B. destruct a; [reflexivity|cbn in B; lia].
  - cbn [conforms]. rewrite fixed_length. pose proof (broadcasts_length _ _ B) as LA. cbn [List.length] in *.
    apply broadcasts_step in B; [|exact LA]. destruct B as (B & K). unfold elt in B.
    destruct (Nat.ltb_spec (List.length a) (S (List.length shape))) as [H|H]; [apply IH; assumption|].
    destruct a as [|k a]; [cbn in H; lia|]. destruct (K ltac:(lia)) as (k' & [= <-] & HK). cbn [tl] in B.
    cbn [fixed map effmeta fits] in *. destruct (Z.eqb_spec k 1) as [K1|K1].
    + split; [exact HK|]. intros i Hi. apply IH; assumption.
    + destruct sm as [|w0 [|w1 sm]]; try contradiction. split; [exact HK|]. intros i Hi. apply IH; assumption.
Qed.

Lemma fixed_novar args : Forall (fun t => is_var t = false) (map fixed args).
Proof. apply Forall_forall. intros t I. apply in_map_iff in I. destruct I as (a & <- & _). destruct a; reflexivity. Qed.
Lemma goods_fixed nd : forall dst args, Forall (fun a => (List.length a <= nd)%nat) args ->
  (dst = None \/ exists d, dst = Some (fixed d) /\ List.length d = nd) -> goods nd dst (map fixed args).
Proof.
  induction nd as [|nd IH]; intros dst args L D; [exact I|]. cbn [goods].
  assert (C : classify false dst (map fixed args) = FF).
  { unfold classify. rewrite strided_fixed. destruct D as [ -> |(d & -> & Ld)]; [reflexivity|]. destruct d; [discriminate|reflexivity]. }
  rewrite C. split; [discriminate|]. split.
  - apply Forall_map. eapply Forall_impl; [|exact L]. intros a La. split; [rewrite fixed_length; exact La|].
    destruct (arg_lead (S nd) (fixed a)); [destruct a; reflexivity|]. destruct a as [|k a]; [exact I|]. cbn [fixed map]. discriminate.
  - rewrite map_arg_elt. apply IH.
    + eapply Forall_elt; [|exact L]. intros a La. apply elt_length, La.
    + destruct D as [ -> |(d & -> & Ld)]; [left; reflexivity|right]. destruct d as [|n d]; [discriminate|]. exists d. split; [reflexivity|]. injection Ld as Ld. exact Ld.
Qed.

Lemma resolve_length nd : forall dst args nodes rt, resolve false nd dst args = Ok (nodes, rt) -> List.length rt = nd.
Proof.
  induction nd as [|nd IH]; intros dst args nodes rt E; [injection E as <- <-; reflexivity|]. cbn [resolve] in E.
  destruct (_ && _); [discriminate|]. destruct (resolve false nd _ _) as [(ns & t)| | |] eqn:R; try discriminate. cbn [bind fst snd] in E. injection E as _ <-.
  cbn. rewrite (IH _ _ _ _ R). reflexivity.
Qed.
Lemma fixed_inj a : forall b, fixed a = fixed b -> a = b.
Proof. induction a; intros [|y b] E; try discriminate; [reflexivity|]. cbn in E. injection E as -> E. f_equal. apply IHa, E. Qed.

Lemma map_garg ro shape idx args :
  Forall (fun a => arg_ok a /\ (List.length (fa_shape a) <= List.length shape)%nat) args -> List.length idx = List.length shape ->
  locs ro shape (map (fun a => G (fixed (fa_shape a)) (effmeta (fixed (fa_shape a)) (meta (fa_shape a) (fa_str a))) (Some (meta (fa_shape a) (fa_str a)))) args)
    (map fa_base args) idx = map (fun a => at_ (fa_base a) (eff_strides (fa_shape a) (fa_str a)) (arg_index (fa_shape a) idx)) args.
Proof.
  intros F LI. unfold locs. induction F as [|a args (OK & La) F IH]; [reflexivity|]. cbn [map combine fst snd gt gmt].
  rewrite IH. f_equal. apply locate_fixed; [apply OK|lia|exact La|exact LI].
Qed.

(** The exact result for fixed arguments. *)
Lemma fixed_exact f al dst shape dstr args m ro dp x nodes :
  Forall arg_ok args -> Forall (fun n => 0 <= n) shape -> (dst = None \/ dst = Some (fixed shape)) ->
  elwise_resolve false dst (map (fun a => fixed (fa_shape a)) args) = Ok (nodes, fixed shape) ->
  part_of ro m -> output_ok ro m dp dstr shape ->
  (forall idx, In idx (indices shape) ->
     map (fun a => ro (at_ (fa_base a) (eff_strides (fa_shape a) (fa_str a)) (arg_index (fa_shape a) idx))) args = map Some (x idx)) ->
  applied_nd f m dp dstr shape x
    (elwise_call f al false dst (map (fun a => fixed (fa_shape a)) args) (meta shape dstr) (map (fun a => meta (fa_shape a) (fa_str a)) args) m dp (map fa_base args)).
Proof.
  intros OK NS DD E Pm OO X. unfold elwise_call. rewrite E. cbn [bind fst].
  assert (B : Forall (broadcasts shape) (map fa_shape args)).
  { assert (NN : Forall nonneg (map fa_shape args)) by (apply Forall_map; eapply Forall_impl; [|exact OK]; intros a (_ & N); exact N).
    assert (MM : map (fun a => fixed (fa_shape a)) args = map fixed (map fa_shape args)) by (rewrite map_map; reflexivity). rewrite MM in E.
    destruct DD as [ -> | -> ].
    - destruct (resolve_variadic _ NN) as [(nodes' & shape' & E' & _ & C)|(E' & _)]; [|congruence].
      rewrite E in E'. injection E' as _ E'. apply fixed_inj in E'. subst shape'. apply C.
    - destruct (resolve_given shape _ NS NN) as [(nodes' & E' & B)|(e & E' & _)]; [exact B|congruence]. }
  rewrite Forall_map in B.
  assert (LB : Forall (fun a => (List.length (fa_shape a) <= List.length shape)%nat) args).
  { eapply Forall_impl; [|exact B]. intros a Ba. apply broadcasts_length, Ba. }
  unfold elwise_resolve in E. destruct (entry_ndim false dst _) as [nd| | |]; try discriminate. cbn [bind] in E.
  pose proof (resolve_length _ _ _ _ _ E) as LN. rewrite fixed_length in LN. subst nd.
  rewrite (resolve_nodes _ _ _ _ _ _ E).
  set (gs := map (fun a => G (fixed (fa_shape a)) (effmeta (fixed (fa_shape a)) (meta (fa_shape a) (fa_str a))) (Some (meta (fa_shape a) (fa_str a)))) args).
  assert (G1 : map (fun a => fixed (fa_shape a)) args = map gt gs) by (unfold gs; rewrite map_map; reflexivity).
  assert (G2 : map Some (map (fun a => meta (fa_shape a) (fa_str a)) args) = map gsm gs) by (unfold gs; rewrite !map_map; reflexivity).
  rewrite G1, G2.
  destruct (run_spec f al ro shape dst dstr gs) as (k & EK & H).
  - apply OO.
  - rewrite <- G1. replace (map (fun a => fixed (fa_shape a)) args) with (map fixed (map fa_shape args)) by (rewrite map_map; reflexivity).
    apply goods_fixed; [apply Forall_map; exact LB|]. destruct DD as [ -> | -> ]; [left; reflexivity|right; exists shape; auto].
  - unfold gs. apply Forall_map. eapply Forall_impl; [|exact OK]. intros a (L & _). eexists. cbn [gt gmt gsm]. split; [reflexivity|]. split; [|reflexivity].
    apply meta_fits; [exact L|lia].
  - rewrite EK. cbn [bind]. rewrite (H m dp (map fa_base args) x); [apply (stores_applied f ro), OO|exact Pm| | |].
    + unfold conf, gs. clear - OK B. induction args as [|a args IH]; [constructor|]. inversion OK; inversion B; subst. cbn [map]. constructor; [|apply IH; assumption].
      cbn [gt gmt]. apply conforms_fixed; [|assumption]. destruct H1 as (L & _). apply meta_fits; [exact L|lia].
    + intros idx I. apply (proj1 (proj2 OO) idx I).
    + intros idx I. unfold gs. rewrite map_garg; [|apply Forall_forall; rewrite Forall_forall in OK, LB; auto|apply indices_length, I].
      rewrite map_map. apply X, I.
Qed.

Lemma ones_inner_tl k a : ones_inner (k :: a) -> ones_inner a.
Proof. intros H l1 l2 E. apply (H (k :: l1) l2). rewrite E. reflexivity. Qed.
Definition bidx (a l : list Z) : list Z := map (fun p => if fst p =? 1 then 0 else snd p) (combine a l).
Lemma eff_ones a : Forall (eq 1) a -> forall l p s s', at_ p (eff_strides a s) (bidx a l) = at_ p s' (bidx a l).
Proof.
  induction 1 as [|k a <- O IH]; intros l p s s'; [destruct s'; reflexivity|]. cbn [eff_strides Z.eqb Pos.eqb].
  destruct l as [|i l]; [destruct s'; reflexivity|]. unfold bidx in *. cbn [combine map fst snd Z.eqb Pos.eqb].
  destruct s' as [|u s']; cbn [at_].
  - rewrite (IH l (p + 0 * 0) s []). replace (p + 0 * 0) with p by lia. destruct (map _ _); reflexivity.
  - rewrite (IH l (p + 0 * 0) s s'). replace (p + 0 * u) with (p + 0 * 0) by lia. reflexivity.
Qed.
Lemma eff_inner a : ones_inner a -> forall p s idx, List.length s = List.length a -> at_ p (eff_strides a s) (arg_index a idx) = at_ p s (arg_index a idx).
Proof.
  intros O p s idx L. unfold arg_index. generalize (skipn (List.length idx - List.length a) idx). intros l. fold (bidx a l).
  revert O p s L l. induction a as [|k a IH]; intros O p s L l; [destruct s; [reflexivity|discriminate]|].
  destruct s as [|u s]; [discriminate|]. injection L as L. cbn [eff_strides]. destruct (Z.eqb_spec k 1) as [K|K].
  - subst k. pose proof (O [] a eq_refl) as O1. destruct l as [|i l]; [reflexivity|]. unfold bidx. cbn [combine map fst snd Z.eqb Pos.eqb at_]. fold (bidx a l).
    rewrite (eff_ones a O1 l _ (u :: s) s). reflexivity.
  - destruct l as [|i l]; [reflexivity|]. unfold bidx. cbn [combine map fst snd at_]. apply IH; [eapply ones_inner_tl, O|exact L].
Qed.
