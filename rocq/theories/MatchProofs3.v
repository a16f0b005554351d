(** Soundness of matching, the induction. *)
From Verif Require Import Base TypesModel MatchModel MatchSpec MatchProofs MatchProofs2.
Local Open Scope string_scope.
Local Open Scope Z_scope.

Definition frags_from (p : ty) (vs vs' : env) : Prop :=
  forall s l, find vs' s = Some (TDimFragment l) -> (exists l0, find vs s = Some (TDimFragment l0)) \/ In s (ellipsis_names p).
Definition frag_free (ns : list string) (vs : env) : Prop :=
  forall s, In s ns -> forall l, find vs s <> Some (TDimFragment l).
Definition pre (lin : bool) (ns : list string) (vs : env) : Prop := lin = true -> NoDup ns /\ frag_free ns vs.
Definition Sound (lin : bool) (p : ty) : Prop :=
  forall c vs vs', sound_pattern p = true -> concrete c = true -> plain_options c = true -> vars_ok vs ->
    pre lin (ellipsis_names p) vs -> match_ p c vs = Ok (true, vs') ->
    vars_ok vs' /\ ext lin vs vs' /\ inst (Rl lin) (meaning vs') p c /\ frags_from p vs vs'.
Definition Sound_fields (lin : bool) (ps : list ty) : Prop :=
  forall cs vs vs' more, forallb sound_pattern ps = true -> forallb concrete cs = true -> forallb plain_options cs = true -> vars_ok vs ->
    pre lin (flat_map ellipsis_names ps) vs -> (List.length ps = List.length cs \/ more = true) ->
    match_fields ps cs vs = Ok (true, vs') ->
    vars_ok vs' /\ ext lin vs vs' /\ inst_fields (Rl lin) (meaning vs') more ps cs /\
    (forall s l, find vs' s = Some (TDimFragment l) -> (exists l0, find vs s = Some (TDimFragment l0)) \/ In s (flat_map ellipsis_names ps)).

Lemma NoDup_app_split {A} (a b : list A) : NoDup (a ++ b) -> NoDup a /\ NoDup b /\ (forall x, In x a -> ~ In x b).
Proof.
  induction a as [|x a IH]; cbn; intros H.
  - repeat split; auto. constructor.
  - inversion H as [|? ? H1 H2]; subst. apply IH in H2 as [Ha [Hb Hd]]. repeat split; auto.
    + constructor; auto. intros Hx. apply H1, in_or_app. auto.
    + intros y [->|Hy]; [intros Hy; apply H1, in_or_app; auto | auto].
Qed.
Lemma pre_app lin a b vs : pre lin (a ++ b) vs -> pre lin a vs.
Proof.
  intros H L. destruct (H L) as [N F]. apply NoDup_app_split in N as [N _]. split; auto. intros s Hs. apply F, in_or_app. auto.
Qed.
Lemma pre_next lin a b vs vs' : pre lin (a ++ b) vs ->
  (forall s l, find vs' s = Some (TDimFragment l) -> (exists l0, find vs s = Some (TDimFragment l0)) \/ In s a) -> pre lin b vs'.
Proof.
  intros H G L. destruct (H L) as [N F]. apply NoDup_app_split in N as [_ [N D]]. split; auto.
  intros s Hs l E. destruct (G s l E) as [[l0 E0] | Ha].
  - apply (F s (in_or_app _ _ _ (or_intror Hs)) l0 E0).
  - apply (D s Ha Hs).
Qed.
Lemma sound_fields_of lin ps : Forall (Sound lin) ps -> Sound_fields lin ps.
Proof.
  induction 1 as [|p ps Hp Hps IH]; intros cs vs vs' more Hs Hc Hpl Hv Hpre Hlen Hm.
  - cbn in Hm. injection Hm as <-. split; [auto|]. split; [apply ext_refl|]. split.
    + destruct cs; cbn; auto. destruct Hlen; [discriminate | auto].
    + intros s l E. left. eauto.
  - destruct cs as [|c cs]; cbn [match_fields] in Hm; [discriminate|]. fold match_fields in Hm.
    cbn [forallb] in Hs, Hc, Hpl. apply andb_true_iff in Hs as [Hs1 Hs2]. apply andb_true_iff in Hc as [Hc1 Hc2]. apply andb_true_iff in Hpl as [Hl1 Hl2].
    apply bind_ok in Hm as [[b vs1] [H1 H2]]. cbn [fst snd] in H2. destruct b; [|discriminate].
    cbn [flat_map] in Hpre. destruct (Hp c vs vs1 Hs1 Hc1 Hl1 Hv (pre_app _ _ _ _ Hpre) H1) as [V1 [E1 [I1 F1]]].
    destruct (IH cs vs1 vs' more Hs2 Hc2 Hl2 V1 (pre_next _ _ _ _ _ Hpre F1) ltac:(destruct Hlen as [Hlen|]; [left; injection Hlen; auto | auto]) H2) as [V2 [E2 [I2 F2]]].
    split; [auto|]. split; [eapply ext_trans; eauto|]. split.
    + cbn [inst_fields]. split; [eapply inst_mono; eauto | exact I2].
    + intros s l E. cbn [flat_map]. destruct (F2 s l E) as [[l0 E0]|Hi].
      * destruct (F1 s l0 E0) as [G|G]; auto. right. apply in_or_app. auto.
      * right. apply in_or_app. auto.
Qed.

Lemma vars_ok_upd vs s t : vars_ok vs -> is_null t = false -> entry_ok t = true -> vars_ok (upd vs s t).
Proof. intros H N E s' t'. rewrite find_upd by auto. destruct (String.eqb s s'); [intros K; injection K as <-; auto | apply H]. Qed.
Lemma entry_ok_concrete c : concrete c = true -> plain_options c = true -> entry_ok c = true.
Proof. intros H P. destruct c; cbn [entry_ok]; try (rewrite H, P; reflexivity); discriminate. Qed.
Lemma entry_frag t ds : entry t = BFrag ds -> exists l, t = TDimFragment l /\ ds = map dim_of_tag l.
Proof. destruct t; cbn; intros H; try discriminate. injection H as <-. eauto. Qed.
Lemma entry_scalar c : concrete c = true -> plain_options c = true -> ndim c = 0 -> entry c = BType c.
Proof. intros H _ N. destruct c; cbn in H; try discriminate; try reflexivity; cbn [ndim] in N; pose proof (ndim_nonneg c); lia. Qed.
Lemma entry_put1 d f : entry (put1 d f) = BDim d.
Proof. destruct d; reflexivity. Qed.
Lemma meaning_upd vs s t : is_null t = false -> meaning (upd vs s t) s = Some (entry t).
Proof. intros H. unfold meaning. rewrite find_upd, String.eqb_refl by auto. reflexivity. Qed.
Lemma frags_upd_other vs s t : is_null t = false -> (forall l, t <> TDimFragment l) ->
  forall s' l, find (upd vs s t) s' = Some (TDimFragment l) -> find vs s' = Some (TDimFragment l).
Proof. intros N H s' l. rewrite find_upd by auto. destruct (String.eqb s s'); [intros E; injection E as E; destruct (H l E) | auto]. Qed.
Lemma concrete_not_frag c l : concrete c = true -> c <> TDimFragment l.
Proof. intros H ->. discriminate. Qed.

(** Binding the name of an ellipsis. *)
Lemma bind_empty_sound lin vs s vs' : vars_ok vs -> pre lin (if String.eqb s "" then [] else [s]) vs -> bind_empty vs s = Some vs' ->
  vars_ok vs' /\ ext lin vs vs' /\ (s <> "" -> exists fs, meaning vs' s = Some (BFrag fs) /\ Rl lin [] fs) /\
  (forall s' l, find vs' s' = Some (TDimFragment l) -> (exists l0, find vs s' = Some (TDimFragment l0)) \/ In s' (if String.eqb s "" then [] else [s])).
Proof.
  intros Hv Hp. unfold bind_empty. destruct (String.eqb_spec s "") as [->|Hs].
  - intros H. injection H as <-. split; auto. split; [apply ext_refl|]. split; [congruence|]. eauto.
  - destruct (find vs s) as [t|] eqn:E.
    + destruct t; try discriminate. intros H. injection H as <-. split; auto. split; [apply ext_refl|]. split; [|eauto].
      intros _. unfold meaning. rewrite E. cbn. eexists. split; [reflexivity|]. destruct lin; cbn.
      * destruct (Hp eq_refl) as [_ F]. destruct (F s (or_introl eq_refl) tagged E).
      * apply bc_nil.
    + intros H. injection H as <-. split; [apply vars_ok_upd; auto|]. split; [apply ext_upd_new; auto|]. split.
      * intros _. rewrite meaning_upd by auto. eexists. split; [reflexivity|]. destruct lin; cbn; auto using bc_nil.
      * intros s' l. rewrite find_upd by auto. destruct (String.eqb_spec s s') as [->|]; [right; left; reflexivity | eauto].
Qed.
Lemma bind_dims_sound lin vs s ds f vs' : vars_ok vs -> pre lin (if String.eqb s "" then [] else [s]) vs -> Forall dim_ok ds ->
  bind_dims vs s (List.length ds) (put ds f) = Ok (Some vs') ->
  vars_ok vs' /\ ext lin vs vs' /\ (s <> "" -> exists fs, meaning vs' s = Some (BFrag fs) /\ Rl lin ds fs) /\
  (forall s' l, find vs' s' = Some (TDimFragment l) -> (exists l0, find vs s' = Some (TDimFragment l0)) \/ In s' (if String.eqb s "" then [] else [s])).
Proof.
  intros Hv Hp Hd. unfold bind_dims. destruct (String.eqb_spec s "") as [->|Hs].
  - intros H. injection H as <-. split; auto. split; [apply ext_refl|]. split; [congruence|]. eauto.
  - destruct (find vs s) as [t|] eqn:E.
    + destruct t; try discriminate. intros H. apply bind_ok in H as [r [H1 H2]]. destruct r as [w|]; [|discriminate]. injection H2 as <-.
      pose proof (Hv s _ E) as Ho. cbn [entry_ok] in Ho.
      destruct (broadcast_ok tagged ds f w Ho Hd H1) as [A [B C]].
      split; [apply vars_ok_upd; auto|]. destruct lin.
      { destruct (Hp eq_refl) as [_ F]. destruct (F s (or_introl eq_refl) tagged E). }
      split; [|split].
      * intros s' t' H'. rewrite find_upd by auto. destruct (String.eqb_spec s s') as [<-|].
        -- rewrite E in H'. injection H' as <-. eexists. split; [reflexivity|]. cbn. exact B.
        -- exists t'. split; auto. cbn. apply refines_refl.
      * intros _. rewrite meaning_upd by auto. cbn. eexists. split; [reflexivity | exact A].
      * intros s' l. rewrite find_upd by auto. destruct (String.eqb_spec s s') as [->|]; [right; left; reflexivity | eauto].
    + destruct (ndim (put ds f) <? Z.of_nat (List.length ds)) eqn:En; [discriminate|]. rewrite tags_from_put. cbn [bind fst]. intros H. injection H as <-.
      split; [apply vars_ok_upd; auto; cbn [entry_ok]; apply tags_ge; auto|]. split; [apply ext_upd_new; auto|]. split.
      * intros _. rewrite meaning_upd by auto. cbn [entry]. rewrite dims_of_tags_of by auto. eexists. split; [reflexivity|].
        destruct lin; cbn; auto using bc_refl.
      * intros s' l. rewrite find_upd by auto. destruct (String.eqb_spec s s') as [->|]; [right; left; reflexivity | eauto].
Qed.

(** The exponent and the base of a dimension power. *)
Lemma bind_exponent_sound lin vs s x vs' : vars_ok vs -> 0 <= x -> bind_exponent vs s x = Some vs' ->
  vars_ok vs' /\ ext lin vs vs' /\ meaning vs' s = Some (BDim (DFixed x)) /\
  (forall s' l, find vs' s' = Some (TDimFragment l) -> find vs s' = Some (TDimFragment l)).
Proof.
  intros Hv Hx. unfold bind_exponent. destruct (find vs s) as [t|] eqn:E.
  - destruct t; try discriminate. destruct (Z.eqb_spec n x) as [->|]; [|discriminate]. intros H. injection H as <-.
    split; auto. split; [apply ext_refl|]. split; [unfold meaning; rewrite E; reflexivity | auto].
  - intros H. injection H as <-. split.
    + apply vars_ok_upd; auto. cbn. apply andb_true_iff. split; [apply andb_true_iff; split; [apply Z.leb_le; auto | reflexivity] | reflexivity].
    + split; [apply ext_upd_new; auto|]. split; [rewrite meaning_upd by auto; reflexivity|].
      apply frags_upd_other; auto. discriminate.
Qed.
Lemma strip_fixed_kind_inv n : forall c c', concrete c = true -> strip_fixed_kind n c = Some c' ->
  exists ds, c = put ds c' /\ List.length ds = n /\ Forall (fun d => exists k, d = DFixed k) ds.
Proof.
  induction n as [|n IH]; cbn; intros c c' Hc H.
  - injection H as <-. exists []. auto.
  - destruct c; try discriminate. cbn in Hc. apply andb_true_iff in Hc as [_ Hc].
    destruct (IH _ _ Hc H) as [ds [-> [L F]]]. exists (DFixed n0 :: ds). repeat split; cbn; auto. constructor; eauto.
Qed.
Lemma strip_fixed_inv k n : forall c c', strip_fixed k n c = Some c' ->
  exists ds, c = put ds c' /\ List.length ds = n /\ Forall (fun d => d = DFixed k) ds.
Proof.
  induction n as [|n IH]; cbn; intros c c' H.
  - injection H as <-. exists []. auto.
  - destruct c; try discriminate. destruct (Z.eqb_spec n0 k) as [->|]; [|discriminate].
    destruct (IH _ _ H) as [ds [-> [L F]]]. exists (DFixed k :: ds). repeat split; cbn; auto.
Qed.
(** The var loop skips a dimension that is not var, but then dimensions are left over. *)
Lemma strip_var_inv n : forall c c', strip_var n c = Some c' ->
  exists ds, c = put ds c' /\ (List.length ds <= n)%nat /\ Forall (fun d => d = DVar) ds.
Proof.
  induction n as [|n IH]; intros c c' H.
  - cbn in H. injection H as <-. exists []. auto.
  - assert (K : strip_var n c = Some c' -> exists ds, c = put ds c' /\ (List.length ds <= S n)%nat /\ Forall (fun d => d = DVar) ds).
    { intros G. destruct (IH _ _ G) as [ds [-> [L F]]]. exists ds. repeat split; auto. }
    cbn [strip_var] in H. destruct c; auto.
    destruct (IH _ _ H) as [ds [-> [L F]]]. exists (DVar :: ds). cbn [List.length]. repeat split; auto. lia.
Qed.

Lemma sound lin : forall p, Sound lin p.
Proof.
  induction p using ty_ind'; intros c vs vs' Hs Hc Hp Hv Hpre Hm; cbn [sound_pattern ellipsis_names] in *; cbn [match_] in Hm.
  - destruct c; try discriminate. injection Hm as Hm <-. apply builtin_eqb_eq in Hm as ->.
    split; auto. split; [apply ext_refl|]. split; [reflexivity|]. intros s l E. eauto.
  - destruct c; try discriminate. injection Hm as Hm <-. apply leaf_eqb_eq in Hm as ->.
    split; auto. split; [apply ext_refl|]. split; [reflexivity|]. intros s l' E. eauto.
  - destruct c; try discriminate. destruct (Z.eqb_spec n n0) as [<-|]; [|discriminate].
    cbn in Hc, Hp. apply andb_true_iff in Hc as [_ Hc].
    destruct (IHp c vs vs' Hs Hc Hp Hv Hpre Hm) as [A [B [C D]]]. split; auto. split; auto. split; [cbn; eauto | exact D].
  - destruct c; try discriminate. cbn in Hc, Hp.
    destruct (IHp c vs vs' Hs Hc Hp Hv Hpre Hm) as [A [B [C D]]]. split; auto. split; auto. split; [cbn; eauto | exact D].
  - destruct c; try discriminate. cbn in Hc, Hp.
    destruct (IHp c vs vs' Hs Hc Hp Hv Hpre Hm) as [A [B [C D]]]. split; auto. split; auto. split; [cbn; eauto | exact D].
  - destruct c; try discriminate. cbn in Hc, Hp. apply andb_true_iff in Hc as [Hc _]. apply andb_true_iff in Hp as [Hp _].
    destruct (IHp c vs vs' Hs Hc Hp Hv Hpre Hm) as [A [B [C D]]]. split; auto. split; auto. split; [cbn; eauto | exact D].
  - destruct c; try discriminate. cbn in Hc, Hp. apply andb_true_iff in Hc as [Hw Hc]. destruct variadic; [discriminate|].
    destruct (((List.length l =? List.length fields)%nat && negb false) || ((List.length l <=? List.length fields)%nat && v)) eqn:E; [|discriminate].
    assert (Hlen : List.length l = List.length fields \/ v = true).
    { apply orb_true_iff in E as [E|E]; apply andb_true_iff in E as [E1 E2]; [left; apply Nat.eqb_eq; auto | auto]. }
    destruct (sound_fields_of lin l H fields vs vs' v Hs Hc Hp Hv Hpre Hlen Hm) as [A [B [C D]]].
    split; auto. split; auto. split; [exists fields; split; [reflexivity | exact C] | exact D].
  - destruct c; try discriminate. cbn in Hc, Hp. apply andb_true_iff in Hc as [Hw Hc]. apply andb_true_iff in Hw as [Hw Hnl]. destruct variadic; [discriminate|].
    apply andb_true_iff in Hs as [Hs1 Hs2].
    destruct (((List.length l =? List.length fields)%nat && negb false) || ((List.length l <=? List.length fields)%nat && v)) eqn:E; [|discriminate].
    destruct (list_eqb eqb n (firstn (List.length n) names)) eqn:En; [|discriminate].
    apply (list_eqb_eq _ String.eqb_eq) in En.
    assert (Hlen : List.length l = List.length fields \/ v = true).
    { apply orb_true_iff in E as [E|E]; apply andb_true_iff in E as [E1 E2]; [left; apply Nat.eqb_eq; auto | auto]. }
    destruct (sound_fields_of lin l H fields vs vs' v Hs2 Hc Hp Hv Hpre Hlen Hm) as [A [B [C D]]].
    split; auto. split; auto. split; [| exact D].
    exists names, fields. split; [reflexivity|]. split; [exact C|]. exists (skipn (List.length n) names). rewrite En at 1. symmetry. apply firstn_skipn.
  - destruct c; try discriminate. cbn [plain_options] in Hp. apply andb_true_iff in Hp as [Hp Hp3]. apply andb_true_iff in Hp as [Hp1 Hp2].
    assert (Hc' : concrete c1 = true /\ concrete c2 = true /\ concrete c3 = true).
    { destruct c2; try discriminate. destruct c3; try discriminate. cbn [concrete] in Hc. apply andb_true_iff in Hc as [Hc Hc3]. apply andb_true_iff in Hc as [Hc1 Hc2]. auto. }
    destruct Hc' as [Hc1 [Hc2 Hc3]]. clear Hc. apply andb_true_iff in Hs as [Hs Hs3]. apply andb_true_iff in Hs as [Hs1 Hs2].
    apply bind_ok in Hm as [[b1 v1] [M1 Hm]]. cbn [fst snd] in Hm. destruct b1; [|discriminate].
    apply bind_ok in Hm as [[b2 v2] [M2 M3]]. cbn [fst snd] in M3. destruct b2; [|discriminate].
    destruct (IHp1 c1 vs v1 Hs1 Hc1 Hp1 Hv (pre_app _ _ _ _ Hpre) M1) as [A1 [B1 [C1 D1]]].
    pose proof (pre_next _ _ _ _ _ Hpre D1) as Hpre2.
    destruct (IHp2 c2 v1 v2 Hs2 Hc2 Hp2 A1 (pre_app _ _ _ _ Hpre2) M2) as [A2 [B2 [C2 D2]]].
    pose proof (pre_next _ _ _ _ _ Hpre2 D2) as Hpre3.
    destruct (IHp3 c3 v2 vs' Hs3 Hc3 Hp3 A2 Hpre3 M3) as [A3 [B3 [C3 D3]]].
    split; auto. split; [exact (ext_trans _ _ _ _ (ext_trans _ _ _ _ B1 B2) B3)|]. split.
    + exists c1, c2, c3. split; [reflexivity|]. split; [|split; auto].
      * exact (inst_mono _ _ _ B3 _ _ (inst_mono _ _ _ B2 _ _ C1)).
      * exact (inst_mono _ _ _ B3 _ _ C2).
    + intros s l E. cbn [ellipsis_names]. destruct (D3 s l E) as [[l3 E3]|I3]; [|right; apply in_or_app; right; apply in_or_app; auto].
      destruct (D2 s l3 E3) as [[l2 E2]|I2]; [|right; apply in_or_app; right; apply in_or_app; auto].
      destruct (D1 s l2 E2) as [G|I1]; [auto | right; apply in_or_app; auto].
  - injection Hm as <-. split; auto. split; [apply ext_refl|]. split; [exact I|]. intros s l E. eauto.
  - injection Hm as Hm <-. split; auto. split; [apply ext_refl|]. split; [|intros s l E; eauto].
    cbn. unfold is_scalar in Hm. apply andb_true_iff in Hm as [Hm _]. apply Z.eqb_eq; auto.
  - injection Hm as Hm <-. split; auto. split; [apply ext_refl|]. split; [|intros s l E; eauto].
    cbn [inst]. destruct k, c; cbn in Hm; try discriminate; try (destruct b; cbn in Hm; try discriminate; cbn; eauto 10); destruct l; try discriminate; cbn; eauto.
  - destruct c; try discriminate. cbn in Hc, Hp. apply andb_true_iff in Hc as [_ Hc].
    destruct (IHp c vs vs' Hs Hc Hp Hv Hpre Hm) as [A [B [C D]]]. split; auto. split; auto. split; [cbn; eauto | exact D].
  - apply andb_true_iff in Hs as [Hs Hn]. destruct (0 <? ndim c) eqn:E; [|discriminate]. apply Z.ltb_lt in E.
    destruct (concrete_cases c Hc Hp) as [[d [f [-> [Hd [H1 [H2 H3]]]]]]|[H0 _]]; [|lia].
    rewrite type_at_dim_1 in Hm. cbn [bind] in Hm. apply bind_ok in Hm as [[b v] [Hm Hb]]. cbn in Hb. injection Hb as -> <-.
    assert (Hn' : MatchSpec.names p = []) by (destruct (MatchSpec.names p); [auto | discriminate]).
    assert (V0 : vars_ok []) by (intros s t; discriminate).
    assert (P0 : pre lin (ellipsis_names p) []) by (intros L; destruct (Hpre L) as [N _]; split; auto; intros s _ l; discriminate).
    destruct (IHp f [] v Hs H1 H2 V0 P0 Hm) as [_ [_ [C _]]].
    split; auto. split; [apply ext_refl|]. split; [|intros s l E'; eauto].
    exists d, f. split; [reflexivity|]. eapply inst_noname; eauto.
  - rewrite (concrete_not_any c Hc), orb_false_r in Hm. destruct (0 <? ndim c) eqn:E; [discriminate|]. apply Z.ltb_ge in E.
    pose proof (ndim_nonneg c) as Hnn. assert (Hz : ndim c = 0) by lia.
    destruct (find vs s) as [t|] eqn:Ef; injection Hm as Hm.
    + apply ty_eqb_eq in Hm as <-. subst vs'. split; auto. split; [apply ext_refl|]. split; [|intros s' l E'; eauto].
      cbn. split; auto. unfold meaning. rewrite Ef. cbn. rewrite entry_scalar by auto. reflexivity.
    + subst vs'. pose proof (concrete_not_null c Hc) as Hnull.
      split; [apply vars_ok_upd; auto using entry_ok_concrete|]. split; [apply ext_upd_new; auto|]. split.
      * cbn. split; auto. rewrite meaning_upd by auto. rewrite entry_scalar by auto. reflexivity.
      * intros s' l E'. left. exists l. revert E'. apply frags_upd_other; auto. intros l'. apply concrete_not_frag; auto.
  - destruct (is_scalar c) eqn:E; [discriminate|].
    destruct (is_scalar_false c Hc Hp E) as [d [f [-> [Hd [H1 [H2 H3]]]]]].
    rewrite type_at_dim_1 in Hm. cbn [bind] in Hm.
    destruct (find vs s) as [t|] eqn:Ef.
    + destruct (same_id (put1 d f) t) eqn:Ei; [|discriminate].
      assert (Ht : entry t = BDim d /\ match_ p f vs = Ok (true, vs')).
      { destruct d, t; cbn in Ei; try discriminate; cbn in Hm.
        - destruct (Z.eqb_spec n n0) as [->|]; [|discriminate]. auto.
        - auto. }
      destruct Ht as [Ht Hm']. destruct (IHp f vs vs' Hs H1 H2 Hv Hpre Hm') as [A [B [C D]]].
      split; auto. split; auto. split; [|exact D]. cbn. exists d, f. split; [|auto].
      eapply meaning_ext_dim; [exact B|]. unfold meaning. rewrite Ef. cbn. rewrite Ht. reflexivity.
    + pose proof (concrete_not_null _ Hc) as Hnull.
      assert (F1 : forall s' l, find (upd vs s (put1 d f)) s' = Some (TDimFragment l) -> find vs s' = Some (TDimFragment l)).
      { apply frags_upd_other; auto. intros l. apply concrete_not_frag; auto. }
      assert (V1 : vars_ok (upd vs s (put1 d f))) by (apply vars_ok_upd; auto using entry_ok_concrete).
      assert (P1 : pre lin (ellipsis_names p) (upd vs s (put1 d f))).
      { intros L. destruct (Hpre L) as [N F]. split; auto. intros s' Hi l Hf. apply (F s' Hi l). auto. }
      destruct (IHp f _ vs' Hs H1 H2 V1 P1 Hm) as [A [B [C D]]].
      split; auto. split; [eapply ext_trans; [apply ext_upd_new; eauto | exact B]|]. split.
      * cbn. exists d, f. split; [|auto]. eapply meaning_ext_dim; [exact B|]. rewrite meaning_upd by auto. rewrite entry_put1. reflexivity.
      * intros s' l E'. destruct (D s' l E') as [[l0 E0]|]; auto. left. eauto.
  - assert (Hpre1 : pre lin (if String.eqb s "" then [] else [s]) vs).
    { destruct (String.eqb s ""); [intros L; split; [constructor | intros s' []]|]. exact (pre_app lin [s] _ _ Hpre). }
    assert (Hnext : forall v1, (forall s' l, find v1 s' = Some (TDimFragment l) -> (exists l0, find vs s' = Some (TDimFragment l0)) \/ In s' (if String.eqb s "" then [] else [s])) ->
       pre lin (ellipsis_names p) v1).
    { intros v1 G. destruct (String.eqb s "").
      - exact (pre_next lin [] _ _ _ Hpre G).
      - exact (pre_next lin [s] _ _ _ Hpre G). }
    assert (Hfrags : forall v1, (forall s' l, find v1 s' = Some (TDimFragment l) -> (exists l0, find vs s' = Some (TDimFragment l0)) \/ In s' (if String.eqb s "" then [] else [s])) ->
       frags_from p v1 vs' -> frags_from (TEllipsis s p) vs vs').
    { intros v1 G D s' l E'. cbn [ellipsis_names]. destruct (D s' l E') as [[l0 E0]|I0].
      - destruct (G s' l0 E0) as [|I1]; [auto|]. right. destruct (String.eqb s ""); [destruct I1 | destruct I1 as [->|[]]; left; reflexivity].
      - right. destruct (String.eqb s ""); [auto | right; auto]. }
    assert (Hm' : (if ndim c =? 0 then match bind_empty vs s with Some vs' => match_ p c vs' | None => Ok (false, vs) end
                   else if ndim p <=? ndim c then
                          do b <- bind_dims vs s (Z.to_nat (ndim c - (1 + ndim p) + 1)) c;
                          match b with Some vs' => do c' <- type_at_dim c (Z.of_nat (Z.to_nat (ndim c - (1 + ndim p) + 1))); match_ p c' vs' | None => Ok (false, vs) end
                        else Ok (false, vs)) = Ok (true, vs')).
    { destruct c; try discriminate Hc; exact Hm. }
    clear Hm. destruct (ndim c =? 0) eqn:E0.
    + destruct (bind_empty vs s) as [v1|] eqn:Eb; [|discriminate].
      destruct (bind_empty_sound lin vs s v1 Hv Hpre1 Eb) as [A1 [B1 [C1 D1]]].
      destruct (IHp c v1 vs' Hs Hc Hp A1 (Hnext v1 D1) Hm') as [A [B [C D]]].
      split; auto. split; [eapply ext_trans; eauto|]. split; [|eauto].
      exists [], c. split; [reflexivity|]. split; auto. intros Hne. destruct (C1 Hne) as [fs [M R]]. eapply meaning_ext_frag; eauto.
    + destruct (ndim p <=? ndim c) eqn:El; [|discriminate]. apply Z.leb_le in El. pose proof (ndim_nonneg p) as Hpn.
      set (n := Z.to_nat (ndim c - (1 + ndim p) + 1)) in *.
      destruct (split_dims n c Hc Hp ltac:(unfold n; lia)) as [ds [f [-> [Hl [Hcf [Hpf Hd]]]]]].
      clearbody n. subst n. apply bind_ok in Hm' as [b [Hb Hm]]. destruct b as [v1|]; [|discriminate].
      rewrite type_at_dim_put in Hm. cbn [bind] in Hm.
      destruct (bind_dims_sound lin vs s ds f v1 Hv Hpre1 Hd Hb) as [A1 [B1 [C1 D1]]].
      destruct (IHp f v1 vs' Hs Hcf Hpf A1 (Hnext v1 D1) Hm) as [A [B [C D]]].
      split; auto. split; [eapply ext_trans; eauto|]. split; [|eauto].
      exists ds, f. split; [reflexivity|]. split; auto. intros Hne. destruct (C1 Hne) as [fs [M R]]. eapply meaning_ext_frag; eauto.
  - apply andb_true_iff in Hs as [Hs Hb].
    set (x := ndim c - ndim p2) in *.
    assert (Hm' : 0 <= x /\ exists v1, bind_exponent vs s x = Some v1 /\
       (if x =? 0 then match_ p2 c v1 else
        match resolve_base v1 p1 c with
        | None => Ok (false, v1)
        | Some (b, vs2) => match strip_base b (Z.to_nat x) c with Some c' => match_ p2 c' vs2 | None => Ok (false, vs2) end
        end) = Ok (true, vs')).
    { destruct (Z.eqb_spec (ndim c) 0) as [E0|E0].
      - assert (Hm2 : (if ndim p2 =? 0 then match bind_exponent vs s 0 with Some vs1 => match_ p2 c vs1 | None => Ok (false, vs) end else Ok (false, vs)) = Ok (true, vs')).
        { clear - Hm Hc E0. destruct c; try discriminate Hc; cbn [ndim] in *; try (rewrite E0 in Hm); exact Hm. }
        destruct (Z.eqb_spec (ndim p2) 0) as [E2|]; [|discriminate]. replace x with 0 by (unfold x; lia).
        split; [lia|]. destruct (bind_exponent vs s 0) as [v1|]; [|discriminate]. exists v1. split; [reflexivity|]. exact Hm2.
      - assert (Hm2 : match bind_exponent vs s x with
                      | None => Ok (false, vs)
                      | Some vs1 =>
                          if x =? 0 then match_ p2 c vs1
                          else if x <? 0 then Ok (false, vs1)
                          else match resolve_base vs1 p1 c with
                               | None => Ok (false, vs1)
                               | Some (b, vs2) => match strip_base b (Z.to_nat x) c with Some c' => match_ p2 c' vs2 | None => Ok (false, vs2) end
                               end
                      end = Ok (true, vs')).
        { clear - Hm Hc. destruct c; try discriminate Hc; exact Hm. }
        destruct (bind_exponent vs s x) as [v1|]; [|discriminate].
        destruct (Z.eqb_spec x 0).
        + split; [lia|]. exists v1. auto.
        + destruct (Z.ltb_spec x 0); [discriminate|]. split; [lia|]. exists v1. auto. }
    clear Hm. destruct Hm' as [Hx [v1 [Eb Hm]]].
    destruct (bind_exponent_sound lin vs s x v1 Hv Hx Eb) as [A1 [B1 [C1 D1]]].
    assert (P1 : forall v2, (forall s' l, find v2 s' = Some (TDimFragment l) -> find vs s' = Some (TDimFragment l)) -> pre lin (ellipsis_names p2) v2).
    { intros v2 G L. destruct (Hpre L) as [N F]. split; auto. intros s' Hi l Hf. apply (F s' Hi l). auto. }
    assert (Hfr : forall v2, (forall s' l, find v2 s' = Some (TDimFragment l) -> find vs s' = Some (TDimFragment l)) -> frags_from p2 v2 vs' -> frags_from (TPow p1 s p2) vs vs').
    { intros v2 G D s' l E'. destruct (D s' l E') as [[l0 E1]|]; eauto. }
    destruct (Z.eqb_spec x 0) as [X0|X0].
    + destruct (IHp2 c v1 vs' Hs Hc Hp A1 (P1 v1 D1) Hm) as [A [B [C D]]].
      split; auto. split; [eapply ext_trans; eauto|]. split; [|eauto].
      exists [], c. split; [reflexivity|]. split; auto. split; [|congruence].
      cbn [List.length Z.of_nat]. rewrite <- X0. eapply meaning_ext_dim; eauto.
    + destruct (resolve_base v1 p1 c) as [[b v2]|] eqn:Er; [|discriminate].
      destruct (strip_base b (Z.to_nat x) c) as [c'|] eqn:Est; [|discriminate].
      assert (Hcpos : 0 < ndim c) by (pose proof (ndim_nonneg p2); lia).
      destruct (concrete_cases c Hc Hp) as [[d0 [f0 [Ec [_ [_ [_ _]]]]]]|[Hz _]]; [|lia].
      (* the base after resolution *)
      assert (HB : vars_ok v2 /\ ext lin v1 v2 /\ (forall s' l, find v2 s' = Some (TDimFragment l) -> find v1 s' = Some (TDimFragment l)) /\
         match p1 with
         | TTypevarDim bn _ => meaning v2 bn = Some (entry b)
         | _ => b = p1
         end).
      { unfold resolve_base in Er. destruct p1; try (injection Er as <- <-; repeat split; auto using ext_refl; fail).
        destruct (find v1 name) as [t|] eqn:Ef.
        - destruct ((0 <? ndim t) && negb match t with TDimFragment _ => true | _ => false end); [|discriminate].
          injection Er as <- <-. repeat split; auto using ext_refl. unfold meaning. rewrite Ef. reflexivity.
        - injection Er as <- <-. pose proof (concrete_not_null _ Hc) as Hnull. split; [apply vars_ok_upd; auto using entry_ok_concrete|].
          split; [apply ext_upd_new; auto|]. split; [apply frags_upd_other; auto; intros l; apply concrete_not_frag; auto|].
          rewrite meaning_upd by auto. reflexivity. }
      destruct HB as [A2 [B2 [D2 HB]]].
      assert (Hrest : forall ds, c = put ds c' -> concrete c' = true /\ plain_options c' = true).
      { intros ds ->. split; [apply (concrete_put ds c'); auto | apply (plain_put ds c'); auto]. }
      (* the dimensions stripped *)
      assert (HD : exists ds, c = put ds c' /\ List.length ds = Z.to_nat x /\
         match b with
         | TFixedDimKind _ => Forall (fun d => exists n, d = DFixed n) ds
         | TFixedDim k _ => Forall (fun d => d = DFixed k) ds
         | TVarDim _ => Forall (fun d => d = DVar) ds
         | _ => False
         end).
      { unfold strip_base in Est. destruct b; try discriminate Est.
        - destruct (strip_fixed_inv _ _ _ _ Est) as [ds [H1 [H2 H3]]]. eauto.
        - destruct (strip_var_inv _ _ _ Est) as [ds [H1 [H2 H3]]]. exists ds. split; auto. split; [|exact H3].
          assert (Hrig : rigid p2 = true) by (destruct p1; try discriminate Hb; try discriminate HB; exact Hb).
          destruct (Hrest ds H1) as [Q1 Q2]. pose proof (rigid_ndim p2 c' v2 vs' Hrig Q1 Q2 Hm) as Hnd.
          assert (Hn2 : ndim c = Z.of_nat (List.length ds) + ndim c') by (rewrite H1; apply ndim_put). unfold x in *. lia.
        - destruct (strip_fixed_kind_inv _ _ _ Hc Est) as [ds [H1 [H2 H3]]]. eauto. }
      destruct HD as [ds [Hds [Hlen HF]]]. destruct (Hrest ds Hds) as [Q1 Q2].
      destruct (IHp2 c' v2 vs' Hs Q1 Q2 A2 (P1 v2 ltac:(intros; apply D1, D2; auto)) Hm) as [A [B [C D]]].
      split; auto. split; [exact (ext_trans _ _ _ _ B1 (ext_trans _ _ _ _ B2 B))|]. split; [|apply (Hfr v2); [intros; apply D1, D2; auto | exact D]].
      exists ds, c'. split; [exact Hds|]. split; [exact C|]. split.
      * rewrite Hlen, Z2Nat.id by lia. exact (meaning_ext_dim _ _ _ _ _ (ext_trans _ _ _ _ B2 B) C1).
      * intros _. destruct p1; try discriminate Hb; try (subst b; exact HF).
        destruct b; try contradiction; cbn [entry] in HB.
        -- exists (DFixed n). split; [eapply meaning_ext_dim; eauto | exact HF].
        -- exists DVar. split; [eapply meaning_ext_dim; eauto | exact HF].
        -- (* bound to Fixed: not concrete *)
           exfalso. unfold meaning in HB. destruct (find v2 name) as [t|] eqn:Ef; [|discriminate]. cbn in HB. injection HB as HB.
           pose proof (A2 name t Ef) as Hok. destruct t; cbn in HB; try discriminate HB; discriminate Hok.
  - discriminate Hs.
Qed.
