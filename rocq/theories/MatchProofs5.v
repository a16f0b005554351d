(** Completeness of matching. *)
From Verif Require Import Base TypesModel MatchModel MatchSpec MatchProofs MatchProofs2 MatchProofs3 MatchProofs4.
Local Open Scope string_scope.
Local Open Scope Z_scope.

Lemma rigid_inst R g p : forall c, rigid p = true -> concrete c = true -> plain_options c = true -> inst R g p c -> ndim c = ndim p.
Proof.
  induction p using ty_ind'; intros c Hr Hc Hp Hi; cbn [rigid] in Hr; try discriminate; cbn [inst] in Hi.
  - subst; reflexivity.
  - subst; reflexivity.
  - destruct Hi as [f [-> Hi]]. cbn in Hc, Hp. apply andb_true_iff in Hc as [_ Hc]. cbn [ndim]. rewrite IHp; auto.
  - destruct Hi as [f [-> Hi]]. cbn in Hc, Hp. cbn [ndim]. rewrite IHp; auto.
  - destruct Hi as [f [-> Hi]]. reflexivity.
  - destruct Hi as [f [-> Hi]]. cbn in Hc, Hp. apply andb_true_iff in Hc as [Hc _]. apply andb_true_iff in Hp as [Hp _]. cbn [ndim]. auto.
  - destruct Hi as [cs [-> Hi]]. reflexivity.
  - destruct Hi as [cn [cs [-> Hi]]]. reflexivity.
  - destruct Hi as [a [b [d [-> Hi]]]]. reflexivity.
  - exact Hi.
  - destruct k; cbn in Hi; repeat match goal with H : exists _, _ |- _ => destruct H | H : _ /\ _ |- _ => destruct H | H : _ \/ _ |- _ => destruct H end; subst; reflexivity.
  - destruct Hi as [k [f [-> Hi]]]. cbn in Hc, Hp. apply andb_true_iff in Hc as [_ Hc]. cbn [ndim]. rewrite IHp; auto.
  - destruct Hi as [d [f [-> Hi]]]. cbn [ndim]. destruct d; cbn in Hc, Hp; [apply andb_true_iff in Hc as [_ Hc]|]; cbn [put1 ndim]; rewrite IHp; auto.
  - destruct Hi as [_ Hi]. exact Hi.
  - destruct Hi as [d [f [_ [-> Hi]]]]. cbn [ndim]. destruct d; cbn in Hc, Hp; [apply andb_true_iff in Hc as [_ Hc]|]; cbn [put1 ndim]; rewrite IHp; auto.
Qed.

(** ** Which variables a match may bind *)
Section S.
Variable g : assignment.
Definition compat (s : string) (t : ty) : Prop := g s = Some (entry t).
Definition cpre (N E : list string) (vs : env) : Prop := forall s t, In s N -> find vs s = Some t -> ~ In s E /\ compat s t.
Definition cpost (N E : list string) (vs vs' : env) : Prop :=
  forall s t, find vs' s = Some t -> find vs s = Some t \/ (In s N /\ (In s E \/ compat s t)).
Definition once (N E : list string) : Prop := forall s, In s E -> count_occ string_dec N s = 1%nat.

Lemma count_in (N : list string) s : In s N -> (1 <= count_occ string_dec N s)%nat.
Proof. intros H. apply (count_occ_In string_dec) in H. lia. Qed.
Lemma once_split N1 E1 N2 E2 : incl E1 N1 -> incl E2 N2 -> once (N1 ++ N2) (E1 ++ E2) ->
  once N1 E1 /\ once N2 E2 /\ (forall s, In s E1 -> ~ In s N2) /\ (forall s, In s N1 -> ~ In s E2).
Proof.
  intros I1 I2 H. repeat split.
  - intros s Hs. specialize (H s (in_or_app _ _ _ (or_introl Hs))). rewrite count_occ_app in H. pose proof (count_in N1 s (I1 s Hs)). lia.
  - intros s Hs. specialize (H s (in_or_app _ _ _ (or_intror Hs))). rewrite count_occ_app in H. pose proof (count_in N2 s (I2 s Hs)). lia.
  - intros s Hs Hn. specialize (H s (in_or_app _ _ _ (or_introl Hs))). rewrite count_occ_app in H. pose proof (count_in N1 s (I1 s Hs)). pose proof (count_in N2 s Hn). lia.
  - intros s Hn Hs. specialize (H s (in_or_app _ _ _ (or_intror Hs))). rewrite count_occ_app in H. pose proof (count_in N2 s (I2 s Hs)). pose proof (count_in N1 s Hn). lia.
Qed.
Lemma cpre_left N1 E1 N2 E2 vs : cpre (N1 ++ N2) (E1 ++ E2) vs -> cpre N1 E1 vs.
Proof. intros H s t Hs Ht. destruct (H s t (in_or_app _ _ _ (or_introl Hs)) Ht) as [A B]. split; auto. intros C. apply A, in_or_app. auto. Qed.
Lemma cpre_right N1 E1 N2 E2 vs vs' : incl E1 N1 -> incl E2 N2 -> once (N1 ++ N2) (E1 ++ E2) -> cpre (N1 ++ N2) (E1 ++ E2) vs ->
  cpost N1 E1 vs vs' -> cpre N2 E2 vs'.
Proof.
  intros I1 I2 O H P s t Hs Ht. destruct (once_split _ _ _ _ I1 I2 O) as [_ [_ [D1 D2]]].
  destruct (P s t Ht) as [Ho | [Hn [He | Hc]]].
  - destruct (H s t (in_or_app _ _ _ (or_intror Hs)) Ho) as [A B]. split; auto. intros C. apply A, in_or_app. auto.
  - destruct (D1 s He Hs).
  - split; auto.
Qed.
Lemma cpost_seq N1 E1 N2 E2 a b c : cpost N1 E1 a b -> cpost N2 E2 b c -> cpost (N1 ++ N2) (E1 ++ E2) a c.
Proof.
  intros P Q s t H. destruct (Q s t H) as [H1|[Hn He]].
  - destruct (P s t H1) as [|[Hn He]]; auto. right. split; [apply in_or_app; auto|]. destruct He; auto. left. apply in_or_app. auto.
  - right. split; [apply in_or_app; auto|]. destruct He; auto. left. apply in_or_app. auto.
Qed.
Lemma cpost_refl N E vs : cpost N E vs vs.
Proof. intros s t H. auto. Qed.
Lemma cpost_upd s t vs : is_null t = false -> compat s t -> cpost [s] [] vs (upd vs s t).
Proof.
  intros Hn Hc s' t' H. rewrite find_upd in H by auto. destruct (String.eqb_spec s s') as [<-|]; [|auto].
  injection H as <-. right. split; [left; reflexivity | auto].
Qed.
Lemma cpost_upd_e s t vs : is_null t = false -> cpost [s] [s] vs (upd vs s t).
Proof.
  intros Hn s' t' H. rewrite find_upd in H by auto. destruct (String.eqb_spec s s') as [<-|]; [|auto].
  right. split; [left; reflexivity | left; left; reflexivity].
Qed.
Lemma ell_incl p : incl (ellipsis_names p) (names p).
Proof.
  induction p using ty_ind'; cbn [ellipsis_names names]; auto using incl_refl, incl_nil_l, incl_tl.
  - intros s Hs. apply in_flat_map in Hs as [x [Hx Hs]]. apply in_flat_map. exists x. split; auto. rewrite Forall_forall in H. apply (H x Hx). auto.
  - intros s Hs. apply in_flat_map in Hs as [x [Hx Hs]]. apply in_flat_map. exists x. split; auto. rewrite Forall_forall in H. apply (H x Hx). auto.
  - apply incl_app; [apply incl_appl; auto|]. apply incl_app; apply incl_appr; [apply incl_appl | apply incl_appr]; auto.
  - destruct (String.eqb s ""); auto. intros x [->|Hx]; [left; reflexivity | right; apply IHp; auto].
  - intros x Hx. right. apply in_or_app. right. apply IHp2. auto.
Qed.
Lemma ell_incl_fields l : incl (flat_map ellipsis_names l) (flat_map names l).
Proof. intros s Hs. apply in_flat_map in Hs as [x [Hx Hs]]. apply in_flat_map. exists x. split; auto. apply ell_incl. auto. Qed.

Variable R : list dim -> list dim -> Prop.
Definition Complete (p : ty) : Prop :=
  forall c vs, complete_pattern p = true -> concrete c = true -> plain_options c = true -> inst R g p c ->
    once (names p) (ellipsis_names p) -> cpre (names p) (ellipsis_names p) vs ->
    exists vs', match_ p c vs = Ok (true, vs') /\ cpost (names p) (ellipsis_names p) vs vs'.
Lemma complete_fields ps : Forall Complete ps -> forall cs vs more, forallb complete_pattern ps = true -> forallb concrete cs = true -> forallb plain_options cs = true ->
  inst_fields R g more ps cs -> once (flat_map names ps) (flat_map ellipsis_names ps) -> cpre (flat_map names ps) (flat_map ellipsis_names ps) vs ->
  exists vs', match_fields ps cs vs = Ok (true, vs') /\ cpost (flat_map names ps) (flat_map ellipsis_names ps) vs vs'.
Proof.
  induction 1 as [|p ps Hp Hps IH]; intros cs vs more Hs Hc Hpl Hi Ho Hpre.
  - exists vs. split; [reflexivity | apply cpost_refl].
  - destruct cs as [|c cs]; [destruct Hi|]. destruct Hi as [I1 I2].
    cbn [forallb] in Hs, Hc, Hpl. apply andb_true_iff in Hs as [Hs1 Hs2]. apply andb_true_iff in Hc as [Hc1 Hc2]. apply andb_true_iff in Hpl as [Hl1 Hl2].
    cbn [flat_map] in *. destruct (once_split _ _ _ _ (ell_incl p) (ell_incl_fields ps) Ho) as [O1 [O2 _]].
    destruct (Hp c vs Hs1 Hc1 Hl1 I1 O1 (cpre_left _ _ _ _ _ Hpre)) as [v1 [M1 P1]].
    destruct (IH cs v1 more Hs2 Hc2 Hl2 I2 O2 (cpre_right _ _ _ _ _ _ (ell_incl p) (ell_incl_fields ps) Ho Hpre P1)) as [v2 [M2 P2]].
    exists v2. split; [|eapply cpost_seq; eauto].
    cbn [match_fields]. rewrite M1. cbn [bind fst snd]. exact M2.
Qed.
Lemma inst_fields_len more ps : forall cs, inst_fields R g more ps cs -> List.length ps = List.length cs \/ ((List.length ps <= List.length cs)%nat /\ more = true).
Proof.
  induction ps as [|p ps IH]; intros [|c cs] H; cbn in *; try contradiction; auto.
  - right. split; [lia | auto].
  - destruct H as [_ H]. destruct (IH cs H) as [|[]]; [left | right]; lia || (split; [lia | auto]).
Qed.
Lemma list_eqb_firstn n more : list_eqb String.eqb n (firstn (List.length n) (n ++ more)) = true.
Proof. rewrite firstn_app, Nat.sub_diag, firstn_all. cbn. rewrite app_nil_r. apply (list_eqb_eq _ String.eqb_eq). reflexivity. Qed.

Lemma is_scalar_zero c : concrete c = true -> is_scalar c = (ndim c =? 0).
Proof. intros H. unfold is_scalar. rewrite concrete_not_variadic by auto. apply andb_true_r. Qed.
Lemma entry_dim t d : entry t = BDim d -> exists u, t = put1 d u.
Proof. destruct t; cbn; intros H; try discriminate; injection H as <-; eexists; reflexivity. Qed.
Lemma bind_exponent_ok vs s x N E : compat s (TFixedDim x (TBuiltin void)) -> cpre (s :: N) E vs ->
  exists v1, bind_exponent vs s x = Some v1 /\ cpost [s] [] vs v1.
Proof.
  intros Hc Hp. unfold bind_exponent. destruct (find vs s) as [t|] eqn:Ef.
  - destruct (Hp s t (or_introl eq_refl) Ef) as [_ Hc2]. unfold compat in *. rewrite Hc2 in Hc. injection Hc as Hc. apply entry_dim in Hc as [u ->].
    cbn [put1]. rewrite Z.eqb_refl. exists vs. split; [reflexivity | apply cpost_refl].
  - eexists. split; [reflexivity|]. apply cpost_upd; auto.
Qed.
Lemma strip_fixed_put k ds f : Forall (fun d => d = DFixed k) ds -> strip_fixed k (List.length ds) (put ds f) = Some f.
Proof. induction 1 as [|d ds -> H IH]; cbn; [reflexivity|]. rewrite Z.eqb_refl. exact IH. Qed.
Lemma strip_var_put ds f : Forall (fun d => d = DVar) ds -> strip_var (List.length ds) (put ds f) = Some f.
Proof. induction 1 as [|d ds -> H IH]; cbn; [reflexivity|]. exact IH. Qed.
Lemma strip_fixed_kind_put ds f : Forall (fun d => exists n, d = DFixed n) ds -> strip_fixed_kind (List.length ds) (put ds f) = Some f.
Proof. induction 1 as [|d ds [k ->] H IH]; cbn; [reflexivity|]. exact IH. Qed.

Lemma complete : forall p, Complete p.
Proof.
  induction p using ty_ind'; intros c vs Hs Hc Hp Hi Ho Hpre; cbn [complete_pattern] in Hs; try discriminate; cbn [inst] in Hi; cbn [names ellipsis_names] in Ho, Hpre |- *.
  - subst c. exists vs. split; [cbn; f_equal; f_equal; destruct b; reflexivity | apply cpost_refl].
  - subst c. exists vs. split; [cbn; f_equal; f_equal; apply leaf_eqb_eq; reflexivity | apply cpost_refl].
  - destruct Hi as [f [-> Hi]]. cbn in Hc, Hp. apply andb_true_iff in Hc as [_ Hc]. cbn [match_]. rewrite Z.eqb_refl. apply (IHp f vs); auto.
  - destruct Hi as [f [-> Hi]]. cbn in Hc, Hp. cbn [match_]. apply (IHp f vs); auto.
  - destruct Hi as [f [-> Hi]]. cbn in Hc, Hp. cbn [match_]. apply (IHp f vs); auto.
  - destruct Hi as [f [-> Hi]]. cbn in Hc, Hp. apply andb_true_iff in Hc as [Hc _]. apply andb_true_iff in Hp as [Hp _]. cbn [match_]. apply (IHp f vs); auto.
  - destruct Hi as [cs [-> Hi]]. cbn [concrete negb andb] in Hc. cbn [plain_options] in Hp.
    change (match_ (TTuple l v) (TTuple cs false) vs) with
      (if ((List.length l =? List.length cs)%nat && negb false) || ((List.length l <=? List.length cs)%nat && v) then match_fields l cs vs else Ok (false, vs)).
    assert (E : ((List.length l =? List.length cs)%nat && negb false) || ((List.length l <=? List.length cs)%nat && v) = true).
    { apply orb_true_iff. destruct (inst_fields_len v l cs Hi) as [L|[L ->]]; [left | right]; apply andb_true_iff; split; auto; [apply Nat.eqb_eq | apply Nat.leb_le]; auto. }
    rewrite E. apply (complete_fields l H cs vs v); auto.
  - destruct Hi as [cn [cs [-> [Hi [more ->]]]]]. cbn [concrete negb andb] in Hc. cbn [plain_options] in Hp. apply andb_true_iff in Hs as [Hnl Hs]. apply andb_true_iff in Hc as [Hl Hc].
    change (match_ (TStruct n l v) (TStruct (n ++ more) cs false) vs) with
      (if ((List.length l =? List.length cs)%nat && negb false) || ((List.length l <=? List.length cs)%nat && v)
       then if list_eqb String.eqb n (firstn (List.length n) (n ++ more)) then match_fields l cs vs else Ok (false, vs) else Ok (false, vs)).
    assert (E : ((List.length l =? List.length cs)%nat && negb false) || ((List.length l <=? List.length cs)%nat && v) = true).
    { apply orb_true_iff. destruct (inst_fields_len v l cs Hi) as [L|[L ->]]; [left | right]; apply andb_true_iff; split; auto; [apply Nat.eqb_eq | apply Nat.leb_le]; auto. }
    rewrite E, list_eqb_firstn. apply (complete_fields l H cs vs v); auto.
  - destruct Hi as [c1 [c2 [c3 [-> [I1 [I2 I3]]]]]]. cbn [plain_options] in Hp. apply andb_true_iff in Hp as [Hp Hp3]. apply andb_true_iff in Hp as [Hp1 Hp2].
    assert (Hc' : concrete c1 = true /\ concrete c2 = true /\ concrete c3 = true).
    { destruct c2; try discriminate. destruct c3; try discriminate. cbn [concrete] in Hc. apply andb_true_iff in Hc as [Hc Hc3]. apply andb_true_iff in Hc as [Hc1 Hc2]. auto. }
    destruct Hc' as [Hc1 [Hc2 Hc3]]. clear Hc. apply andb_true_iff in Hs as [Hs Hs3]. apply andb_true_iff in Hs as [Hs1 Hs2].
    pose proof (ell_incl p1) as J1. pose proof (ell_incl p2) as J2. pose proof (ell_incl p3) as J3.
    assert (J23 : incl (ellipsis_names p2 ++ ellipsis_names p3) (names p2 ++ names p3)) by (apply incl_app; [apply incl_appl | apply incl_appr]; auto).
    destruct (once_split _ _ _ _ J1 J23 Ho) as [O1 [O23 _]]. destruct (once_split _ _ _ _ J2 J3 O23) as [O2 [O3 _]].
    destruct (IHp1 c1 vs Hs1 Hc1 Hp1 I1 O1 (cpre_left _ _ _ _ _ Hpre)) as [v1 [M1 P1]].
    pose proof (cpre_right _ _ _ _ _ _ J1 J23 Ho Hpre P1) as Hpre23.
    destruct (IHp2 c2 v1 Hs2 Hc2 Hp2 I2 O2 (cpre_left _ _ _ _ _ Hpre23)) as [v2 [M2 P2]].
    destruct (IHp3 c3 v2 Hs3 Hc3 Hp3 I3 O3 (cpre_right _ _ _ _ _ _ J2 J3 O23 Hpre23 P2)) as [v3 [M3 P3]].
    exists v3. split.
    + cbn [match_]. rewrite M1. cbn [bind fst snd]. rewrite M2. cbn [bind fst snd]. exact M3.
    + exact (cpost_seq _ _ _ _ _ _ _ P1 (cpost_seq _ _ _ _ _ _ _ P2 P3)).
  - exists vs. split; [reflexivity | apply cpost_refl].
  - exists vs. split; [|apply cpost_refl]. cbn [match_]. rewrite is_scalar_zero by auto. rewrite Hi. reflexivity.
  - exists vs. split; [|apply cpost_refl]. cbn [match_]. f_equal. f_equal.
    destruct k; cbn [in_kind] in Hi; try discriminate Hs; repeat match goal with H : exists _, _ |- _ => destruct H | H : _ /\ _ |- _ => destruct H end; subst;
      try (cbn in *; repeat match goal with H : _ \/ _ |- _ => destruct H end; subst; try contradiction; reflexivity).
  - destruct Hi as [k [f [-> Hi]]]. cbn in Hc, Hp. apply andb_true_iff in Hc as [_ Hc]. cbn [match_]. apply (IHp f vs); auto.
  - destruct Hi as [d [f [-> Hi]]]. apply andb_true_iff in Hs as [Hs Hn]. assert (Hn' : names p = []) by (destruct (names p); [auto | discriminate]).
    assert (Hcf : concrete f = true) by (apply (concrete_put [d] f); exact Hc). assert (Hpf : plain_options f = true) by (apply (plain_put [d] f); exact Hp).
    destruct (IHp f [] Hs Hcf Hpf Hi Ho ltac:(intros s t _ E; discriminate E)) as [v1 [M1 _]].
    exists vs. split; [|apply cpost_refl]. cbn [match_]. rewrite type_at_dim_1. cbn [bind]. rewrite M1. cbn [bind fst].
    assert (En : (0 <? ndim (put1 d f)) = true) by (pose proof (ndim_nonneg f); apply Z.ltb_lt; destruct d; cbn [put1 ndim]; lia).
    rewrite En. reflexivity.
  - destruct Hi as [Hg Hz]. cbn [match_]. rewrite Hz, (concrete_not_any c Hc). cbn [Z.ltb Z.compare orb].
    pose proof (entry_scalar c Hc Hp Hz) as Hen.
    destruct (find vs s) as [t|] eqn:Ef.
    + destruct (Hpre s t (or_introl eq_refl) Ef) as [_ Hcm]. unfold compat in Hcm. rewrite Hg in Hcm. injection Hcm as Hcm.
      exists vs. split; [|apply cpost_refl]. f_equal. f_equal. apply ty_eqb_eq. destruct t; cbn in Hcm; try discriminate; injection Hcm as ->; reflexivity.
    + eexists. split; [reflexivity|]. apply cpost_upd; auto using concrete_not_null. unfold compat. rewrite Hg, Hen. reflexivity.
  - destruct Hi as [d [f [Hg [-> Hi]]]].
    assert (Hcf : concrete f = true) by (apply (concrete_put [d] f); exact Hc). assert (Hpf : plain_options f = true) by (apply (plain_put [d] f); exact Hp).
    cbn [match_]. rewrite is_scalar_zero by auto.
    assert (En : (ndim (put1 d f) =? 0) = false) by (pose proof (ndim_nonneg f); apply Z.eqb_neq; destruct d; cbn [put1 ndim]; lia).
    rewrite En, type_at_dim_1. cbn [bind].
    change (s :: names p) with ([s] ++ names p)%list in *. change (ellipsis_names p) with ([] ++ ellipsis_names p)%list in Ho, Hpre |- *.
    pose proof (ell_incl p) as J. pose proof (incl_nil_l [s]) as J0. destruct (once_split _ _ _ _ J0 J Ho) as [_ [O2 _]].
    destruct (find vs s) as [t|] eqn:Ef.
    + destruct (Hpre s t (or_introl eq_refl) Ef) as [_ Hcm]. unfold compat in Hcm. rewrite Hg in Hcm. injection Hcm as Hcm. symmetry in Hcm. apply entry_dim in Hcm as [u ->].
      destruct (IHp f vs Hs Hcf Hpf Hi O2 (cpre_right _ _ _ _ _ _ J0 J Ho Hpre (cpost_refl _ _ _))) as [v1 [M1 P1]].
      exists v1. split; [|exact (cpost_seq _ _ _ _ _ _ _ (cpost_refl [s] [] vs) P1)].
      destruct d; cbn [put1 same_id]; [rewrite Z.eqb_refl|]; exact M1.
    + assert (P0 : cpost [s] [] vs (upd vs s (put1 d f))).
      { apply cpost_upd; auto using concrete_not_null. unfold compat. rewrite Hg, entry_put1. reflexivity. }
      destruct (IHp f _ Hs Hcf Hpf Hi O2 (cpre_right _ _ _ _ _ _ J0 J Ho Hpre P0)) as [v1 [M1 P1]].
      exists v1. split; [exact M1 | exact (cpost_seq _ _ _ _ _ _ _ P0 P1)].
  - destruct Hi as [ds [f [-> [Hi _]]]]. apply andb_true_iff in Hs as [Hs Hrig].
    destruct (concrete_put ds f Hc) as [Hcf Hd]. pose proof (plain_put ds f Hp) as Hpf. pose proof (rigid_inst _ _ _ _ Hrig Hcf Hpf Hi) as Hnd.
    assert (E : match_ (TEllipsis s p) (put ds f) vs =
       if ndim (put ds f) =? 0 then match bind_empty vs s with Some vs' => match_ p (put ds f) vs' | None => Ok (false, vs) end
       else if ndim p <=? ndim (put ds f) then
                          do b <- bind_dims vs s (Z.to_nat (ndim (put ds f) - (1 + ndim p) + 1)) (put ds f);
                          match b with Some vs' => do c' <- type_at_dim (put ds f) (Z.of_nat (Z.to_nat (ndim (put ds f) - (1 + ndim p) + 1))); match_ p c' vs' | None => Ok (false, vs) end
                        else Ok (false, vs)).
    { clear - Hc. destruct (put ds f); try discriminate Hc; reflexivity. }
    rewrite E. clear E. rewrite ndim_put, Hnd. pose proof (ndim_nonneg p) as Hpn.
    set (N0 := if String.eqb s "" then [] else [s]).
    assert (EN : (if String.eqb s "" then names p else s :: names p) = (N0 ++ names p)%list) by (unfold N0; destruct (String.eqb s ""); reflexivity).
    assert (EE : (if String.eqb s "" then ellipsis_names p else s :: ellipsis_names p) = (N0 ++ ellipsis_names p)%list) by (unfold N0; destruct (String.eqb s ""); reflexivity).
    rewrite EN, EE in *. pose proof (ell_incl p) as J. pose proof (incl_refl N0) as J0. destruct (once_split _ _ _ _ J0 J Ho) as [_ [O2 _]].
    assert (HN : String.eqb s "" = false -> find vs s = None).
    { intros En. destruct (find vs s) as [t|] eqn:Ef; [|reflexivity]. exfalso. assert (In s N0) by (unfold N0; rewrite En; left; reflexivity).
      destruct (Hpre s t (in_or_app _ _ _ (or_introl H)) Ef) as [Hno _]. apply Hno, in_or_app. auto. }
    destruct (Z.eqb_spec (Z.of_nat (List.length ds) + ndim p) 0) as [E0|E0].
    + destruct ds; [|cbn [List.length] in E0; lia]. cbn [put fold_right].
      assert (HB : exists v1, bind_empty vs s = Some v1 /\ cpost N0 N0 vs v1).
      { unfold bind_empty, N0. destruct (String.eqb s "") eqn:En; [exists vs; split; [reflexivity | apply cpost_refl]|].
        rewrite HN by auto. eexists. split; [reflexivity|]. apply cpost_upd_e. reflexivity. }
      destruct HB as [v1 [B1 P0]]. rewrite B1.
      destruct (IHp f v1 Hs Hcf Hpf Hi O2 (cpre_right _ _ _ _ _ _ J0 J Ho Hpre P0)) as [v2 [M1 P1]].
      exists v2. split; [exact M1 | exact (cpost_seq _ _ _ _ _ _ _ P0 P1)].
    + replace (ndim p <=? Z.of_nat (List.length ds) + ndim p) with true by (symmetry; apply Z.leb_le; lia).
      replace (Z.to_nat (Z.of_nat (List.length ds) + ndim p - (1 + ndim p) + 1)) with (List.length ds) by lia.
      assert (HB : exists v1, bind_dims vs s (List.length ds) (put ds f) = Ok (Some v1) /\ cpost N0 N0 vs v1).
      { unfold bind_dims, N0. destruct (String.eqb s "") eqn:En; [exists vs; split; [reflexivity | apply cpost_refl]|].
        rewrite HN by auto. rewrite ndim_put. destruct (Z.ltb_spec (Z.of_nat (List.length ds) + ndim f) (Z.of_nat (List.length ds))); [pose proof (ndim_nonneg f); lia|].
        rewrite tags_from_put. cbn [bind fst]. eexists. split; [reflexivity|]. apply cpost_upd_e. reflexivity. }
      destruct HB as [v1 [B1 P0]]. rewrite B1. cbn [bind]. rewrite type_at_dim_put. cbn [bind].
      destruct (IHp f v1 Hs Hcf Hpf Hi O2 (cpre_right _ _ _ _ _ _ J0 J Ho Hpre P0)) as [v2 [M1 P1]].
      exists v2. split; [exact M1 | exact (cpost_seq _ _ _ _ _ _ _ P0 P1)].
  - destruct Hi as [ds [f [-> [Hi [Hg Hds]]]]]. apply andb_true_iff in Hs as [Hs Hb]. apply andb_true_iff in Hs as [Hs Hrig].
    destruct (concrete_put ds f Hc) as [Hcf Hd]. pose proof (plain_put ds f Hp) as Hpf. pose proof (rigid_inst _ _ _ _ Hrig Hcf Hpf Hi) as Hnd.
    assert (E : match_ (TPow p1 s p2) (put ds f) vs =
       if ndim (put ds f) =? 0 then
         if ndim p2 =? 0 then match bind_exponent vs s 0 with Some vs1 => match_ p2 (put ds f) vs1 | None => Ok (false, vs) end else Ok (false, vs)
       else match bind_exponent vs s (ndim (put ds f) - ndim p2) with
            | None => Ok (false, vs)
            | Some vs1 =>
                if ndim (put ds f) - ndim p2 =? 0 then match_ p2 (put ds f) vs1
                else if ndim (put ds f) - ndim p2 <? 0 then Ok (false, vs1)
                else match resolve_base vs1 p1 (put ds f) with
                     | None => Ok (false, vs1)
                     | Some (b, vs2) => match strip_base b (Z.to_nat (ndim (put ds f) - ndim p2)) (put ds f) with Some c' => match_ p2 c' vs2 | None => Ok (false, vs2) end
                     end
            end).
    { clear - Hc. destruct (put ds f); try discriminate Hc; reflexivity. }
    rewrite E. clear E. rewrite ndim_put, Hnd. pose proof (ndim_nonneg p2) as Hpn.
    replace (Z.of_nat (List.length ds) + ndim p2 - ndim p2) with (Z.of_nat (List.length ds)) by lia.
    set (NB := match p1 with TTypevarDim b _ => [b] | _ => [] end) in *.
    assert (EN : (s :: NB ++ names p2)%list = ([s] ++ NB ++ names p2)%list) by reflexivity.
    assert (EE : ellipsis_names p2 = ([] ++ [] ++ ellipsis_names p2)%list) by reflexivity.
    rewrite EN, EE in *. clear EN EE.
    pose proof (ell_incl p2) as J. assert (J1 : incl ([] ++ ellipsis_names p2) (NB ++ names p2)) by (cbn; apply incl_appr; auto).
    pose proof (incl_nil_l [s]) as J0. pose proof (incl_nil_l NB) as JB.
    destruct (once_split _ _ _ _ J0 J1 Ho) as [_ [O2 _]]. destruct (once_split _ _ _ _ JB J O2) as [_ [O3 _]].
    destruct (bind_exponent_ok vs s (Z.of_nat (List.length ds)) (NB ++ names p2) ([] ++ [] ++ ellipsis_names p2)%list Hg Hpre) as [v1 [B1 P1]].
    pose proof (cpre_right _ _ _ _ _ _ J0 J1 Ho Hpre P1) as Hpre2.
    destruct ds as [|d0 ds0] eqn:Eds.
    + cbn [put fold_right List.length] in *. change (Z.of_nat 0) with 0 in *.
      pose proof (cpre_right _ _ _ _ _ _ JB J O2 Hpre2 (cpost_refl _ _ _)) as Hpre3.
      destruct (IHp2 f v1 Hs Hcf Hpf Hi O3 Hpre3) as [v2 [M2 P2]].
      exists v2. split; [|exact (cpost_seq _ _ _ _ _ _ _ P1 (cpost_seq _ _ _ _ _ _ _ (cpost_refl NB [] v1) P2))].
      rewrite B1. destruct (Z.eqb_spec (0 + ndim p2) 0); [destruct (Z.eqb_spec (ndim p2) 0); [|lia]|]; exact M2.
    + rewrite <- Eds in *. assert (Hne : ds <> []) by (rewrite Eds; discriminate). specialize (Hds Hne).
      assert (Hl : 0 < Z.of_nat (List.length ds)) by (rewrite Eds; cbn [List.length]; lia).
      destruct (Z.eqb_spec (Z.of_nat (List.length ds) + ndim p2) 0); [lia|]. rewrite B1.
      destruct (Z.eqb_spec (Z.of_nat (List.length ds)) 0); [lia|]. destruct (Z.ltb_spec (Z.of_nat (List.length ds)) 0); [lia|].
      rewrite Nat2Z.id.
      assert (HB : exists b v2, resolve_base v1 p1 (put ds f) = Some (b, v2) /\ cpost NB [] v1 v2 /\ strip_base b (List.length ds) (put ds f) = Some f).
      { unfold NB. destruct p1; try discriminate Hb; cbn [resolve_base].
        - eexists _, _. split; [reflexivity|]. split; [apply cpost_refl|]. cbn [strip_base]. apply strip_fixed_put; auto.
        - eexists _, _. split; [reflexivity|]. split; [apply cpost_refl|]. cbn [strip_base]. apply strip_var_put; auto.
        - eexists _, _. split; [reflexivity|]. split; [apply cpost_refl|]. cbn [strip_base]. apply strip_fixed_kind_put; auto.
        - destruct Hds as [d [Hgb HF]].
          assert (HS : forall u, strip_base (put1 d u) (List.length ds) (put ds f) = Some f).
          { intros u. destruct d; cbn [put1 strip_base]; [apply strip_fixed_put | apply strip_var_put]; auto. }
          destruct (find v1 name) as [t|] eqn:Ef.
          + destruct (Hpre2 name t ltac:(unfold NB; left; reflexivity) Ef) as [_ Hcm]. unfold compat in Hcm. rewrite Hgb in Hcm. injection Hcm as Hcm. symmetry in Hcm. apply entry_dim in Hcm as [u ->].
            exists (put1 d u), v1. split; [|split; [apply cpost_refl | apply HS]].
            assert (Hn : (0 <? ndim (put1 d u)) = true) by (pose proof (ndim_nonneg u); apply Z.ltb_lt; destruct d; cbn [put1 ndim]; lia).
            rewrite Hn. destruct d; reflexivity.
          + assert (Ed : d0 = d) by (rewrite Eds in HF; inversion HF; subst; auto).
            eexists _, _. split; [reflexivity|]. split.
            * apply cpost_upd; auto using concrete_not_null. unfold compat. rewrite Hgb, Eds. cbn [put fold_right]. rewrite entry_put1, Ed. reflexivity.
            * rewrite Eds at 1. cbn [put fold_right]. rewrite Ed. apply HS. }
      destruct HB as [b [v2 [B2 [P2 St]]]]. rewrite B2, St.
      pose proof (cpre_right _ _ _ _ _ _ JB J O2 Hpre2 P2) as Hpre3.
      destruct (IHp2 f v2 Hs Hcf Hpf Hi O3 Hpre3) as [v3 [M3 P3]].
      exists v3. split; [exact M3 | exact (cpost_seq _ _ _ _ _ _ _ P1 (cpost_seq _ _ _ _ _ _ _ P2 P3))].
Qed.
End S.
