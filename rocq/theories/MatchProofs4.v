(** Substitution. *)
From Verif Require Import Base TypesModel MatchModel MatchSpec MatchProofs MatchProofs2.
Local Open Scope string_scope.
Local Open Scope Z_scope.

Definition subst_fields (concrete : bool) (vs : env) := fix go (ps : list ty) : outcome (list ty) :=
  match ps with
  | [] => Ok []
  | p :: ps' => do x <- subst concrete vs p; do r <- go ps'; Ok (x :: r)
  end.

(** ** A pattern without names is its only instance *)
Lemma inst_fields_ground R g ps : forall cs, Forall (fun p => forall c, concrete c = true -> inst R g p c -> c = p) ps ->
  forallb concrete cs = true -> inst_fields R g false ps cs -> cs = ps.
Proof.
  intros cs H. revert cs. induction H as [|p ps Hp Hps IH]; intros [|c cs] Hc Hi; cbn in *; try discriminate; try contradiction; auto.
  apply andb_true_iff in Hc as [H1 H2]. destruct Hi as [I1 I2]. f_equal; auto.
Qed.
Lemma flat_map_nil {A B} (f : A -> list B) l : flat_map f l = [] -> Forall (fun x => f x = []) l.
Proof. induction l as [|x l IH]; cbn; intros H; constructor; apply app_eq_nil in H as [H1 H2]; auto. Qed.
Lemma Forall_conj3 {A} (P Q R : A -> Prop) l : Forall P l -> Forall Q l -> Forall R l -> Forall (fun x => P x /\ Q x /\ R x) l.
Proof. intros H. induction H; intros H1 H2; inversion H1; inversion H2; subst; constructor; auto. Qed.
Lemma forallb_Forall' {A} (f : A -> bool) l : forallb f l = true -> Forall (fun x => f x = true) l.
Proof. induction l; cbn; intros H; constructor; apply andb_true_iff in H as [H1 H2]; auto. Qed.
Lemma ground R g : forall p c, substitutable p = true -> names p = [] -> concrete c = true -> inst R g p c -> c = p.
Proof.
  induction p using ty_ind'; intros c Hs Hn Hc Hi; cbn [substitutable names inst] in *; try discriminate.
  - auto.
  - auto.
  - apply andb_true_iff in Hs as [Hs _]. destruct Hi as [f [-> Hi]]. cbn in Hc. apply andb_true_iff in Hc as [_ Hc]. f_equal. auto.
  - apply andb_true_iff in Hs as [Hs _]. destruct Hi as [f [-> Hi]]. cbn in Hc. f_equal. auto.
  - apply andb_true_iff in Hs as [Hs _]. destruct Hi as [f [-> Hi]]. cbn in Hc. f_equal. auto.
  - apply andb_true_iff in Hs as [Hs _]. destruct Hi as [f [-> Hi]]. cbn in Hc. apply andb_true_iff in Hc as [Hc _]. f_equal. auto.
  - destruct Hi as [cs [-> Hi]]. cbn [concrete] in Hc. apply andb_true_iff in Hc as [_ Hc].
    apply andb_true_iff in Hs as [Hs _]. apply andb_true_iff in Hs as [Hv Hs]. destruct v; [discriminate|]. f_equal.
    apply (inst_fields_ground R g l cs); auto.
    pose proof (Forall_conj3 _ _ _ l H (forallb_Forall' _ _ Hs) (flat_map_nil _ _ Hn)) as HF.
    eapply Forall_impl; [|exact HF]. cbn. intros a [A [B C]]. auto.
  - destruct Hi as [cn [cs [-> [Hi [more ->]]]]]. cbn [concrete] in Hc. apply andb_true_iff in Hc as [Hl Hc]. apply andb_true_iff in Hl as [_ Hl].
    apply andb_true_iff in Hs as [Hs _]. apply andb_true_iff in Hs as [Hv Hs]. apply andb_true_iff in Hv as [Hv Hnl]. destruct v; [discriminate|].
    assert (E : cs = l).
    { apply (inst_fields_ground R g l cs); auto.
      pose proof (Forall_conj3 _ _ _ l H (forallb_Forall' _ _ Hs) (flat_map_nil _ _ Hn)) as HF.
      eapply Forall_impl; [|exact HF]. cbn. intros a [A [B C]]. auto. }
    subst cs. apply Nat.eqb_eq in Hl, Hnl. rewrite app_length in Hl. destruct more; [rewrite app_nil_r; reflexivity | cbn in Hl; lia].
  - apply app_eq_nil in Hn as [N1 N2]. apply app_eq_nil in N2 as [N2 N3].
    apply andb_true_iff in Hs as [Hs Hk]. apply andb_true_iff in Hs as [Hs Ht]. apply andb_true_iff in Hs as [Hs1 Hs2].
    destruct Hi as [r' [ps' [k' [-> [I1 [I2 I3]]]]]].
    destruct p2; try discriminate Ht. destruct I2 as [cs [-> I2]].
    destruct p3; try discriminate Hk. destruct names; [|discriminate]. destruct fields0; [|discriminate]. destruct variadic0; [discriminate|].
    destruct I3 as [cn [cs' [-> [I3 [more ->]]]]]. destruct cs'; [|cbn in I3; discriminate].
    cbn [concrete] in Hc. apply andb_true_iff in Hc as [Hc Hc3]. apply andb_true_iff in Hc as [Hc1 Hc2].
    apply andb_true_iff in Hc3 as [Hc3 _]. apply andb_true_iff in Hc3 as [_ Hc3]. apply Nat.eqb_eq in Hc3. cbn in Hc3. destruct more; [|discriminate].
    f_equal; auto. apply IHp2; auto. exists cs. auto.
  - destruct (String.eqb s "") eqn:E; [|discriminate]. rewrite andb_false_r in Hs. discriminate.
Qed.

Lemma meaning_type vs s t : meaning vs s = Some (BType t) -> find_raw vs s = Some t.
Proof.
  unfold meaning. destruct (find vs s) as [u|] eqn:E; [|discriminate]. cbn. intros H. injection H as H.
  destruct u; cbn in H; try discriminate; injection H as <-; apply find_raw_of; auto.
Qed.
Lemma meaning_dim vs s d : meaning vs s = Some (BDim d) -> exists f, find vs s = Some (put1 d f).
Proof.
  unfold meaning. destruct (find vs s) as [u|] eqn:E; [|discriminate]. cbn. intros H. injection H as H.
  destruct u as [| |n e|e| | | | | | | | | | | | | | |]; cbn in H; try discriminate; injection H as <-; exists e; reflexivity.
Qed.
Lemma meaning_frag vs s fs : meaning vs s = Some (BFrag fs) -> exists l, find vs s = Some (TDimFragment l) /\ fs = map dim_of_tag l.
Proof.
  unfold meaning. destruct (find vs s) as [u|] eqn:E; [|discriminate]. cbn. intros H. injection H as H.
  destruct u; cbn in H; try discriminate; injection H as <-; eauto.
Qed.
Lemma rep_put d f ds : Forall (fun d' => d' = d) ds -> rep (List.length ds) (put1 d) f = put ds f.
Proof. induction 1 as [|d' ds -> H IH]; cbn; [reflexivity|]. fold (put ds f). rewrite IH. reflexivity. Qed.
Lemma names_nil_symbolic p : substitutable p = true -> symbolic p = false -> (symbolic p || match names p with [] => true | _ => false end) = true -> names p = [].
Proof. intros _ -> H. cbn in H. destruct (names p); [auto | discriminate]. Qed.
Lemma put_cons d ds t : put (d :: ds) t = put1 d (put ds t).
Proof. reflexivity. Qed.
Lemma Forall2_same l : Forall2 wider l l.
Proof. induction l; constructor; auto using wider_same. Qed.
Lemma wider_put1 d t t' : wider t t' -> wider (put1 d t) (put1 d t').
Proof. intros H. exact (wider_dims [d] [d] t t' (bc_refl [d]) H). Qed.
Lemma Rl_bc lin ds fs : Rl lin ds fs -> broadcasts_to ds fs.
Proof. destruct lin; cbn; [intros ->; apply bc_refl | auto]. Qed.
Definition is_option (t : ty) : bool := match t with TOption _ => true | _ => false end.
Lemma wider_option_head t t' : wider t t' -> is_option t' = true -> is_option t = true.
Proof.
  induction 1; cbn; intros Ho; auto; try discriminate.
  destruct fs as [|d fs]; [|destruct d; discriminate]. cbn in Ho.
  destruct H as [pre [tail [E F]]]. symmetry in E. apply app_eq_nil in E as [-> ->]. inversion F; subst. auto.
Qed.
Lemma wider_tuple_inv l l' : wider (TTuple l false) (TTuple l' false) -> Forall2 wider l l'.
Proof.
  intros H. remember (TTuple l false) as a eqn:Ea. remember (TTuple l' false) as b eqn:Eb. revert l l' Ea Eb.
  induction H; intros m m' Ea Eb; try discriminate.
  - subst t. injection Eb as ->. apply Forall2_same.
  - destruct fs as [|[k|] fs]; [|discriminate Eb..]. destruct H as [pre [tail [E F]]]. symmetry in E. apply app_eq_nil in E as [-> ->]. inversion F; subst. auto.
  - injection Ea as ->. injection Eb as ->. auto.
Qed.
Lemma make_option_ok t : is_option t = false -> make_option t = Ok (TOption t).
Proof. destruct t; cbn; auto; discriminate. Qed.

Definition Subst (lin : bool) (p : ty) : Prop :=
  forall c vs, substitutable p = true -> concrete c = true -> vars_ok vs -> inst (Rl lin) (meaning vs) p c ->
    exists c', subst true vs p = Ok c' /\ wider c c' /\ (lin = true -> c' = c).
Lemma subst_fields_ok lin vs ps : vars_ok vs -> Forall (Subst lin) ps -> forall cs, forallb substitutable ps = true -> forallb concrete cs = true ->
  inst_fields (Rl lin) (meaning vs) false ps cs ->
  exists cs', subst_fields true vs ps = Ok cs' /\ Forall2 wider cs cs' /\ (lin = true -> cs' = cs).
Proof.
  intros Hv. induction 1 as [|p ps Hp Hps IH]; intros [|c cs] Hs Hc Hi; cbn in Hi; try discriminate; try contradiction.
  - exists []. auto.
  - cbn in Hs, Hc. apply andb_true_iff in Hs as [S1 S2]. apply andb_true_iff in Hc as [C1 C2]. destruct Hi as [I1 I2].
    destruct (Hp c vs S1 C1 Hv I1) as [c' [E [W L]]]. destruct (IH cs S2 C2 I2) as [cs' [E' [W' L']]].
    exists (c' :: cs'). change (subst_fields true vs (p :: ps)) with (do x <- subst true vs p; do r <- subst_fields true vs ps; Ok (x :: r)).
    rewrite E. cbn [bind]. rewrite E'. cbn [bind]. repeat split; auto.
    intros Hl. rewrite L, L' by auto. reflexivity.
Qed.
Lemma subst_nonsym vs p : symbolic p = false -> (forall r ps k, p <> TCallable r ps k) -> subst true vs p = Ok p.
Proof. intros H N. destruct p; cbn [subst symbolic] in *; try discriminate H; try rewrite H; try reflexivity. destruct (N p1 p2 p3 eq_refl). Qed.
Lemma existsb_false_subst lin vs ps : forall cs, forallb substitutable ps = true -> flat_map names ps = [] -> forallb concrete cs = true ->
  inst_fields (Rl lin) (meaning vs) false ps cs -> cs = ps.
Proof.
  intros cs Hs Hn Hc Hi. apply (inst_fields_ground (Rl lin) (meaning vs) ps cs); auto.
  pose proof (forallb_Forall' _ _ Hs) as F1. pose proof (flat_map_nil _ _ Hn) as F2. clear - F1 F2.
  induction F1; constructor; inversion F2; subst; auto. intros c Hc Hi. eapply ground; eauto.
Qed.

Lemma subst_sound lin : forall p, Subst lin p.
Proof.
  induction p using ty_ind'; intros c vs Hs Hc Hv Hi; cbn [substitutable] in Hs; try discriminate.
  - cbn in Hi. subst c. exists (TBuiltin b). repeat split; auto using wider_same.
  - cbn in Hi. subst c. exists (TLeaf l). repeat split; auto using wider_same.
  - apply andb_true_iff in Hs as [Hs Hcov]. cbn [inst] in Hi. destruct Hi as [f [-> Hi]]. cbn in Hc. apply andb_true_iff in Hc as [_ Hc].
    cbn [subst symbolic]. destruct (symbolic p) eqn:Esy; cbn [negb andb].
    + destruct (IHp f vs Hs Hc Hv Hi) as [c' [E [W L]]]. rewrite E. cbn [bind]. exists (TFixedDim n c'). repeat split; [exact (wider_put1 (DFixed n) _ _ W)|]. intros Hl. rewrite L; auto.
    + pose proof (ground _ _ p f Hs ltac:(cbn in Hcov; destruct (names p); [auto|discriminate]) Hc Hi) as ->. exists (TFixedDim n p). repeat split; auto using wider_same.
  - apply andb_true_iff in Hs as [Hs Hcov]. cbn [inst] in Hi. destruct Hi as [f [-> Hi]]. cbn in Hc.
    cbn [subst symbolic]. destruct (symbolic p) eqn:Esy; cbn [negb andb].
    + destruct (IHp f vs Hs Hc Hv Hi) as [c' [E [W L]]]. rewrite E. cbn [bind]. exists (TVarDim c'). repeat split; [exact (wider_put1 DVar _ _ W)|]. intros Hl. rewrite L; auto.
    + pose proof (ground _ _ p f Hs ltac:(cbn in Hcov; destruct (names p); [auto|discriminate]) Hc Hi) as ->. exists (TVarDim p). repeat split; auto using wider_same.
  - apply andb_true_iff in Hs as [Hs Hcov]. cbn [inst] in Hi. destruct Hi as [f [-> Hi]]. cbn in Hc.
    cbn [subst symbolic]. destruct (symbolic p) eqn:Esy; cbn [negb andb].
    + destruct (IHp f vs Hs Hc Hv Hi) as [c' [E [W L]]]. rewrite E. cbn [bind]. exists (TPointer c'). repeat split; [constructor; auto|]. intros Hl. rewrite L; auto.
    + pose proof (ground _ _ p f Hs ltac:(cbn in Hcov; destruct (names p); [auto|discriminate]) Hc Hi) as ->. exists (TPointer p). repeat split; auto using wider_same.
  - apply andb_true_iff in Hs as [Hs Hcov]. cbn [inst] in Hi. destruct Hi as [f [-> Hi]]. cbn [concrete] in Hc. apply andb_true_iff in Hc as [Hc Hno].
    assert (Hno' : is_option f = false) by (destruct f; [auto..]; discriminate).
    cbn [subst symbolic]. destruct (symbolic p) eqn:Esy; cbn [negb andb].
    + destruct (IHp f vs Hs Hc Hv Hi) as [c' [E [W L]]]. rewrite E. cbn [bind]. rewrite make_option_ok.
      * exists (TOption c'). repeat split; [constructor; auto|]. intros Hl. rewrite L; auto.
      * destruct (is_option c') eqn:Eo; auto. rewrite (wider_option_head _ _ W Eo) in Hno'. discriminate.
    + pose proof (ground _ _ p f Hs ltac:(cbn in Hcov; destruct (names p); [auto|discriminate]) Hc Hi) as ->. exists (TOption p). repeat split; auto using wider_same.
  - apply andb_true_iff in Hs as [Hs Hcov]. apply andb_true_iff in Hs as [Hvd Hs]. destruct v; [discriminate|].
    cbn [inst] in Hi. destruct Hi as [cs [-> Hi]]. cbn [concrete negb andb] in Hc.
    change (subst true vs (TTuple l false)) with (if negb (symbolic (TTuple l false)) && true then Ok (TTuple l false) else do l' <- subst_fields true vs l; Ok (TTuple l' false)).
    destruct (symbolic (TTuple l false)) eqn:Esy; cbn [negb andb].
    + destruct (subst_fields_ok lin vs l Hv H cs Hs Hc Hi) as [cs' [E [W L]]]. rewrite E. cbn [bind]. exists (TTuple cs' false).
      repeat split; [constructor; auto|]. intros Hl. rewrite L; auto.
    + assert (E : cs = l).
      { apply (existsb_false_subst lin vs l cs); auto. cbn [names orb] in Hcov. destruct (flat_map names l); [auto | discriminate]. }
      subst cs. exists (TTuple l false). repeat split; auto using wider_same.
  - apply andb_true_iff in Hs as [Hs Hcov]. apply andb_true_iff in Hs as [Hvd Hs]. apply andb_true_iff in Hvd as [Hvd Hnl]. destruct v; [discriminate|].
    cbn [inst] in Hi. destruct Hi as [cn [cs [-> [Hi [more ->]]]]]. cbn [concrete negb andb] in Hc. apply andb_true_iff in Hc as [Hl Hc].
    change (subst true vs (TStruct n l false)) with (if negb (symbolic (TStruct n l false)) && true then Ok (TStruct n l false) else do l' <- subst_fields true vs l; Ok (TStruct n l' false)).
    assert (Hlen : List.length l = List.length cs).
    { clear - Hi. revert cs Hi. induction l as [|p l IH]; intros [|c cs] Hi; cbn in *; try discriminate; try contradiction; auto. destruct Hi as [_ Hi]. f_equal. auto. }
    apply Nat.eqb_eq in Hl, Hnl. rewrite app_length in Hl. assert (more = []) by (destruct more; [auto | cbn in Hl; lia]). subst more. rewrite app_nil_r in *.
    destruct (symbolic (TStruct n l false)) eqn:Esy; cbn [negb andb].
    + destruct (subst_fields_ok lin vs l Hv H cs Hs Hc Hi) as [cs' [E [W L]]]. rewrite E. cbn [bind]. exists (TStruct n cs' false).
      repeat split; [constructor; auto|]. intros Hl'. rewrite L; auto.
    + assert (E : cs = l).
      { apply (existsb_false_subst lin vs l cs); auto. cbn [names orb] in Hcov. destruct (flat_map names l); [auto | discriminate]. }
      subst cs. exists (TStruct n l false). repeat split; auto using wider_same.
  - apply andb_true_iff in Hs as [Hs Hk]. apply andb_true_iff in Hs as [Hs Ht]. apply andb_true_iff in Hs as [Hs1 Hs2].
    destruct Hi as [r' [ps' [k' [-> [I1 [I2 I3]]]]]].
    destruct p2 as [| | | | | |pl pv| | | | | | | | | | | |]; try discriminate Ht. pose proof I2 as I2'. destruct I2 as [cs [-> I2]].
    destruct p3 as [| | | | | | |sn sl sv| | | | | | | | | | |]; try discriminate Hk. destruct sn; [|discriminate]. destruct sl; [|discriminate]. destruct sv; [discriminate|].
    destruct I3 as [cn [cs' [-> [I3 [more ->]]]]]. destruct cs'; [|cbn in I3; discriminate].
    cbn [concrete] in Hc. apply andb_true_iff in Hc as [Hc Hc3]. apply andb_true_iff in Hc as [Hc1 Hc2].
    apply andb_true_iff in Hc3 as [Hc3 _]. apply andb_true_iff in Hc3 as [_ Hc3]. apply Nat.eqb_eq in Hc3. cbn in Hc3. destruct more; [|discriminate].
    destruct (IHp1 r' vs Hs1 Hc1 Hv I1) as [c1 [E1 [W1 L1]]].
    assert (Q : exists l', subst true vs (TTuple pl pv) = Ok (TTuple l' false) /\ Forall2 wider cs l' /\ (lin = true -> l' = cs)).
    { pose proof Hs2 as Hs2'. cbn [substitutable] in Hs2. apply andb_true_iff in Hs2 as [Hs2 Hcov]. apply andb_true_iff in Hs2 as [Hvd Hs2]. destruct pv; [discriminate|].
      destruct (IHp2 (TTuple cs false) vs Hs2' Hc2 Hv I2') as [x [E [W L]]]. clear IHp2.
      assert (Q : exists l', x = TTuple l' false).
      { revert E. change (subst true vs (TTuple pl false)) with (if negb (symbolic (TTuple pl false)) && true then Ok (TTuple pl false) else do l' <- subst_fields true vs pl; Ok (TTuple l' false)).
        destruct (negb (symbolic (TTuple pl false)) && true); intros E; [injection E as <-; eauto|].
        destruct (subst_fields true vs pl); cbn in E; try discriminate. injection E as <-. eauto. }
      destruct Q as [l' ->]. exists l'. split; [exact E|]. split; [exact (wider_tuple_inv _ _ W)|]. intros HL. specialize (L HL). injection L as ->. reflexivity. }
    destruct Q as [l' [E2 [W2 L2]]].
    change (subst true vs (TCallable p1 (TTuple pl pv) (TStruct [] [] false))) with
      (do r' <- subst true vs p1; do ps' <- subst true vs (TTuple pl pv); match ps' with TTuple _ v => Ok (TCallable r' ps' (TStruct [] [] v)) | _ => Throw "invalid_argument" end).
    rewrite E1, E2. cbn [bind app]. exists (TCallable c1 (TTuple l' false) (TStruct [] [] false)). repeat split; [constructor; auto|].
    intros Hl. rewrite L1, L2 by auto. reflexivity.
  - cbn [inst] in Hi. destruct Hi as [Hi Hz]. pose proof (meaning_type _ _ _ Hi) as Hr. cbn [subst symbolic negb andb]. rewrite Hr, Hz. cbn [Z.eqb negb orb].
    rewrite (concrete_not_symbolic c Hc). cbn. exists c. repeat split; auto using wider_same.
  - cbn [inst] in Hi. destruct Hi as [d [f [Hg [-> Hi]]]]. destruct (meaning_dim _ _ _ Hg) as [u Hu]. pose proof (Hv _ _ Hu) as Ho.
    assert (Hcu : concrete (put1 d u) = true) by (destruct d; cbn [put1 entry_ok] in Ho; apply andb_true_iff in Ho as [Ho _]; exact Ho).
    assert (Hcf : concrete f = true) by (apply (concrete_put [d] f); exact Hc).
    destruct (IHp f vs Hs Hcf Hv Hi) as [c' [E [W L]]].
    cbn [subst symbolic negb andb]. rewrite (find_raw_of _ _ _ Hu).
    assert (Hn : (ndim (put1 d u) =? 0) = false) by (pose proof (ndim_nonneg u); apply Z.eqb_neq; destruct d; cbn [put1 ndim]; lia).
    rewrite Hn, (concrete_not_symbolic _ Hcu). cbn [negb orb].
    exists (put1 d c'). rewrite E. repeat split; [destruct d; reflexivity | apply wider_put1; auto |]. intros Hl. rewrite L; auto.
  - apply andb_true_iff in Hs as [Hs Hne]. apply negb_true_iff in Hne. cbn [inst] in Hi. destruct Hi as [ds [f [-> [Hi Hfr]]]].
    destruct (Hfr ltac:(apply String.eqb_neq; auto)) as [fs [Hg HR]]. destruct (meaning_frag _ _ _ Hg) as [l [Hl ->]].
    pose proof (Hv _ _ Hl) as Ho. cbn [entry_ok] in Ho. destruct (concrete_put ds f Hc) as [Hcf _].
    destruct (IHp f vs Hs Hcf Hv Hi) as [c' [E [W L]]].
    cbn [subst symbolic negb andb]. rewrite Hne, (find_raw_of _ _ _ Hl), E. cbn [bind]. rewrite apply_frag_put by auto.
    exists (put (map dim_of_tag l) c'). repeat split; [apply wider_dims; eauto using Rl_bc|]. intros HL. subst lin. cbn in HR. rewrite L by auto. rewrite HR. reflexivity.
  - apply andb_true_iff in Hs as [Hs Hb]. cbn [inst] in Hi. destruct Hi as [ds [f [-> [Hi [Hg Hds]]]]].
    destruct (meaning_dim _ _ _ Hg) as [u Hu]. cbn [put1] in Hu. destruct (concrete_put ds f Hc) as [Hcf _].
    destruct (IHp2 f vs Hs Hcf Hv Hi) as [c' [E [W L]]].
    cbn [subst symbolic negb andb]. rewrite (find_raw_of _ _ _ Hu). cbn [bind fst snd].
    destruct (Z.eqb_spec (Z.of_nat (List.length ds)) 0) as [E0|E0].
    + destruct ds; [|cbn in E0; lia]. rewrite E. exists c'. auto.
    + assert (Hne : ds <> []) by (intros ->; apply E0; reflexivity). specialize (Hds Hne).
      assert (HB : exists d b, (match p1 with
                | TTypevarDim s' _ =>
                    match find_raw vs s' with
                    | None => if true then Throw "invalid_argument" else Ok p1
                    | Some t => if (0 <? ndim t) && negb (match t with TDimFragment _ => true | _ => false end)
                                then Ok t else Throw "invalid_argument"
                    end
                | _ => Ok p1
                end) = Ok b /\ (exists u, b = put1 d u) /\ Forall (fun d' => d' = d) ds).
      { destruct p1; try discriminate Hb.
        - exists (DFixed n), (TFixedDim n p1). repeat split; eauto. exists p1. reflexivity.
        - exists DVar, (TVarDim p1). split; [reflexivity|]. split; [exists p1; reflexivity | exact Hds].
        - destruct Hds as [d [Hd Hall]]. destruct (meaning_dim _ _ _ Hd) as [w Hw]. rewrite (find_raw_of _ _ _ Hw).
          exists d, (put1 d w). split; [|split; eauto].
          assert (Hn : (0 <? ndim (put1 d w)) = true) by (pose proof (ndim_nonneg w); apply Z.ltb_lt; destruct d; cbn [put1 ndim]; lia).
          rewrite Hn. destruct d; reflexivity. }
      destruct HB as [d [b [HB1 [[w ->] HB2]]]]. rewrite HB1. cbn [bind]. rewrite E. cbn [bind].
      destruct (Z.ltb_spec (Z.of_nat (List.length ds)) 0); [lia|]. rewrite Nat2Z.id.
      exists (put ds c'). repeat split.
      * destruct d; cbn [put1 apply_pow]; f_equal; [exact (rep_put (DFixed n) c' ds HB2) | exact (rep_put DVar c' ds HB2)].
      * apply wider_dims; auto using bc_refl.
      * intros Hl. rewrite L; auto.
Qed.
