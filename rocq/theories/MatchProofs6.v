(** Matching a type with itself, and what substitution returns. *)
From Verif Require Import Base TypesModel MatchModel MatchSpec MatchProofs MatchProofs2 MatchProofs3 MatchProofs4.
Local Open Scope string_scope.
Local Open Scope Z_scope.

Lemma list_eqb_firstn_self (n : list string) : list_eqb String.eqb n (firstn (List.length n) n) = true.
Proof. rewrite firstn_all. apply (list_eqb_eq _ String.eqb_eq). reflexivity. Qed.
Lemma match_same_fields l : Forall (fun c => forall vs, concrete c = true -> match_ c c vs = Ok (true, vs)) l ->
  forall vs, forallb concrete l = true -> match_fields l l vs = Ok (true, vs).
Proof.
  induction 1 as [|c l Hc Hl IH]; intros vs H; [reflexivity|]. cbn [forallb] in H. apply andb_true_iff in H as [H1 H2].
  cbn [match_fields]. rewrite Hc by auto. cbn [bind fst snd]. apply IH; auto.
Qed.
Lemma match_same c : forall vs, concrete c = true -> match_ c c vs = Ok (true, vs).
Proof.
  induction c using ty_ind'; intros vs Hc; try discriminate Hc.
  - cbn. f_equal. f_equal. destruct b; reflexivity.
  - cbn. f_equal. f_equal. apply leaf_eqb_eq. reflexivity.
  - cbn in Hc. apply andb_true_iff in Hc as [_ Hc]. cbn. rewrite Z.eqb_refl. auto.
  - cbn in *. auto.
  - cbn in *. auto.
  - cbn in Hc. apply andb_true_iff in Hc as [Hc _]. cbn. auto.
  - cbn [concrete] in Hc. apply andb_true_iff in Hc as [Hv Hc]. destruct v; [discriminate|].
    change (match_ (TTuple l false) (TTuple l false) vs) with
      (if ((List.length l =? List.length l)%nat && negb false) || ((List.length l <=? List.length l)%nat && false) then match_fields l l vs else Ok (false, vs)).
    rewrite Nat.eqb_refl. cbn [negb andb orb]. apply match_same_fields; auto.
  - cbn [concrete] in Hc. apply andb_true_iff in Hc as [Hv Hc]. apply andb_true_iff in Hv as [Hv _]. destruct v; [discriminate|].
    change (match_ (TStruct n l false) (TStruct n l false) vs) with
      (if ((List.length l =? List.length l)%nat && negb false) || ((List.length l <=? List.length l)%nat && false)
       then if list_eqb String.eqb n (firstn (List.length n) n) then match_fields l l vs else Ok (false, vs) else Ok (false, vs)).
    rewrite Nat.eqb_refl, list_eqb_firstn_self. cbn [negb andb orb]. apply match_same_fields; auto.
  - assert (Hc' : concrete c1 = true /\ concrete c2 = true /\ concrete c3 = true).
    { destruct c2; try discriminate. destruct c3; try discriminate. cbn [concrete] in Hc. apply andb_true_iff in Hc as [Hc Hc3]. apply andb_true_iff in Hc as [Hc1 Hc2]. auto. }
    destruct Hc' as [H1 [H2 H3]]. cbn [match_]. rewrite IHc1 by auto. cbn [bind fst snd]. rewrite IHc2 by auto. cbn [bind fst snd]. auto.
Qed.

Lemma match_only_fields l : Forall (fun p => forall c vs vs', concrete p = true -> concrete c = true -> match_ p c vs = Ok (true, vs') -> p = c) l ->
  forall m vs vs', forallb concrete l = true -> forallb concrete m = true -> List.length l = List.length m -> match_fields l m vs = Ok (true, vs') -> l = m.
Proof.
  induction 1 as [|p l Hp Hl IH]; intros [|c m] vs vs' H1 H2 Hlen Hm; try discriminate Hlen; [reflexivity|].
  cbn [forallb] in H1, H2. apply andb_true_iff in H1 as [A1 A2]. apply andb_true_iff in H2 as [B1 B2].
  cbn [match_fields] in Hm. apply bind_ok in Hm as [[b v] [M1 M2]]. cbn [fst snd] in M2. destruct b; [|discriminate].
  f_equal; [eapply Hp; eauto | eapply IH; eauto].
Qed.
Lemma match_only p : forall c vs vs', concrete p = true -> concrete c = true -> match_ p c vs = Ok (true, vs') -> p = c.
Proof.
  induction p using ty_ind'; intros c vs vs' Hp Hc Hm; try discriminate Hp.
  - cbn in Hm. destruct c; try discriminate. injection Hm as Hm _. destruct b, b0; try discriminate; reflexivity.
  - cbn in Hm. destruct c; try discriminate. injection Hm as Hm _. apply leaf_eqb_eq in Hm as ->. reflexivity.
  - cbn in Hp, Hm. destruct c; try discriminate. cbn in Hc. apply andb_true_iff in Hp as [_ Hp]. apply andb_true_iff in Hc as [_ Hc].
    destruct (Z.eqb_spec n n0) as [->|]; [|discriminate]. f_equal. eauto.
  - cbn in Hp, Hm. destruct c; try discriminate. cbn in Hc. f_equal. eauto.
  - cbn in Hp, Hm. destruct c; try discriminate. cbn in Hc. f_equal. eauto.
  - cbn in Hp, Hm. destruct c; try discriminate. cbn in Hc. apply andb_true_iff in Hp as [Hp _]. apply andb_true_iff in Hc as [Hc _]. f_equal. eauto.
  - cbn [concrete] in Hp. apply andb_true_iff in Hp as [Hv Hp]. destruct v; [discriminate|]. destruct c; try discriminate Hm.
    change (match_ (TTuple l false) (TTuple fields variadic) vs) with
      (if ((List.length l =? List.length fields)%nat && negb variadic) || ((List.length l <=? List.length fields)%nat && false) then match_fields l fields vs else Ok (false, vs)) in Hm.
    cbn [concrete] in Hc. apply andb_true_iff in Hc as [Hv2 Hc]. destruct variadic; [discriminate|].
    rewrite andb_true_r, andb_false_r, orb_false_r in Hm. destruct (Nat.eqb_spec (List.length l) (List.length fields)) as [E|]; [|discriminate].
    f_equal. eapply match_only_fields; eauto.
  - cbn [concrete] in Hp. apply andb_true_iff in Hp as [Hv Hp]. apply andb_true_iff in Hv as [Hv Hn]. destruct v; [discriminate|]. destruct c; try discriminate Hm.
    change (match_ (TStruct n l false) (TStruct names fields variadic) vs) with
      (if ((List.length l =? List.length fields)%nat && negb variadic) || ((List.length l <=? List.length fields)%nat && false)
       then if list_eqb String.eqb n (firstn (List.length n) names) then match_fields l fields vs else Ok (false, vs) else Ok (false, vs)) in Hm.
    cbn [concrete] in Hc. apply andb_true_iff in Hc as [Hv2 Hc]. apply andb_true_iff in Hv2 as [Hv2 Hn2]. destruct variadic; [discriminate|].
    rewrite andb_true_r, andb_false_r, orb_false_r in Hm. destruct (Nat.eqb_spec (List.length l) (List.length fields)) as [E|]; [|discriminate].
    destruct (list_eqb eqb n (firstn (List.length n) names)) eqn:En; [|discriminate]. apply (list_eqb_eq _ String.eqb_eq) in En.
    apply Nat.eqb_eq in Hn, Hn2. rewrite En at 1. rewrite firstn_all2 by lia. f_equal. eapply match_only_fields; eauto.
  - destruct c; try discriminate Hm.
    assert (HP : concrete p1 = true /\ concrete p2 = true /\ concrete p3 = true).
    { destruct p2; try discriminate Hp. destruct p3; try discriminate Hp. cbn [concrete] in Hp. apply andb_true_iff in Hp as [Hp Hp3]. apply andb_true_iff in Hp as [Hp1 Hp2]. auto. }
    assert (HC : concrete c1 = true /\ concrete c2 = true /\ concrete c3 = true).
    { destruct c2; try discriminate Hc. destruct c3; try discriminate Hc. cbn [concrete] in Hc. apply andb_true_iff in Hc as [Hc Hc3]. apply andb_true_iff in Hc as [Hc1 Hc2]. auto. }
    destruct HP as [P1 [P2 P3]]. destruct HC as [C1 [C2 C3]]. cbn [match_] in Hm.
    apply bind_ok in Hm as [[b1 v1] [M1 Hm]]. cbn [fst snd] in Hm. destruct b1; [|discriminate].
    apply bind_ok in Hm as [[b2 v2] [M2 M3]]. cbn [fst snd] in M3. destruct b2; [|discriminate].
    f_equal; eauto.
Qed.

(** ** The result of substitution is not symbolic *)
Definition bound (vs : env) (ns : list string) : Prop := forall s, In s ns -> exists t, find vs s = Some t.
Lemma symbolic_put ds t : symbolic (put ds t) = symbolic t.
Proof. induction ds as [|[n|] ds IH]; cbn; auto. Qed.
Lemma symbolic_rep n f t : (forall t, symbolic (f t) = symbolic t) -> symbolic (rep n f t) = symbolic t.
Proof. intros H. induction n; cbn; [auto|]. rewrite H. auto. Qed.
Lemma find_raw_entry vs s t : vars_ok vs -> find_raw vs s = Some t -> is_null t = false -> entry_ok t = true.
Proof. intros H E N. apply (H s). unfold find. rewrite E, N. reflexivity. Qed.
Definition NonSym (p : ty) : Prop :=
  forall vs c, vars_ok vs -> bound vs (exponents p) -> subst true vs p = Ok c -> symbolic c = false.
Lemma nonsym_fields vs ps : vars_ok vs -> Forall NonSym ps -> forall cs, bound vs (flat_map exponents ps) -> subst_fields true vs ps = Ok cs -> existsb symbolic cs = false.
Proof.
  intros Hv. induction 1 as [|p ps Hp Hps IH]; intros cs Hb H.
  - cbn in H. injection H as <-. reflexivity.
  - change (subst_fields true vs (p :: ps)) with (do x <- subst true vs p; do r <- subst_fields true vs ps; Ok (x :: r)) in H.
    apply bind_ok in H as [x [H1 H]]. apply bind_ok in H as [r [H2 H]]. injection H as <-. cbn [existsb].
    rewrite (Hp vs x Hv) by (auto; intros s Hs; apply Hb; cbn; apply in_or_app; auto). cbn [orb].
    apply IH; auto. intros s Hs. apply Hb. cbn. apply in_or_app. auto.
Qed.
Lemma subst_nonsymbolic : forall p, NonSym p.
Proof.
  induction p using ty_ind'; intros vs c Hv Hb H0; cbn [exponents] in Hb.
  - cbn in H0. injection H0 as <-. reflexivity.
  - cbn in H0. injection H0 as <-. reflexivity.
  - cbn [subst symbolic] in H0. destruct (symbolic p) eqn:E; cbn [negb andb] in H0; [|injection H0 as <-; exact E].
    apply bind_ok in H0 as [x [H1 H0]]. injection H0 as <-. cbn. eauto.
  - cbn [subst symbolic] in H0. destruct (symbolic p) eqn:E; cbn [negb andb] in H0; [|injection H0 as <-; exact E].
    apply bind_ok in H0 as [x [H1 H0]]. injection H0 as <-. cbn. eauto.
  - cbn [subst symbolic] in H0. destruct (symbolic p) eqn:E; cbn [negb andb] in H0; [|injection H0 as <-; exact E].
    apply bind_ok in H0 as [x [H1 H0]]. injection H0 as <-. cbn. eauto.
  - cbn [subst symbolic] in H0. destruct (symbolic p) eqn:E; cbn [negb andb] in H0; [|injection H0 as <-; exact E].
    apply bind_ok in H0 as [x [H1 H0]]. destruct x; cbn in H0; try discriminate; injection H0 as <-; cbn [symbolic]; apply (IHp vs _ Hv Hb H1).
  - change (subst true vs (TTuple l v)) with (if negb (symbolic (TTuple l v)) && true then Ok (TTuple l v) else do l' <- subst_fields true vs l; Ok (TTuple l' false)) in H0.
    destruct (symbolic (TTuple l v)) eqn:E; cbn [negb andb] in H0; [|injection H0 as <-; exact E].
    apply bind_ok in H0 as [x [H1 H0]]. injection H0 as <-. cbn [symbolic orb]. eapply nonsym_fields; eauto.
  - change (subst true vs (TStruct n l v)) with (if negb (symbolic (TStruct n l v)) && true then Ok (TStruct n l v) else do l' <- subst_fields true vs l; Ok (TStruct n l' false)) in H0.
    destruct (symbolic (TStruct n l v)) eqn:E; cbn [negb andb] in H0; [|injection H0 as <-; exact E].
    apply bind_ok in H0 as [x [H1 H0]]. injection H0 as <-. cbn [symbolic orb]. eapply nonsym_fields; eauto.
  - cbn [subst symbolic negb andb] in H0. destruct p3; try discriminate. destruct fields; try discriminate.
    apply bind_ok in H0 as [x [H1 H0]]. apply bind_ok in H0 as [y [H2 H0]]. destruct y; try discriminate. injection H0 as <-. reflexivity.
  - discriminate.
  - discriminate.
  - discriminate.
  - discriminate.
  - discriminate.
  - cbn [subst symbolic negb andb] in H0. destruct (find_raw vs s) as [t|] eqn:E; [|discriminate].
    destruct (ndim t =? 0); cbn [negb] in H0; [|discriminate]. cbn [orb] in H0. destruct (symbolic t) eqn:Es; [discriminate|]. injection H0 as <-. exact Es.
  - cbn [subst symbolic negb andb] in H0. destruct (find_raw vs s) as [t|] eqn:E; [|discriminate].
    destruct (ndim t =? 0); [discriminate|]. cbn [negb orb] in H0. destruct (symbolic t) eqn:Es; [discriminate|]. cbn [negb] in H0.
    destruct t; try discriminate; apply bind_ok in H0 as [x [H1 H0]]; injection H0 as <-; cbn; eauto.
  - cbn [subst symbolic negb andb] in H0. destruct (String.eqb s ""); [discriminate|]. destruct (find_raw vs s) as [t|] eqn:E; [|discriminate].
    destruct t; try discriminate. apply bind_ok in H0 as [x [H1 H0]]. injection H0 as <-.
    rewrite apply_frag_put by (exact (find_raw_entry vs s _ Hv E eq_refl)). rewrite symbolic_put. eauto.
  - assert (Hb2 : bound vs (exponents p2)) by (intros s' Hs'; apply Hb; right; auto).
    destruct (Hb s (or_introl eq_refl)) as [t Ht]. pose proof (Hv _ _ Ht) as Ho.
    cbn [subst symbolic negb andb] in H0. rewrite (find_raw_of _ _ _ Ht) in H0.
    destruct t; cbn [bind] in H0; try discriminate. cbn [fst snd] in H0.
    assert (Hn : 0 <= n) by (cbn in Ho; apply andb_true_iff in Ho as [Ho _]; apply andb_true_iff in Ho as [Ho _]; apply Z.leb_le; auto).
    destruct (Z.eqb_spec n 0); [eauto|]. apply bind_ok in H0 as [b [Hbase H0]]. apply bind_ok in H0 as [x [Hx H0]].
    destruct (Z.ltb_spec n 0); [lia|]. pose proof (IHp2 vs x Hv Hb2 Hx) as Hsx.
    assert (HB : match b with TTypevarDim _ _ => False | _ => True end).
    { destruct p1; try (injection Hbase as <-; exact I). destruct (find_raw vs name) as [u|] eqn:Eu; [|discriminate].
      destruct ((0 <? ndim u) && negb match u with TDimFragment _ => true | _ => false end); [|discriminate]. injection Hbase as <-.
      destruct u; try exact I. pose proof (find_raw_entry vs name _ Hv Eu eq_refl) as Hu. discriminate Hu. }
    destruct b; cbn [apply_pow] in H0; try discriminate; try contradiction; injection H0 as <-; rewrite symbolic_rep; auto.
  - discriminate.
Qed.

(** ** Substituting nothing *)
Lemma subst_nil_fields ps : Forall (fun p => plain_pattern p = true -> subst false [] p = Ok p) ps ->
  forallb plain_pattern ps = true -> subst_fields false [] ps = Ok ps.
Proof.
  induction 1 as [|p ps Hp Hps IH]; intros H; [reflexivity|]. cbn [forallb] in H. apply andb_true_iff in H as [H1 H2].
  change (subst_fields false [] (p :: ps)) with (do x <- subst false [] p; do r <- subst_fields false [] ps; Ok (x :: r)).
  rewrite Hp, IH by auto. reflexivity.
Qed.
Lemma subst_nil p : plain_pattern p = true -> subst false [] p = Ok p.
Proof.
  induction p using ty_ind'; intros Hp; cbn [plain_pattern] in Hp; try discriminate; try reflexivity.
  - cbn [subst]. destruct (negb _ && _); [reflexivity|]. rewrite IHp by auto. reflexivity.
  - cbn [subst]. destruct (negb _ && _); [reflexivity|]. rewrite IHp by auto. reflexivity.
  - cbn [subst]. destruct (negb _ && _); [reflexivity|]. rewrite IHp by auto. reflexivity.
  - apply andb_true_iff in Hp as [Hp Ho]. cbn [subst]. destruct (negb _ && _); [reflexivity|]. rewrite IHp by auto. cbn [bind]. destruct p; try reflexivity; discriminate.
  - apply andb_true_iff in Hp as [Hv Hp]. destruct v; [discriminate|].
    change (subst false [] (TTuple l false)) with (if negb (symbolic (TTuple l false)) && true then Ok (TTuple l false) else do l' <- subst_fields false [] l; Ok (TTuple l' false)).
    destruct (negb _ && _); [reflexivity|]. rewrite subst_nil_fields by auto. reflexivity.
  - apply andb_true_iff in Hp as [Hv Hp]. destruct v; [discriminate|].
    change (subst false [] (TStruct n l false)) with (if negb (symbolic (TStruct n l false)) && true then Ok (TStruct n l false) else do l' <- subst_fields false [] l; Ok (TStruct n l' false)).
    destruct (negb _ && _); [reflexivity|]. rewrite subst_nil_fields by auto. reflexivity.
  - cbn [subst symbolic negb andb]. rewrite IHp by auto. reflexivity.
  - cbn [subst symbolic negb andb find_raw]. rewrite IHp by auto. reflexivity.
  - apply andb_true_iff in Hp as [Hn Hp]. apply negb_true_iff in Hn. cbn [subst symbolic negb andb find_raw]. rewrite Hn, IHp by auto. reflexivity.
  - apply andb_true_iff in Hp as [Hb Hp]. cbn [subst symbolic negb andb find_raw bind fst snd]. change (-1 =? 0) with false. cbv iota.
    destruct p1; try discriminate Hb; cbn [bind find_raw]; rewrite IHp2 by auto; cbn [bind]; change (-1 <? 0) with true; cbv iota;
      destruct p1; try discriminate Hb; destruct b; try discriminate Hb; reflexivity.
Qed.
