(** Soundness of matching. *)
From Verif Require Import Base TypesModel MatchModel MatchSpec MatchProofs.
Local Open Scope string_scope.
Local Open Scope Z_scope.

Definition tags_ok (l : list Z) : bool := forallb (fun g => -1 <=? g) l.
Lemma Forall2_repeat_none l : Forall2 (fun (o : option Z) g => o = None \/ o = Some g) (repeat None (List.length l)) l.
Proof. induction l; cbn; constructor; auto. Qed.
Lemma Forall2_map_some l : Forall2 (fun (o : option Z) g => o = None \/ o = Some g) (map Some l) l.
Proof. induction l; cbn; constructor; auto. Qed.
Lemma put_app a b t : put (a ++ b) t = put a (put b t).
Proof. unfold put. apply fold_right_app. Qed.
Lemma tags_from_app a b f : tags_from (List.length a) (put (a ++ b) f) = Ok (map tag_of a, put b f).
Proof. rewrite put_app. apply tags_from_put. Qed.
Lemma Forall_app_inv {A} (P : A -> Prop) a b : Forall P (a ++ b)%list -> Forall P a /\ Forall P b.
Proof. apply Forall_app. Qed.
Lemma finish_bc_inv pre r w : finish_bc pre r = Ok (Some w) -> exists l u, r = Some l /\ all_written l = Ok u /\ w = (pre ++ u)%list.
Proof.
  destruct r as [l|]; cbn; [|discriminate]. intros H. apply bind_ok in H as [u [H1 H2]]. injection H2 as <-. eauto.
Qed.
Lemma tags_ok_app a b : tags_ok (a ++ b) = tags_ok a && tags_ok b.
Proof. unfold tags_ok. apply forallb_app. Qed.
Lemma tags_ok_firstn n l : tags_ok l = true -> tags_ok (firstn n l) = true /\ tags_ok (skipn n l) = true.
Proof. intros H. rewrite <- (firstn_skipn n l), tags_ok_app in H. apply andb_true_iff in H. exact H. Qed.

Lemma broadcast_ok mine ds f w : tags_ok mine = true -> Forall dim_ok ds ->
  broadcast_with_type mine (List.length ds) (put ds f) = Ok (Some w) ->
  broadcasts_to ds (map dim_of_tag w) /\ broadcasts_to (map dim_of_tag mine) (map dim_of_tag w) /\ tags_ok w = true.
Proof.
  intros Hm Hd. unfold broadcast_with_type. destruct (Nat.eqb_spec (List.length ds) 0) as [E|E].
  { intros H. injection H as <-. destruct ds; [|discriminate]. repeat split; auto using bc_nil, bc_refl. }
  destruct (Nat.ltb_spec (List.length mine) (List.length ds)) as [L|L].
  - set (k := (List.length ds - List.length mine)%nat). intros H. rewrite <- (firstn_skipn k ds) in H at 1.
    assert (Hk : List.length (firstn k ds) = k) by (apply firstn_length_le; unfold k; lia).
    rewrite <- Hk in H at 1. rewrite tags_from_app in H. cbn [bind fst snd] in H.
    apply bind_ok in H as [r [H1 H2]]. apply finish_bc_inv in H2 as [l [u [-> [Hu ->]]]].
    rewrite <- (firstn_skipn k ds) in Hd. apply Forall_app_inv in Hd as [Hd1 Hd2].
    assert (Hlen : List.length mine = List.length (skipn k ds)) by (rewrite skipn_length; unfold k; lia).
    destruct (bc_tags_ok (skipn k ds) f mine _ l u Hlen Hd2 Hm (Forall2_repeat_none mine) H1 Hu) as [A [B C]].
    rewrite map_app, dims_of_tags_of by auto. split; [|split].
    + rewrite <- (firstn_skipn k ds) at 1. exists [], (firstn k ds ++ map dim_of_tag u)%list. split; [reflexivity|].
      apply Forall2_app; [apply Forall2_dim_refl | exact A].
    + apply bc_app. exists [], (map dim_of_tag u). split; [reflexivity | exact B].
    + rewrite tags_ok_app. apply andb_true_iff. split; [apply tags_ge; auto | exact C].
  - destruct (Nat.ltb_spec (List.length ds) (List.length mine)) as [L2|L2].
    + set (k := (List.length mine - List.length ds)%nat). intros H. apply bind_ok in H as [r [H1 H2]].
      apply finish_bc_inv in H2 as [l [u [-> [Hu ->]]]].
      destruct (tags_ok_firstn k mine Hm) as [Hm1 Hm2].
      assert (Hlen : List.length (skipn k mine) = List.length ds) by (rewrite skipn_length; unfold k; lia).
      pose proof (Forall2_repeat_none (skipn k mine)) as HR. rewrite Hlen in HR.
      destruct (bc_tags_ok ds f (skipn k mine) _ l u Hlen Hd Hm2 HR H1 Hu) as [A [B C]].
      rewrite map_app. split; [|split].
      * apply bc_app. exists [], (map dim_of_tag u). split; [reflexivity | exact A].
      * rewrite <- (firstn_skipn k mine) at 1. rewrite map_app. exists [], (map dim_of_tag (firstn k mine) ++ map dim_of_tag u)%list.
        split; [reflexivity|]. apply Forall2_app; [apply Forall2_dim_refl | exact B].
      * rewrite tags_ok_app. apply andb_true_iff. split; [exact Hm1 | exact C].
    + intros H. apply bind_ok in H as [r [H1 H2]]. apply finish_bc_inv in H2 as [l [u [-> [Hu ->]]]].
      assert (Hlen : List.length mine = List.length ds) by lia.
      destruct (bc_tags_ok ds f mine _ l u Hlen Hd Hm (Forall2_map_some mine) H1 Hu) as [A [B C]].
      cbn [app]. split; [|split]; auto; exists [], (map dim_of_tag u); auto.
Qed.

(** ** Variables that keep what they said *)
Definition Rl (lin : bool) : list dim -> list dim -> Prop := if lin then eq else broadcasts_to.
Definition brefines (lin : bool) (b b' : binding) : Prop := if lin then b = b' else refines b b'.
Definition ext (lin : bool) (vs vs' : env) : Prop :=
  forall s t, find vs s = Some t -> exists t', find vs' s = Some t' /\ brefines lin (entry t) (entry t').
Lemma refines_refl b : refines b b.
Proof. destruct b; cbn; auto using bc_refl. Qed.
Lemma refines_trans a b c : refines a b -> refines b c -> refines a c.
Proof. destruct a, b; cbn; intros H; try discriminate; try (injection H as ->); destruct c; cbn; intros; try discriminate; auto; eauto using bc_trans. Qed.
Lemma brefines_refl lin b : brefines lin b b.
Proof. destruct lin; cbn; auto using refines_refl. Qed.
Lemma ext_refl lin vs : ext lin vs vs.
Proof. intros s t H. exists t. auto using brefines_refl. Qed.
Lemma ext_trans lin a b c : ext lin a b -> ext lin b c -> ext lin a c.
Proof.
  intros H1 H2 s t H. destruct (H1 s t H) as [t1 [F1 R1]]. destruct (H2 s t1 F1) as [t2 [F2 R2]]. exists t2. split; auto.
  destruct lin; cbn in *; [congruence | eauto using refines_trans].
Qed.
Lemma ext_upd_new lin vs s t : find vs s = None -> is_null t = false -> ext lin vs (upd vs s t).
Proof.
  intros H N s' t' H'. rewrite find_upd by auto. destruct (String.eqb_spec s s') as [->|]; [congruence|].
  exists t'. auto using brefines_refl.
Qed.
Lemma meaning_ext lin vs vs' s b : ext lin vs vs' -> meaning vs s = Some b -> exists b', meaning vs' s = Some b' /\ brefines lin b b'.
Proof.
  unfold meaning. intros H E. destruct (find vs s) as [t|] eqn:F; [|discriminate]. cbn in E. injection E as <-.
  destruct (H s t F) as [t' [F' R]]. rewrite F'. cbn. eauto.
Qed.
Lemma meaning_ext_type lin vs vs' s t : ext lin vs vs' -> meaning vs s = Some (BType t) -> meaning vs' s = Some (BType t).
Proof. intros H E. destruct (meaning_ext _ _ _ _ _ H E) as [b' [E' R]]. destruct lin; cbn in R; [congruence|]. rewrite E'. f_equal. destruct b'; cbn in R; congruence. Qed.
Lemma meaning_ext_dim lin vs vs' s d : ext lin vs vs' -> meaning vs s = Some (BDim d) -> meaning vs' s = Some (BDim d).
Proof. intros H E. destruct (meaning_ext _ _ _ _ _ H E) as [b' [E' R]]. destruct lin; cbn in R; [congruence|]. rewrite E'. f_equal. destruct b'; cbn in R; congruence. Qed.
Lemma meaning_ext_frag lin vs vs' s fs ds : ext lin vs vs' -> meaning vs s = Some (BFrag fs) -> Rl lin ds fs ->
  exists fs', meaning vs' s = Some (BFrag fs') /\ Rl lin ds fs'.
Proof.
  intros H E R0. destruct (meaning_ext _ _ _ _ _ H E) as [b' [E' R]]. rewrite E'. destruct lin; cbn in *.
  - subst. eauto.
  - destruct b'; cbn in R; try discriminate. exists ds0. eauto using bc_trans.
Qed.

(** The fields of [inst], as a definition of its own. *)
Definition inst_fields (R : list dim -> list dim -> Prop) (g : assignment) (more : bool) :=
  fix fields (ps cs : list ty) : Prop :=
     match ps, cs with
     | [], [] => True
     | [], _ :: _ => more = true
     | p :: ps', c :: cs' => inst R g p c /\ fields ps' cs'
     | _ :: _, [] => False
     end.
Lemma inst_fields_mono R g R' g' more ps : Forall (fun p => forall c, inst R g p c -> inst R' g' p c) ps ->
  forall cs, inst_fields R g more ps cs -> inst_fields R' g' more ps cs.
Proof. induction 1 as [|p ps Hp Hps IH]; destruct cs as [|c cs]; cbn; auto. intros [A B]. auto. Qed.

Lemma inst_mono lin vs vs' : ext lin vs vs' -> forall p c, inst (Rl lin) (meaning vs) p c -> inst (Rl lin) (meaning vs') p c.
Proof.
  intros HE. induction p using ty_ind'; intros c Hi; cbn [inst] in *; auto.
  - destruct Hi as [f [-> Hi]]. eauto.
  - destruct Hi as [f [-> Hi]]. eauto.
  - destruct Hi as [f [-> Hi]]. eauto.
  - destruct Hi as [f [-> Hi]]. eauto.
  - destruct Hi as [cs [-> Hi]]. exists cs. split; auto. revert Hi. apply inst_fields_mono. exact H.
  - destruct Hi as [cn [cs [-> [Hi Hn]]]]. exists cn, cs. repeat split; auto. revert Hi. apply inst_fields_mono. exact H.
  - destruct Hi as [r' [ps' [k' [-> [H1 [H2 H3]]]]]]. exists r', ps', k'. auto.
  - destruct Hi as [n [f [-> Hi]]]. eauto.
  - destruct Hi as [d [f [-> Hi]]]. eauto.
  - destruct Hi as [H1 H2]. split; auto. eapply meaning_ext_type; eauto.
  - destruct Hi as [d [f [H1 [-> H2]]]]. exists d, f. repeat split; auto. eapply meaning_ext_dim; eauto.
  - destruct Hi as [ds [f [-> [H1 H2]]]]. exists ds, f. repeat split; auto. intros Hs. destruct (H2 Hs) as [fs [A B]].
    eapply meaning_ext_frag; eauto.
  - destruct Hi as [ds [f [-> [H1 [H2 H3]]]]]. exists ds, f. repeat split; auto.
    + eapply meaning_ext_dim; eauto.
    + intros Hd. specialize (H3 Hd). destruct p1; auto. destruct H3 as [d [A B]]. exists d. split; auto. eapply meaning_ext_dim; eauto.
Qed.
Lemma inst_noname R g g' : forall p c, names p = [] -> inst R g p c -> inst R g' p c.
Proof.
  assert (L : forall l, Forall (fun p => forall c, names p = [] -> inst R g p c -> inst R g' p c) l -> flat_map names l = [] ->
     Forall (fun p => forall c, inst R g p c -> inst R g' p c) l).
  { induction 1 as [|p l Hp Hl IH]; cbn; intros E; constructor; apply app_eq_nil in E as [E1 E2]; auto. }
  induction p using ty_ind'; intros c Hn Hi; cbn [inst names] in *; auto; try discriminate.
  - destruct Hi as [f [-> Hi]]. eauto.
  - destruct Hi as [f [-> Hi]]. eauto.
  - destruct Hi as [f [-> Hi]]. eauto.
  - destruct Hi as [f [-> Hi]]. eauto.
  - destruct Hi as [cs [-> Hi]]. exists cs. split; auto. revert Hi. apply inst_fields_mono. auto.
  - destruct Hi as [cn [cs [-> [Hi Hm]]]]. exists cn, cs. repeat split; auto. revert Hi. apply inst_fields_mono. auto.
  - apply app_eq_nil in Hn as [N1 N2]. apply app_eq_nil in N2 as [N2 N3].
    destruct Hi as [r' [ps' [k' [-> [H1 [H2 H3]]]]]]. exists r', ps', k'. auto.
  - destruct Hi as [n [f [-> Hi]]]. eauto.
  - destruct Hi as [d [f [-> Hi]]]. eauto.
  - destruct (String.eqb_spec s "") as [->|]; [|discriminate].
    destruct Hi as [ds [f [-> [H1 H2]]]]. exists ds, f. repeat split; auto. intros Hs. congruence.
Qed.

(** ** A rigid pattern fixes the number of dimensions *)
Lemma is_scalar_false c : concrete c = true -> plain_options c = true -> is_scalar c = false ->
  exists d f, c = put1 d f /\ ndim c = 1 + ndim f /\ concrete f = true /\ plain_options f = true /\ dim_ok d.
Proof.
  intros Hc Hp Hs. destruct (concrete_cases c Hc Hp) as [H|[H _]]; [exact H|].
  unfold is_scalar in Hs. rewrite H, (concrete_not_variadic c Hc) in Hs. discriminate.
Qed.
Lemma type_at_dim_1 d f : type_at_dim (put1 d f) 1 = Ok f.
Proof. rewrite type_at_dim_put1 by lia. apply type_at_dim_0. Qed.
Lemma rigid_ndim p : forall c vs vs', rigid p = true -> concrete c = true -> plain_options c = true ->
  match_ p c vs = Ok (true, vs') -> ndim c = ndim p.
Proof.
  induction p using ty_ind'; intros c vs vs' Hr Hc Hp Hm; cbn [rigid] in Hr; try discriminate; cbn [match_] in Hm.
  - destruct c; try discriminate. reflexivity.
  - destruct c; try discriminate. reflexivity.
  - destruct c; try discriminate. destruct (n =? n0); [|discriminate]. cbn in Hc, Hp. apply andb_true_iff in Hc as [_ Hc]. cbn [ndim]. erewrite IHp; eauto.
  - destruct c; try discriminate. cbn in Hc, Hp. cbn [ndim]. erewrite IHp; eauto.
  - destruct c; try discriminate. reflexivity.
  - destruct c; try discriminate. cbn in Hc, Hp. apply andb_true_iff in Hc as [Hc _]. apply andb_true_iff in Hp as [Hp _]. cbn [ndim]. erewrite IHp; eauto.
  - destruct c; try discriminate. reflexivity.
  - destruct c; try discriminate. reflexivity.
  - destruct c; try discriminate. reflexivity.
  - injection Hm as Hm _. unfold is_scalar in Hm. apply andb_true_iff in Hm as [Hm _]. apply Z.eqb_eq in Hm. exact Hm.
  - injection Hm as Hm _. cbn [ndim]. destruct k, c; cbn in Hm; try discriminate; reflexivity.
  - destruct c; try discriminate. cbn in Hc, Hp. apply andb_true_iff in Hc as [_ Hc]. cbn [ndim]. erewrite IHp; eauto.
  - destruct (0 <? ndim c) eqn:E; [|discriminate]. apply Z.ltb_lt in E.
    destruct (concrete_cases c Hc Hp) as [[d [f [-> [Hd [H1 [H2 H3]]]]]]|[H0 _]]; [|lia].
    rewrite type_at_dim_1 in Hm. cbn [bind] in Hm. apply bind_ok in Hm as [[b v] [Hm Hb]]. cbn in Hb. injection Hb as -> _.
    rewrite Hd. cbn [ndim]. erewrite IHp; eauto.
  - destruct ((0 <? ndim c) || match c with TAny => true | _ => false end) eqn:E; [discriminate|].
    apply orb_false_iff in E as [E _]. apply Z.ltb_ge in E. pose proof (ndim_nonneg c). cbn [ndim]. lia.
  - destruct (is_scalar c) eqn:E; [discriminate|].
    destruct (is_scalar_false c Hc Hp E) as [d [f [-> [Hd [H1 [H2 H3]]]]]].
    rewrite type_at_dim_1 in Hm. cbn [bind] in Hm. rewrite Hd. cbn [ndim].
    destruct (find vs s) as [t|].
    + destruct (same_id (put1 d f) t); [|discriminate].
      destruct (match put1 d f with TFixedDim n _ => match t with TFixedDim m _ => n =? m | _ => true end | _ => true end); [|discriminate].
      erewrite IHp; eauto.
    + erewrite IHp; eauto.
Qed.
