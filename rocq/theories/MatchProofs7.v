(** Matching a concrete type ends without an exception. *)
From Verif Require Import Base TypesModel MatchModel MatchSpec MatchProofs MatchProofs2 MatchProofs3 MatchProofs4 MatchProofs5.
Local Open Scope string_scope.
Local Open Scope Z_scope.

Definition lin_pre (E : list string) (vs : env) : Prop := NoDup E /\ frag_free E vs.
Definition lin_post (E : list string) (vs vs' : env) : Prop :=
  forall s l, find vs' s = Some (TDimFragment l) -> (exists l0, find vs s = Some (TDimFragment l0)) \/ In s E.
Lemma lin_left a b vs : lin_pre (a ++ b) vs -> lin_pre a vs.
Proof. intros [N F]. apply NoDup_app_split in N as [N _]. split; auto. intros s Hs. apply F, in_or_app. auto. Qed.
Lemma lin_right a b vs vs' : lin_pre (a ++ b) vs -> lin_post a vs vs' -> lin_pre b vs'.
Proof.
  intros [N F] G. apply NoDup_app_split in N as [_ [N D]]. split; auto.
  intros s Hs l E. destruct (G s l E) as [[l0 E0] | Ha]; [apply (F s (in_or_app _ _ _ (or_intror Hs)) l0 E0) | apply (D s Ha Hs)].
Qed.
Lemma lin_seq a b u v w : lin_post a u v -> lin_post b v w -> lin_post (a ++ b) u w.
Proof.
  intros P Q s l H. destruct (Q s l H) as [[l0 H0]|Hi]; [|right; apply in_or_app; auto].
  destruct (P s l0 H0) as [|Hi]; [auto | right; apply in_or_app; auto].
Qed.
Lemma lin_refl a u : lin_post a u u.
Proof. intros s l H. eauto. Qed.
Lemma lin_weaken a b u v : lin_post a u v -> incl a b -> lin_post b u v.
Proof. intros P I s l H. destruct (P s l H); auto. Qed.
Lemma lin_upd s t vs : is_null t = false -> (forall l, t <> TDimFragment l) -> lin_post [] vs (upd vs s t).
Proof. intros N H s' l E. left. exists l. revert E. apply frags_upd_other; auto. Qed.

Definition Total (p : ty) : Prop :=
  forall c vs, concrete c = true -> plain_options c = true -> lin_pre (ellipsis_names p) vs ->
    exists b vs', match_ p c vs = Ok (b, vs') /\ lin_post (ellipsis_names p) vs vs'.
Lemma total_fields ps : Forall Total ps -> forall cs vs, forallb concrete cs = true -> forallb plain_options cs = true -> (List.length ps <= List.length cs)%nat ->
  lin_pre (flat_map ellipsis_names ps) vs -> exists b vs', match_fields ps cs vs = Ok (b, vs') /\ lin_post (flat_map ellipsis_names ps) vs vs'.
Proof.
  induction 1 as [|p ps Hp Hps IH]; intros cs vs Hc Hpl Hlen Hpre.
  - exists true, vs. split; [reflexivity | apply lin_refl].
  - destruct cs as [|c cs]; [cbn in Hlen; lia|]. cbn [forallb] in Hc, Hpl. apply andb_true_iff in Hc as [Hc1 Hc2]. apply andb_true_iff in Hpl as [Hl1 Hl2].
    cbn [flat_map] in *. destruct (Hp c vs Hc1 Hl1 (lin_left _ _ _ Hpre)) as [b [v1 [M1 P1]]].
    cbn [match_fields]. rewrite M1. cbn [bind fst snd]. destruct b.
    + destruct (IH cs v1 Hc2 Hl2 ltac:(cbn in Hlen; lia) (lin_right _ _ _ _ Hpre P1)) as [b [v2 [M2 P2]]].
      exists b, v2. split; [exact M2 | eapply lin_seq; eauto].
    + exists false, v1. split; [reflexivity|]. eapply lin_weaken; [exact P1 | apply incl_appl, incl_refl].
Qed.
Lemma put_of_ndim c : concrete c = true -> plain_options c = true -> 0 < ndim c -> exists d f, c = put1 d f /\ concrete f = true /\ plain_options f = true.
Proof. intros Hc Hp Hn. destruct (concrete_cases c Hc Hp) as [[d [f [-> [Hd [H1 [H2 H3]]]]]]|[H0 _]]; [eauto 6 | lia]. Qed.
Ltac same := eexists _, _; split; [reflexivity | apply lin_refl].

Lemma total : forall p, Total p.
Proof.
  induction p using ty_ind'; intros c vs Hc Hp Hpre; cbn [ellipsis_names] in Hpre |- *.
  - same.
  - same.
  - cbn [match_]. destruct c; try same. destruct (n =? n0); [|same]. cbn in Hc, Hp. apply andb_true_iff in Hc as [_ Hc]. auto.
  - cbn [match_]. destruct c; try same. cbn in Hc, Hp. auto.
  - cbn [match_]. destruct c; try same. cbn in Hc, Hp. auto.
  - cbn [match_]. destruct c; try same. cbn in Hc, Hp. apply andb_true_iff in Hc as [Hc _]. apply andb_true_iff in Hp as [Hp _]. auto.
  - destruct c; cycle 6; [|same..]. change (match_ (TTuple l v) (TTuple fields variadic) vs) with
      (if ((List.length l =? List.length fields)%nat && negb variadic) || ((List.length l <=? List.length fields)%nat && v) then match_fields l fields vs else Ok (false, vs)).
    destruct (((List.length l =? List.length fields)%nat && negb variadic) || ((List.length l <=? List.length fields)%nat && v)) eqn:E; [|same].
    cbn [concrete] in Hc. apply andb_true_iff in Hc as [_ Hc]. cbn [plain_options] in Hp. apply total_fields; auto.
    apply orb_true_iff in E as [E|E]; apply andb_true_iff in E as [E _]; [apply Nat.eqb_eq in E; lia | apply Nat.leb_le; auto].
  - destruct c; cycle 7; [|same..]. change (match_ (TStruct n l v) (TStruct names fields variadic) vs) with
      (if ((List.length l =? List.length fields)%nat && negb variadic) || ((List.length l <=? List.length fields)%nat && v)
       then if list_eqb String.eqb n (firstn (List.length n) names) then match_fields l fields vs else Ok (false, vs) else Ok (false, vs)).
    destruct (((List.length l =? List.length fields)%nat && negb variadic) || ((List.length l <=? List.length fields)%nat && v)) eqn:E; [|same].
    destruct (list_eqb eqb n (firstn (List.length n) names)); [|same].
    cbn [concrete] in Hc. apply andb_true_iff in Hc as [_ Hc]. cbn [plain_options] in Hp. apply total_fields; auto.
    apply orb_true_iff in E as [E|E]; apply andb_true_iff in E as [E _]; [apply Nat.eqb_eq in E; lia | apply Nat.leb_le; auto].
  - destruct c; cycle 8; [|same..]. cbn [plain_options] in Hp. apply andb_true_iff in Hp as [Hp Hp3]. apply andb_true_iff in Hp as [Hp1 Hp2].
    assert (Hc' : concrete c1 = true /\ concrete c2 = true /\ concrete c3 = true).
    { destruct c2; try discriminate. destruct c3; try discriminate. cbn [concrete] in Hc. apply andb_true_iff in Hc as [Hc Hc3]. apply andb_true_iff in Hc as [Hc1 Hc2]. auto. }
    destruct Hc' as [Hc1 [Hc2 Hc3]]. clear Hc.
    destruct (IHp1 c1 vs Hc1 Hp1 (lin_left _ _ _ Hpre)) as [b1 [v1 [M1 P1]]]. pose proof (lin_right _ _ _ _ Hpre P1) as Hpre2.
    cbn [match_]. rewrite M1. cbn [bind fst snd]. destruct b1.
    + destruct (IHp2 c2 v1 Hc2 Hp2 (lin_left _ _ _ Hpre2)) as [b2 [v2 [M2 P2]]]. pose proof (lin_right _ _ _ _ Hpre2 P2) as Hpre3.
      rewrite M2. cbn [bind fst snd]. destruct b2.
      * destruct (IHp3 c3 v2 Hc3 Hp3 Hpre3) as [b3 [v3 [M3 P3]]]. exists b3, v3. split; [exact M3 | exact (lin_seq _ _ _ _ _ P1 (lin_seq _ _ _ _ _ P2 P3))].
      * exists false, v2. split; [reflexivity|]. eapply lin_weaken; [exact (lin_seq _ _ _ _ _ P1 P2)|]. apply incl_app; [apply incl_appl, incl_refl | apply incl_appr, incl_appl, incl_refl].
    + exists false, v1. split; [reflexivity|]. eapply lin_weaken; [exact P1 | apply incl_appl, incl_refl].
  - same.
  - same.
  - same.
  - cbn [match_]. destruct c; try same; try discriminate Hc. cbn in Hc, Hp. apply andb_true_iff in Hc as [_ Hc]. auto.
  - cbn [match_]. destruct (Z.ltb_spec 0 (ndim c)) as [Hn|]; [|same]. destruct (put_of_ndim c Hc Hp Hn) as [d [f [-> [H1 H2]]]].
    rewrite type_at_dim_1. cbn [bind]. destruct (IHp f [] H1 H2) as [b [v [M _]]].
    { destruct Hpre as [N _]. split; auto. intros s _ l. discriminate. }
    rewrite M. cbn [bind fst]. same.
  - cbn [match_]. destruct ((0 <? ndim c) || match c with TAny => true | _ => false end); [same|]. destruct (find vs s); [same|].
    eexists _, _. split; [reflexivity|]. apply lin_upd; [apply concrete_not_null; auto | intros l; apply concrete_not_frag; auto].
  - cbn [match_]. rewrite is_scalar_zero by auto. destruct (Z.eqb_spec (ndim c) 0) as [|Hn]; [same|]. pose proof (ndim_nonneg c).
    destruct (put_of_ndim c Hc Hp ltac:(lia)) as [d [f [-> [H1 H2]]]]. rewrite type_at_dim_1. cbn [bind].
    destruct (find vs s) as [t|] eqn:Ef.
    + destruct (same_id (put1 d f) t); [|same]. destruct (match put1 d f with TFixedDim n0 _ => match t with TFixedDim m _ => n0 =? m | _ => true end | _ => true end); [|same]. auto.
    + pose proof (lin_upd s (put1 d f) vs (concrete_not_null _ Hc) (fun l => concrete_not_frag _ l Hc)) as P0.
      destruct (IHp f _ H1 H2 (lin_right [] _ _ _ Hpre P0)) as [b [v [M P]]]. exists b, v. split; [exact M | exact (lin_seq [] _ _ _ _ P0 P)].
  - assert (E : match_ (TEllipsis s p) c vs =
       if ndim c =? 0 then match bind_empty vs s with Some vs' => match_ p c vs' | None => Ok (false, vs) end
       else if ndim p <=? ndim c then
                          do b <- bind_dims vs s (Z.to_nat (ndim c - (1 + ndim p) + 1)) c;
                          match b with Some vs' => do c' <- type_at_dim c (Z.of_nat (Z.to_nat (ndim c - (1 + ndim p) + 1))); match_ p c' vs' | None => Ok (false, vs) end
                        else Ok (false, vs)).
    { clear - Hc. destruct c; try discriminate Hc; reflexivity. }
    rewrite E. clear E. set (N0 := if String.eqb s "" then [] else [s]).
    assert (EE : (if String.eqb s "" then ellipsis_names p else s :: ellipsis_names p) = (N0 ++ ellipsis_names p)%list) by (unfold N0; destruct (String.eqb s ""); reflexivity).
    rewrite EE in *. pose proof (ndim_nonneg p) as Hpn.
    assert (HN : String.eqb s "" = false -> forall l, find vs s <> Some (TDimFragment l)).
    { intros En. destruct Hpre as [_ F]. apply F. unfold N0. rewrite En. left. reflexivity. }
    assert (HU : forall l, lin_post [s] vs (upd vs s (TDimFragment l))).
    { intros l s' l' H. rewrite find_upd in H by reflexivity. destruct (String.eqb_spec s s') as [<-|]; [right; left; reflexivity | eauto]. }
    destruct (Z.eqb_spec (ndim c) 0) as [E0|E0].
    + assert (HB : bind_empty vs s = None \/ exists v1, bind_empty vs s = Some v1 /\ lin_post N0 vs v1).
      { unfold bind_empty, N0. destruct (String.eqb s "") eqn:En; [right; exists vs; split; [reflexivity | apply lin_refl]|].
        destruct (find vs s) as [t|] eqn:Ef; [|right; eauto]. destruct t; auto. destruct (HN eq_refl _ eq_refl). }
      destruct HB as [->|[v1 [-> P0]]]; [same|]. destruct (IHp c v1 Hc Hp (lin_right _ _ _ _ Hpre P0)) as [b [v2 [M P]]].
      exists b, v2. split; [exact M | exact (lin_seq _ _ _ _ _ P0 P)].
    + destruct (Z.leb_spec (ndim p) (ndim c)) as [El|]; [|same]. set (n := Z.to_nat (ndim c - (1 + ndim p) + 1)) in *.
      destruct (split_dims n c Hc Hp ltac:(unfold n; lia)) as [ds [f [-> [Hl [Hcf [Hpf Hd]]]]]]. clearbody n. subst n.
      assert (HB : bind_dims vs s (List.length ds) (put ds f) = Ok None \/ exists v1, bind_dims vs s (List.length ds) (put ds f) = Ok (Some v1) /\ lin_post N0 vs v1).
      { unfold bind_dims, N0. destruct (String.eqb s "") eqn:En; [right; exists vs; split; [reflexivity | apply lin_refl]|].
        destruct (find vs s) as [t|] eqn:Ef.
        - destruct t; auto. destruct (HN eq_refl _ eq_refl).
        - rewrite ndim_put. destruct (Z.ltb_spec (Z.of_nat (List.length ds) + ndim f) (Z.of_nat (List.length ds))); [pose proof (ndim_nonneg f); lia|].
          rewrite tags_from_put. cbn [bind fst]. right. eauto. }
      destruct HB as [->|[v1 [-> P0]]]; [same|]. cbn [bind]. rewrite type_at_dim_put. cbn [bind].
      destruct (IHp f v1 Hcf Hpf (lin_right _ _ _ _ Hpre P0)) as [b [v2 [M P]]]. exists b, v2. split; [exact M | exact (lin_seq _ _ _ _ _ P0 P)].
  - set (x := ndim c - ndim p2).
    assert (HE : forall y, match bind_exponent vs s y with None => True | Some v1 => lin_post [] vs v1 end).
    { intros y. unfold bind_exponent. destruct (find vs s) as [t|]; [destruct t; auto; destruct (n =? y); auto using lin_refl|]. apply lin_upd; [reflexivity | discriminate]. }
    assert (E : match_ (TPow p1 s p2) c vs =
       if ndim c =? 0 then
         if ndim p2 =? 0 then match bind_exponent vs s 0 with Some vs1 => match_ p2 c vs1 | None => Ok (false, vs) end else Ok (false, vs)
       else match bind_exponent vs s x with
            | None => Ok (false, vs)
            | Some vs1 =>
                if x =? 0 then match_ p2 c vs1
                else if x <? 0 then Ok (false, vs1)
                else match resolve_base vs1 p1 c with
                     | None => Ok (false, vs1)
                     | Some (b, vs2) => match strip_base b (Z.to_nat x) c with Some c' => match_ p2 c' vs2 | None => Ok (false, vs2) end
                     end
            end).
    { subst x. clear - Hc. destruct c; try discriminate Hc; reflexivity. }
    rewrite E. clear E.
    assert (HR : forall v1 c', lin_post [] vs v1 -> concrete c' = true -> plain_options c' = true ->
       exists b vs', match_ p2 c' v1 = Ok (b, vs') /\ lin_post (ellipsis_names p2) vs vs').
    { intros v1 c' P0 H1 H2. destruct (IHp2 c' v1 H1 H2 (lin_right [] _ _ _ Hpre P0)) as [b [v2 [M P]]]. exists b, v2. split; [exact M | exact (lin_seq [] _ _ _ _ P0 P)]. }
    assert (HF : forall v1, lin_post [] vs v1 -> exists b vs', Ok (false, v1) = Ok (b, vs') /\ lin_post (ellipsis_names p2) vs vs').
    { intros v1 P0. exists false, v1. split; [reflexivity|]. eapply lin_weaken; [exact P0 | apply incl_nil_l]. }
    destruct (ndim c =? 0).
    + destruct (ndim p2 =? 0); [|same]. specialize (HE 0). destruct (bind_exponent vs s 0) as [v1|]; [auto | same].
    + specialize (HE x). destruct (bind_exponent vs s x) as [v1|]; [|same]. destruct (x =? 0); [auto|]. destruct (x <? 0); [auto|].
      destruct (resolve_base v1 p1 c) as [[b v2]|] eqn:Er; [|auto].
      assert (P2 : lin_post [] vs v2).
      { unfold resolve_base in Er. destruct p1; try (injection Er as <- <-; exact HE). destruct (find v1 name) as [t|].
        - destruct ((0 <? ndim t) && negb match t with TDimFragment _ => true | _ => false end); [injection Er as <- <-; exact HE | discriminate].
        - injection Er as <- <-. exact (lin_seq [] [] _ _ _ HE (lin_upd name c v1 (concrete_not_null _ Hc) (fun l => concrete_not_frag _ l Hc))). }
      destruct (strip_base b (Z.to_nat x) c) as [c'|] eqn:Es; [|auto].
      assert (HD : exists ds, c = put ds c').
      { unfold strip_base in Es. destruct b; try discriminate Es.
        - destruct (strip_fixed_inv _ _ _ _ Es) as [ds [H1 _]]. eauto.
        - destruct (strip_var_inv _ _ _ Es) as [ds [H1 _]]. eauto.
        - destruct (strip_fixed_kind_inv _ _ _ Hc Es) as [ds [H1 _]]. eauto. }
      destruct HD as [ds Hd]. rewrite Hd in Hc, Hp. apply HR; auto; [apply (concrete_put ds c'); auto | apply (plain_put ds c'); auto].
  - same.
Qed.
