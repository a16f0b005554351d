From Verif Require Import Base SsoModel SsoSpec SsoProofs SsoProofs2 SsoProofs3 SsoProofs4.

Section Step.
Variable NP : Z.
Hypothesis HNP : NP = 0 \/ NP = 1.
Notation Inv := (Inv NP).

Definition exhausted (s : st) (choice : choices) : Prop := ~ offers s choice \/ exists i, full NP s choice i.
Definition good (s : st) (choice : choices) (a : abs) (o : op) (r : outcome st) : Prop :=
  (exists s' a', r = Ok s' /\ Inv s' a' /\ spec_step a o a') \/ (r = Throw "bad_alloc" /\ exhausted s choice).

Lemma good_result s choice a o r v i : result s choice r (fun s' => Inv s' (upd a i v)) -> (forall a', put a i v a' -> spec_step a o a') -> good s choice a o r.
Proof. intros [(s' & E & I)|(E & X)] S; [left; exists s', (upd a i v); split; [auto|split; [auto|apply S, put_upd]]|right; split; auto; left; auto]. Qed.
Lemma good_outcome s choice a o r v i k : outcome_of NP s choice k r (fun s' => Inv s' (upd a i v)) -> (forall a', put a i v a' -> spec_step a o a') -> good s choice a o r.
Proof. intros [(s' & E & I)|(E & X)] S; [left; exists s', (upd a i v); split; [auto|split; [auto|apply S, put_upd]]|right; split; auto; right; eauto]. Qed.
Lemma good_ok s choice a o r v i : (exists s', r = Ok s' /\ Inv s' (upd a i v)) -> (forall a', put a i v a' -> spec_step a o a') -> good s choice a o r.
Proof. intros (s' & E & I) S. left. exists s', (upd a i v). split; [auto|split; [auto|apply S, put_upd]]. Qed.
Lemma live_some (a : abs) i : a i <> None -> exists c, a i = Some c.
Proof. destruct (a i); [eauto|congruence]. Qed.
Lemma resized_spec (a : abs) i c n c' a' : a i = Some c -> resized c n c' -> put a i (Some c') a' ->
  exists c0 fill, a i = Some c0 /\ Z.of_nat (List.length (firstn (Z.to_nat n) c0 ++ fill)) = n /\ (Z.of_nat (List.length c0) >= n -> fill = []) /\ put a i (Some (firstn (Z.to_nat n) c0 ++ fill)) a'.
Proof. intros E (f & -> & L & X) P. exists c, f. auto. Qed.

Lemma step_ok s a o choice : Inv s a -> legal a o -> avoids NP (inline s) a o -> good s choice a o (step NP s o choice).
Proof.
  intros I. destruct o as [i|i d|i j|i j|i d|i j|i j|i d|i j|i|i n|i n|i n|i n|i k d|k i j|i]; cbn [legal avoids step].
  - intros N _. apply (good_ok _ _ _ _ _ (Some []) i); [|auto]. eexists. split; [reflexivity|].
    apply (inv_put_inline NP HNP s a i); auto; [unfold own; now rewrite (inv_none NP s a i I N)|change (len (@nil Z)) with 0; lia].
  - intros (N & B & L) _. apply (good_result _ _ _ _ _ (Some d) i); [|auto]. apply (construct_ok NP HNP); auto; [apply src_ext|discriminate].
  - intros (N & Lj & L) _. destruct (live_some a j Lj) as (d & E). rewrite E in L. unfold of_val. destruct (inv_read NP HNP s a j d I E) as (o & V & R & Z). rewrite V, Z.
    assert (B : Forall isbyte d) by (destruct (inv_get NP s a j d I E) as (x & _ & R'); inversion R'; auto).
    apply (good_result _ _ _ _ _ (Some d) i); [|intros a' P; cbn [spec_step]; now rewrite E]. apply (construct_ok NP HNP); auto. unfold data_ptr. destruct (is_sso o); [|discriminate]. intros X. injection X as X. congruence.
  - intros (N & Lj) _. destruct (live_some a j Lj) as (d & E). assert (Nij : j <> i) by congruence.
    assert (I0 : Inv (set_val s i (Some blank)) (upd a i (Some []))).
    { apply (inv_put_inline NP HNP s a i); auto; [unfold own; now rewrite (inv_none NP s a i I N)|change (len (@nil Z)) with 0; lia]. }
    destruct (move_ok NP HNP _ _ i j [] d I0) as (s' & E' & I'); [apply upd_at|now rewrite upd_other|].
    left. eexists _, _. split; [exact E'|split; [exact I'|]]. cbn [spec_step]. exists (upd a i (Some d)). rewrite E. split; [apply put_upd|]. intros x. unfold upd. destruct (Nat.eqb x j); auto. destruct (Nat.eqb x i); auto.
  - intros (Li & B & L) _. destruct (live_some a i Li) as (c & E). apply (good_result _ _ _ _ _ (Some d) i); [|auto]. apply (assign_ok NP HNP s a choice i (Ext d) c d); auto; [apply src_ext|discriminate].
  - intros (Li & Lj & L) AV. destruct (live_some a i Li) as (c & Ei). destruct (live_some a j Lj) as (d & E). rewrite E in L. unfold of_val. destruct (inv_read NP HNP s a j d I E) as (o & V & R & Z). rewrite V, Z.
    assert (B : Forall isbyte d) by (destruct (inv_get NP s a j d I E) as (x & _ & R'); inversion R'; auto).
    apply (good_result _ _ _ _ _ (Some d) i); [|intros a' P; cbn [spec_step]; now rewrite E]. apply (assign_ok NP HNP s a choice i _ c d); auto.
    unfold data_ptr. destruct (is_sso o) eqn:S; [|discriminate]. intros X. injection X as X. subst j. specialize (AV eq_refl (ex_intro _ o (conj V S))). rewrite E in AV. unfold len. lia.
  - intros (Li & Lj) _. destruct (live_some a i Li) as (c & Ei). destruct (live_some a j Lj) as (d & Ej). destruct (move_ok NP HNP s a i j c d I Ei Ej) as (s' & E' & I').
    left. eexists _, _. split; [exact E'|split; [exact I'|]]. cbn [spec_step]. exists (upd a i (Some d)). rewrite Ej. split; apply put_upd.
  - intros (Li & (B & L) & LI) _. destruct (live_some a i Li) as (c & E). rewrite E in LI. apply (good_outcome _ _ _ _ _ (Some (c ++ d)) i i); [|intros a' P; cbn [spec_step]; eauto].
    apply (append_ok NP HNP); auto. intros. apply src_ext.
  - intros (Li & Lj & LI & LJ) N. destruct (live_some a i Li) as (c & Ei). destruct (live_some a j Lj) as (d & Ej). rewrite Ei in LI. rewrite Ej in LJ.
    unfold of_val. destruct (inv_read NP HNP s a j d I Ej) as (o & V & R & Z). rewrite V, Z.
    assert (B : Forall isbyte d) by (destruct (inv_get NP s a j d I Ej) as (x & _ & R'); inversion R'; auto).
    apply (good_outcome _ _ _ _ _ (Some (c ++ d)) i i); [|intros a' P; cbn [spec_step]; eauto 6]. apply (append_ok NP HNP); auto. intros s1 c' I1 O1.
    apply (src_other NP HNP s a s1 _ i j d o I Ej V ltac:(auto) I1); auto. rewrite upd_other; auto.
  - intros Li _. destruct (live_some a i Li) as (c & E). apply (good_ok _ _ _ _ _ (Some []) i); [|auto]. eapply (clear_ok NP HNP); eauto.
  - intros (Li & Hn) _. destruct (live_some a i Li) as (c & E). destruct (reserve_ok NP HNP s a choice i c n I E ltac:(lia)) as [(s1 & o1 & k1 & E1 & I1 & _)|(E1 & X)].
    + left. exists s1, a. split; [auto|split; [auto|]]. cbn [spec_step]. auto.
    + right. split; auto. left. destruct X as [X|X]; auto. lia.
  - intros (Li & Hn) _. destruct (live_some a i Li) as (c & E). destruct (reserve_grow_ok NP HNP s a choice i c n I E ltac:(lia)) as [(s1 & o1 & k1 & E1 & I1 & _)|(E1 & X)].
    + left. exists s1, a. split; [auto|split; [auto|]]. cbn [spec_step]. auto.
    + right. split; auto. right. exists i. exact X.
  - intros (Li & Hn) AV. destruct (live_some a i Li) as (c & E). destruct (inv_get NP s a i c I E) as (o & V & _).
    destruct (resize_ok NP HNP s a choice i o c n I E V ltac:(lia)) as [(s1 & E1 & c' & I1 & RS & _)|(E1 & X)].
    + intros S L. specialize (AV (ex_intro _ o (conj V S)) L). rewrite E in AV. exact AV.
    + left. exists s1, (upd a i (Some c')). split; [auto|split; [auto|]]. cbn [spec_step]. eapply resized_spec; eauto. apply put_upd.
    + right. split; auto. left. auto.
  - intros (Li & Hn) _. destruct (live_some a i Li) as (c & E).
    destruct (resize_grow_ok NP HNP s a choice i c n I E ltac:(lia)) as [(s1 & E1 & c' & I1 & RS & _)|(E1 & X)].
    + left. exists s1, (upd a i (Some c')). split; [auto|split; [auto|]]. cbn [spec_step]. eapply resized_spec; eauto. apply put_upd.
    + right. split; auto. right. eauto.
  - intros (Li & (B & L) & Hk & HK) _. destruct (live_some a i Li) as (c & E). rewrite E in HK. destruct (inv_read NP HNP s a i c I E) as (o & V & R & Z). rewrite V, Z.
    replace (k + len d <=? len c) with true by (unfold len in *; lia). destruct (split3 c k (len d)) as (u & v & w & -> & LU & LV); [lia|apply len_nonneg|unfold len in *; lia|].
    destruct (wr_ok NP HNP s a i u v w d I E LV B) as (s' & E' & I' & _). rewrite LU in E'. apply (good_ok _ _ _ _ _ (Some (u ++ d ++ w)) i); [eauto|].
    intros a' P. cbn [spec_step]. exists u, v, w. unfold len in *. split; [auto|split; [auto|split; [lia|auto]]].
  - intros (N & Li & Lj & LI & LJ) _. destruct (live_some a i Li) as (c & Ei). destruct (live_some a j Lj) as (d & Ej). rewrite Ei in LI. rewrite Ej in LJ.
    apply (good_result _ _ _ _ _ (Some (c ++ d)) k); [|intros a' P; cbn [spec_step]; eauto 6]. now apply (plus_ok NP HNP).
  - intros Li _. destruct (live_some a i Li) as (c & E). apply (good_ok _ _ _ _ _ None i); [|auto]. eapply (destroy_ok NP HNP); eauto.
Qed.

(** The two wrong uses that leave a valid state. *)
Definition torn (c : list Z) : list Z := firstn 8 c ++ repeat 0 (List.length c - 8).
Lemma self_assign s a i c choice : Inv s a -> a i = Some c -> inline s i -> (8 < List.length c)%nat ->
  exists s', step NP s (OAssignVal i i) choice = Ok s' /\ Inv s' (upd a i (Some (torn c))).
Proof.
  intros I E (o & V & S) L8. cbn [step]. unfold of_val. destruct (inv_read NP HNP s a i c I E) as (o' & V' & _ & Z). rewrite V in V'. injection V' as <-. rewrite V, Z.
  pose proof I as (I1 & _). specialize (I1 i). rewrite V, E in I1. destruct (rep_cases NP HNP _ _ _ I1) as [(_ & OW & Eo & LC & B)|(? & ? & ? & S' & _)]; [|congruence].
  pose proof (inv_len NP HNP s a i o I V) as LO. unfold assign. rewrite V, S. unfold sso_capacity. replace (len c <=? 15 - NP) with true by lia. unfold data_ptr. rewrite S.
  assert (LT : List.length (torn c) = List.length c) by (unfold torn; rewrite app_length, firstn_length, repeat_length; lia).
  assert (LT' : len (torn c) = len c) by (unfold len; lia).
  assert (BT : Forall isbyte (torn c)) by (unfold torn; apply Forall_app; split; [now apply (Forall_firstn NP)|apply Forall_repeat0]).
  rewrite <- LT'. destruct (sso_assign_ok s i o (Inl i) (torn c) V LO ltac:(lia)) as (s' & E' & H' & V').
  - cbn [rd set_val vals]. rewrite upd_at. unfold set_m_size. pose proof (len_nonneg c). rewrite LT', to_le_shift by lia.
    assert (L16 : len (firstn 8 o ++ repeat 0 7 ++ [len c]) = 16) by (unfold len; rewrite !app_length, firstn_length, LO; reflexivity).
    rewrite rd_from by lia. f_equal. unfold torn. assert (F8 : firstn 8 o = firstn 8 c).
    { rewrite Eo. unfold iobj. rewrite <- app_assoc, firstn_app. replace (8 - List.length c)%nat with 0%nat by lia. now rewrite firstn_O, app_nil_r. }
    rewrite F8. rewrite firstn_app. rewrite firstn_firstn, firstn_length. unfold len in *. replace (Nat.min (Z.to_nat (Z.of_nat (List.length c))) 8) with 8%nat by lia. f_equal.
    replace (Z.to_nat (Z.of_nat (List.length c)) - Nat.min 8 (List.length c))%nat with (List.length c - 8)%nat by lia.
    replace (repeat 0 7) with (repeat 0 (List.length c - 8 + (15 - List.length c))) by (f_equal; lia). rewrite repeat_app, <- app_assoc. apply firstn_len. now rewrite repeat_length.
  - exists s'. split; auto. apply (inv_put_inline NP HNP s a i s'); auto; [unfold own; now rewrite V|lia].
Qed.
Lemma resize_inline s a i c n choice : Inv s a -> a i = Some c -> inline s i -> 0 <= n <= 15 - NP ->
  exists s', step NP s (OResize i n) choice = Ok s' /\ vals s' i = Some (iobj (ored c n)) /\ len (ored c n) = Z.lor (len c) n /\
    (Z.lor (len c) n <= 15 - NP -> Inv s' (upd a i (Some (ored c n)))).
Proof.
  intros I E (o & V & S) N. cbn [step]. pose proof I as (I1 & _). specialize (I1 i). rewrite V, E in I1. destruct (rep_cases NP HNP _ _ _ I1) as [(_ & OW & Eo & LC & B)|(? & ? & ? & S' & _)]; [|congruence].
  unfold resize. assert (R : reserve NP s choice i n = Ok s).
  { unfold reserve. rewrite V. unfold capacity. rewrite S. cbn [bind]. unfold sso_capacity. replace (15 - NP <? n) with false by lia. reflexivity. }
  rewrite R. cbn [bind]. assert (V2 : vals s i = Some (iobj c)) by congruence. destruct (set_size_inline NP HNP s i c n V2 B ltac:(lia) ltac:(lia)) as (ES & LS & BS).
  eexists. split; [exact ES|]. split; [cbn [vals set_val]; apply upd_at|split; [auto|]]. intros M.
  apply (inv_put_inline NP HNP s a i); auto; [unfold own; now rewrite V|lia].
Qed.
Lemma inline_dec s i : inline s i \/ ~ inline s i.
Proof.
  unfold inline. destruct (vals s i) as [o|]; [|right; intros (o & X & _); discriminate]. destruct (is_sso o) eqn:S; [left; eauto|right]. intros (o' & X & Y). congruence.
Qed.
Lemma step_safe s a o choice : Inv s a -> legal a o -> storage_ok NP (inline s) a o ->
  (exists s' a', step NP s o choice = Ok s' /\ Inv s' a') \/ (step NP s o choice = Throw "bad_alloc" /\ exhausted s choice).
Proof.
  intros I L A. assert (G : avoids NP (inline s) a o -> (exists s' a', step NP s o choice = Ok s' /\ Inv s' a') \/ (step NP s o choice = Throw "bad_alloc" /\ exhausted s choice)).
  { intros AV. destruct (step_ok s a o choice I L AV) as [(s' & a' & E & I' & _)|X]; [left; eauto|right; auto]. }
  destruct o as [i|i d|i j|i j|i d|i j|i j|i d|i j|i|i n|i n|i n|i n|i k d|k i j|i]; try (apply G; exact A); try (apply G; exact Logic.I).
  - destruct (Nat.eq_dec i j) as [<-|N]; [|apply G; cbn; congruence]. destruct (inline_dec s i) as [Y|Y]; [|apply G; cbn; tauto].
    cbn [legal] in L. destruct L as (Li & _). destruct (live_some a i Li) as (c & E). destruct (Nat.leb_spec (List.length c) 8) as [L8|L8]; [apply G; cbn; rewrite E; auto|].
    destruct (self_assign s a i c choice I E Y L8) as (s' & E' & I'). left. eauto.
  - destruct (inline_dec s i) as [Y|Y]; [|apply G; cbn; tauto]. destruct (Z.leb_spec n (15 - NP)) as [N|N]; [|apply G; cbn [avoids]; intros _ X; exfalso; lia].
    cbn [legal] in L. destruct L as (Li & Hn). destruct (live_some a i Li) as (c & E). cbn [storage_ok] in A. specialize (A Y N). rewrite E in A.
    destruct (resize_inline s a i c n choice I E Y ltac:(lia)) as (s' & E' & _ & _ & I'). left. eexists _, _. split; [exact E'|]. apply I'. exact A.
Qed.

Lemma inv_start : Inv (mkst (fun _ => None) (fun _ => None)) (fun _ => None).
Proof. split; [|split]; cbn; auto; discriminate. Qed.
Lemma inv_describes s a : Inv s a -> describes s a.
Proof. intros I i. now apply (inv_contents NP HNP). Qed.
Lemma describes_inv s a b : Inv s b -> describes s a -> Inv s a.
Proof.
  intros I D. eapply inv_ext; [|exact I]. intros j. specialize (D j). rewrite (inv_contents NP HNP s b I j) in D. destruct (a j), (b j); cbn in D; congruence.
Qed.
Lemma reachable_inv s : reachable NP s -> exists a, Inv s a.
Proof.
  induction 1 as [|s a o choice s' R (b & I) D L A E]; [eexists; apply inv_start|].
  destruct (step_safe s a o choice (describes_inv s a b I D) L A) as [(s1 & a1 & E1 & I1)|(E1 & _)]; rewrite E1 in E; [|discriminate]. injection E as <-. eauto.
Qed.
Lemma not_exhausted s choice : memory_left NP s choice -> ~ exhausted s choice.
Proof.
  intros ((ad & g & -> & A & H) & C) X. assert (OF : offers s (Some (ad, g))) by (cbn; auto). destruct X as [X|(i & [X|(o & k & V & K & L)])]; auto.
  specialize (C i o V). rewrite K in C. lia.
Qed.
End Step.

(** Order. *)
Lemma signed8 x : isbyte x -> to_signed 8 x = if x <? 128 then x else x - 256.
Proof. intros B. unfold isbyte in B. unfold to_signed, wrap. change (2 ^ 8) with 256. change (2 ^ (8 - 1)) with 128. rewrite Z.mod_small by lia. reflexivity. Qed.
Lemma signed8_inj x y : isbyte x -> isbyte y -> to_signed 8 x = to_signed 8 y -> x = y.
Proof. intros A B. rewrite !signed8 by auto. unfold isbyte in *. destruct (Z.ltb_spec x 128), (Z.ltb_spec y 128); lia. Qed.
Definition slt (x y : Z) : Prop := to_signed 8 x < to_signed 8 y.
Lemma lex_iff a b : Forall isbyte a -> Forall isbyte b -> (lex_less a b = true <-> lexico slt a b).
Proof.
  revert b. induction a as [|x a IH]; intros [|y b] A B; cbn [lex_less].
  - split; [discriminate|]. intros X; inversion X.
  - split; auto. intros _. constructor.
  - split; [discriminate|]. intros X; inversion X.
  - inversion A as [|? ? Bx A']; subst. inversion B as [|? ? By B']; subst. destruct (Z.ltb_spec (to_signed 8 x) (to_signed 8 y)) as [L|L].
    + split; auto. intros _. now constructor.
    + destruct (Z.ltb_spec (to_signed 8 y) (to_signed 8 x)) as [M|M].
      * split; [discriminate|]. intros X. inversion X; subst; unfold slt in *; lia.
      * assert (x = y) by (apply signed8_inj; auto; lia). subst y. rewrite IH by auto. split; [now constructor|]. intros X. inversion X; subst; auto. unfold slt in *; lia.
Qed.
Lemma lexico_ext (P Q : Z -> Z -> Prop) a b : (forall x y, In x a -> In y b -> P x y -> Q x y) -> lexico P a b -> lexico Q a b.
Proof.
  intros H L. induction L as [y b|x y a b X|x a b L IH].
  - constructor.
  - constructor. apply H; auto; now left.
  - apply lex_next. apply IH. intros u v U V. apply H; now right.
Qed.
Lemma lexico_irrefl (P : Z -> Z -> Prop) a : (forall x, ~ P x x) -> ~ lexico P a a.
Proof. intros H. induction a as [|x a IH]; intros L; inversion L; subst; auto. eapply H; eauto. Qed.
Lemma lexico_trans (P : Z -> Z -> Prop) a b c : (forall x y z, P x y -> P y z -> P x z) -> lexico P a b -> lexico P b c -> lexico P a c.
Proof.
  intros T L. revert c. induction L as [y b|x y a b X|x a b L IH]; intros c M; inversion M; subst; solve [constructor; eauto | apply lex_next; eauto].
Qed.
Lemma lexico_total (P : Z -> Z -> Prop) a b : (forall x y, In x a -> In y b -> P x y \/ x = y \/ P y x) -> lexico P a b \/ a = b \/ lexico P b a.
Proof.
  revert b. induction a as [|x a IH]; intros [|y b] H.
  - auto.
  - left. constructor.
  - right; right. constructor.
  - destruct (H x y ltac:(now left) ltac:(now left)) as [X|[<-|X]].
    + left. now constructor.
    + destruct (IH b) as [Y|[<-|Y]]; [intros u v U V; apply H; now right|left; now apply lex_next|right; left; auto|right; right; now apply lex_next].
    + right; right. now constructor.
Qed.
