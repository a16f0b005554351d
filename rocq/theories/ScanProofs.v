(** Proofs about the scanners (C17, C18, C20, C47, C48). *)
From Verif Require Import Base ScanModel ScanSpec.

Lemma between_iff lo hi c : between lo hi c = true <-> lo <= c <= hi.
Proof. unfold between. lia. Qed.
Lemma is_dig_iff c : is_dig c = true <-> digit_c c.
Proof. apply between_iff. Qed.
Lemma is_space_iff c : is_space c = true <-> space_c c.
Proof. unfold is_space, space_c, between. lia. Qed.
Lemma alpha_iff c : alpha c = true <-> letter c.
Proof. unfold alpha, is_lower, is_upper, between, letter. lia. Qed.
Lemma name_char_iff c : name_char c = true <-> name_char_p c.
Proof. unfold name_char, is_lower, is_upper, is_dig, between, name_char_p, letter, digit_c. lia. Qed.
Lemma name_start_iff c : name_start c = true <-> letter c \/ c = 95.
Proof. unfold name_start, is_lower, is_upper, between, letter. lia. Qed.

(** The scanning loop: the longest prefix in [p]. *)
Lemma span_spec (p : Z -> bool) (P : Z -> Prop) : (forall c, p c = true <-> P c) -> forall s m r,
  span p s = (m, r) <-> s = m ++ r /\ Forall P m /\ ~ next_is P r.
Proof.
  intros HP. induction s as [|c s IH]; intros m r; cbn [span].
  - split.
    + intros [= <- <-]. split; [reflexivity|split; [constructor|]]. intros (c & r' & E & _). discriminate.
    + intros (E & _ & _). symmetry in E. apply app_eq_nil in E as [-> ->]. reflexivity.
  - destruct (p c) eqn:Pc.
    + destruct (span p s) as [m' r'] eqn:Es. split.
      * intros [= <- <-]. destruct (proj1 (IH m' r') eq_refl) as (-> & F & N).
        split; [reflexivity|split; [constructor; auto; apply HP; auto|auto]].
      * intros (E & F & N). destruct m as [|c' m]; cbn in E.
        { exfalso. apply N. subst r. exists c, s. split; auto. apply HP; auto. }
        injection E as -> E. assert (H : (m', r') = (m, r)). { apply IH. split; [auto|split; [inversion F; auto|auto]]. }
        injection H as -> ->. reflexivity.
    + split.
      * intros [= <- <-]. split; [reflexivity|split; [constructor|]]. intros (c' & r' & [= <- <-] & Hc). apply HP in Hc. congruence.
      * intros (E & F & N). destruct m as [|c' m]; cbn in E.
        { subst r. reflexivity. }
        injection E as -> E. inversion F; subst. exfalso. apply HP in H1. congruence.
Qed.
Lemma span_total (p : Z -> bool) s : exists m r, span p s = (m, r).
Proof. destruct (span p s); eauto. Qed.

Lemma parse_name_iff s m r : parse_name_no_ws s = Ok (Some (m, r)) <-> s = m ++ r /\ name m /\ ~ next_is name_char_p r.
Proof.
  unfold parse_name_no_ws, name. destruct s as [|c s].
  - split; [discriminate|]. intros (E & (c & t & -> & _) & _). discriminate.
  - destruct (name_start c) eqn:S.
    + destruct (span name_char s) as [m' r'] eqn:Es. split.
      * intros [= <- <-]. apply (span_spec _ _ name_char_iff) in Es as (-> & F & N).
        split; [reflexivity|split; [|auto]]. exists c, m'. split; [auto|split; [apply name_start_iff; auto|auto]].
      * intros (E & (c' & t & -> & Hc & F) & N). cbn in E. injection E as <- E.
        assert (H : span name_char s = (t, r)) by (apply (span_spec _ _ name_char_iff); auto). rewrite Es in H. injection H as -> ->. reflexivity.
    + split; [discriminate|]. intros (E & (c' & t & -> & Hc & F) & N). cbn in E. injection E as <- E. apply name_start_iff in Hc. congruence.
Qed.
Lemma parse_name_none s : parse_name_no_ws s = Ok None <-> ~ next_is (fun c => letter c \/ c = 95) s.
Proof.
  unfold parse_name_no_ws, next_is. destruct s as [|c s].
  - split; auto. intros _ (c & r & E & _). discriminate.
  - destruct (name_start c) eqn:S.
    + destruct (span name_char s) as [m' r']. split; [discriminate|]. intros N. exfalso. apply N. exists c, s. split; auto. apply name_start_iff; auto.
    + split; auto. intros _ (c' & r & [= <- <-] & H). apply name_start_iff in H. congruence.
Qed.

Lemma parse_alpha_iff s m r : parse_alpha_name_no_ws s = Ok (Some (m, r)) <-> s = m ++ r /\ alpha_name m /\ ~ next_is letter r.
Proof.
  unfold parse_alpha_name_no_ws, alpha_name. destruct s as [|c s].
  - split; [discriminate|]. intros (E & (N & _) & _). symmetry in E; apply app_eq_nil in E as [-> _]. congruence.
  - destruct (alpha c) eqn:S.
    + destruct (span alpha s) as [m' r'] eqn:Es. split.
      * intros [= <- <-]. apply (span_spec _ _ alpha_iff) in Es as (-> & F & N).
        split; [reflexivity|split; [|auto]]. split; [discriminate|constructor; auto; apply alpha_iff; auto].
      * intros (E & (Nm & F) & N). destruct m as [|c' m]; [congruence|]. cbn in E. injection E as <- E. inversion F; subst.
        assert (H : span alpha (m ++ r) = (m, r)) by (apply (span_spec _ _ alpha_iff); auto). rewrite Es in H. injection H as -> ->. reflexivity.
    + split; [discriminate|]. intros (E & (Nm & F) & N). destruct m as [|c' m]; [congruence|]. cbn in E. injection E as <- E.
      inversion F; subst. apply alpha_iff in H1. congruence.
Qed.
Lemma parse_alpha_none s : parse_alpha_name_no_ws s = Ok None <-> ~ next_is letter s.
Proof.
  unfold parse_alpha_name_no_ws, next_is. destruct s as [|c s].
  - split; auto. intros _ (c & r & E & _). discriminate.
  - destruct (alpha c) eqn:S.
    + destruct (span alpha s) as [m' r']. split; [discriminate|]. intros N. exfalso. apply N. exists c, s. split; auto. apply alpha_iff; auto.
    + split; auto. intros _ (c' & r & [= <- <-] & H). apply alpha_iff in H. congruence.
Qed.

Lemma skip_ws_iff s r : skip_whitespace s = r <-> exists w, s = w ++ r /\ Forall space_c w /\ ~ next_is space_c r.
Proof.
  unfold skip_whitespace. destruct (span is_space s) as [m r'] eqn:E. cbn [snd]. split.
  - intros <-. exists m. apply (span_spec _ _ is_space_iff); auto.
  - intros (w & H). apply (span_spec _ _ is_space_iff) in H. congruence.
Qed.
Lemma skip_required_iff s : 
  (forall r, skip_required_whitespace s = Some r <-> exists w, w <> [] /\ s = w ++ r /\ Forall space_c w /\ ~ next_is space_c r) /\
  (skip_required_whitespace s = None <-> ~ next_is space_c s).
Proof.
  unfold skip_required_whitespace. destruct s as [|c s].
  - split; [intros r; split; [discriminate|]|split; auto; intros _ (? & ? & ? & _); discriminate].
    intros (w & N & E & _). symmetry in E; apply app_eq_nil in E as [-> _]. congruence.
  - destruct (is_space c) eqn:S.
    + split.
      * intros r. pose proof (skip_ws_iff s r) as I. unfold skip_whitespace in I. split.
        -- intros [= H]. apply I in H as (w & -> & F & N). exists (c :: w). split; [discriminate|split; [reflexivity|split; [constructor; auto; apply is_space_iff; auto|auto]]].
        -- intros (w & N & E & F & Nr). destruct w as [|c' w]; [congruence|]. injection E as <- E. inversion F; subst. f_equal. apply I. exists w; auto.
      * split; [discriminate|]. intros N; exfalso; apply N. exists c, s. split; auto. apply is_space_iff; auto.
    + split.
      * intros r. split; [discriminate|]. intros (w & N & E & F & Nr). destruct w as [|c' w]; [congruence|]. injection E as <- E. inversion F; subst.
        apply is_space_iff in H1; congruence.
      * split; auto. intros _ (c' & r & [= <- <-] & H). apply is_space_iff in H. congruence.
Qed.

Lemma after_newline_spec s : (exists b r, s = b ++ 10 :: r /\ ~ In 10 b /\ after_newline s = Some r) \/ (~ In 10 s /\ after_newline s = None).
Proof.
  induction s as [|c s IH]; cbn [after_newline]; [right; auto|].
  destruct (Z.eqb_spec c 10) as [->|N].
  - left. exists [], s. split; [reflexivity|split; [auto|reflexivity]].
  - destruct IH as [(b & r & -> & NI & ->)|(NI & ->)].
    + left. exists (c :: b), r. split; [reflexivity|split; [intros [|]; auto|reflexivity]].
    + right. split; [intros [|]; auto|reflexivity].
Qed.

Lemma skipped_spaces w s r : Forall space_c w -> skipped s r -> skipped (w ++ s) r.
Proof. induction 1; cbn; auto. intros. constructor; auto. Qed.

Lemma skip_pound_spec fuel : forall s, (List.length s <= fuel)%nat -> exists r, skip_pound_loop fuel s = Ok r /\ skipped s r.
Proof.
  induction fuel as [|fuel IH]; intros s L.
  - destruct s; [|cbn in L; lia]. exists []. split; [reflexivity|]. constructor. intros (? & ? & ? & _); discriminate.
  - destruct (span is_space s) as [w s1] eqn:Es. pose proof Es as Es'. apply (span_spec _ _ is_space_iff) in Es' as (-> & F & N).
    unfold skip_pound_loop; fold skip_pound_loop. rewrite Es. cbn [snd].
    destruct s1 as [|c s1].
    + exists []. split; [reflexivity|]. apply skipped_spaces; auto. constructor. intros (? & ? & ? & _); discriminate.
    + destruct (Z.eqb_spec c 35) as [->|Nc].
      * destruct (after_newline_spec (35 :: s1)) as [(b & r & E & NI & A)|(NI & A)]; rewrite A.
        -- destruct b as [|x b]; cbn in E; [discriminate E|]. injection E as E0 E1. subst x.
           destruct (IH r) as (r' & -> & S).
           { rewrite app_length in L. cbn [List.length] in L. rewrite E1, app_length in L. cbn [List.length] in L. lia. }
           exists r'. split; [reflexivity|]. apply skipped_spaces; auto. rewrite E1. apply sk_comment; auto. intros X; apply NI; right; auto.
        -- exists []. split; [reflexivity|]. apply skipped_spaces; auto. apply sk_comment_eof. intros X; apply NI; right; auto.
      * exists (c :: s1). split; [reflexivity|]. apply skipped_spaces; auto. apply sk_stop.
        intros (c' & r' & [= <- <-] & [H|H]); [apply N; exists c, s1; auto|congruence].
Qed.

Lemma skipped_fun s r : skipped s r -> forall r', skipped s r' -> r = r'.
Proof.
  assert (SP : forall c, space_c c -> c <> 35) by (unfold space_c; intros; lia).
  assert (AP : forall (b b' s s' : list Z), ~ In 10 b -> ~ In 10 b' -> b ++ 10 :: s = b' ++ 10 :: s' -> s = s').
  { induction b as [|x b IH]; intros [|x' b'] s0 s0' N N' E; cbn in E.
    - congruence.
    - exfalso; apply N'; left; congruence.
    - exfalso; apply N; left; congruence.
    - injection E as E0 E1. apply (IH b'); auto; intros X; [apply N|apply N']; right; auto. }
  induction 1 as [r N|c s r Hc H IH|b s r NI H IH|b NI]; intros r' H'.
  - inversion H'; subst; auto; exfalso; apply N; eexists _, _; (split; [reflexivity|]); auto.
  - inversion H'; subst.
    + exfalso. match goal with X : ~ next_is _ _ |- _ => apply X end. exists c, s; auto.
    + auto.
    + exfalso; eapply SP; eauto.
    + exfalso; eapply SP; eauto.
  - inversion H'; subst.
    + exfalso. match goal with X : ~ next_is _ _ |- _ => apply X end. eexists _, _; split; [reflexivity|auto].
    + exfalso; eapply SP; eauto.
    + apply IH. match goal with X : _ ++ 10 :: _ = _ ++ 10 :: _ |- _ => apply AP in X; auto end. subst; auto.
    + exfalso. match goal with X : ~ In 10 (b ++ 10 :: s) |- _ => apply X end. apply in_or_app; right; left; auto.
  - inversion H'; subst.
    + exfalso. match goal with X : ~ next_is _ _ |- _ => apply X end. eexists _, _; split; [reflexivity|auto].
    + exfalso; eapply SP; eauto.
    + exfalso. apply NI. apply in_or_app; right; left; auto.
    + auto.
Qed.

Lemma skip_pound_iff s r : skip_whitespace_and_pound_comments s = Ok r <-> skipped s r.
Proof.
  destruct (skip_pound_spec (List.length s) s (le_n _)) as (r' & E & S). unfold skip_whitespace_and_pound_comments. rewrite E. split.
  - intros [= <-]. auto.
  - intros H. f_equal. eapply skipped_fun; eauto.
Qed.
Lemma skip_pound_total s : exists r, skip_whitespace_and_pound_comments s = Ok r /\ skipped s r.
Proof. exact (skip_pound_spec (List.length s) s (le_n _)). Qed.

(** Tokens. *)
Lemma starts_with_iff tok : forall s r, starts_with tok s = Some r <-> s = tok ++ r.
Proof.
  induction tok as [|t tok IH]; intros s r; cbn [starts_with app].
  - split; congruence.
  - destruct s as [|c s]; [split; discriminate|]. destruct (Z.eqb_spec c t) as [->|N].
    + rewrite IH. split; congruence.
    + split; [discriminate|]. intros [= E _]. congruence.
Qed.
Lemma token_no_ws_iff s tok r : parse_token_no_ws s tok = Some r <-> s = tok ++ r.
Proof.
  unfold parse_token_no_ws. destruct (Z.leb_spec (Z.of_nat (List.length tok)) (Z.of_nat (List.length s))); [apply starts_with_iff|].
  split; [discriminate|]. intros ->. rewrite app_length in *. lia.
Qed.
Lemma token_iff s tok r : ~ next_is space_c tok -> tok <> [] ->
  (parse_token s tok = Some r <-> exists w, Forall space_c w /\ s = w ++ tok ++ r).
Proof.
  intros NT NE. unfold parse_token. rewrite token_no_ws_iff. split.
  - intros H. apply skip_ws_iff in H as (w & -> & F & _). eauto.
  - intros (w & F & ->). apply skip_ws_iff. exists w. split; [auto|split; [auto|]]. intros (c & r' & E & H). apply NT.
    destruct tok as [|t tok]; [congruence|]. injection E as -> _. exists c, tok; auto.
Qed.
Lemma ds_token_iff s tok r : ds_parse_token s tok = Ok (Some r) <-> skipped s (tok ++ r).
Proof.
  unfold ds_parse_token. destruct (skip_pound_total s) as (r' & E & S). rewrite E. cbn [bind]. split.
  - intros [= H]. apply token_no_ws_iff in H. congruence.
  - intros H. f_equal. apply token_no_ws_iff. eapply skipped_fun; eauto.
Qed.
Lemma list_eqb_iff a : forall b, list_eqb a b = true <-> a = b.
Proof.
  induction a as [|x a IH]; intros [|y b]; cbn [list_eqb]; try (split; congruence).
  rewrite andb_true_iff, IH, Z.eqb_eq. split; [intros [-> ->]; auto|intros [= -> ->]; auto].
Qed.
Lemma compare_iff a b : compare_range_to_literal a b = true <-> a = b.
Proof.
  unfold compare_range_to_literal. rewrite andb_true_iff, list_eqb_iff. split; [tauto|]. intros ->. split; [apply Z.eqb_refl|auto].
Qed.

Ltac hdtl E := let E0 := fresh "E0" in let E1 := fresh "E1" in
  pose proof (f_equal (hd 0) E) as E0; pose proof (f_equal (@tl Z) E) as E1; cbn [hd tl app] in E0, E1.

(** Unsigned integers. *)
Lemma uint_iff s m r : parse_unsigned_int_no_ws s = Ok (Some (m, r)) <-> s = m ++ r /\ uint_lit m /\ ~ next_is digit_c r.
Proof.
  unfold parse_unsigned_int_no_ws, uint_lit. destruct s as [|c s].
  { split; [discriminate|]. intros (E & U & _). symmetry in E; apply app_eq_nil in E as [-> _]. inversion U. }
  destruct (between 49 57 c) eqn:B.
  - apply between_iff in B. destruct (span is_dig s) as [m' r'] eqn:Es. split.
    + intros [= <- <-]. apply (span_spec _ _ is_dig_iff) in Es as (-> & F & N). split; [reflexivity|split; [constructor; auto|auto]].
    + intros (E & U & N). destruct U as [|c' t Hc F]; cbn in E; hdtl E; subst; [lia|].
      assert (H : span is_dig (t ++ r) = (t, r)) by (apply (span_spec _ _ is_dig_iff); auto). rewrite Es in H. injection H as -> ->. reflexivity.
  - assert (NB : ~ 49 <= c <= 57) by (intros X; apply between_iff in X; congruence).
    destruct (Z.eqb_spec c 48) as [->|N0].
    + destruct s as [|d s].
      * split; [intros [= <- <-]|].
        { split; [reflexivity|split; [constructor|]]. intros (? & ? & ? & _); discriminate. }
        intros (E & U & N). destruct U as [|c' t Hc F]; cbn in E; hdtl E; [subst; reflexivity|lia].
      * destruct (is_dig d) eqn:D.
        -- split; [discriminate|]. intros (E & U & N). destruct U as [|c' t Hc F]; cbn in E; hdtl E; [|lia].
           exfalso. apply N. exists d, s. split; [congruence|apply is_dig_iff; auto].
        -- split; [intros [= <- <-]|].
           { split; [reflexivity|split; [constructor|]]. intros (? & ? & [= <- <-] & H). apply is_dig_iff in H; congruence. }
           intros (E & U & N). destruct U as [|c' t Hc F]; cbn in E; hdtl E; [subst; reflexivity|lia].
    + split; [discriminate|]. intros (E & U & N). destruct U as [|c' t Hc F]; cbn in E; hdtl E; lia.
Qed.
Lemma uint_total s : (exists m r, parse_unsigned_int_no_ws s = Ok (Some (m, r))) \/ parse_unsigned_int_no_ws s = Ok None.
Proof.
  unfold parse_unsigned_int_no_ws. destruct s as [|c s]; auto. destruct (between 49 57 c).
  - destruct (span is_dig s); eauto.
  - destruct (c =? 48); auto. destruct s as [|d s]; eauto. destruct (is_dig d); eauto.
Qed.

(** JSON numbers. *)
Lemma not_next_nil P : ~ next_is P [].
Proof. intros (? & ? & ? & _); discriminate. Qed.
Lemma next_cons P c r : next_is P (c :: r) <-> P c.
Proof. split; [intros (? & ? & [= <- <-] & H); auto|intros H; exists c, r; auto]. Qed.

Lemma json_exponent_iff acc it m r : json_exponent acc it = Ok (Some (m, r)) <->
  exists e, json_exp e /\ m = rev acc ++ e /\ it = e ++ r /\ (e <> [] -> ~ next_is digit_c r) /\ (e = [] -> ~ next_is exp_mark r).
Proof.
  unfold json_exponent. destruct it as [|c it].
  { split.
    - intros [= <- <-]. exists []. rewrite app_nil_r. split; [constructor|split; [auto|split; [auto|split; [congruence|intros; apply not_next_nil]]]].
    - intros (e & He & -> & E & _). symmetry in E. apply app_eq_nil in E as [-> ->]. rewrite app_nil_r. reflexivity. }
  destruct ((c =? 101) || (c =? 69)) eqn:C.
  2:{ assert (NC : ~ exp_mark c) by (unfold exp_mark; lia). split.
    - intros [= <- <-]. exists []. rewrite app_nil_r. split; [constructor|split; [auto|split; [auto|split; [congruence|rewrite next_cons; auto]]]].
    - intros (e & He & -> & E & _ & H). destruct He as [|x sgn ds Hx _ _ _]; cbn [app] in E.
      + rewrite app_nil_r, E. reflexivity.
      + injection E as -> _. exfalso. apply NC. exact Hx. }
  assert (HC : exp_mark c) by (unfold exp_mark; lia).
  destruct it as [|s it]; cbn [at_end].
  { split; [discriminate|]. intros (e & He & -> & E & _ & H). exfalso. destruct He as [|x sgn ds Hx Hs Nd Fd]; cbn [app] in E.
    - subst r. apply H; auto. apply next_cons; auto.
    - injection E as _ E. rewrite <- app_assoc in E. symmetry in E. apply app_eq_nil in E as [_ E]. apply app_eq_nil in E as [E _]. auto. }
  cbn [deref bind tl].
  destruct ((s =? 43) || (s =? 45)) eqn:S; cbn [andb].
  - destruct it as [|d it]; cbn [at_end].
    { split; [discriminate|]. intros (e & He & -> & E & _ & H). exfalso. destruct He as [|x sgn ds Hx Hs Nd Fd]; cbn [app] in E.
      - subst r. apply H; auto. apply next_cons; auto.
      - injection E as _ E. rewrite <- app_assoc in E. destruct Hs as [-> | [-> | ->]]; cbn [app] in E.
        + destruct ds as [|d0 ds]; [congruence|]. injection E as -> _. inversion Fd; subst. unfold digit_c in *. lia.
        + injection E as _ E. symmetry in E. apply app_eq_nil in E as [E _]. auto.
        + injection E as _ E. symmetry in E. apply app_eq_nil in E as [E _]. auto. }
    cbn [deref bind tl]. destruct (is_dig d) eqn:D.
    + destruct (span is_dig it) as [ds r2] eqn:Es. pose proof Es as Es'. apply (span_spec _ _ is_dig_iff) in Es' as (-> & F & N). split.
      * intros [= <- <-]. exists (c :: [s] ++ d :: ds). cbn [rev app]. rewrite <- !app_assoc. cbn [app].
        split; [|split; [reflexivity|split; [reflexivity|split; [auto|discriminate]]]].
        apply (ex_some c [s]); [exact HC|right; destruct (Z.eqb_spec s 43); [left; congruence|right; f_equal; lia]|discriminate|constructor; auto; apply is_dig_iff; auto].
      * intros (e & He & -> & E & H1 & H2). destruct He as [|x sgn ds' Hx Hs Nd Fd]; cbn [app] in E.
        { exfalso. subst r. apply H2; auto. apply next_cons; auto. }
        injection E as <- E. rewrite <- app_assoc in E.
        assert (Esg : sgn = [s] /\ d :: ds ++ r2 = ds' ++ r).
        { destruct Hs as [-> | [-> | ->]]; cbn [app] in E.
          - destruct ds' as [|d0 ds']; [congruence|]. injection E as -> _. inversion Fd; subst. unfold digit_c in *. lia.
          - hdtl E. subst s. auto.
          - hdtl E. subst s. auto. }
        destruct Esg as [-> E'].
        assert (X : span is_dig (d :: ds ++ r2) = (ds', r)) by (apply (span_spec _ _ is_dig_iff); split; [auto|split; [auto|apply H1; discriminate]]).
        cbn [span] in X. rewrite D, Es in X. injection X as <- <-. cbn [rev app]. rewrite <- !app_assoc. reflexivity.
    + split; [discriminate|]. intros (e & He & -> & E & H1 & H2). exfalso. destruct He as [|x sgn ds' Hx Hs Nd Fd]; cbn [app] in E.
      { subst r. apply H2; auto. apply next_cons; auto. }
      injection E as <- E. rewrite <- app_assoc in E. destruct ds' as [|d0 ds']; [congruence|]. inversion Fd; subst.
      destruct Hs as [-> | [-> | ->]]; cbn [app] in E; hdtl E.
      * unfold digit_c in *. lia.
      * hdtl E1. subst d. apply is_dig_iff in H3. congruence.
      * hdtl E1. subst d. apply is_dig_iff in H3. congruence.
  - cbn [deref bind tl]. destruct (is_dig s) eqn:D.
    + destruct (span is_dig it) as [ds r2] eqn:Es. pose proof Es as Es'. apply (span_spec _ _ is_dig_iff) in Es' as (-> & F & N). split.
      * intros [= <- <-]. exists (c :: [] ++ s :: ds). cbn [rev app]. rewrite <- !app_assoc. cbn [app].
        split; [|split; [reflexivity|split; [reflexivity|split; [auto|discriminate]]]].
        apply (ex_some c []); [exact HC|auto|discriminate|constructor; auto; apply is_dig_iff; auto].
      * intros (e & He & -> & E & H1 & H2). destruct He as [|x sgn ds' Hx Hs Nd Fd]; cbn [app] in E.
        { exfalso. subst r. apply H2; auto. apply next_cons; auto. }
        injection E as <- E. rewrite <- app_assoc in E.
        assert (Esg : sgn = [] /\ s :: ds ++ r2 = ds' ++ r).
        { destruct Hs as [-> | [-> | ->]]; cbn [app] in E; auto; hdtl E; subst s; discriminate. }
        destruct Esg as [-> E'].
        assert (X : span is_dig (s :: ds ++ r2) = (ds', r)) by (apply (span_spec _ _ is_dig_iff); split; [auto|split; [auto|apply H1; discriminate]]).
        cbn [span] in X. rewrite D, Es in X. injection X as <- <-. cbn [rev app]. rewrite <- !app_assoc. reflexivity.
    + split; [discriminate|]. intros (e & He & -> & E & H1 & H2). exfalso. destruct He as [|x sgn ds' Hx Hs Nd Fd]; cbn [app] in E.
      { subst r. apply H2; auto. apply next_cons; auto. }
      injection E as <- E. rewrite <- app_assoc in E. destruct ds' as [|d0 ds']; [congruence|]. inversion Fd; subst.
      destruct Hs as [-> | [-> | ->]]; cbn [app] in E; hdtl E; subst s; try discriminate.
      apply is_dig_iff in H3. congruence.
Qed.

Lemma json_fraction_iff acc it m r : json_fraction acc it = Ok (Some (m, r)) <->
  exists f e, json_frac f /\ json_exp e /\ m = rev acc ++ f ++ e /\ it = f ++ e ++ r /\
    (e <> [] \/ f <> [] -> ~ next_is digit_c r) /\ (e = [] -> ~ next_is exp_mark r) /\ (e = [] /\ f = [] -> ~ next_is (eq 46) r).
Proof.
  assert (NF : forall c it', it = c :: it' -> c <> 46 -> forall f e, json_frac f -> it = f ++ e ++ r -> f = []).
  { intros c it' -> Nc f e Hf E. destruct Hf; auto. cbn [app] in E. hdtl E. congruence. }
  assert (NP : (forall c it', it = c :: it' -> c <> 46) -> (json_exponent acc it = Ok (Some (m, r)) <->
     exists f e, json_frac f /\ json_exp e /\ m = rev acc ++ f ++ e /\ it = f ++ e ++ r /\
    (e <> [] \/ f <> [] -> ~ next_is digit_c r) /\ (e = [] -> ~ next_is exp_mark r) /\ (e = [] /\ f = [] -> ~ next_is (eq 46) r))).
  { intros H46. rewrite json_exponent_iff. split.
    - intros (e & He & -> & E & H1 & H2). exists [], e. split; [constructor|split; [auto|split; [auto|split; [auto|split; [|split; [auto|]]]]]].
      + intros [|]; [auto|congruence].
      + intros [-> _]. intros (c & r' & -> & <-). cbn in E. eapply H46; eauto.
    - intros (f & e & Hf & He & -> & E & H1 & H2 & H3). exists e. assert (f = []) as ->.
      { destruct Hf; auto. exfalso. eapply (H46 46); auto. cbn in E. eauto. }
      split; [auto|split; [auto|split; [auto|split; [intros; apply H1; auto|auto]]]]. }
  unfold json_fraction. destruct it as [|c it].
  { apply NP. intros; discriminate. }
  destruct (Z.eqb_spec c 46) as [->|Nc].
  2:{ apply NP. intros ? ? [= <- <-]; auto. }
  clear NP NF. destruct it as [|d it]; cbn [at_end].
  { split; [discriminate|]. intros (f & e & Hf & He & -> & E & H1 & H2 & H3). exfalso. destruct Hf as [|ds Nd Fd]; cbn [app] in E.
    - destruct He as [|x sgn ds' Hx _ _ _]; cbn [app] in E; hdtl E; [|unfold exp_mark in *; lia]. apply H3; auto. subst r. apply next_cons; auto.
    - hdtl E. symmetry in E1. apply app_eq_nil in E1 as [E1 _]. auto. }
  cbn [deref bind tl]. destruct (is_dig d) eqn:D.
  - destruct (span is_dig it) as [ds r2] eqn:Es. pose proof Es as Es'. apply (span_spec _ _ is_dig_iff) in Es' as (-> & F & N).
    rewrite json_exponent_iff. split.
    + intros (e & He & -> & -> & H1 & H2). exists (46 :: d :: ds), e.
      split; [constructor; [discriminate|constructor; auto; apply is_dig_iff; auto]|split; [auto|split]].
      * rewrite rev_app_distr, rev_involutive. cbn [rev]. rewrite <- !app_assoc. reflexivity.
      * split; [cbn [app]; f_equal; f_equal; now rewrite app_assoc|split; [|split; [auto|intros [_ ?]; discriminate]]].
        intros _. destruct e; [exact N|apply H1; discriminate].
    + intros (f & e & Hf & He & -> & E & H1 & H2 & H3). destruct Hf as [|ds' Nd Fd]; cbn [app] in E.
      * exfalso. destruct He as [|x sgn ds' Hx _ _ _]; cbn [app] in E; hdtl E; [|unfold exp_mark in *; lia]. apply H3; auto. subst r. apply next_cons; auto.
      * hdtl E. assert (ND : ~ next_is digit_c (e ++ r)).
        { destruct He as [|x sgn ds'' Hx _ _ _]; cbn [app]; [apply H1; right; discriminate|rewrite next_cons; unfold exp_mark, digit_c in *; lia]. }
        assert (X : span is_dig (d :: ds ++ r2) = (ds', e ++ r)) by (apply (span_spec _ _ is_dig_iff); auto).
        cbn [span] in X. rewrite D, Es in X. injection X as <- ->. exists e. split; [auto|split; [|split; [auto|split; [auto|auto]]]].
        rewrite rev_app_distr, rev_involutive. cbn [rev]. rewrite <- !app_assoc. reflexivity.
  - split; [discriminate|]. intros (f & e & Hf & He & -> & E & H1 & H2 & H3). exfalso. destruct Hf as [|ds Nd Fd]; cbn [app] in E.
    + destruct He as [|x sgn ds' Hx _ _ _]; cbn [app] in E; hdtl E; [|unfold exp_mark in *; lia]. apply H3; auto. subst r. apply next_cons; auto.
    + hdtl E. destruct ds as [|d0 ds]; [congruence|]. hdtl E1. subst d0. apply Forall_inv in Fd. apply is_dig_iff in Fd. congruence.
Qed.

Lemma json_exponent_noub acc it : (exists x, json_exponent acc it = Ok x).
Proof.
  unfold json_exponent. destruct it as [|c it]; eauto. destruct (_ || _); eauto. destruct it as [|s it]; cbn [at_end]; eauto.
  cbn [deref bind tl]. destruct (_ || _); cbn [andb].
  - destruct it as [|d it]; cbn [at_end]; eauto. cbn [deref bind tl]. destruct (is_dig d); eauto. destruct (span is_dig it); eauto.
  - cbn [deref bind tl]. destruct (is_dig s); eauto. destruct (span is_dig it); eauto.
Qed.
Lemma json_fraction_noub acc it : (exists x, json_fraction acc it = Ok x).
Proof.
  unfold json_fraction. destruct it as [|c it]; [apply json_exponent_noub|]. destruct (c =? 46); [|apply json_exponent_noub].
  destruct it as [|d it]; cbn [at_end]; eauto. cbn [deref bind tl]. destruct (is_dig d); eauto. destruct (span is_dig it). apply json_exponent_noub.
Qed.
Lemma json_noub it : (exists x, json_parse_number it = Ok x).
Proof.
  unfold json_parse_number. destruct it as [|c it]; cbn [at_end]; eauto. cbn [deref bind tl].
  destruct (c =? 45).
  - destruct it as [|d it]; cbn [at_end]; eauto. cbn [deref bind tl]. destruct (d =? 48); [apply json_fraction_noub|].
    destruct (between 49 57 d); eauto. destruct (span is_dig it). apply json_fraction_noub.
  - cbn [at_end deref bind tl]. destruct (c =? 48); [apply json_fraction_noub|].
    destruct (between 49 57 c); eauto. destruct (span is_dig it). apply json_fraction_noub.
Qed.

(** The part after the sign. *)
Definition json_rest (acc it1 : list Z) : outcome (option (list Z * list Z)) :=
  if at_end it1 then Ok None
  else do c <- deref it1;
    if c =? 48 then json_fraction (c :: acc) (tl it1)
    else if between 49 57 c then let (m, r) := span is_dig (tl it1) in json_fraction (rev m ++ c :: acc) r
    else Ok None.

Lemma json_rest_iff acc it m r : json_rest acc it = Ok (Some (m, r)) <->
  exists i f e, json_int i /\ json_frac f /\ json_exp e /\ m = rev acc ++ i ++ f ++ e /\ it = i ++ f ++ e ++ r /\
    (e <> [] \/ f <> [] \/ i <> [48] -> ~ next_is digit_c r) /\ (e = [] -> ~ next_is exp_mark r) /\ (e = [] /\ f = [] -> ~ next_is (eq 46) r).
Proof.
  unfold json_rest. destruct it as [|c it]; cbn [at_end].
  { split; [discriminate|]. intros (i & f & e & Hi & _ & _ & _ & E & _). destruct Hi; discriminate. }
  cbn [deref bind tl]. destruct (Z.eqb_spec c 48) as [->|N0].
  - rewrite json_fraction_iff. split.
    + intros (f & e & Hf & He & -> & E & H1 & H2 & H3). exists [48], f, e.
      split; [constructor|split; [auto|split; [auto|split; [cbn [rev]; now rewrite <- !app_assoc|split; [cbn [app]; congruence|split; [|split; auto]]]]]].
      intros [|[|]]; [auto|auto|congruence].
    + intros (i & f & e & Hi & Hf & He & -> & E & H1 & H2 & H3). destruct Hi as [|c' t Hc F]; cbn [app] in E; hdtl E; [|lia].
      exists f, e. split; [auto|split; [auto|split; [cbn [rev]; now rewrite <- !app_assoc|split; [auto|split; [|auto]]]]].
      intros [|]; apply H1; auto.
  - destruct (between 49 57 c) eqn:B.
    + apply between_iff in B. destruct (span is_dig it) as [ds r2] eqn:Es. pose proof Es as Es'. apply (span_spec _ _ is_dig_iff) in Es' as (-> & F & N).
      rewrite json_fraction_iff. split.
      * intros (f & e & Hf & He & -> & -> & H1 & H2 & H3). exists (c :: ds), f, e.
        split; [constructor; auto|split; [auto|split; [auto|split; [|split; [cbn [app]; now rewrite !app_assoc|split; [|split; auto]]]]]].
        -- rewrite rev_app_distr, rev_involutive. cbn [rev]. rewrite <- !app_assoc. reflexivity.
        -- intros _. destruct f as [|x f]; [|apply H1; right; discriminate]. destruct e as [|y e]; [exact N|apply H1; left; discriminate].
      * intros (i & f & e & Hi & Hf & He & -> & E & H1 & H2 & H3). destruct Hi as [|c' t Hc Ft]; cbn [app] in E; hdtl E; [lia|]. subst c'.
        assert (ND : ~ next_is digit_c (f ++ e ++ r)).
        { destruct Hf as [|ds' _ _]; cbn [app]; [|rewrite next_cons; unfold digit_c; lia].
          destruct He as [|x sgn ds'' Hx _ _ _]; cbn [app]; [apply H1; right; right; intros X; injection X as ? _; lia|rewrite next_cons; unfold exp_mark, digit_c in *; lia]. }
        assert (X : span is_dig (ds ++ r2) = (t, f ++ e ++ r)) by (apply (span_spec _ _ is_dig_iff); auto).
        rewrite Es in X. injection X as <- ->. exists f, e. split; [auto|split; [auto|split; [|split; [auto|split; [|auto]]]]].
        -- rewrite rev_app_distr, rev_involutive. cbn [rev]. rewrite <- !app_assoc. reflexivity.
        -- intros [|]; apply H1; auto.
    + split; [discriminate|]. assert (~ 49 <= c <= 57) by (intros X; apply between_iff in X; congruence).
      intros (i & f & e & Hi & Hf & He & -> & E & _). destruct Hi; cbn [app] in E; hdtl E; lia.
Qed.

Lemma json_number_iff it m r : json_parse_number it = Ok (Some (m, r)) <-> json_read it m r.
Proof.
  unfold json_read. unfold json_parse_number. destruct it as [|c it]; cbn [at_end].
  { split; [discriminate|]. intros (s & i & f & e & Hs & Hi & _ & _ & -> & E & _). destruct Hs, Hi; discriminate. }
  cbn [deref bind tl].
  destruct (Z.eqb_spec c 45) as [->|N].
  - change (json_rest [45] it = Ok (Some (m, r)) <-> exists s i f e, json_sign s /\ json_int i /\ json_frac f /\ json_exp e /\
    m = s ++ i ++ f ++ e /\ 45 :: it = m ++ r /\
    (e <> [] \/ f <> [] \/ i <> [48] -> ~ next_is digit_c r) /\
    (e = [] -> ~ next_is exp_mark r) /\
    (e = [] /\ f = [] -> ~ next_is (eq 46) r)). rewrite json_rest_iff. split.
    + intros (i & f & e & Hi & Hf & He & -> & -> & H). exists [45], i, f, e. cbn [rev app].
      split; [constructor|split; [auto|split; [auto|split; [auto|split; [reflexivity|split; [now rewrite <- !app_assoc|auto]]]]]].
    + intros (s & i & f & e & Hs & Hi & Hf & He & -> & E & H). destruct Hs; cbn [app] in E.
      { exfalso. destruct Hi; cbn [app] in E; hdtl E; lia. }
      hdtl E. exists i, f, e. split; [auto|split; [auto|split; [auto|split; [reflexivity|split; [now rewrite <- !app_assoc in E1|auto]]]]].
  - change (json_rest [] (c :: it) = Ok (Some (m, r)) <-> exists s i f e, json_sign s /\ json_int i /\ json_frac f /\ json_exp e /\
    m = s ++ i ++ f ++ e /\ c :: it = m ++ r /\
    (e <> [] \/ f <> [] \/ i <> [48] -> ~ next_is digit_c r) /\
    (e = [] -> ~ next_is exp_mark r) /\
    (e = [] /\ f = [] -> ~ next_is (eq 46) r)). rewrite json_rest_iff. split.
    + intros (i & f & e & Hi & Hf & He & -> & E & H). exists [], i, f, e. cbn [rev app].
      split; [constructor|split; [auto|split; [auto|split; [auto|split; [reflexivity|split; [now rewrite <- !app_assoc|auto]]]]]].
    + intros (s & i & f & e & Hs & Hi & Hf & He & -> & E & H). destruct Hs; cbn [app] in E.
      2:{ hdtl E. congruence. }
      exists i, f, e. split; [auto|split; [auto|split; [auto|split; [reflexivity|split; [now rewrite <- !app_assoc in E|auto]]]]].
Qed.

(** Longest match. *)
Lemma digits_prefix ds : forall r ds' r', Forall digit_c ds -> Forall digit_c ds' -> ~ next_is digit_c r -> ds ++ r = ds' ++ r' ->
  exists k, ds = ds' ++ k /\ r' = k ++ r /\ Forall digit_c k.
Proof.
  induction ds as [|d ds IH]; intros r ds' r' F F' N E.
  - destruct ds' as [|d' ds']; [exists []; auto|]. exfalso. apply N. cbn [app] in E. subst r. rewrite next_cons. inversion F'; auto.
  - destruct ds' as [|d' ds'].
    + exists (d :: ds). cbn [app] in E |- *. auto.
    + cbn [app] in E. injection E as -> E. inversion F; inversion F'; subst. destruct (IH r ds' r') as (k & -> & -> & Fk); auto. exists k; auto.
Qed.

Lemma no_frac_exp_before_digit k r f e r' : k <> [] -> Forall digit_c k -> json_frac f -> json_exp e -> f ++ e ++ r' = k ++ r -> f = [] /\ e = [].
Proof.
  intros Nk Fk Hf He E. destruct k as [|d k]; [congruence|]. inversion Fk; subst. unfold digit_c in *. cbn [app] in E.
  destruct Hf; cbn [app] in E; [|hdtl E; lia]. split; auto. destruct He; cbn [app] in E; auto. hdtl E. lia.
Qed.

Lemma json_exp_longest e e' r r' : json_exp e -> json_exp e' -> (e <> [] -> ~ next_is digit_c r) -> (e = [] -> ~ next_is exp_mark r) ->
  e ++ r = e' ++ r' -> (List.length e' <= List.length e)%nat.
Proof.
  intros He He' N1 N2 E. destruct He' as [|x' sgn' ds' Hx' Hs' Nd' Fd']; [cbn; lia|].
  destruct He as [|x sgn ds Hx Hs Nd Fd].
  - exfalso. cbn [app] in E. apply N2; auto. subst r. rewrite next_cons. exact Hx'.
  - cbn [app] in E. injection E as _ E. rewrite <- !app_assoc in E.
    assert (DS : forall (l : list Z), l <> [] -> Forall digit_c l -> exists d l', l = d :: l' /\ digit_c d).
    { intros [|d l] ? F; [congruence|]. exists d, l. split; auto. inversion F; auto. }
    assert (sgn = sgn' /\ ds ++ r = ds' ++ r') as [-> E'].
    { destruct (DS _ Nd Fd) as (d & l & -> & Hd). destruct (DS _ Nd' Fd') as (d' & l' & -> & Hd'). unfold digit_c in *.
      destruct Hs as [-> | [-> | ->]], Hs' as [-> | [-> | ->]]; cbn [app] in E; hdtl E; try lia; auto; subst; auto. }
    destruct (digits_prefix ds r ds' r' Fd Fd' (N1 ltac:(discriminate)) E') as (k & -> & _ & _).
    cbn [List.length]. rewrite !app_length. lia.
Qed.

Lemma json_longest t m r : json_read t m r -> forall m' r', t = m' ++ r' -> json_number m' -> (List.length m' <= List.length m)%nat.
Proof.
  intros (s & i & f & e & Hs & Hi & Hf & He & -> & -> & D & X & P) m' r' E (s' & i' & f' & e' & Hs' & Hi' & Hf' & He' & ->).
  assert (IS : forall j, json_int j -> exists c l, j = c :: l /\ 48 <= c <= 57).
  { intros j []; [exists 48, []; split; [auto|lia]|eexists _, _; split; [reflexivity|lia]]. }
  rewrite <- !app_assoc in E.
  assert (s = s' /\ i ++ f ++ e ++ r = i' ++ f' ++ e' ++ r') as [-> Ei].
  { destruct (IS _ Hi) as (c & l & -> & Hc). destruct (IS _ Hi') as (c' & l' & -> & Hc').
    destruct Hs, Hs'; cbn [app] in E; hdtl E; try lia; auto. }
  clear E. rewrite !app_length.
  assert (Q : (i = i' /\ f ++ e ++ r = f' ++ e' ++ r') \/ (f' = [] /\ e' = [] /\ (List.length i' <= List.length i)%nat)).
  { destruct Hi as [|c t Hc Ft], Hi' as [|c' t' Hc' Ft']; cbn [app] in Ei; hdtl Ei; try lia; auto.
    subst c'.
    assert (ND : ~ next_is digit_c (f ++ e ++ r)).
    { destruct Hf as [|ds' _ _]; cbn [app]; [|rewrite next_cons; unfold digit_c; lia].
      destruct He as [|x sgn ds'' Hx _ _ _]; cbn [app]; [apply D; right; right; intros Y; injection Y as ? _; lia|rewrite next_cons; unfold exp_mark, digit_c in *; lia]. }
    destruct (digits_prefix t _ t' _ Ft Ft' ND E1) as (k & -> & Er & Fk).
    destruct k as [|k0 k]; [left|right].
    - rewrite app_nil_r in *. cbn [app] in Er. auto.
    - destruct (no_frac_exp_before_digit (k0 :: k) _ f' e' r' ltac:(discriminate) Fk Hf' He' Er) as [-> ->]. split; [auto|split; [auto|cbn [List.length]; rewrite app_length; lia]]. }
  destruct Q as [[-> Ef]|(-> & -> & L)]; [|cbn [List.length]; lia].
  assert (Q : (f = f' /\ e ++ r = e' ++ r') \/ (e' = [] /\ (List.length f' <= List.length f)%nat)).
  { destruct Hf as [|ds Nd Fd], Hf' as [|ds' Nd' Fd']; cbn [app] in Ef.
    - left; auto.
    - exfalso. destruct He; cbn [app] in Ef; hdtl Ef; [|lia]. apply P; auto. subst r. rewrite next_cons. auto.
    - right. split; [|cbn; lia]. destruct He' as [|? ? ? H]; auto. exfalso. cbn [app] in Ef. hdtl Ef. lia.
    - hdtl Ef.
      assert (ND : ~ next_is digit_c (e ++ r)).
      { destruct He as [|x sgn ds'' Hx _ _ _]; cbn [app]; [apply D; right; left; discriminate|rewrite next_cons; unfold exp_mark, digit_c in *; lia]. }
      destruct (digits_prefix ds _ ds' _ Fd Fd' ND E1) as (k & -> & Er & Fk).
      destruct k as [|k0 k]; [left|right].
      + rewrite app_nil_r in *. cbn [app] in Er. auto.
      + assert (E' : [] ++ e' ++ r' = (k0 :: k) ++ e ++ r) by exact Er.
        destruct (no_frac_exp_before_digit (k0 :: k) _ [] e' r' ltac:(discriminate) Fk fr_none He' E') as [_ ->].
        cbn [List.length]. rewrite app_length. split; [auto|lia]. }
  destruct Q as [[-> Ee]|(-> & L)]; [|cbn [List.length]; lia].
  pose proof (json_exp_longest e e' r r' He He' ltac:(auto) X Ee). lia.
Qed.

(** Failure on a text that starts with a number: it goes on with '.' or 'e'. *)
Lemma json_none t m r : json_parse_number t = Ok None -> t = m ++ r -> json_number m ->
  exists m' r', t = m' ++ r' /\ json_number m' /\ next_is (fun c => c = 46 \/ exp_mark c) r'.
Proof.
  intros HN -> (s & i & f & e & Hs & Hi & Hf & He & ->).
  assert (Q : exists i1 r1, i ++ f ++ e ++ r = i1 ++ r1 /\ json_int i1 /\ (i1 <> [48] -> ~ next_is digit_c r1)).
  { destruct Hi as [|c l Hc Fl].
    - exists [48], (f ++ e ++ r). split; [auto|split; [constructor|congruence]].
    - destruct (span is_dig (l ++ f ++ e ++ r)) as [ds r1] eqn:Es. apply (span_spec _ _ is_dig_iff) in Es as (E & F & N).
      exists (c :: ds), r1. split; [cbn [app]; congruence|split; [constructor; auto|auto]]. }
  destruct Q as (i1 & r1 & E & Hi1 & N1).
  assert (ET : (s ++ i ++ f ++ e) ++ r = (s ++ i1) ++ r1) by (rewrite <- !app_assoc; f_equal; exact E).
  rewrite ET in *. exists (s ++ i1), r1. split; [auto|split].
  - exists s, i1, [], []. cbn [app]. rewrite app_nil_r. split; [auto|split; [auto|split; [constructor|split; [constructor|auto]]]].
  - destruct r1 as [|c r1].
    + exfalso. assert (R : json_read ((s ++ i1) ++ []) (s ++ i1) []).
      { exists s, i1, [], []. cbn [app]. rewrite !app_nil_r. repeat (split; [first [assumption|constructor|reflexivity]|]).
        split; [|split]; intros; apply not_next_nil. }
      apply json_number_iff in R. congruence.
    + apply next_cons. destruct (Z.eq_dec c 46); auto. destruct (Z.eq_dec c 101); [right; left; auto|]. destruct (Z.eq_dec c 69); [right; right; auto|].
      exfalso. assert (R : json_read ((s ++ i1) ++ c :: r1) (s ++ i1) (c :: r1)).
      { exists s, i1, [], []. cbn [app]. rewrite !app_nil_r. repeat (split; [first [assumption|constructor|reflexivity]|]).
        split; [|split].
        - intros [|[|]]; [congruence|congruence|auto].
        - intros _. rewrite next_cons. unfold exp_mark. lia.
        - intros _. rewrite next_cons. lia. }
      apply json_number_iff in R. congruence.
Qed.

(** Fixed-size integers. *)
Lemma dig_b c : (48 <=? c) && (c <=? 57) = true <-> digit_c c.
Proof. unfold digit_c. lia. Qed.

Definition reads_digits (f : list Z -> outcome (option (Z * list Z))) (n : nat) : Prop :=
  forall s, match f s with
            | Ok (Some (v, r)) => exists ds, s = ds ++ r /\ List.length ds = n /\ Forall digit_c ds /\ v = dec_value ds
            | Ok None => ~ exists ds r, s = ds ++ r /\ List.length ds = n /\ Forall digit_c ds
            | _ => False
            end.

Lemma two_digits : reads_digits parse_2digit_int_no_ws 2.
Proof.
  intros s. unfold parse_2digit_int_no_ws, len.
  destruct s as [|d0 [|d1 s]]; cbn [List.length load_at nth_error bind skipn].
  - intros (ds & r & E & L & _). symmetry in E. apply app_eq_nil in E as [-> _]. discriminate.
  - replace (2 <=? Z.of_nat 1) with false by lia. intros (ds & r & E & L & _). apply (f_equal (@List.length Z)) in E. rewrite app_length in E. cbn in E. lia.
  - replace (2 <=? _) with true by lia.
    destruct ((48 <=? d0) && (d0 <=? 57) && (48 <=? d1) && (d1 <=? 57)) eqn:D.
    + exists [d0; d1]. split; [auto|split; [auto|split; [repeat constructor; unfold digit_c; lia|unfold dec_value; cbn [fold_left]; lia]]].
    + intros (ds & r & E & L & F). destruct ds as [|a [|b [|c ds]]]; try discriminate. cbn [app] in E. injection E as -> -> _.
      inversion F as [|? ? Fa F1]; subst; inversion F1 as [|? ? Fb _]; subst. unfold digit_c in *. lia.
Qed.

Lemma four_digits : reads_digits parse_4digit_int_no_ws 4.
Proof.
  intros s. unfold parse_4digit_int_no_ws, len.
  assert (NL : forall l : list Z, (List.length l < 4)%nat -> ~ exists ds r, l = ds ++ r /\ List.length ds = 4%nat /\ Forall digit_c ds).
  { intros l Hl (ds & r & -> & L & _). rewrite app_length in Hl. lia. }
  destruct s as [|d0 [|d1 [|d2 [|d3 s]]]]; cbn [List.length load_at nth_error bind skipn]; try (apply NL; cbn; lia).
  replace (4 <=? _) with true by lia.
  destruct (_ && (d3 <=? 57)) eqn:D.
  - exists [d0; d1; d2; d3]. split; [auto|split; [auto|split; [repeat constructor; unfold digit_c; lia|unfold dec_value; cbn [fold_left]; lia]]].
  - intros (ds & r & E & L & F). destruct ds as [|a [|b [|c [|d [|? ds]]]]]; try discriminate. cbn [app] in E. injection E as -> -> -> -> _.
    inversion F as [|? ? Fa F1]; subst; inversion F1 as [|? ? Fb F2]; subst; inversion F2 as [|? ? Fc F3]; subst; inversion F3 as [|? ? Fd _]; subst. unfold digit_c in *. lia.
Qed.

Lemma six_digits : reads_digits parse_6digit_int_no_ws 6.
Proof.
  intros s. unfold parse_6digit_int_no_ws, len.
  assert (NL : forall l : list Z, (List.length l < 6)%nat -> ~ exists ds r, l = ds ++ r /\ List.length ds = 6%nat /\ Forall digit_c ds).
  { intros l Hl (ds & r & -> & L & _). rewrite app_length in Hl. lia. }
  destruct s as [|d0 [|d1 [|d2 [|d3 [|d4 [|d5 s]]]]]]; cbn [List.length load_at nth_error bind skipn]; try (apply NL; cbn; lia).
  replace (6 <=? _) with true by lia.
  destruct (_ && (d5 <=? 57)) eqn:D.
  - exists [d0; d1; d2; d3; d4; d5]. split; [auto|split; [auto|split; [repeat constructor; unfold digit_c; lia|unfold dec_value; cbn [fold_left]; lia]]].
  - intros (ds & r & E & L & F). destruct ds as [|a [|b [|c [|d [|e [|f [|? ds]]]]]]]; try discriminate. cbn [app] in E. injection E as -> -> -> -> -> -> _.
    inversion F as [|? ? Fa F1]; subst; inversion F1 as [|? ? Fb F2]; subst; inversion F2 as [|? ? Fc F3]; subst; inversion F3 as [|? ? Fd F4]; subst;
      inversion F4 as [|? ? Fe F5]; subst; inversion F5 as [|? ? Ff _]; subst. unfold digit_c in *. lia.
Qed.

Lemma one_or_two_digits s :
  match parse_1or2digit_int_no_ws s with
  | Ok (Some (v, r)) => exists ds, s = ds ++ r /\ Forall digit_c ds /\ v = dec_value ds /\
      (List.length ds = 2%nat \/ (List.length ds = 1%nat /\ ~ next_is digit_c r))
  | Ok None => ~ next_is digit_c s
  | _ => False
  end.
Proof.
  unfold parse_1or2digit_int_no_ws, len.
  destruct s as [|d0 [|d1 s]]; cbn [List.length load_at nth_error bind skipn].
  - apply not_next_nil.
  - replace (2 <=? Z.of_nat 1) with false by lia. replace (Z.of_nat 1 =? 1) with true by lia.
    destruct ((48 <=? d0) && (d0 <=? 57)) eqn:D.
    + exists [d0]. split; [auto|split; [repeat constructor; unfold digit_c; lia|split; [unfold dec_value; cbn [fold_left]; lia|right; split; [auto|apply not_next_nil]]]].
    + rewrite next_cons. unfold digit_c. lia.
  - replace (2 <=? _) with true by lia. destruct ((48 <=? d0) && (d0 <=? 57)) eqn:D.
    + destruct ((48 <=? d1) && (d1 <=? 57)) eqn:D1.
      * exists [d0; d1]. split; [auto|split; [repeat constructor; unfold digit_c; lia|split; [unfold dec_value; cbn [fold_left]; lia|left; auto]]].
      * exists [d0]. split; [auto|split; [repeat constructor; unfold digit_c; lia|split; [unfold dec_value; cbn [fold_left]; lia|right; split; [auto|]]]].
        rewrite next_cons. unfold digit_c. lia.
    + rewrite next_cons. unfold digit_c. lia.
Qed.

(** Booleans. *)
Lemma lower_eq c u : 65 <= u <= 90 -> (lower_c c = u + 32 <-> ci c u = true).
Proof. intros H. unfold lower_c, ci. destruct ((65 <=? c) && (c <=? 90)) eqn:E; lia. Qed.
Lemma lower_digit c d : 48 <= d <= 57 -> (lower_c c = d <-> c = d).
Proof. intros H. unfold lower_c. destruct ((65 <=? c) && (c <=? 90)) eqn:E; lia. Qed.

Lemma word_length s w : fold_case s = w -> List.length s = List.length w.
Proof. intros <-. unfold fold_case. now rewrite map_length. Qed.

Lemma codes_false : map codes ["0"; "n"; "f"; "no"; "off"; "false"]%string = [[48]; [110]; [102]; [110; 111]; [111; 102; 102]; [102; 97; 108; 115; 101]].
Proof. reflexivity. Qed.
Lemma codes_true : map codes ["1"; "y"; "t"; "on"; "yes"; "true"]%string = [[49]; [121]; [116]; [111; 110]; [121; 101; 115]; [116; 114; 117; 101]].
Proof. reflexivity. Qed.

Lemma one_eq (a w : Z) : [a] = [w] <-> a = w.
Proof. split; [intros H; now inversion H|now intros ->]. Qed.
Lemma cons_eq (a w : Z) s t : a :: s = w :: t <-> a = w /\ s = t.
Proof. split; [intros H; now inversion H|now intros [-> ->]]. Qed.

(** Words of each length. *)
Definition tw (s : list Z) : bool :=
  match s with
  | [a] => (a =? 49) || ci a 89 || ci a 84
  | [a; b] => ci a 79 && ci b 78
  | [a; b; c] => ci a 89 && ci b 69 && ci c 83
  | [a; b; c; d] => ci a 84 && ci b 82 && ci c 85 && ci d 69
  | _ => false
  end.
Definition fw (s : list Z) : bool :=
  match s with
  | [a] => (a =? 48) || ci a 78 || ci a 70
  | [a; b] => ci a 78 && ci b 79
  | [a; b; c] => ci a 79 && ci b 70 && ci c 70
  | [a; b; c; d; e] => ci a 70 && ci b 65 && ci c 76 && ci d 83 && ci e 69
  | _ => false
  end.

Ltac in_word H := destruct H as [H|[H|[H|[H|[H|[H|[]]]]]]]; try discriminate H.
Lemma ci_of c u : 65 <= u <= 90 -> u + 32 = lower_c c -> ci c u = true.
Proof. intros H E. apply lower_eq; auto. Qed.
Lemma of_ci c u : 65 <= u <= 90 -> ci c u = true -> lower_c c = u + 32.
Proof. intros H E. now apply lower_eq. Qed.
Ltac heads H := repeat (apply cons_eq in H; let H1 := fresh "E" in destruct H as [H1 H]).
Ltac cis := repeat match goal with
  | E : ?n = lower_c ?c |- context [ci ?c ?u] => rewrite (ci_of c u) by (try lia; exact E); clear E
  end.
Ltac lows := repeat match goal with
  | E : _ && _ = true |- _ => apply andb_true_iff in E; destruct E as [? ?]
  | E : ci ?c ?u = true |- _ => apply of_ci in E; [|clear; lia]; rewrite E; clear E
  end.

Lemma tw_of s : true_word s -> tw s = true.
Proof.
  unfold true_word. rewrite codes_true. intros H.
  destruct s as [|a [|b [|c [|d [|e s]]]]]; cbn [fold_case map] in H; in_word H; heads H; cbn [tw]; try (cis; reflexivity).
  - apply orb_true_iff; left. apply orb_true_iff; left. apply Z.eqb_eq. apply lower_digit; auto. lia.
  - rewrite (ci_of a 89) by (try lia; exact E). now rewrite orb_true_r.
  - rewrite (ci_of a 84) by (try lia; exact E). now rewrite orb_true_r.
Qed.
Lemma of_tw s : tw s = true -> true_word s.
Proof.
  unfold true_word. rewrite codes_true. intros H.
  destruct s as [|a [|b [|c [|d [|e s]]]]]; cbn [tw] in H; try discriminate; cbn [fold_case map].
  - apply orb_true_iff in H; destruct H as [H|H]; [apply orb_true_iff in H; destruct H as [H|H]|].
    + apply Z.eqb_eq in H. subst a. left. reflexivity.
    + lows. right; left; reflexivity.
    + lows. do 2 right; left; reflexivity.
  - lows. do 3 right; left; reflexivity.
  - lows. do 4 right; left; reflexivity.
  - lows. do 5 right; left; reflexivity.
Qed.
Lemma fw_of s : false_word s -> fw s = true.
Proof.
  unfold false_word. rewrite codes_false. intros H.
  destruct s as [|a [|b [|c [|d [|e [|f s]]]]]]; cbn [fold_case map] in H; in_word H; heads H; cbn [fw]; try (cis; reflexivity).
  - apply orb_true_iff; left. apply orb_true_iff; left. apply Z.eqb_eq. apply lower_digit; auto. lia.
  - rewrite (ci_of a 78) by (try lia; exact E). now rewrite orb_true_r.
  - rewrite (ci_of a 70) by (try lia; exact E). now rewrite orb_true_r.
Qed.
Lemma of_fw s : fw s = true -> false_word s.
Proof.
  unfold false_word. rewrite codes_false. intros H.
  destruct s as [|a [|b [|c [|d [|e [|f s]]]]]]; cbn [fw] in H; try discriminate; cbn [fold_case map].
  - apply orb_true_iff in H; destruct H as [H|H]; [apply orb_true_iff in H; destruct H as [H|H]|].
    + apply Z.eqb_eq in H. subst a. left. reflexivity.
    + lows. right; left; reflexivity.
    + lows. do 2 right; left; reflexivity.
  - lows. do 3 right; left; reflexivity.
  - lows. do 4 right; left; reflexivity.
  - lows. do 5 right; left; reflexivity.
Qed.
Lemma true_word_iff s : true_word s <-> tw s = true.
Proof. split; [apply tw_of|apply of_tw]. Qed.
Lemma false_word_iff s : false_word s <-> fw s = true.
Proof. split; [apply fw_of|apply of_fw]. Qed.

Lemma bool_long s : 6 <= len s -> parse_bool_checked s = Throw "invalid_argument".
Proof.
  intros L. unfold parse_bool_checked. replace (len s =? 1) with false by lia. replace (len s =? 4) with false by lia. replace (len s =? 5) with false by lia.
  replace (len s =? 2) with false by lia. replace (len s =? 3) with false by lia. reflexivity.
Qed.
Lemma nocheck_long s : 6 <= len s -> parse_bool_nocheck s = Ok false.
Proof.
  intros L. unfold parse_bool_nocheck. replace (len s =? 1) with false by lia. replace (len s =? 4) with false by lia. replace (len s =? 5) with false by lia.
  replace (len s =? 2) with false by lia. replace (len s =? 3) with false by lia. reflexivity.
Qed.
Lemma parse_bool_eq s : parse_bool_checked s = if tw s then Ok true else if fw s then Ok false else Throw "invalid_argument".
Proof.
  unfold parse_bool_checked, len.
  destruct s as [|a [|b [|c [|d [|e [|f s]]]]]]; cbn [List.length load_at nth_error bind Z.of_nat Pos.of_succ_nat Pos.succ Z.eqb Pos.eqb tw fw].
  - reflexivity.
  - unfold ci. change (89 + 32) with 121. change (84 + 32) with 116. change (78 + 32) with 110. change (70 + 32) with 102.
    destruct (a =? 48) eqn:A0; [apply Z.eqb_eq in A0; subst a; reflexivity|].
    destruct (a =? 110) eqn:A1; [apply Z.eqb_eq in A1; subst a; reflexivity|].
    destruct (a =? 78) eqn:A2; [apply Z.eqb_eq in A2; subst a; reflexivity|].
    destruct (a =? 102) eqn:A3; [apply Z.eqb_eq in A3; subst a; reflexivity|].
    destruct (a =? 70) eqn:A4; [apply Z.eqb_eq in A4; subst a; reflexivity|].
    cbn [orb].
    destruct (a =? 49), (a =? 121), (a =? 89), (a =? 116), (a =? 84); reflexivity.
  - destruct (ci a 78 && ci b 79) eqn:F.
    + replace (ci a 79 && ci b 78) with false; auto. symmetry. apply andb_true_iff in F. destruct F as [F _]. apply andb_false_iff. left.
      unfold ci in *. clear -F. lia.
    + destruct (ci a 79 && ci b 78); auto.
  - destruct (ci a 79 && ci b 70 && ci c 70) eqn:F.
    + replace (ci a 89) with false; auto. symmetry. apply andb_true_iff in F. destruct F as [F _]. apply andb_true_iff in F. destruct F as [F _].
      unfold ci in *. clear -F. lia.
    + destruct (ci a 89 && ci b 69 && ci c 83); auto.
  - destruct (ci a 84 && ci b 82 && ci c 85 && ci d 69); auto.
  - destruct (ci a 70 && ci b 65 && ci c 76 && ci d 83 && ci e 69); auto.
  - exact (bool_long (a :: b :: c :: d :: e :: f :: s) ltac:(unfold len; cbn [List.length]; lia)).
Qed.

Lemma tw_fw s : tw s = true -> fw s = true -> False.
Proof.
  destruct s as [|a [|b [|c [|d [|e s]]]]]; cbn [tw fw]; try discriminate.
  - unfold ci. lia.
  - intros T F. apply andb_true_iff in T, F. destruct T as [T _], F as [F _]. unfold ci in *. lia.
  - intros T F. apply andb_true_iff in T, F. destruct T as [T _], F as [F _]. apply andb_true_iff in T, F. destruct T as [T _], F as [F _]. unfold ci in *. lia.
Qed.

Lemma parse_bool_iff s :
  (parse_bool_checked s = Ok true <-> true_word s) /\ (parse_bool_checked s = Ok false <-> false_word s) /\
  (~ true_word s -> ~ false_word s -> parse_bool_checked s = Throw "invalid_argument").
Proof.
  rewrite true_word_iff, false_word_iff, parse_bool_eq. pose proof (tw_fw s) as X.
  destruct (tw s).
  - split; [split; auto|split; [split; [discriminate|intros H; destruct (X eq_refl H)]|congruence]].
  - destruct (fw s); (split; [split; discriminate|split; [split; auto; discriminate|congruence]]).
Qed.

(** The unchecked parser agrees with the checked one on every accepted word. *)
Lemma nocheck_agrees s b : parse_bool_checked s = Ok b -> parse_bool_nocheck s = Ok b.
Proof.
  unfold parse_bool_checked, parse_bool_nocheck, len.
  destruct s as [|a0 [|b0 [|c [|d [|e [|f s]]]]]]; cbn [List.length load_at nth_error bind Z.of_nat Pos.of_succ_nat Pos.succ Z.eqb Pos.eqb].
  - discriminate.
  - destruct (_ || _); auto. destruct (_ || _); auto. discriminate.
  - destruct (_ && _); auto. destruct (_ && _); auto. discriminate.
  - destruct (_ && _); auto. destruct (_ && _); auto. discriminate.
  - destruct (_ && _); auto. discriminate.
  - destruct (_ && _); auto. discriminate.
  - intros H. pose proof (eq_trans (eq_sym (bool_long (a0 :: b0 :: c :: d :: e :: f :: s) ltac:(unfold len; cbn [List.length]; lia))) H). discriminate.
Qed.
Lemma nocheck_four a b c d : parse_bool_nocheck [a; b; c; d] = Ok true.
Proof. reflexivity. Qed.
Lemma nocheck_total s : exists b, parse_bool_nocheck s = Ok b.
Proof.
  unfold parse_bool_nocheck, len.
  destruct s as [|a0 [|b0 [|c [|d [|e [|f s]]]]]]; cbn [List.length load_at nth_error bind Z.of_nat Pos.of_succ_nat Pos.succ Z.eqb Pos.eqb]; eauto.
  - destruct (_ || _); eauto. destruct (_ || _); eauto.
  - destruct (_ && _); eauto. destruct (_ && _); eauto.
  - destruct (_ && _); eauto. destruct (_ && _); eauto.
  - destruct (_ && _); eauto.
  - exists false. exact (nocheck_long (a0 :: b0 :: c :: d :: e :: f :: s) ltac:(unfold len; cbn [List.length]; lia)).
Qed.

(** Signed integers. *)
Lemma minus_token s r : parse_token s [45] = Some r <-> exists w, Forall space_c w /\ s = w ++ 45 :: r.
Proof.
  rewrite token_iff; [reflexivity| |discriminate]. rewrite next_cons. unfold space_c. lia.
Qed.
Lemma span_minus w r : Forall space_c w -> span is_space (w ++ 45 :: r) = (w, 45 :: r).
Proof.
  intros F. apply (span_spec _ _ is_space_iff). split; [auto|split; [auto|]]. rewrite next_cons. unfold space_c. lia.
Qed.
Lemma int_iff s m r : parse_int_no_ws s = Ok (Some (m, r)) <->
  s = m ++ r /\ ~ next_is digit_c r /\ (uint_lit m \/ exists w u, Forall space_c w /\ uint_lit u /\ m = w ++ 45 :: u).
Proof.
  assert (ND : forall u, uint_lit u -> exists c t, u = c :: t /\ digit_c c).
  { intros u []; [exists 48, []|exists c, t]; split; auto; unfold digit_c; lia. }
  unfold parse_int_no_ws. destruct (parse_token s [45]) as [r1|] eqn:T.
  - apply minus_token in T as (w & F & ->). rewrite span_minus by auto. cbn [fst].
    destruct (uint_total r1) as [(m1 & r2 & E)|E]; rewrite E; cbn [bind].
    + apply uint_iff in E as (-> & U & N). split.
      * intros [= <- <-]. split; [now rewrite <- !app_assoc|split; [auto|right; exists w, m1; rewrite <- app_assoc; auto]].
      * intros (E & N' & [U'|(w' & u & F' & U' & ->)]).
        { exfalso. destruct (ND m U') as (c & t & -> & D). destruct w as [|x w]; cbn [app] in E; hdtl E.
          - unfold digit_c in D. lia. - inversion F as [|? ? Sx _]; unfold space_c, digit_c in *; lia. }
        rewrite <- app_assoc in E. cbn [app] in E.
        assert (S1 : span is_space (w ++ 45 :: m1 ++ r2) = (w, 45 :: m1 ++ r2)) by (now apply span_minus).
        rewrite E, span_minus in S1 by auto. injection S1 as -> E1.
        assert (X : Ok (Some (m1, r2)) = Ok (Some (u, r))).
        { rewrite <- (proj2 (uint_iff (m1 ++ r2) m1 r2)) by auto. apply uint_iff. auto. }
        injection X as -> ->. f_equal. f_equal. f_equal. now rewrite <- app_assoc.
    + split; [discriminate|]. intros (E' & N' & [U'|(w' & u & F' & U' & ->)]).
      { exfalso. destruct (ND m U') as (c & t & -> & D). destruct w as [|x w]; cbn [app] in E'; hdtl E'.
        - unfold digit_c in D. lia. - inversion F as [|? ? Sx _]; unfold space_c, digit_c in *; lia. }
      exfalso. rewrite <- app_assoc in E'. cbn [app] in E'.
      assert (S1 : span is_space (w ++ 45 :: r1) = (w, 45 :: r1)) by (now apply span_minus).
      rewrite E', span_minus in S1 by auto. injection S1 as -> E1. subst r1.
      assert (X : parse_unsigned_int_no_ws (u ++ r) = Ok (Some (u, r))) by (apply uint_iff; auto). congruence.
  - destruct (uint_total s) as [(m1 & r2 & E)|E]; rewrite E; cbn [bind app].
    + apply uint_iff in E as (-> & U & N). split.
      * intros [= <- <-]. auto.
      * intros (E & N' & [U'|(w' & u & F' & U' & ->)]).
        { assert (X : Ok (Some (m1, r2)) = Ok (Some (m, r))).
          { rewrite <- (proj2 (uint_iff (m1 ++ r2) m1 r2)) by auto. apply uint_iff. auto. }
          injection X as -> ->. reflexivity. }
        exfalso. rewrite <- app_assoc in E. cbn [app] in E.
        assert (X : parse_token (m1 ++ r2) [45] = Some (u ++ r)) by (apply minus_token; eauto). congruence.
    + split; [discriminate|]. intros (E' & N' & [U'|(w' & u & F' & U' & ->)]).
      { exfalso. subst s. assert (X : parse_unsigned_int_no_ws (m ++ r) = Ok (Some (m, r))) by (apply uint_iff; auto). congruence. }
      exfalso. rewrite <- app_assoc in E'. cbn [app] in E'.
      assert (X : parse_token s [45] = Some (u ++ r)) by (apply minus_token; eauto). congruence.
Qed.
Lemma int_total s : (exists m r, parse_int_no_ws s = Ok (Some (m, r))) \/ parse_int_no_ws s = Ok None.
Proof.
  unfold parse_int_no_ws. destruct (parse_token s [45]) as [r1|].
  - destruct (uint_total r1) as [(m1 & r2 & ->)| ->]; cbn [bind]; eauto.
  - destruct (uint_total s) as [(m1 & r2 & ->)| ->]; cbn [bind]; eauto.
Qed.

Lemma uint_none s : parse_unsigned_int_no_ws s = Ok None <-> ~ exists m r, s = m ++ r /\ uint_lit m /\ ~ next_is digit_c r.
Proof.
  split.
  - intros E (m & r & H). apply uint_iff in H. congruence.
  - intros N. destruct (uint_total s) as [(m & r & E)|E]; auto. exfalso. apply N. exists m, r. now apply uint_iff.
Qed.

Lemma ds_number_spec s : exists s1, skipped s s1 /\
  ((exists m r, ds_parse_number s = Ok (m, r) /\ s1 = m ++ r /\ uint_lit m /\ ~ next_is digit_c r) \/
   (ds_parse_number s = Ok ([], s) /\ ~ exists m r, s1 = m ++ r /\ uint_lit m /\ ~ next_is digit_c r)).
Proof.
  destruct (skip_pound_total s) as (s1 & E & S). exists s1. split; auto. unfold ds_parse_number. rewrite E. cbn [bind].
  destruct (uint_total s1) as [(m & r & U)|U]; rewrite U; cbn [bind].
  - left. exists m, r. split; auto. now apply uint_iff.
  - right. split; auto. now apply uint_none.
Qed.
