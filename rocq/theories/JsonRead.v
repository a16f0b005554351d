(** Proofs about parse_json: arrays, tuples, structs, and the whole text. *)
From Verif Require Import Base ParseIntModel ParseIntSpec ParseIntProofs ScanModel ScanSpec ScanProofs ScanProps EncodingModel EncodingSpec EncodingProofs
  EscapeModel EscapeSpec EscapeProofs EscapeProps JsonModel JsonSpec JsonProofs JsonParse.
Open Scope Z_scope.

Lemma nsp93 : ~ space_c 93. Proof. nsc. Qed.
Lemma nsp44 : ~ space_c 44. Proof. nsc. Qed.
Lemma nsp58 : ~ space_c 58. Proof. nsc. Qed.
Lemma nsp125 : ~ space_c 125. Proof. nsc. Qed.
Lemma nsp123 : ~ space_c 123. Proof. nsc. Qed.
Lemma nsp91 : ~ space_c 91. Proof. nsc. Qed.
Lemma nsp34 : ~ space_c 34. Proof. nsc. Qed.
#[global] Hint Resolve nsp93 nsp44 nsp58 nsp125 nsp123 nsp91 nsp34 : core.
Lemma ncont t : t = 93 \/ t = 125 \/ t = 44 \/ t = 58 -> ~ cont t.
Proof. unfold cont, digit_c, exp_mark. lia. Qed.
Lemma stop_t w t r : ws w -> t = 93 \/ t = 125 \/ t = 44 \/ t = 58 -> stop (w ++ t :: r).
Proof. intros W T. apply stop_ws; auto. now apply ncont. Qed.
Lemma ws_app a b : ws a -> ws b -> ws (a ++ b).
Proof. intros A B. apply Forall_app. auto. Qed.
Lemma token_ws_none w c r t : ws w -> ~ space_c c -> c <> t -> parse_token (w ++ c :: r) [t] = None.
Proof. apply token_no. Qed.

Lemma complete_nil p M x v r : complete p M -> M x v -> stop r -> p (x ++ r) = Ok (v, r).
Proof. intros C. apply (C [] x v r). constructor. Qed.

(** ** Sequences *)
Lemma tuple_sound ps Ms : Forall2 sound ps Ms -> forall acc it v r, bytes it -> tuple_loop ps acc it = Ok (v, r) ->
  exists es vs, it = es ++ 93 :: r /\ v = VList (rev acc ++ vs) /\ seq Ms es vs.
Proof.
  induction 1 as [|p M ps Ms S F IH]; intros acc it v r B H; cbn [tuple_loop] in H.
  - destruct (parse_token it [93]) as [r'|] eqn:T; [|discriminate]. inversion H; subst. apply token_inv in T as (w & W & ->); auto.
    exists w, []. rewrite app_nil_r. repeat split; auto. now constructor.
  - destruct (p (skip_whitespace it)) as [(v1, r1)| | |] eqn:P; cbn [bind] in H; try discriminate.
    destruct (skip_ws_inv it) as (w0 & E0 & W0 & _). rewrite E0 in B. apply bytes_app in B as (_ & B). destruct (S _ _ _ B P) as (w1 & x & E1 & W1 & Mx).
    rewrite E1 in B. apply bytes_app in B as (_ & B). apply bytes_app in B as (_ & B).
    assert (E : it = (w0 ++ w1) ++ x ++ r1) by (rewrite E0, E1, <- app_assoc; auto). clear E0 E1 P.
    destruct ps as [|p' ps'].
    + destruct Ms; [|inversion F]. destruct (IH (v1 :: acc) r1 v r B H) as (es & vs & E2 & V & Sq). inversion Sq as [w W| | ]; subst.
      exists ((w0 ++ w1) ++ x ++ es), [v1]. rewrite <- !app_assoc. split; auto. split; [cbn [rev]; now rewrite app_nil_r|]. rewrite (app_assoc w0). constructor; auto using ws_app.
    + destruct (parse_token r1 [44]) as [r2|] eqn:T; [|discriminate]. apply token_inv in T as (w2 & W2 & E2); auto. rewrite E2 in B. apply bytes_app in B as (_ & B). inversion B as [|? ? ? B2]; subst.
      destruct (IH (v1 :: acc) r2 v r B2 H) as (es & vs & E3 & V & Sq). exists ((w0 ++ w1) ++ x ++ w2 ++ 44 :: es), (v1 :: vs). subst. split; [rewrite <- !app_assoc; cbn [app]; reflexivity|].
      split; [cbn [rev]; now rewrite <- app_assoc|]. constructor; auto using ws_app. intros ->. inversion F.
Qed.
Lemma tuple_complete Ms es vs : seq Ms es vs -> forall ps, Forall2 complete ps Ms -> Forall starting Ms -> forall acc r, tuple_loop ps acc (es ++ 93 :: r) = Ok (VList (rev acc ++ vs), r).
Proof.
  induction 1 as [w W|M w x w' v W Mx W'|M Ms w x w' v es vs W Mx W' NE Sq IH]; intros ps F St acc r.
  - inversion F; subst. cbn [tuple_loop]. rewrite token_yes, app_nil_r by auto. reflexivity.
  - inversion F as [|p M' ps' Ms' C F']; subst. inversion F'; subst. inversion St as [|? ? Sx _]; subst. cbn [tuple_loop]. rewrite <- !app_assoc. rewrite starts_skip by eauto.
    rewrite (complete_nil p M x v (w' ++ 93 :: r)) by auto using stop_t. cbn [bind]. rewrite token_yes by auto. cbn [rev]. reflexivity.
  - inversion F as [|p M' ps' Ms' C F']; subst. inversion St as [|? ? Sx St']; subst. destruct ps' as [|p' ps']; [inversion F'; subst; congruence|]. cbn [tuple_loop]. rewrite <- !app_assoc. cbn [app]. rewrite starts_skip by eauto.
    rewrite (complete_nil p M x v) by auto using stop_t. cbn [bind]. rewrite token_yes by auto. specialize (IH (p' :: ps') F' St' (v :: acc) r). cbn [tuple_loop rev] in IH. rewrite IH. rewrite <- app_assoc. reflexivity.
Qed.
(** The loop of a fixed dimension is the loop of a tuple of equal types. *)
Lemma strided_sound p M : sound p M -> forall k acc it v r, bytes it -> strided_loop p k acc it = Ok (v, r) ->
  exists es vs, it = es ++ 93 :: r /\ v = VList (rev acc ++ vs) /\ seq (repeat M k) es vs.
Proof.
  intros S. induction k as [|k IH]; intros acc it v r B H; cbn [strided_loop] in H.
  - destruct (parse_token it [93]) as [r'|] eqn:T; [|discriminate]. inversion H; subst. apply token_inv in T as (w & W & ->); auto.
    exists w, []. rewrite app_nil_r. repeat split; auto. now constructor.
  - destruct (p it) as [(v1, r1)| | |] eqn:P; cbn [bind] in H; try discriminate. destruct (S _ _ _ B P) as (w1 & x & -> & W1 & Mx).
    apply bytes_app in B as (_ & B). apply bytes_app in B as (_ & B). destruct k as [|k].
    + destruct (IH (v1 :: acc) r1 v r B H) as (es & vs & E2 & V & Sq). inversion Sq as [w W| | ]; subst. exists (w1 ++ x ++ es), [v1]. rewrite <- !app_assoc. split; auto. split; [cbn [rev]; now rewrite app_nil_r|]. constructor; auto.
    + destruct (parse_token r1 [44]) as [r2|] eqn:T; [|discriminate]. apply token_inv in T as (w2 & W2 & E2); auto. rewrite E2 in B. apply bytes_app in B as (_ & B). inversion B as [|? ? ? B2]; subst.
      destruct (IH (v1 :: acc) r2 v r B2 H) as (es & vs & E3 & V & Sq). exists (w1 ++ x ++ w2 ++ 44 :: es), (v1 :: vs). subst. split; [rewrite <- !app_assoc; cbn [app]; reflexivity|].
      split; [cbn [rev]; now rewrite <- app_assoc|]. change (repeat M (Datatypes.S (Datatypes.S k))) with (M :: repeat M (Datatypes.S k)). constructor; auto. discriminate.
Qed.
Lemma strided_complete p M : complete p M -> forall k es vs, seq (repeat M k) es vs -> forall acc r, strided_loop p k acc (es ++ 93 :: r) = Ok (VList (rev acc ++ vs), r).
Proof.
  intros C. induction k as [|k IH]; intros es vs Sq acc r; cbn [strided_loop].
  - inversion Sq; subst. rewrite token_yes, app_nil_r by auto. reflexivity.
  - cbn [repeat] in Sq. inversion Sq as [|M0 w x w' v W Mx W' EM|M0 Ms w x w' v es' vs' W Mx W' NE Sq' EM]; subst.
    + destruct k; [|discriminate]. rewrite <- !app_assoc. rewrite (C w x v) by auto using stop_t. cbn [bind strided_loop]. rewrite token_yes by auto. reflexivity.
    + destruct k as [|k]; [cbn in NE; congruence|]. rewrite <- !app_assoc. cbn [app]. rewrite (C w x v) by auto using stop_t. cbn [bind]. rewrite token_yes by auto. rewrite (IH es' vs' Sq'). cbn [rev]. now rewrite <- app_assoc.
Qed.
Lemma var_sound p M : sound p M -> forall f size alloc acc it v r, bytes it -> var_loop f p size alloc acc it = Ok (v, r) ->
  exists es vs, it = es ++ 93 :: r /\ v = VList (rev acc ++ vs) /\ vs <> [] /\ seq (repeat M (List.length vs)) es vs.
Proof.
  intros S. induction f as [|f IH]; intros size alloc acc it v r B H; cbn [var_loop] in H; [discriminate|]. cbv zeta in H.
  destruct (Z.leb_spec (if size =? alloc then alloc * 2 else alloc) size); [discriminate|].
  destruct (p it) as [(v1, r1)| | |] eqn:P; cbn [bind] in H; try discriminate. destruct (S _ _ _ B P) as (w1 & x & -> & W1 & Mx).
  apply bytes_app in B as (_ & B). apply bytes_app in B as (_ & B). destruct (parse_token r1 [44]) as [r2|] eqn:T.
  - apply token_inv in T as (w2 & W2 & E2); auto. rewrite E2 in B. apply bytes_app in B as (_ & B). inversion B as [|? ? ? B2]; subst.
    destruct (IH _ _ (v1 :: acc) r2 v r B2 H) as (es & vs & E3 & V & NE & Sq). exists (w1 ++ x ++ w2 ++ 44 :: es), (v1 :: vs). subst. split; [rewrite <- !app_assoc; cbn [app]; reflexivity|].
    split; [cbn [rev]; now rewrite <- app_assoc|]. split; [discriminate|]. cbn [List.length repeat]. constructor; auto. destruct vs; [congruence|discriminate].
  - destruct (parse_token r1 [93]) as [r2|] eqn:T2; [|discriminate]. inversion H; subst. apply token_inv in T2 as (w2 & W2 & ->); auto. exists (w1 ++ x ++ w2), [v1]. rewrite <- !app_assoc. split; auto. split; auto. split; [discriminate|]. constructor; auto.
Qed.
Lemma starts_len x : starts x -> (1 <= List.length x)%nat.
Proof. intros (c & r & -> & _). cbn. lia. Qed.
Lemma var_complete p M : complete p M -> starting M -> forall vs es, vs <> [] -> seq (repeat M (List.length vs)) es vs -> forall f size alloc acc r, (List.length es < f)%nat -> 0 <= size <= alloc -> 0 < alloc ->
  var_loop f p size alloc acc (es ++ 93 :: r) = Ok (VList (rev acc ++ vs), r).
Proof.
  intros C St. induction vs as [|v0 vs IH]; intros es NE Sq f size alloc acc r Lf A1 A2; [congruence|]. destruct f as [|f]; [lia|]. cbn [var_loop]. cbv zeta.
  set (alloc' := if size =? alloc then alloc * 2 else alloc). assert (AL : size < alloc') by (unfold alloc'; destruct (Z.eqb_spec size alloc); lia). destruct (Z.leb_spec alloc' size); [lia|].
  cbn [List.length repeat] in Sq. inversion Sq as [|M0 w x w' v W Mx W' EM|M0 Ms w x w' v es' vs' W Mx W' NE' Sq' EM]; subst.
  - rewrite <- !app_assoc. rewrite (C w x v0) by auto using stop_t. cbn [bind]. rewrite token_no by (auto; lia). rewrite token_yes by auto. reflexivity.
  - rewrite <- !app_assoc. cbn [app]. rewrite (C w x v0) by auto using stop_t. cbn [bind]. rewrite token_yes by auto. rewrite IH; auto; try lia.
    + cbn [rev]. now rewrite <- app_assoc.
    + destruct vs; [cbn in NE'; congruence|discriminate].
    + rewrite !app_length in Lf. cbn [List.length] in Lf. lia.
Qed.

(** ** Members of an object *)
Lemma list_eqb_iff a b : list_eqb a b = true <-> a = b.
Proof.
  revert b. induction a as [|x a IH]; intros [|y b]; cbn; split; intros H; try discriminate; auto.
  - apply andb_true_iff in H as (X & Y). apply Z.eqb_eq in X. apply IH in Y. congruence.
  - inversion H; subst. apply andb_true_iff. split; [apply Z.eqb_refl|]. now apply IH.
Qed.
Lemma field_index_iff names n : match field_index names n with Some i => first_at names n i | None => ~ In n names end.
Proof.
  induction names as [|m names IH]; cbn [field_index]; [auto|]. destruct (list_eqb m n) eqn:E.
  - apply list_eqb_iff in E. subst. split; auto. intros j J. lia.
  - assert (m <> n) by (intros X; apply list_eqb_iff in X; congruence). destruct (field_index names n) as [i|].
    + destruct IH as (I1 & I2). split; auto. intros [|j] J; cbn [nth_error]; [congruence|]. apply I2. lia.
    + intros [X|X]; auto.
Qed.
Lemma first_at_unique names n i j : first_at names n i -> first_at names n j -> i = j.
Proof. intros (A & B) (C & D). destruct (Nat.lt_trichotomy i j) as [L|[L|L]]; auto; [now apply D in L|now apply B in L]. Qed.
Lemma field_index_some names n i : first_at names n i -> field_index names n = Some i.
Proof.
  intros F. pose proof (field_index_iff names n) as H. destruct (field_index names n) as [j|]; [f_equal; eapply first_at_unique; eauto|].
  exfalso. apply H. destruct F as (F & _). eapply nth_error_In; eauto.
Qed.
Lemma field_index_none names n : ~ In n names -> field_index names n = None.
Proof. intros N. pose proof (field_index_iff names n) as H. destruct (field_index names n) as [j|]; auto. exfalso. apply N. destruct H as (F & _). eapply nth_error_In; eauto. Qed.

Definition settle (slots : list (option jval)) (s : list (nat * jval)) : list (option jval) := fold_left (fun sl p => set_nth (fst p) (Some (snd p)) sl) s slots.
Lemma settle_app sl a b : settle sl (a ++ b) = settle (settle sl a) b. Proof. apply fold_left_app. Qed.
Lemma Forall2_nth {A B} (R : A -> B -> Prop) a b : Forall2 R a b -> forall i x, nth_error a i = Some x -> exists y, nth_error b i = Some y /\ R x y.
Proof. induction 1; intros [|i] z N; cbn in *; try discriminate; eauto. inversion N; subst; eauto. Qed.
Lemma Forall2_nth' {A B} (R : A -> B -> Prop) a b : Forall2 R a b -> forall i y, nth_error b i = Some y -> exists x, nth_error a i = Some x /\ R x y.
Proof. induction 1; intros [|i] z N; cbn in *; try discriminate; eauto. inversion N; subst; eauto. Qed.

Lemma object_sound names ps Ms : Forall2 sound ps Ms -> forall f slots it slots' r, bytes it -> object_loop f names ps slots it = Ok (slots', r) ->
  exists ms s, it = ms ++ 125 :: r /\ all_members names Ms ms s /\ slots' = settle slots s.
Proof.
  intros F. induction f as [|f IH]; intros slots it slots' r B H; cbn [object_loop] in H; [discriminate|].
  destruct (parse_doublequote_string_no_ws (skip_whitespace it)) as [[((b, e), r0)|]| | |] eqn:D; cbn [bind] in H; try discriminate.
  destruct (skip_ws_inv it) as (w & E0 & W & _). apply dq_inv in D as (E & Bd & Es). rewrite E in E0. clear E. subst it. apply bytes_app in B as (_ & B). apply bytes_app in B as (_ & B).
  destruct (parse_token r0 [58]) as [r1|] eqn:T; [|discriminate]. apply token_inv in T as (w' & W' & ->); auto. apply bytes_app in B as (_ & B). inversion B as [|? ? _ B1]; subst.
  destruct (content b e) as [n| | |] eqn:Cn; cbn [bind] in H; try discriminate. apply content_iff in Cn; auto.
  assert (K : forall sl2 r2 x w'' s, r1 = w'' ++ x ++ r2 -> ws w'' -> sl2 = settle slots s ->
    (forall w3, ws w3 -> one_member names Ms (w ++ quoted b ++ w' ++ 58 :: w'' ++ x ++ w3) s) ->
    match parse_token r2 [44] with
    | Some r3 => object_loop f names ps sl2 r3
    | None => match parse_token r2 [125] with Some r3 => Ok (sl2, r3) | None => Throw "json_parse_error" end
    end = Ok (slots', r) ->
    exists ms s, w ++ quoted b ++ w' ++ 58 :: r1 = ms ++ 125 :: r /\ all_members names Ms ms s /\ slots' = settle slots s).
  { intros sl2 r2 x w'' s E1 W'' E2 OM H2. subst r1. apply bytes_app in B1 as (_ & B1). apply bytes_app in B1 as (_ & B1). destruct (parse_token r2 [44]) as [r3|] eqn:T.
    - apply token_inv in T as (w3 & W3 & ->); auto. apply bytes_app in B1 as (_ & B1). inversion B1 as [|? ? _ B3]; subst. destruct (IH _ _ _ _ B3 H2) as (ms & s' & -> & AM & ->).
      exists ((w ++ quoted b ++ w' ++ 58 :: w'' ++ x ++ w3) ++ 44 :: ms), (s ++ s'). split; [repeat (rewrite <- !app_assoc; cbn [app]); reflexivity|]. split; [apply am_more; auto|now rewrite settle_app].
    - destruct (parse_token r2 [125]) as [r3|] eqn:T3; [|discriminate]. apply token_inv in T3 as (w3 & W3 & ->); auto. inversion H2; subst.
      exists (w ++ quoted b ++ w' ++ 58 :: w'' ++ x ++ w3), s. split; [repeat (rewrite <- !app_assoc; cbn [app]); reflexivity|]. split; [apply am_one; auto|auto]. }
  pose proof (field_index_iff names n) as FI. destruct (field_index names n) as [i|].
  - destruct (nth_error ps i) as [p|] eqn:Np; cbn [bind] in H; [|discriminate]. destruct (p r1) as [(v, r2)| | |] eqn:P; cbn [bind] in H; try discriminate.
    destruct (Forall2_nth _ _ _ F _ _ Np) as (M & NM & SM). destruct (SM _ _ _ B1 P) as (w'' & x & E1 & W'' & Mx). apply (K _ r2 x w'' [(i, v)] E1 W'' eq_refl); [|exact H]. intros w3 W3. apply (om_field names Ms w b n w' w'' x w3 i M v); auto.
  - destruct (skip_json_value r1) as [r2| | |] eqn:SK; cbn [bind] in H; try discriminate. destruct (proj1 (skip_json_value_iff r1) _ SK) as (w'' & x & E1 & W'' & Rx).
    apply (K _ r2 x w'' [] E1 W'' eq_refl); [|exact H]. intros w3 W3. apply (om_other names Ms w b n w' w'' x w3); auto.
Qed.
Lemma quoted_dq w b r : ws w -> dq_body b -> exists e, parse_doublequote_string_no_ws (skip_whitespace (w ++ quoted b ++ r)) = Ok (Some (b, e, r)) /\ (e = true <-> In 92 b).
Proof. intros W B. rewrite starts_skip by auto using quoted_starts. now apply quoted_read. Qed.
Lemma member_complete names ps Ms m s : one_member names Ms m s -> Forall2 complete ps Ms -> forall f slots t r, t = 44 \/ t = 125 ->
  object_loop (S f) names ps slots (m ++ t :: r) = if t =? 44 then object_loop f names ps (settle slots s) r else Ok (settle slots s, r).
Proof.
  intros OM F f slots t r T. assert (NT : ~ space_c t) by (destruct T; subst; auto). cbn [object_loop].
  assert (Fin : forall w3 (sl : list (option jval)), ws w3 ->
    match parse_token (w3 ++ t :: r) [44] with
    | Some r3 => object_loop f names ps sl r3
    | None => match parse_token (w3 ++ t :: r) [125] with Some r3 => Ok (sl, r3) | None => Throw "json_parse_error" end
    end = if t =? 44 then object_loop f names ps sl r else Ok (sl, r)).
  { intros w3 sl W3. destruct T; subst t; cbn [Z.eqb Pos.eqb]. - now rewrite token_yes by auto. - rewrite token_no by (auto; lia). now rewrite token_yes by auto. }
  inversion OM as [w b n w' w'' x w3 i M v W D W' W'' W3 FA NM Mx|w b n w' w'' x w3 W D W' W'' W3 NI Rx]; subst; repeat (rewrite <- !app_assoc; cbn [app]);
    destruct (quoted_dq w b (w' ++ 58 :: w'' ++ x ++ w3 ++ t :: r) W (denotes_body _ _ D)) as (e & Q & E); rewrite Q; cbn [bind]; rewrite token_yes by auto;
    rewrite (proj2 (content_iff b e n (denotes_body _ _ D) E) D); cbn [bind].
  - rewrite (field_index_some _ _ _ FA). destruct (Forall2_nth' _ _ _ F _ _ NM) as (p & Np & Cp). rewrite Np. cbn [bind].
    rewrite (Cp w'' x v) by (auto; apply stop_t; auto; destruct T; auto). cbn [bind]. rewrite Fin by auto. reflexivity.
  - rewrite (field_index_none _ _ NI). rewrite skip_json_value_complete by (auto; apply stop_t; auto; destruct T; auto). cbn [bind]. rewrite Fin by auto. reflexivity.
Qed.
Lemma object_complete names ps Ms ms s : all_members names Ms ms s -> Forall2 complete ps Ms -> forall f slots r, (List.length ms < f)%nat -> object_loop f names ps slots (ms ++ 125 :: r) = Ok (settle slots s, r).
Proof.
  induction 1 as [m s OM|m s ms s' OM AM IH]; intros F f slots r L; (destruct f as [|f]; [lia|]).
  - rewrite (member_complete _ _ _ _ _ OM F) by auto. reflexivity.
  - rewrite <- app_assoc. cbn [app]. rewrite (member_complete _ _ _ _ _ OM F) by auto. cbn [Z.eqb Pos.eqb]. rewrite settle_app. apply IH; auto. rewrite app_length in L. cbn [List.length] in L. lia.
Qed.

(** ** The fields of a struct *)
Fixpoint lookup (i : nat) (s : list (nat * jval)) : option jval :=
  match s with [] => None | (j, v) :: r => match lookup i r with Some u => Some u | None => if Nat.eqb j i then Some v else None end end.
Lemma lookup_none i s : lookup i s = None <-> never_set i s.
Proof.
  unfold never_set. induction s as [|(j, v) s IH]; cbn [lookup In]; [tauto|]. destruct (lookup i s) as [u|] eqn:L.
  - split; [discriminate|]. intros H. exfalso. destruct IH as (_ & IH). assert (X : Some u = None) by (apply IH; intros v' I; apply (H v'); auto). discriminate.
  - destruct (Nat.eqb_spec j i) as [->|D]; [split; [discriminate|intros H; exfalso; apply (H v); auto]|]. split; auto. intros _ v' [X|X]; [inversion X; congruence|]. revert X. now apply IH.
Qed.
Lemma lookup_some i s v : lookup i s = Some v <-> last_set i s v.
Proof.
  unfold last_set. induction s as [|(j, w) s IH]; cbn [lookup].
  - split; [discriminate|]. intros ([|] & b & E & _); discriminate.
  - destruct (lookup i s) as [u|] eqn:L.
    + split.
      * intros X. apply IH in X as (a & b & -> & N). exists ((j, w) :: a), b. auto.
      * intros (a & b & E & N). apply IH. destruct a as [|y a]; cbn [app] in E; inversion E; subst; [|exists a, b; auto].
        exfalso. assert (X : lookup i b = None) by (apply lookup_none; exact N). congruence.
    + destruct (Nat.eqb_spec j i) as [->|D].
      * split; [intros X; inversion X; subst; exists [], s; split; auto; apply lookup_none; auto|]. intros (a & b & E & N). destruct a as [|y a]; cbn [app] in E; inversion E; subst; auto.
        exfalso. apply (proj1 (lookup_none i _) L v). apply in_or_app. cbn. auto.
      * split; [discriminate|]. intros (a & b & E & N). destruct a as [|y a]; cbn [app] in E; inversion E; subst; [congruence|]. exfalso. apply (proj1 (lookup_none i _) L v). apply in_or_app. cbn. auto.
Qed.
Lemma set_nth_len {A} i (v : A) l : List.length (set_nth i v l) = List.length l.
Proof. revert i. induction l; intros [|i]; cbn; auto. Qed.
Lemma set_nth_nth {A} i (v : A) l j : nth_error (set_nth i v l) j = if Nat.eqb i j then match nth_error l j with Some _ => Some v | None => None end else nth_error l j.
Proof.
  revert i j. induction l as [|x l IH]; intros [|i] [|j]; cbn [set_nth nth_error Nat.eqb]; auto; destruct (Nat.eqb _ _); reflexivity.
Qed.
Lemma settle_len sl s : List.length (settle sl s) = List.length sl.
Proof. revert sl. induction s as [|(i, v) s IH]; intros sl; [reflexivity|]. etransitivity; [apply (IH (set_nth i (Some v) sl))|]. apply set_nth_len. Qed.
Lemma settle_nth s : forall sl i o, nth_error sl i = Some o -> nth_error (settle sl s) i = Some (match lookup i s with Some v => Some v | None => o end).
Proof.
  induction s as [|(j, v) s IH]; intros sl i o N; cbn [settle fold_left lookup fst snd]; auto.
  assert (N' : nth_error (set_nth j (Some v) sl) i = Some (if Nat.eqb j i then Some v else o)) by (rewrite set_nth_nth, N; destruct (Nat.eqb j i); auto).
  etransitivity; [apply (IH _ _ _ N')|]. destruct (lookup i s), (Nat.eqb j i); auto.
Qed.
Lemma fill_iff tys : forall slots vs, List.length slots = List.length tys -> (fill_missing tys slots = Ok vs <-> List.length vs = List.length tys /\
  forall i t v, nth_error tys i = Some t -> nth_error vs i = Some v -> nth_error slots i = Some (Some v) \/ nth_error slots i = Some None /\ missing t v).
Proof.
  induction tys as [|t tys IH]; intros [|o slots] vs L; try discriminate; cbn [fill_missing].
  - split; [intros H; inversion H; split; auto; intros [|]; discriminate|]. intros (X & _). destruct vs; [auto|discriminate].
  - inversion L as [L']. split.
    + intros H. match type of H with bind ?e _ = _ => destruct e as [v| | |] eqn:E; cbn [bind] in H; try discriminate end.
      destruct (fill_missing tys slots) as [vs'| | |] eqn:F; cbn [bind] in H; try discriminate. inversion H; subst. apply IH in F; auto. destruct F as (F1 & F2). split; [cbn; lia|].
      intros [|i] t' v'; cbn [nth_error]; [|apply F2]. intros X Y. inversion X; inversion Y; subst. destruct o as [u|]; [inversion E; auto|]. destruct (na_value t') as [u|] eqn:Na; [|discriminate]. inversion E; subst. right. split; auto. now apply na_value_iff.
    + intros (X & Y). destruct vs as [|v vs]; [discriminate|]. inversion X as [X'].
      assert (F : fill_missing tys slots = Ok vs) by (apply IH; auto; split; auto; intros i t' v' A B; apply (Y (S i) t' v'); auto).
      destruct (Y O t v eq_refl eq_refl) as [Z|(Z & Na)]; cbn [nth_error] in Z; inversion Z; subst; cbn [bind]; [rewrite F; reflexivity|]. apply na_value_iff in Na. rewrite Na. cbn [bind]. rewrite F. reflexivity.
Qed.
Lemma settled_nth n s i : (i < n)%nat -> (forall v, nth_error (settle (repeat None n) s) i = Some (Some v) <-> last_set i s v) /\ (nth_error (settle (repeat None n) s) i = Some None <-> never_set i s).
Proof.
  intros L. rewrite (settle_nth s _ _ _ (nth_error_repeat _ L)), <- lookup_none. split; [intros v; rewrite <- lookup_some|]; destruct (lookup i s); split; congruence.
Qed.
Lemma fields_iff tys s vs : fill_missing tys (settle (repeat None (List.length tys)) s) = Ok vs <-> fields_from tys s vs.
Proof.
  rewrite fill_iff by (rewrite settle_len, repeat_length; auto). unfold fields_from. split; intros (L & H); (split; [exact L|]); intros i t v T V;
    (destruct (settled_nth (List.length tys) s i) as (A & B); [apply nth_error_Some; congruence|]); specialize (H i t v T V); specialize (A v); tauto.
Qed.

(** ** Arrays and structs *)
Lemma tok0 c it r : ~ space_c c -> ~ next_is space_c it -> parse_token it [c] = Some r -> it = c :: r.
Proof. intros N S H. apply word_inv in H; auto. Qed.
Lemma bytes_tl c r : bytes (c :: r) -> bytes r. Proof. intros H. now inversion H. Qed.
Lemma close_assoc (c : Z) es d r : c :: es ++ d :: r = (c :: es ++ [d]) ++ r.
Proof. cbn [app]. rewrite <- app_assoc. reflexivity. Qed.
Lemma tok_yes0 c r : ~ space_c c -> parse_token (c :: r) [c] = Some r.
Proof. intros N. apply (token_yes [] c r); auto. Qed.
Lemma tok_no0 c r t : ~ space_c c -> c <> t -> parse_token (c :: r) [t] = None.
Proof. intros N D. apply (token_no [] c r); auto. Qed.

Definition array_means (Ms : list jval -> list meaning) : meaning := fun t v => exists es vs, t = 91 :: es ++ [93] /\ v = VList vs /\ seq (Ms vs) es vs.
Lemma array_starting Ms : starting (array_means Ms).
Proof. intros x v (es & vs & -> & _). exists 91, (es ++ [93]). split; auto. repeat split; auto; lia. Qed.
Lemma fixed_sound0 p M n : sound p M -> sound0 (parse_strided_dim_json p n) (array_means (fun _ => repeat M (Z.to_nat n))).
Proof.
  intros S it v r B N H. unfold parse_strided_dim_json in H. destruct (parse_token it [91]) as [r0|] eqn:T; [|discriminate]. apply tok0 in T; auto. subst it.
  destruct (strided_sound p M S _ _ _ _ _ (bytes_tl _ _ B) H) as (es & vs & -> & -> & Sq). exists (91 :: es ++ [93]). split; [apply close_assoc|]. exists es, vs. auto.
Qed.
Lemma fixed_complete0 p M n : complete p M -> complete0 (parse_strided_dim_json p n) (array_means (fun _ => repeat M (Z.to_nat n))).
Proof.
  intros C x v r (es & vs & -> & -> & Sq) St. rewrite <- close_assoc. unfold parse_strided_dim_json. rewrite tok_yes0 by auto. rewrite (strided_complete p M C _ _ _ Sq). reflexivity.
Qed.
Lemma tuple_sound0 ps Ms : Forall2 sound ps Ms -> sound0 (parse_tuple_json ps) (array_means (fun _ => Ms)).
Proof.
  intros S it v r B N H. unfold parse_tuple_json in H. destruct (parse_token it [91]) as [r0|] eqn:T; [|discriminate]. apply tok0 in T; auto. subst it.
  destruct (tuple_sound ps Ms S _ _ _ _ (bytes_tl _ _ B) H) as (es & vs & -> & -> & Sq). exists (91 :: es ++ [93]). split; [apply close_assoc|]. exists es, vs. auto.
Qed.
Lemma tuple_complete0 ps Ms : Forall2 complete ps Ms -> Forall starting Ms -> complete0 (parse_tuple_json ps) (array_means (fun _ => Ms)).
Proof.
  intros C Ss x v r (es & vs & -> & -> & Sq) St. rewrite <- close_assoc. unfold parse_tuple_json. rewrite tok_yes0 by auto. rewrite (tuple_complete Ms es vs Sq ps C Ss). reflexivity.
Qed.
Lemma var_sound0 p M : sound p M -> sound0 (parse_var_dim_json p) (array_means (fun vs => repeat M (List.length vs))).
Proof.
  intros S it v r B N H. unfold parse_var_dim_json in H. destruct (parse_token it [91]) as [r0|] eqn:T; [|discriminate]. apply tok0 in T; auto. subst it.
  destruct (parse_token r0 [93]) as [r1|] eqn:T2.
  - apply token_inv in T2 as (w & W & ->); auto. inversion H; subst. exists (91 :: w ++ [93]). split; [apply close_assoc|]. exists w, []. repeat split; auto. now constructor.
  - destruct (var_sound p M S _ _ _ _ _ _ _ (bytes_tl _ _ B) H) as (es & vs & -> & -> & _ & Sq). exists (91 :: es ++ [93]). split; [apply close_assoc|]. exists es, vs. auto.
Qed.
Lemma var_complete0 p M : complete p M -> starting M -> complete0 (parse_var_dim_json p) (array_means (fun vs => repeat M (List.length vs))).
Proof.
  intros C Ss x v r (es & vs & -> & -> & Sq) St. rewrite <- close_assoc. unfold parse_var_dim_json. rewrite tok_yes0 by auto. destruct vs as [|v0 vs].
  - inversion Sq; subst. rewrite token_yes by auto. reflexivity.
  - assert (T : parse_token (es ++ 93 :: r) [93] = None). { inversion Sq; subst; rewrite <- !app_assoc; cbn [app]; apply starts_token; eauto. } rewrite T.
    rewrite (var_complete p M C Ss (v0 :: vs) es); auto; try lia; [discriminate|]. rewrite app_length. cbn. lia.
Qed.
Definition struct_means (names : list (list Z)) (tys : list jty) (Ms : list meaning) : meaning := fun t v => exists vs, v = VList vs /\
      ((exists es, t = 91 :: es ++ [93] /\ seq Ms es vs) \/
       (exists ms s, t = 123 :: ms ++ [125] /\ fields_from tys s vs /\
          (ws ms /\ s = [] \/ all_members names Ms ms s))).
Lemma struct_starting names tys Ms : starting (struct_means names tys Ms).
Proof.
  intros x v (vs & _ & [(es & -> & _)|(ms & s & -> & _)]); eexists _, _; (split; [reflexivity|]); repeat split; auto; lia.
Qed.
Lemma struct_sound0 names tys ps Ms : Forall2 sound ps Ms -> sound0 (parse_struct_json names tys ps) (struct_means names tys Ms).
Proof.
  intros S it v r B N H. unfold parse_struct_json in H. destruct (parse_token it [123]) as [r0|] eqn:T.
  - apply tok0 in T; auto. subst it. match type of H with bind ?e _ = _ => destruct e as [(slots, r1)| | |] eqn:E; cbn [bind] in H; try discriminate end.
    destruct (fill_missing tys slots) as [vs| | |] eqn:Fm; cbn [bind] in H; try discriminate. inversion H; subst. destruct (parse_token r0 [125]) as [r2|] eqn:T2.
    + inversion E; subst. apply token_inv in T2 as (w & W & ->); auto. exists (123 :: w ++ [125]). split; [apply close_assoc|]. exists vs. split; auto. right. exists w, []. split; auto. split; auto. now apply fields_iff.
    + destruct (object_sound names ps Ms S _ _ _ _ _ (bytes_tl _ _ B) E) as (ms & s & -> & AM & ->). exists (123 :: ms ++ [125]). split; [apply close_assoc|]. exists vs. split; auto. right. exists ms, s. split; auto. split; auto. now apply fields_iff.
  - destruct (parse_token it [91]) as [r0|] eqn:T1; [|discriminate]. apply tok0 in T1; auto. subst it.
    destruct (tuple_sound ps Ms S _ _ _ _ (bytes_tl _ _ B) H) as (es & vs & -> & -> & Sq). exists (91 :: es ++ [93]). split; [apply close_assoc|]. exists vs. split; auto. left. exists es. auto.
Qed.
Lemma members_token names Ms ms s r : all_members names Ms ms s -> parse_token (ms ++ r) [125] = None.
Proof.
  intros H. assert (O : forall m s r, one_member names Ms m s -> parse_token (m ++ r) [125] = None).
  { intros m s0 r0 O. inversion O; subst; rewrite <- !app_assoc; cbn [app]; apply starts_token; auto using quoted_starts. }
  inversion H; subst; [eauto|]. rewrite <- app_assoc. eauto.
Qed.
Lemma struct_complete0 names tys ps Ms : Forall2 complete ps Ms -> Forall starting Ms -> complete0 (parse_struct_json names tys ps) (struct_means names tys Ms).
Proof.
  intros C Ss x v r (vs & -> & [(es & -> & Sq)|(ms & s & -> & Ff & Al)]) St; rewrite <- close_assoc; unfold parse_struct_json.
  - rewrite tok_no0 by (auto; lia). rewrite tok_yes0 by auto. rewrite (tuple_complete Ms es vs Sq ps C Ss). reflexivity.
  - rewrite tok_yes0 by auto. apply fields_iff in Ff. destruct Al as [(W & ->)|AM].
    + rewrite token_yes by auto. cbn [bind]. cbn [settle fold_left] in Ff. rewrite Ff. reflexivity.
    + rewrite (members_token _ _ _ _ _ AM). rewrite (object_complete names ps Ms ms s AM C) by (rewrite app_length; cbn; lia). cbn [bind]. rewrite Ff. reflexivity.
Qed.

(** ** All types *)
Section Ind.
Variable P : jty -> Prop.
Hypotheses (HB : P JBool) (HI : forall s W, P (JInt s W)) (HS : P JString) (HOB : P JOptBool) (HOI : forall W, P (JOptInt W)) (HOS : P JOptString)
  (HF : forall n el, P el -> P (JFixed n el)) (HV : forall el, P el -> P (JVar el)) (HT : forall tys, Forall P tys -> P (JTuple tys)) (HR : forall names tys, Forall P tys -> P (JStruct names tys)).
Fixpoint jty_ind' (t : jty) : P t :=
  match t with
  | JBool => HB | JInt s W => HI s W | JString => HS | JOptBool => HOB | JOptInt W => HOI W | JOptString => HOS
  | JFixed n el => HF n el (jty_ind' el) | JVar el => HV el (jty_ind' el)
  | JTuple tys => HT tys ((fix go l : Forall P l := match l with [] => Forall_nil P | x :: r => Forall_cons x (jty_ind' x) (go r) end) tys)
  | JStruct names tys => HR names tys ((fix go l : Forall P l := match l with [] => Forall_nil P | x :: r => Forall_cons x (jty_ind' x) (go r) end) tys)
  end.
End Ind.
Definition reads (tp : jty) : Prop := sound (parse_value tp) (means actual tp) /\ complete (parse_value tp) (means actual tp) /\ starting (means actual tp).
Lemma Forall_map2 (R : parser -> meaning -> Prop) tys : Forall (fun t => R (parse_value t) (means actual t)) tys -> Forall2 R (map (fun t => parse_value t) tys) (map (fun t => means actual t) tys).
Proof. induction 1; cbn [map]; constructor; auto. Qed.
Lemma wrap_reads p P : sound0 p P -> complete0 p P -> starting P -> sound (fun it => p (skip_whitespace it)) P /\ complete (fun it => p (skip_whitespace it)) P /\ starting P.
Proof. intros S C T. auto using wrap_sound, wrap_complete. Qed.
Lemma all_reads tp : reads tp.
Proof.
  induction tp as [|s W| | |W| |n el (S & C & T)|el (S & C & T)|tys IH|names tys IH] using jty_ind'.
  - exact (wrap_reads _ _ bool_sound0 bool_complete0 bool_starting).
  - exact (wrap_reads _ _ (int_sound0 s W) (int_complete0 s W) (int_starting actual s W)).
  - exact (wrap_reads _ _ string_sound0 string_complete0 string_starting).
  - exact (wrap_reads _ _ (option_sound0 JOptBool I) (option_complete0 JOptBool) (option_starting actual JOptBool)).
  - exact (wrap_reads _ _ (option_sound0 (JOptInt W) I) (option_complete0 (JOptInt W)) (option_starting actual (JOptInt W))).
  - exact (wrap_reads _ _ (option_sound0 JOptString I) (option_complete0 JOptString) (option_starting actual JOptString)).
  - exact (wrap_reads _ _ (fixed_sound0 _ _ n S) (fixed_complete0 _ _ n C) (array_starting _)).
  - exact (wrap_reads _ _ (var_sound0 _ _ S) (var_complete0 _ _ C T) (array_starting _)).
  - assert (S : Forall2 sound (map (fun t => parse_value t) tys) (map (fun t => means actual t) tys)) by (apply Forall_map2; eapply Forall_impl; [|exact IH]; intros a (? & ? & ?); auto).
    assert (C : Forall2 complete (map (fun t => parse_value t) tys) (map (fun t => means actual t) tys)) by (apply Forall_map2; eapply Forall_impl; [|exact IH]; intros a (? & ? & ?); auto).
    assert (T : Forall starting (map (fun t => means actual t) tys)) by (apply Forall_map; eapply Forall_impl; [|exact IH]; intros a (? & ? & ?); auto).
    exact (wrap_reads _ _ (tuple_sound0 _ _ S) (tuple_complete0 _ _ C T) (array_starting _)).
  - assert (S : Forall2 sound (map (fun t => parse_value t) tys) (map (fun t => means actual t) tys)) by (apply Forall_map2; eapply Forall_impl; [|exact IH]; intros a (? & ? & ?); auto).
    assert (C : Forall2 complete (map (fun t => parse_value t) tys) (map (fun t => means actual t) tys)) by (apply Forall_map2; eapply Forall_impl; [|exact IH]; intros a (? & ? & ?); auto).
    assert (T : Forall starting (map (fun t => means actual t) tys)) by (apply Forall_map; eapply Forall_impl; [|exact IH]; intros a (? & ? & ?); auto).
    exact (wrap_reads _ _ (struct_sound0 names tys _ _ S) (struct_complete0 names tys _ _ C T) (struct_starting names tys _)).
Qed.

Lemma parse_complete tp t v : text_means actual tp t v -> parse_json tp t = Ok v.
Proof.
  intros (w & x & w' & W & W' & -> & M). destruct (all_reads tp) as (_ & C & _). unfold parse_json. rewrite (C w x v w') by auto using stop_wsn. cbn [bind]. rewrite skip_all by auto. reflexivity.
Qed.
Lemma parse_sound tp t v : bytes t -> parse_json tp t = Ok v -> text_means actual tp t v.
Proof.
  intros B H. destruct (all_reads tp) as (S & _ & _). unfold parse_json in H. destruct (parse_value tp t) as [(u, r)| | |] eqn:P; cbn [bind] in H; try discriminate.
  destruct (at_end (skip_whitespace r)) eqn:A; [|discriminate]. inversion H; subst. destruct (S _ _ _ B P) as (w & x & E & W & M). apply at_end_iff in A. destruct (skip_ws_inv r) as (w' & E' & W' & _). rewrite A, app_nil_r in E'. subst.
  exists w, x, w'. auto.
Qed.
