(** Proofs about parse_json: what is accepted is JSON, the ideal reading is
    accepted, and nothing else than a value or an exception comes out. *)
From Verif Require Import Base ParseIntModel ParseIntSpec ParseIntProofs ScanModel ScanSpec ScanProofs ScanProps EncodingModel EncodingSpec EncodingProofs
  EscapeModel EscapeSpec EscapeProofs EscapeProps JsonModel JsonSpec JsonProofs JsonParse JsonRead.
Open Scope Z_scope.

(** ** Accepted texts are JSON *)
Definition within (M : meaning) : Prop := forall x v, M x v -> relaxed Value x.
Lemma quoted_json b : dq_body b -> relaxed Value (quoted b). Proof. apply g_string. Qed.
Lemma denotes_json b w : dq_denotes b w -> relaxed Value (quoted b). Proof. intros D. apply quoted_json. eapply denotes_body; eauto. Qed.
Lemma bool_within : within bool_means.
Proof. intros x v H. inversion H; subst; try (eapply denotes_json; eauto; fail); [apply g_true|apply g_false|apply g_number, json_number_1|apply g_number, json_number_0]. Qed.
Lemma int_within rd sgn W : within (int_means rd sgn W).
Proof. intros x v H. inversion H; subst; [now apply g_number|now apply quoted_json]. Qed.
Lemma string_within : within string_means.
Proof. intros x v H. inversion H; subst. eapply denotes_json; eauto. Qed.
Lemma option_within rd t : within (option_means rd t).
Proof. intros x v H. inversion H; subst; try (eapply denotes_json; eauto; fail); [apply g_null|eapply bool_within; eauto|now apply g_number|eapply string_within; eauto]. Qed.
Lemma seq_within Ms es vs : seq Ms es vs -> Forall within Ms -> ws es \/ relaxed Elements es.
Proof.
  induction 1 as [w W|M w x w' v W Mx W'|M Ms w x w' v es vs W Mx W' NE Sq IH]; intros F; auto; inversion F as [|? ? Wx F']; subst; right.
  - apply g_one. constructor; auto. eapply Wx; eauto.
  - assert (E : relaxed Element (w ++ x ++ w')) by (constructor; auto; eapply Wx; eauto).
    destruct (IH F') as [W2|E2]; [|replace (w ++ x ++ w' ++ 44 :: es) with ((w ++ x ++ w') ++ 44 :: es) by (now rewrite <- !app_assoc); apply g_more; auto].
    exfalso. assert (X : forall Ms es vs, seq Ms es vs -> Forall within Ms -> Ms <> [] -> ws es -> False).
    { clear. intros Ms es vs Sq F NE W. assert (V : forall (M : meaning) w x r v, within M -> M x v -> ws (w ++ x ++ r) -> False).
      { intros M w x r v Wx Mx A. apply Forall_app in A as (_ & A). apply Forall_app in A as (A & _). destruct (value_starts _ _ _ (Wx _ _ Mx)) as (c & y & -> & N & _). inversion A; contradiction. }
      inversion Sq; subst; [congruence| |]; inversion F; subst; eauto. }
    eauto.
Qed.
Lemma array_within Ms : (forall vs, Forall within (Ms vs)) -> within (array_means Ms).
Proof. intros F x v (es & vs & -> & _ & Sq). destruct (seq_within _ _ _ Sq (F vs)); [now apply g_empty_array|now apply g_array]. Qed.
Lemma member_within names Ms m s : Forall within Ms -> one_member names Ms m s -> relaxed Member m.
Proof.
  intros F H. inversion H as [w b n w' w'' x w3 i M v W D W' W'' W3 FA NM Mx|w b n w' w'' x w3 W D W' W'' W3 NI Rx]; subst; apply (g_member space_c dq_body w b w' (w'' ++ x ++ w3)); auto; try (eapply denotes_body; eauto; fail); constructor; auto.
  rewrite Forall_forall in F. eapply (F M); eauto. eapply nth_error_In; eauto.
Qed.
Lemma members_within names Ms ms s : Forall within Ms -> all_members names Ms ms s -> relaxed Members ms.
Proof. intros F. induction 1 as [m s O|m s ms s' O A IH]; [apply g_one_member; exact (member_within _ _ _ _ F O)|apply g_more_members; [exact (member_within _ _ _ _ F O)|exact IH]]. Qed.
Lemma struct_within names tys Ms : Forall within Ms -> within (struct_means names tys Ms).
Proof.
  intros F x v (vs & _ & [(es & -> & Sq)|(ms & s & -> & _ & [(W & _)|A])]).
  - destruct (seq_within _ _ _ Sq F); [now apply g_empty_array|now apply g_array].
  - now apply g_empty_object.
  - apply g_object. eapply members_within; eauto.
Qed.
Lemma Forall_repeat {A} (P : A -> Prop) x n : P x -> Forall P (repeat x n).
Proof. intros H. induction n; cbn; constructor; auto. Qed.
Lemma means_within rd tp : within (means rd tp).
Proof.
  induction tp as [|s W| | |W| |n el IH|el IH|tys IH|names tys IH] using jty_ind'.
  - exact bool_within. - apply int_within. - exact string_within. - apply option_within. - apply option_within. - apply option_within.
  - apply (array_within (fun _ => repeat (means rd el) (Z.to_nat n))). intros _. now apply Forall_repeat.
  - apply (array_within (fun vs => repeat (means rd el) (List.length vs))). intros vs. now apply Forall_repeat.
  - apply (array_within (fun _ => map (fun t => means rd t) tys)). intros _. now apply Forall_map.
  - apply (struct_within names tys (map (fun t => means rd t) tys)). now apply Forall_map.
Qed.
Lemma text_means_json rd tp t v : text_means rd tp t v -> relaxed Element t.
Proof. intros (w & x & w' & W & W' & -> & M). constructor; auto. eapply means_within; eauto. Qed.

(** ** More readings of integers accept more texts *)
Definition sub (M M' : meaning) : Prop := forall x v, M x v -> M' x v.
Lemma seq_sub Ms es vs : seq Ms es vs -> forall Ms', Forall2 sub Ms Ms' -> seq Ms' es vs.
Proof.
  induction 1 as [w W|M w x w' v W Mx W'|M Ms w x w' v es vs W Mx W' NE Sq IH]; intros Ms' F; inversion F as [|? M' ? Ms2 Sx F']; subst.
  - now constructor.
  - inversion F'; subst. constructor; auto.
  - constructor; auto. intros ->. inversion F'; subst; congruence.
Qed.
Lemma member_sub names Ms Ms' m s : Forall2 sub Ms Ms' -> one_member names Ms m s -> one_member names Ms' m s.
Proof.
  intros F H. inversion H as [w b n w' w'' x w3 i M v W D W' W'' W3 FA NM Mx|w b n w' w'' x w3 W D W' W'' W3 NI Rx]; subst.
  - destruct (Forall2_nth _ _ _ F _ _ NM) as (M' & NM' & S). eapply (om_field names Ms' w b n w' w'' x w3 i M' v); auto.
  - apply (om_other names Ms' w b n w' w'' x w3); auto.
Qed.
Lemma members_sub names Ms Ms' ms s : Forall2 sub Ms Ms' -> all_members names Ms ms s -> all_members names Ms' ms s.
Proof. intros F. induction 1; [apply am_one|apply am_more]; eauto using member_sub. Qed.
Lemma repeat_sub M M' n : sub M M' -> Forall2 sub (repeat M n) (repeat M' n).
Proof. intros S. induction n; cbn; constructor; auto. Qed.
Definition sub_rd (rd rd' : bool -> Z -> list Z -> Z -> Prop) : Prop := forall sgn W m v, W = 8 \/ W = 16 \/ W = 32 \/ W = 64 -> rd sgn W m v -> rd' sgn W m v.
Lemma wf_list tys : fold_right (fun t P => well_formed t /\ P) True tys <-> Forall well_formed tys.
Proof. induction tys; cbn; [split; auto|]. rewrite IHtys. split; [intros (A & B); auto|intros H; inversion H; auto]. Qed.
Lemma means_sub rd rd' tp : sub_rd rd rd' -> well_formed tp -> sub (means rd tp) (means rd' tp).
Proof.
  intros R. induction tp as [|s W| | |W| |n el IH|el IH|tys IH|names tys IH] using jty_ind'; intros WF; cbn [well_formed] in WF; try rewrite wf_list in WF.
  - intros x v H; exact H.
  - intros x v H. inversion H; subst; [apply im_number|apply im_quoted]; auto.
  - intros x v H; exact H.
  - intros x v H. inversion H; subst; [apply op_null; auto|apply op_bool; auto|eapply op_bool_na; eauto].
  - intros x v H. inversion H; subst; [apply op_null; auto|apply op_number; auto|eapply op_quoted; eauto|eapply op_int_na; eauto].
  - intros x v H. inversion H; subst; [apply op_null; auto|apply op_string; auto].
  - intros x v (es & vs & E & V & Sq). exists es, vs. split; auto. split; auto. eapply seq_sub; eauto. apply repeat_sub. tauto.
  - intros x v (es & vs & E & V & Sq). exists es, vs. split; auto. split; auto. eapply seq_sub; eauto. apply repeat_sub. tauto.
  - assert (F : Forall2 sub (map (fun t => means rd t) tys) (map (fun t => means rd' t) tys)). { clear - IH WF. induction WF; inversion IH; subst; cbn [map]; constructor; auto. }
    intros x v (es & vs & E & V & Sq). exists es, vs. split; auto. split; auto. eapply seq_sub; eauto.
  - destruct WF as (_ & WF). assert (F : Forall2 sub (map (fun t => means rd t) tys) (map (fun t => means rd' t) tys)). { clear - IH WF. induction WF; inversion IH; subst; cbn [map]; constructor; auto. }
    intros x v (vs & V & H). exists vs. split; auto. destruct H as [(es & E & Sq)|(ms & s & E & Ff & H)]; [left; exists es; split; auto; eapply seq_sub; eauto|right]. exists ms, s. split; auto. split; auto. destruct H as [H|H]; auto. right. eapply members_sub; eauto.
Qed.
Lemma reads_actual : sub_rd reads_as actual.
Proof.
  intros sgn W m v HW (neg & s & n & -> & N & L & -> & R & X). unfold actual. apply string_to_number_exact; auto. lia.
Qed.
Lemma parse_ideal tp t v : well_formed tp -> text_means reads_as tp t v -> parse_json tp t = Ok v.
Proof.
  intros WF (w & x & w' & W & W' & E & M). apply parse_complete. exists w, x, w'. split; auto. split; auto. split; auto. eapply means_sub; eauto using reads_actual.
Qed.

(** ** A value or an exception *)
Definition fine {A} (o : outcome A) : Prop := match o with Ok _ | Throw _ => True | _ => False end.
Lemma fine_bind {A B} (e : outcome A) (k : A -> outcome B) : fine e -> (forall a, e = Ok a -> fine (k a)) -> fine (bind e k).
Proof. destruct e; cbn; auto. Qed.
Lemma is_s64_iff x : is_s64 x = true <-> s64 x.
Proof. unfold is_s64, s64, INT64_MIN, INT64_MAX. rewrite andb_true_iff, !Z.leb_le. lia. Qed.
Lemma stn_fine sgn W s : (sgn = true -> W <> 64) -> W = 8 \/ W = 16 \/ W = 32 \/ W = 64 -> fine (string_to_number sgn W s).
Proof.
  intros N HW. unfold string_to_number. destruct (ParseIntModel.parse_na s); [destruct sgn; cbn; auto|]. destruct (strip_minus s) as (neg, t).
  destruct (parse_u_total 64 t) as [(u & E)|(e & E)]; rewrite E; cbn [bind fine]; auto. pose proof (parse_u_range 64 t u ltac:(lia) E) as R. destruct sgn.
  - unfold assign_signed. destruct (overflow_check W u neg) eqn:O; cbn [bind fine]; auto. destruct neg; cbn [bind fine]; auto. unfold neg64, chk64.
    destruct (is_s64 (- cast true 64 u)) eqn:S; cbn [bind fine]; auto.
    destruct (Z.eq_dec u (2 ^ 63)) as [->|D]; [exfalso; destruct HW as [ -> | [ -> | [ -> | -> ]]]; [vm_compute in O; discriminate..|now apply N]|].
    exfalso. assert (X : s64 (- cast true 64 u)); [|rewrite (proj2 (is_s64_iff _) X) in S; discriminate].
    assert (C : cast true 64 u = if 2 ^ 63 <=? u then u - 2 ^ 64 else u) by (unfold cast; rewrite Z.mod_small by lia; reflexivity).
    rewrite C. unfold s64. destruct (Z.leb_spec (2 ^ 63) u); lia.
  - destruct (_ || _); exact I.
Qed.

(** Parsers that end well on every text of bytes. *)
Definition fine_p (p : parser) : Prop := forall it, bytes it -> fine (p it).
Lemma skip_bytes it : bytes it -> bytes (skip_whitespace it).
Proof. intros B. destruct (skip_ws_inv it) as (w & E & _). rewrite E in B. apply bytes_app in B. tauto. Qed.
Lemma token_fine {A} it t (k : list Z -> outcome A) (d : outcome A) : (forall r, parse_token it t = Some r -> fine (k r)) -> fine d -> fine (match parse_token it t with Some r => k r | None => d end).
Proof. destruct (parse_token it t); auto. Qed.
Lemma dq_fine it : fine (parse_doublequote_string_no_ws it).
Proof. destruct (dq_total it) as [(x & E)|E]; rewrite E; exact I. Qed.
Lemma number_fine it : fine (json_parse_number it).
Proof. destruct (json_noub it) as (x & E). rewrite E. exact I. Qed.
Lemma content_fine b e : dq_body b -> fine (content b e).
Proof. intros B. unfold content. destruct e; [|exact I]. destruct (unescape_dichotomy b B) as [(w & _ & E)|(_ & E)]; rewrite E; exact I. Qed.
Lemma located_fine {A} (o : outcome A) : fine o -> fine (located o).
Proof. destruct o; auto. Qed.
Lemma bool_word_fine w : fine (parse_bool_checked w).
Proof.
  destruct (C48_parse_bool_checked w) as (A & B & C). destruct (parse_bool_checked w) as [[]| | |] eqn:E; try exact I; exfalso;
    (assert (X : ~ true_word w) by (intros T; apply A in T; discriminate)); (assert (Y : ~ false_word w) by (intros T; apply B in T; discriminate)); specialize (C X Y); discriminate.
Qed.
Lemma set_string_fine w : bytes w -> fine (set_from_utf8_string w).
Proof.
  intros B. unfold set_from_utf8_string. pose proof (utf8_copy_inv (List.length w) w [] ((len w + 16) * 1124 / 1024) B (Nat.le_refl _) (cap16 w)) as H.
  assert (L : len (@nil Z) <= (len w + 16) * 1124 / 1024) by (pose proof (cap16 w); unfold len in *; cbn [List.length]; lia). specialize (H L). destruct (utf8_copy _ w [] _); cbn; auto.
Qed.
Lemma content_bytes b e w : dq_body b -> (e = true <-> In 92 b) -> bytes b -> content b e = Ok w -> bytes w.
Proof. intros D E B H. apply content_iff in H; auto. eapply denotes_bytes; eauto. Qed.
Lemma bool_fine : fine_p parse_bool_json.
Proof.
  intros it B. unfold parse_bool_json. apply token_fine; [intros; exact I|]. apply token_fine; [intros; exact I|]. apply token_fine; [intros; exact I|].
  apply fine_bind; [apply number_fine|]. intros [(m, r)|] E.
  - destruct m as [|c [|]]; try exact I. destruct (c =? 48); [exact I|]. destruct (c =? 49); exact I.
  - apply fine_bind; [apply dq_fine|]. intros [((b, e), r)|] D; [|exact I]. apply dq_inv in D as (_ & Bd & _). apply fine_bind; [now apply content_fine|]. intros w _. apply fine_bind; [apply bool_word_fine|]. intros; exact I.
Qed.
Lemma int_fine sgn W : (sgn = true -> W <> 64) -> W = 8 \/ W = 16 \/ W = 32 \/ W = 64 -> fine_p (parse_number_json sgn W).
Proof.
  intros N HW it B. unfold parse_number_json. apply fine_bind; [apply number_fine|]. intros [(m, r)|] E.
  - apply fine_bind; [now apply stn_fine|]. intros; exact I.
  - apply fine_bind; [apply dq_fine|]. intros [((b, e), r)|] D; [|exact I]. apply dq_inv in D as (_ & Bd & _). apply fine_bind; [|intros; exact I]. apply located_fine. destruct e; [|now apply stn_fine].
    apply fine_bind; [apply (content_fine b true Bd)|]. intros; now apply stn_fine.
Qed.
Lemma string_fine : fine_p parse_string_json.
Proof.
  intros it B. unfold parse_string_json. apply fine_bind; [apply dq_fine|]. intros [((b, e), r)|] D; [|exact I]. pose proof (string_body _ _ _ _ D (skip_bytes _ B)) as Bb. apply dq_inv in D as (_ & Bd & Es).
  apply fine_bind; [|intros; exact I]. apply located_fine, fine_bind; [now apply content_fine|]. intros w Cw. apply set_string_fine. eapply content_bytes; eauto.
Qed.
Lemma option_fine t : well_formed t -> no_int64 t -> fine_p (parse_option_json t).
Proof.
  intros WF N it0 B0. unfold parse_option_json. cbv zeta. pose proof (skip_bytes _ B0) as B. set (it := skip_whitespace it0) in *. clearbody it. clear B0. apply token_fine; [intros; destruct (na_value t); exact I|].
  apply fine_bind; [apply dq_fine|]. intros [((b, e), r)|] D.
  - pose proof (string_body _ _ _ _ D B) as Bb. apply dq_inv in D as (_ & Bd & Es). apply fine_bind; [|intros; exact I]. apply located_fine, fine_bind; [now apply content_fine|]. intros w Cw.
    assert (Bw : bytes w) by (eapply content_bytes; eauto). unfold set_option. destruct t; cbn [negb andb]; try exact I.
    + destruct (ParseIntModel.parse_na w); [exact I|]. apply fine_bind; [apply bool_word_fine|]. intros; exact I.
    + destruct (ParseIntModel.parse_na w); [exact I|]. apply fine_bind; [apply stn_fine; auto|]. intros; exact I.
    + now apply set_string_fine.
  - destruct t; try exact I.
    + apply token_fine; [intros; exact I|]. apply token_fine; [intros; exact I|]. apply fine_bind; [apply number_fine|]. intros [(m, r)|] _; [|exact I]. destruct (compare_range_to_literal m (lit "1")); [exact I|]. destruct (compare_range_to_literal m (lit "0")); exact I.
    + apply fine_bind; [apply number_fine|]. intros [(m, r)|] _; [|exact I]. apply fine_bind; [apply stn_fine; auto|]. intros; exact I.
Qed.
(** With the soundness lemmas of JsonRead.v the rest of the text is bytes, and no
    longer than the text. *)
Lemma sound_rest p M it v r : sound p M -> bytes it -> p it = Ok (v, r) -> bytes r /\ (List.length r <= List.length it)%nat.
Proof. intros S B P. destruct (S _ _ _ B P) as (w & x & -> & _). apply bytes_app in B as (_ & B). apply bytes_app in B as (_ & B). split; auto. rewrite !app_length. lia. Qed.
Lemma token_rest t it r : ~ space_c t -> bytes it -> parse_token it [t] = Some r -> bytes r /\ (List.length r < List.length it)%nat.
Proof. intros N B T. apply token_inv in T as (w & W & ->); auto. apply bytes_app in B as (_ & B). split; [now inversion B|]. rewrite app_length. cbn. lia. Qed.
Lemma strided_fine p M : fine_p p -> sound p M -> forall k acc it, bytes it -> fine (strided_loop p k acc it).
Proof.
  intros F S. induction k as [|k IH]; intros acc it B; cbn [strided_loop]; [apply token_fine; [intros|]; exact I|]. apply fine_bind; [auto|]. intros (v, r) P. destruct (sound_rest _ _ _ _ _ S B P) as (Br & _).
  destruct k as [|k]; [auto|]. apply token_fine; [|exact I]. intros r' T. apply IH. eapply (token_rest 44); eauto.
Qed.
Lemma tuple_fine ps Ms : Forall2 (fun p M => fine_p p /\ sound p M) ps Ms -> forall acc it, bytes it -> fine (tuple_loop ps acc it).
Proof.
  induction 1 as [|p M ps Ms (F & S) FF IH]; intros acc it B; cbn [tuple_loop]; [apply token_fine; [intros|]; exact I|]. apply fine_bind; [apply F, skip_bytes, B|]. intros (v, r) P.
  destruct (sound_rest _ _ _ _ _ S (skip_bytes _ B) P) as (Br & _). destruct ps as [|p' ps]; [auto|]. apply token_fine; [|exact I]. intros r' T. apply IH. eapply (token_rest 44); eauto.
Qed.
Lemma var_fine p M : fine_p p -> sound p M -> forall f size alloc acc it, bytes it -> (List.length it < f)%nat -> 0 <= size <= alloc -> 0 < alloc -> fine (var_loop f p size alloc acc it).
Proof.
  intros F S. induction f as [|f IH]; intros size alloc acc it B L A1 A2; [lia|]. cbn [var_loop]. cbv zeta.
  set (alloc' := if size =? alloc then alloc * 2 else alloc). assert (AL : size < alloc') by (unfold alloc'; destruct (Z.eqb_spec size alloc); lia). destruct (Z.leb_spec alloc' size); [lia|].
  apply fine_bind; [auto|]. intros (v, r) P. destruct (sound_rest _ _ _ _ _ S B P) as (Br & Lr). apply token_fine.
  - intros r' T. destruct (token_rest 44 r r' nsp44 Br T) as (B' & L'). apply IH; auto; lia.
  - apply token_fine; [intros|]; exact I.
Qed.
Lemma object_fine names ps Ms : Forall2 (fun p M => fine_p p /\ sound p M) ps Ms -> (List.length names <= List.length ps)%nat -> forall f slots it, bytes it -> (List.length it < f)%nat -> fine (object_loop f names ps slots it).
Proof.
  intros F LN. induction f as [|f IH]; intros slots it B L; [lia|]. cbn [object_loop]. apply fine_bind; [apply dq_fine|]. intros [((b, e), r)|] D; [|exact I].
  pose proof (skip_bytes _ B) as Bs. destruct (skip_ws_inv it) as (w & E0 & _). apply dq_inv in D as (E & Bd & Es). rewrite E in E0, Bs. apply bytes_app in Bs as (_ & Br).
  assert (Lr : (List.length r < List.length it)%nat) by (rewrite E0, !app_length; cbn; rewrite app_length; cbn; lia). apply token_fine; [|exact I]. intros r1 T. destruct (token_rest 58 r r1 nsp58 Br T) as (B1 & L1).
  apply fine_bind; [now apply content_fine|]. intros n _.
  assert (K : forall (o : outcome (list (option jval) * list Z)), fine o -> (forall sl r2, o = Ok (sl, r2) -> bytes r2 /\ (List.length r2 <= List.length r1)%nat) ->
    fine (do (slots', r2) <- o; match parse_token r2 [44] with Some r3 => object_loop f names ps slots' r3 | None => match parse_token r2 [125] with Some r3 => Ok (slots', r3) | None => Throw "json_parse_error" end end)).
  { intros o Fo R. apply fine_bind; auto. intros (sl, r2) E2. destruct (R _ _ E2) as (B2 & L2). apply token_fine.
    - intros r3 T3. destruct (token_rest 44 r2 r3 nsp44 B2 T3) as (B3 & L3). apply IH; auto. lia.
    - apply token_fine; [intros|]; exact I. }
  apply K.
  - pose proof (field_index_iff names n) as FI. destruct (field_index names n) as [i|].
    + destruct FI as (FI & _). assert (Li : (i < List.length ps)%nat) by (apply Nat.lt_le_trans with (List.length names); auto; apply nth_error_Some; congruence).
      destruct (nth_error ps i) as [p|] eqn:Np; [|apply nth_error_None in Np; lia]. destruct (Forall2_nth _ _ _ F _ _ Np) as (M & _ & Fp & _). apply fine_bind; auto. intros (v, r2) _. exact I.
    + apply fine_bind; [|intros; exact I]. destruct (proj2 (skip_json_value_iff r1)) as [(x & X)|X]; rewrite X; exact I.
  - intros sl r2 H. destruct (field_index names n) as [i|].
    + destruct (nth_error ps i) as [p|] eqn:Np; [|discriminate]. destruct (Forall2_nth _ _ _ F _ _ Np) as (M & _ & Fp & Sp). destruct (p r1) as [(v, r3)| | |] eqn:P; cbn [bind] in H; try discriminate. inversion H; subst. eapply sound_rest; eauto.
    + destruct (skip_json_value r1) as [r3| | |] eqn:SK; cbn [bind] in H; try discriminate. inversion H; subst. destruct (proj1 (skip_json_value_iff r1) _ SK) as (w'' & x & -> & _). apply bytes_app in B1 as (_ & B1). apply bytes_app in B1 as (_ & B1). split; auto. rewrite !app_length. lia.
Qed.
Lemma fill_fine tys : forall slots, List.length slots = List.length tys -> fine (fill_missing tys slots).
Proof.
  induction tys as [|t tys IH]; intros [|o slots] L; try discriminate; cbn [fill_missing]; try exact I. apply fine_bind; [destruct o; [exact I|destruct (na_value t); exact I]|]. intros v _. apply fine_bind; [apply IH; now inversion L|]. intros; exact I.
Qed.
Lemma ni_list tys : fold_right (fun t P => no_int64 t /\ P) True tys <-> Forall no_int64 tys.
Proof. induction tys; cbn; [split; auto|]. rewrite IHtys. split; [intros (A & B); auto|intros H; inversion H; auto]. Qed.
Lemma value_fine tp : well_formed tp -> no_int64 tp -> fine_p (parse_value tp).
Proof.
  induction tp as [|s W| | |W| |n el IH|el IH|tys IH|names tys IH] using jty_ind'; intros WF NI; cbn [well_formed no_int64] in WF, NI; try rewrite wf_list in WF; try rewrite ni_list in NI; intros it0 B0; pose proof (skip_bytes _ B0) as B.
  - apply (bool_fine _ B).
  - apply (int_fine s W NI WF _ B).
  - apply (string_fine _ B).
  - apply (option_fine JOptBool I I _ B).
  - apply (option_fine (JOptInt W) WF NI _ B).
  - apply (option_fine JOptString I I _ B).
  - change (fine (parse_strided_dim_json (parse_value el) n (skip_whitespace it0))). unfold parse_strided_dim_json. apply token_fine; [|exact I]. intros r T. apply (strided_fine _ _ (IH (proj2 WF) NI) (proj1 (all_reads el))). eapply (token_rest 91); eauto.
  - change (fine (parse_var_dim_json (parse_value el) (skip_whitespace it0))). unfold parse_var_dim_json. apply token_fine; [|exact I]. intros r T. apply token_fine; [intros; exact I|]. apply (var_fine _ _ (IH WF NI) (proj1 (all_reads el))); try lia. eapply (token_rest 91); eauto.
  - assert (F : Forall2 (fun p M => fine_p p /\ sound p M) (map (fun t => parse_value t) tys) (map (fun t => means actual t) tys)).
    { apply Forall_map2. clear - IH WF NI. induction IH as [|t tys H F' IH']; constructor; inversion WF; inversion NI; subst; auto. split; auto. apply all_reads. }
    change (fine (parse_tuple_json (map (fun t => parse_value t) tys) (skip_whitespace it0))). unfold parse_tuple_json. apply token_fine; [|exact I]. intros r T. apply (tuple_fine _ _ F). eapply (token_rest 91); eauto.
  - destruct WF as (LN & WF). assert (F : Forall2 (fun p M => fine_p p /\ sound p M) (map (fun t => parse_value t) tys) (map (fun t => means actual t) tys)).
    { apply Forall_map2. clear - IH WF NI. induction IH as [|t tys H F' IH']; constructor; inversion WF; inversion NI; subst; auto. split; auto. apply all_reads. }
    change (fine (parse_struct_json names tys (map (fun t => parse_value t) tys) (skip_whitespace it0))). unfold parse_struct_json. apply token_fine.
    + intros r T. destruct (token_rest 123 _ r nsp123 B T) as (Br & Lr). assert (LS : forall sl r1, match parse_token r [125] with Some r1 => Ok (repeat None (List.length tys), r1) | None => object_loop (S (List.length r)) names (map (fun t => parse_value t) tys) (repeat None (List.length tys)) r end = Ok (sl, r1) -> List.length sl = List.length tys).
      { intros sl r1 H. destruct (parse_token r [125]); [inversion H; subst; apply repeat_length|].
        destruct (object_sound names _ (map (fun t => means actual t) tys) ltac:(apply Forall_map2, Forall_forall; intros; apply all_reads) _ _ _ _ _ Br H) as (ms & s & _ & _ & ->). now rewrite settle_len, repeat_length. }
      apply fine_bind.
      * apply token_fine; [intros; exact I|]. apply (object_fine names _ _ F); auto. rewrite map_length. lia.
      * intros (sl, r1) E. apply fine_bind; [apply fill_fine; eapply LS; exact E|]. intros; exact I.
    + apply token_fine; [|exact I]. intros r T. apply (tuple_fine _ _ F). eapply (token_rest 91); eauto.
Qed.
Lemma parse_total tp t : well_formed tp -> no_int64 tp -> bytes t -> (exists v, parse_json tp t = Ok v) \/ (exists e, parse_json tp t = Throw e).
Proof.
  intros WF NI B. assert (F : fine (parse_json tp t)).
  { unfold parse_json. apply fine_bind; [now apply value_fine|]. intros (v, r) _. destruct (at_end _); exact I. }
  destruct (parse_json tp t); cbn in F; try contradiction; eauto.
Qed.
