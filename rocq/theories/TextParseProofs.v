(** Proofs about nd::json::parse. *)
From Verif Require Import Base ParseIntModel ParseIntSpec ParseIntProofs ScanModel ScanSpec ScanProofs ScanProps EncodingModel EncodingSpec EncodingProofs
  EscapeModel EscapeSpec EscapeProofs EscapeProps JsonModel JsonSpec JsonProofs JsonParse JsonProps TextParseModel TextParseSpec.
Open Scope Z_scope.

(** ** Numbers *)
Lemma pk_exponent acc it : pn_exponent it = do x <- json_exponent acc it; Ok (option_map snd x).
Proof.
  unfold pn_exponent, json_exponent, skip_digits. destruct it as [|c r]; [reflexivity|]. destruct ((c =? 101) || (c =? 69)); [|reflexivity].
  destruct r as [|s r]; [reflexivity|]. cbn [at_end deref bind tl]. destruct ((s =? 43) || (s =? 45)); cbn [andb].
  - destruct r as [|d r]; [reflexivity|]. cbn [at_end deref bind tl]. destruct (is_dig d); [|reflexivity]. destruct (span is_dig r). reflexivity.
  - cbn [at_end deref bind tl]. destruct (is_dig s); [|reflexivity]. destruct (span is_dig r). reflexivity.
Qed.
Lemma pk_fraction acc it : pn_fraction it = do x <- json_fraction acc it; Ok (option_map snd x).
Proof.
  unfold pn_fraction, json_fraction. destruct it as [|c r]; [apply pk_exponent|]. destruct (c =? 46); [|apply pk_exponent].
  destruct r as [|d r]; [reflexivity|]. cbn [at_end deref bind tl]. destruct (is_dig d); [|reflexivity]. unfold skip_digits.
  destruct (span is_dig r) as (m, r2). apply pk_exponent.
Qed.
Lemma pk_number it : pk_parse_number it = do x <- json_parse_number it; Ok (option_map snd x).
Proof.
  unfold pk_parse_number, json_parse_number. destruct it as [|c0 r]; [reflexivity|]. cbn [at_end deref bind tl].
  set (it1 := if c0 =? 45 then r else c0 :: r). destruct it1 as [|c r1]; [reflexivity|]. cbn [at_end deref bind tl].
  destruct (c =? 48); [apply pk_fraction|]. destruct (between 49 57 c); [|reflexivity]. unfold skip_digits. destruct (span is_dig r1). apply pk_fraction.
Qed.
Lemma range_app m r : range_before (m ++ r) r = m.
Proof.
  unfold range_before. rewrite app_length, Nat.add_sub. rewrite firstn_app, Nat.sub_diag, firstn_all, app_nil_r. reflexivity.
Qed.

(** The integers as they are read. *)
Definition got (sgn : bool) (W : Z) : meaning := fun x v => json_number x /\ exists z, (if sgn then parse_s W x else parse_u W x) = Ok z /\ v = VInt z.
Lemma number_cases it : (exists m r, json_parse_number it = Ok (Some (m, r)) /\ it = m ++ r /\ json_number m) \/ json_parse_number it = Ok None.
Proof.
  destruct (json_noub it) as (x & X). destruct x as [(m, r)|]; [left|right; auto]. destruct (C17_json_number_longest _ _ _ X) as (E & N & _). exists m, r. auto.
Qed.
Lemma single_int_some sgn W it m r : json_parse_number it = Ok (Some (m, r)) -> it = m ++ r ->
  single_int sgn W it = do v <- (if sgn then parse_s W m else parse_u W m); Ok (VInt v, r).
Proof. intros H E. unfold single_int. rewrite pk_number, H. cbn [bind option_map snd]. rewrite E, range_app. reflexivity. Qed.
Lemma single_int_none sgn W it : json_parse_number it = Ok None -> single_int sgn W it = Throw "runtime_error".
Proof. intros H. unfold single_int. rewrite pk_number, H. reflexivity. Qed.
Lemma int_sound1 sgn W it v r : single_int sgn W it = Ok (v, r) -> exists x, it = x ++ r /\ got sgn W x v.
Proof.
  destruct (number_cases it) as [(m & r1 & X & E & N)|X].
  - rewrite (single_int_some _ _ _ _ _ X E). destruct (if sgn then parse_s W m else parse_u W m) as [z| | |] eqn:P; cbn [bind]; try discriminate.
    intros H. inversion H; subst. exists m. split; auto. split; auto. exists z. auto.
  - rewrite single_int_none by auto. discriminate.
Qed.
Lemma int_complete1 sgn W : complete0 (single_int sgn W) (got sgn W).
Proof.
  intros x v r (N & z & P & ->) S. rewrite (single_int_some sgn W (x ++ r) x r); auto; [|apply C17_json_number_complete; auto].
  rewrite P. reflexivity.
Qed.

(** ** Strings *)
Definition raw_text : meaning := fun x v => exists b w, x = quoted b /\ dq_denotes b w /\ v = VStr b.
Lemma string_sound1 it v r : ~ next_is space_c it -> single_string it = Ok (v, r) -> exists x, it = x ++ r /\ raw_text x v.
Proof.
  intros S. unfold single_string. rewrite skip_id by auto. destruct (parse_doublequote_string_no_ws it) as [[((b, e), r1)|]| | |] eqn:D; cbn [bind]; try discriminate.
  apply dq_inv in D as (E & Bd & _). destruct (unescape_dichotomy b Bd) as [(w & Dn & U)|(_ & U)]; rewrite U; cbn [bind]; [|discriminate].
  intros H. inversion H; subst. exists (quoted b). split; auto. exists b, w. auto.
Qed.
Lemma string_complete1 : complete0 single_string raw_text.
Proof.
  intros x v r (b & w & -> & D & ->) S. unfold single_string. rewrite skip_id by apply not_space_quoted.
  destruct (quoted_read b r (denotes_body _ _ D)) as (e & Q & E). rewrite Q. cbn [bind]. rewrite (unescape_denotes _ _ D). reflexivity.
Qed.

(** ** Booleans: as the other parser *)
Lemma bool_same it : match json_parse_bool it with
  | Ok (b, r) => parse_bool_json it = Ok (VBool (if b then 1 else 0), r)
  | Throw _ => exists e, parse_bool_json it = Throw e
  | _ => False end.
Proof.
  unfold json_parse_bool, parse_bool_json. destruct (parse_token it (lit "true")) as [r|]; [reflexivity|]. destruct (parse_token it (lit "false")) as [r|]; [reflexivity|].
  destruct (json_noub it) as (x & X). rewrite X. cbn [bind].
  assert (NN : forall r, parse_token it (lit "null") = Some r -> x = None /\ parse_doublequote_string_no_ws it = Ok None).
  { intros r T. apply token_iff in T; [|change (lit "null") with [110; 117; 108; 108]; rewrite next_cons; unfold space_c; lia|discriminate]. destruct T as (w & W & E).
    assert (exists c r', it = c :: r' /\ c <> 45 /\ ~ digit_c c /\ c <> 34) as (c & r' & E' & A & B & C).
    { destruct w as [|c w]; [exists 110; eexists; split; [exact E|unfold digit_c; lia]|]. inversion W; subst. eexists; eexists; split; [reflexivity|].
      unfold digit_c, space_c in *; lia. }
    subst it. rewrite E' in *. rewrite number_none in X by auto. inversion X. split; auto. apply C19_no_match. rewrite next_cons. auto. }
  destruct x as [(m, r)|].
  - destruct (parse_token it (lit "null")) as [r0|] eqn:T; [destruct (NN _ eq_refl); discriminate|].
    destruct m as [|c [|c' m]].
    + cbn. eauto.
    + change (len [c] =? 1) with true. cbn [load_at nth_error bind]. destruct (c =? 48); [reflexivity|]. destruct (c =? 49); [reflexivity|eauto].
    + destruct (Z.eqb_spec (len (c :: c' :: m)) 1) as [L|]; [unfold len in L; cbn [List.length] in L; lia|]. eauto.
  - destruct (dq_total it) as [(y & Y)|Y]; [|rewrite Y; cbn [bind]; destruct (parse_token it (lit "null")); eauto].
    destruct (parse_token it (lit "null")) as [r0|] eqn:T; [destruct (NN _ eq_refl) as (_ & Q); rewrite Q in *; inversion Y; subst; cbn [bind]; eauto|].
    rewrite Y. cbn [bind]. destruct y as [((b, e), r)|]; [|eauto]. unfold content.
    assert (C : (exists w, (if e then unescape_string b else Ok b) = Ok w) \/ (exists z, (if e then unescape_string b else Ok b) = Throw z)).
    { destruct e; [|left; eauto]. apply C19_unescape_safe. }
    destruct C as [(w & C)|(z & C)]; rewrite C; cbn [bind]; [|eauto].
    destruct (C48_parse_bool_checked w) as (A & B & D). destruct (parse_bool_checked w) as [v| | |] eqn:P; cbn [bind]; auto; try (eauto; fail).
    + assert (N : ~ true_word w) by (intros Q; apply A in Q; discriminate). assert (N' : ~ false_word w) by (intros Q; apply B in Q; discriminate). specialize (D N N'). discriminate.
    + assert (N : ~ true_word w) by (intros Q; apply A in Q; discriminate). assert (N' : ~ false_word w) by (intros Q; apply B in Q; discriminate). specialize (D N N'). discriminate.
Qed.

(** ** Whole texts *)
Lemma skip_end w' : skip_whitespace w' = [] <-> ws w'.
Proof. split; [|apply skip_all]. intros H. destruct (skip_ws_inv w') as (w & E & W & _). rewrite H, app_nil_r in E. now rewrite E. Qed.
Definition scalar_kern (s : psc) : kern := match s with SBool => KBool | SInt sgn W => KInt sgn W | SString => KString end.
Lemma parse_scalar s t : parse (PScalar s) t = do (v, r) <- single (scalar_kern s) (skip_whitespace t); match skip_whitespace r with [] => Ok v | _ => Throw "json_parse_error" end.
Proof. destruct s; reflexivity. Qed.
Lemma finish (o : outcome (jval * list Z)) v :
  (do (v, r) <- o; match skip_whitespace r with [] => Ok v | _ => Throw "json_parse_error"%string end) = Ok v <-> exists r, o = Ok (v, r) /\ ws r.
Proof.
  destruct o as [(v', r)| | |]; cbn [bind]; try (split; [discriminate|intros (? & ? & _); discriminate]).
  destruct (skip_whitespace r) as [|c l] eqn:E.
  - apply skip_end in E. split; [intros H; inversion H; subst; eauto|]. intros (r' & H & _). inversion H; subst; auto.
  - split; [discriminate|]. intros (r' & H & W). inversion H; subst. apply skip_end in W. congruence.
Qed.
Lemma scalar_around s P t v : (forall it v r, ~ next_is space_c it -> single (scalar_kern s) it = Ok (v, r) -> exists x, it = x ++ r /\ P x v) ->
  complete0 (single (scalar_kern s)) P -> starting P -> (parse (PScalar s) t = Ok v <-> around P t v).
Proof.
  intros S C T. rewrite parse_scalar, finish. split.
  - intros (r & H & W'). destruct (skip_ws_inv t) as (w & E & W & N). destruct (S _ _ _ N H) as (x & X & M). exists w, x, r. rewrite <- X. auto.
  - intros (w & x & w' & W & W' & -> & M). exists w'. rewrite starts_skip by eauto. split; auto. apply C; auto. now apply stop_wsn.
Qed.
Lemma got_starting sgn W : starting (got sgn W).
Proof. intros x v (N & _). eapply value_starts. exact (g_number space_c dq_body _ N). Qed.
Lemma raw_starting : starting raw_text.
Proof. intros x v (b & w & -> & _). apply quoted_starts. Qed.
Lemma int_parse sgn W t v : parse (PScalar (SInt sgn W)) t = Ok v <-> around (got sgn W) t v.
Proof. apply scalar_around; [intros it v' r _; apply int_sound1|apply int_complete1|apply got_starting]. Qed.
Lemma string_parse t v : parse (PScalar SString) t = Ok v <-> around raw_text t v.
Proof. apply scalar_around; [apply string_sound1|apply string_complete1|apply raw_starting]. Qed.
Lemma bool_parse t v : parse (PScalar SBool) t = Ok v <-> parse_json JBool t = Ok v.
Proof.
  rewrite parse_scalar, finish. unfold parse_json. cbn [parse_value scalar_kern single]. unfold single_bool. pose proof (bool_same (skip_whitespace t)) as H.
  destruct (json_parse_bool (skip_whitespace t)) as [(b, r)| | |]; cbn [bind]; try contradiction.
  - rewrite H. cbn [bind]. destruct (at_end (skip_whitespace r)) eqn:A.
    + apply at_end_iff in A. apply skip_end in A. split; [intros (r' & X & _); inversion X; subst; auto|intros X; inversion X; subst; eauto].
    + split; [intros (r' & X & W); inversion X; subst; apply skip_end in W; rewrite W in A; discriminate|discriminate].
  - destruct H as (e' & ->). cbn [bind]. split; [intros (? & ? & _); discriminate|discriminate].
Qed.
