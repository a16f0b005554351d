(** What is read is a proper type (C91), and text that goes on is refused. *)
From Verif Require Import Base ParseIntModel ParseIntSpec ParseIntProofs ScanModel ScanSpec ScanProofs EncodingModel EscapeModel EscapeSpec TypesModel DatashapeModel DatashapeSpec DatashapeProofs DatashapeRead DatashapeTotal.
Open Scope Z_scope.

Definition yields {A} (P : A -> Prop) (o : outcome A) : Prop := match o with Ok x => P x | _ => True end.
Lemma yields_bind {A B} (P : A -> Prop) (Q : B -> Prop) o f : yields P o -> (forall x, P x -> yields Q (f x)) -> yields Q (bind o f).
Proof. intros H G. destruct o; cbn in *; auto. Qed.
Lemma yields_any {A B} (Q : B -> Prop) (o : outcome A) f : (forall x, yields Q (f x)) -> yields Q (bind o f).
Proof. intros G. destruct o; cbn in *; auto. Qed.
Definition ptype {A} (x : dt * A) : Prop := proper (fst x).
Definition otype {A} (x : option (dt * A)) : Prop := match x with Some y => ptype y | None => True end.
Definition ptype' {A} (x : option dt * A) : Prop := match fst x with Some t => proper t | None => True end.
Lemma checked_proper n t : (capital_name n -> proper t) -> yields proper (checked_name n t).
Proof. intros H. unfold checked_name. destruct (valid_typevar_name n) eqn:E; cbn; auto. apply H. now apply capital_valid. Qed.
Lemma ellipsis_proper n e : proper e -> yields proper (make_ellipsis n e).
Proof. intros H. unfold make_ellipsis. destruct n; [now apply po_dots|]. apply checked_proper. intros C. now apply po_named_dots. Qed.
Lemma option_proper t : proper t -> yields proper (make_option t).
Proof. intros H. destruct t; cbn; auto; apply po_option; auto; discriminate. Qed.
Lemma power_alignment a : small_power a = true <-> alignment a.
Proof. unfold small_power, alignment. cbn [In]. rewrite !orb_true_iff, !Z.eqb_eq. intuition congruence. Qed.
Lemma bytes_proper a : yields proper (make_bytes a).
Proof. unfold make_bytes. destruct (small_power a) eqn:E; cbn; auto. apply po_bytes. now apply power_alignment. Qed.
Lemma fixed_bytes_proper n a : yields proper (make_fixed_bytes n a).
Proof.
  unfold make_fixed_bytes. destruct (Z.ltb_spec n a); cbn; auto. destruct (small_power a) eqn:E; cbn; auto. apply power_alignment in E.
  destruct (Z.eqb_spec (Z.land n (a - 1)) 0) as [L|L]; cbn; auto. apply po_fixed_bytes; auto.
  assert (K : exists k, 0 <= k /\ a = 2 ^ k). { unfold alignment in E. cbn [In] in E. destruct E as [<-|[<-|[<-|[<-|[<-|[]]]]]]; [exists 0|exists 1|exists 2|exists 3|exists 4]; split; try reflexivity; lia. }
  destruct K as (k & K & ->). replace (2 ^ k - 1) with (Z.ones k) in L by (rewrite Z.ones_equiv; lia). rewrite Z.land_ones in L by auto. apply Z.mod_divide; auto. apply Z.pow_nonzero; lia.
Qed.
Lemma char_proper e : yields proper (make_char e).
Proof. destruct e; cbn; auto; apply po_char; cbn; tauto. Qed.
Lemma pow_proper d e k : (forall t, proper t -> proper (d t)) -> proper e -> proper (pow d e k).
Proof. intros D H. induction k; cbn [pow]; auto. Qed.
Lemma dec_nonneg ds : Forall digit_c ds -> 0 <= dec_value ds.
Proof.
  intros D. unfold dec_value. assert (G : forall a, 0 <= a -> 0 <= fold_left (fun a c => 10 * a + (c - 48)) ds a); [|apply G; lia].
  induction D as [|c ds C D IH]; intros a A; cbn [fold_left]; auto. apply IH. unfold digit_c in C. lia.
Qed.
Lemma number_yields it : yields (fun x => Forall digit_c (fst x)) (ds_parse_number it).
Proof.
  destruct (ds_parse_number it) as [(ds, r)| | |] eqn:E; cbn; auto. destruct (ds_number_spec it) as (s1 & S & [(m & r' & E' & _ & U & _)|(E' & _)]); rewrite E' in E; injection E as <- _; [now apply uint_digits|constructor].
Qed.
Lemma parse_s_digits n : head_is is_dig n = true -> yields (fun v => 0 <= v < 2 ^ 63) (parse_s 64 n).
Proof.
  intros H. destruct (parse_s 64 n) as [v| | |] eqn:E; cbn [yields]; auto. apply parse_s_sound in E; [|lia]. destruct E as (neg & t & m & En & _ & R & A & B). destruct neg.
  - subst n. discriminate.
  - specialize (A eq_refl). pose proof (Z.mod_pos_bound m (2 ^ 64) ltac:(lia)). unfold in_range in R. cbv zeta in R. change (64 - 1) with 63 in R. lia.
Qed.
Lemma atoi_yields ds : Forall digit_c ds -> yields (fun v => 0 <= v < 2 ^ 31) (atoi ds).
Proof. intros D. unfold atoi. change (digits_value ds) with (dec_value ds). pose proof (dec_nonneg ds D). destruct (Z.ltb_spec (dec_value ds) (2 ^ 31)); cbn [yields]; auto. Qed.
Lemma atoll_yields ds : Forall digit_c ds -> yields (fun v => 0 <= v < 2 ^ 63) (atoll ds).
Proof. intros D. unfold atoll. change (digits_value ds) with (dec_value ds). pose proof (dec_nonneg ds D). destruct (Z.ltb_spec (dec_value ds) (2 ^ 63)); cbn [yields]; auto. Qed.
Lemma number_arg_yields it : yields (fun x => Forall digit_c (fst x)) (parse_number_arg it).
Proof. unfold parse_number_arg. apply (yields_bind _ _ _ _ (number_yields it)). intros (ds, r) D. destruct (at_end ds); cbn; auto. Qed.
Lemma word_proper : Forall (fun kt => proper (snd kt)) builtin_types.
Proof. unfold builtin_types. repeat (apply Forall_cons; [cbn; constructor|]). constructor. Qed.
Lemma assoc_in {A} (l : list (string * A)) n v : assoc l n = Some v -> exists k, In (k, v) l.
Proof. induction l as [|(k, w) l IH]; cbn; [discriminate|]. destruct (list_eqb (lit k) n); [intros [= ->]; eauto|]. intros H. destruct (IH H) as (k' & I). eauto. Qed.
Definition entry_proper (e : entry) : Prop :=
  match singleton e with Some t => proper t | None => True end /\ match dim_of e with Some d => forall t, proper t -> yields proper (d t) | None => True end.
Lemma registry_proper : Forall (fun ke => entry_proper (snd ke)) registry.
Proof.
  unfold registry. repeat (apply Forall_cons; [cbn [snd]; split; cbn [singleton dim_of named nothing]; first [exact I | intros t T; cbn [yields]; first [exact I | constructor; exact T] | constructor; first [unfold alignment; cbn; tauto | cbn; tauto] | constructor]|]).
  constructor.
Qed.
Lemma lookup_proper n e : lookup_id_by_name n = Some e -> entry_proper e.
Proof. intros H. apply assoc_in in H as (k & I). pose proof registry_proper as F. rewrite Forall_forall in F. exact (F _ I). Qed.

Section Sound.
Variable p : parser.
Hypothesis IH : forall it, yields otype (p it).
Lemma need_proper it : yields ptype (need p it).
Proof. unfold need. apply (yields_bind _ _ _ _ (IH it)). intros [x|] X; cbn; auto. Qed.
Ltac stepy := match goal with
  | |- yields _ (let '(_, _) := ?x in _) => destruct x as (?, ?)
  | |- yields _ (bind (need p _) _) => apply (yields_bind _ _ _ _ (need_proper _)); intros (?, ?) ?
  | |- yields _ (bind (parse_number_arg _) _) => apply (yields_bind _ _ _ _ (number_arg_yields _)); intros (?, ?) ?; cbn [fst] in *
  | |- yields _ (bind (ds_parse_number _) _) => apply (yields_bind _ _ _ _ (number_yields _)); intros (?, ?) ?; cbn [fst] in *
  | D : Forall digit_c ?ds |- yields _ (bind (atoi ?ds) _) => apply (yields_bind _ _ _ _ (atoi_yields ds D)); intros ? ?
  | D : Forall digit_c ?ds |- yields _ (bind (atoll ?ds) _) => apply (yields_bind _ _ _ _ (atoll_yields ds D)); intros ? ?
  | |- yields _ (bind (make_bytes _) _) => apply (yields_bind _ _ _ _ (bytes_proper _)); intros ? ?
  | |- yields _ (bind (make_fixed_bytes _ _) _) => apply (yields_bind _ _ _ _ (fixed_bytes_proper _ _)); intros ? ?
  | |- yields _ (bind (make_char _) _) => apply (yields_bind _ _ _ _ (char_proper _)); intros ? ?
  | H : ptype (?t, _) |- yields _ (bind (make_option ?t) _) => apply (yields_bind _ _ _ _ (option_proper _ H)); intros ? ?
  | H : ptype (?t, _) |- yields _ (bind (make_ellipsis _ ?t) _) => apply (yields_bind _ _ _ _ (ellipsis_proper _ _ H)); intros ? ?
  | |- yields _ (bind (tok _ _) _) => apply yields_any; intros [?|]
  | |- yields _ (bind (require _ _) _) => apply yields_any; intros ?
  | |- yields _ (bind (skip_whitespace_and_pound_comments _) _) => apply yields_any; intros ?
  | |- yields _ (bind (parse_encoding _) _) => apply yields_any; intros (?, ?)
  | |- yields _ (bind (Ok _) _) => cbn [bind]
  | |- yields _ perror => exact I
  | |- yields _ (Throw _) => exact I
  | |- yields _ (Ok None) => exact I
  | |- yields _ (Ok _) => cbn [yields]
  end.
Lemma args_proper a it : yields ptype (parse_type_args p a it).
Proof.
  destruct a; cbn [parse_type_args]; repeat stepy; try assumption; try (unfold ptype in *; cbn [fst] in *; first [assumption | now constructor]).
  apply (yields_bind ptype); [|intros (t, r) T; repeat stepy; exact T]. destruct (at_end _); repeat stepy; [unfold ptype; cbn [fst]; apply po_fixed_string; lia|]. 
  destruct (_ =? 0); repeat stepy; unfold ptype; cbn [fst]; apply po_fixed_string; lia.
Qed.
Lemma complex_proper it : yields ptype (parse_complex_parameters p it).
Proof. unfold parse_complex_parameters. repeat stepy; [destruct d as [b| | | | | | | | | | | | | | | | | | | | | | |]; try exact I; destruct b; try exact I|]; constructor. Qed.
Definition ifield {A} (x : option ((list Z * dt) * A)) : Prop := match x with Some (f, _) => proper (snd f) | None => True end.
Lemma bare_proper it : yields ifield (parse_struct_item_bare p it).
Proof. unfold parse_struct_item_bare. repeat stepy. apply yields_any. intros [(m, r)|]; repeat stepy. assumption. Qed.
Lemma general_proper it : yields ifield (parse_struct_item_general p it).
Proof. unfold parse_struct_item_general. repeat stepy. apply yields_any. intros ?. apply yields_any. intros [(m, r)|]; repeat stepy. assumption. Qed.
Definition fields_proper {A B} (x : list (list Z * dt) * A * B) : Prop := Forall (fun f => proper (snd f)) (fst (fst x)).
Lemma items_proper item close : (forall it, yields ifield (item it)) -> forall fuel acc it, Forall (fun f => proper (snd f)) acc -> yields fields_proper (items_loop item close fuel acc it).
Proof.
  intros F. induction fuel as [|f IHf]; intros acc it A; cbn [items_loop]; [exact I|]. repeat stepy; [now apply Forall_rev|].
  apply (yields_bind _ _ _ _ (F _)). intros [(nt, r)|] X; [|exact I]. cbn [ifield] in X. assert (A' : Forall (fun f => proper (snd f)) (nt :: acc)) by (constructor; auto).
  repeat stepy; [unfold fields_proper; cbn [fst]; now apply Forall_rev|now apply IHf|unfold fields_proper; cbn [fst]; now apply Forall_rev].
Qed.
Lemma struct_proper it : yields otype (parse_struct p it).
Proof.
  unfold parse_struct. repeat stepy; [apply po_struct; constructor|]. apply (yields_bind _ _ _ _ (items_proper _ _ general_proper _ [] _ ltac:(constructor))). intros ((?, ?), ?) ?. cbn [yields otype]. now apply po_struct.
Qed.
Definition tend (x : tuple_end) : Prop := match x with TEnd l _ _ => Forall proper l | TResult t _ => proper t end.
Lemma tuple_proper : forall fuel acc v it, Forall proper acc -> yields tend (tuple_loop p fuel acc v it).
Proof.
  induction fuel as [|f IHf]; intros acc v it A; cbn [tuple_loop]; [exact I|]. apply yields_any. intros ((v', kb), kw). cbv zeta. destruct kw.
  - apply (yields_bind _ _ _ _ (items_proper _ _ bare_proper _ [] _ ltac:(constructor))). intros ((l, v2), r) L. repeat stepy.
    + cbn [tend]. apply po_callable; auto. now apply Forall_rev.
    + cbn [tend]. apply po_tuple. now apply Forall_rev.
  - apply yields_any. intros e. apply yields_any. intros [r|]; [cbn [yields tend]; now apply Forall_rev|]. apply (yields_bind _ _ _ _ (need_proper _)). intros (t, r) T.
    assert (A' : Forall proper (t :: acc)) by (constructor; auto). repeat stepy; [cbn [tend]; now apply Forall_rev|now apply IHf|cbn [tend]; now apply Forall_rev].
Qed.
Lemma funcproto_proper it : yields otype (parse_tuple_or_funcproto p it).
Proof.
  unfold parse_tuple_or_funcproto. apply yields_any. intros [r|]; [|exact I]. apply yields_any. intros e. apply (yields_bind tend).
  - destruct e; [constructor|]. apply tuple_proper. constructor.
  - intros [l v r1|t r1] T; [|exact T]. cbn [tend] in T. repeat stepy; cbn [otype]; [apply po_callable; auto|now apply po_tuple].
Qed.
Lemma base_proper n : yields (fun d => forall t, proper t -> proper (d t)) (pow_base n).
Proof.
  unfold pow_base. destruct (head_is is_dig n) eqn:D. { apply (yields_bind _ _ _ _ (parse_s_digits n D)). intros v V. cbn. intros t T. now apply po_fixed. }
  destruct (compare_range_to_literal _ _); [cbn; apply po_var|]. destruct (compare_range_to_literal _ _); [cbn; apply po_fixed_kind|]. destruct (head_is is_upper n); [|exact I].
  destruct (valid_typevar_name n) eqn:V; cbn; auto. intros t T. apply po_typevar_dim; auto. now apply capital_valid.
Qed.
Lemma pow_yields n it : yields ptype' (parse_pow p n it).
Proof.
  unfold parse_pow. apply yields_any. intros [(x, r)|]; [|exact I]. destruct (head_is (between 49 57) x).
  - apply yields_any. intros k. repeat stepy. apply (yields_bind _ _ _ _ (IH _)). intros y Y. destruct (match y with Some z => z | None => _ end) as (elt, it') eqn:E.
    assert (P : proper elt). { destruct y as [(a, b)|]; injection E as <- _; [exact Y|constructor]. }
    apply (yields_bind _ _ _ _ (base_proper n)). intros d D. cbn. now apply pow_proper.
  - destruct (head_is is_upper x); [|exact I]. apply yields_any. intros [r'|]; [|exact I]. apply (yields_bind _ _ _ _ (base_proper n)). intros d D. apply (yields_bind _ _ _ _ (IH _)). intros y Y.
    destruct (match y with Some z => z | None => _ end) as (elt, it') eqn:E. assert (P : proper elt). { destruct y as [(a, b)|]; injection E as <- _; [exact Y|constructor]. }
    apply (yields_bind proper); [|intros t T; exact T]. apply checked_proper. intros C. apply po_pow; auto. apply D. constructor.
Qed.
Lemma dim_yields n it : yields ptype' (parse_dim p n it).
Proof.
  unfold parse_dim. repeat stepy. destruct (head_is is_dig n) eqn:D. { apply (yields_bind _ _ _ _ (parse_s_digits n D)). intros v V. cbn. now apply po_fixed. }
  destruct (lookup_id_by_name n) as [e|] eqn:E.
  - apply lookup_proper in E as (_ & E). destruct (dim_of e) as [f|]; [|exact I]. apply (yields_bind _ _ _ _ (E _ H)). intros t T. exact T.
  - destruct (head_is is_upper n); [|exact I]. apply (yields_bind proper); [|intros t T; exact T]. apply checked_proper. intros C. now apply po_typevar_dim.
Qed.
Lemma dtype_yields n it : yields ptype' (parse_dtype p n it).
Proof.
  unfold parse_dtype. destruct (compare_range_to_literal _ _). { apply (yields_bind _ _ _ _ (complex_proper it)). intros (t, r) T. exact T. }
  destruct (compare_range_to_literal _ _); [constructor|]. destruct (assoc builtin_types n) as [t|] eqn:B.
  { apply assoc_in in B as (k & B). pose proof word_proper as F. rewrite Forall_forall in F. exact (F _ B). }
  destruct (lookup_id_by_name n) as [e|] eqn:E.
  - apply lookup_proper in E as (E & _). repeat stepy; [|destruct (singleton e); [exact E|exact I]]. destruct (args e) as [a|]; [|exact I]. apply (yields_bind _ _ _ _ (args_proper a it)). intros (t, r) T. exact T.
  - destruct (head_is is_upper n); [|exact I]. repeat stepy.
    + apply (yields_bind proper); [|intros t T; exact T]. apply checked_proper. intros C. now apply po_typevar_app.
    + apply (yields_bind proper); [|intros t T; exact T]. apply checked_proper. intros C. now apply po_typevar.
Qed.
Lemma named_yields n it : yields ptype' (parse_named p n it).
Proof.
  unfold parse_named. apply yields_any. intros [r|]; [apply pow_yields|]. apply yields_any. intros [r|]; [apply dim_yields|]. repeat stepy; [assumption|apply dtype_yields].
Qed.
Lemma nooption_proper it : yields otype (parse_datashape_nooption p it).
Proof.
  unfold parse_datashape_nooption. apply yields_any. intros it1. apply yields_any. intros nn. apply (yields_bind ptype').
  - destruct nn as [(m, r)|]; [apply named_yields|]. destruct (parse_token_no_ws it1 _); [|exact I]. repeat stepy. now apply po_dots.
  - intros ([t|], r) T; [exact T|]. apply (yields_bind _ _ _ _ (struct_proper r)). intros [x|] X; [exact X|apply funcproto_proper].
Qed.
Lemma step_proper it : yields otype (parse_step p it).
Proof.
  unfold parse_step. apply yields_any. intros it1. destruct (parse_token_no_ws _ _); [|apply nooption_proper]. apply (yields_bind _ _ _ _ (nooption_proper _)). intros [(t, r)|] T; [|exact I].
  apply (yields_bind _ _ _ _ (option_proper _ T)). intros o O. exact O.
Qed.
End Sound.
Lemma parse_proper : forall fuel it, yields otype (parse fuel it).
Proof. induction fuel as [|f IHf]; intros it; [exact I|]. cbn [parse]. now apply step_proper. Qed.
Lemma stmt_proper st it : yields (fun x => match x with Some (t, _, _) => proper t | None => True end) (parse_stmt st it).
Proof.
  unfold parse_stmt. apply yields_any. intros [r|].
  - destruct (skip_required_whitespace r) as [r1|]; [|destruct (at_end r); [apply po_type|exact I]]. apply yields_any. intros [(m, r2)|].
    + apply yields_any. intros r3. apply (yields_bind _ _ _ _ (need_proper ds_parse (fun it => parse_proper _ it) r3)). intros (t, r4) T.
      destruct (lookup_id_by_name m); [exact I|]. destruct (mem_name m st); [exact I|exact T].
    + apply yields_any. intros r3. destruct (at_end r3); [apply po_type|exact I].
  - apply (yields_bind _ _ _ _ (parse_proper _ it)). intros [(t, r)|] T; [exact T|exact I].
Qed.
Lemma stmts_proper : forall fuel st t it, proper t -> yields proper (stmts fuel st t it).
Proof.
  induction fuel as [|f IHf]; intros st t it T; [exact I|]. cbn [stmts]. apply (yields_bind _ _ _ _ (stmt_proper st it)). intros [((u, st'), r)|] U; [now apply IHf|].
  apply yields_any. intros r. destruct (at_end r); [exact T|exact I].
Qed.
Theorem type_proper s t : type_from_datashape s = Ok t -> proper t.
Proof.
  intros E. assert (Y : yields proper (type_from_datashape s)); [|rewrite E in Y; exact Y]. unfold type_from_datashape, parse_top.
  apply (yields_bind _ _ _ _ (stmt_proper [] s)). intros [((u, st'), r)|] U; [now apply stmts_proper|exact I].
Qed.

(** * Trailing text *)
Lemma foreign_nothing f s c r : skipped s (c :: r) -> foreign c -> parse (S f) s = Ok None.
Proof.
  intros S (N & F). apply strip_of in S. revert F. lits. cbn [In]. intros F.
  assert (X : forall a t, a = 63 \/ a = 46 \/ a = 123 \/ a = 40 -> starts_with (a :: t) (c :: r) = None). { intros a t A. cbn [starts_with]. destruct (Z.eqb_spec c a); auto. lia. }
  cbn [parse]. unfold parse_step. rewrite skip_strip, S. cbn [bind]. rewrite token_no_ws_eq. lits. rewrite X by tauto.
  unfold parse_datashape_nooption. rewrite skip_strip, S. cbn [bind]. rewrite word_none by (rewrite next_cons; exact N). cbn [bind]. rewrite token_no_ws_eq. lits. rewrite X by tauto. cbn [bind].
  assert (Sc : strip (c :: r) = c :: r). { apply strip_of. rewrite <- S. pose proof (strip_skipped s) as K. clear -K. remember (strip s) as q. clear Heqq. induction K; auto using sk_stop. apply sk_stop, not_next_nil. }
  unfold parse_struct. rewrite tok_strip, Sc. lits. rewrite X by tauto. cbn [bind]. unfold parse_tuple_or_funcproto. rewrite tok_strip, Sc. lits. rewrite X by tauto. reflexivity.
Qed.
Theorem trailing_refused t s g rest c r : spelled t s -> t <> DType -> gap g -> ends rest -> skipped rest (c :: r) -> foreign c -> type_from_datashape (g ++ s ++ rest) = Throw "internal_parse_error".
Proof.
  intros H N G E S F. unfold type_from_datashape, parse_top.
  assert (P : parse_stmt [] (g ++ s ++ rest) = Ok (Some (t, [], rest))).
  { unfold parse_stmt. rewrite tok_strip, strip_gap, (strip_spelled t) by auto. change (lit "type") with (codes "type"). destruct (starts_with (codes "type") (s ++ rest)) as [q|] eqn:T.
    - apply starts_with_iff in T. destruct (type_word t s rest q H T) as (_ & X). contradiction.
    - cbn [bind]. unfold ds_parse. rewrite (parse_read _ t s g rest) by (auto; rewrite !app_length; lia). reflexivity. }
  rewrite P. cbn [bind]. cbn [stmts].
  assert (Q : parse_stmt [] rest = Ok None).
  { unfold parse_stmt. rewrite tok_strip, (strip_of _ _ S). lits. cbn [starts_with]. destruct (Z.eqb_spec c 116) as [->|_]; [destruct F as (F & _); exfalso; apply F; unfold name_char_p, letter; lia|].
    cbn [bind]. unfold ds_parse. rewrite (foreign_nothing _ rest c r) by auto. reflexivity. }
  rewrite Q. cbn [bind]. rewrite skip_strip, (strip_of _ _ S). reflexivity.
Qed.
