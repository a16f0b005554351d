(** Proofs about the grammar (C90): every spelling is read. *)
From Verif Require Import Base ParseIntModel ParseIntSpec ParseIntProofs ScanModel ScanSpec ScanProofs EncodingModel EncodingSpec EscapeModel EscapeSpec EscapeProofs TypesModel DatashapeModel DatashapeSpec.
Open Scope Z_scope.

(** * Skipping *)
Definition strip (s : list Z) : list Z := match skip_whitespace_and_pound_comments s with Ok r => r | _ => [] end.
Lemma strip_skipped s : skipped s (strip s).
Proof. unfold strip. destruct (skip_pound_total s) as (r & -> & S). exact S. Qed.
Lemma skip_strip s : skip_whitespace_and_pound_comments s = Ok (strip s).
Proof. unfold strip. destruct (skip_pound_total s) as (r & -> & S). reflexivity. Qed.
Lemma strip_of s r : skipped s r -> strip s = r.
Proof. intros H. exact (skipped_fun _ _ (strip_skipped s) _ H). Qed.
Lemma gap_skipped g : gap g -> forall s r, skipped s r -> skipped (g ++ s) r.
Proof.
  induction 1 as [|c g C G IH|b g B G IH]; intros s r S; cbn [app]; auto.
  - constructor; auto.
  - rewrite <- app_assoc. cbn [app]. now apply sk_comment, IH.
Qed.
Lemma strip_gap g s : gap g -> strip (g ++ s) = strip s.
Proof. intros G. apply strip_of, gap_skipped; auto. apply strip_skipped. Qed.
Definition solid (c : Z) : Prop := ~ (space_c c \/ c = 35).
Lemma strip_cons c s : solid c -> strip (c :: s) = c :: s.
Proof. intros H. apply strip_of, sk_stop. rewrite next_cons. exact H. Qed.
Lemma starts_len t : forall s r, starts_with t s = Some r -> (List.length t <= List.length s)%nat.
Proof. intros s r H. apply starts_with_iff in H as ->. rewrite app_length. lia. Qed.
Lemma token_no_ws_eq s t : parse_token_no_ws s t = starts_with t s.
Proof.
  unfold parse_token_no_ws. destruct (Z.leb_spec (Z.of_nat (List.length t)) (Z.of_nat (List.length s))); auto.
  destruct (starts_with t s) eqn:E; auto. apply starts_len in E. lia.
Qed.
Lemma tok_strip s t : ds_parse_token s t = Ok (starts_with t (strip s)).
Proof. unfold ds_parse_token. rewrite skip_strip. cbn [bind]. now rewrite token_no_ws_eq. Qed.

(** Literals are computed. *)
Ltac lits := repeat match goal with
  | |- context [codes (String ?a ?b)] => let v := eval cbv in (codes (String a b)) in change (codes (String a b)) with v
  | |- context [lit (String ?a ?b)] => let v := eval cbv in (lit (String a b)) in change (lit (String a b)) with v
  | |- context [dots] => change dots with [46; 46; 46]
  | H : context [codes (String ?a ?b)] |- _ => let v := eval cbv in (codes (String a b)) in change (codes (String a b)) with v in H
  | H : context [lit (String ?a ?b)] |- _ => let v := eval cbv in (lit (String a b)) in change (lit (String a b)) with v in H
  | H : context [dots] |- _ => change dots with [46; 46; 46] in H
  end.
Ltac flat := lits; repeat (rewrite <- app_assoc || cbn [app]).
Ltac solid := unfold solid, space_c; lia.
Ltac strips := repeat (first [rewrite strip_gap by assumption | rewrite strip_cons by solid]).

(** * Closers, separators *)
Lemma gap_head g : gap g -> g = [] \/ exists c r, g = c :: r /\ (space_c c \/ c = 35).
Proof. intros []; eauto. - right. exists c, g0. auto. - right. exists 35, (body ++ 10 :: g0). auto. Qed.
Lemma gap_next (P : Z -> Prop) g s : gap g -> (forall c, P c -> solid c) -> ~ next_is P s -> ~ next_is P (g ++ s).
Proof.
  intros G H N. destruct (gap_head g G) as [->|(c & r & -> & C)]; auto. cbn [app]. rewrite next_cons. intros X. now apply H in X.
Qed.
Lemma name_solid c : name_char_p c -> solid c.
Proof. unfold name_char_p, letter, digit_c. solid. Qed.
Lemma digit_solid c : digit_c c -> solid c.
Proof. unfold digit_c. solid. Qed.
Definition sep (r : list Z) : Prop := ~ next_is name_char_p r.
Lemma sep_nil : sep [].
Proof. apply not_next_nil. Qed.
Lemma sep_gap g s : gap g -> sep s -> sep (g ++ s).
Proof. intros G. apply gap_next; auto. apply name_solid. Qed.
Lemma sep_cons c r : ~ name_char_p c -> sep (c :: r).
Proof. intros H. unfold sep. rewrite next_cons. exact H. Qed.
Lemma sep_digit r : sep r -> ~ next_is digit_c r.
Proof. intros H (c & r' & -> & D). apply H. exists c, r'. unfold name_char_p. auto. Qed.
Ltac notname := unfold name_char_p, letter, digit_c; lia.
Ltac seps := repeat (first [assumption | apply sep_nil | apply sep_cons; notname | apply sep_gap; [assumption|]]).
Definition stops (c : Z) : Prop := ~ In c [42; 46; 91; 45; 58].
Definition closer (c : Z) : Prop := In c [44; 93; 41; 125].
Lemma closer_solid c : closer c -> solid c.
Proof. unfold closer. cbn [In]. solid. Qed.
Lemma ends_strip rest : ends rest -> strip rest = [] \/ exists c r, strip rest = c :: r /\ stops c.
Proof.
  intros (_ & r & S & H). rewrite (strip_of _ _ S). destruct r as [|c r]; auto. right. exists c, r. split; auto. rewrite next_cons in H. exact H.
Qed.
Lemma ends_of rest : sep rest -> (strip rest = [] \/ exists c r, strip rest = c :: r /\ stops c) -> ends rest.
Proof.
  intros N H. split; auto. exists (strip rest). split; [apply strip_skipped|]. destruct H as [->|(c & r & -> & C)]; [apply not_next_nil|]. rewrite next_cons. exact C.
Qed.
Lemma ends_cons c r : closer c -> ends (c :: r).
Proof.
  intros C. apply ends_of; [apply sep_cons; unfold closer in C; cbn [In] in C; notname|]. right. exists c, r. split; [apply strip_cons, closer_solid, C|]. unfold stops, closer in *. cbn [In] in *. lia.
Qed.
Lemma ends_sep r : ends r -> sep r.
Proof. intros (H & _). exact H. Qed.
Lemma ends_gap g r : gap g -> ends r -> ends (g ++ r).
Proof. intros G E. apply ends_of; [apply sep_gap; auto; now apply ends_sep|]. rewrite strip_gap by auto. now apply ends_strip. Qed.
Lemma ends_nothing g : skipped g [] -> ends g.
Proof.
  intros S. apply ends_of; [|left; now apply strip_of]. inversion S; subst; [apply sep_nil| | |]; apply sep_cons; try notname. unfold space_c in *. notname.
Qed.
Lemma tok_ends rest c t : ends rest -> ~ stops c -> ds_parse_token rest (c :: t) = Ok None.
Proof.
  intros H N. rewrite tok_strip. apply ends_strip in H. destruct H as [->|(c' & r & -> & C)]; cbn [starts_with]; auto.
  destruct (Z.eqb_spec c' c); auto. subst. contradiction.
Qed.
Ltac closer := unfold closer; cbn [In]; lia.
Ltac stops := unfold stops; cbn [In]; tauto.
Ltac ends := repeat (first [assumption | apply ends_cons; first [assumption | closer] | apply ends_gap; [assumption|]]).

(** * Words *)
Lemma name_word n r : name n -> sep r -> parse_name_or_number (n ++ r) = Ok (Some (n, r)).
Proof. intros N S. unfold parse_name_or_number. rewrite (proj2 (parse_name_iff (n ++ r) n r)); auto. Qed.
Lemma uint_digits ds : uint_lit ds -> Forall digit_c ds /\ ds <> [].
Proof. intros []; split; try discriminate; constructor; auto; unfold digit_c; lia. Qed.
Lemma number_word ds r : uint_lit ds -> ~ next_is digit_c r -> parse_name_or_number (ds ++ r) = Ok (Some (ds, r)).
Proof.
  intros U N. unfold parse_name_or_number. rewrite (proj2 (parse_name_none _)).
  - cbn [bind]. now apply uint_iff.
  - destruct (uint_digits ds U) as (D & E). destruct ds as [|c t]; [congruence|]. cbn [app]. rewrite next_cons. inversion D; subst. unfold digit_c, letter in *. lia.
Qed.
Lemma capital_is_name n : capital_name n -> name n.
Proof. intros (c & r & -> & C & F). exists c, r. split; auto. split; auto. unfold letter. lia. Qed.
(** A name or a number. *)
Definition word (n : list Z) : Prop := name n \/ uint_lit n.
Lemma word_read n r : word n -> sep r -> parse_name_or_number (n ++ r) = Ok (Some (n, r)).
Proof. intros [N|N] S; [now apply name_word|apply number_word; auto; now apply sep_digit]. Qed.
Lemma word_head n : word n -> exists c r, n = c :: r /\ name_char_p c.
Proof.
  intros [(c & r & -> & C & _)|U].
  - exists c, r. split; auto. unfold name_char_p. destruct C; auto.
  - destruct (uint_digits n U) as (D & E). destruct n as [|c t]; [congruence|]. exists c, t. split; auto. inversion D; subst. unfold name_char_p. auto.
Qed.
Lemma word_solid n r : word n -> strip (n ++ r) = n ++ r.
Proof. intros W. destruct (word_head n W) as (c & t & -> & C). cbn [app]. now apply strip_cons, name_solid. Qed.

Lemma nooption_word p g n r t rest : word n -> gap g -> sep r -> parse_named p n r = Ok (Some t, rest) ->
  parse_datashape_nooption p (g ++ n ++ r) = Ok (Some (t, rest)).
Proof.
  intros W G S H. unfold parse_datashape_nooption. rewrite skip_strip. cbn [bind]. rewrite strip_gap, word_solid by auto. rewrite word_read by auto.
  cbn [bind]. rewrite H. reflexivity.
Qed.
Lemma named_pow p n r r' : strip r = 42 :: 42 :: r' -> parse_named p n r = parse_pow p n r'.
Proof. intros H. unfold parse_named. rewrite tok_strip, H. reflexivity. Qed.
Lemma named_star p n r r' : strip r = 42 :: r' -> ~ next_is (eq 42) r' -> parse_named p n r = parse_dim p n r'.
Proof.
  intros H N. unfold parse_named. rewrite !tok_strip, H. lits. cbn [starts_with]. rewrite Z.eqb_refl. destruct r' as [|c r']; cbn [bind]; auto.
  rewrite next_cons in N. destruct (Z.eqb_spec c 42); [congruence|]. reflexivity.
Qed.
Lemma named_dots p n r r' : strip r = 46 :: 46 :: 46 :: r' -> parse_named p n r =
  do it <- require r' "*"; do (e, it) <- need p it; do t <- make_ellipsis n e; Ok (Some t, it).
Proof. intros H. unfold parse_named. rewrite !tok_strip, H. reflexivity. Qed.
Lemma named_type p n r : ~ next_is (fun c => c = 42 \/ c = 46) (strip r) -> parse_named p n r = parse_dtype p n r.
Proof.
  intros N. unfold parse_named. rewrite !tok_strip. destruct (strip r) as [|c s]; [reflexivity|]. rewrite next_cons in N. lits. cbn [starts_with].
  destruct (Z.eqb_spec c 42); [lia|]. destruct (Z.eqb_spec c 46); [lia|]. reflexivity.
Qed.

(** * Names in the tables *)
Lemma assoc_in {A} (l : list (string * A)) n : assoc l n = None \/ In n (map (fun kv => codes (fst kv)) l).
Proof.
  induction l as [|(k, v) l IH]; cbn [assoc map fst]; auto. destruct (list_eqb (lit k) n) eqn:E; [|cbn [In]; tauto].
  apply list_eqb_iff in E. right. left. exact E.
Qed.
Lemma assoc_skip {A} (l : list (string * A)) n : ~ In n (map (fun kv => codes (fst kv)) l) -> assoc l n = None.
Proof. intros H. destruct (assoc_in l n); tauto. Qed.
Lemma typevar_unknown n : typevar_name n -> lookup_id_by_name n = None.
Proof.
  intros ((c & r & -> & C & F) & N). apply assoc_skip. intros H. unfold registry in H. cbn [map fst In] in H.
  repeat (destruct H as [H|H]; [first [revert H; lits; intros H; injection H as <- ?; lia | apply N; rewrite <- H; unfold reserved; cbn [map In]; tauto]|]).
  exact H.
Qed.
Lemma capital_not_builtin n : capital_name n -> assoc builtin_types n = None.
Proof.
  intros (c & r & -> & C & F). apply assoc_skip. intros H. unfold builtin_types in H. cbn [map fst In] in H.
  repeat (destruct H as [H|H]; [revert H; lits; intros H; injection H as <- ?; lia|]). exact H.
Qed.
Lemma capital_valid n : capital_name n <-> valid_typevar_name n = true.
Proof.
  unfold capital_name, valid_typevar_name. split.
  - intros (c & r & -> & C & F). rewrite andb_true_iff. split; [unfold is_upper; apply between_iff; lia|]. rewrite forallb_forall. rewrite Forall_forall in F.
    intros x X. apply name_char_iff, F, X.
  - destruct n as [|c r]; [discriminate|]. rewrite andb_true_iff. intros (C & F). exists c, r. split; auto. split; [unfold is_upper in C; apply between_iff in C; lia|].
    rewrite Forall_forall. rewrite forallb_forall in F. intros x X. apply name_char_iff, F, X.
Qed.
Lemma capital_upper n : capital_name n -> head_is is_upper n = true /\ head_is is_dig n = false /\ head_is (between 49 57) n = false.
Proof.
  intros (c & r & -> & C & F). cbn [head_is]. unfold is_upper, is_dig, between. lia.
Qed.
Lemma compare_false a b : a <> b -> compare_range_to_literal a b = false.
Proof. intros H. destruct (compare_range_to_literal a b) eqn:E; auto. apply compare_iff in E. congruence. Qed.
Lemma capital_not_lower n c r : capital_name n -> 97 <= c -> n <> c :: r.
Proof. intros (c' & r' & -> & C & F) L E. injection E as -> ->. lia. Qed.
Lemma typevar_not n s : typevar_name n -> In s reserved -> n <> codes s.
Proof. intros (_ & N) H E. apply N. subst. now apply in_map. Qed.

(** * Numerals *)
Lemma digit_digit ds : Forall digit_c ds -> Forall digit ds.
Proof. apply Forall_impl. auto. Qed.
Lemma numeral_parse n ds : numeral 63 n ds -> parse_s 64 ds = Ok n.
Proof.
  intros (U & E & L). destruct (uint_digits ds U) as (D & N). pose proof (parse_s_exact 64 false ds n) as H. cbn [negb] in H.
  rewrite H; try lia.
  - change (64 - 1) with 63. destruct (Z.ltb_spec n (2 ^ 63)); [reflexivity|lia].
  - rewrite <- E. change (dec_value ds) with (dec ds). apply num_plain; auto.
Qed.
Lemma numeral_head b n ds : numeral b n ds -> head_is is_dig ds = true.
Proof.
  intros (U & _). destruct (uint_digits ds U) as (D & N). destruct ds; [congruence|]. inversion D; subst. cbn [head_is]. now apply is_dig_iff.
Qed.
Lemma numeral_word b n ds : numeral b n ds -> word ds.
Proof. intros (U & _). right. exact U. Qed.
Lemma numeral_atoi n ds : numeral 31 n ds -> atoi ds = Ok n.
Proof. intros (U & E & L). unfold atoi. change (digits_value ds) with (dec_value ds). rewrite E. destruct (Z.ltb_spec n (2 ^ 31)); [reflexivity|lia]. Qed.
Lemma numeral_atoll n ds : numeral 63 n ds -> atoll ds = Ok n.
Proof. intros (U & E & L). unfold atoll. change (digits_value ds) with (dec_value ds). rewrite E. destruct (Z.ltb_spec n (2 ^ 63)); [reflexivity|lia]. Qed.
Lemma ds_number_read g ds r : gap g -> uint_lit ds -> ~ next_is digit_c r -> ds_parse_number (g ++ ds ++ r) = Ok (ds, r).
Proof.
  intros G U N. unfold ds_parse_number. rewrite skip_strip. cbn [bind]. rewrite strip_gap, word_solid by (auto; right; exact U).
  rewrite (proj2 (uint_iff (ds ++ r) ds r)); auto.
Qed.
Lemma number_arg_read g ds r b n : gap g -> numeral b n ds -> ~ next_is digit_c r -> parse_number_arg (g ++ ds ++ r) = Ok (ds, r).
Proof.
  intros G (U & _) N. unfold parse_number_arg. rewrite ds_number_read by auto. cbn [bind]. destruct (uint_digits ds U) as (_ & E). destruct ds; [congruence|reflexivity].
Qed.

(** * Dimensions *)
Lemma dimension_word d w : dimension d w -> word w.
Proof.
  intros [n ds H| | |n (H & _)].
  - now apply numeral_word in H.
  - left. exists 118, [97; 114]. split; [reflexivity|]. split; [unfold letter; lia|]. repeat constructor; unfold letter; lia.
  - left. exists 70, [105; 120; 101; 100]. split; [reflexivity|]. split; [unfold letter; lia|]. repeat constructor; unfold letter; lia.
  - left. now apply capital_is_name.
Qed.
Lemma dimension_base d w : dimension d w -> pow_base w = Ok d.
Proof.
  intros [n ds H| | |n H]; unfold pow_base.
  - rewrite (numeral_head _ _ _ H), (numeral_parse _ _ H). reflexivity.
  - reflexivity.
  - reflexivity.
  - destruct (capital_upper n (proj1 H)) as (-> & -> & _). rewrite !compare_false.
    + rewrite (proj1 (capital_valid n) (proj1 H)). reflexivity.
    + lits. change [70; 105; 120; 101; 100] with (codes "Fixed"). apply typevar_not; auto. unfold reserved. cbn [In]. tauto.
    + lits. apply capital_not_lower; [apply H|lia].
Qed.
Lemma dimension_dim d w p it e r : dimension d w -> need p it = Ok (e, r) -> parse_dim p w it = Ok (Some (d e), r).
Proof.
  intros D H. unfold parse_dim. rewrite H. cbn [bind]. destruct D as [n ds D| | |n D].
  - rewrite (numeral_head _ _ _ D), (numeral_parse _ _ D). reflexivity.
  - reflexivity.
  - reflexivity.
  - destruct (capital_upper n (proj1 D)) as (-> & -> & _). rewrite typevar_unknown by auto. unfold checked_name. rewrite (proj1 (capital_valid n) (proj1 D)). reflexivity.
Qed.
Lemma pow_iter d e k : pow d e k = Nat.iter k d e.
Proof. induction k as [|k IH]; cbn [pow Nat.iter nat_rect]; auto. now rewrite IH. Qed.

(** * Words that are types *)
Definition no_bracket (r : list Z) : Prop := starts_with [91] (strip r) = None.
Lemma dtype_words p r : no_bracket r -> Forall (fun wt => parse_dtype p (codes (fst wt)) r = Ok (Some (snd wt), r)) words.
Proof.
  intros N. unfold words.
  repeat (apply Forall_cons; [cbn [fst snd]; unfold parse_dtype, parse_complex_parameters; rewrite ?tok_strip; change (lit "[") with [91]; rewrite ?N; reflexivity|]).
  constructor.
Qed.
Lemma dtype_word w t p r : In (w, t) words -> no_bracket r -> parse_dtype p (codes w) r = Ok (Some t, r).
Proof. intros I N. pose proof (dtype_words p r N) as F. rewrite Forall_forall in F. exact (F (w, t) I). Qed.
Lemma words_names : Forall (fun wt => name (codes (fst wt))) words.
Proof.
  unfold words. repeat (apply Forall_cons; [cbn [fst]; match goal with |- name ?x => exact (proj1 (proj2 (proj1 (parse_name_iff x x []) eq_refl))) end|]). constructor.
Qed.
Lemma word_name w t : In (w, t) words -> name (codes w).
Proof. intros I. pose proof words_names as F. rewrite Forall_forall in F. exact (F (w, t) I). Qed.
Lemma dtype_typevar n p r : typevar_name n -> no_bracket r -> parse_dtype p n r = Ok (Some (DTypevar n), r).
Proof.
  intros T N. unfold parse_dtype. rewrite !compare_false.
  - rewrite (capital_not_builtin n (proj1 T)), typevar_unknown by auto. destruct (capital_upper n (proj1 T)) as (-> & _). rewrite tok_strip.
    change (lit "[") with [91]. rewrite N. cbn [bind]. unfold checked_name. rewrite (proj1 (capital_valid n) (proj1 T)). reflexivity.
  - apply (typevar_not n "State" T). unfold reserved. cbn [In]. tauto.
  - lits. apply capital_not_lower; [apply T|lia].
Qed.
Lemma dtype_app n p r r1 a r2 r3 : typevar_name n -> strip r = 91 :: r1 -> need p r1 = Ok (a, r2) -> strip r2 = 93 :: r3 ->
  parse_dtype p n r = Ok (Some (DTypevarApp n a), r3).
Proof.
  intros T E1 E2 E3. unfold parse_dtype. rewrite !compare_false.
  - rewrite (capital_not_builtin n (proj1 T)), typevar_unknown by auto. destruct (capital_upper n (proj1 T)) as (-> & _). rewrite tok_strip, E1.
    lits. cbn [starts_with bind]. rewrite Z.eqb_refl. rewrite E2. cbn [bind]. unfold require. rewrite tok_strip, E3. lits. cbn [starts_with]. rewrite Z.eqb_refl.
    cbn [bind]. unfold checked_name. rewrite (proj1 (capital_valid n) (proj1 T)). reflexivity.
  - apply (typevar_not n "State" T). unfold reserved. cbn [In]. tauto.
  - lits. apply capital_not_lower; [apply T|lia].
Qed.
(** Words with arguments. *)
Definition arg_words : list (string * argparser) :=
  [("bytes", PBytes); ("fixed_bytes", PFixedBytes); ("fixed_string", PFixedString); ("char", PChar); ("fixed", PFixed); ("option", POption); ("pointer", PPointer)]%string.
Lemma arg_words_names : Forall (fun wt => name (codes (fst wt))) arg_words.
Proof. unfold arg_words. repeat (apply Forall_cons; [cbn [fst]; match goal with |- name ?x => exact (proj1 (proj2 (proj1 (parse_name_iff x x []) eq_refl))) end|]). constructor. Qed.
Lemma dtype_args w a p r r1 : In (w, a) arg_words -> strip r = 91 :: r1 ->
  parse_dtype p (codes w) r = do (t, it) <- parse_type_args p a r; Ok (Some t, it).
Proof.
  intros I E. assert (F : Forall (fun wa => parse_dtype p (codes (fst wa)) r = do (t, it) <- parse_type_args p (snd wa) r; Ok (Some t, it)) arg_words).
  { unfold arg_words. repeat (apply Forall_cons; [cbn [fst snd]; unfold parse_dtype; rewrite tok_strip, E; reflexivity|]). constructor. }
  rewrite Forall_forall in F. exact (F (w, a) I).
Qed.
