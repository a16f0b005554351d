(** Proofs about parse_json: it reads exactly what the specification says. *)
From Verif Require Import Base ParseIntModel ParseIntSpec ParseIntProofs ScanModel ScanSpec ScanProofs ScanProps EncodingModel EncodingSpec EncodingProofs
  EscapeModel EscapeSpec EscapeProofs EscapeProps JsonModel JsonSpec JsonProofs.
Open Scope Z_scope.

Definition actual : bool -> Z -> list Z -> Z -> Prop := fun sgn W m v => string_to_number sgn W m = Ok v.

(** On a text without leading whitespace, and on any text. *)
Definition sound0 (p : parser) (P : meaning) : Prop := forall it v r, bytes it -> ~ next_is space_c it -> p it = Ok (v, r) -> exists x, it = x ++ r /\ P x v.
Definition complete0 (p : parser) (P : meaning) : Prop := forall x v r, P x v -> stop r -> p (x ++ r) = Ok (v, r).
Definition sound (p : parser) (P : meaning) : Prop := forall it v r, bytes it -> p it = Ok (v, r) -> exists w x, it = w ++ x ++ r /\ ws w /\ P x v.
Definition complete (p : parser) (P : meaning) : Prop := forall w x v r, ws w -> P x v -> stop r -> p (w ++ x ++ r) = Ok (v, r).
Definition starting (P : meaning) : Prop := forall x v, P x v -> starts x.

Lemma bytes_app a b : bytes (a ++ b) <-> bytes a /\ bytes b. Proof. apply Forall_app. Qed.
Lemma wrap_sound p P : sound0 p P -> sound (fun it => p (skip_whitespace it)) P.
Proof.
  intros S it v r B H. destruct (skip_ws_inv it) as (w & E & W & N). rewrite E in B. apply bytes_app in B as (_ & B). destruct (S _ _ _ B N H) as (x & X & Y). exists w, x. rewrite <- X. auto.
Qed.
Lemma wrap_complete p P : starting P -> complete0 p P -> complete (fun it => p (skip_whitespace it)) P.
Proof. intros T C w x v r W X S. rewrite starts_skip; eauto. Qed.

(** ** Words, numbers, literals *)
Lemma word_iff c tok it r : ~ space_c c -> ~ next_is space_c it -> (parse_token it (c :: tok) = Some r <-> it = (c :: tok) ++ r).
Proof. intros N S. split; [apply word_inv; auto|]. intros ->. apply word_yes. auto. Qed.
Lemma number_none c r : c <> 45 -> ~ digit_c c -> json_parse_number (c :: r) = Ok None.
Proof.
  intros A B. unfold json_parse_number. cbn [at_end deref bind]. rewrite (proj2 (Z.eqb_neq c 45) A). cbn [at_end deref bind]. unfold digit_c in B.
  rewrite (proj2 (Z.eqb_neq c 48)) by lia. unfold between. destruct (Z.leb_spec 49 c), (Z.leb_spec c 57); auto; lia.
Qed.
Lemma none_number m r : json_number m -> stop r -> exists x, json_parse_number (m ++ r) = Ok (Some (m, r)) /\ x = tt.
Proof. intros N S. exists tt. split; auto. apply C17_json_number_complete; auto. Qed.
Lemma no_bs_denotes b : dq_body b -> ~ In 92 b -> dq_denotes b b.
Proof.
  induction 1 as [|i v t I B IH]; intros N; [constructor|]. assert (Nt : ~ In 92 t) by (intros X; apply N, in_or_app; auto).
  assert (v = Some i) as ->; [|constructor; auto]. inversion I; subst; auto; exfalso; apply N; left; auto.
Qed.
Lemma content_iff b e w : dq_body b -> (e = true <-> In 92 b) -> (content b e = Ok w <-> dq_denotes b w).
Proof.
  intros B E. unfold content. destruct e.
  - split; [|apply unescape_denotes]. intros H. destruct (unescape_dichotomy b B) as [(w' & D & U)|(_ & U)]; [|congruence]. rewrite U in H. inversion H; subst. auto.
  - assert (N : ~ In 92 b) by (intros X; apply E in X; discriminate). split; intros H; [inversion H; subst; now apply no_bs_denotes|].
    f_equal. symmetry. eapply no_escape_denotes; eauto.
Qed.
Lemma quoted_starts b : starts (quoted b).
Proof. exists 34, (b ++ [34]). split; auto. unfold space_c. lia. Qed.
Lemma quoted_read b r : dq_body b -> exists e, parse_doublequote_string_no_ws (quoted b ++ r) = Ok (Some (b, e, r)) /\ (e = true <-> In 92 b).
Proof. apply dq_read. Qed.
Lemma quoted_none b r : json_parse_number (quoted b ++ r) = Ok None.
Proof. apply number_none; [lia|unfold digit_c; lia]. Qed.
Lemma quoted_word b r t tok : t <> 34 -> parse_token (quoted b ++ r) (t :: tok) = None.
Proof. intros N. unfold quoted. cbn [app]. apply (token_no [] 34); auto. nsp. Qed.

Lemma denotes_bytes b w : dq_denotes b w -> bytes b -> bytes w.
Proof.
  induction 1 as [|i v t w I D IH]; intros B; [constructor|]. apply bytes_app in B as (Bi & Bt). apply bytes_app. split; auto. clear - I Bi.
  inversion I as [|e v0 H| | | |]; subst; auto; try (eapply utf8_of_bytes; eauto; fail). constructor; [|constructor].
  assert (F : Forall (fun p => byte (snd p)) escapes) by (repeat constructor; unfold byte; cbn; lia). rewrite Forall_forall in F. apply (F _ H).
Qed.

(** ** Strings *)
Lemma utf8_len cp bs : utf8_of cp bs -> 1 <= len bs <= 4.
Proof. intros U. inversion U; subst; cbn; lia. Qed.
Lemma len_app' (a b : list Z) : len (a ++ b) = len a + len b.
Proof. unfold len. rewrite app_length. lia. Qed.
Lemma utf8_copy_ok cps it : text utf8_of cps it -> forall f out cap, (List.length it <= f)%nat -> 16 <= cap -> len out <= cap -> utf8_copy f it out cap = Ok (out ++ it).
Proof.
  induction 1 as [|cp bs cps rest U T IH]; intros f out cap L C O.
  - destruct f; cbn [utf8_copy]; rewrite app_nil_r; auto.
  - pose proof (utf8_len _ _ U) as LB. destruct (bs ++ rest) as [|c0 r0] eqn:E0; [destruct bs; [cbn in LB; lia|discriminate]|].
    destruct f as [|f]; [cbn in L; lia|]. cbn [utf8_copy]. rewrite <- E0 in *. rewrite (next_complete Utf8 false cp bs rest U). cbn [bind].
    set (cap' := if 8 <=? cap - len out then cap else 2 * cap). assert (R : 8 <= cap' - len out /\ cap <= cap'). { unfold cap'. destruct (Z.leb_spec 8 (cap - len out)); lia. }
    rewrite (append_complete Utf8 false cp bs (cap' - len out) U) by (unfold len in *; lia). cbn [bind].
    rewrite IH; [now rewrite <- app_assoc| |lia|rewrite len_app'; lia]. rewrite app_length in L. unfold len in LB. lia.
Qed.
Lemma utf8_copy_inv f : forall it out cap, bytes it -> (List.length it <= f)%nat -> 16 <= cap -> len out <= cap ->
  match utf8_copy f it out cap with Ok o => utf8_text it /\ o = out ++ it | Throw _ => ~ utf8_text it | _ => False end.
Proof.
  induction f as [|f IH]; intros it out cap B L C O.
  - destruct it; [|cbn in L; lia]. cbn. rewrite app_nil_r. split; auto. exists []. constructor.
  - destruct it as [|c0 r0]; [cbn; rewrite app_nil_r; split; auto; exists []; constructor|]. set (it := c0 :: r0) in *. cbn [utf8_copy]. unfold it. fold it.
    assert (NE : it <> []) by discriminate. destruct (next_utf8_cases it B NE) as [(cp & bs & r & E & U & H)|(NS & (e & H) & _)].
    + unfold next_fn. cbn [negb]. change (next_fn Utf8 false it) with (next_utf8 it). pose proof (next_complete Utf8 false cp bs r U) as X. rewrite <- E in X. cbn [next_fn negb] in X. rewrite X. cbn [bind].
      pose proof (utf8_len _ _ U) as LB.
      set (cap' := if 8 <=? cap - len out then cap else 2 * cap). assert (R : 8 <= cap' - len out /\ cap <= cap'). { unfold cap'. destruct (Z.leb_spec 8 (cap - len out)); lia. }
      pose proof (append_complete Utf8 false cp bs (cap' - len out) U ltac:(unfold len in *; lia)) as A. cbn [append_fn negb] in A |- *. rewrite A. cbn [bind].
      assert (Br : bytes r) by (rewrite E in B; apply bytes_app in B; tauto).
      specialize (IH r (out ++ bs) cap' Br). rewrite len_app' in IH. unfold len in LB. assert (Lr : (List.length r <= f)%nat) by (rewrite E, app_length in L; lia). specialize (IH Lr ltac:(lia) ltac:(unfold len in *; lia)).
      destruct (utf8_copy f r (out ++ bs) cap') as [o| | |]; auto.
      * destruct IH as ((cps & T) & ->). split; [exists (cp :: cps); rewrite E; constructor; auto|]. now rewrite E, <- app_assoc.
      * intros (cps & T). apply IH. rewrite E in T. inversion T as [Q|cp' bs' cps' r' U' T' Q1 Q2]; [destruct bs; [cbn in LB; lia|discriminate]|].
        destruct (utf8_prefix_unique _ _ _ _ _ _ U' U Q2) as (_ & _ & ->). exists cps'. auto.
    + cbn [next_fn negb] in H |- *. rewrite H. cbn [bind]. intros (cps & T). apply NS. inversion T as [Q|cp' bs' cps' r' U' T' Q1 Q2]. exists cp', bs', r'. auto.
Qed.
Lemma cap16 s : 16 <= (len s + 16) * 1124 / 1024.
Proof. apply Z.div_le_lower_bound; [lia|]. unfold len. lia. Qed.
Lemma set_string_iff s v : bytes s -> (set_from_utf8_string s = Ok v <-> utf8_text s /\ v = VStr s).
Proof.
  intros B. unfold set_from_utf8_string. pose proof (utf8_copy_inv (List.length s) s [] ((len s + 16) * 1124 / 1024) B (Nat.le_refl _) (cap16 s)) as H.
  assert (L : len (@nil Z) <= (len s + 16) * 1124 / 1024) by (pose proof (cap16 s); unfold len; cbn; unfold len in *; lia). specialize (H L).
  destruct (utf8_copy _ s [] _) as [o| | |]; cbn [bind]; try contradiction.
  - destruct H as (T & ->). cbn [app]. split; [intros X; inversion X; auto|intros (_ & ->); auto].
  - split; [discriminate|intros (X & _); contradiction].
Qed.
Lemma set_string_complete s : utf8_text s -> set_from_utf8_string s = Ok (VStr s).
Proof.
  intros (cps & T). unfold set_from_utf8_string. rewrite (utf8_copy_ok cps s T); auto using cap16. pose proof (cap16 s). unfold len at 1. cbn [List.length]. lia.
Qed.
Lemma located_ok {A} (o : outcome A) v : located o = Ok v <-> o = Ok v.
Proof. destruct o; cbn; split; auto; discriminate. Qed.

(** ** Integers: no backslash is accepted *)
Lemma digits_no x ds : Forall digit ds -> x < 48 \/ 57 < x -> ~ In x ds.
Proof. intros F X I. rewrite Forall_forall in F. specialize (F x I). unfold digit in F. lia. Qed.
Lemma number_no_bs s n : number s n -> ~ In 92 s.
Proof.
  intros H I. inversion H; subst; repeat (rewrite in_app_iff in I; cbn [In] in I); try (eapply digits_no with (x := 92) in I; eauto; lia).
  - destruct I as [I|[I|I]]; [eapply digits_no; eauto; lia|lia|]. match goal with X : Forall (eq 48) _ |- _ => rewrite Forall_forall in X; specialize (X 92 I); lia end.
  - destruct I as [I|[I|I]]; [eapply digits_no with (x := 92) (ds := ds); eauto; lia|lia|eapply digits_no with (x := 92) (ds := es); eauto; lia].
  - destruct I as [I|[I|[I|I]]]; [eapply digits_no with (x := 92) (ds := ds); eauto; lia|lia|lia|eapply digits_no with (x := 92) (ds := es); eauto; lia].
Qed.
Lemma na_no_bs s : ParseIntModel.parse_na s = true -> ~ In 92 s.
Proof.
  intros H. destruct s as [|a [|b [|c [|d [|]]]]]; try discriminate; cbn [ParseIntModel.parse_na In] in *; [tauto| |].
  - apply andb_true_iff in H as (A & B). apply Z.eqb_eq in A, B. lia.
  - repeat match goal with
    | X : (_ || _) = true |- _ => apply orb_true_iff in X as [X|X]
    | X : (_ && _) = true |- _ => apply andb_true_iff in X as (? & X)
    | X : (_ =? _) = true |- _ => apply Z.eqb_eq in X
    end; lia.
Qed.
Lemma stn_no_bs sgn W s v : string_to_number sgn W s = Ok v -> ~ In 92 s.
Proof.
  unfold string_to_number. destruct (ParseIntModel.parse_na s) eqn:NA; [intros _; now apply na_no_bs|]. destruct (strip_minus s) as (neg, t) eqn:SM.
  destruct (parse_u 64 t) as [u| | |] eqn:PU; cbn [bind]; try discriminate. intros _. destruct (parse_u_sound 64 t u ltac:(lia) PU) as (n & N & _). apply number_no_bs in N.
  unfold strip_minus in SM. destruct s as [|c s']; [inversion SM; auto|]. destruct (Z.eqb_spec c 45) as [->|]; inversion SM; subst; auto. cbn [In]. intros [X|X]; [lia|auto].
Qed.

(** ** Scalars *)
Lemma bool_starting : starting bool_means.
Proof. intros x v H. inversion H; subst; auto using quoted_starts.
  - exists 116, (codes "rue"). split; [reflexivity|unfold space_c; lia].
  - exists 102, (codes "alse"). split; [reflexivity|unfold space_c; lia].
  - exists 49, []. split; [reflexivity|unfold space_c; lia].
  - exists 48, []. split; [reflexivity|unfold space_c; lia].
Qed.
Lemma int_starting rd sgn W : starting (int_means rd sgn W).
Proof. intros x v H. inversion H as [m z N R E1 E2|]; subst; auto using quoted_starts. eapply value_starts. exact (g_number space_c dq_body _ N). Qed.
Lemma string_starting : starting string_means.
Proof. intros x v H. inversion H; subst; auto using quoted_starts. Qed.
Lemma option_starting rd t : starting (option_means rd t).
Proof.
  intros x v H. inversion H as [| |b w| W m z N R| | |]; subst; auto using quoted_starts; try (eapply bool_starting; eauto; fail); try (eapply string_starting; eauto; fail).
  - exists 110, (codes "ull"). split; [reflexivity|unfold space_c; lia].
  - eapply value_starts. exact (g_number space_c dq_body _ N).
Qed.

Lemma wd (c : Z) tok s : lit s = c :: tok -> ~ space_c c -> forall it r, ~ next_is space_c it -> (parse_token it (lit s) = Some r <-> it = lit s ++ r).
Proof. intros E N it r S. rewrite E. now apply word_iff. Qed.
Ltac nsc := unfold space_c; lia.

Lemma parse_bool_words w v : parse_bool_checked w = Ok v -> if v then true_word w else false_word w.
Proof. intros H. destruct (C48_parse_bool_checked w) as (A & B & _). destruct v; [now apply A|now apply B]. Qed.

Lemma bool_sound0 : sound0 parse_bool_json bool_means.
Proof.
  intros it v r B S. unfold parse_bool_json.
  destruct (parse_token it (lit "true")) as [r1|] eqn:T. { intros H. inversion H; subst. apply (wd 116 [114; 117; 101]) in T; auto; [|nsc]. eexists. split; [exact T|constructor]. }
  destruct (parse_token it (lit "false")) as [r1|] eqn:F. { intros H. inversion H; subst. apply (wd 102 [97; 108; 115; 101]) in F; auto; [|nsc]. eexists. split; [exact F|constructor]. }
  destruct (parse_token it (lit "null")) as [r1|] eqn:N; [discriminate|]. destruct (json_noub it) as (x & X). rewrite X. cbn [bind].
  destruct x as [(m, r1)|].
  - destruct (C17_json_number_longest _ _ _ X) as (E & _). destruct m as [|c [|]]; try discriminate. destruct (Z.eqb_spec c 48) as [->|]; [|destruct (Z.eqb_spec c 49) as [->|]; [|discriminate]];
      intros H; inversion H; subst; eexists; (split; [reflexivity|constructor]).
  - destruct (parse_doublequote_string_no_ws it) as [[((b, e), r1)|]| | |] eqn:D; cbn [bind]; try discriminate. apply dq_inv in D as (E & Bd & Es).
    destruct (content b e) as [w| | |] eqn:Cn; cbn [bind]; try discriminate. apply content_iff in Cn; auto. destruct (parse_bool_checked w) as [z| | |] eqn:P; cbn [bind]; try discriminate.
    intros H. inversion H; subst. apply parse_bool_words in P. exists (quoted b). split; auto. destruct z; econstructor; eauto.
Qed.
Lemma lit_no c tok it0 t tok' : ~ space_c c -> c <> t -> parse_token ((c :: tok) ++ it0) (t :: tok') = None.
Proof. intros N D. apply (token_no [] c (tok ++ it0)); auto. Qed.
Lemma json_number_1 : json_number [49]. Proof. exists [], [49], [], []. repeat split; try constructor; auto; lia. Qed.
Lemma json_number_0 : json_number [48]. Proof. exists [], [48], [], []. repeat split; constructor; auto; lia. Qed.
Lemma bool_complete0 : complete0 parse_bool_json bool_means.
Proof.
  intros x v r H S. unfold parse_bool_json.
  change (lit "true") with [116; 114; 117; 101]. change (lit "false") with [102; 97; 108; 115; 101]. change (lit "null") with [110; 117; 108; 108].
  assert (W : forall b (z : bool), (exists w, dq_denotes b w /\ parse_bool_checked w = Ok z) -> parse_bool_json (quoted b ++ r) = Ok (VBool (if z then 1 else 0), r)).
  { intros b z (w & D & P). unfold parse_bool_json. change (lit "true") with [116; 114; 117; 101]. change (lit "false") with [102; 97; 108; 115; 101]. change (lit "null") with [110; 117; 108; 108].
    rewrite !quoted_word by lia. rewrite quoted_none. cbn [bind]. destruct (quoted_read b r (denotes_body _ _ D)) as (e & R & E). rewrite R. cbn [bind].
    apply (content_iff b e w (denotes_body _ _ D) E) in D. rewrite D. cbn [bind]. rewrite P. reflexivity. }
  inversion H; subst.
  - change (codes "true") with [116; 114; 117; 101]. rewrite word_yes by nsc. reflexivity.
  - change (codes "false") with [102; 97; 108; 115; 101]. rewrite lit_no by (try nsc; lia). rewrite word_yes by nsc. reflexivity.
  - change (codes "1") with [49]. rewrite !lit_no by (try nsc; lia). rewrite (C17_json_number_complete [49] r json_number_1 S). reflexivity.
  - change (codes "0") with [48]. rewrite !lit_no by (try nsc; lia). rewrite (C17_json_number_complete [48] r json_number_0 S). reflexivity.
  - apply (W b true). exists w. split; auto. now apply C48_parse_bool_checked.
  - apply (W b false). exists w. split; auto. now apply C48_parse_bool_checked.
Qed.

Lemma int_sound0 sgn W : sound0 (parse_number_json sgn W) (int_means actual sgn W).
Proof.
  intros it v r B S. unfold parse_number_json. destruct (json_noub it) as (x & X). rewrite X. cbn [bind]. destruct x as [(m, r1)|].
  - destruct (C17_json_number_longest _ _ _ X) as (E & N & _). destruct (string_to_number sgn W m) as [z| | |] eqn:Z; cbn [bind]; try discriminate. intros H. inversion H; subst.
    exists m. split; auto. now constructor.
  - destruct (parse_doublequote_string_no_ws it) as [[((b, e), r1)|]| | |] eqn:D; cbn [bind]; try discriminate. apply dq_inv in D as (E & Bd & Es).
    match goal with |- context [located ?o] => destruct (located o) as [z| | |] eqn:L; cbn [bind]; try discriminate end. apply (proj1 (located_ok _ _)) in L.
    assert (Z : string_to_number sgn W b = Ok z). { destruct e; auto. destruct (unescape_string b); cbn [bind] in L; try discriminate; auto. }
    intros H. inversion H; subst. exists (quoted b). split; auto. apply im_quoted; auto. eapply stn_no_bs; eauto.
Qed.
Lemma int_complete0 sgn W : complete0 (parse_number_json sgn W) (int_means actual sgn W).
Proof.
  intros x v r H S. unfold parse_number_json. inversion H as [m z N R|b z Bd NB R]; subst.
  - rewrite (C17_json_number_complete x r N S). cbn [bind]. unfold actual in R. rewrite R. reflexivity.
  - rewrite quoted_none. cbn [bind]. destruct (quoted_read b r Bd) as (e & Q & E). rewrite Q. cbn [bind]. destruct e; [exfalso; apply NB, E; auto|].
    unfold actual in R. rewrite R. reflexivity.
Qed.
Lemma string_body it b e r : parse_doublequote_string_no_ws it = Ok (Some (b, e, r)) -> bytes it -> bytes b.
Proof. intros D B. apply dq_inv in D as (-> & _). unfold quoted in B. cbn [app] in B. inversion B; subst. apply bytes_app in H2 as (X & _). apply bytes_app in X as (X & _). auto. Qed.
Lemma skip_id it : ~ next_is space_c it -> skip_whitespace it = it.
Proof. intros N. apply skip_ws_iff. exists []. auto. Qed.
Lemma string_sound0 : sound0 parse_string_json string_means.
Proof.
  intros it v r B S. unfold parse_string_json. rewrite skip_id by auto. destruct (parse_doublequote_string_no_ws it) as [[((b, e), r1)|]| | |] eqn:D; cbn [bind]; try discriminate.
  pose proof (string_body _ _ _ _ D B) as Bb. apply dq_inv in D as (E & Bd & Es).
  match goal with |- context [located ?o] => destruct (located o) as [z| | |] eqn:L; cbn [bind]; try discriminate end. apply (proj1 (located_ok _ _)) in L.
  destruct (content b e) as [w| | |] eqn:Cn; cbn [bind] in L; try discriminate. apply content_iff in Cn; auto. apply set_string_iff in L; [|eapply denotes_bytes; eauto].
  intros H. inversion H; subst. destruct L as (T & ->). exists (quoted b). split; auto. econstructor; eauto.
Qed.
Lemma not_space_quoted b r : ~ next_is space_c (quoted b ++ r).
Proof. unfold quoted. cbn [app]. rewrite next_cons. nsc. Qed.
Lemma string_complete0 : complete0 parse_string_json string_means.
Proof.
  intros x v r H S. unfold parse_string_json. inversion H as [b w D T]; subst. rewrite skip_id by apply not_space_quoted.
  destruct (quoted_read b r (denotes_body _ _ D)) as (e & Q & E). rewrite Q. cbn [bind]. apply (content_iff b e w (denotes_body _ _ D) E) in D. rewrite D. cbn [bind located].
  rewrite set_string_complete by auto. reflexivity.
Qed.

Lemma na_word_iff w : ParseIntModel.parse_na w = true <-> na_word w.
Proof.
  rewrite <- na_iff. unfold ParseIntModel.parse_na, EscapeModel.parse_na. destruct w as [|a [|b [|c [|d [|e r]]]]]; cbn [List.length len Z.of_nat]; try (cbn; split; discriminate); try (split; reflexivity).
  - cbn. split; [intros ->; auto|intros X; inversion X; auto].
  - unfold ci. cbn -[Z.eqb]. change (78 + 32) with 110. change (85 + 32) with 117. change (76 + 32) with 108.
    destruct (((a =? 78) || (a =? 110)) && ((b =? 85) || (b =? 117)) && ((c =? 76) || (c =? 108)) && ((d =? 76) || (d =? 108))); cbn [orb]; [tauto|].
    split; [intros ->; auto|intros X; inversion X; auto].
  - match goal with |- context [?z =? 0] => assert (L : 5 <= z) by lia; destruct (Z.eqb_spec z 0); [lia|]; destruct (Z.eqb_spec z 2); [lia|]; destruct (Z.eqb_spec z 4); [lia|] end. split; intros X; discriminate X.
Qed.
Lemma na_word_dec w : na_word w \/ ~ na_word w.
Proof. rewrite <- na_word_iff. destruct (ParseIntModel.parse_na w); [left|right]; auto; discriminate. Qed.
Lemma word_not_na w : true_word w \/ false_word w -> ~ na_word w.
Proof.
  unfold true_word, false_word, na_word. intros H [ -> | [ -> | [ N | -> ]]].
  - cbn in H. intuition discriminate.
  - cbn in H. intuition discriminate.
  - rewrite N in H. cbn in H. intuition discriminate.
  - cbn in H. intuition discriminate.
Qed.
Lemma na_value_iff t v : na_value t = Some v <-> missing t v.
Proof. destruct t; cbn; split; intros H; try discriminate; try (inversion H; subst; constructor); inversion H; subst; auto. Qed.
Definition is_option (t : jty) : Prop := match t with JOptBool | JOptInt _ | JOptString => True | _ => False end.
Lemma set_option_sound t w v : bytes w -> set_option t w = Ok v -> forall b, dq_denotes b w -> option_means actual t (quoted b) v.
Proof.
  intros B H b D. unfold set_option in H. destruct t; try discriminate; cbn [negb andb] in H.
  - destruct (ParseIntModel.parse_na w) eqn:N. { inversion H; subst. eapply op_bool_na; eauto. now apply na_word_iff. }
    destruct (parse_bool_checked w) as [z| | |] eqn:P; cbn [bind] in H; try discriminate. inversion H; subst. apply parse_bool_words in P. apply op_bool. destruct z; econstructor; eauto.
  - destruct (ParseIntModel.parse_na w) eqn:N. { inversion H; subst. eapply op_int_na; eauto. now apply na_word_iff. }
    destruct (string_to_number true W w) as [z| | |] eqn:P; cbn [bind] in H; try discriminate. inversion H; subst. eapply op_quoted; eauto. intros X. apply na_word_iff in X. congruence.
  - apply set_string_iff in H; auto. destruct H as (T & ->). apply op_string. econstructor; eauto.
Qed.
Lemma option_sound0 t : is_option t -> sound0 (parse_option_json t) (option_means actual t).
Proof.
  intros O it v r B S. unfold parse_option_json. rewrite skip_id by auto. cbv zeta.
  destruct (parse_token it (lit "null")) as [r1|] eqn:T.
  { apply (wd 110 [117; 108; 108]) in T; auto; [|nsc]. destruct (na_value t) as [z|] eqn:N; [|discriminate]. intros H. inversion H; subst. eexists. split; [reflexivity|]. constructor. now apply na_value_iff. }
  destruct (parse_doublequote_string_no_ws it) as [[((b, e), r1)|]| | |] eqn:D; cbn [bind]; try discriminate.
  { pose proof (string_body _ _ _ _ D B) as Bb. apply dq_inv in D as (E & Bd & Es).
    match goal with |- context [located ?o] => destruct (located o) as [z| | |] eqn:L; cbn [bind]; try discriminate end. apply (proj1 (located_ok _ _)) in L.
    destruct (content b e) as [w| | |] eqn:Cn; cbn [bind] in L; try discriminate. apply content_iff in Cn; auto.
    intros H. inversion H; subst. exists (quoted b). split; auto. apply (set_option_sound t w); auto. eapply denotes_bytes; eauto. }
  destruct t; try contradiction; [| |discriminate].
  - destruct (parse_token it (lit "true")) as [r1|] eqn:Tt. { intros H. inversion H; subst. apply (wd 116 [114; 117; 101]) in Tt; auto; [|nsc]. eexists. split; [exact Tt|apply op_bool; constructor]. }
    destruct (parse_token it (lit "false")) as [r1|] eqn:F. { intros H. inversion H; subst. apply (wd 102 [97; 108; 115; 101]) in F; auto; [|nsc]. eexists. split; [exact F|apply op_bool; constructor]. }
    destruct (json_noub it) as (x & X). rewrite X. cbn [bind]. destruct x as [(m, r1)|]; [|discriminate]. destruct (C17_json_number_longest _ _ _ X) as (E & _).
    destruct (compare_range_to_literal m (lit "1")) eqn:C1. { intros H. inversion H; subst. apply compare_iff in C1. subst. eexists. split; [reflexivity|apply op_bool; constructor]. }
    destruct (compare_range_to_literal m (lit "0")) eqn:C0; [|discriminate]. intros H. inversion H; subst. apply compare_iff in C0. subst. eexists. split; [reflexivity|apply op_bool; constructor].
  - destruct (json_noub it) as (x & X). rewrite X. cbn [bind]. destruct x as [(m, r1)|]; [|discriminate]. destruct (C17_json_number_longest _ _ _ X) as (E & N & _).
    destruct (string_to_number true W m) as [z| | |] eqn:Q; cbn [bind]; try discriminate. intros H. inversion H; subst. exists m. split; auto. now constructor.
Qed.
Lemma number_not_space m r : json_number m -> ~ next_is space_c (m ++ r).
Proof. intros N. destruct (number_starts m N) as (c & x & -> & C). cbn [app]. rewrite next_cons. unfold space_c, digit_c in *. lia. Qed.
Lemma number_word m r t tok : json_number m -> t <> 45 -> t < 48 \/ 57 < t -> parse_token (m ++ r) (t :: tok) = None.
Proof. intros N A T. destruct (number_starts m N) as (c & x & -> & C). apply lit_no; unfold digit_c, space_c in *; lia. Qed.
Lemma number_no_quote m r : json_number m -> parse_doublequote_string_no_ws (m ++ r) = Ok None.
Proof. intros N. apply dq_none. destruct (number_starts m N) as (c & x & -> & C). cbn [app]. rewrite next_cons. unfold digit_c in C. lia. Qed.
Lemma quoted_option t b w v r : dq_denotes b w -> set_option t w = Ok v -> parse_option_json t (quoted b ++ r) = Ok (v, r).
Proof.
  intros D H. unfold parse_option_json. rewrite skip_id by apply not_space_quoted. cbv zeta. change (lit "null") with [110; 117; 108; 108]. rewrite quoted_word by lia.
  destruct (quoted_read b r (denotes_body _ _ D)) as (e & Q & E). rewrite Q. cbn [bind]. apply (content_iff b e w (denotes_body _ _ D) E) in D. rewrite D. cbn [bind]. rewrite H. reflexivity.
Qed.
Lemma option_complete0 t : complete0 (parse_option_json t) (option_means actual t).
Proof.
  intros x v r H S. inversion H as [t' v' M|x' v' Bm|b w D N|W m z N R|W b w z D NN R|W b w D N|x' v' Sm]; subst.
  - unfold parse_option_json. change (codes "null") with [110; 117; 108; 108]. change (lit "null") with [110; 117; 108; 108]. rewrite skip_id by (cbn [app]; rewrite next_cons; nsc). cbv zeta. rewrite word_yes by nsc. apply na_value_iff in M. rewrite M. reflexivity.
  - inversion Bm; subst.
    + unfold parse_option_json. change (codes "true") with [116; 114; 117; 101]. change (lit "null") with [110; 117; 108; 108]. change (lit "true") with [116; 114; 117; 101].
      rewrite skip_id by (cbn [app]; rewrite next_cons; nsc). cbv zeta. rewrite lit_no by (try nsc; lia). rewrite (proj2 (dq_none _)) by (cbn [app]; rewrite next_cons; lia). cbn [bind]. rewrite word_yes by nsc. reflexivity.
    + unfold parse_option_json. change (codes "false") with [102; 97; 108; 115; 101]. change (lit "null") with [110; 117; 108; 108]. change (lit "true") with [116; 114; 117; 101]. change (lit "false") with [102; 97; 108; 115; 101].
      rewrite skip_id by (cbn [app]; rewrite next_cons; nsc). cbv zeta. rewrite lit_no by (try nsc; lia). rewrite (proj2 (dq_none _)) by (cbn [app]; rewrite next_cons; lia). cbn [bind]. rewrite lit_no by (try nsc; lia). rewrite word_yes by nsc. reflexivity.
    + unfold parse_option_json. change (codes "1") with [49]. change (lit "null") with [110; 117; 108; 108]. change (lit "true") with [116; 114; 117; 101]. change (lit "false") with [102; 97; 108; 115; 101].
      rewrite skip_id by (cbn [app]; rewrite next_cons; nsc). cbv zeta. rewrite lit_no by (try nsc; lia). rewrite (proj2 (dq_none _)) by (cbn [app]; rewrite next_cons; lia). cbn [bind]. rewrite !lit_no by (try nsc; lia).
      rewrite (C17_json_number_complete [49] r json_number_1 S). reflexivity.
    + unfold parse_option_json. change (codes "0") with [48]. change (lit "null") with [110; 117; 108; 108]. change (lit "true") with [116; 114; 117; 101]. change (lit "false") with [102; 97; 108; 115; 101].
      rewrite skip_id by (cbn [app]; rewrite next_cons; nsc). cbv zeta. rewrite lit_no by (try nsc; lia). rewrite (proj2 (dq_none _)) by (cbn [app]; rewrite next_cons; lia). cbn [bind]. rewrite !lit_no by (try nsc; lia).
      rewrite (C17_json_number_complete [48] r json_number_0 S). reflexivity.
    + match goal with D : dq_denotes _ ?w, T : true_word ?w |- _ => apply (quoted_option _ _ w); auto; cbn [set_option negb andb]; assert (NA : ~ na_word w) by (apply word_not_na; auto);
        destruct (ParseIntModel.parse_na w) eqn:PN; [apply na_word_iff in PN; contradiction|]; rewrite (proj2 (proj1 (C48_parse_bool_checked w)) T) end. reflexivity.
    + match goal with D : dq_denotes _ ?w, T : false_word ?w |- _ => apply (quoted_option _ _ w); auto; cbn [set_option negb andb]; assert (NA : ~ na_word w) by (apply word_not_na; auto);
        destruct (ParseIntModel.parse_na w) eqn:PN; [apply na_word_iff in PN; contradiction|]; rewrite (proj2 (proj1 (proj2 (C48_parse_bool_checked w))) T) end. reflexivity.
  - apply (quoted_option _ _ w); auto. cbn [set_option negb andb]. apply na_word_iff in N. rewrite N. reflexivity.
  - unfold parse_option_json. rewrite skip_id by now apply number_not_space. cbv zeta. change (lit "null") with [110; 117; 108; 108]. rewrite number_word by (auto; lia). rewrite number_no_quote by auto. cbn [bind].
    rewrite (C17_json_number_complete x r N S). cbn [bind]. unfold actual in R. rewrite R. reflexivity.
  - apply (quoted_option _ _ w); auto. cbn [set_option negb andb]. destruct (ParseIntModel.parse_na w) eqn:PN; [apply na_word_iff in PN; contradiction|]. unfold actual in R. rewrite R. reflexivity.
  - apply (quoted_option _ _ w); auto. cbn [set_option negb andb]. apply na_word_iff in N. rewrite N. reflexivity.
  - inversion Sm as [b w D T]; subst. apply (quoted_option _ _ w); auto. cbn [set_option negb andb]. now apply set_string_complete.
Qed.
