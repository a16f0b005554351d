(** C13, C19, C49, C50: quoted literals.  [text utf8_of cps s]: [s] is the UTF-8
    encoding of the scalar values [cps].  [dq_body], [dq_denotes], [ds_denotes]
    (EscapeSpec): well-formed insides of literals and the bytes they stand for. *)
From Verif Require Import Base ScanModel ScanSpec EncodingModel EncodingSpec EscapeModel EscapeSpec EscapeProofs.

(** C13: print, parse, unescape gives the original bytes, whatever follows the
    literal; when the parser reports no escapes the raw content is already it. *)
Theorem C13_round_trip : forall cps s rest, text utf8_of cps s -> exists body esc,
  print_escaped_utf8_string s false = Ok (34 :: body ++ [34]) /\
  parse_doublequote_string_no_ws ((34 :: body ++ [34]) ++ rest) = Ok (Some (body, esc, rest)) /\
  unescape_string body = Ok s /\ (esc = false -> body = s).
Proof. exact round_trip. Qed.
Print Assumptions C13_round_trip.
(** A byte string that is not UTF-8 is refused by the printer. *)
Theorem C13_invalid_refused : forall sq s, bytes s -> (forall cps, ~ text utf8_of cps s) -> exists e, print_escaped_utf8_string s sq = Throw e.
Proof. exact print_rejects. Qed.
Print Assumptions C13_invalid_refused.
Example C13_case : text utf8_of [34; 92; 10; 127; 0xe9; 0x1f600] [34; 92; 10; 127; 0xc3; 0xa9; 0xf0; 0x9f; 0x98; 0x80] /\
  print_escaped_utf8_string [34; 10; 127; 0xc3; 0xa9; 0xf0; 0x9f; 0x98; 0x80] false = Ok (codes """\""\n\u007f\u00e9\U0001f600""").
Proof.
  split; [|reflexivity].
  apply (text_cons _ 34 [34]); [constructor; lia|]. apply (text_cons _ 92 [92]); [constructor; lia|].
  apply (text_cons _ 10 [10]); [constructor; lia|]. apply (text_cons _ 127 [127]); [constructor; lia|].
  apply (text_cons _ 0xe9 [0xc3; 0xa9]); [apply (utf8_2 3 41); lia|].
  apply (text_cons _ 0x1f600 [0xf0; 0x9f; 0x98; 0x80]); [apply (utf8_4 0 31 24 0); try lia; unfold scalar; lia|constructor].
Qed.

(** C19: exact result of the double-quote scanner. *)
Theorem C19_literal : forall s body esc rest, parse_doublequote_string_no_ws s = Ok (Some (body, esc, rest)) <->
  s = 34 :: body ++ 34 :: rest /\ dq_body body /\ (esc = true <-> In 92 body).
Proof. exact dq_iff. Qed.
Print Assumptions C19_literal.
Theorem C19_no_match : forall s, parse_doublequote_string_no_ws s = Ok None <-> ~ next_is (eq 34) s.
Proof. exact dq_none. Qed.
Print Assumptions C19_no_match.
Theorem C19_malformed_throws : forall s, next_is (eq 34) s -> (~ exists body rest, s = 34 :: body ++ 34 :: rest /\ dq_body body) ->
  parse_doublequote_string_no_ws s = Throw "parse_error".
Proof. exact dq_throws. Qed.
Print Assumptions C19_malformed_throws.
(** The content is the bytes it denotes, or an escape in it is not a character
    (a surrogate or a number above 10FFFF) and unescaping throws. *)
Theorem C19_unescape : forall body, dq_body body ->
  (exists w, dq_denotes body w /\ unescape_string body = Ok w) \/
  ((exists pre i post, body = pre ++ i ++ post /\ dq_body pre /\ dq_item i None /\ dq_body post) /\ unescape_string body = Throw "invalid_code_point").
Proof. exact unescape_dichotomy. Qed.
Print Assumptions C19_unescape.
Theorem C19_unescape_denotes : forall body w, dq_denotes body w -> unescape_string body = Ok w.
Proof. exact unescape_denotes. Qed.
Print Assumptions C19_unescape_denotes.
(** On any bytes at all (not only scanned literals) unescaping stays in bounds. *)
Theorem C19_unescape_safe : forall s, (exists w, unescape_string s = Ok w) \/ (exists e, unescape_string s = Throw e).
Proof. intros s. pose proof (unescape_safe s) as H. destruct (unescape_string s); try contradiction; eauto. Qed.
Print Assumptions C19_unescape_safe.
Example C19_case : parse_doublequote_string_no_ws (codes """a\""\u00e9"" , x") = Ok (Some (codes "a\""\u00e9", true, codes " , x")) /\
  unescape_string (codes "a\""\u00e9") = Ok [97; 34; 0xc3; 0xa9] /\ parse_doublequote_string_no_ws (codes """a\x""") = Throw "parse_error".
Proof. split; [reflexivity|split; reflexivity]. Qed.
(** JSON writes U+1F600 as a surrogate pair; such a literal is scanned but not
    unescaped. *)
Example C19_surrogate_pair : exists body, parse_doublequote_string_no_ws (codes """\ud83d\ude00""") = Ok (Some (body, true, [])) /\
  unescape_string body = Throw "invalid_code_point".
Proof. exists (codes "\ud83d\ude00"). split; reflexivity. Qed.

(** C49: datashape literals: exact result; ... *)
Theorem C49_literal : forall s w rest, ds_parse_quoted_string s = Ok (Some (w, rest)) <->
  exists q body, (q = 39 \/ q = 34) /\ skipped s (q :: body ++ q :: rest) /\ ds_denotes q body w.
Proof. exact ds_quoted_iff. Qed.
Print Assumptions C49_literal.
Theorem C49_no_match : forall s, ds_parse_quoted_string s = Ok None <-> exists r, skipped s r /\ ~ next_is (fun c => c = 39 \/ c = 34) r.
Proof. exact ds_quoted_none. Qed.
Print Assumptions C49_no_match.
Theorem C49_safe : forall s, (exists x, ds_parse_quoted_string s = Ok x) \/ (exists e, ds_parse_quoted_string s = Throw e).
Proof. intros s. pose proof (ds_quoted_safe s) as H. destruct (ds_parse_quoted_string s); try contradiction; eauto. Qed.
Print Assumptions C49_safe.
(** ... what the printer writes (either quote) is read back, for text without
    characters above U+FFFF; ... *)
Theorem C49_round_trip_partial : forall sq cps s rest, text utf8_of cps s -> Forall (fun cp => cp < 0x10000) cps -> exists lit,
  print_escaped_utf8_string s sq = Ok lit /\ ds_parse_quoted_string (lit ++ rest) = Ok (Some (s, rest)).
Proof. exact ds_round_trip. Qed.
Print Assumptions C49_round_trip_partial.
(** ... and is never read back if there is such a character. *)
Theorem C49_round_trip_refuted : forall sq cps s rest, text utf8_of cps s -> Exists (fun cp => 0x10000 <= cp) cps -> exists lit e,
  print_escaped_utf8_string s sq = Ok lit /\ ds_parse_quoted_string (lit ++ rest) = Throw e.
Proof. exact ds_astral. Qed.
Print Assumptions C49_round_trip_refuted.
Example C49_case : ds_parse_quoted_string (codes "  'it\'s \u00e9' x") = Ok (Some (codes "it's " ++ [0xc3; 0xa9], codes " x")) /\
  print_escaped_utf8_string [0xf0; 0x9f; 0x98; 0x80] true = Ok (codes "'\U0001f600'") /\
  ds_parse_quoted_string (codes "'\U0001f600'") = Throw "internal_parse_error".
Proof. split; [reflexivity|split; reflexivity]. Qed.

(** C50: missing-value words. *)
Theorem C50_parse_na : forall s, (parse_na s = Ok true <-> na_word s) /\ (~ na_word s -> parse_na s = Ok false).
Proof.
  intros s. split; [apply na_iff|]. intros N. destruct (na_total s) as ([] & E); auto. apply na_iff in E. contradiction.
Qed.
Print Assumptions C50_parse_na.
Example C50_case : parse_na (codes "NuLL") = Ok true /\ parse_na (codes "none") = Ok false /\ na_word (codes "None").
Proof. split; [reflexivity|split; [reflexivity|unfold na_word; auto]]. Qed.

(** C51: encoding names: every name means the encoding it denotes after removing
    '-' and '_', and no other text is a name. *)
Definition encoding_names : list (string * enc) :=
  [("A", Ascii); ("ascii", Ascii); ("us-ascii", Ascii); ("U8", Utf8); ("utf8", Utf8); ("utf-8", Utf8); ("utf_8", Utf8);
   ("U16", Utf16); ("utf16", Utf16); ("utf-16", Utf16); ("utf_16", Utf16); ("U32", Utf32); ("utf32", Utf32); ("utf-32", Utf32); ("utf_32", Utf32);
   ("ucs2", Ucs2); ("ucs-2", Ucs2); ("ucs_2", Ucs2)]%string.
Lemma eqb_lit s t : ScanModel.list_eqb s (lit t) = true <-> s = codes t.
Proof. exact (ScanProofs.list_eqb_iff s (lit t)). Qed.
Theorem C51_encoding_names : forall s,
  (forall e, string_to_encoding s = Ok e <-> exists n, In (n, e) encoding_names /\ s = codes n) /\
  ((~ exists n e, In (n, e) encoding_names /\ s = codes n) -> string_to_encoding s = Throw "internal_parse_error").
Proof.
  intros s.
  assert (A : (exists n e, In (n, e) encoding_names /\ s = codes n /\ string_to_encoding s = Ok e) \/ string_to_encoding s = Throw "internal_parse_error").
  { unfold string_to_encoding.
    repeat match goal with
    | |- context [if ?c then Ok _ else _] => let H := fresh "H" in destruct c eqn:H;
        [left; repeat (apply orb_true_iff in H; destruct H as [H|H]); apply eqb_lit in H; eexists _, _; (split; [|split; [exact H|reflexivity]]); unfold encoding_names; cbn [In]; repeat (try (left; reflexivity); right)|clear H]
    end. auto. }
  assert (B : forall n e, In (n, e) encoding_names -> string_to_encoding (codes n) = Ok e).
  { intros n e I. unfold encoding_names in I. cbn [In] in I. repeat (destruct I as [I|I]; [injection I as <- <-; reflexivity|]). contradiction. }
  split.
  - intros e. split.
    + intros E. destruct A as [(n & e' & I & -> & E')|T]; [|congruence]. exists n. split; auto. congruence.
    + intros (n & I & ->). auto.
  - intros N. destruct A as [(n & e & I & E & _)|T]; auto. exfalso. eauto.
Qed.
Print Assumptions C51_encoding_names.
Example C51_case : string_to_encoding (codes "utf_16") = Ok Utf16 /\ string_to_encoding (codes "UTF8") = Throw "internal_parse_error".
Proof. split; reflexivity. Qed.
