(** C94-C97: JSON. *)
From Verif Require Import Base ParseIntModel ParseIntSpec ParseIntProofs ScanModel ScanSpec ScanProofs ScanProps EncodingModel EncodingSpec EncodingProofs
  EscapeModel EscapeSpec EscapeProofs EscapeProps DatashapeModel JsonModel JsonSpec JsonProofs JsonParse JsonRead JsonTotal JsonFormat JsonError.
Open Scope Z_scope.

(** * C94: the validator *)
(** It accepts exactly the relaxed grammar: JSON with two more whitespace characters
    and any bytes in strings. *)
Theorem C94_validate_exact : forall t, validate_json t = Ok tt <-> relaxed Element t.
Proof. exact validate_iff. Qed.
Print Assumptions C94_validate_exact.
(** Every JSON text of RFC 8259 is accepted. *)
Theorem C94_validate_accepts_json : forall t, rfc8259 t -> validate_json t = Ok tt.
Proof. intros t H. apply validate_iff. now apply rfc_relaxed. Qed.
Print Assumptions C94_validate_accepts_json.
(** Any other text gives an exception with a position: no crash, no endless loop. *)
Theorem C94_validate_total : forall t, ~ relaxed Element t -> validate_json t = Throw "parse_error".
Proof. intros t N. destruct (validate_total t) as [H|H]; auto. apply validate_iff in H. contradiction. Qed.
Print Assumptions C94_validate_total.
Lemma rfc_string_chars b : rfc_string b -> Forall (fun c => 32 <= c) b.
Proof.
  induction 1 as [|cp bs t U A B C _ IH|e v t I _ IH|ds v t L X _ IH]; [constructor| | |].
  - apply Forall_app. split; auto. inversion U; subst; repeat constructor; lia.
  - assert (F : Forall (fun p => 32 <= fst p) escapes) by (repeat constructor; cbn; lia). rewrite Forall_forall in F. constructor; [lia|]. constructor; auto. apply (F _ I).
  - constructor; [lia|]. constructor; [lia|]. apply Forall_app. split; auto. clear - X. induction X as [|ds d v w X IH D]; [constructor|]. apply Forall_app. split; auto. constructor; auto. inversion D; lia.
Qed.
Lemma number_chars m : json_number m -> Forall (fun c => 32 <= c) m.
Proof.
  assert (D : forall ds, Forall digit_c ds -> Forall (fun c => 32 <= c) ds) by (intros ds F; eapply Forall_impl; [|exact F]; unfold digit_c; lia).
  intros (s & i & f & e & S & I & F & E & ->). rewrite !Forall_app. split; [destruct S; repeat constructor; lia|]. split; [destruct I; repeat constructor; auto; lia|]. split; [destruct F; repeat constructor; auto; lia|].
  destruct E as [|e sg ds A B C F']; [constructor|]. constructor; [lia|]. apply Forall_app. split; auto. destruct B as [ -> | [ -> | -> ]]; repeat constructor; lia.
Qed.
Lemma rfc_chars k t : json rfc_space rfc_string k t -> Forall (fun c => 32 <= c \/ rfc_space c) t.
Proof.
  assert (S : forall w, Forall rfc_space w -> Forall (fun c => 32 <= c \/ rfc_space c) w) by (intros w F; eapply Forall_impl; [|exact F]; auto).
  assert (C : forall w, Forall (fun c => 32 <= c) w -> Forall (fun c => 32 <= c \/ rfc_space c) w) by (intros w F; eapply Forall_impl; [|exact F]; auto).
  induction 1; try (change (codes "true") with [116; 114; 117; 101]); try (change (codes "false") with [102; 97; 108; 115; 101]); try (change (codes "null") with [110; 117; 108; 108]);
    repeat (rewrite ?Forall_app; first [split | left; lia | constructor | apply C, number_chars; assumption | apply C, rfc_string_chars; assumption | apply S; assumption | assumption | left; lia]).
Qed.
(** But not only JSON is accepted: a vertical tab as whitespace, a raw control
    character in a string. *)
Theorem C94_validate_only_json_refuted : exists t t', validate_json t = Ok tt /\ ~ rfc8259 t /\ In 11 t /\ validate_json t' = Ok tt /\ ~ rfc8259 t' /\ t' = quoted [1].
Proof.
  exists [11; 49], (quoted [1]). split; [reflexivity|]. split; [|split; [cbn; auto|split; [reflexivity|split; [|auto]]]]; intros H; apply rfc_chars in H.
  - inversion H as [|? ? [X|X] _]; unfold rfc_space in *; lia.
  - inversion H as [|? ? _ H2]; subst. inversion H2 as [|? ? [X|X] _]; unfold rfc_space in *; lia.
Qed.
Print Assumptions C94_validate_only_json_refuted.
(** The grammar as expected: a text with all the constructs; a trailing comma, a
    missing colon and a bare word are refused. *)
Example C94_case : validate_json (codes " {""a"" : [1, -2.5e+3, true], ""b"":{}, ""c"":[ ], ""d"":null }") = Ok tt /\
  validate_json (codes "[1,]") = Throw "parse_error" /\ validate_json (codes "{""a"" 1}") = Throw "parse_error" /\ validate_json (codes "yes") = Throw "parse_error" /\ validate_json (codes "01") = Throw "parse_error".
Proof. vm_compute. auto. Qed.
Example C94_case_rfc : rfc8259 (codes "[1]") /\ ~ relaxed Element (codes "[1,]").
Proof.
  split.
  - apply rfc_element. apply (g_array _ _ [49]). apply g_one. apply rfc_element. apply g_number. exact json_number_1.
  - intros H. apply validate_iff in H. vm_compute in H. discriminate.
Qed.

(** * C95: writing JSON *)
(** What is written for a value is a JSON text (RFC 8259), the buffer is never
    overrun, and reading the text gives the value back.  Missing from the full
    property: tuples, the smallest int64, invalid UTF-8 (below). *)
Theorem C95_written_text_partial : forall tp v as_list, well_formed tp -> printable tp -> has_type tp v ->
  exists t, format_json tp v as_list = Ok t /\ rfc8259 t /\ (no_int64_min tp v -> parse_json tp t = Ok v).
Proof. intros. now apply format_ok. Qed.
Print Assumptions C95_written_text_partial.
Theorem C95_tuple_refuted : forall tys v as_list, format_json (JTuple tys) v as_list = Throw "runtime_error".
Proof. intros. apply tuple_throws. Qed.
Print Assumptions C95_tuple_refuted.
Theorem C95_int64_min_refuted : forall as_list, exists t, has_type (JInt true 64) (VInt (- 2 ^ 63)) /\
  format_json (JInt true 64) (VInt (- 2 ^ 63)) as_list = Ok t /\ rfc8259 t /\ parse_json (JInt true 64) t = UB.
Proof. intros al. destruct (int64_min_ub al) as (t & H). exists t. split; [cbn; lia|exact H]. Qed.
Print Assumptions C95_int64_min_refuted.
(** A string whose next byte can start no character is written forever: for every
    bound on the number of steps the loop is not finished. *)
Theorem C95_invalid_utf8_refuted : forall s o fuel, bytes s -> s <> [] -> bad_lead8 s -> len (otext o) <= ocap o -> format_chars fuel s o = NoFuel.
Proof. intros. now apply format_stuck. Qed.
Print Assumptions C95_invalid_utf8_refuted.
Definition ex_type : jty := JStruct [codes "id"; codes "tags"; codes "n""x"] [JInt true 32; JVar JString; JOptInt 16].
Definition ex_value : jval := VList [VInt (-7); VList [VStr (codes "a/b"); VStr [195; 169; 10]]; VInt (- 2 ^ 15)].
Example C95_case : well_formed ex_type /\ printable ex_type /\ has_type ex_type ex_value /\ no_int64_min ex_type ex_value /\
  format_json ex_type ex_value false = Ok (codes "{""id"":-7,""tags"":[""a\/b"",""" ++ [195; 169] ++ codes "\n""],""n\""x"":null}") /\
  format_json ex_type ex_value true = Ok (codes "[-7,[""a\/b"",""" ++ [195; 169] ++ codes "\n""],null]").
Proof.
  assert (A : forall s, Forall (fun c => 0 <= c < 128) s -> utf8_text s). { induction 1 as [|c s C _ (cps & T)]; [exists []; constructor|]. exists (c :: cps). apply (text_cons utf8_of c [c]); auto. now constructor. }
  split; [cbn; tauto|]. split; [cbn; split; [|split; auto]|].
  - repeat constructor; cbn; intuition discriminate.
  - repeat constructor; apply A; repeat constructor; cbn; lia.
  - split; [cbn; split; [lia|split; [|split; [lia|auto]]]|].
    + constructor; [apply A; repeat constructor; cbn; lia|]. constructor; auto. exists [233; 10]. apply (text_cons utf8_of (64 * 3 + 41) [192 + 3; 128 + 41]); [constructor; lia|]. apply (text_cons utf8_of 10 [10]); [constructor; lia|constructor].
    + split; [cbn; repeat split; auto; intros; discriminate|]. vm_compute. auto.
Qed.
Example C95_case_stuck : bytes [128; 65] /\ bad_lead8 [128; 65] /\ has_type JString (VStr [65]) /\ format_json JString (VStr [128; 65]) false = NoFuel.
Proof. split; [repeat constructor; unfold byte; lia|]. split; [left; cbn; lia|]. split; [exists [65]; apply (text_cons utf8_of 65 [65]); [constructor; lia|constructor]|reflexivity]. Qed.

(** * C96: reading JSON *)
(** A text is read as a value exactly if it means that value for the type: arrays
    element by element, structs from an object (the last member of a name counts,
    members of other names are skipped if they are JSON, missing options are
    missing) or from an array in field order.  [actual] is the reading of an
    integer by C16, see the next theorems for it. *)
Theorem C96_reads_the_meaning : forall tp t v, bytes t -> (parse_json tp t = Ok v <-> text_means (fun sgn W m z => string_to_number sgn W m = Ok z) tp t v).
Proof. intros tp t v B. split; [now apply parse_sound|apply parse_complete]. Qed.
Print Assumptions C96_reads_the_meaning.
(** With the ideal reading of integers: what means a value is read as it. *)
Theorem C96_ideal_read : forall tp t v, well_formed tp -> text_means reads_as tp t v -> parse_json tp t = Ok v.
Proof. intros. now apply parse_ideal. Qed.
Print Assumptions C96_ideal_read.
(** What an integer read by the code is: the number written if that is below 2^64,
    or the smallest value for a token that means missing. *)
Theorem C96_integers_partial : forall sgn W m z, W = 8 \/ W = 16 \/ W = 32 \/ W = 64 -> string_to_number sgn W m = Ok z ->
  (na_token m /\ sgn = true /\ z = - 2 ^ (W - 1)) \/
  (exists (neg : bool) s n, m = (if neg then 45 :: s else s) /\ number s n /\ (n < 2 ^ 64 -> z = (if neg then - n else n) /\ in_range sgn W z)).
Proof.
  intros sgn W m z HW H. unfold string_to_number in H. destruct (ParseIntModel.parse_na m) eqn:Na.
  - left. apply parse_na_iff in Na. destruct sgn; [|discriminate]. inversion H. auto.
  - right. pose proof H as H0. destruct (strip_minus m) as (neg, s) eqn:SM. destruct (parse_u 64 s) as [u| | |] eqn:PU; cbn [bind] in H; try discriminate. destruct (parse_u_sound 64 s u ltac:(lia) PU) as (n & N & _).
    assert (M : m = if neg then 45 :: s else s). { unfold strip_minus in SM. destruct m as [|c m']; [inversion SM; auto|]. destruct (Z.eqb_spec c 45) as [->|]; inversion SM; subst; auto. }
    exists neg, s, n. split; auto. split; auto. intros L. assert (S : string_to_number sgn W m = Ok z) by (unfold string_to_number; rewrite Na, SM, PU; exact H). rewrite M in S.
    destruct (string_to_number_exact sgn W neg s n ltac:(lia) N L) as (A & B). set (v := if neg then - n else n) in *.
    assert (R : in_range sgn W v). { unfold in_range in *. destruct sgn; [destruct (Z_lt_le_dec v (- 2 ^ (W - 1))) as [X|X]; [rewrite B in S by lia; discriminate|]; destruct (Z_lt_le_dec v (2 ^ (W - 1))) as [Y|Y]; [lia|rewrite B in S by lia; discriminate]|destruct (Z_lt_le_dec v 0) as [X|X]; [rewrite B in S by lia; discriminate|]; destruct (Z_lt_le_dec v (2 ^ W)) as [Y|Y]; [lia|rewrite B in S by lia; discriminate]]. }
    assert (Q : sgn = true -> W = 64 -> v <> - 2 ^ 63).
    { intros -> -> X. unfold v in X. destruct neg; [|inversion N; subst; pose proof (number_nonneg _ _ N); lia]. assert (n = 2 ^ 63) by lia. subst n. rewrite (parse_u_complete 64 s (2 ^ 63)) in PU by (auto; lia). inversion PU; subst u. vm_compute in H. discriminate. }
    rewrite (A R Q) in S. inversion S; subst. auto.
Qed.
Print Assumptions C96_integers_partial.
(** What is read is JSON (in the sense of C94). *)
Theorem C96_accepts_only_json : forall tp t v, bytes t -> parse_json tp t = Ok v -> validate_json t = Ok tt.
Proof. intros tp t v B H. apply validate_iff. eapply text_means_json. apply parse_sound; eauto. Qed.
Print Assumptions C96_accepts_only_json.
(** Every text gives a value or an exception; missing: types with 64 bit signed
    integers. *)
Theorem C96_value_or_exception_partial : forall tp t, well_formed tp -> no_int64 tp -> bytes t -> (exists v, parse_json tp t = Ok v) \/ (exists e, parse_json tp t = Throw e).
Proof. exact parse_total. Qed.
Print Assumptions C96_value_or_exception_partial.
(** Deviations: missing-value words in quotes are stored as the smallest value of a
    plain integer type, an integer in quotes may not be written with escapes, a
    number too large by a multiple of 2^64 is stored, the smallest int64 is
    undefined, and an overflow is reported without a position. *)
Theorem C96_integers_refuted :
  parse_json (JInt true 8) (codes """NA""") = Ok (VInt (-128)) /\
  parse_json (JInt true 32) (codes """\u0031""") = Throw "json_parse_error" /\ dq_denotes (codes "\u0031") (codes "1") /\
  parse_json (JInt false 64) (codes "30000000000000000000") = Ok (VInt 11553255926290448384) /\
  parse_json (JInt true 64) (codes "-9223372036854775808") = UB /\
  parse_json (JInt true 8) (codes "300") = Throw "overflow_error" /\ parse_json (JInt true 8) (codes """300""") = Throw "json_parse_error".
Proof.
  split; [reflexivity|]. split; [reflexivity|]. split; [apply (dd_cons (92 :: 117 :: [48; 48; 51; 49]) [49] [] []); [|constructor]; apply (it_u [48; 48; 51; 49] 49 [49]); [reflexivity| |constructor; lia]|].
  - assert (Z0 : forall d v, 48 <= d <= 57 -> v = d - 48 -> hex_is d v) by (intros d v D ->; now constructor).
    apply (hn_snoc [48; 48; 51] 49 3 1); [|apply Z0; lia]. apply (hn_snoc [48; 48] 51 0 3); [|apply Z0; lia]. apply (hn_snoc [48] 48 0 0); [|apply Z0; lia]. apply (hn_snoc [] 48 0 0); [constructor|apply Z0; lia].
  - repeat split; reflexivity.
Qed.
Print Assumptions C96_integers_refuted.
Definition ex_text : list Z := codes " { ""x"" : [ {}, 2 ], ""tags"":[""\u00e9""], ""id"" : 1, ""id"":-7 } ".
Example C96_case : bytes ex_text /\ parse_json ex_type ex_text = Ok (VList [VInt (-7); VList [VStr [195; 169]]; VInt (- 2 ^ 15)]) /\
  parse_json ex_type (codes "[1,[],null]") = Ok (VList [VInt 1; VList []; VInt (- 2 ^ 15)]) /\ parse_json ex_type (codes "{""id"":1}") = Throw "json_parse_error" /\ no_int64 ex_type.
Proof. split; [repeat constructor; vm_compute; intuition discriminate|]. split; [reflexivity|]. split; [reflexivity|]. split; [reflexivity|]. cbn. repeat split; intros; discriminate. Qed.
Example C96_case_ideal : text_means reads_as (JVar (JInt true 8)) (codes " [1]") (VList [VInt 1]).
Proof.
  exists [32], (codes "[1]"), []. split; [repeat constructor|]. split; [constructor|]. split; [reflexivity|]. cbn [means]. exists (codes "1"), [VInt 1]. split; [reflexivity|]. split; [reflexivity|].
  apply (seq_one _ [] (codes "1") [] (VInt 1)); [constructor| |constructor]. apply im_number; [exact json_number_1|]. exists false, (codes "1"), 1. split; [reflexivity|]. split; [apply (num_plain [49]); [repeat constructor; unfold digit; lia|discriminate]|].
  split; [lia|]. split; [reflexivity|]. split; [cbn; lia|lia].
Qed.

(** * C97: reports of errors *)
(** The line, the column and the two lines of text of a position; missing: the end of
    an empty text or of a text that ends in a newline, and texts of 2 GB. *)
Theorem C97_position_partial : forall t pos, 0 <= pos <= len t -> len t < 2 ^ 31 - 1 -> pos < len t \/ (t <> [] /\ ~ exists y, t = y ++ [10]) ->
  exists prev cur line column, get_error_line_column t pos = Ok (prev, cur, line, column) /\ context t pos prev cur line column.
Proof.
  intros t pos P L H. destruct (line_column_ok t pos P L) as [([ -> | (E & y & ->)] & _)|(_ & X)]; auto; exfalso; (destruct H as [H|(H1 & H2)]; [|]).
  - cbn in *. lia. - congruence. - lia. - eauto.
Qed.
Print Assumptions C97_position_partial.
Theorem C97_position_refuted : get_error_line_column [] 0 = Throw "runtime_error" /\ get_error_line_column [91; 10] 2 = Throw "runtime_error" /\
  validate_json [91; 10] = Throw "parse_error".
Proof. vm_compute. auto. Qed.
Print Assumptions C97_position_refuted.
(** The marker never fails, and its caret stands below the character at the position. *)
Theorem C97_marker : forall t pos prev cur line column, context t pos prev cur line column -> exists m, print_marker prev cur line column = Ok m /\
  forall c, nth_error t (Z.to_nat pos) = Some c -> c <> 10 -> caret_under m (Some c).
Proof.
  intros t pos prev cur line column (a & b & c & r & E & P & C & N & R & K & _). destruct (marker_ok prev cur line column N) as (m & M & Q); [unfold len; rewrite C, app_length; lia|]. exists m. split; auto.
  intros ch Hc Nc. apply Q. rewrite C, K. replace (Z.to_nat (Z.of_nat (List.length b) + 1 - 1)) with (List.length b) by lia. rewrite E, P in Hc. rewrite Nat2Z.id, app_assoc in Hc. rewrite nth_error_app2, Nat.sub_diag in Hc by lia.
  rewrite nth_error_app2, Nat.sub_diag by lia. destruct c as [|c0 c]; [|exact Hc]. cbn [app] in Hc. destruct R as [ -> | (r' & ->)]; [discriminate|]. cbn in Hc. congruence.
Qed.
Print Assumptions C97_marker.
Example C97_case : get_error_line_column (codes "[1," ++ [10] ++ codes " 2 3]") 7 = Ok (codes "[1,", codes " 2 3]", 2, 4) /\
  print_marker (codes "[1,") (codes " 2 3]") 2 4 = Ok (codes "[1," ++ [10] ++ codes " 2 3]" ++ [10] ++ codes "   ^" ++ [10]).
Proof. vm_compute. auto. Qed.
