(** nd::json::parse (C132-C137). *)
From Verif Require Import Base ParseIntModel ParseIntSpec ParseIntProofs ScanModel ScanSpec ScanProofs ScanProps EncodingModel EncodingSpec EncodingProofs
  EscapeModel EscapeSpec EscapeProofs EscapeProps JsonModel JsonSpec JsonProofs JsonParse JsonProps TextParseModel TextParseSpec TextParseProofs TextParseMore TextParseAgree.
Open Scope Z_scope.

(** C132: integers. *)
Theorem C132_integers_read : forall sgn W t v, sized (SInt sgn W) -> around (int_text sgn W) t v -> parse (PScalar (SInt sgn W)) t = Ok v.
Proof. intros sgn W t v S H. apply int_parse. revert H. apply around_mono. intros. apply int_text_got; auto. apply sized_pos in S. lia. Qed.
(** Nothing else is read, except that a value may have wrapped: what comes back is
    congruent to what is written, and equal if what is written is below 2^W. *)
Theorem C132_integers_only_partial : forall sgn W t v, sized (SInt sgn W) -> parse (PScalar (SInt sgn W)) t = Ok v ->
  around (fun x u => exists i z, writes_int sgn x i /\ in_range sgn W z /\ u = VInt z /\ z mod 2 ^ W = i mod 2 ^ W /\ (Z.abs i < 2 ^ W -> z = i)) t v.
Proof. intros sgn W t v S H. apply int_parse in H. revert H. apply around_mono. intros. apply got_int; auto. apply sized_pos in S. lia. Qed.
Theorem C132_too_large_partial : forall W w x w' i, sized (SInt true W) -> ws w -> ws w' -> writes_int true x i -> Z.abs i < 2 ^ W -> ~ in_range true W i ->
  parse (PScalar (SInt true W)) (w ++ x ++ w') = Throw "overflow_error".
Proof. intros. eapply too_large; eauto. apply sized_pos in H. lia. Qed.
Theorem C132_unsigned_minus : forall W w s w', ws w -> ws w' -> json_number (45 :: s) -> parse (PScalar (SInt false W)) (w ++ (45 :: s) ++ w') = Throw "invalid_argument".
Proof. exact unsigned_minus. Qed.
Theorem C132_not_a_number : forall sgn W t, (forall w x w', ws w -> ws w' -> t = w ++ x ++ w' -> ~ json_number x) -> exists e, parse (PScalar (SInt sgn W)) t = Throw e.
Proof. exact not_number_throws. Qed.
Theorem C132_integers_refuted :
  parse (PScalar (SInt false 8)) (codes "300") = Ok (VInt 44) /\ parse (PScalar (SInt true 8)) (codes "-300") = Ok (VInt (-44)) /\
  parse (PScalar (SInt true 32)) (codes "1.0e2") = Throw "invalid_argument" /\ parse (PScalar (SInt true 32)) (codes "100e-2") = Throw "invalid_argument".
Proof. repeat split; vm_compute; reflexivity. Qed.
Print Assumptions C132_integers_read.
Print Assumptions C132_integers_only_partial.
Print Assumptions C132_too_large_partial.
Print Assumptions C132_unsigned_minus.
Print Assumptions C132_not_a_number.
Print Assumptions C132_integers_refuted.
Example C132_ex : around (int_text true 16) (codes " -12e2 ") (VInt (-1200)) /\ parse (PScalar (SInt true 16)) (codes " -12e2 ") = Ok (VInt (-1200)).
Proof.
  split; [|vm_compute; reflexivity]. exists [32], (codes "-12e2"), [32]. repeat split; try (repeat constructor; unfold space_c; lia).
  exists (-1200). repeat split; try (cbn; lia).
  - exists [45], [49; 50], [], [101; 50]. repeat split; try constructor; unfold digit_c; try lia; auto; try (repeat constructor; unfold digit_c; lia).
    change [101; 50] with (101 :: [] ++ [50]). constructor; auto; try discriminate. repeat constructor; unfold digit_c; lia.
  - exists true, (codes "12e2"), 1200. repeat split; auto. change (number ([49; 50] ++ 101 :: [50]) (dec [49; 50] * 10 ^ dec [50])). constructor; auto; try discriminate; try (repeat constructor; unfold digit; lia).
Qed.

(** C133: booleans. *)
Theorem C133_booleans : forall t v, bytes t -> (parse (PScalar SBool) t = Ok v <-> around (bool_means) t v).
Proof. intros t v B. rewrite bool_parse. exact (C96_reads_the_meaning JBool t v B). Qed.
Print Assumptions C133_booleans.
Example C133_ex : parse (PScalar SBool) (codes "  true ") = Ok (VBool 1) /\ parse (PScalar SBool) (codes """off""") = Ok (VBool 0) /\ parse (PScalar SBool) (codes "2") = Throw "invalid_argument".
Proof. repeat split; vm_compute; reflexivity. Qed.

(** C134: strings: the text between the quotes, as written. *)
Theorem C134_strings_partial : forall t v, parse (PScalar SString) t = Ok v <-> around (fun x u => exists b w, x = quoted b /\ dq_denotes b w /\ u = VStr b) t v.
Proof. exact string_parse. Qed.
Theorem C134_without_escapes_partial : forall t v, ~ In 92 t -> (parse (PScalar SString) t = Ok v <-> around str_text t v).
Proof.
  intros t v N. rewrite string_parse. split; intros (w & x & w' & A & B & E & b & d & Ex & D & ->); exists w, x, w'; repeat split; auto; exists b, d; repeat split; auto;
    rewrite (no_escape_denotes b d D); auto; intros I; apply N; rewrite E, Ex; apply in_or_app; right; apply in_or_app; left; unfold quoted; right; apply in_or_app; auto.
Qed.
Lemma item_shorter i v : dq_item i (Some v) -> (List.length v <= List.length i)%nat /\ (In 92 i -> (List.length v < List.length i)%nat).
Proof.
  intros H. inversion H as [c| |ds cp bs L X U|ds cp bs L X U| |]; subst; cbn [List.length]; try (split; [lia|]; intros; try lia).
  - match goal with X : In 92 [_] |- _ => destruct X as [X|[]]; congruence end.
  - pose proof (utf8_len _ _ U) as B. unfold len in B. lia.
  - pose proof (utf8_len _ _ U) as B. unfold len in B. lia.
Qed.
Lemma denotes_shorter b w : dq_denotes b w -> (List.length w <= List.length b)%nat /\ (In 92 b -> (List.length w < List.length b)%nat).
Proof.
  induction 1 as [|i v t w I D (L & S)]; [split; [auto|intros []]|]. destruct (item_shorter _ _ I) as (Li & Si). rewrite !app_length. split; [lia|].
  intros H. apply in_app_or in H as [H|H]; [specialize (Si H)|specialize (S H)]; lia.
Qed.
(** Whenever there is an escape, the value is not what the literal denotes. *)
Theorem C134_escapes_refuted : forall b w, dq_denotes b w -> In 92 b -> parse (PScalar SString) (quoted b) = Ok (VStr b) /\ b <> w.
Proof.
  intros b w D I. split.
  - apply string_parse. exists [], (quoted b), []. rewrite app_nil_r. repeat split; auto. exists b, w. auto.
  - destruct (denotes_shorter _ _ D) as (_ & L). specialize (L I). intros ->. lia.
Qed.
Print Assumptions C134_strings_partial.
Print Assumptions C134_without_escapes_partial.
Print Assumptions C134_escapes_refuted.
Example C134_ex : parse (PScalar SString) (codes " ""ab"" ") = Ok (VStr (codes "ab")) /\ parse (PScalar SString) (codes """a\n""") = Ok (VStr (codes "a\n")) /\
  parse (PScalar SString) (codes """a\q""") = Throw "parse_error" /\ parse (PScalar SString) (codes "ab") = Throw "json_parse_error".
Proof. repeat split; vm_compute; reflexivity. Qed.

(** C135: options. *)
Theorem C135_options : forall s na t v, stands_missing s na ->
  (parse (POption s) t = Ok v <-> around (fun x u => na_word x /\ u = na) t v \/ parse (PScalar s) t = Ok v).
Proof. exact option_parse. Qed.
(** A value that is not the one standing for missing is read as without the option. *)
Theorem C135_present_partial : forall s na t v, stands_missing s na -> v <> na -> (parse (POption s) t = Ok v <-> parse (PScalar s) t = Ok v).
Proof.
  intros s na t v M N. rewrite (option_parse s na t v M). split; [|auto]. intros [(w & x & w' & _ & _ & _ & _ & E)|H]; auto. contradiction.
Qed.
Theorem C135_missing_bool : forall t, bytes t -> (parse (POption SBool) t = Ok (VBool 2) <-> exists w x w', ws w /\ ws w' /\ t = w ++ x ++ w' /\ na_word x).
Proof.
  intros t B. rewrite (option_parse SBool (VBool 2) t _ sm_bool). split.
  - intros [(w & x & w' & W & W' & E & N & _)|H]; [exists w, x, w'; auto|]. apply C133_booleans in H as (w & x & w' & _ & _ & _ & M); auto. inversion M.
  - intros (w & x & w' & W & W' & E & N). left. exists w, x, w'. auto.
Qed.
(** An integer or a string can be the value that stands for missing. *)
Theorem C135_present_refuted : forall s na, sized s -> s <> SBool -> stands_missing s na ->
  exists t, parse (PScalar s) t = Ok na /\ parse (POption s) t = Ok na /\ ~ In 78 t /\ ~ In 110 t /\ t <> [].
Proof.
  intros s na Sz NB M.
  assert (E : exists t, parse (PScalar s) t = Ok na /\ ~ In 78 t /\ ~ In 110 t /\ t <> []).
  { destruct M as [|W| |]; [congruence| | |].
    - cbn in Sz. destruct Sz as [ -> |[ -> |[ -> | -> ]]];
        [exists (codes "-128")|exists (codes "-32768")|exists (codes "-2147483648")|exists (codes "-9223372036854775808")];
        (split; [vm_compute; reflexivity|]); cbn; repeat split; try discriminate; intros I; repeat (destruct I as [I|I]; [lia|]); exact I.
    - exists (codes "4294967295"). (split; [vm_compute; reflexivity|]); cbn; repeat split; try discriminate; intros I; repeat (destruct I as [I|I]; [lia|]); exact I.
    - exists (codes """"""). (split; [vm_compute; reflexivity|]); cbn; repeat split; try discriminate; intros I; repeat (destruct I as [I|I]; [lia|]); exact I. }
  destruct E as (t & P & A & B & C). exists t. repeat split; auto. apply (option_parse s na t na M). auto.
Qed.
Print Assumptions C135_options.
Print Assumptions C135_present_partial.
Print Assumptions C135_missing_bool.
Print Assumptions C135_present_refuted.
Example C135_ex : parse (POption (SInt true 32)) (codes " Null ") = Ok (VInt (-2147483648)) /\ parse (POption (SInt true 32)) [] = Ok (VInt (-2147483648)) /\
  parse (POption (SInt true 32)) (codes "7") = Ok (VInt 7) /\ parse (POption (SInt true 32)) (codes "NAN") = Throw "json_parse_error" /\ parse (POption SString) (codes "NA") = Ok (VStr []).
Proof. repeat split; vm_compute; reflexivity. Qed.

(** C136: every text gives a value or an exception, for the types that can be parsed. *)
Theorem C136_value_or_exception_partial : forall s t,
  ((exists v, parse (PScalar s) t = Ok v) \/ (exists e, parse (PScalar s) t = Throw e)) /\
  ((exists v, parse (POption s) t = Ok v) \/ (exists e, parse (POption s) t = Throw e)) /\ (exists e, parse POther t = Throw e).
Proof.
  intros s t. split; [apply scalar_total|]. split; [|eexists; reflexivity].
  assert (D : (exists na, stands_missing s na) \/ forall na, ~ stands_missing s na).
  { destruct s as [|[] W|]; try (left; eexists; constructor). destruct (Z.eq_dec W 32) as [->|N]; [left; eexists; constructor|right]. intros na H. inversion H. congruence. }
  destruct D as [(na & M)|N]; [eapply option_total; eauto|]. right. rewrite no_missing by auto. eauto.
Qed.
Theorem C136_no_missing_value_refuted : forall W t, W = 8 \/ W = 16 \/ W = 64 -> parse (POption (SInt false W)) t = Throw "out_of_range".
Proof. intros W t [ -> |[ -> | -> ]]; apply no_missing; intros na H; inversion H. Qed.
(** Structs and dimensions: a null function is called, whatever the text. *)
Theorem C136_aggregates_refuted : forall t tys n el, parse (PStruct tys) t = UB /\ parse (PFixedDim n el) t = UB /\ parse (PVarDim el) t = UB.
Proof. intros. repeat split; reflexivity. Qed.
Print Assumptions C136_value_or_exception_partial.
Print Assumptions C136_no_missing_value_refuted.
Print Assumptions C136_aggregates_refuted.
Example C136_ex : parse (PScalar SString) (codes """\") = Throw "parse_error" /\ parse (PScalar (SInt true 8)) (codes "-") = Throw "runtime_error" /\ parse (PScalar SBool) (codes "1 x") = Throw "json_parse_error".
Proof. repeat split; vm_compute; reflexivity. Qed.

(** C137: the two JSON parsers never return different values, except for strings
    with backslashes. *)
Theorem C137_parsers_agree_partial : forall tp tj t v v', bytes t -> sized_ty tp -> same_type tp tj -> parse tp t = Ok v -> parse_json tj t = Ok v' ->
  v = v' \/ ((tp = PScalar SString \/ tp = POption SString) /\ In 92 t).
Proof. exact agree. Qed.
Theorem C137_parsers_agree_refuted : exists t v v', parse (PScalar SString) t = Ok v /\ parse_json JString t = Ok v' /\ v <> v'.
Proof. exists (codes """\n"""), (VStr (codes "\n")), (VStr [10]). repeat split; try (vm_compute; reflexivity). discriminate. Qed.
(** ... and each accepts texts the other refuses. *)
Theorem C137_same_texts_refuted :
  (parse (PScalar (SInt true 8)) (codes """5""") = Throw "runtime_error" /\ parse_json (JInt true 8) (codes """5""") = Ok (VInt 5)) /\
  (parse (PScalar (SInt false 8)) (codes "300") = Ok (VInt 44) /\ parse_json (JInt false 8) (codes "300") = Throw "overflow_error") /\
  (parse (POption SBool) (codes "NA") = Ok (VBool 2) /\ parse_json JOptBool (codes "NA") = Throw "json_parse_error").
Proof. repeat split; vm_compute; reflexivity. Qed.
Print Assumptions C137_parsers_agree_partial.
Print Assumptions C137_parsers_agree_refuted.
Print Assumptions C137_same_texts_refuted.
Example C137_ex : parse (PScalar (SInt false 16)) (codes "65535") = Ok (VInt 65535) /\ parse_json (JInt false 16) (codes "65535") = Ok (VInt 65535).
Proof. split; vm_compute; reflexivity. Qed.
