(** C17, C18, C20, C47, C48: the text scanners.  A scanner's result
    [Ok (Some (m, r))] means that it returned true, that the output range is [m]
    and that [r] remains; [Ok None] that it returned false.  All results are
    [Ok _]: no scanner reads outside the buffer. *)
From Verif Require Import Base ScanModel ScanSpec ScanProofs.

(** C17: json::parse_number reads exactly the texts described by [json_read]
    (ScanSpec), ... *)
Theorem C17_json_number_exact : forall t m r, json_parse_number t = Ok (Some (m, r)) <-> json_read t m r.
Proof. exact json_number_iff. Qed.
Print Assumptions C17_json_number_exact.
(** ... what it reads is a JSON number and a prefix, the longest that is one; ... *)
Theorem C17_json_number_longest : forall t m r, json_parse_number t = Ok (Some (m, r)) ->
  t = m ++ r /\ json_number m /\ (forall m' r', t = m' ++ r' -> json_number m' -> (List.length m' <= List.length m)%nat).
Proof.
  intros t m r H. apply json_number_iff in H. pose proof (json_longest t m r H) as L.
  destruct H as (s & i & f & e & Hs & Hi & Hf & He & -> & E & _). split; [auto|split; [|exact L]]. exists s, i, f, e. auto.
Qed.
Print Assumptions C17_json_number_longest.
(** ... it fails on a text that starts with a JSON number only if such a number is
    followed by a '.' or an 'e' / 'E' (all-or-nothing); ... *)
Theorem C17_json_number_fails : forall t m r, json_parse_number t = Ok None -> t = m ++ r -> json_number m ->
  exists m' r', t = m' ++ r' /\ json_number m' /\ next_is (fun c => c = 46 \/ exp_mark c) r'.
Proof. exact json_none. Qed.
Print Assumptions C17_json_number_fails.
(** ... a JSON number standing alone, or followed by anything that cannot continue
    it, is read whole; ... *)
Theorem C17_json_number_complete : forall m r, json_number m -> ~ next_is (fun c => digit_c c \/ c = 46 \/ exp_mark c) r ->
  json_parse_number (m ++ r) = Ok (Some (m, r)).
Proof.
  intros m r (s & i & f & e & Hs & Hi & Hf & He & ->) N. apply json_number_iff.
  assert (W : forall P : Z -> Prop, (forall c, P c -> digit_c c \/ c = 46 \/ exp_mark c) -> ~ next_is P r).
  { intros P HP (c & r' & -> & Hc). apply N. exists c, r'. auto. }
  exists s, i, f, e. split; [auto|split; [auto|split; [auto|split; [auto|split; [auto|split; [auto|split; [|split]]]]]]]; intros _; apply W; auto.
Qed.
Print Assumptions C17_json_number_complete.
(** ... and it never reads outside the buffer. *)
Theorem C17_json_number_safe : forall t, exists x, json_parse_number t = Ok x.
Proof. exact json_noub. Qed.
Print Assumptions C17_json_number_safe.
Example C17_case_1 : json_parse_number (codes "-12.50e+3,") = Ok (Some (codes "-12.50e+3", codes ",")).
Proof. reflexivity. Qed.
Example C17_case_2 : json_parse_number (codes "1.") = Ok None /\ json_parse_number (codes "01") = Ok (Some (codes "0", codes "1")).
Proof. split; reflexivity. Qed.

(** C18: identifiers and whitespace. *)
Theorem C18_name : forall s m r, parse_name_no_ws s = Ok (Some (m, r)) <-> s = m ++ r /\ name m /\ ~ next_is name_char_p r.
Proof. exact parse_name_iff. Qed.
Print Assumptions C18_name.
Theorem C18_name_fails : forall s, parse_name_no_ws s = Ok None <-> ~ next_is (fun c => letter c \/ c = 95) s.
Proof. exact parse_name_none. Qed.
Print Assumptions C18_name_fails.
Theorem C18_alpha_name : forall s m r, parse_alpha_name_no_ws s = Ok (Some (m, r)) <-> s = m ++ r /\ alpha_name m /\ ~ next_is letter r.
Proof. exact parse_alpha_iff. Qed.
Print Assumptions C18_alpha_name.
Theorem C18_alpha_name_fails : forall s, parse_alpha_name_no_ws s = Ok None <-> ~ next_is letter s.
Proof. exact parse_alpha_none. Qed.
Print Assumptions C18_alpha_name_fails.
Theorem C18_skip_whitespace : forall s r, skip_whitespace s = r <-> exists w, s = w ++ r /\ Forall space_c w /\ ~ next_is space_c r.
Proof. exact skip_ws_iff. Qed.
Print Assumptions C18_skip_whitespace.
Theorem C18_skip_required_whitespace : forall s,
  (forall r, skip_required_whitespace s = Some r <-> exists w, w <> [] /\ s = w ++ r /\ Forall space_c w /\ ~ next_is space_c r) /\
  (skip_required_whitespace s = None <-> ~ next_is space_c s).
Proof. exact skip_required_iff. Qed.
Print Assumptions C18_skip_required_whitespace.
Theorem C18_skip_comments : forall s r, skip_whitespace_and_pound_comments s = Ok r <-> skipped s r.
Proof. exact skip_pound_iff. Qed.
Print Assumptions C18_skip_comments.
Theorem C18_skip_comments_total : forall s, exists r, skip_whitespace_and_pound_comments s = Ok r /\ skipped s r /\
  ~ next_is (fun c => space_c c \/ c = 35) r.
Proof.
  intros s. destruct (skip_pound_total s) as (r & E & S). exists r. split; [auto|split; [auto|]].
  clear E. induction S; auto. apply not_next_nil.
Qed.
Print Assumptions C18_skip_comments_total.
Example C18_case : skip_whitespace_and_pound_comments (codes " # a b" ++ [10] ++ codes "  x # y") = Ok (codes "x # y").
Proof. reflexivity. Qed.
Example C18_case_name : parse_name_no_ws (codes "ab_9-z") = Ok (Some (codes "ab_9", codes "-z")).
Proof. reflexivity. Qed.

(** C20: integers of a fixed number of digits.  [reads n f]: on every buffer [f]
    returns the value of the first [n] characters if they are digits, and fails
    otherwise. *)
Definition reads (n : nat) (f : list Z -> outcome (option (Z * list Z))) : Prop :=
  (forall ds r, List.length ds = n -> Forall digit_c ds -> f (ds ++ r) = Ok (Some (dec_value ds, r))) /\
  (forall s, (~ exists ds r, s = ds ++ r /\ List.length ds = n /\ Forall digit_c ds) -> f s = Ok None).
Lemma reads_of f n : reads_digits f n -> reads n f.
Proof.
  intros H. split.
  - intros ds r L F. specialize (H (ds ++ r)). destruct (f (ds ++ r)) as [[[v r']|]| | |]; try contradiction.
    + destruct H as (ds' & E & L' & _ & ->).
      assert (ds' = ds /\ r' = r) as [-> ->]; auto.
      assert (H1 : firstn n (ds ++ r) = ds) by (rewrite <- L, firstn_app, Nat.sub_diag, firstn_all; apply app_nil_r).
      assert (H2 : firstn n (ds' ++ r') = ds') by (rewrite <- L', firstn_app, Nat.sub_diag, firstn_all; apply app_nil_r).
      assert (ds' = ds) by congruence. subst ds'. split; auto. eapply app_inv_head; eauto.
    + exfalso. apply H. eauto.
  - intros s N. specialize (H s). destruct (f s) as [[[v r']|]| | |]; try contradiction; auto.
    destruct H as (ds & E & L & F & _). exfalso. apply N. eauto.
Qed.
Theorem C20_two_digits : reads 2 parse_2digit_int_no_ws.
Proof. apply reads_of, two_digits. Qed.
Print Assumptions C20_two_digits.
Theorem C20_four_digits : reads 4 parse_4digit_int_no_ws.
Proof. apply reads_of, four_digits. Qed.
Print Assumptions C20_four_digits.
Theorem C20_six_digits : reads 6 parse_6digit_int_no_ws.
Proof. apply reads_of, six_digits. Qed.
Print Assumptions C20_six_digits.
Theorem C20_one_or_two_digits :
  (forall d0 d1 r, digit_c d0 -> digit_c d1 -> parse_1or2digit_int_no_ws (d0 :: d1 :: r) = Ok (Some (dec_value [d0; d1], r))) /\
  (forall d0 r, digit_c d0 -> ~ next_is digit_c r -> parse_1or2digit_int_no_ws (d0 :: r) = Ok (Some (dec_value [d0], r))) /\
  (forall s, ~ next_is digit_c s -> parse_1or2digit_int_no_ws s = Ok None).
Proof.
  split; [|split].
  - intros d0 d1 r H0 H1. pose proof (one_or_two_digits (d0 :: d1 :: r)) as H.
    destruct (parse_1or2digit_int_no_ws (d0 :: d1 :: r)) as [[[v r']|]| | |]; try contradiction.
    + destruct H as (ds & E & F & -> & [L|[L N]]).
      * destruct ds as [|x [|y [|z ds]]]; try discriminate. cbn [app] in E. injection E as <- <- <-. auto.
      * exfalso. destruct ds as [|x [|y ds]]; try discriminate. cbn [app] in E. injection E as <- <-. apply N. now rewrite next_cons.
    + exfalso. apply H. now rewrite next_cons.
  - intros d0 r H0 N0. pose proof (one_or_two_digits (d0 :: r)) as H.
    destruct (parse_1or2digit_int_no_ws (d0 :: r)) as [[[v r']|]| | |]; try contradiction.
    + destruct H as (ds & E & F & -> & [L|[L N]]).
      * exfalso. destruct ds as [|x [|y [|z ds]]]; try discriminate. cbn [app] in E. injection E as <- ->. apply N0. rewrite next_cons.
        inversion F as [|? ? _ F']. now inversion F'.
      * destruct ds as [|x [|y ds]]; try discriminate. cbn [app] in E. injection E as <- <-. auto.
    + exfalso. apply H. now rewrite next_cons.
  - intros s N. pose proof (one_or_two_digits s) as H.
    destruct (parse_1or2digit_int_no_ws s) as [[[v r']|]| | |]; try contradiction; auto.
    destruct H as (ds & -> & F & _ & L). exfalso. apply N. destruct ds as [|x ds]; [cbn in L; lia|]. cbn [app]. rewrite next_cons. now inversion F.
Qed.
Print Assumptions C20_one_or_two_digits.
Example C20_case : parse_6digit_int_no_ws (codes "0123456") = Ok (Some (12345, codes "6")) /\ parse_4digit_int_no_ws (codes "12a4") = Ok None.
Proof. split; reflexivity. Qed.

(** C47: tokens and integer literals. *)
Theorem C47_token_no_ws : forall s tok r, parse_token_no_ws s tok = Some r <-> s = tok ++ r.
Proof. exact token_no_ws_iff. Qed.
Print Assumptions C47_token_no_ws.
Theorem C47_token : forall s tok r, ~ next_is space_c tok -> tok <> [] ->
  (parse_token s tok = Some r <-> exists w, Forall space_c w /\ s = w ++ tok ++ r).
Proof. exact token_iff. Qed.
Print Assumptions C47_token.
Theorem C47_datashape_token : forall s tok r, ds_parse_token s tok = Ok (Some r) <-> skipped s (tok ++ r).
Proof. exact ds_token_iff. Qed.
Print Assumptions C47_datashape_token.
Theorem C47_compare_literal : forall a b, compare_range_to_literal a b = true <-> a = b.
Proof. exact compare_iff. Qed.
Print Assumptions C47_compare_literal.
Theorem C47_unsigned_int : forall s,
  (forall m r, parse_unsigned_int_no_ws s = Ok (Some (m, r)) <-> s = m ++ r /\ uint_lit m /\ ~ next_is digit_c r) /\
  ((exists m r, parse_unsigned_int_no_ws s = Ok (Some (m, r))) \/ parse_unsigned_int_no_ws s = Ok None).
Proof. intros s. split; [intros; apply uint_iff|apply uint_total]. Qed.
Print Assumptions C47_unsigned_int.
Theorem C47_datashape_number : forall s, exists s1, skipped s s1 /\
  ((exists m r, ds_parse_number s = Ok (m, r) /\ s1 = m ++ r /\ uint_lit m /\ ~ next_is digit_c r) \/
   (ds_parse_number s = Ok ([], s) /\ ~ exists m r, s1 = m ++ r /\ uint_lit m /\ ~ next_is digit_c r)).
Proof. exact ds_number_spec. Qed.
Print Assumptions C47_datashape_number.
(** The signed form: the exact behaviour; it also accepts whitespace in front of
    the '-' (and only there), contrary to its name. *)
Theorem C47_signed_int_partial : forall s,
  (forall m r, parse_int_no_ws s = Ok (Some (m, r)) <->
    s = m ++ r /\ ~ next_is digit_c r /\ (uint_lit m \/ exists w u, Forall space_c w /\ uint_lit u /\ m = w ++ 45 :: u)) /\
  ((exists m r, parse_int_no_ws s = Ok (Some (m, r))) \/ parse_int_no_ws s = Ok None).
Proof. intros s. split; [intros; apply int_iff|apply int_total]. Qed.
Print Assumptions C47_signed_int_partial.
Theorem C47_signed_int_no_ws_refuted : exists s m r, parse_int_no_ws s = Ok (Some (m, r)) /\
  ~ (uint_lit m \/ exists u, uint_lit u /\ m = 45 :: u).
Proof.
  exists (codes "  -5"), (codes "  -5"), []. split; [reflexivity|]. intros [H|(u & _ & H)]; [|discriminate].
  change (uint_lit [32; 32; 45; 53]) in H. inversion H. lia.
Qed.
Print Assumptions C47_signed_int_no_ws_refuted.
Example C47_case : ds_parse_token (codes "  # c" ++ [10] ++ codes " -> x") (codes "->") = Ok (Some (codes " x")) /\
  parse_unsigned_int_no_ws (codes "120,") = Ok (Some (codes "120", codes ",")) /\ parse_unsigned_int_no_ws (codes "00") = Ok None.
Proof. split; [reflexivity|split; reflexivity]. Qed.

(** C48: parse<bool>. *)
Theorem C48_parse_bool_checked : forall s,
  (parse_bool_checked s = Ok true <-> true_word s) /\ (parse_bool_checked s = Ok false <-> false_word s) /\
  (~ true_word s -> ~ false_word s -> parse_bool_checked s = Throw "invalid_argument").
Proof. exact parse_bool_iff. Qed.
Print Assumptions C48_parse_bool_checked.
Theorem C48_nocheck_agrees : forall s b, parse_bool_checked s = Ok b -> parse_bool_nocheck s = Ok b.
Proof. exact nocheck_agrees. Qed.
Print Assumptions C48_nocheck_agrees.
Theorem C48_nocheck_total : forall s, exists b, parse_bool_nocheck s = Ok b.
Proof. exact nocheck_total. Qed.
Print Assumptions C48_nocheck_total.
Example C48_case : parse_bool_checked (codes "FaLSe") = Ok false /\ true_word (codes "YES") /\ parse_bool_checked (codes "yep") = Throw "invalid_argument" /\
  parse_bool_nocheck (codes "0000") = Ok true.
Proof. split; [reflexivity|split; [unfold true_word; cbn; auto 6|split; reflexivity]]. Qed.
