(** nd::json::parse always ends for scalars and options, and agrees with the other
    JSON parser. *)
From Verif Require Import Base ParseIntModel ParseIntSpec ParseIntProofs ScanModel ScanSpec ScanProofs ScanProps EncodingModel EncodingSpec EncodingProofs
  EscapeModel EscapeSpec EscapeProofs EscapeProps JsonModel JsonSpec JsonProofs JsonParse JsonProps TextParseModel TextParseSpec TextParseProofs TextParseMore.
Open Scope Z_scope.

Definition ends {A} (o : outcome A) : Prop := (exists v, o = Ok v) \/ (exists e, o = Throw e).
Lemma parse_s_total W s : ends (parse_s W s).
Proof.
  unfold ends, parse_s. destruct (strip_minus s) as (neg, t). destruct (parse_u_total W t) as [(u & ->)|(e & ->)]; cbn [bind]; [|eauto].
  destruct (neg && _); [eauto|]. destruct (is_overflow _ _ _ _ _); eauto.
Qed.
Lemma single_total s it : ends (single (scalar_kern s) it).
Proof.
  unfold ends. destruct s; cbn [scalar_kern single].
  - unfold single_bool. pose proof (bool_same it) as H. destruct (json_parse_bool it) as [(b, r)| | |]; cbn [bind]; try contradiction; eauto.
  - destruct (number_cases it) as [(m & r & X & E & N)|X]; [|rewrite single_int_none by auto; eauto]. rewrite (single_int_some _ _ _ _ _ X E).
    assert (T : ends (if sgn then parse_s W m else parse_u W m)) by (destruct sgn; [apply parse_s_total|apply parse_u_total]).
    destruct T as [(v & ->)|(e & ->)]; cbn [bind]; eauto.
  - unfold single_string. destruct (dq_total (skip_whitespace it)) as [(x & X)|X]; rewrite X; cbn [bind]; [|eauto]. destruct x as [((b, e), r)|]; [|eauto].
    destruct (C19_unescape_safe b) as [(w & U)|(w & U)]; rewrite U; cbn [bind]; eauto.
Qed.
Lemma finish_total (o : outcome (jval * list Z)) : ends o ->
  ends (do (v, r) <- o; match skip_whitespace r with [] => Ok v | _ => Throw "json_parse_error"%string end).
Proof. intros [((v, r) & ->)|(e & ->)]; cbn [bind]; unfold ends; [destruct (skip_whitespace r)|]; eauto. Qed.
Lemma scalar_total s t : ends (parse (PScalar s) t).
Proof. rewrite parse_scalar. apply finish_total, single_total. Qed.
Lemma option_total s na t : stands_missing s na -> ends (parse (POption s) t).
Proof.
  intros M. rewrite (parse_option s na t M). apply finish_total. destruct (option_step na s (skip_whitespace t)) as [(r & _ & E)|(_ & E)]; rewrite E; [left; eauto|apply single_total].
Qed.
Lemma no_missing s t : (forall na, ~ stands_missing s na) -> parse (POption s) t = Throw "out_of_range".
Proof.
  intros H. destruct s as [|sgn W|]; [exfalso; eapply H; constructor| |exfalso; eapply H; constructor]. destruct sgn; [exfalso; eapply H; constructor|].
  unfold parse, resolve, assign_na_resolve. destruct (Z.eqb_spec W 32) as [->|]; [exfalso; eapply H; constructor|]. reflexivity.
Qed.

(** ** The two parsers *)
Lemma cast_mod sgn W x : 1 <= W -> cast sgn W x mod 2 ^ W = x mod 2 ^ W.
Proof.
  intros HW. unfold cast. cbn zeta. destruct (pow_pos W HW) as (P & Q). destruct (sgn && _).
  - replace (x mod 2 ^ W - 2 ^ W) with (x mod 2 ^ W + (-1) * 2 ^ W) by lia. rewrite Z.mod_add by lia. apply Z.mod_mod. lia.
  - apply Z.mod_mod. lia.
Qed.
Lemma mod_mod_le a W : 1 <= W <= 64 -> (a mod 2 ^ 64) mod 2 ^ W = a mod 2 ^ W.
Proof.
  intros H. assert (E : 2 ^ 64 = 2 ^ W * 2 ^ (64 - W)) by (rewrite <- Z.pow_add_r by lia; f_equal; lia). rewrite E.
  rewrite Z.rem_mul_r by (apply Z.pow_nonzero || apply Z.pow_pos_nonneg; lia). rewrite Z.mul_comm, Z.mod_add by (apply Z.pow_nonzero; lia). apply Z.mod_mod. apply Z.pow_nonzero; lia.
Qed.
(** What string_to_number returns is congruent to what is written. *)
Lemma stn_congruent sgn W x z : 1 <= W <= 64 -> json_number x -> string_to_number sgn W x = Ok z ->
  exists (neg : bool) s n, x = (if neg then 45 :: s else s) /\ number s n /\ in_range sgn W z /\ (sgn = true \/ neg = false -> z mod 2 ^ W = (if neg then - n else n) mod 2 ^ W).
Proof.
  intros HW N H. unfold string_to_number in H. destruct (ParseIntModel.parse_na x) eqn:NA.
  { exfalso. apply na_word_iff in NA. assert (R : na_rest (x ++ []) []) by (exists x; auto). rewrite app_nil_r in R. apply na_start in R.
    destruct (number_starts _ N) as (c & r & E & C). destruct R as [R|(c' & s' & R & C')]; rewrite R in E; [discriminate|]. inversion E; subst. unfold digit_c in *. lia. }
  assert (Es : exists neg t, strip_minus x = (neg, t) /\ x = (if neg : bool then 45 :: t else t)).
  { unfold strip_minus. destruct x as [|c s]; [exists false, []; auto|]. destruct (Z.eqb_spec c 45) as [->|]; [exists true, s; auto | exists false, (c :: s); auto]. }
  destruct Es as (neg & t & Es & E). rewrite Es in H. destruct (parse_u 64 t) as [u| | |] eqn:PU; cbn [bind] in H; try discriminate.
  destruct (parse_u_sound 64 t u ltac:(lia) PU) as (n & Nu & Eu). exists neg, t, n. split; auto. split; auto.
  assert (M : forall k, k = u \/ k = cast true 64 u -> k mod 2 ^ W = n mod 2 ^ W).
  { intros k [->| ->]; [rewrite Eu; apply mod_mod_le; auto|]. rewrite <- (mod_mod_le (cast true 64 u)) by auto. rewrite cast_mod by lia. rewrite mod_mod_le by auto. rewrite Eu. apply mod_mod_le; auto. }
  destruct sgn.
  - unfold assign_signed in H. destruct (overflow_check W u neg); cbn [bind] in H; [discriminate|]. destruct neg.
    + unfold neg64, chk64 in H. destruct (is_s64 (- cast true 64 u)); cbn [bind] in H; [|discriminate]. injection H as <-. split; [apply cast_range; lia|]. intros _. rewrite cast_mod by lia.
      rewrite <- (neg_mod (cast true 64 u)) by (apply Z.pow_nonzero; lia). rewrite (M _ (or_intror eq_refl)). apply neg_mod. apply Z.pow_nonzero; lia.
    + cbn [bind] in H. injection H as <-. split; [apply cast_range; lia|]. intros _. rewrite cast_mod by lia. auto.
  - match type of H with context [if ?c then _ else _] => destruct c end; [discriminate|]. injection H as <-. split; [apply cast_range; lia|]. intros [X|X]; [discriminate|]. subst neg. rewrite cast_mod by lia. auto.
Qed.
Lemma ints_agree (sgn : bool) W x z z' : 1 <= W <= 64 -> json_number x -> (if sgn then parse_s W x else parse_u W x) = Ok z -> string_to_number sgn W x = Ok z' -> z = z'.
Proof.
  intros HW N A B. destruct (got_int sgn W x (VInt z) ltac:(lia)) as (i & z1 & Wi & R & Ez & Cg & _); [split; auto; exists z; auto|]. inversion Ez; subst z1.
  destruct (stn_congruent sgn W x z' HW N B) as (neg & s & n & E & Nu & R' & Cg'). destruct Wi as (_ & neg1 & s1 & n1 & E1 & Nu1 & Ei & G).
  assert (neg1 = neg /\ s1 = s) as (-> & ->).
  { destruct (number_head _ _ Nu) as (c & r & Ec & C), (number_head _ _ Nu1) as (c1 & r1 & Ec1 & C1). rewrite E in E1. destruct neg, neg1; inversion E1; subst; auto; congruence. }
  pose proof (number_unique _ _ _ Nu Nu1) as <-. apply (congruent_eq sgn W); auto; try lia. rewrite Cg, Ei. symmetry. apply Cg'. destruct neg; auto.
Qed.
Lemma finish' (o : outcome (jval * list Z)) v :
  (do (v, r) <- o; if at_end (skip_whitespace r) then Ok v else Throw "json_parse_error"%string) = Ok v -> exists r, o = Ok (v, r) /\ ws r.
Proof.
  destruct o as [(v', r)| | |]; cbn [bind]; try discriminate. destruct (skip_whitespace r) as [|c l] eqn:E; cbn [at_end]; [|discriminate].
  apply skip_end in E. intros H. inversion H; subst; eauto.
Qed.
(** On the same text without leading whitespace. *)
Lemma int_agree sgn W it v r v' r' : 1 <= W <= 64 -> single_int sgn W it = Ok (v, r) -> parse_number_json sgn W it = Ok (v', r') -> v = v'.
Proof.
  intros HW. destruct (number_cases it) as [(m & r1 & X & E & N)|X]; [|rewrite single_int_none by auto; discriminate].
  rewrite (single_int_some _ _ _ _ _ X E). unfold parse_number_json. rewrite X. cbn [bind].
  destruct (if sgn then parse_s W m else parse_u W m) as [z| | |] eqn:A; cbn [bind]; try discriminate. destruct (string_to_number sgn W m) as [z'| | |] eqn:B; cbn [bind]; try discriminate.
  intros H H'. inversion H; inversion H'; subst. f_equal. eapply ints_agree; eauto.
Qed.
Lemma in_skip t x : In x (skip_whitespace t) -> In x t.
Proof. destruct (skip_ws_inv t) as (w & E & _). intros H. rewrite E. apply in_or_app. auto. Qed.
Lemma body_no_bs it b r : it = quoted b ++ r -> ~ In 92 it -> ~ In 92 b.
Proof. intros -> N I. apply N. unfold quoted. cbn [app]. right. apply in_or_app. left. apply in_or_app. auto. Qed.
Lemma string_agree it v r v' r' : ~ next_is space_c it -> bytes it -> ~ In 92 it -> single_string it = Ok (v, r) -> parse_string_json it = Ok (v', r') -> v = v'.
Proof.
  intros S By N. unfold single_string, parse_string_json. rewrite skip_id by auto. destruct (parse_doublequote_string_no_ws it) as [[((b, e), r1)|]| | |] eqn:D; cbn [bind]; try discriminate.
  pose proof (string_body _ _ _ _ D By) as Bb. apply dq_inv in D as (E & Bd & Es).
  assert (e = false) as -> by (destruct e; auto; exfalso; eapply body_no_bs; eauto; apply Es; auto).
  destruct (unescape_string b); cbn [bind]; try discriminate. intros H. inversion H; subst. cbn [content bind].
  destruct (set_from_utf8_string b) as [z| | |] eqn:Z; cbn [located bind]; try discriminate. apply set_string_iff in Z; auto. destruct Z as (_ & ->). intros H'. inversion H'; auto.
Qed.
(** Missing values for the other parser. *)
Lemma option_na_agree t na it r v' r' : na_value t = Some na -> ~ next_is space_c it -> na_rest it r -> parse_option_json t it = Ok (v', r') -> v' = na.
Proof.
  intros M S R. unfold parse_option_json. rewrite skip_id by auto. destruct (parse_token it (lit "null")) as [r1|] eqn:T.
  { rewrite M. intros H. inversion H; auto. }
  apply na_start in R as [ -> |(c & s & -> & C)].
  - cbn. destruct t; discriminate.
  - assert (N : json_parse_number (c :: s) = Ok None) by (apply number_none; [lia|unfold digit_c; lia]).
    assert (Q : parse_doublequote_string_no_ws (c :: s) = Ok None) by (apply C19_no_match; rewrite next_cons; lia).
    assert (Sp : ~ space_c c) by (unfold space_c; lia). rewrite Q. cbn [bind]. destruct t; try discriminate.
    + change (lit "true") with [116; 114; 117; 101]. change (lit "false") with [102; 97; 108; 115; 101]. rewrite !(token_no [] c s) by (auto; lia). cbn [app].
      rewrite N. cbn [bind]. discriminate.
    + rewrite N. discriminate.
Qed.
Lemma null_is_na it r : ~ next_is space_c it -> parse_token it (lit "null") = Some r -> na_rest it r.
Proof.
  intros S T. apply (wd 110 [117; 108; 108]) in T; auto; [|unfold space_c; lia]. exists (lit "null"). split; auto. split; [right; right; left; reflexivity|discriminate].
Qed.
Lemma bool_option_agree it v r v' r' : ~ next_is space_c it -> (forall r, ~ na_rest it r) -> single_bool it = Ok (v, r) -> parse_option_json JOptBool it = Ok (v', r') -> v = v'.
Proof.
  intros S R. unfold single_bool, json_parse_bool, parse_option_json. rewrite skip_id by auto.
  destruct (parse_token it (lit "null")) as [r0|] eqn:T0; [exfalso; eapply R, null_is_na; eauto|].
  destruct (parse_token it (lit "true")) as [r1|] eqn:T1.
  { apply (wd 116 [114; 117; 101]) in T1; auto; [|unfold space_c; lia]. assert (Q : parse_doublequote_string_no_ws it = Ok None) by (apply C19_no_match; rewrite T1; change (lit "true") with [116; 114; 117; 101]; cbn [app]; rewrite next_cons; lia).
    rewrite Q. cbn [bind]. intros H H'. inversion H; inversion H'; auto. }
  destruct (parse_token it (lit "false")) as [r2|] eqn:T2.
  { apply (wd 102 [97; 108; 115; 101]) in T2; auto; [|unfold space_c; lia]. assert (Q : parse_doublequote_string_no_ws it = Ok None) by (apply C19_no_match; rewrite T2; change (lit "false") with [102; 97; 108; 115; 101]; cbn [app]; rewrite next_cons; lia).
    rewrite Q. cbn [bind]. intros H H'. inversion H; inversion H'; auto. }
  destruct (number_cases it) as [(m & rr & X & E & N)|X]; rewrite X; cbn [bind].
  - assert (Q : parse_doublequote_string_no_ws it = Ok None) by (rewrite E; apply number_no_quote; auto). rewrite Q. cbn [bind].
    destruct (Z.eqb_spec (len m) 1) as [L|]; [|discriminate]. destruct m as [|c [|]]; try (unfold len in L; cbn [List.length] in L; lia). cbn [load_at nth_error bind].
    unfold compare_range_to_literal. change (lit "1") with [49]. change (lit "0") with [48]. change (Z.of_nat (List.length [c]) =? Z.of_nat (List.length [49])) with true. change (Z.of_nat (List.length [c]) =? Z.of_nat (List.length [48])) with true.
    cbn [andb list_eqb]. rewrite !andb_true_r. destruct (Z.eqb_spec c 48) as [->|].
    + change (48 =? 49) with false. cbn [bind]. intros H H'. inversion H; inversion H'; auto.
    + destruct (c =? 49); cbn [bind]; [|discriminate]. intros H H'. inversion H; inversion H'; auto.
  - destruct (parse_doublequote_string_no_ws it) as [[((b, e), rr)|]| | |] eqn:D; cbn [bind]; try discriminate. apply dq_inv in D as (E & Bd & Es).
    unfold content. destruct (if e then unescape_string b else Ok b) as [w| | |]; cbn [bind located]; try discriminate.
    destruct (parse_bool_checked w) as [z| | |] eqn:P; cbn [bind]; try discriminate. intros H H'. unfold set_option in H'. cbn [negb andb] in H'.
    assert (NA : ParseIntModel.parse_na w = false).
    { destruct (ParseIntModel.parse_na w) eqn:Q; auto. exfalso. apply na_word_iff in Q. apply parse_bool_words in P. eapply word_not_na; eauto. destruct z; auto. }
    rewrite NA, P in H'. cbn [bind located] in H'. inversion H; inversion H'; auto.
Qed.
Lemma int_option_agree W it v r v' r' : 1 <= W <= 64 -> ~ next_is space_c it -> (forall r, ~ na_rest it r) -> single_int true W it = Ok (v, r) -> parse_option_json (JOptInt W) it = Ok (v', r') -> v = v'.
Proof.
  intros HW S R. destruct (number_cases it) as [(m & r1 & X & E & N)|X]; [|rewrite single_int_none by auto; discriminate].
  rewrite (single_int_some _ _ _ _ _ X E). unfold parse_option_json. rewrite skip_id by auto.
  destruct (parse_token it (lit "null")) as [r0|] eqn:T0; [exfalso; eapply R, null_is_na; eauto|].
  assert (Q : parse_doublequote_string_no_ws it = Ok None) by (rewrite E; apply number_no_quote; auto). rewrite Q. cbn [bind]. rewrite X. cbn [bind].
  destruct (parse_s W m) as [z| | |] eqn:A; cbn [bind]; try discriminate. destruct (string_to_number true W m) as [z'| | |] eqn:B; cbn [bind]; try discriminate.
  intros H H'. inversion H; inversion H'; subst. f_equal. eapply (ints_agree true); eauto.
Qed.
Lemma string_option_agree it v r v' r' : ~ next_is space_c it -> bytes it -> ~ In 92 it -> (forall r, ~ na_rest it r) -> single_string it = Ok (v, r) -> parse_option_json JOptString it = Ok (v', r') -> v = v'.
Proof.
  intros S By N R A. unfold parse_option_json. rewrite skip_id by auto.
  destruct (parse_token it (lit "null")) as [r0|] eqn:T0; [exfalso; eapply R, null_is_na; eauto|].
  unfold single_string in A. rewrite skip_id in A by auto. destruct (parse_doublequote_string_no_ws it) as [[((b, e), r1)|]| | |] eqn:D; cbn [bind] in A |- *; try discriminate.
  pose proof (string_body _ _ _ _ D By) as Bb. apply dq_inv in D as (E & Bd & Es).
  assert (e = false) as -> by (destruct e; auto; exfalso; eapply body_no_bs; eauto; apply Es; auto).
  destruct (unescape_string b); cbn [bind] in A; try discriminate. inversion A; subst. cbn [content bind]. unfold set_option. cbn [negb andb].
  destruct (set_from_utf8_string b) as [z| | |] eqn:Z; cbn [located bind]; try discriminate. apply set_string_iff in Z; auto. destruct Z as (_ & ->). intros H'. inversion H'; auto.
Qed.
Lemma bytes_skip t : bytes t -> bytes (skip_whitespace t).
Proof. intros B. destruct (skip_ws_inv t) as (w & E & _). rewrite E in B. apply bytes_app in B. tauto. Qed.
Definition stringy (tp : pty) : Prop := tp = PScalar SString \/ tp = POption SString.
Definition sized_ty (tp : pty) : Prop := match tp with PScalar s | POption s => sized s | _ => True end.
Lemma agree tp tj t v v' : bytes t -> sized_ty tp -> same_type tp tj -> parse tp t = Ok v -> parse_json tj t = Ok v' -> v = v' \/ (stringy tp /\ In 92 t).
Proof.
  intros By Sz St A B. pose proof (bytes_skip _ By) as Bs. destruct (skip_ws_inv t) as (_ & _ & _ & S).
  assert (D : In 92 t \/ ~ In 92 (skip_whitespace t)) by (destruct (in_dec Z.eq_dec 92 (skip_whitespace t)) as [i|]; auto; left; now apply in_skip).
  unfold parse_json in B. apply finish' in B as (r' & B & _). inversion St; subst.
  - left. apply bool_parse in A. unfold parse_json in A. apply finish' in A as (r & A & _). cbn [parse_value] in A, B. rewrite A in B. inversion B; auto.
  - left. rewrite parse_scalar in A. apply finish in A as (r & A & _). cbn [parse_value scalar_kern single] in A, B. eapply int_agree; eauto. exact (sized_pos sgn W Sz).
  - rewrite parse_scalar in A. apply finish in A as (r & A & _). cbn [parse_value scalar_kern single] in A, B. destruct D as [D|D]; [right; split; auto; left; auto|]. left. eapply string_agree; eauto.
  - left. rewrite (parse_option SBool (VBool 2) t sm_bool) in A. apply finish in A as (r & A & _). cbn [parse_value] in B.
    destruct (option_step (VBool 2) SBool (skip_whitespace t)) as [(r0 & R & E)|(R & E)]; rewrite E in A.
    + inversion A; subst. symmetry. refine (option_na_agree _ _ _ _ _ _ _ S R B); reflexivity.
    + eapply bool_option_agree; eauto.
  - left. rewrite (parse_option (SInt true W) _ t (sm_int W)) in A. apply finish in A as (r & A & _). cbn [parse_value] in B.
    destruct (option_step (VInt (- 2 ^ (W - 1))) (SInt true W) (skip_whitespace t)) as [(r0 & R & E)|(R & E)]; rewrite E in A.
    + inversion A; subst. symmetry. refine (option_na_agree _ _ _ _ _ _ _ S R B); reflexivity.
    + change (single_int true W (skip_whitespace t) = Ok (v, r)) in A. eapply int_option_agree; eauto. exact (sized_pos true W Sz).
  - rewrite (parse_option SString (VStr []) t sm_string) in A. apply finish in A as (r & A & _). cbn [parse_value] in B.
    destruct (option_step (VStr []) SString (skip_whitespace t)) as [(r0 & R & E)|(R & E)]; rewrite E in A.
    + left. inversion A; subst. symmetry. refine (option_na_agree _ _ _ _ _ _ _ S R B); reflexivity.
    + destruct D as [D|D]; [right; split; auto; right; auto|]. left. change (single_string (skip_whitespace t) = Ok (v, r)) in A. exact (string_option_agree (skip_whitespace t) v r v' r' S Bs D R A B).
Qed.
