(** Proofs about the validator: what it accepts is the relaxed grammar. *)
From Verif Require Import Base ParseIntModel ScanModel ScanSpec ScanProofs ScanProps EncodingModel EncodingSpec EncodingProofs EscapeModel EscapeSpec EscapeProofs EscapeProps JsonModel JsonSpec.
Open Scope Z_scope.

Definition cont (c : Z) : Prop := digit_c c \/ c = 46 \/ exp_mark c.
(** What may follow a value so that it is read whole. *)
Definition stop (r : list Z) : Prop := ~ next_is cont r.
Notation ws := (Forall space_c).

Lemma lit_codes s : lit s = codes s. Proof. reflexivity. Qed.
Lemma next_cons (P : Z -> Prop) c r : next_is P (c :: r) <-> P c.
Proof. split; [intros (x & y & E & H); inversion E; subst; auto|intros H; exists c, r; auto]. Qed.
Lemma not_next_nil' (P : Z -> Prop) : ~ next_is P []. Proof. intros (c & r & E & _). discriminate. Qed.

Lemma skip_app w c r : ws w -> ~ space_c c -> skip_whitespace (w ++ c :: r) = c :: r.
Proof. intros W N. apply skip_ws_iff. exists w. split; auto. split; auto. rewrite next_cons. auto. Qed.
Lemma skip_all w : ws w -> skip_whitespace w = [].
Proof. intros W. apply skip_ws_iff. exists w. rewrite app_nil_r. split; auto. split; auto. apply not_next_nil'. Qed.
Lemma skip_ws_inv s : exists w, s = w ++ skip_whitespace s /\ ws w /\ ~ next_is space_c (skip_whitespace s).
Proof. apply skip_ws_iff. reflexivity. Qed.
Lemma token_yes w t r : ws w -> ~ space_c t -> parse_token (w ++ t :: r) [t] = Some r.
Proof. intros W N. apply token_iff; [rewrite next_cons; auto|discriminate|]. exists w. auto. Qed.
Lemma token_no w c r t tok : ws w -> ~ space_c c -> c <> t -> parse_token (w ++ c :: r) (t :: tok) = None.
Proof.
  intros W N D. unfold parse_token. rewrite skip_app by auto. destruct (parse_token_no_ws (c :: r) (t :: tok)) as [x|] eqn:E; auto.
  apply token_no_ws_iff in E. inversion E. congruence.
Qed.
Lemma token_none_ws w t tok : ws w -> parse_token w (t :: tok) = None.
Proof.
  intros W. unfold parse_token. rewrite skip_all by auto. reflexivity.
Qed.
Lemma token_inv s t r : ~ space_c t -> parse_token s [t] = Some r -> exists w, ws w /\ s = w ++ t :: r.
Proof. intros N H. apply token_iff in H; [exact H|rewrite next_cons; auto|discriminate]. Qed.
Lemma word_yes c tok r : ~ space_c c -> parse_token ((c :: tok) ++ r) (c :: tok) = Some r.
Proof. intros N. apply token_iff; [rewrite next_cons; auto|discriminate|]. exists []. auto. Qed.
Lemma word_inv c tok s r : ~ space_c c -> ~ next_is space_c s -> parse_token s (c :: tok) = Some r -> s = (c :: tok) ++ r.
Proof.
  intros N NS H. apply token_iff in H; [|rewrite next_cons; auto|discriminate]. destruct H as (w & W & E). destruct w as [|x w]; auto.
  exfalso. apply NS. rewrite E. exists x, (w ++ (c :: tok) ++ r). split; auto. inversion W; auto.
Qed.

Lemma space_not_cont c : space_c c -> ~ cont c.
Proof. unfold space_c, cont, digit_c, exp_mark. lia. Qed.
Lemma stop_ws w c r : ws w -> ~ cont c -> stop (w ++ c :: r).
Proof. intros W N. destruct w as [|x w]; cbn [app]; unfold stop; rewrite next_cons; auto. apply space_not_cont. inversion W; auto. Qed.
Lemma stop_wsn w : ws w -> stop w.
Proof. intros W. destruct w as [|x w]; [apply not_next_nil'|]. unfold stop. rewrite next_cons. apply space_not_cont. inversion W; auto. Qed.

(** First characters. *)
Definition starts (v : list Z) : Prop := exists c r, v = c :: r /\ ~ space_c c /\ c <> 93 /\ c <> 125 /\ c <> 44 /\ c <> 58.
Lemma number_starts m : json_number m -> exists c r, m = c :: r /\ (c = 45 \/ digit_c c).
Proof.
  intros (s & i & f & e & S & I & _ & _ & ->). destruct S.
  - destruct I as [|c t C _]; cbn [app]; eexists _, _; (split; [reflexivity|right]); unfold digit_c; lia.
  - cbn [app]. eexists _, _. split; [reflexivity|auto].
Qed.
Lemma value_starts sp str v : json sp str Value v -> starts v.
Proof.
  intros H. inversion H; subst; try (change (codes "true") with [116; 114; 117; 101]); try (change (codes "false") with [102; 97; 108; 115; 101]);
    try (change (codes "null") with [110; 117; 108; 108]); unfold starts;
    try (eexists _, _; split; [reflexivity|unfold space_c; lia]).
  match goal with X : json_number _ |- _ => destruct (number_starts _ X) as (c & r & -> & C) end. exists c, r. split; auto. unfold space_c, digit_c in *. lia.
Qed.
Lemma starts_token w v r t : ws w -> starts v -> t = 93 \/ t = 125 \/ t = 44 \/ t = 58 -> parse_token (w ++ v ++ r) [t] = None.
Proof. intros W (c & x & -> & N & D) T. cbn [app]. apply token_no; auto. intuition congruence. Qed.
Lemma starts_skip w v r : ws w -> starts v -> skip_whitespace (w ++ v ++ r) = v ++ r.
Proof. intros W (c & x & -> & N & D). cbn [app]. apply skip_app; auto. Qed.

(** The string scanner on a literal. *)
Lemma dq_read b r : dq_body b -> exists e, parse_doublequote_string_no_ws ((34 :: b ++ [34]) ++ r) = Ok (Some (b, e, r)) /\ (e = true <-> In 92 b).
Proof.
  intros B. destruct (in_dec Z.eq_dec 92 b) as [I|I]; [exists true|exists false]; (split; [|split; auto; try discriminate; try contradiction]);
    apply dq_iff; (split; [cbn [app]; now rewrite <- app_assoc|split; auto; split; auto; try discriminate; try contradiction]).
Qed.
Lemma dq_inv s b e r : parse_doublequote_string_no_ws s = Ok (Some (b, e, r)) -> s = quoted b ++ r /\ dq_body b /\ (e = true <-> In 92 b).
Proof. intros H. apply dq_iff in H. destruct H as (-> & H). split; auto. unfold quoted. cbn [app]. now rewrite <- app_assoc. Qed.

(** One step of the mutual functions. *)
Lemma skip_value_S f it : skip_value (S f) it =
  let it := skip_whitespace it in
  match it with
  | [] => Throw "parse_error"
  | c :: r =>
      if c =? 123 then match parse_token r [125] with Some r' => Ok r' | None => skip_members f r end
      else if c =? 91 then match parse_token r [93] with Some r' => Ok r' | None => skip_elements f r end
      else if c =? 34 then do x <- parse_doublequote_string_no_ws it; match x with Some (_, _, r') => Ok r' | None => Throw "parse_error" end
      else if c =? 116 then match parse_token it (lit "true") with Some r' => Ok r' | None => Throw "parse_error" end
      else if c =? 102 then match parse_token it (lit "false") with Some r' => Ok r' | None => Throw "parse_error" end
      else if c =? 110 then match parse_token it (lit "null") with Some r' => Ok r' | None => Throw "parse_error" end
      else if (c =? 45) || is_dig c then do x <- json_parse_number it; match x with Some (_, r') => Ok r' | None => Throw "parse_error" end
      else Throw "parse_error"
  end.
Proof. reflexivity. Qed.
Lemma skip_elements_S f it : skip_elements (S f) it =
  do r <- skip_value f it;
  match parse_token r [44] with
  | Some r' => skip_elements f r'
  | None => match parse_token r [93] with Some r' => Ok r' | None => Throw "parse_error" end
  end.
Proof. reflexivity. Qed.
Lemma skip_members_S f it : skip_members (S f) it =
  do x <- parse_doublequote_string_no_ws (skip_whitespace it);
  match x with
  | None => Throw "parse_error"
  | Some (_, _, r) =>
      match parse_token r [58] with
      | None => Throw "parse_error"
      | Some r' =>
          do r'' <- skip_value f r';
          match parse_token r'' [44] with
          | Some r3 => skip_members f r3
          | None => match parse_token r'' [125] with Some r3 => Ok r3 | None => Throw "parse_error" end
          end
      end
  end.
Proof. reflexivity. Qed.

Lemma nsp t : t = 44 \/ t = 58 \/ t = 91 \/ t = 93 \/ t = 123 \/ t = 125 \/ t = 34 -> ~ space_c t.
Proof. unfold space_c. lia. Qed.
Ltac nsp := apply nsp; lia.

(** ** What is skipped is a value; a result or a parse_error *)
Definition sv_ok (o : outcome (list Z)) (P : list Z -> Prop) : Prop :=
  match o with Ok r => P r | Throw e => e = "parse_error"%string | UB => False | NoFuel => False end.
Definition is_value it r := exists w v, it = w ++ v ++ r /\ ws w /\ relaxed Value v.
Definition is_elements it r := exists es, it = es ++ 93 :: r /\ relaxed Elements es.
Definition is_members it r := exists ms, it = ms ++ 125 :: r /\ relaxed Members ms.

Lemma dq_total s : (exists x, parse_doublequote_string_no_ws s = Ok x) \/ parse_doublequote_string_no_ws s = Throw "parse_error".
Proof.
  destruct s as [|c r]; [left; exists None; reflexivity|]. destruct (Z.eq_dec c 34) as [->|N].
  - destruct (parse_doublequote_string_no_ws (34 :: r)) as [x| | |] eqn:E; eauto; right.
    all: rewrite <- E; apply dq_throws; [apply next_cons; auto|]; intros (b & t & X & B); rewrite X in E;
      destruct (dq_read b t B) as (e0 & R & _); cbn [app] in R; rewrite <- app_assoc in R; cbn [app] in R; congruence.
  - left. exists None. apply dq_none. rewrite next_cons. lia.
Qed.

Lemma word_case c tok it (P : list Z -> Prop) : ~ space_c c -> ~ next_is space_c it -> (forall r, it = (c :: tok) ++ r -> P r) ->
  sv_ok (match parse_token it (c :: tok) with Some r' => Ok r' | None => Throw "parse_error" end) P.
Proof. intros N NS H. destruct (parse_token it (c :: tok)) as [r|] eqn:E; cbn [sv_ok]; auto. apply H. eapply word_inv; eauto. Qed.

Lemma skip_sound : forall f, 
  (forall it, (2 * List.length it < f)%nat -> sv_ok (skip_value f it) (is_value it)) /\
  (forall it, (2 * List.length it + 1 < f)%nat -> sv_ok (skip_elements f it) (is_elements it)) /\
  (forall it, (2 * List.length it + 1 < f)%nat -> sv_ok (skip_members f it) (is_members it)).
Proof.
  induction f as [|f (IV & IE & IM)]; [split; [|split]; intros; lia|]. split; [|split]; intros it L.
  - rewrite skip_value_S. destruct (skip_ws_inv it) as (w & E & W & NS). cbv zeta. destruct (skip_whitespace it) as [|c r] eqn:Sk; [reflexivity|].
    assert (Lr : (2 * List.length r + 1 < f)%nat). { rewrite E, app_length in L. cbn [List.length] in L. lia. }
    assert (Done : forall v r', c :: r = v ++ r' -> relaxed Value v -> is_value it r'). { intros v r' X V. exists w, v. rewrite E, X. auto. }
    destruct (Z.eqb_spec c 123) as [->|]; [|destruct (Z.eqb_spec c 91) as [->|]; [|destruct (Z.eqb_spec c 34) as [->|]; [|
      destruct (Z.eqb_spec c 116) as [->|]; [|destruct (Z.eqb_spec c 102) as [->|]; [|destruct (Z.eqb_spec c 110) as [->|]]]]]].
    + destruct (parse_token r [125]) as [r'|] eqn:T.
      * cbn [sv_ok]. apply token_inv in T; [|nsp]. destruct T as (w' & W' & ->). apply (Done (123 :: w' ++ [125])); [now cbn [app]; rewrite <- app_assoc|now apply g_empty_object].
      * specialize (IM r Lr). destruct (skip_members f r) as [r'| | |]; cbn [sv_ok] in *; auto. destruct IM as (ms & -> & M).
        apply (Done (123 :: ms ++ [125])); [now cbn [app]; rewrite <- app_assoc|now apply g_object].
    + destruct (parse_token r [93]) as [r'|] eqn:T.
      * cbn [sv_ok]. apply token_inv in T; [|nsp]. destruct T as (w' & W' & ->). apply (Done (91 :: w' ++ [93])); [now cbn [app]; rewrite <- app_assoc|now apply g_empty_array].
      * specialize (IE r Lr). destruct (skip_elements f r) as [r'| | |]; cbn [sv_ok] in *; auto. destruct IE as (es & -> & M).
        apply (Done (91 :: es ++ [93])); [now cbn [app]; rewrite <- app_assoc|now apply g_array].
    + destruct (dq_total (34 :: r)) as [(x & Dx)|Dx]; rewrite Dx; cbn [bind]; [|reflexivity].
      destruct x as [((b, e), r')|]; [|reflexivity]. cbn [sv_ok]. apply dq_inv in Dx as (X & B & _). apply (Done _ _ X). now apply g_string.
    + apply (word_case 116 [114; 117; 101] (116 :: r)); [unfold space_c; lia|auto|]. intros r' X. apply (Done _ _ X), g_true.
    + apply (word_case 102 [97; 108; 115; 101] (102 :: r)); [unfold space_c; lia|auto|]. intros r' X. apply (Done _ _ X), g_false.
    + apply (word_case 110 [117; 108; 108] (110 :: r)); [unfold space_c; lia|auto|]. intros r' X. apply (Done _ _ X), g_null.
    + destruct ((c =? 45) || is_dig c); [|reflexivity]. destruct (json_noub (c :: r)) as (x & X). rewrite X. cbn [bind].
      destruct x as [(m, r')|]; [|reflexivity]. cbn [sv_ok]. destruct (C17_json_number_longest _ _ _ X) as (Y & N & _). apply (Done _ _ Y). now apply g_number.
  - rewrite skip_elements_S. specialize (IV it ltac:(lia)). destruct (skip_value f it) as [r| | |]; cbn [bind sv_ok] in *; auto.
    destruct IV as (w & v & E & W & V). assert (Lv : (1 <= List.length v)%nat). { destruct (value_starts _ _ _ V) as (c & x & -> & _). cbn [List.length]. lia. }
    assert (Lr : (List.length r < List.length it)%nat). { rewrite E, !app_length. lia. }
    assert (El : forall w', ws w' -> relaxed Element (w ++ v ++ w')) by (intros w' W'; apply g_element; auto).
    destruct (parse_token r [44]) as [r'|] eqn:T.
    + apply token_inv in T; [|nsp]. destruct T as (w' & W' & Er). rewrite Er, app_length in Lr. cbn [List.length] in Lr. specialize (IE r' ltac:(lia)).
      destruct (skip_elements f r') as [r3| | |]; cbn [sv_ok] in *; auto. destruct IE as (es & -> & M).
      exists ((w ++ v ++ w') ++ 44 :: es). split; [rewrite E, Er; now rewrite <- !app_assoc|]. apply g_more; auto. apply El; auto.
    + destruct (parse_token r [93]) as [r'|] eqn:T'; cbn [sv_ok]; auto. apply token_inv in T'; [|nsp]. destruct T' as (w' & W' & Er).
      exists (w ++ v ++ w'). split; [rewrite E, Er; now rewrite <- !app_assoc|]. apply g_one. apply El; auto.
  - rewrite skip_members_S. destruct (skip_ws_inv it) as (w & E & W & NS). set (it1 := skip_whitespace it) in *.
    destruct (dq_total it1) as [(x & Dx)|Dx]; rewrite Dx; cbn [bind]; [|reflexivity].
    destruct x as [((b, e), r)|]; [|reflexivity]. apply dq_inv in Dx as (X & B & _).
    destruct (parse_token r [58]) as [r'|] eqn:T; [|reflexivity]. apply token_inv in T; [|nsp]. destruct T as (w1 & W1 & Er).
    assert (L1 : (List.length r' < List.length it)%nat). { rewrite E, X, Er. unfold quoted. rewrite !app_length. cbn [List.length]. lia. }
    specialize (IV r' ltac:(lia)). destruct (skip_value f r') as [r2| | |]; cbn [bind sv_ok] in *; auto. destruct IV as (w2 & v & Er' & W2 & V).
    assert (L2 : (List.length r2 <= List.length r')%nat). { rewrite Er', !app_length. lia. }
    assert (Mb : forall w3, ws w3 -> relaxed Member (w ++ (34 :: b ++ [34]) ++ w1 ++ 58 :: w2 ++ v ++ w3)) by (intros w3 W3; apply g_member; auto; apply g_element; auto).
    destruct (parse_token r2 [44]) as [r3|] eqn:T.
    + apply token_inv in T; [|nsp]. destruct T as (w3 & W3 & Er2). rewrite Er2, app_length in L2. cbn [List.length] in L2. specialize (IM r3 ltac:(lia)).
      destruct (skip_members f r3) as [r4| | |]; cbn [sv_ok] in *; auto. destruct IM as (ms & -> & M).
      exists ((w ++ (34 :: b ++ [34]) ++ w1 ++ 58 :: w2 ++ v ++ w3) ++ 44 :: ms). split.
      * rewrite E, X, Er, Er', Er2. unfold quoted. repeat (rewrite <- ?app_assoc; cbn [app]). reflexivity.
      * apply g_more_members; auto. apply Mb; auto.
    + destruct (parse_token r2 [125]) as [r3|] eqn:T'; cbn [sv_ok]; auto. apply token_inv in T'; [|nsp]. destruct T' as (w3 & W3 & Er2).
      exists (w ++ (34 :: b ++ [34]) ++ w1 ++ 58 :: w2 ++ v ++ w3). split.
      * rewrite E, X, Er, Er', Er2. unfold quoted. repeat (rewrite <- ?app_assoc; cbn [app]). reflexivity.
      * apply g_one_member. apply Mb; auto.
Qed.

(** ** Every value is skipped whole *)
Definition skips (v : list Z) : Prop := forall w r f, ws w -> stop r -> (2 * List.length (w ++ v ++ r) < f)%nat -> skip_value f (w ++ v ++ r) = Ok r.
Definition complete_of (k : nonterminal) (t : list Z) : Prop :=
  match k with
  | Value => skips t
  | Element => exists w v w', t = w ++ v ++ w' /\ ws w /\ ws w' /\ starts v /\ skips v
  | Elements => (exists w v x, t = w ++ v ++ x /\ ws w /\ starts v) /\
      forall r f, (2 * List.length (t ++ 93%Z :: r) + 1 < f)%nat -> skip_elements f (t ++ 93 :: r) = Ok r
  | Member => exists w b w' w2 v w3, t = w ++ quoted b ++ w' ++ 58 :: w2 ++ v ++ w3 /\ ws w /\ dq_body b /\ ws w' /\ ws w2 /\ ws w3 /\ skips v
  | Members => (exists w v x, t = w ++ v ++ x /\ ws w /\ starts v) /\
      forall r f, (2 * List.length (t ++ 125%Z :: r) + 1 < f)%nat -> skip_members f (t ++ 125 :: r) = Ok r
  end.

Ltac lens := repeat (rewrite ?app_length in *; cbn [List.length app] in *; try match goal with |- context [List.length (_ ++ _)] => rewrite app_length end).
Lemma first_skip c x : ~ space_c c -> skip_whitespace (c :: x) = c :: x.
Proof. intros N. apply (skip_app [] c x); auto. Qed.
Lemma skips_first c v w r f : ~ space_c c -> ws w -> (2 * List.length (w ++ (c :: v) ++ r) < f)%nat -> exists g,
  skip_value f (w ++ (c :: v) ++ r) = skip_value (S g) ((c :: v) ++ r) /\ (2 * List.length (v ++ r) + 1 < g)%nat.
Proof.
  intros N W L. destruct f as [|g]; [lia|]. exists g. split.
  - rewrite !skip_value_S. cbn [app]. rewrite skip_app by auto. rewrite first_skip by auto. reflexivity.
  - rewrite app_length in L. cbn [app List.length] in L. lia.
Qed.

Lemma skip_complete k t : relaxed k t -> complete_of k t.
Proof.
  unfold relaxed. induction 1; cbn [complete_of].
  - intros w r f W S L. change (codes "true") with [116; 114; 117; 101] in *. destruct (skips_first 116 _ w r f ltac:(unfold space_c; lia) W L) as (g & -> & _).
    rewrite skip_value_S. cbn [app]. rewrite first_skip by (unfold space_c; lia). cbv zeta. apply (f_equal (fun o => match o with Some r' => Ok r' | None => Throw "parse_error" end) (x := parse_token _ _) (y := Some r)).
    apply (word_yes 116 [114; 117; 101]). unfold space_c; lia.
  - intros w r f W S L. change (codes "false") with [102; 97; 108; 115; 101] in *. destruct (skips_first 102 _ w r f ltac:(unfold space_c; lia) W L) as (g & -> & _).
    rewrite skip_value_S. cbn [app]. rewrite first_skip by (unfold space_c; lia). cbv zeta. apply (f_equal (fun o => match o with Some r' => Ok r' | None => Throw "parse_error" end) (x := parse_token _ _) (y := Some r)).
    apply (word_yes 102 [97; 108; 115; 101]). unfold space_c; lia.
  - intros w r f W S L. change (codes "null") with [110; 117; 108; 108] in *. destruct (skips_first 110 _ w r f ltac:(unfold space_c; lia) W L) as (g & -> & _).
    rewrite skip_value_S. cbn [app]. rewrite first_skip by (unfold space_c; lia). cbv zeta. apply (f_equal (fun o => match o with Some r' => Ok r' | None => Throw "parse_error" end) (x := parse_token _ _) (y := Some r)).
    apply (word_yes 110 [117; 108; 108]). unfold space_c; lia.
  - intros w r f W S L. pose proof (number_starts m H) as (c & x & E & C). pose proof (C17_json_number_complete m r H S) as R. rewrite E in *.
    assert (N : ~ space_c c) by (unfold space_c, digit_c in *; lia). destruct (skips_first c x w r f N W L) as (g & -> & _).
    rewrite skip_value_S. cbn [app] in *. rewrite first_skip by auto. cbv zeta. unfold digit_c in C.
    repeat match goal with |- context [c =? ?k] => lazymatch k with 45 => fail | _ => replace (c =? k) with false by (symmetry; apply Z.eqb_neq; lia) end end.
    assert (((c =? 45) || is_dig c) = true) as ->. { unfold is_dig, between. apply orb_true_iff. destruct C as [->|C]; [left; reflexivity|right]. apply andb_true_iff. split; apply Z.leb_le; lia. }
    rewrite R. reflexivity.
  - intros w r f W S L. destruct (skips_first 34 _ w r f ltac:(nsp) W L) as (g & -> & _). rewrite skip_value_S. cbn [app]. rewrite first_skip by nsp. cbv zeta.
    destruct (dq_read b r H) as (e & R & _). cbn [app] in R. change (34 =? 123) with false. change (34 =? 91) with false. change (34 =? 34) with true. cbv iota. rewrite R. reflexivity.
  - intros w' r f W S L. destruct (skips_first 91 _ w' r f ltac:(nsp) W L) as (g & -> & _). rewrite skip_value_S. cbn [app]. rewrite first_skip by nsp. cbv zeta.
    change (91 =? 123) with false. change (91 =? 91) with true. cbv iota. rewrite <- app_assoc. cbn [app]. rewrite token_yes by (auto; nsp). reflexivity.
  - destruct IHjson as ((w0 & v0 & x0 & E0 & W0 & S0) & IH). intros w r f W S L. destruct (skips_first 91 _ w r f ltac:(nsp) W L) as (g & -> & Lg). rewrite skip_value_S. cbn [app]. rewrite first_skip by nsp. cbv zeta.
    change (91 =? 123) with false. change (91 =? 91) with true. cbv iota. rewrite <- app_assoc in *. cbn [app] in *.
    assert (parse_token (es ++ 93 :: r) [93] = None) as ->. { rewrite E0, <- !app_assoc. apply starts_token; auto. }
    apply IH. auto.
  - intros w' r f W S L. destruct (skips_first 123 _ w' r f ltac:(nsp) W L) as (g & -> & _). rewrite skip_value_S. cbn [app]. rewrite first_skip by nsp. cbv zeta.
    change (123 =? 123) with true. cbv iota. rewrite <- app_assoc. cbn [app]. rewrite token_yes by (auto; nsp). reflexivity.
  - destruct IHjson as ((w0 & v0 & x0 & E0 & W0 & S0) & IH). intros w r f W S L. destruct (skips_first 123 _ w r f ltac:(nsp) W L) as (g & -> & Lg). rewrite skip_value_S. cbn [app]. rewrite first_skip by nsp. cbv zeta.
    change (123 =? 123) with true. cbv iota. rewrite <- app_assoc in *. cbn [app] in *.
    assert (parse_token (ms ++ 125 :: r) [125] = None) as ->. { rewrite E0, <- !app_assoc. apply starts_token; auto. }
    apply IH. auto.
  - exists w, v, w'. split; auto. split; auto. split; auto. split; auto. eapply value_starts; eauto.
  - destruct IHjson as (w & v & w' & -> & W & W' & S & V). split; [exists w, v, w'; auto|]. intros r [|f] L; [lia|]. rewrite skip_elements_S.
    rewrite <- !app_assoc in *. rewrite V; [|auto|apply stop_ws; auto; unfold cont, digit_c, exp_mark; lia|lia]. cbn [bind].
    rewrite token_no by (auto; try nsp; lia). rewrite token_yes by (auto; nsp). reflexivity.
  - destruct IHjson1 as (w & v & w' & -> & W & W' & S & V). destruct IHjson2 as (_ & IH). split; [exists w, v, (w' ++ 44 :: es); rewrite <- !app_assoc; auto|].
    intros r [|f] L; [lia|]. rewrite skip_elements_S. rewrite <- !app_assoc in *. rewrite V; [|auto|apply stop_ws; auto; unfold cont, digit_c, exp_mark; lia|lia]. cbn [bind app].
    rewrite token_yes by (auto; nsp). apply IH. lens. lia.
  - destruct IHjson as (w2 & v & w3 & -> & W2 & W3 & S & V). exists w, b, w', w2, v, w3. unfold quoted. cbn [app]. repeat (split; auto).
  - destruct IHjson as (w & b & w1 & w2 & v & w3 & -> & W & B & W1 & W2 & W3 & V). split.
    { exists w, (quoted b), (w1 ++ 58 :: w2 ++ v ++ w3). split; auto. split; auto. exists 34, (b ++ [34]). split; auto. unfold space_c. lia. }
    intros r [|f] L; [lia|]. rewrite skip_members_S. rewrite <- !app_assoc in *. cbn [app] in *. rewrite <- !app_assoc in *.
    assert (skip_whitespace (w ++ quoted b ++ w1 ++ 58 :: w2 ++ v ++ w3 ++ 125 :: r) = quoted b ++ w1 ++ 58 :: w2 ++ v ++ w3 ++ 125 :: r) as ->.
    { apply starts_skip; auto. exists 34, (b ++ [34]). split; auto. unfold space_c. lia. }
    destruct (dq_read b (w1 ++ 58 :: w2 ++ v ++ w3 ++ 125 :: r) B) as (e & R & _). unfold quoted. rewrite R. cbn [bind].
    rewrite token_yes by (auto; nsp). rewrite V; [|auto|apply stop_ws; auto; unfold cont, digit_c, exp_mark; lia|].
    2: { unfold quoted in L. lens. lia. }
    cbn [bind]. rewrite token_no by (auto; try nsp; lia). rewrite token_yes by (auto; nsp). reflexivity.
  - destruct IHjson1 as (w & b & w1 & w2 & v & w3 & -> & W & B & W1 & W2 & W3 & V). destruct IHjson2 as (_ & IH). split.
    { exists w, (quoted b), ((w1 ++ 58 :: w2 ++ v ++ w3) ++ 44 :: ms). rewrite <- !app_assoc. split; auto. split; auto. exists 34, (b ++ [34]). split; auto. unfold space_c. lia. }
    intros r [|f] L; [lia|]. rewrite skip_members_S. repeat (rewrite <- app_assoc in *; cbn [app] in *).
    assert (skip_whitespace (w ++ quoted b ++ w1 ++ 58 :: w2 ++ v ++ w3 ++ 44 :: ms ++ 125 :: r) = quoted b ++ w1 ++ 58 :: w2 ++ v ++ w3 ++ 44 :: ms ++ 125 :: r) as ->.
    { apply starts_skip; auto. exists 34, (b ++ [34]). split; auto. unfold space_c. lia. }
    destruct (dq_read b (w1 ++ 58 :: w2 ++ v ++ w3 ++ 44 :: ms ++ 125 :: r) B) as (e & R & _). unfold quoted. rewrite R. cbn [bind].
    unfold quoted in L. lens.
    rewrite token_yes by (auto; nsp). rewrite V; [|auto|apply stop_ws; auto; unfold cont, digit_c, exp_mark; lia|lens; lia].
    cbn [bind]. rewrite token_yes by (auto; nsp). apply IH. lens; lia.
Qed.

Lemma skip_json_value_iff it : (forall r, skip_json_value it = Ok r -> exists w v, it = w ++ v ++ r /\ ws w /\ relaxed Value v) /\
  ((exists r, skip_json_value it = Ok r) \/ skip_json_value it = Throw "parse_error").
Proof.
  destruct (skip_sound (S (2 * List.length it))) as (H & _). specialize (H it ltac:(lia)). unfold skip_json_value.
  destruct (skip_value (S (2 * List.length it)) it) as [r| | |]; cbn [sv_ok] in H; try contradiction.
  - split; [|eauto]. intros r' E. inversion E; subst. exact H.
  - subst. split; [discriminate|auto].
Qed.
Lemma skip_json_value_complete w v r : ws w -> relaxed Value v -> stop r -> skip_json_value (w ++ v ++ r) = Ok r.
Proof. intros W V S. apply (skip_complete Value v V); auto. Qed.
Lemma at_end_iff (l : list Z) : at_end l = true <-> l = []. Proof. destruct l; split; auto; discriminate. Qed.
Lemma validate_iff t : validate_json t = Ok tt <-> relaxed Element t.
Proof.
  unfold validate_json. split.
  - destruct (skip_json_value t) as [r| | |] eqn:E; cbn [bind]; try discriminate. destruct (at_end (skip_whitespace r)) eqn:A; [|discriminate]. intros _.
    apply at_end_iff in A. destruct (skip_ws_inv r) as (w' & Er & W' & _). rewrite A, app_nil_r in Er.
    apply (proj1 (skip_json_value_iff t)) in E. destruct E as (w & v & -> & W & V). apply g_element; auto. now subst.
  - intros H. inversion H as [| | | | | | | | |w v w' W V W'| | | | |]; subst. rewrite skip_json_value_complete by (auto using stop_wsn). cbn [bind]. rewrite skip_all by auto. reflexivity.
Qed.
Lemma validate_total t : validate_json t = Ok tt \/ validate_json t = Throw "parse_error".
Proof.
  unfold validate_json. destruct (proj2 (skip_json_value_iff t)) as [(r & ->)| ->]; cbn [bind]; auto. destruct (at_end (skip_whitespace r)); auto.
Qed.

(** ** The grammar is monotone *)
Lemma json_mono (sp sp' : Z -> Prop) (str str' : list Z -> Prop) : (forall c, sp c -> sp' c) -> (forall b, str b -> str' b) ->
  forall k t, json sp str k t -> json sp' str' k t.
Proof.
  intros A B k t H. assert (F : forall w, Forall sp w -> Forall sp' w) by (intros; eapply Forall_impl; eauto).
  induction H; [apply g_true|apply g_false|apply g_null|apply g_number|apply g_string|apply g_empty_array|apply g_array|apply g_empty_object|apply g_object|
    apply g_element|apply g_one|apply g_more|apply g_member|apply g_one_member|apply g_more_members]; auto.
Qed.
Lemma dq_body_app b t : dq_body b -> dq_body t -> dq_body (b ++ t).
Proof. induction 1; intros; auto. rewrite <- app_assoc. econstructor; eauto. Qed.
Lemma plain_body bs : Forall (fun c => c <> 34 /\ c <> 92) bs -> dq_body bs.
Proof. induction 1 as [|c bs (A & B) _ IH]; [constructor|]. apply (db_cons [c] (Some [c])); auto. constructor; auto. Qed.
Lemma utf8_plain cp bs : utf8_of cp bs -> cp <> 34 -> cp <> 92 -> Forall (fun c => c <> 34 /\ c <> 92) bs.
Proof. intros U A B. inversion U; subst; repeat constructor; lia. Qed.
Lemma rfc_body b : rfc_string b -> dq_body b.
Proof.
  induction 1 as [|cp bs t U A B C _ IH|e v t I _ IH|ds v t L X _ IH]; [constructor| | |].
  - apply dq_body_app; auto. apply plain_body. eapply utf8_plain; eauto.
  - apply (db_cons [92; e] (Some [v])); auto. now constructor.
  - destruct (scalar_dec v) as [Sc|Sc].
    + destruct (utf8_append_spec v Sc) as (bs & _ & U & _). apply (db_cons (92 :: 117 :: ds) (Some bs)); auto. eapply it_u; eauto.
    + apply (db_cons (92 :: 117 :: ds) None); auto. eapply it_u_bad; eauto.
Qed.
Lemma rfc_relaxed k t : json rfc_space rfc_string k t -> relaxed k t.
Proof. apply json_mono; [unfold rfc_space, space_c; lia|apply rfc_body]. Qed.
