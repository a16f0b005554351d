(** Reading always ends, and only numerals of 2^31 or more make it undefined (C91). *)
From Verif Require Import Base ParseIntModel ParseIntProofs ScanModel ScanSpec ScanProofs EncodingModel EscapeModel EscapeSpec EscapeProofs TypesModel DatashapeModel DatashapeSpec DatashapeProofs DatashapeRead.
Open Scope Z_scope.

Definition suf (r it : list Z) : Prop := exists a, it = a ++ r.
Definition ssuf (r it : list Z) : Prop := exists c a, it = c :: a ++ r.
Lemma suf_refl s : suf s s.
Proof. exists []. reflexivity. Qed.
Lemma suf_trans a b c : suf a b -> suf b c -> suf a c.
Proof. intros (x & ->) (y & ->). exists (y ++ x). now rewrite app_assoc. Qed.
Lemma ssuf_suf a b : ssuf a b -> suf a b.
Proof. intros (c & x & ->). now exists (c :: x). Qed.
Lemma ssuf_l a b c : ssuf a b -> suf b c -> ssuf a c.
Proof. intros (x & y & ->) (z & ->). destruct z as [|d z]; [exists x, y; auto|]. exists d, (z ++ x :: y). cbn [app]. now rewrite <- app_assoc. Qed.
Lemma ssuf_r a b c : suf a b -> ssuf b c -> ssuf a c.
Proof. intros (x & ->) (y & z & ->). exists y, (z ++ x). now rewrite <- app_assoc. Qed.
Lemma ssuf_len a b : ssuf a b -> (List.length a < List.length b)%nat.
Proof. intros (c & x & ->). cbn. rewrite app_length. lia. Qed.
Lemma suf_len a b : suf a b -> (List.length a <= List.length b)%nat.
Proof. intros (x & ->). rewrite app_length. lia. Qed.
Lemma suf_app a b : suf b (a ++ b).
Proof. now exists a. Qed.
Lemma ssuf_app a b : a <> [] -> ssuf b (a ++ b).
Proof. destruct a as [|c a]; [congruence|]. intros _. now exists c, a. Qed.
Lemma skipped_suf s r : skipped s r -> suf r s.
Proof.
  induction 1 as [r N|c s r C S IH|b s r B S IH|b B].
  - apply suf_refl.
  - apply (suf_trans _ _ _ IH). now exists [c].
  - apply (suf_trans _ _ _ IH). exists (35 :: b ++ [10]). cbn [app]. now rewrite <- app_assoc.
  - exists (35 :: b). now rewrite app_nil_r.
Qed.
Lemma strip_suf s : suf (strip s) s.
Proof. apply skipped_suf, strip_skipped. Qed.
Lemma tok_ssuf it t r : t <> [] -> starts_with t (strip it) = Some r -> ssuf r it.
Proof. intros N E. apply starts_with_iff in E. apply (ssuf_l _ (strip it)); [rewrite E; now apply ssuf_app|apply strip_suf]. Qed.

(** No run of digits of value 2^31 or more. *)
Definition small (it : list Z) : Prop := forall a ds b, it = a ++ ds ++ b -> Forall digit_c ds -> dec_value ds < 2 ^ 31.
Lemma small_suf r it : suf r it -> small it -> small r.
Proof. intros (x & ->) S a ds b E F. apply (S (x ++ a) ds b); auto. rewrite E. now rewrite <- app_assoc. Qed.

Definition fine {A} (it : list Z) (P : A -> Prop) (o : outcome A) : Prop :=
  match o with Ok x => P x | Throw _ => True | UB => ~ small it | NoFuel => False end.
Lemma fine_bind {A B} it (P : A -> Prop) (Q : B -> Prop) o f : fine it P o -> (forall x, P x -> fine it Q (f x)) -> fine it Q (bind o f).
Proof. intros F G. destruct o; cbn in *; auto. Qed.
Lemma fine_weak {A} it it' (P Q : A -> Prop) o : fine it P o -> suf it it' -> (forall x, P x -> Q x) -> fine it' Q o.
Proof. intros F S G. destruct o; cbn in *; auto. intros X. apply F. now apply (small_suf it it'). Qed.
Definition after {A} (it : list Z) (x : option (A * list Z)) : Prop := match x with Some (_, r) => ssuf r it | None => True end.
Definition after' {A} (it : list Z) (x : A * list Z) : Prop := ssuf (snd x) it.

Lemma fine_skip {A} it0 it (Q : A -> Prop) f : fine it0 Q (f (strip it)) -> fine it0 Q (bind (skip_whitespace_and_pound_comments it) f).
Proof. rewrite skip_strip. auto. Qed.
Lemma fine_tok {A} it0 it s (Q : A -> Prop) f : lit s <> [] -> (forall r, ssuf r it -> fine it0 Q (f (Some r))) -> fine it0 Q (f None) -> fine it0 Q (bind (tok it s) f).
Proof.
  intros N H1 H2. rewrite tok_strip. cbn [bind]. destruct (starts_with (lit s) (strip it)) eqn:E; auto. apply H1. now apply (tok_ssuf it (lit s)).
Qed.
Lemma fine_require {A} it0 it s (Q : A -> Prop) f : lit s <> [] -> (forall r, ssuf r it -> fine it0 Q (f r)) -> fine it0 Q (bind (require it s) f).
Proof. intros N H. unfold require. rewrite tok_strip. cbn [bind]. destruct (starts_with (lit s) (strip it)) eqn:E; cbn; auto. apply H. now apply (tok_ssuf it (lit s)). Qed.
Lemma fine_name {A} it0 it (Q : A -> Prop) f : (forall n r, ssuf r it -> fine it0 Q (f (Some (n, r)))) -> fine it0 Q (f None) -> fine it0 Q (bind (parse_name_no_ws it) f).
Proof.
  intros H1 H2. destruct (parse_name_no_ws it) as [[(n, r)|]|e| |] eqn:E; cbn [bind]; auto.
  - apply parse_name_iff in E as (-> & N & _). apply H1. apply ssuf_app. destruct N as (c & t & -> & _). discriminate.
  - exact I.
  - unfold parse_name_no_ws in E. destruct it as [|c it]; [discriminate|]. cbn in E. destruct (name_start c); [|discriminate]. destruct (span name_char it); discriminate.
  - unfold parse_name_no_ws in E. destruct it as [|c it]; [discriminate|]. cbn in E. destruct (name_start c); [|discriminate]. destruct (span name_char it); discriminate.
Qed.
Lemma fine_word {A} it0 it (Q : A -> Prop) f : (forall n r, it = n ++ r -> word n -> ssuf r it -> fine it0 Q (f (Some (n, r)))) -> fine it0 Q (f None) -> fine it0 Q (bind (parse_name_or_number it) f).
Proof.
  intros H1 H2. destruct (parse_name_or_number it) as [[(n, r)|]|e| |] eqn:E; cbn [bind]; auto; unfold parse_name_or_number in E.
  - destruct (parse_name_no_ws it) as [[(m, q)|]|e| |] eqn:N; cbn [bind] in E; try discriminate.
    + injection E as -> ->. apply parse_name_iff in N as (-> & N & _). apply H1; auto; [left; auto|]. apply ssuf_app. destruct N as (c & t & -> & _). discriminate.
    + apply uint_iff in E as (-> & U & _). apply H1; auto; [right; auto|]. apply ssuf_app. now apply uint_digits.
  - exact I.
  - exfalso. destruct (parse_name_no_ws it) as [[(m, q)|]|e| |] eqn:N; cbn [bind] in E; try discriminate.
    + destruct (uint_total it) as [(m & q & X)|X]; congruence.
    + unfold parse_name_no_ws in N. destruct it as [|c it]; [discriminate|]. cbn in N. destruct (name_start c); [|discriminate]. destruct (span name_char it); discriminate.
  - exfalso. destruct (parse_name_no_ws it) as [[(m, q)|]|e| |] eqn:N; cbn [bind] in E; try discriminate.
    + destruct (uint_total it) as [(m & q & X)|X]; congruence.
    + unfold parse_name_no_ws in N. destruct it as [|c it]; [discriminate|]. cbn in N. destruct (name_start c); [|discriminate]. destruct (span name_char it); discriminate.
Qed.
Lemma fine_parse_s it W s (P : Z -> Prop) : (forall v, P v) -> fine it P (parse_s W s).
Proof.
  intros H. unfold parse_s. destruct (strip_minus s) as [neg s']. destruct (parse_u_total W s') as [(v & ->)|(e & ->)]; cbn [bind fine]; auto. repeat match goal with |- fine _ _ (if ?c then _ else _) => destruct c end; cbn [fine]; auto.
Qed.
Lemma fine_quoted {A} it0 it (Q : A -> Prop) f : (forall n r, ssuf r it -> fine it0 Q (f (Some (n, r)))) -> fine it0 Q (f None) -> fine it0 Q (bind (ds_parse_quoted_string it) f).
Proof.
  intros H1 H2. pose proof (ds_quoted_safe it) as S. destruct (ds_parse_quoted_string it) as [[(n, r)|]|e| |] eqn:E; cbn in *; auto; try contradiction.
  apply H1. apply ds_quoted_iff in E as (q & body & _ & S' & _). apply skipped_suf in S'. apply (ssuf_l _ (q :: body ++ q :: r)); auto.
  exists q, (body ++ [q]). now rewrite <- app_assoc.
Qed.
Lemma fine_need {A} it0 it p (Q : A -> Prop) f : fine it0 (@after dt it) (p it) -> (forall t r, ssuf r it -> fine it0 Q (f (t, r))) -> fine it0 Q (bind (need p it) f).
Proof. intros H G. unfold need. destruct (p it) as [[(t, r)|]|e| |]; cbn in *; auto. Qed.

Section Total.
Variable p : parser.
Variable n : nat.
Hypothesis IH : forall it, (List.length it < n)%nat -> fine it (@after dt it) (p it).
Lemma IHs it0 it : suf it it0 -> (List.length it < n)%nat -> fine it0 (@after dt it) (p it).
Proof. intros S L. apply (fine_weak it it0 (after it)); auto. Qed.

Ltac suffix := repeat match goal with
  | |- ssuf ?a ?a => fail 1
  | |- suf ?a ?a => apply suf_refl
  | H : ssuf ?a ?b |- ssuf ?a ?b => exact H
  | H : ssuf ?a ?b |- suf ?a ?b => exact (ssuf_suf _ _ H)
  | H : suf ?a ?b |- suf ?a ?b => exact H
  | |- suf (strip ?a) ?b => apply (suf_trans _ a); [apply strip_suf|]
  | H : ssuf ?a (strip ?b) |- _ => apply (fun X => ssuf_l _ _ _ X (strip_suf b)) in H
  | H : ssuf ?a ?b |- ssuf ?a ?c => apply (ssuf_l _ b); [exact H|]
  | H : ssuf ?a ?b |- suf ?a ?c => apply (suf_trans _ b); [exact (ssuf_suf _ _ H)|]
  end.
Ltac lengths := repeat match goal with
  | H : ssuf (strip ?a) _ |- _ => fail 1
  | H : ssuf ?a ?b |- _ => apply ssuf_len in H
  | H : suf ?a ?b |- _ => apply suf_len in H
  end; try match goal with |- context [List.length (strip ?a)] => pose proof (suf_len _ _ (strip_suf a)) end; lia.
Ltac stepf := match goal with
  | |- fine _ _ (bind (skip_whitespace_and_pound_comments _) _) => apply fine_skip
  | |- fine _ _ (bind (tok _ _) _) => apply fine_tok; [discriminate|intros ? ?|]
  | |- fine _ _ (bind (require _ _) _) => apply fine_require; [discriminate|intros ? ?]
  | |- fine _ _ (bind (parse_name_no_ws _) _) => apply fine_name; [intros ? ? ?|]
  | |- fine _ _ (bind (ds_parse_quoted_string _) _) => apply fine_quoted; [intros ? ? ?|]
  | |- fine _ _ (bind (need p _) _) => apply fine_need; [apply IHs; [suffix|lengths]|intros ? ? ?]
  | |- fine _ _ (bind (Ok _) _) => cbn [bind]
  | |- fine _ _ perror => exact I
  | |- fine _ _ (Throw _) => exact I
  | |- fine _ _ (Ok None) => exact I
  | |- fine _ _ (Ok _) => cbn [fine after after' snd]
  end.
Lemma complex_fine it0 it : suf it it0 -> (List.length it <= n)%nat -> fine it0 (fun x => suf (snd x) it) (parse_complex_parameters p it).
Proof.
  intros S L. unfold parse_complex_parameters. repeat stepf.
  - assert (X : fine it0 (fun x : dt * list Z => suf (snd x) it) (Ok (DBuiltin complex_float32, r1))) by (cbn; suffix).
    destruct t as [[]| | | | | | | | | | | | | | | | | | | | | | |]; try exact I; exact X.
  - cbn. suffix.
Qed.
Lemma number_fine {A} it0 it (Q : A -> Prop) f : suf it it0 -> (forall ds r, ssuf r it -> Forall digit_c ds -> (exists a, it0 = a ++ ds ++ r) -> fine it0 Q (f (ds, r))) -> (f ([], it) = f ([], it) -> fine it0 Q (f ([], it))) -> fine it0 Q (bind (ds_parse_number it) f).
Proof.
  intros S H1 H2. destruct (ds_number_spec it) as (s1 & Sk & [(m & r & E & -> & U & N)|(E & _)]); rewrite E; cbn [bind]; auto.
  destruct (uint_digits m U) as (D & Nn). apply skipped_suf in Sk. apply H1; auto.
  - apply (ssuf_l _ (m ++ r)); auto. now apply ssuf_app.
  - destruct (suf_trans _ _ _ Sk S) as (a & ->). now exists a.
Qed.
Lemma number_arg_fine {A} it0 it (Q : A -> Prop) f : suf it it0 -> (forall ds r, ssuf r it -> Forall digit_c ds -> (exists a, it0 = a ++ ds ++ r) -> fine it0 Q (f (ds, r))) -> fine it0 Q (bind (parse_number_arg it) f).
Proof.
  intros S H. unfold parse_number_arg. destruct (ds_number_spec it) as (s1 & Sk & [(m & r & E & -> & U & N)|(E & _)]); rewrite E; cbn [bind at_end]; [|exact I].
  destruct (uint_digits m U) as (D & Nn). apply skipped_suf in Sk. destruct m as [|c m]; [congruence|]. cbn [at_end bind]. apply H; auto.
  - apply (ssuf_l _ ((c :: m) ++ r)); auto. now apply ssuf_app.
  - destruct (suf_trans _ _ _ Sk S) as (a & ->). now exists a.
Qed.
Lemma atoi_fine {A} it0 ds (Q : A -> Prop) f : Forall digit_c ds -> (exists a r, it0 = a ++ ds ++ r) -> (forall v, fine it0 Q (f v)) -> fine it0 Q (bind (atoi ds) f).
Proof.
  intros D (a & r & E) H. unfold atoi. change (digits_value ds) with (dec_value ds). destruct (Z.ltb_spec (dec_value ds) (2 ^ 31)); cbn [bind]; auto. cbn [fine]. intros X. specialize (X a ds r E D). lia.
Qed.
Lemma atoll_fine {A} it0 ds (Q : A -> Prop) f : Forall digit_c ds -> (exists a r, it0 = a ++ ds ++ r) -> (forall v, fine it0 Q (f v)) -> fine it0 Q (bind (atoll ds) f).
Proof.
  intros D (a & r & E) H. unfold atoll. change (digits_value ds) with (dec_value ds). destruct (Z.ltb_spec (dec_value ds) (2 ^ 63)); cbn [bind]; auto. cbn [fine]. intros X. specialize (X a ds r E D).
  apply Z.lt_trans with (m := 2 ^ 31) (p := 2 ^ 63) in X; [lia|reflexivity].
Qed.
Lemma encoding_fine {A} it0 it (Q : A -> Prop) f : (forall e r, ssuf r it -> fine it0 Q (f (e, r))) -> fine it0 Q (bind (parse_encoding it) f).
Proof.
  intros H. unfold parse_encoding. pose proof (ds_quoted_safe it) as S. destruct (ds_parse_quoted_string it) as [[(m, r)|]|e| |] eqn:E; cbn [bind]; try contradiction; try exact I.
  assert (X : ssuf r it).
  { apply ds_quoted_iff in E as (q & body & _ & S' & _). apply skipped_suf in S'. apply (ssuf_l _ (q :: body ++ q :: r)); auto. exists q, (body ++ [q]). now rewrite <- app_assoc. }
  unfold string_to_encoding. repeat (match goal with |- context [if ?c then _ else _] => destruct c end; [cbn [bind]; apply H; exact X|]). exact I.
Qed.
Lemma make_fine {A} it0 (Q : A -> Prop) o f : (exists t : dt, o = Ok t) \/ (exists e, o = Throw e) -> (forall t, fine it0 Q (f t)) -> fine it0 Q (bind o f).
Proof. intros [(t & ->)|(e & ->)] H; cbn [bind]; auto. exact I. Qed.
Ltac made := try unfold make_bytes; try unfold make_fixed_bytes; try unfold make_char; try unfold make_option; try unfold make_ellipsis; try unfold checked_name;
  repeat match goal with |- context [match ?c with _ => _ end] => destruct c end; eauto.
Ltac stepn := first [stepf
  | match goal with
    | |- fine _ _ (bind (parse_number_arg _) _) => apply number_arg_fine; [suffix|intros ? ? ? ? (? & ?)]
    | |- fine _ _ (bind (atoi _) _) => apply atoi_fine; [assumption|eauto|intros ?]
    | |- fine _ _ (bind (atoll _) _) => apply atoll_fine; [assumption|eauto|intros ?]
    | |- fine _ _ (bind (parse_encoding _) _) => apply encoding_fine; intros ? ? ?
    | |- fine _ _ (bind (make_bytes _) _) => apply make_fine; [made|intros ?]
    | |- fine _ _ (bind (make_fixed_bytes _ _) _) => apply make_fine; [made|intros ?]
    | |- fine _ _ (bind (make_char _) _) => apply make_fine; [made|intros ?]
    | |- fine _ _ (bind (make_option _) _) => apply make_fine; [made|intros ?]
    | |- fine _ _ (bind (make_ellipsis _ _) _) => apply make_fine; [made|intros ?]
    | |- fine _ _ (bind (checked_name _ _) _) => apply make_fine; [made|intros ?]
    end].
Lemma args_fine a it0 it : suf it it0 -> (List.length it <= n)%nat -> fine it0 (fun x => suf (snd x) it) (parse_type_args p a it).
Proof.
  intros S L. destruct a; cbn [parse_type_args]; repeat stepn; cbn [snd]; try (suffix; fail).
  apply number_fine; [suffix|intros ds r' ? D (a & E)|intros _].
  - apply (fine_bind it0 (fun x : dt * list Z => ssuf (snd x) it)).
    + destruct (at_end ds); repeat stepn; cbn [snd]; try (suffix; fail). destruct (_ =? 0); repeat stepn; cbn [snd]; suffix.
    + intros (t, r1) Sx. cbn [snd] in Sx. repeat stepn. cbn [snd]. suffix.
  - cbn [at_end]. apply (fine_bind it0 (fun x : dt * list Z => ssuf (snd x) it)).
    + repeat stepn. cbn [snd]. suffix.
    + intros (t, r1) Sx. cbn [snd] in Sx. repeat stepn. cbn [snd]. suffix.
Qed.

(** * Lists *)
Lemma items_fine item close it0 : lit close <> [] -> (forall it, suf it it0 -> (List.length it <= n)%nat -> fine it0 (@after (list Z * dt) it) (item it)) ->
  forall fuel acc it, suf it it0 -> (List.length it <= n)%nat -> (List.length it < fuel)%nat -> fine it0 (fun x => ssuf (snd x) it) (items_loop item close fuel acc it).
Proof.
  intros C HI. induction fuel as [|fuel IHf]; intros acc it S L F; [lia|]. cbn [items_loop]. apply fine_tok; [discriminate|intros r Sr|].
  { apply fine_require; auto. intros r1 S1. cbn. suffix. }
  apply fine_skip. apply (fine_bind it0 (after (strip it))). { apply HI; [suffix|]. pose proof (suf_len _ _ (strip_suf it)). lia. }
  intros [(nt, r)|] Ar; [|exact I]. cbn [after] in Ar. suffix. apply fine_tok; [discriminate|intros r1 S1|].
  - apply fine_tok; auto; [intros r2 S2; cbn; suffix|]. apply (fine_weak it0 it0 (fun x => ssuf (snd x) r1)); [|apply suf_refl|intros x X; suffix].
    apply IHf; [suffix| |]; lengths.
  - apply fine_require; auto. intros r1 S1. cbn. suffix.
Qed.
Lemma bare_fine it0 it : suf it it0 -> (List.length it <= n)%nat -> fine it0 (after it) (parse_struct_item_bare p it).
Proof. intros S L. unfold parse_struct_item_bare. repeat (stepf; suffix). Qed.
Lemma general_fine it0 it : suf it it0 -> (List.length it <= n)%nat -> fine it0 (after it) (parse_struct_item_general p it).
Proof.
  intros S L. unfold parse_struct_item_general. apply fine_skip.
  assert (X : forall (m : list Z) r, ssuf r it -> fine it0 (@after (list Z * dt) it) (do it <- require r ":"; do (t, it) <- need p it; Ok (Some ((m, t), it)))).
  { intros m r Sr. repeat (stepf; suffix). }
  apply fine_name; [intros m r Sr; cbn [bind]; apply X; suffix|]. apply fine_quoted; [intros m r Sr; apply X; suffix|exact I].
Qed.
Lemma struct_fine it0 it : suf it it0 -> (List.length it <= n)%nat -> fine it0 (after it) (parse_struct p it).
Proof.
  intros S L. unfold parse_struct. stepf; [|exact I]. stepf; [cbn; suffix|].
  apply (fine_bind it0 (fun x => ssuf (snd x) r)).
  - apply items_fine; [discriminate| |suffix|lengths|lia]. intros it' S' L'. now apply general_fine.
  - intros ((l, v), r1) S1. cbn in *. suffix.
Qed.
Lemma ahead_fine it0 it : fine it0 (fun x => suf (snd (fst x)) it) (keywords_ahead it).
Proof.
  unfold keywords_ahead. apply fine_tok; [discriminate|intros r S|].
  - apply (fine_bind it0 (fun x : bool * list Z * list Z => suf (snd (fst x)) it)).
    + apply fine_tok; [discriminate|intros r1 S1|]; cbn; suffix.
    + intros ((v, kb), b) X. cbn [fst snd] in X. apply fine_skip. apply fine_name; [intros m q Sq|exact X]. apply fine_tok; [discriminate|intros r1 S1|]; exact X.
  - cbn [bind]. apply fine_skip. apply fine_name; [intros m q Sq|cbn; suffix]. apply fine_tok; [discriminate|intros r1 S1|]; cbn; suffix.
Qed.
Definition ended (it : list Z) (x : tuple_end) : Prop := match x with TEnd _ _ r => ssuf r it | TResult _ r => ssuf r it end.
Lemma tuple_fine it0 : forall fuel acc v it, suf it it0 -> (List.length it < n)%nat -> (List.length it < fuel)%nat -> fine it0 (ended it) (tuple_loop p fuel acc v it).
Proof.
  induction fuel as [|fuel IHf]; intros acc v it S L F; [lia|]. cbn [tuple_loop]. apply (fine_bind it0 (fun x => suf (snd (fst x)) it)); [apply ahead_fine|].
  intros ((v', kb), kw) X. cbn [fst snd] in X. destruct kw.
  - apply (fine_bind it0 (fun x => ssuf (snd x) kb)).
    + apply items_fine; [discriminate| |apply (suf_trans _ it); auto| |lia]. { intros it' S' L'. now apply bare_fine. } apply suf_len in X. lia.
    + intros ((kwds, kv), r) Sr. cbn [snd] in Sr. assert (Sr' : ssuf r it) by (apply (ssuf_l _ kb); auto). clear Sr. repeat (stepf; suffix); cbn; suffix.
  - assert (G : fine it0 (ended it) (do (t, it1) <- need p it; do c <- tok it1 ","; match c with
        | Some it2 => do e <- tok it2 ")"; match e with Some it3 => Ok (TEnd (rev (t :: acc)) (v || v') it3) | None => tuple_loop p fuel (t :: acc) (v || v') it2 end
        | None => do it2 <- require it1 ")"; Ok (TEnd (rev (t :: acc)) (v || v') it2) end)).
    { stepf. stepf; [stepf|stepf]; cbn; suffix; try (stepf; cbn; suffix).
      apply (fine_weak it0 it0 (ended r0)); [|apply suf_refl|intros []; cbn; intros; suffix]. apply IHf; [suffix| |]; lengths. }
    apply fine_tok; [discriminate|intros r Sr|exact G]. apply fine_tok; [discriminate|intros r1 S1|exact G]. cbn. suffix.
Qed.
Lemma funcproto_fine it0 it : suf it it0 -> (List.length it <= n)%nat -> fine it0 (after it) (parse_tuple_or_funcproto p it).
Proof.
  intros S L. unfold parse_tuple_or_funcproto. stepf; [|exact I].
  assert (K : forall x, ended r x -> fine it0 (after it) (match x with
      | TResult t it => Ok (Some (t, it))
      | TEnd l v it => do a <- tok it "->"; match a with None => Ok (Some (DTuple l v, it)) | Some it => do (r, it) <- need p it; Ok (Some (DCallable r l v [] v, it)) end end)).
  { intros [l v r1|t r1] E; cbn [ended] in E; [|cbn; suffix]. repeat (stepf; suffix); cbn; suffix. }
  stepf; [cbn [bind]; apply (K (TEnd [] false _)); cbn [ended]; assumption|]. apply (fine_bind it0 (ended r)); [|exact K]. apply tuple_fine; [suffix| |]; lengths.
Qed.

(** * Names and dimensions *)
Definition after_o (it : list Z) (x : option dt * list Z) : Prop := suf (snd x) it.
Lemma pow_base_fine {A} it0 m (Q : A -> Prop) f : (forall d, fine it0 Q (f d)) -> fine it0 Q (bind (pow_base m) f).
Proof.
  intros H. unfold pow_base. destruct (head_is is_dig m).
  - assert (X := fine_parse_s it0 64 m (fun _ => True) (fun _ => I)). destruct (parse_s 64 m); cbn in *; auto.
  - repeat match goal with |- context [if ?c then _ else _] => destruct c end; cbn; auto.
Qed.
Lemma parse_s_bind {A} it0 m (Q : A -> Prop) f : (forall v, fine it0 Q (f v)) -> fine it0 Q (bind (parse_s 64 m) f).
Proof. intros H. assert (X := fine_parse_s it0 64 m (fun _ => True) (fun _ => I)). destruct (parse_s 64 m); cbn in *; auto. Qed.
Lemma fine_p {A} it0 it (Q : A -> Prop) f : suf it it0 -> (List.length it < n)%nat -> (forall x, after it x -> fine it0 Q (f x)) -> fine it0 Q (bind (p it) f).
Proof. intros S L H. apply (fine_bind it0 (after it)); auto. now apply IHs. Qed.
Ltac stepp := first [stepn | match goal with
  | |- fine _ _ (bind (parse_s 64 _) _) => apply parse_s_bind; intros ?
  | |- fine _ _ (bind (pow_base _) _) => apply pow_base_fine; intros ?
  | |- fine _ _ (bind (p _) _) => apply fine_p; [suffix|lengths|intros [(? & ?)|] ?]; cbn [after] in *
  end].
Lemma pow_fine it0 m it : suf it it0 -> (List.length it <= n)%nat -> fine it0 (after_o it) (parse_pow p m it).
Proof.
  intros S L. unfold parse_pow. apply fine_word; [intros x r _ W Sr|exact I]. destruct (head_is (between 49 57) x).
  - repeat stepp; unfold after_o; cbn [snd fine]; suffix.
  - destruct (head_is is_upper x); [|exact I]. repeat stepp; unfold after_o; cbn [snd fine]; suffix.
Qed.
Lemma lookup_dims m en d it0 e (Q : dt -> Prop) : lookup_id_by_name m = Some en -> dim_of en = Some d -> (forall t, Q t) -> fine it0 Q (d e).
Proof.
  unfold lookup_id_by_name. intros A D H. assert (F : Forall (fun kv => match dim_of (snd kv) with Some d => forall e, fine it0 Q (d e) | None => True end) registry).
  { unfold registry. repeat (apply Forall_cons; [cbn [snd dim_of named nothing]; try exact I; intros e'; cbn; auto|]). constructor. }
  revert A F. generalize registry as l. induction l as [|(k, v) l IHl]; cbn [assoc]; intros A F; [discriminate|]. inversion F as [|? ? X F']; subst. destruct (list_eqb (lit k) m).
  - injection A as ->. cbn [snd] in X. rewrite D in X. apply X.
  - auto.
Qed.
Lemma dim_fine it0 m it : suf it it0 -> (List.length it < n)%nat -> fine it0 (after_o it) (parse_dim p m it).
Proof.
  intros S L. unfold parse_dim. stepf. destruct (head_is is_dig m).
  - stepp. unfold after_o. cbn. suffix.
  - destruct (lookup_id_by_name m) as [en|] eqn:E.
    + destruct (dim_of en) as [d|] eqn:D; [|exact I]. apply (fine_bind it0 (fun _ => True)); [exact (lookup_dims m en d it0 t _ E D (fun _ => I))|]. intros t' _. unfold after_o. cbn. suffix.
    + destruct (head_is is_upper m); [|exact I]. repeat stepp. unfold after_o. cbn. suffix.
Qed.
Lemma dtype_fine it0 m it : suf it it0 -> (List.length it <= n)%nat -> fine it0 (after_o it) (parse_dtype p m it).
Proof.
  intros S L. unfold parse_dtype. destruct (compare_range_to_literal m (lit "complex")).
  { apply (fine_bind it0 (fun x => suf (snd x) it)); [now apply complex_fine|]. intros (t, r) X. exact X. }
  destruct (compare_range_to_literal m (lit "State")); [unfold after_o; cbn; suffix|]. destruct (assoc builtin_types m); [unfold after_o; cbn; suffix|]. destruct (lookup_id_by_name m) as [en|].
  - stepf.
    + destruct (args en) as [a|]; [|exact I]. apply (fine_bind it0 (fun x => suf (snd x) it)); [now apply args_fine|]. intros (t, r') X. exact X.
    + destruct (singleton en); [unfold after_o; cbn; suffix|exact I].
  - destruct (head_is is_upper m); [|exact I]. stepf; repeat stepp; unfold after_o; cbn; suffix.
Qed.
Lemma named_fine it0 m it : suf it it0 -> (List.length it <= n)%nat -> fine it0 (after_o it) (parse_named p m it).
Proof.
  intros S L. unfold parse_named. stepf.
  { apply (fine_weak it0 it0 (after_o r)); [apply pow_fine; [suffix|lengths]|apply suf_refl|]. intros x X. unfold after_o in *. apply (suf_trans _ r); auto. suffix. }
  stepf.
  { apply (fine_weak it0 it0 (after_o r)); [apply dim_fine; [suffix|lengths]|apply suf_refl|]. intros x X. unfold after_o in *. apply (suf_trans _ r); auto. suffix. }
  stepf.
  { repeat stepp. unfold after_o. cbn. suffix. }
  now apply dtype_fine.
Qed.
Lemma nooption_fine it0 it : suf it it0 -> (List.length it <= n)%nat -> fine it0 (after it) (parse_datashape_nooption p it).
Proof.
  intros S L. unfold parse_datashape_nooption. apply fine_skip. pose proof (suf_len _ _ (strip_suf it)) as Ls.
  assert (Tail : forall r, suf r it -> fine it0 (@after dt it) (do s <- parse_struct p r; match s with Some x => Ok (Some x) | None => parse_tuple_or_funcproto p r end)).
  { intros r Sr. pose proof (suf_len _ _ Sr) as Lr. apply (fine_bind it0 (@after dt r)); [apply struct_fine; [now apply (suf_trans _ it)|lia]|].
    intros [(t, r1)|] X; [cbn in *; now apply (ssuf_l _ r)|]. apply (fine_weak it0 it0 (after r)); [apply funcproto_fine; [now apply (suf_trans _ it)|lia]|apply suf_refl|].
    intros [(t, r1)|] Y; [cbn in *; now apply (ssuf_l _ r)|exact I]. }
  apply fine_word.
  - intros m r E W Sr. suffix. apply (fine_bind it0 (after_o r)); [apply named_fine; [suffix|lengths]|]. intros ([t|], r1) X; unfold after_o in X; cbn [snd] in X.
    + cbn. apply (ssuf_r _ r); auto.
    + apply Tail. apply (suf_trans _ r); auto. now apply ssuf_suf.
  - rewrite token_no_ws_eq. destruct (starts_with (lit "...") (strip it)) as [r|] eqn:E.
    + assert (Sr : ssuf r it) by (apply (tok_ssuf it (lit "...")); [discriminate|auto]).
      apply (fine_bind it0 (fun x : option dt * list Z => fst x <> None /\ ssuf (snd x) it)); [repeat stepp; cbn; split; [discriminate|suffix]|].
      intros ([t|], r1) (X & Y); cbn in *; [exact Y|congruence].
    + cbn [bind]. apply Tail. apply strip_suf.
Qed.
Lemma step_fine it : (List.length it <= n)%nat -> fine it (after it) (parse_step p it).
Proof.
  intros L. unfold parse_step. apply fine_skip. rewrite token_no_ws_eq. destruct (starts_with (lit "?") (strip it)) as [r|] eqn:E; [|apply nooption_fine; auto using suf_refl].
  assert (Sr : ssuf r it) by (apply (tok_ssuf it (lit "?")); [discriminate|auto]). apply (fine_bind it (@after dt r)); [apply nooption_fine; [suffix|lengths]|].
  intros [(t, r1)|] X; [|exact I]. cbn [after] in X. repeat stepp. cbn. suffix.
Qed.
End Total.
Theorem parse_fine : forall fuel it, (List.length it < fuel)%nat -> fine it (@after dt it) (parse fuel it).
Proof.
  induction fuel as [|f IH]; intros it L; [lia|]. cbn [parse]. apply (step_fine (parse f) f IH). lia.
Qed.
Lemma ds_parse_fine it0 it : suf it it0 -> fine it0 (@after dt it) (ds_parse it).
Proof. intros S. apply (fine_weak it it0 (after it)); auto. unfold ds_parse. apply parse_fine. lia. Qed.
Definition after_stmt (it : list Z) (x : option (dt * list (list Z) * list Z)) : Prop := match x with Some (_, _, r) => ssuf r it | None => True end.
Lemma required_suf s r : skip_required_whitespace s = Some r -> ssuf r s.
Proof. intros H. apply skip_required_iff in H as (w & N & -> & _). now apply ssuf_app. Qed.
Lemma stmt_fine it0 st it : suf it it0 -> fine it0 (after_stmt it) (parse_stmt st it).
Proof.
  intros S. unfold parse_stmt. apply fine_tok; [discriminate|intros r Sr|].
  - destruct (skip_required_whitespace r) as [r1|] eqn:R; [|destruct (at_end r); cbn; auto]. apply required_suf in R.
    assert (S1 : ssuf r1 it) by (apply (ssuf_l _ r); auto; now apply ssuf_suf). apply fine_name.
    + intros m r2 S2. apply fine_require; [discriminate|intros r3 S3].
      assert (S3' : ssuf r3 it) by (apply (ssuf_l _ r2); auto; apply ssuf_suf; apply (ssuf_l _ r1); auto; now apply ssuf_suf).
      apply fine_need; [apply ds_parse_fine; apply (suf_trans _ it); auto; now apply ssuf_suf|]. intros t r4 S4.
      destruct (lookup_id_by_name m); [exact I|]. destruct (mem_name m st); [exact I|]. cbn. apply (ssuf_l _ r3); auto. now apply ssuf_suf.
    + apply fine_skip. destruct (at_end (strip r1)) eqn:E; [|exact I]. cbn. apply (ssuf_r _ r1); auto. apply strip_suf.
  - apply (fine_bind it0 (@after dt it)); [now apply ds_parse_fine|]. intros [(t, r)|] X; [exact X|exact I].
Qed.
Lemma stmts_fine it0 : forall fuel st t it, suf it it0 -> (List.length it < fuel)%nat -> fine it0 (fun _ => True) (stmts fuel st t it).
Proof.
  induction fuel as [|f IH]; intros st t it S L; [lia|]. cbn [stmts]. apply (fine_bind it0 (after_stmt it)); [now apply stmt_fine|].
  intros [((u, st'), r)|] X; cbn [after_stmt] in X.
  - apply IH; [apply (suf_trans _ it); auto; now apply ssuf_suf|]. apply ssuf_len in X. lia.
  - apply fine_skip. destruct (at_end (strip it)); exact I.
Qed.
Theorem type_fine s : fine s (fun _ => True) (type_from_datashape s).
Proof.
  unfold type_from_datashape, parse_top. apply (fine_bind s (after_stmt s)); [apply stmt_fine, suf_refl|]. intros [((t, st), r)|] X; [|exact I].
  cbn [after_stmt] in X. apply stmts_fine; [now apply ssuf_suf|lia].
Qed.
