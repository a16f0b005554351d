(** C90-C93: types as text. *)
From Verif Require Import Base ParseIntModel ScanModel ScanSpec ScanProofs EncodingModel EncodingSpec EscapeModel EscapeSpec TypesModel DatashapeModel DatashapeSpec DatashapeProofs DatashapeRead DatashapePrint DatashapeTotal DatashapeAlias DatashapeSound.
Open Scope Z_scope.

(** * C90: types are read from their spellings, and printed so that they are read back *)
(** Every spelling, with any gaps around its tokens, is read as the type it spells,
    and exactly that text is consumed. *)
Theorem C90_reads : forall t s g rest, spelled t s -> gap g -> ends rest -> ds_parse (g ++ s ++ rest) = Ok (Some (t, rest)).
Proof. intros t s g rest H G E. unfold ds_parse. apply parse_read; auto. rewrite !app_length. lia. Qed.
Print Assumptions C90_reads.
Theorem C90_type : forall t s g g', spelled t s -> gap g -> skipped g' [] -> (t = DType -> ~ next_is (eq 35) g') -> type_from_datashape (g ++ s ++ g') = Ok t.
Proof. exact type_read. Qed.
Print Assumptions C90_type.
(** No text spells two types. *)
Theorem C90_unambiguous : forall t t' s, spelled t s -> spelled t' s -> t = t'.
Proof.
  intros t t' s H H'. assert (E : ends []) by (apply ends_nothing, sk_stop, not_next_nil).
  pose proof (C90_reads t s [] [] H gap_nil E) as A. pose proof (C90_reads t' s [] [] H' gap_nil E) as B. rewrite A in B. now injection B.
Qed.
Print Assumptions C90_unambiguous.
(** What is printed for a printable type is a spelling of it, and so is read back. *)
Theorem C90_print_spelled_partial : forall t, printable t -> exists s, print_type t = Ok s /\ spelled t s.
Proof. exact print_spelled. Qed.
Print Assumptions C90_print_spelled_partial.
Theorem C90_round_trip_partial : forall t, printable t -> exists s, print_type t = Ok s /\ type_from_datashape s = Ok t.
Proof.
  intros t H. destruct (print_spelled t H) as (s & P & S). exists s. split; auto.
  pose proof (type_read t s [] [] S gap_nil (sk_stop [] (not_next_nil _)) (fun _ => not_next_nil _)) as X. now rewrite app_nil_r in X.
Qed.
Print Assumptions C90_round_trip_partial.
(** Types that can be written down and are printed as something that cannot be read,
    or is read as another type. *)
Theorem C90_round_trip_refuted :
  (forall s, In s ["{...}"; "(...)"; "Fixed**N * int32"; "fixed_string['utf16']"]%string -> exists t p e, type_from_datashape (codes s) = Ok t /\ print_type t = Ok p /\ type_from_datashape p = Throw e) /\
  (exists t p, print_type (DTypevar (codes "Int")) = Ok p /\ type_from_datashape p = Ok t /\ t <> DTypevar (codes "Int")).
Proof.
  split.
  - intros s I. cbn [In] in I. destruct I as [<-|[<-|[<-|[<-|[]]]]].
    + exists (DStruct [] true), (codes "{, ...}"), "internal_parse_error"%string. split; [reflexivity|]. split; reflexivity.
    + exists (DTuple [] true), (codes "(, ...)"), "internal_parse_error"%string. split; [reflexivity|]. split; reflexivity.
    + exists (DPow (DFixedKind (DBuiltin void)) (codes "N") (DBuiltin int32)), (codes "**N * int32"), "internal_parse_error"%string. split; [reflexivity|]. split; reflexivity.
    + exists (DFixedString 0 Utf16), (codes "fixed_string[0, 'utf16']"), "internal_parse_error"%string. split; [reflexivity|]. split; reflexivity.
  - exists (DKind KInt), (codes "Int"). split; [reflexivity|]. split; [reflexivity|discriminate].
Qed.
Print Assumptions C90_round_trip_refuted.
(** Texts that are no spelling and are read all the same: a tuple with named
    members loses them, a power loses its base, a power without element type. *)
Theorem C90_junk_refuted :
  type_from_datashape (codes "(int64, x: int32, ...)") = Ok (DTuple [DBuiltin int64] false) /\
  type_from_datashape (codes "3**N {x: int32}") = Ok (DStruct [(codes "x", DBuiltin int32)] false) /\
  type_from_datashape (codes "3**2 *") = Ok (DFixed 3 (DFixed 3 (DBuiltin uninitialized))) /\
  type_from_datashape (codes "int32 int64") = Ok (DBuiltin int64).
Proof. repeat split; reflexivity. Qed.
Print Assumptions C90_junk_refuted.
(** A non-trivial case: gaps, comments, nested structures, keywords. *)
Example C90_case : exists t, printable t /\ print_type t = Ok (codes "(3 * {x: ?int32, 'a b': N * var * complex[float64]}, ...) -> Dims... * fixed_string[10, 'utf16']") /\
  type_from_datashape (codes "( 3*{x:?int32,'a b' : N*var * complex,}, ... )->Dims...*fixed_string[10,""U16""] # a comment") = Ok t.
Proof.
  exists (DCallable (DEllipsis (codes "Dims") (DFixedString 10 Utf16)) [DFixed 3 (DStruct [(codes "x", DOption (DBuiltin int32)); (codes "a b", DTypevarDim (codes "N") (DVar (DBuiltin complex_float64)))] false)] true [] true).
  split; [|split; vm_compute; reflexivity].
  apply pr_callable; [|constructor; [|constructor]].
  - apply pr_named_dots; [apply capital_valid; reflexivity|]. apply pr_fixed_string. lia.
  - apply pr_fixed; [lia|]. apply pr_struct; [|discriminate]. constructor; [|constructor; [|constructor]]; cbn [fst snd]; (split; [|]).
    + left. apply simple_name. reflexivity.
    + apply pr_option; [|discriminate]. apply pr_builtin. discriminate.
    + right. exists [97; 32; 98]. split; [|repeat constructor; lia]. 
      assert (A : forall c r bs, 0 <= c <= 127 -> text utf8_of r bs -> text utf8_of (c :: r) (c :: bs)).
      { intros c r bs C T. apply (text_cons utf8_of c [c] r bs); auto. apply utf8_1. lia. }
      change (codes "a b") with [97; 32; 98]. repeat (apply A; [lia|]). constructor.
    + apply pr_typevar_dim; [split; [apply capital_valid; reflexivity|]|]. { cbn. intuition discriminate. } apply pr_var, pr_builtin. discriminate.
Qed.

(** * C91: reading any text ends, with a type or an error *)
Theorem C91_ends : forall s, type_from_datashape s <> NoFuel.
Proof. intros s E. pose proof (type_fine s) as F. rewrite E in F. exact F. Qed.
Print Assumptions C91_ends.
Theorem C91_defined_partial : forall s, small_numerals s -> (exists t, type_from_datashape s = Ok t) \/ (exists e, type_from_datashape s = Throw e).
Proof.
  intros s S. pose proof (type_fine s) as F. destruct (type_from_datashape s); cbn in F; eauto; contradiction.
Qed.
Print Assumptions C91_defined_partial.
(** A type read within a text is followed by a proper suffix of the text. *)
Theorem C91_consumes : forall s t r, ds_parse s = Ok (Some (t, r)) -> exists a, a <> [] /\ s = a ++ r.
Proof.
  intros s t r E. pose proof (ds_parse_fine s s (suf_refl s)) as F. rewrite E in F. destruct F as (c & a & ->). exists (c :: a). split; [discriminate|reflexivity].
Qed.
Print Assumptions C91_consumes.
(** What is read satisfies the constraints of the type constructors; ... *)
Theorem C91_proper : forall s t, type_from_datashape s = Ok t -> proper t.
Proof. exact type_proper. Qed.
Print Assumptions C91_proper.
(** ... text after a type that cannot begin another one is refused. *)
Theorem C91_trailing : forall t s g rest c r, spelled t s -> t <> DType -> gap g -> ends rest -> skipped rest (c :: r) -> foreign c ->
  type_from_datashape (g ++ s ++ rest) = Throw "internal_parse_error".
Proof. exact trailing_refused. Qed.
Print Assumptions C91_trailing.
Example C91_trailing_case : spelled (DBuiltin int32) (codes "int32") /\ ends (codes " )") /\ skipped (codes " )") (codes ")") /\ foreign 41.
Proof.
  split; [apply sp_word; unfold words; cbn [In]; tauto|]. assert (S : skipped (codes " )") (codes ")")). { change (skipped [32; 41] [41]). apply sk_space; [unfold space_c; lia|]. apply sk_stop. rewrite next_cons. unfold space_c. lia. }
  split; [|split; [exact S|]].
  - split; [change (codes " )") with [32; 41]; rewrite next_cons; notname|]. exists (codes ")"). split; [exact S|]. change (codes ")") with [41]. rewrite next_cons. cbn. intuition discriminate.
  - split; [notname|]. cbn. intuition discriminate.
Qed.
(** Larger sizes of bytes and strings are converted without a check. *)
Theorem C91_defined_refuted : type_from_datashape (codes "fixed_bytes[2147483648]") = UB /\ type_from_datashape (codes "fixed[9223372036854775808] * int8") = UB.
Proof. split; reflexivity. Qed.
Print Assumptions C91_defined_refuted.
Example C91_case : small_numerals (codes "fixed_bytes[2147483647]") /\ type_from_datashape (codes "fixed_bytes[2147483647]") = Ok (DFixedBytes 2147483647 1) /\
  type_from_datashape (codes "99999999999999999999 * int32") = Throw "out_of_range" /\ type_from_datashape [] = Throw "internal_parse_error".
Proof.
  split; [|repeat split; reflexivity].
  intros a ds b E D.
  assert (L : (List.length a + List.length ds <= 23)%nat). { apply (f_equal (@List.length Z)) in E. rewrite !app_length in E. cbn in E. lia. }
  assert (F : forallb (fun i => forallb (fun n => let d := firstn n (skipn i (codes "fixed_bytes[2147483647]")) in negb (forallb is_dig d) || (dec_value d <? 2 ^ 31)) (seq 0 24)) (seq 0 24) = true) by (vm_compute; reflexivity).
  rewrite forallb_forall in F. specialize (F (List.length a) ltac:(apply in_seq; lia)). rewrite forallb_forall in F. specialize (F (List.length ds) ltac:(apply in_seq; lia)).
  rewrite E in F. rewrite skipn_app, skipn_all, Nat.sub_diag in F. cbn [skipn app] in F. rewrite firstn_app, firstn_all, Nat.sub_diag in F. cbn [firstn] in F. rewrite app_nil_r in F.
  cbn zeta in F. apply orb_true_iff in F as [F|F]; [|lia]. exfalso. rewrite negb_true_iff in F. assert (X : forallb is_dig ds = true); [|congruence].
  rewrite forallb_forall. rewrite Forall_forall in D. intros x X. apply is_dig_iff, D, X.
Qed.

(** * C92: the line and column of an error *)
Lemma to_newline_spec s : match to_newline s with Some (k, r) => exists u, s = u ++ 10 :: r /\ ~ In 10 u /\ List.length u = k | None => ~ In 10 s end.
Proof.
  induction s as [|c s IH]; cbn [to_newline]; [auto|]. destruct (Z.eqb_spec c 10) as [->|N]; [exists []; auto|].
  destruct (to_newline s) as [(k, r)|].
  - destruct IH as (u & -> & I & L). exists (c :: u). split; auto. split; [cbn [In]; intuition congruence|cbn; lia].
  - cbn [In]. intuition congruence.
Qed.
Lemma newlines_app a b : newlines (a ++ b) = newlines a + newlines b.
Proof. unfold newlines. rewrite count_occ_app. lia. Qed.
Lemma newlines_none a : ~ In 10 a -> newlines a = 0.
Proof. intros H. unfold newlines. rewrite (proj1 (count_occ_not_In Z.eq_dec a 10)); auto. Qed.
Lemma line_column_ok : forall f a s pos, (List.length s < f)%nat -> (a = [] \/ exists a', a = a' ++ [10]) -> Z.of_nat (List.length a) <= pos <= Z.of_nat (List.length (a ++ s)) ->
  (s = [] \/ (pos = Z.of_nat (List.length (a ++ s)) /\ exists s', s = s' ++ [10])) /\ line_column f pos (Z.of_nat (List.length a)) (1 + newlines a) s = Ok None \/
  exists line col, line_column f pos (Z.of_nat (List.length a)) (1 + newlines a) s = Ok (Some (line, col)) /\ at_line_column (a ++ s) pos line col.
Proof.
  induction f as [|f IH]; intros a s pos L A P; [lia|]. cbn [line_column]. destruct s as [|c0 s0]; [left; auto|]. set (s := c0 :: s0) in *. pose proof (to_newline_spec s) as T.
  rewrite app_length in P. destruct (to_newline s) as [(k, r)|].
  - destruct T as (u & E & Iu & Lu). destruct (Z.ltb_spec pos (Z.of_nat (List.length a) + Z.of_nat k + 1)) as [B|B].
    + right. eexists _, _. split; [reflexivity|]. set (m := Z.to_nat (pos - Z.of_nat (List.length a))). exists a, (firstn m u), (skipn m u ++ 10 :: r).
      assert (Lm : List.length (firstn m u) = m) by (rewrite firstn_length; unfold m; lia).
      split; [rewrite (app_assoc (firstn m u)), firstn_skipn, E; reflexivity|]. split; [rewrite app_length, Lm; unfold m; lia|]. split; auto. split.
      { intros X. apply Iu. rewrite <- (firstn_skipn m u). apply in_or_app. auto. } split; auto. rewrite Lm. unfold m. lia.
    + assert (E2 : a ++ s = (a ++ u ++ [10]) ++ r) by (rewrite E, <- !app_assoc; reflexivity).
      assert (L2 : Z.of_nat (List.length (a ++ u ++ [10])) = Z.of_nat (List.length a) + Z.of_nat k + 1) by (rewrite !app_length; cbn [List.length]; lia).
      assert (N2 : 1 + newlines (a ++ u ++ [10]) = 1 + newlines a + 1). { rewrite !newlines_app, (newlines_none u) by auto. change (newlines [10]) with 1. lia. }
      rewrite <- L2, <- N2. rewrite E2. destruct (IH (a ++ u ++ [10]) r pos) as [(D & R)|R].
      * rewrite E in L. rewrite app_length in L. cbn [List.length] in L. lia.
      * right. exists (a ++ u). now rewrite <- app_assoc.
      * rewrite L2. split; [lia|]. rewrite <- E2, app_length. lia.
      * left. rewrite R. split; auto. right. destruct D as [->|(D & s' & ->)].
        -- rewrite app_nil_r. assert (X : Z.of_nat (List.length (a ++ s)) = Z.of_nat (List.length (a ++ u ++ [10]))) by (rewrite E2, app_nil_r; reflexivity). rewrite app_length in X. split; [lia|]. exists u. exact E.
        -- split; auto. exists (u ++ 10 :: s'). rewrite E, <- app_assoc. reflexivity.
      * right. exact R.
  - right. eexists _, _. split; [reflexivity|]. set (m := Z.to_nat (pos - Z.of_nat (List.length a))). exists a, (firstn m s), (skipn m s).
    assert (Lm : List.length (firstn m s) = m) by (rewrite firstn_length; unfold m; lia).
    split; [rewrite firstn_skipn; reflexivity|]. split; [rewrite app_length, Lm; unfold m; lia|]. split; auto. split.
    { intros X. apply T. rewrite <- (firstn_skipn m s). apply in_or_app. auto. } split; auto. rewrite Lm. unfold m. lia.
Qed.
(** The line and column reported are those of the position, unless it is the end of
    a text that is empty or ends in a newline. *)
Theorem C92_line_column_partial : forall s pos, 0 <= pos <= Z.of_nat (List.length s) -> pos < Z.of_nat (List.length s) \/ (s <> [] /\ ~ exists s', s = s' ++ [10]) ->
  exists line col, get_error_line_column s pos = Ok (Some (line, col)) /\ at_line_column s pos line col.
Proof.
  intros s pos P H. destruct (line_column_ok (S (List.length s)) [] s pos (Nat.lt_succ_diag_r _) (or_introl eq_refl) P) as [(X & _)|X]; [|exact X].
  exfalso. destruct X as [->|(E & X)]; [destruct H as [H|(H & _)]; [cbn in H; lia|congruence]|]. cbn [app] in E. destruct H as [H|(_ & H)]; [lia|contradiction].
Qed.
Print Assumptions C92_line_column_partial.
(** The position has only one line and column. *)
Theorem C92_unique : forall s pos l c l' c', at_line_column s pos l c -> at_line_column s pos l' c' -> l = l' /\ c = c'.
Proof.
  assert (G : forall s pos l c l' c', at_line_column s pos l c -> at_line_column s pos l' c' -> c <= c' -> l = l' /\ c = c').
  { intros s pos l c l' c' (a & b & r & E & P & A & B & -> & ->) (a' & b' & r' & E' & P' & A' & B' & -> & ->) L.
    assert (X : a ++ b = a' ++ b'). { assert (X1 : firstn (Z.to_nat pos) s = a ++ b) by (rewrite E, app_assoc, P, Nat2Z.id, firstn_app, firstn_all, Nat.sub_diag; cbn [firstn]; now rewrite app_nil_r).
      assert (X2 : firstn (Z.to_nat pos) s = a' ++ b') by (rewrite E', app_assoc, P', Nat2Z.id, firstn_app, firstn_all, Nat.sub_diag; cbn [firstn]; now rewrite app_nil_r). congruence. }
    assert (Lab : (List.length a' <= List.length a)%nat). { pose proof (f_equal (@List.length Z) X) as Y. rewrite !app_length in Y. lia. }
    assert (Y : exists k, a = a' ++ k /\ b' = k ++ b).
    { exists (skipn (List.length a') a). pose proof (f_equal (firstn (List.length a)) X) as X1. rewrite firstn_app, firstn_all, Nat.sub_diag in X1. cbn [firstn] in X1. rewrite app_nil_r in X1.
      rewrite firstn_app, (firstn_all2 a') in X1 by lia. set (j := (List.length a - List.length a')%nat) in X1.
      assert (S1 : skipn (List.length a') a = firstn j b'). { rewrite X1, skipn_app, skipn_all, Nat.sub_diag. reflexivity. }
      split; [rewrite S1; exact X1|]. rewrite S1. apply (app_inv_head a'). rewrite <- X, X1 at 1. now rewrite <- app_assoc. }
    destruct Y as (k & -> & ->). destruct k as [|x k]; [rewrite app_nil_r; auto|]. exfalso. destruct A as [A|(a0 & A)]; [apply app_eq_nil in A as (_ & A); discriminate|].
    assert (I : In 10 (x :: k)). { pose proof (f_equal (@rev Z) A) as R. rewrite rev_app_distr, (rev_app_distr a0) in R. cbn [rev app] in R.
      apply in_rev. cbn [rev]. destruct (rev k ++ [x]) as [|y q] eqn:Q; [destruct (rev k); discriminate|]. cbn [app] in R. injection R as -> _. now left. }
    apply B'. apply in_or_app. auto. }
  intros s pos l c l' c' H H'. destruct (Z.le_ge_cases c c'); [now apply (G s pos)|]. destruct (G s pos l' c' l c) as (-> & ->); auto.
Qed.
Print Assumptions C92_unique.
(** At the end of such a text no position is found, and the error that is raised
    is another one. *)
Theorem C92_line_column_refuted : get_error_line_column [] 0 = Ok None /\ get_error_line_column (codes "3 *" ++ [10]) 4 = Ok None /\
  type_from_datashape [] = Throw "internal_parse_error" /\ type_from_datashape (codes "3 *" ++ [10]) = Throw "internal_parse_error".
Proof. repeat split; reflexivity. Qed.
Print Assumptions C92_line_column_refuted.
Example C92_case : get_error_line_column (codes "{x: int32," ++ [10] ++ codes " y: ?}") 16 = Ok (Some (2, 6)).
Proof. reflexivity. Qed.

(** * C93: scripts of aliases *)
(** The last statement counts; ... *)
Theorem C93_scripts : forall t s, script [] t s -> type_from_datashape s = Ok t.
Proof. exact script_read. Qed.
Print Assumptions C93_scripts.
(** ... names that are taken, or defined before, cannot be defined; ... *)
Theorem C93_no_redefinition : forall st n t s g w g1 g2 rest, gap g -> w <> [] -> Forall space_c w -> name n -> gap g1 -> gap g2 -> spelled t s -> ends rest ->
  taken n \/ In n st -> parse_stmt st (g ++ codes "type" ++ w ++ n ++ g1 ++ codes "=" ++ g2 ++ s ++ rest) = Throw "internal_parse_error".
Proof.
  intros st n t s g w g1 g2 rest G Wn W N G1 G2 S E H. rewrite (alias_read st n t s g w g1 g2 rest) by auto. destruct (lookup_id_by_name n) eqn:L; auto.
  destruct H as [H|H]; [destruct (taken_lookup n H) as (e & X); congruence|]. apply mem_name_iff in H. rewrite H. reflexivity.
Qed.
Print Assumptions C93_no_redefinition.
(** ... but a name that was defined cannot be used, or keeps the meaning it had. *)
Theorem C93_use_refuted : type_from_datashape (codes "type point = {x: int32}" ++ [10] ++ codes "3 * point") = Throw "internal_parse_error" /\
  type_from_datashape (codes "type int = float64" ++ [10] ++ codes "3 * int") = Ok (DFixed 3 (DBuiltin int32)) /\
  type_from_datashape (codes "type T = float64" ++ [10] ++ codes "3 * T") = Ok (DFixed 3 (DTypevar (codes "T"))).
Proof. repeat split; reflexivity. Qed.
Print Assumptions C93_use_refuted.
Example C93_case : script [] (DBuiltin int64) (codes "type T = 3 * int32" ++ [10] ++ codes " int64") /\ taken (codes "int32") /\ ~ taken (codes "T").
Proof.
  assert (NT : ~ taken (codes "T")). { rewrite taken_iff. cbn. intuition discriminate. }
  split; [|split; [rewrite taken_iff; cbn; tauto|exact NT]].
  apply (sc_alias [] (codes "T") (DFixed 3 (DBuiltin int32)) (codes "3 * int32") [] [32] [32] [32] (DBuiltin int64) ([10] ++ codes " int64")); auto using gap_nil, gap1.
  - discriminate.
  - constructor; [unfold space_c; lia|constructor].
  - apply simple_name. reflexivity.
  - apply (sp_dim (DFixed 3) (codes "3") (DBuiltin int32) (codes "int32") [32] [32]); auto using gap1.
    + apply di_number. change (codes "3") with [51]. split; [apply int_pos; [lia|constructor]|]. split; [reflexivity|lia].
    + apply sp_word. unfold words. cbn [In]. tauto.
  - apply ends_of; [apply sep_cons; notname|]. right. exists 105, (codes "nt64"). split; [reflexivity|unfold stops; cbn [In]; lia].
  - assert (W : spelled (DBuiltin int64) (codes "int64")) by (apply sp_word; unfold words; cbn [In]; tauto).
    pose proof (sc_type [codes "T"] (DBuiltin int64) (codes "int64") [10; 32] []) as X. apply X; auto; try discriminate.
    + repeat constructor; unfold space_c; lia.
    + apply sk_stop, not_next_nil.
Qed.
