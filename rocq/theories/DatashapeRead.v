(** Every spelling is read (C90). *)
From Verif Require Import Base ParseIntModel ScanModel ScanSpec ScanProofs EncodingModel EncodingSpec EscapeModel EscapeSpec EscapeProofs EscapeProps TypesModel DatashapeModel DatashapeSpec DatashapeProofs.
Open Scope Z_scope.

(** * How a spelling starts *)
Definition starts_name (s : list Z) : Prop :=
  exists w r, s = w ++ r /\ name w /\ (r = [] \/ exists g c r', r = g ++ c :: r' /\ gap g /\ In c [42; 91; 46]).
Definition starts_other (t : dt) (s : list Z) : Prop :=
  exists c r, s = c :: r /\ (c = 40 \/ c = 123 \/ (c = 63 /\ exists u, t = DOption u)).
Lemma arg_word_starts w a r : In (w, a) arg_words \/ w = "complex"%string -> (exists g r', r = g ++ 91 :: r' /\ gap g) -> starts_name (codes w ++ r).
Proof.
  intros I (g & r' & -> & G). exists (codes w), (g ++ 91 :: r'). split; auto. split.
  - destruct I as [I| ->]; [|apply (word_name _ (DBuiltin complex_float64)); unfold words; cbn [In]; tauto].
    pose proof arg_words_names as F. rewrite Forall_forall in F. exact (F (w, a) I).
  - right. exists g, 91, r'. split; auto. split; auto. cbn [In]. tauto.
Qed.
Ltac in_words := unfold arg_words; cbn [In]; tauto.
Lemma shape_of t s : spelled t s ->
  starts_name s \/ (exists ds r, s = ds ++ r /\ uint_lit ds) \/ (exists g r, s = dots ++ g ++ 42 :: r /\ gap g) \/ starts_other t s.
Proof.
  assert (AW : forall w g r, In w (map fst arg_words) -> gap g -> starts_name (codes w ++ g ++ codes "[" ++ r)).
  { intros w g r I G. apply in_map_iff in I as ((w', a) & <- & I). apply (arg_word_starts _ a); eauto. exists g, r. auto. }
  assert (DW : forall d w g r, dimension d w -> gap g -> starts_name (w ++ g ++ 42 :: r) \/ exists ds r', w ++ g ++ 42 :: r = ds ++ r' /\ uint_lit ds).
  { intros d w g r D G. destruct (dimension_word d w D) as [N|N]; [left|right; eauto].
    exists w, (g ++ 42 :: r). split; auto. split; auto. right. exists g, 42, r. split; auto. split; auto. cbn [In]. auto. }
  intros H. destruct H.
  - left. exists (codes w), []. split; [now rewrite app_nil_r|]. split; auto. exact (word_name _ _ H).
  - left. apply (arg_word_starts _ PBytes); auto. exists g, (g' ++ s ++ g'' ++ codes "]"). auto.
  - left. apply (arg_word_starts _ PBytes); auto. exists g, (g' ++ s ++ g'' ++ codes "]"). auto.
  - left. apply AW; auto. cbn. tauto.
  - left. apply AW; auto. cbn. tauto.
  - left. apply AW; auto. cbn. tauto.
  - left. apply AW; auto. cbn. tauto.
  - left. apply AW; auto. cbn. tauto.
  - left. apply AW; auto. cbn. tauto.
  - destruct (DW d w g (g' ++ s)) as [H3|H3]; auto.
  - left. exists (codes "Dim"), (g ++ 42 :: g' ++ s). split; auto. split; [exists 68, [105; 109]; split; [reflexivity|split; [unfold letter; lia|repeat constructor; unfold letter; lia]]|].
    right. exists g, 42, (g' ++ s). split; auto. split; auto. cbn [In]. auto.
  - left. apply AW; auto. cbn. tauto.
  - destruct (DW d w g1 (42 :: ds ++ g2 ++ codes "*" ++ g3 ++ s)) as [H6|H6]; auto.
  - destruct (DW d w g1 (42 :: n ++ g2 ++ codes "*" ++ g3 ++ s)) as [H6|H6]; auto.
  - right. right. left. exists g, (g' ++ s). auto.
  - left. exists n, (g1 ++ dots ++ g2 ++ codes "*" ++ g3 ++ s). split; auto. split; [now apply capital_is_name|]. right. exists g1, 46, (46 :: 46 :: g2 ++ codes "*" ++ g3 ++ s).
    split; auto. split; auto. cbn [In]. auto.
  - left. exists n, []. split; [now rewrite app_nil_r|]. split; auto. apply capital_is_name, H.
  - left. exists n, (g1 ++ codes "[" ++ g2 ++ s ++ g3 ++ codes "]"). split; auto. split; [apply capital_is_name, H|]. right. exists g1, 91, (g2 ++ s ++ g3 ++ codes "]").
    split; auto. split; auto. cbn [In]. auto.
  - right. right. right. exists 63, (g ++ s). split; auto. right. right. split; eauto.
  - left. apply AW; auto. cbn. tauto.
  - left. apply AW; auto. cbn. tauto.
  - right. right. right. exists 40, (s ++ codes ")"). auto.
  - right. right. right. exists 123, (s ++ codes "}"). auto.
  - right. right. right. exists 40, (s ++ codes ")" ++ g ++ codes "->" ++ g' ++ rs). auto.
  - right. right. right. exists 40, (s ++ ks ++ es ++ codes ")" ++ g ++ codes "->" ++ g' ++ rs). auto.
Qed.
(** The first character. *)
Lemma spelled_head t s : spelled t s -> exists c r, s = c :: r /\ solid c /\ c <> 42 /\ c <> 44 /\ c <> 41 /\ c <> 125 /\ c <> 58 /\ (c = 63 -> exists u, t = DOption u).
Proof.
  intros H. destruct (shape_of t s H) as [(w & r & -> & N & _)|[(ds & r & -> & U)|[(g & r & -> & G)|(c & r & -> & C)]]].
  - destruct (word_head w (or_introl N)) as (c & r' & -> & C). exists c, (r' ++ r). split; auto. split; [now apply name_solid|]. unfold name_char_p, letter, digit_c in C. repeat (split; [lia|]). lia.
  - destruct (word_head ds (or_intror U)) as (c & r' & -> & C). exists c, (r' ++ r). split; auto. split; [now apply name_solid|]. unfold name_char_p, letter, digit_c in C. repeat (split; [lia|]). lia.
  - exists 46, (46 :: 46 :: g ++ 42 :: r). split; auto. split; [solid|]. repeat (split; [lia|]). lia.
  - exists c, r. split; auto. split; [solid|]. repeat (split; [lia|]). intros ->. destruct C as [C|[C|(_ & C)]]; [lia|lia|exact C].
Qed.
Lemma strip_spelled t s r : spelled t s -> strip (s ++ r) = s ++ r.
Proof. intros H. destruct (spelled_head t s H) as (c & r' & -> & S & _). cbn [app]. now apply strip_cons. Qed.
Lemma no_star t s g r : spelled t s -> gap g -> ~ next_is (eq 42) (g ++ s ++ r).
Proof.
  intros H G. apply gap_next; auto. { intros c <-. solid. } destruct (spelled_head t s H) as (c & r' & -> & S & N & _). cbn [app]. rewrite next_cons. lia.
Qed.
Lemma not_token t s r c k : spelled t s -> In c [42; 44; 41; 125; 58] -> starts_with (c :: k) (s ++ r) = None.
Proof.
  intros H I. destruct (spelled_head t s H) as (c' & r' & -> & S & N). cbn [app starts_with]. destruct (Z.eqb_spec c' c); auto. subst. cbn [In] in I. exfalso. lia.
Qed.

(** * The lookahead for keywords *)
Lemma keywords_ahead_type t s g rest : spelled t s -> gap g -> ends rest -> keywords_ahead (g ++ s ++ rest) = Ok (false, g ++ s ++ rest, false).
Proof.
  intros H G E. unfold keywords_ahead. rewrite tok_strip, strip_gap, (strip_spelled t s) by auto. lits.
  destruct (shape_of t s H) as [(w & r & -> & N & R)|[(ds & r & -> & U)|[(g' & r & -> & G')|(c & r & -> & C)]]].
  - destruct (word_head w (or_introl N)) as (c & w' & Ew & C). assert (D : starts_with [46; 46; 46] ((w ++ r) ++ rest) = None).
    { rewrite Ew. cbn [app starts_with]. destruct (Z.eqb_spec c 46); auto. subst. unfold name_char_p, letter, digit_c in C. lia. }
    rewrite D. cbn [bind]. rewrite skip_strip. cbn [bind]. rewrite strip_gap, (strip_spelled t) by auto. rewrite <- app_assoc.
    assert (S : sep (r ++ rest)). { destruct R as [->|(g' & c' & r' & -> & G' & I)]; [now apply ends_sep|]. rewrite <- app_assoc. cbn [app]. apply sep_gap; auto. apply sep_cons. cbn [In] in I. notname. }
    rewrite (proj2 (parse_name_iff (w ++ r ++ rest) w (r ++ rest))) by auto. cbn [bind]. rewrite tok_strip.
    assert (X : starts_with [58] (strip (r ++ rest)) = None).
    { destruct R as [->|(g' & c' & r' & -> & G' & I)]; [cbn [app]|].
      - apply ends_strip in E. destruct E as [->|(c' & r' & -> & I)]; auto. cbn [starts_with]. destruct (Z.eqb_spec c' 58); auto. unfold stops in I. cbn [In] in I. lia.
      - rewrite <- app_assoc. cbn [app]. rewrite strip_gap by auto. rewrite strip_cons by (cbn [In] in I; solid). cbn [starts_with]. destruct (Z.eqb_spec c' 58); auto. cbn [In] in I. lia. }
    rewrite X. reflexivity.
  - destruct (word_head ds (or_intror U)) as (c & w' & Ew & C). destruct (uint_digits ds U) as (D' & _). rewrite Ew in D'. inversion D' as [|? ? Dc]; subst. unfold digit_c in Dc.
    assert (D : starts_with [46; 46; 46] (((c :: w') ++ r) ++ rest) = None).
    { cbn [app starts_with]. destruct (Z.eqb_spec c 46); auto. lia. }
    rewrite D. cbn [bind]. rewrite skip_strip. cbn [bind]. rewrite strip_gap, (strip_spelled t) by auto.
    rewrite (proj2 (parse_name_none _)); [reflexivity|]. cbn [app]. rewrite next_cons. unfold letter. lia.
  - flat. cbn [starts_with]. rewrite !Z.eqb_refl. cbn [bind]. rewrite !tok_strip. strips. cbn [starts_with]. change (42 =? 44) with false. cbn [bind]. rewrite skip_strip. cbn [bind]. strips.
    rewrite (proj2 (parse_name_none _)); [reflexivity|]. rewrite next_cons. unfold letter. lia.
  - cbn [app starts_with]. destruct (Z.eqb_spec c 46); [lia|]. cbn [bind]. rewrite skip_strip. cbn [bind]. rewrite strip_gap by auto. rewrite strip_cons by solid.
    rewrite (proj2 (parse_name_none _)); [reflexivity|]. rewrite next_cons. unfold letter. lia.
Qed.

Lemma require_read g s r : gap g -> (exists c k, codes s = c :: k /\ solid c) -> require (g ++ codes s ++ r) s = Ok r.
Proof.
  intros G (c & k & E & S). unfold require. rewrite tok_strip. change (lit s) with (codes s). rewrite E, strip_gap by auto. cbn [app]. rewrite strip_cons by auto.
  rewrite (proj2 (starts_with_iff (c :: k) (c :: k ++ r) r)); reflexivity.
Qed.
Lemma require_cons g c r s : gap g -> codes s = [c] -> solid c -> require (g ++ c :: r) s = Ok r.
Proof. intros G E S. change (c :: r) with ([c] ++ r). rewrite <- E. apply require_read; auto. exists c, []. auto. Qed.
Lemma quoted_read g w t r : gap g -> quoted w t -> ds_parse_quoted_string (g ++ t ++ r) = Ok (Some (w, r)).
Proof.
  intros G (q & body & Q & D & ->). apply ds_quoted_iff. exists q, body. split; auto. split; auto. apply gap_skipped; auto. flat. apply sk_stop. rewrite next_cons. unfold space_c. lia.
Qed.
Lemma encoding_read g e t r : gap g -> encoding_arg e t -> parse_encoding (g ++ t ++ r) = Ok (e, r).
Proof.
  intros G (w & I & Q). unfold parse_encoding. rewrite (quoted_read _ _ _ _ G Q). cbn [bind].
  rewrite (proj2 (proj1 (C51_encoding_names (codes w)) e)); [reflexivity|]. exists w. split; auto.
Qed.

(** * Lists *)
Lemma strip_strip s : strip (strip s) = strip s.
Proof.
  apply strip_of. pose proof (strip_skipped s) as H. induction H as [r N|c s r C S IH|b s r B S IH|b B]; auto.
  - now constructor.
  - apply sk_stop, not_next_nil.
Qed.
Lemma spelled_len t s : spelled t s -> (1 <= List.length s)%nat.
Proof. intros H. destruct (spelled_head t s H) as (c & r & -> & _). cbn. lia. Qed.
Lemma types_len l : forall s, types l s -> (List.length l <= List.length s)%nat.
Proof.
  induction l as [|t l IH]; intros s H; [cbn; lia|]. inversion H; subst.
  - rewrite app_length. match goal with X : spelled _ _ |- _ => apply spelled_len in X end. cbn. lia.
  - rewrite !app_length. match goal with X : spelled _ _ |- _ => apply spelled_len in X end. match goal with X : types _ _ |- _ => apply IH in X end. cbn [List.length]. lia.
Qed.
Lemma items_len bare l : forall s, items bare l s -> (List.length l <= List.length s)%nat.
Proof.
  induction l as [|t l IH]; intros s H; [cbn; lia|]. inversion H; subst.
  - rewrite !app_length. match goal with X : spelled _ _ |- _ => apply spelled_len in X end. cbn [List.length]. lia.
  - rewrite !app_length. match goal with X : spelled _ _ |- _ => apply spelled_len in X end. match goal with X : items _ _ _ |- _ => apply IH in X end. cbn [List.length]. lia.
Qed.
Lemma field_head bare n ns : field_name bare n ns -> exists c r, ns = c :: r /\ solid c /\ c <> 46 /\ c <> 41 /\ c <> 125 /\ c <> 44.
Proof.
  intros [b m N|m t (q & body & Q & D & ->)].
  - destruct (word_head m (or_introl N)) as (c & r & -> & C). exists c, r. split; auto. split; [now apply name_solid|]. unfold name_char_p, letter, digit_c in C. repeat (split; [lia|]). lia.
  - exists q, (body ++ [q]). split; auto. split; [solid|]. repeat (split; [lia|]). lia.
Qed.
Lemma items_head bare l s : items bare l s -> exists g c r, s = g ++ c :: r /\ gap g /\ solid c /\ c <> 46 /\ c <> 41 /\ c <> 125 /\ c <> 44.
Proof.
  intros H. destruct H as [bare n ns t s g g1 g2 G _ _ F _|bare n ns t s g g1 g2 g3 l r G _ _ _ F _ _]; destruct (field_head _ _ _ F) as (c & k & -> & C).
  - exists g, c, (k ++ g1 ++ codes ":" ++ g2 ++ s). split; auto.
  - exists g, c, (k ++ g1 ++ codes ":" ++ g2 ++ s ++ g3 ++ codes "," ++ r). split; auto.
Qed.

Section Reads.
Variable p : parser.
Variable f : nat.
Hypothesis IH : forall t s g rest, spelled t s -> gap g -> ends rest -> (List.length s < f)%nat -> p (g ++ s ++ rest) = Ok (Some (t, rest)).
Lemma need_read t s g rest : spelled t s -> gap g -> ends rest -> (List.length s < f)%nat -> need p (g ++ s ++ rest) = Ok (t, rest).
Proof. intros A B C D. unfold need. now rewrite (IH t s g rest). Qed.

Definition item_of (bare : bool) := if bare then parse_struct_item_bare p else parse_struct_item_general p.
Lemma item_read bare n ns t s g g1 g2 rest : gap g -> gap g1 -> gap g2 -> field_name bare n ns -> spelled t s -> ends rest -> (List.length s < f)%nat ->
  item_of bare (strip (g ++ ns ++ g1 ++ codes ":" ++ g2 ++ s ++ rest)) = Ok (Some ((n, t), rest)).
Proof.
  intros G G1 G2 F S E L. set (tail := g1 ++ codes ":" ++ g2 ++ s ++ rest).
  assert (T : (do it <- require tail ":"; do (u, it) <- need p it; Ok (Some ((n, u), it))) = Ok (Some ((n, t), rest))).
  { unfold tail. rewrite require_read by (first [assumption | exists 58, []; split; [reflexivity|solid]]). cbn [bind]. rewrite (need_read t s g2 rest); auto. }
  assert (SP : sep tail). { unfold tail. lits. cbn [app]. seps. }
  rewrite strip_gap by auto. destruct F as [b m N|m text Q].
  - assert (X : strip (m ++ tail) = m ++ tail) by (apply word_solid; left; auto). rewrite X.
    destruct b; cbn [item_of]; unfold parse_struct_item_bare, parse_struct_item_general; rewrite skip_strip, X; cbn [bind];
      rewrite (proj2 (parse_name_iff (m ++ tail) m tail)) by auto; cbn [bind]; exact T.
  - cbn [item_of]. unfold parse_struct_item_general. rewrite skip_strip, strip_strip. cbn [bind]. pose proof Q as (q & body & Q1 & D & E1).
    assert (X : strip (text ++ tail) = text ++ tail). { rewrite E1. cbn [app]. apply strip_cons. solid. } rewrite X.
    rewrite (proj2 (parse_name_none _)). 2: { rewrite E1. cbn [app]. rewrite next_cons. unfold letter. lia. } cbn [bind].
    rewrite (quoted_read [] m text tail gap_nil Q : ds_parse_quoted_string (text ++ tail) = _). cbn [bind]. exact T.
Qed.
Lemma item_step bare close fuel acc n ns t s g g1 g2 r : gap g -> gap g1 -> gap g2 -> field_name bare n ns -> spelled t s -> ends r -> (List.length s < f)%nat ->
  items_loop (item_of bare) close (S fuel) acc (g ++ ns ++ g1 ++ codes ":" ++ g2 ++ s ++ r) =
  do c <- tok r ",";
  match c with
  | Some it => do e <- tok it close; match e with Some it => Ok (rev ((n, t) :: acc), false, it) | None => items_loop (item_of bare) close fuel ((n, t) :: acc) it end
  | None => do it <- require r close; Ok (rev ((n, t) :: acc), false, it)
  end.
Proof.
  intros G G1 G2 F S E L. cbn [items_loop]. rewrite tok_strip.
  assert (X : starts_with (lit "...") (strip (g ++ ns ++ g1 ++ codes ":" ++ g2 ++ s ++ r)) = None).
  { rewrite strip_gap by auto. destruct (field_head _ _ _ F) as (c & k & -> & Sc & N & _). cbn [app]. rewrite strip_cons by auto. lits. cbn [starts_with]. destruct (Z.eqb_spec c 46); auto. congruence. }
  rewrite X. cbn [bind]. rewrite skip_strip. cbn [bind]. rewrite (item_read bare n ns t s g g1 g2 r) by auto. reflexivity.
Qed.
Lemma items_read bare close cc : codes close = [cc] -> In cc [125; 41] -> forall l s, items bare l s -> (List.length s < f)%nat -> forall v es, ending v es ->
  forall fuel acc rest, (List.length l < fuel)%nat ->
  items_loop (item_of bare) close fuel acc (s ++ es ++ cc :: rest) = Ok (rev acc ++ l, v, rest).
Proof.
  intros C CI. assert (SC : solid cc) by (cbn [In] in CI; solid). assert (CC : closer cc) by (cbn [In] in CI; unfold closer; cbn [In]; lia). assert (C44 : cc <> 44) by (cbn [In] in CI; lia). assert (C46 : cc <> 46) by (cbn [In] in CI; lia).
  assert (Cl : lit close = [cc]) by exact C.
  induction l as [|(n, t) l IHl]; intros s I L v es Es fuel acc rest Lf; [inversion I|].
  destruct fuel as [|fuel]; [cbn in Lf; lia|]. inversion I; subst.
  - rename s0 into s1. rewrite !app_length in L.
    replace ((g ++ ns ++ g1 ++ codes ":" ++ g2 ++ s1) ++ es ++ cc :: rest) with (g ++ ns ++ g1 ++ codes ":" ++ g2 ++ s1 ++ (es ++ cc :: rest)) by (now rewrite <- !app_assoc).
    assert (En : ends (es ++ cc :: rest)). { destruct Es; flat; ends. }
    rewrite (item_step bare close fuel acc n ns t s1 g g1 g2) by first [assumption | lia]. rewrite tok_strip. destruct Es as [g3 G3|g3 g4 G3 G4|g3 g4 g5 G3 G4 G5].
    + rewrite strip_gap, strip_cons by auto. lits. cbn [starts_with]. destruct (Z.eqb_spec cc 44); [congruence|]. cbn [bind]. rewrite (require_cons g3 cc rest close) by auto. reflexivity.
    + flat. strips. cbn [starts_with]. rewrite Z.eqb_refl. cbn [bind]. rewrite tok_strip, strip_gap, strip_cons by auto. rewrite Cl. cbn [starts_with]. rewrite Z.eqb_refl. reflexivity.
    + flat. strips. cbn [starts_with]. rewrite Z.eqb_refl. cbn [bind]. rewrite tok_strip. strips. rewrite Cl. cbn [starts_with]. destruct (Z.eqb_spec 46 cc); [congruence|]. cbn [bind].
      destruct fuel as [|fuel]; [cbn in Lf; lia|]. cbn [items_loop]. rewrite tok_strip. strips. lits. cbn [starts_with]. rewrite !Z.eqb_refl. cbn [bind]. rewrite (require_cons g5 cc rest close) by auto. reflexivity.
  - rename s0 into s1. rewrite !app_length in L.
    replace ((g ++ ns ++ g1 ++ codes ":" ++ g2 ++ s1 ++ g3 ++ codes "," ++ r) ++ es ++ cc :: rest) with (g ++ ns ++ g1 ++ codes ":" ++ g2 ++ s1 ++ (g3 ++ 44 :: r ++ es ++ cc :: rest)) by (lits; rewrite <- !app_assoc; reflexivity).
    rewrite (item_step bare close fuel acc n ns t s1 g g1 g2) by first [assumption | ends; fail | lia]. rewrite tok_strip. strips. lits. cbn [starts_with]. rewrite Z.eqb_refl. cbn [bind]. rewrite tok_strip.
    match goal with X : items bare l r |- _ => pose proof X as Ir; destruct (items_head _ _ _ X) as (g' & c & k & Er & G' & Sc & N1 & N2 & N3 & N4) end.
    assert (X : starts_with (lit close) (strip (r ++ es ++ cc :: rest)) = None).
    { rewrite Er. flat. rewrite strip_gap, strip_cons by auto. rewrite Cl. cbn [starts_with]. destruct (Z.eqb_spec c cc); auto. cbn [In] in CI. lia. }
    rewrite X. cbn [bind]. cbn [List.length] in Lf. rewrite (IHl r Ir ltac:(lia) v es Es) by lia. cbn [rev]. rewrite <- app_assoc. reflexivity.
Qed.

(** * Tuples *)
Lemma tuple_step fuel acc v t s g r : gap g -> spelled t s -> ends r -> (List.length s < f)%nat ->
  tuple_loop p (S fuel) acc v (g ++ s ++ r) =
  do c <- tok r ",";
  match c with
  | Some it => do e <- tok it ")"; match e with Some it => Ok (TEnd (rev (t :: acc)) v it) | None => tuple_loop p fuel (t :: acc) v it end
  | None => do it <- require r ")"; Ok (TEnd (rev (t :: acc)) v it)
  end.
Proof.
  intros G S E L. cbn [tuple_loop]. rewrite (keywords_ahead_type t s g r) by auto. cbn [bind]. rewrite orb_false_r. rewrite tok_strip, strip_gap, (strip_spelled t s) by auto. cbn [bind].
  assert (X : (do c <- match starts_with (lit "...") (s ++ r) with Some it1 => tok it1 ")" | None => Ok None end; Ok c) = Ok None).
  { destruct (starts_with (lit "...") (s ++ r)) as [k|] eqn:D; auto. rewrite tok_strip. apply starts_with_iff in D.
    destruct (shape_of t s S) as [(w & r' & -> & N & R)|[(ds & r' & -> & U)|[(g' & r' & -> & G')|(c & r' & -> & C)]]].
    - destruct (word_head w (or_introl N)) as (c & w' & -> & C). revert D. lits. cbn [app]. intros D. injection D as -> _. unfold name_char_p, letter, digit_c in C. lia.
    - destruct (word_head ds (or_intror U)) as (c & w' & -> & C). revert D. lits. cbn [app]. intros D. injection D as -> _. unfold name_char_p, letter, digit_c in C. lia.
    - revert D. flat. intros D. injection D as <-. strips. reflexivity.
    - revert D. lits. cbn [app]. intros D. injection D as -> _. lia. }
  destruct (match starts_with (lit "...") (s ++ r) with Some it1 => tok it1 ")" | None => Ok None end) as [c| | |]; try discriminate X. cbn [bind] in X. injection X as ->. cbn [bind].
  rewrite (need_read t s g r) by auto. reflexivity.
Qed.
Lemma types_head l s : types l s -> exists t s' g r, s = g ++ s' ++ r /\ gap g /\ spelled t s'.
Proof. intros H. destruct H as [t s g G S|t s g g' l r G G' S T]; [exists t, s, g, []; now rewrite app_nil_r|exists t, s, g, (g' ++ codes "," ++ r); auto]. Qed.
Lemma types_step fuel v g k : gap g -> starts_with [41] (strip k) = None -> forall l s, types l s -> (List.length s < f)%nat -> forall acc,
  tuple_loop p (List.length l + fuel) acc v (s ++ g ++ 44 :: k) = tuple_loop p fuel (rev l ++ acc) v k.
Proof.
  intros G K. induction l as [|t l IHl]; intros s T L acc; [inversion T|]. cbn [List.length Nat.add]. inversion T; subst.
  - rewrite app_length in L. rewrite <- app_assoc. rewrite (tuple_step _ _ _ t) by (first [assumption | ends; fail | lia]). rewrite tok_strip. strips. lits. cbn [starts_with]. rewrite Z.eqb_refl. cbn [bind].
    rewrite tok_strip. lits. rewrite K. reflexivity.
  - rename s0 into s1. rewrite !app_length in L. replace ((g0 ++ s1 ++ g' ++ codes "," ++ r) ++ g ++ 44 :: k) with (g0 ++ s1 ++ (g' ++ 44 :: r ++ g ++ 44 :: k)) by (lits; rewrite <- !app_assoc; reflexivity).
    rewrite (tuple_step _ _ _ t) by (first [assumption | ends; fail | lia]). rewrite tok_strip. strips. lits. cbn [starts_with]. rewrite Z.eqb_refl. cbn [bind].
    match goal with X : types l r |- _ => pose proof X as Tr; destruct (types_head _ _ X) as (t' & s' & g1 & r' & Er & G1 & S') end.
    assert (X : starts_with [41] (strip (r ++ g ++ 44 :: k)) = None).
    { rewrite Er. rewrite <- !app_assoc. rewrite strip_gap, (strip_spelled t') by auto. apply (not_token t'); auto. cbn [In]. tauto. }
    rewrite tok_strip. lits. rewrite X. cbn [bind]. rewrite (IHl r Tr) by lia. cbn [rev]. rewrite <- app_assoc. reflexivity.
Qed.
Lemma types_last fuel v g k : gap g -> forall l s, types l s -> (List.length s < f)%nat -> forall acc,
  tuple_loop p (List.length l + fuel) acc v (s ++ g ++ 41 :: k) = Ok (TEnd (rev acc ++ l) v k).
Proof.
  intros G. induction l as [|t l IHl]; intros s T L acc; [inversion T|]. cbn [List.length Nat.add]. inversion T; subst.
  - rewrite app_length in L. rewrite <- app_assoc. rewrite (tuple_step _ _ _ t) by (first [assumption | ends; fail | lia]). rewrite tok_strip. strips. lits. cbn [starts_with]. change (41 =? 44) with false. cbn [bind].
    rewrite (require_cons g 41 k ")") by (auto; solid). reflexivity.
  - rename s0 into s1. rewrite !app_length in L. replace ((g0 ++ s1 ++ g' ++ codes "," ++ r) ++ g ++ 41 :: k) with (g0 ++ s1 ++ (g' ++ 44 :: r ++ g ++ 41 :: k)) by (lits; rewrite <- !app_assoc; reflexivity).
    rewrite (tuple_step _ _ _ t) by (first [assumption | ends; fail | lia]). rewrite tok_strip. strips. lits. cbn [starts_with]. rewrite Z.eqb_refl. cbn [bind].
    match goal with X : types l r |- _ => pose proof X as Tr; destruct (types_head _ _ X) as (t' & s' & g1 & r' & Er & G1 & S') end.
    assert (X : starts_with [41] (strip (r ++ g ++ 41 :: k)) = None).
    { rewrite Er. rewrite <- !app_assoc. rewrite strip_gap, (strip_spelled t') by auto. apply (not_token t'); auto. cbn [In]. tauto. }
    rewrite tok_strip. lits. rewrite X. cbn [bind]. rewrite (IHl r Tr) by lia. cbn [rev]. rewrite <- app_assoc. reflexivity.
Qed.
Lemma types_comma fuel v g g1 k : gap g -> gap g1 -> forall l s, types l s -> (List.length s < f)%nat -> forall acc,
  tuple_loop p (List.length l + fuel) acc v (s ++ g ++ 44 :: g1 ++ 41 :: k) = Ok (TEnd (rev acc ++ l) v k).
Proof.
  intros G G1. induction l as [|t l IHl]; intros s T L acc; [inversion T|]. cbn [List.length Nat.add]. inversion T; subst.
  - rewrite app_length in L. rewrite <- app_assoc. rewrite (tuple_step _ _ _ t) by (first [assumption | ends; fail | lia]). rewrite tok_strip. strips. lits. cbn [starts_with]. rewrite Z.eqb_refl. cbn [bind].
    rewrite tok_strip. strips. lits. cbn [starts_with]. rewrite Z.eqb_refl. reflexivity.
  - rename s0 into s1. rewrite !app_length in L. replace ((g0 ++ s1 ++ g' ++ codes "," ++ r) ++ g ++ 44 :: g1 ++ 41 :: k) with (g0 ++ s1 ++ (g' ++ 44 :: r ++ g ++ 44 :: g1 ++ 41 :: k)) by (lits; rewrite <- !app_assoc; reflexivity).
    rewrite (tuple_step _ _ _ t) by (first [assumption | ends; fail | lia]). rewrite tok_strip. strips. lits. cbn [starts_with]. rewrite Z.eqb_refl. cbn [bind].
    match goal with X : types l r |- _ => pose proof X as Tr; destruct (types_head _ _ X) as (t' & s' & g2 & r' & Er & G2 & S') end.
    assert (X : starts_with [41] (strip (r ++ g ++ 44 :: g1 ++ 41 :: k)) = None).
    { rewrite Er. rewrite <- !app_assoc. rewrite strip_gap, (strip_spelled t') by auto. apply (not_token t'); auto. cbn [In]. tauto. }
    rewrite tok_strip. lits. rewrite X. cbn [bind]. rewrite (IHl r Tr) by lia. cbn [rev]. rewrite <- app_assoc. reflexivity.
Qed.
Lemma tuple_dots fuel acc v g g' k : gap g -> gap g' -> tuple_loop p (S fuel) acc v (g ++ 46 :: 46 :: 46 :: g' ++ 41 :: k) = Ok (TEnd (rev acc) true k).
Proof.
  intros G G'. cbn [tuple_loop]. unfold keywords_ahead. rewrite tok_strip. strips. lits. cbn [starts_with]. rewrite !Z.eqb_refl. cbn [bind]. rewrite tok_strip. strips. cbn [starts_with]. change (41 =? 44) with false. cbn [bind].
  rewrite skip_strip. cbn [bind]. strips. rewrite (proj2 (parse_name_none _)) by (rewrite next_cons; unfold letter; lia). cbn [bind].
  rewrite tok_strip. strips. cbn [starts_with]. rewrite Z.eqb_refl. reflexivity.
Qed.
Lemma arguments_read l v s k : arguments l v s -> (List.length s < f)%nat ->
  (do e <- tok (s ++ 41 :: k) ")"; match e with Some it => Ok (TEnd [] false it) | None => tuple_loop p (S (List.length (s ++ 41 :: k))) [] false (s ++ 41 :: k) end) = Ok (TEnd l v k).
Proof.
  intros A L. destruct A as [g G|g g' G G'|l s v es T E].
  - rewrite tok_strip. strips. lits. cbn [starts_with]. rewrite Z.eqb_refl. reflexivity.
  - flat. rewrite tok_strip. strips. cbn [starts_with]. change (46 =? 41) with false. cbn [bind]. rewrite tuple_dots by auto. reflexivity.
  - rewrite tok_strip. destruct (types_head _ _ T) as (t' & s' & g2 & r' & Er & G2 & S').
    assert (X : starts_with (lit ")") (strip ((s ++ es) ++ 41 :: k)) = None).
    { rewrite Er. rewrite <- !app_assoc. rewrite strip_gap, (strip_spelled t') by auto. apply (not_token t'); auto. cbn [In]. tauto. }
    rewrite X. cbn [bind]. rewrite <- app_assoc. pose proof (types_len _ _ T) as TL. rewrite app_length in L.
    replace (S (List.length (s ++ es ++ 41 :: k))) with (List.length l + (S (List.length (s ++ es ++ 41%Z :: k)) - List.length l))%nat by (rewrite app_length; lia).
    set (fuel := (S (List.length (s ++ es ++ 41%Z :: k)) - List.length l)%nat). assert (F : (1 <= fuel)%nat) by (unfold fuel; rewrite app_length; lia). clearbody fuel.
    destruct E as [g G|g g' G G'|g g' g'' G G' G'']; flat.
    + rewrite (types_last fuel false g k G l s) by (auto; lia). reflexivity.
    + rewrite (types_comma fuel false g g' k G G' l s) by (auto; lia). reflexivity.
    + rewrite (types_step fuel false g _ G) by (first [assumption | strips; reflexivity | lia]). destruct fuel as [|fuel]; [lia|]. rewrite tuple_dots by auto. rewrite app_nil_r, rev_involutive. reflexivity.
Qed.

(** * Keywords *)
Lemma kw_name it n r r1 : strip it = n ++ r -> name n -> sep r -> strip r = 58 :: r1 ->
  (do b <- skip_whitespace_and_pound_comments it; do n <- parse_name_no_ws b;
   match n with Some (_, b) => do c <- tok b ":"; match c with Some _ => Ok true | None => Ok false end | None => Ok false end) = Ok true.
Proof.
  intros E N S F. rewrite skip_strip. cbn [bind]. rewrite E, (proj2 (parse_name_iff (n ++ r) n r)) by auto. cbn [bind]. rewrite tok_strip, F. reflexivity.
Qed.
Lemma items_first l s : items true l s -> exists g n g1 r, s = g ++ n ++ g1 ++ 58 :: r /\ gap g /\ name n /\ gap g1.
Proof.
  intros H. inversion H; subst; match goal with F : field_name true _ _ |- _ => inversion F; subst end.
  - exists g, ns, g1, (g2 ++ s0). auto.
  - exists g, ns, g1, (g2 ++ s0 ++ g3 ++ codes "," ++ r). auto.
Qed.
Lemma kw_items l s r : items true l s -> keywords_ahead (s ++ r) = Ok (false, s ++ r, true).
Proof.
  intros H. destruct (items_first l s H) as (g & n & g1 & k & -> & G & N & G1). unfold keywords_ahead. rewrite tok_strip.
  assert (E : strip ((g ++ n ++ g1 ++ 58 :: k) ++ r) = n ++ g1 ++ 58 :: k ++ r). { flat. rewrite strip_gap by auto. apply word_solid. left. exact N. }
  assert (X : starts_with (lit "...") (n ++ g1 ++ 58 :: k ++ r) = None).
  { destruct (word_head n (or_introl N)) as (c & n' & -> & C). lits. cbn [app starts_with]. destruct (Z.eqb_spec c 46); auto. unfold name_char_p, letter, digit_c in C. lia. }
  rewrite E, X. cbn [bind]. rewrite skip_strip. cbn [bind]. rewrite E, (proj2 (parse_name_iff _ n (g1 ++ 58 :: k ++ r))).
  - cbn [bind]. rewrite tok_strip. strips. reflexivity.
  - split; auto. split; auto. apply sep_gap; auto. apply sep_cons. notname.
Qed.
Lemma kw_dots g g' l s r : gap g -> gap g' -> items true l s -> keywords_ahead (g ++ 46 :: 46 :: 46 :: g' ++ 44 :: s ++ r) = Ok (true, s ++ r, true).
Proof.
  intros G G' H. destruct (items_first l s H) as (g0 & n & g1 & k & -> & G0 & N & G1). unfold keywords_ahead. rewrite tok_strip. strips. lits. cbn [starts_with]. rewrite !Z.eqb_refl. cbn [bind].
  rewrite tok_strip. strips. cbn [starts_with]. rewrite Z.eqb_refl. cbn [bind].
  assert (E : strip ((g0 ++ n ++ g1 ++ 58 :: k) ++ r) = n ++ g1 ++ 58 :: k ++ r). { flat. rewrite strip_gap by auto. apply word_solid. left. exact N. }
  rewrite skip_strip. cbn [bind]. rewrite E, (proj2 (parse_name_iff _ n (g1 ++ 58 :: k ++ r))).
  - cbn [bind]. rewrite tok_strip. strips. reflexivity.
  - split; auto. split; auto. apply sep_gap; auto. apply sep_cons. notname.
Qed.
Lemma tuple_kw fuel acc v it v' k ks kv es g g' r rs rest : items true k ks -> ending kv es -> gap g -> gap g' -> spelled r rs -> ends rest ->
  (List.length ks < f)%nat -> (List.length rs < f)%nat ->
  keywords_ahead it = Ok (v', ks ++ (es ++ 41 :: g ++ 45 :: 62 :: g' ++ rs ++ rest), true) ->
  tuple_loop p (S fuel) acc v it = Ok (TResult (DCallable r (rev acc) (v || v') k kv) rest).
Proof.
  intros I E G G' R En L L' K. cbn [tuple_loop]. rewrite K. cbn [bind].
  change (parse_struct_item_bare p) with (item_of true).
  rewrite (items_read true ")" 41 eq_refl (or_intror (or_introl eq_refl)) k ks I L kv es E).
  2: { pose proof (items_len _ _ _ I). rewrite app_length. lia. }
  cbn [bind rev app]. rewrite tok_strip. strips. lits. cbn [starts_with]. rewrite !Z.eqb_refl. cbn [bind]. rewrite (need_read r rs g' rest) by auto. reflexivity.
Qed.
Lemma keywords_read l v s k ks kv es g g' r rs rest : before_keywords l v s -> items true k ks -> ending kv es -> gap g -> gap g' -> spelled r rs -> ends rest ->
  (List.length s < f)%nat -> (List.length ks < f)%nat -> (List.length rs < f)%nat ->
  let it := s ++ ks ++ es ++ 41 :: g ++ 45 :: 62 :: g' ++ rs ++ rest in
  (do e <- tok it ")"; match e with Some it => Ok (TEnd [] false it) | None => tuple_loop p (S (List.length it)) [] false it end) = Ok (TResult (DCallable r l v k kv) rest).
Proof.
  intros B I E G G' R En L Lk Lr it. destruct (items_head _ _ _ I) as (g0 & c0 & k0 & Ek & G0 & S0 & N46 & N41 & N125 & N44).
  set (tail := es ++ 41 :: g ++ 45 :: 62 :: g' ++ rs ++ rest).
  assert (Ks : forall r, starts_with [41] (strip (ks ++ r)) = None).
  { intros r0. rewrite Ek. flat. rewrite strip_gap, strip_cons by auto. cbn [starts_with]. destruct (Z.eqb_spec c0 41); congruence. }
  destruct B as [|g1 g2 G1 G2|l s g1 T G1|l s g1 g2 g3 T G1 G2 G3]; unfold it; flat; fold tail; rewrite tok_strip.
  - rewrite Ks. cbn [bind]. rewrite (tuple_kw _ _ _ _ false k ks kv es g g' r rs rest) by (auto; apply (kw_items k); auto). reflexivity.
  - strips. cbn [starts_with]. change (46 =? 41) with false. cbn [bind].
    rewrite (tuple_kw _ _ _ _ true k ks kv es g g' r rs rest) by (auto; apply (kw_dots _ _ k); auto). reflexivity.
  - destruct (types_head _ _ T) as (t' & s' & g2 & r' & Er & G2 & S').
    assert (X : starts_with [41] (strip (s ++ g1 ++ 44 :: ks ++ tail)) = None).
    { rewrite Er. rewrite <- !app_assoc. rewrite strip_gap, (strip_spelled t') by auto. apply (not_token t'); auto. cbn [In]. tauto. }
    rewrite X. cbn [bind]. pose proof (types_len _ _ T) as TL. rewrite app_length in L.
    set (n := S (List.length (s ++ g1 ++ 44 :: ks ++ tail))). replace n with (List.length l + S (n - List.length l - 1))%nat by (unfold n; rewrite app_length; lia).
    rewrite (types_step _ false g1 _ G1) by first [assumption | apply Ks | lia].
    rewrite (tuple_kw _ _ _ _ false k ks kv es g g' r rs rest) by (auto; apply (kw_items k); auto). rewrite app_nil_r, rev_involutive. reflexivity.
  - destruct (types_head _ _ T) as (t' & s' & g4 & r' & Er & G4 & S').
    assert (X : starts_with [41] (strip (s ++ g1 ++ 44 :: g2 ++ 46 :: 46 :: 46 :: g3 ++ 44 :: ks ++ tail)) = None).
    { rewrite Er. rewrite <- !app_assoc. rewrite strip_gap, (strip_spelled t') by auto. apply (not_token t'); auto. cbn [In]. tauto. }
    rewrite X. cbn [bind]. pose proof (types_len _ _ T) as TL. rewrite app_length in L.
    set (n := S (List.length (s ++ g1 ++ 44 :: g2 ++ 46 :: 46 :: 46 :: g3 ++ 44 :: ks ++ tail))). replace n with (List.length l + S (n - List.length l - 1))%nat by (unfold n; rewrite app_length; lia).
    rewrite (types_step _ false g1 _ G1) by first [assumption | strips; reflexivity | lia].
    rewrite (tuple_kw _ _ _ _ true k ks kv es g g' r rs rest) by (auto; apply (kw_dots _ _ k); auto). rewrite app_nil_r, rev_involutive. reflexivity.
Qed.

(** * Without the question mark *)
Lemma word_none it : ~ next_is name_char_p it -> parse_name_or_number it = Ok None.
Proof.
  intros N. unfold parse_name_or_number. rewrite (proj2 (parse_name_none it)).
  - cbn [bind]. apply uint_none. intros (m & r & -> & U & _). destruct (word_head m (or_intror U)) as (c & m' & -> & C). apply N. cbn [app]. now rewrite next_cons.
  - intros (c & r & -> & C). apply N. exists c, r. split; auto. unfold name_char_p. tauto.
Qed.
Lemma nooption_open g c r : gap g -> c = 40 \/ c = 123 -> parse_datashape_nooption p (g ++ c :: r) =
  do s <- parse_struct p (c :: r); match s with Some x => Ok (Some x) | None => parse_tuple_or_funcproto p (c :: r) end.
Proof.
  intros G C. unfold parse_datashape_nooption. rewrite skip_strip. cbn [bind]. rewrite strip_gap, strip_cons by (auto; solid). rewrite word_none by (rewrite next_cons; notname). cbn [bind].
  rewrite token_no_ws_eq. lits. cbn [starts_with]. destruct (Z.eqb_spec c 46); [lia|]. reflexivity.
Qed.
Lemma struct_no r : parse_struct p (40 :: r) = Ok None.
Proof. unfold parse_struct. rewrite tok_strip. strips. reflexivity. Qed.
Lemma tuple_open it : parse_tuple_or_funcproto p (40 :: it) =
  do x <- (do e <- tok it ")"; match e with Some it => Ok (TEnd [] false it) | None => tuple_loop p (S (List.length it)) [] false it end);
  match x with
  | TResult t it => Ok (Some (t, it))
  | TEnd l v it =>
      do a <- tok it "->";
      match a with
      | None => Ok (Some (DTuple l v, it))
      | Some it => do (r, it) <- need p it; Ok (Some (DCallable r l v [] v, it))
      end
  end.
Proof.
  unfold parse_tuple_or_funcproto. rewrite tok_strip. strips. lits. cbn [starts_with]. rewrite Z.eqb_refl. cbn [bind]. rewrite tok_strip. destruct (starts_with [41] (strip it)); reflexivity.
Qed.
Lemma members_read l v s k : members l v s -> (List.length s < f)%nat -> parse_struct p (123 :: s ++ 125 :: k) = Ok (Some (DStruct l v, k)).
Proof.
  intros M L. unfold parse_struct. rewrite tok_strip. strips. lits. cbn [starts_with]. rewrite Z.eqb_refl. cbn [bind]. rewrite tok_strip. destruct M as [g G|g g' G G'|l s v es I E].
  - strips. cbn [starts_with]. rewrite Z.eqb_refl. reflexivity.
  - flat. strips. cbn [starts_with]. change (46 =? 125) with false. cbn [bind]. cbn [items_loop]. rewrite tok_strip. strips. lits. cbn [starts_with]. rewrite !Z.eqb_refl. cbn [bind].
    rewrite (require_cons g' 125 k "}") by (auto; solid). reflexivity.
  - destruct (items_head _ _ _ I) as (g0 & c0 & k0 & Ek & G0 & S0 & N46 & N41 & N125 & N44).
    assert (X : starts_with [125] (strip ((s ++ es) ++ 125 :: k)) = None).
    { rewrite Ek. flat. rewrite strip_gap, strip_cons by auto. cbn [starts_with]. destruct (Z.eqb_spec c0 125); congruence. }
    rewrite X. cbn [bind]. rewrite <- app_assoc. change (parse_struct_item_general p) with (item_of false). rewrite app_length in L.
    rewrite (items_read false "}" 125 eq_refl (or_introl eq_refl) l s I ltac:(lia) v es E); [reflexivity|]. pose proof (items_len _ _ _ I). rewrite app_length. lia.
Qed.
Lemma arg_word_read w a g0 g r t rest : In (w, a) arg_words -> gap g0 -> gap g -> parse_type_args p a (g ++ 91 :: r) = Ok (t, rest) ->
  parse_datashape_nooption p (g0 ++ codes w ++ g ++ 91 :: r) = Ok (Some (t, rest)).
Proof.
  intros I G0 G H. apply nooption_word; auto.
  - left. pose proof arg_words_names as F. rewrite Forall_forall in F. exact (F (w, a) I).
  - seps.
  - rewrite named_type. 2: { strips. rewrite next_cons. lia. } rewrite (dtype_args w a p _ r I) by (strips; reflexivity). rewrite H. reflexivity.
Qed.
Lemma ends_no_bracket r : ends r -> no_bracket r.
Proof. intros E. pose proof (tok_ends r 91 [] E) as H. rewrite tok_strip in H. unfold no_bracket. specialize (H ltac:(stops)). congruence. Qed.
Lemma ends_next r : ends r -> ~ next_is (fun c => c = 42 \/ c = 46) (strip r).
Proof.
  intros E. apply ends_strip in E. destruct E as [->|(c & r' & -> & C)]; [apply not_next_nil|]. rewrite next_cons. unfold stops in C. cbn [In] in C. lia.
Qed.
Lemma alignment_small a : alignment a -> small_power a = true.
Proof. unfold alignment, small_power. cbn [In]. lia. Qed.
Lemma land_divides n a : alignment a -> (a | n) -> Z.land n (a - 1) = 0.
Proof.
  intros A D. assert (E : exists k, 0 <= k /\ a = 2 ^ k).
  { unfold alignment in A. cbn [In] in A. destruct A as [<-|[<-|[<-|[<-|[<-|[]]]]]]; [exists 0|exists 1|exists 2|exists 3|exists 4]; split; try reflexivity; lia. }
  destruct E as (k & K & ->). replace (2 ^ k - 1) with (Z.ones k) by (rewrite Z.ones_equiv; lia). rewrite Z.land_ones by auto. apply Z.mod_divide; auto. apply Z.pow_nonzero; lia.
Qed.
Lemma make_fixed_bytes_ok n a : alignment a -> a <= n -> (a | n) -> make_fixed_bytes n a = Ok (DFixedBytes n a).
Proof.
  intros A L D. unfold make_fixed_bytes. destruct (Z.ltb_spec n a); [lia|]. rewrite alignment_small, land_divides by auto. reflexivity.
Qed.
Lemma make_option_ok t : (forall u, t <> DOption u) -> make_option t = Ok (DOption t).
Proof. intros H. destruct t; try reflexivity. exfalso. exact (H t eq_refl). Qed.
Ltac digits := apply sep_digit; seps.
Ltac tk := rewrite tok_strip; strips; lits; cbn [starts_with]; rewrite ?Z.eqb_refl;
  repeat match goal with |- context [Zpos ?a =? Zpos ?b] => let v := eval cbv in (Zpos a =? Zpos b) in change (Zpos a =? Zpos b) with v end; cbn [bind].
Ltac req := unfold require at 1; tk.
Lemma nooption_read t s g rest : spelled t s -> (forall r, s <> 63 :: r) -> gap g -> ends rest -> (List.length s <= f)%nat ->
  parse_datashape_nooption p (g ++ s ++ rest) = Ok (Some (t, rest)).
Proof.
  intros H Q G E L. destruct H; rewrite ?app_length in L; rewrite <- ?app_assoc.
  - apply nooption_word; auto. { left. exact (word_name _ _ H). } { now apply ends_sep. } rewrite named_type by now apply ends_next. apply dtype_word; auto. now apply ends_no_bracket.
  - apply nooption_word; auto. { left. apply (word_name _ (DBuiltin complex_float64)). unfold words. cbn [In]. tauto. } { lits. cbn [app]. seps. }
    rewrite named_type. 2: { lits. cbn [app]. strips. rewrite next_cons. lia. }
    change (parse_dtype p (codes "complex")) with (fun it => do (t, it) <- parse_complex_parameters p it; Ok (Some t, it)). cbv beta. unfold parse_complex_parameters. flat. tk.
    rewrite (need_read (DBuiltin float32) s g') by first [assumption | ends; fail | cbn in L; lia]. cbn [bind]. req. reflexivity.
  - apply nooption_word; auto. { left. apply (word_name _ (DBuiltin complex_float64)). unfold words. cbn [In]. tauto. } { lits. cbn [app]. seps. }
    rewrite named_type. 2: { lits. cbn [app]. strips. rewrite next_cons. lia. }
    change (parse_dtype p (codes "complex")) with (fun it => do (t, it) <- parse_complex_parameters p it; Ok (Some t, it)). cbv beta. unfold parse_complex_parameters. flat. tk.
    rewrite (need_read (DBuiltin float64) s g') by first [assumption | ends; fail | cbn in L; lia]. cbn [bind]. req. reflexivity.
  - apply (arg_word_read "bytes" PBytes g g1); auto. { in_words. } cbn [parse_type_args]. flat. req. req. req.
    rewrite (number_arg_read g4 ds _ 31 a) by first [assumption | digits]. cbn [bind]. req. rewrite (numeral_atoi a) by auto. cbn [bind]. unfold make_bytes. rewrite alignment_small by auto. reflexivity.
  - apply (arg_word_read "fixed_bytes" PFixedBytes g g1); auto. { in_words. } cbn [parse_type_args]. flat. req. 
    rewrite (number_arg_read g2 ds _ 31 n) by first [assumption | digits]. cbn [bind]. tk. rewrite (numeral_atoi n) by auto. cbn [bind].
    rewrite make_fixed_bytes_ok by first [assumption | apply Z.divide_1_l | unfold alignment; cbn [In]; tauto]. reflexivity.
  - apply (arg_word_read "fixed_bytes" PFixedBytes g g1); auto. { in_words. } cbn [parse_type_args]. flat. req. 
    rewrite (number_arg_read g2 ds _ 31 n) by first [assumption | digits]. cbn [bind]. tk. req. req. req.
    rewrite (number_arg_read g6 ds' _ 31 a) by first [assumption | digits]. cbn [bind]. req. rewrite (numeral_atoi n), (numeral_atoi a) by auto. cbn [bind].
    rewrite make_fixed_bytes_ok by auto. reflexivity.
  - apply (arg_word_read "fixed_string" PFixedString g g1); auto. { in_words. } cbn [parse_type_args]. flat. req. destruct H2 as (U & V & W).
    rewrite (ds_number_read g2 ds) by first [assumption | digits]. cbn [bind]. destruct (uint_digits ds U) as (_ & Nn). destruct ds as [|d ds]; [congruence|]. cbn [at_end].
    rewrite (numeral_atoi n) by (split; auto). cbn [bind]. destruct (Z.eqb_spec n 0); [lia|]. tk. req. reflexivity.
  - apply (arg_word_read "fixed_string" PFixedString g g1); auto. { in_words. } cbn [parse_type_args]. flat. req. destruct H4 as (U & V & W).
    rewrite (ds_number_read g2 ds) by first [assumption | digits]. cbn [bind]. destruct (uint_digits ds U) as (_ & Nn). destruct ds as [|d ds]; [congruence|]. cbn [at_end].
    rewrite (numeral_atoi n) by (split; auto). cbn [bind]. destruct (Z.eqb_spec n 0); [lia|]. tk. rewrite (encoding_read g4 e w) by auto. cbn [bind]. req. reflexivity.
  - apply (arg_word_read "char" PChar g g1); auto. { in_words. } cbn [parse_type_args]. flat. req. rewrite (encoding_read g2 e w) by auto. cbn [bind]. req.
    cbn [In] in H3. destruct H3 as [<-|[<-|[<-|[]]]]; reflexivity.
  - apply nooption_word; auto. { now apply (dimension_word d). } { lits. cbn [app]. seps. }
    rewrite (named_star p w _ (g' ++ s ++ rest)). 2: { lits. cbn [app]. now strips. } 2: now apply (no_star e).
    apply dimension_dim; auto. apply need_read; auto. cbn in L. lia.
  - apply nooption_word; auto. { left. exists 68, [105; 109]. split; [reflexivity|]. split; [unfold letter; lia|]. repeat constructor; unfold letter; lia. } { lits. cbn [app]. seps. }
    rewrite (named_star p _ _ (g' ++ s ++ rest)). 2: { lits. cbn [app]. now strips. } 2: now apply (no_star e).
    unfold parse_dim. rewrite (need_read e s g') by first [assumption | cbn in L; lia]. reflexivity.
  - apply (arg_word_read "fixed" PFixed g g1); auto. { in_words. } cbn [parse_type_args]. flat. req.
    rewrite (number_arg_read g2 ds _ 63 n) by first [assumption | digits]. cbn [bind]. rewrite (numeral_atoll n) by auto. cbn [bind]. req. req.
    rewrite (need_read e s g5) by first [assumption | cbn in L; lia]. reflexivity.
  - apply nooption_word; auto. { now apply (dimension_word d). } { lits. cbn [app]. seps. }
    rewrite (named_pow p w _ (ds ++ g2 ++ codes "*" ++ g3 ++ s ++ rest)). 2: { lits. cbn [app]. now strips. }
    unfold parse_pow. rewrite word_read. 2: now apply numeral_word in H3. 2: { lits. cbn [app]. seps. } cbn [bind].
    replace (head_is (between 49 57) ds) with true.
    2: { destruct H3 as (U & V & _). destruct U as [|c u C F]; [cbn in V; lia|]. cbn [head_is]. unfold between. lia. }
    rewrite (numeral_parse k) by auto. cbn [bind]. flat. req. rewrite (IH e s g3 rest) by first [assumption | cbn in L; lia]. cbn [bind].
    rewrite (dimension_base d w) by auto. cbn [bind]. rewrite pow_iter. reflexivity.
  - apply nooption_word; auto. { now apply (dimension_word d). } { lits. cbn [app]. seps. }
    rewrite (named_pow p w _ (n ++ g2 ++ codes "*" ++ g3 ++ s ++ rest)). 2: { lits. cbn [app]. now strips. }
    unfold parse_pow. rewrite word_read. 2: { left. now apply capital_is_name. } 2: { lits. cbn [app]. seps. } cbn [bind].
    destruct (capital_upper n H3) as (-> & _ & ->). flat. tk. rewrite (dimension_base d w) by auto. cbn [bind]. rewrite (IH e s g3 rest) by first [assumption | cbn in L; lia]. cbn [bind].
    unfold checked_name. rewrite (proj1 (capital_valid n) H3). reflexivity.
  - unfold parse_datashape_nooption. rewrite skip_strip. flat. strips. cbn [bind]. rewrite word_none by (rewrite next_cons; notname). cbn [bind]. rewrite token_no_ws_eq. cbn [starts_with]. rewrite !Z.eqb_refl.
    req. rewrite (need_read e s g') by first [assumption | cbn in L; lia]. reflexivity.
  - apply nooption_word; auto. { left. now apply capital_is_name. } { lits. cbn [app]. seps. }
    rewrite (named_dots p n _ (g2 ++ codes "*" ++ g3 ++ s ++ rest)). 2: { lits. cbn [app]. now strips. }
    flat. req. rewrite (need_read e s g3) by first [assumption | cbn in L; lia]. cbn [bind]. unfold make_ellipsis, checked_name. rewrite (proj1 (capital_valid n) H). destruct n; reflexivity.
  - apply nooption_word; auto. { left. apply capital_is_name, H. } { now apply ends_sep. } rewrite named_type by now apply ends_next. apply dtype_typevar; auto. now apply ends_no_bracket.
  - apply nooption_word; auto. { left. apply capital_is_name, H. } { lits. cbn [app]. seps. } rewrite named_type. 2: { lits. cbn [app]. strips. rewrite next_cons. lia. }
    apply (dtype_app n p _ (g2 ++ s ++ g3 ++ codes "]" ++ rest) a (g3 ++ codes "]" ++ rest)); auto.
    + lits. cbn [app]. now strips.
    + apply need_read; auto; [lits; cbn [app]; ends|cbn in L; lia].
    + lits. cbn [app]. now strips.
  - exfalso. apply (Q (g0 ++ s)). reflexivity.
  - apply (arg_word_read "option" POption g g1); auto. { in_words. } cbn [parse_type_args]. flat. req. rewrite (need_read t s g2) by first [assumption | ends; fail | cbn in L; lia]. cbn [bind]. req.
    rewrite make_option_ok by auto. reflexivity.
  - apply (arg_word_read "pointer" PPointer g g1); auto. { in_words. } cbn [parse_type_args]. flat. req. rewrite (need_read t s g2) by first [assumption | ends; fail | cbn in L; lia]. cbn [bind]. req. reflexivity.
  - lits. cbn [app]. rewrite nooption_open by auto. rewrite struct_no. cbn [bind]. rewrite tuple_open,  (arguments_read l v s rest) by (first [assumption | cbn in L; lia]).
    cbn [bind]. lits. rewrite tok_ends by (auto; stops). reflexivity.
  - lits. cbn [app]. rewrite nooption_open by auto. rewrite (members_read l v s rest) by (first [assumption | cbn in L; lia]). reflexivity.
  - lits. cbn [app]. rewrite nooption_open by auto. rewrite struct_no. cbn [bind]. rewrite tuple_open,  (arguments_read l v s) by (first [assumption | cbn in L; lia]).
    cbn [bind]. tk. rewrite (need_read r rs g') by first [assumption | cbn in L; lia]. reflexivity.
  - lits. cbn [app]. rewrite nooption_open by auto. rewrite struct_no. cbn [bind]. rewrite tuple_open,  (keywords_read l v s k ks kv es g0 g' r rs rest) by (first [assumption | cbn in L; lia]). reflexivity.
Qed.
End Reads.

(** * The theorem *)
Theorem parse_read : forall fuel t s g rest, spelled t s -> gap g -> ends rest -> (List.length s < fuel)%nat -> parse fuel (g ++ s ++ rest) = Ok (Some (t, rest)).
Proof.
  induction fuel as [|f IH]; intros t s g rest H G E L; [lia|]. cbn [parse]. unfold parse_step. rewrite skip_strip. cbn [bind]. rewrite strip_gap, (strip_spelled t) by auto.
  rewrite token_no_ws_eq. destruct s as [|c s']; [apply spelled_len in H; cbn in H; lia|]. lits. cbn [app starts_with]. destruct (Z.eqb_spec c 63) as [->|C].
  - assert (X : exists u g' s'', t = DOption u /\ s' = g' ++ s'' /\ gap g' /\ spelled u s'' /\ forall v, u <> DOption v).
    { remember (63 :: s') as w eqn:W. destruct H; try (exfalso; revert W; lits; cbn [app]; intros W; discriminate W).
      - exfalso. assert (F : Forall (fun wt => forall k, codes (fst wt) <> 63 :: k) words). { unfold words. repeat (apply Forall_cons; [intros k; cbn [fst]; lits; discriminate|]). constructor. }
        rewrite Forall_forall in F. exact (F (w, t) H s' W).
      - exfalso. destruct (word_head w (dimension_word d w H)) as (c & r & -> & C). injection W as -> _. unfold name_char_p, letter, digit_c in C. lia.
      - exfalso. destruct (word_head w (dimension_word d w H)) as (c & r & -> & C). injection W as -> _. unfold name_char_p, letter, digit_c in C. lia.
      - exfalso. destruct (word_head w (dimension_word d w H)) as (c & r & -> & C). injection W as -> _. unfold name_char_p, letter, digit_c in C. lia.
      - exfalso. destruct H as (c & r & -> & C & _). injection W as -> _. lia.
      - exfalso. destruct H as ((c & r & -> & C & _) & _). injection W as -> _. lia.
      - exfalso. destruct H as ((c & r & -> & C & _) & _). injection W as -> _. lia.
      - revert W. lits. cbn [app]. intros W. injection W as <-. exists t, g0, s. auto. }
    destruct X as (u & g' & s'' & -> & -> & G' & S' & N). rewrite <- app_assoc. cbn [List.length] in L. rewrite app_length in L.
    rewrite (nooption_read (parse f) f IH u s'' g' rest); auto; try lia.
    + cbn [bind]. rewrite make_option_ok by auto. reflexivity.
    + intros r ->. destruct (spelled_head _ _ S') as (c & r' & Ec & _ & _ & _ & _ & _ & _ & O). injection Ec as <- <-. destruct (O eq_refl) as (v & ->). exact (N v eq_refl).
  - apply (nooption_read (parse f) f IH t (c :: s') g rest); auto; [|cbn [List.length] in *; lia]. intros r Er. congruence.
Qed.
Lemma parse_nothing f g : skipped g [] -> parse (S f) g = Ok None.
Proof.
  intros S. apply strip_of in S. cbn [parse]. unfold parse_step. rewrite skip_strip, S. cbn [bind]. rewrite token_no_ws_eq. cbn [starts_with]. lits. cbn [starts_with].
  unfold parse_datashape_nooption. rewrite skip_strip, S. cbn [bind]. rewrite word_none by apply not_next_nil. cbn [bind]. rewrite token_no_ws_eq. lits. cbn [starts_with bind].
  unfold parse_struct. rewrite tok_strip. change (strip []) with (@nil Z). lits. cbn [starts_with bind]. unfold parse_tuple_or_funcproto. rewrite tok_strip. reflexivity.
Qed.
Lemma type_word t s g r : spelled t s -> s ++ g = codes "type" ++ r -> s = codes "type" /\ t = DType.
Proof.
  intros H E. revert E. lits. cbn [app]. intros E. destruct H; try (exfalso; revert E; lits; cbn [app]; intros E; discriminate E).
  - assert (F : Forall (fun wt => codes (fst wt) ++ g = [116; 121; 112; 101] ++ r -> codes (fst wt) = [116; 121; 112; 101] /\ snd wt = DType) words).
    { unfold words. repeat (apply Forall_cons; [cbn [fst snd]; lits; cbn [app]; intros X; first [discriminate X | split; reflexivity]|]). constructor. }
    rewrite Forall_forall in F. exact (F (w, t) H E).
  - exfalso. destruct H; revert E; lits; cbn [app]; intros E; try discriminate E.
    + destruct H as (U & _). destruct (uint_digits _ U) as (D & N). destruct ds; [congruence|]. injection E as -> _. inversion D; subst. unfold digit_c in *. lia.
    + destruct H as ((c & k & -> & C & _) & _). injection E as -> _. lia.
  - exfalso. destruct H; revert E; lits; cbn [app]; intros E; try discriminate E.
    + destruct H as (U & _). destruct (uint_digits _ U) as (D & N). destruct ds0; [congruence|]. injection E as -> _. inversion D; subst. unfold digit_c in *. lia.
    + destruct H as ((c & k0 & -> & C & _) & _). injection E as -> _. lia.
  - exfalso. destruct H; revert E; lits; cbn [app]; intros E; try discriminate E.
    + destruct H as (U & _). destruct (uint_digits _ U) as (D & N). destruct ds; [congruence|]. injection E as -> _. inversion D; subst. unfold digit_c in *. lia.
    + destruct H as ((c & k0 & -> & C & _) & _). injection E as -> _. lia.
  - exfalso. destruct H as (c & k & -> & C & _). injection E as -> _. lia.
  - exfalso. destruct H as ((c & k & -> & C & _) & _). injection E as -> _. lia.
  - exfalso. destruct H as ((c & k & -> & C & _) & _). injection E as -> _. lia.
Qed.
Lemma stmt_nothing st g : skipped g [] -> parse_stmt st g = Ok None.
Proof.
  intros S. unfold parse_stmt. rewrite tok_strip, (strip_of _ _ S). lits. cbn [starts_with bind]. unfold ds_parse. rewrite parse_nothing by auto. reflexivity.
Qed.
Lemma stmts_nothing f st t g : skipped g [] -> stmts (S f) st t g = Ok t.
Proof. intros S. cbn [stmts]. rewrite stmt_nothing by auto. cbn [bind]. rewrite skip_strip, (strip_of _ _ S). reflexivity. Qed.
Lemma nothing_head g : skipped g [] -> g = [] \/ next_is space_c g \/ next_is (eq 35) g.
Proof.
  intros S. inversion S; subst; auto.
  - right. left. exists c, s. auto.
  - right. right. exists 35, (body ++ 10 :: s). auto.
  - right. right. exists 35, body. auto.
Qed.
Lemma skipped_suffix w s : Forall space_c w -> skipped (w ++ s) [] -> skipped s [].
Proof.
  intros F H. pose proof (strip_skipped s) as S. pose proof (skipped_spaces w s _ F S) as S'. pose proof (skipped_fun _ _ H _ S') as E. now rewrite E.
Qed.
Lemma stmt_type st s g r : s = codes "type" -> gap g -> skipped r [] -> ~ next_is (eq 35) r -> exists r', parse_stmt st (g ++ s ++ r) = Ok (Some (DType, st, r')) /\ skipped r' [].
Proof.
  intros -> G S N. unfold parse_stmt. assert (E : strip (g ++ codes "type" ++ r) = codes "type" ++ r). { rewrite strip_gap by auto. apply (strip_spelled DType). apply sp_word. unfold words. cbn [In]. tauto. }
  rewrite tok_strip, E. change (lit "type") with (codes "type"). rewrite (proj2 (starts_with_iff (codes "type") _ r)) by reflexivity. cbn [bind].
  destruct (skip_required_whitespace r) as [r1|] eqn:R.
  + apply skip_required_iff in R as (w & Wn & Ew & W & Rn). rewrite Ew in S. apply skipped_suffix in S; auto.
    destruct (nothing_head r1 S) as [->|[Z|Z]].
    * exists []. split; [reflexivity|]. apply sk_stop, not_next_nil.
    * contradiction.
    * rewrite (proj2 (parse_name_none r1)). 2: { destruct Z as (c & r' & -> & <-). rewrite next_cons. unfold letter. lia. } cbn [bind]. rewrite skip_strip, (strip_of _ _ S). cbn [bind at_end].
      exists []. split; [reflexivity|]. apply sk_stop, not_next_nil.
  + destruct (nothing_head r S) as [->|[Z|Z]]; [exists []; split; [reflexivity|apply sk_stop, not_next_nil]| |contradiction]. apply (proj2 (skip_required_iff r)) in R. contradiction.
Qed.
Lemma stmt_read st t s g g' : spelled t s -> gap g -> skipped g' [] -> (t = DType -> ~ next_is (eq 35) g') -> exists r', parse_stmt st (g ++ s ++ g') = Ok (Some (t, st, r')) /\ skipped r' [].
Proof.
  intros H G S N. assert (E : ends g') by now apply ends_nothing.
  destruct (starts_with (codes "type") (s ++ g')) as [r|] eqn:T.
  - apply starts_with_iff in T. destruct (type_word t s g' r H T) as (-> & ->). apply stmt_type; auto.
  - unfold parse_stmt. rewrite tok_strip, strip_gap, (strip_spelled t) by auto. change (lit "type") with (codes "type"). rewrite T. cbn [bind]. unfold ds_parse.
    rewrite (parse_read _ t s g g') by (auto; rewrite !app_length; lia). exists g'. auto.
Qed.
Theorem type_read t s g g' : spelled t s -> gap g -> skipped g' [] -> (t = DType -> ~ next_is (eq 35) g') -> type_from_datashape (g ++ s ++ g') = Ok t.
Proof.
  intros H G S N. unfold type_from_datashape, parse_top. destruct (stmt_read [] t s g g' H G S N) as (r & -> & R). cbn [bind]. now apply stmts_nothing.
Qed.

