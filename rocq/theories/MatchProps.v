(** C60, C61, C62: matching a type against a pattern and substituting what was found. *)
From Verif Require Import Base TypesModel MatchModel MatchSpec MatchProofs MatchProofs2 MatchProofs3 MatchProofs4 MatchProofs5 MatchProofs6 MatchProofs7.
Local Open Scope string_scope.
Local Open Scope Z_scope.

Definition i32 := TBuiltin int32.
Definition f64 := TBuiltin float64.
(** (Dims... * T, N * T) -> T, with the fields in a tuple, and one of its instances. *)
Definition ex_p := TTuple [TEllipsis "Dims" (TTypevar "T"); TTypevarDim "N" (TTypevar "T"); TOption (TTypevar "S"); TPow (TFixedDim 3 (TBuiltin void)) "K" (TTypevar "T")] false.
Definition ex_c := TTuple [TFixedDim 5 (TVarDim i32); TFixedDim 7 i32; TOption f64; TFixedDim 3 (TFixedDim 3 i32)] false.
Definition ex_vs : env := [("K", TFixedDim 2 (TBuiltin void)); ("S", f64); ("N", TFixedDim 7 i32); ("T", i32); ("Dims", TDimFragment [5; -1])].

(** ** C60: a match that succeeds is right *)
Theorem C60_match_sound_partial : forall p c vs vs',
  sound_pattern p = true -> concrete c = true -> plain_options c = true -> vars_ok vs ->
  match_ p c vs = Ok (true, vs') ->
  inst broadcasts_to (meaning vs') p c /\ vars_ok vs' /\
  (forall s b, meaning vs s = Some b -> exists b', meaning vs' s = Some b' /\ refines b b').
Proof.
  intros p c vs vs' Hs Hc Hp Hv Hm. destruct (sound false p c vs vs' Hs Hc Hp Hv ltac:(discriminate) Hm) as [A [B [C _]]].
  split; [exact C|]. split; [exact A|]. intros s b Hb. exact (meaning_ext false vs vs' s b B Hb).
Qed.
(** With every ellipsis name used once, the dimensions found are exactly the candidate's. *)
Theorem C60_match_exact_partial : forall p c vs,
  sound_pattern p = true -> concrete c = true -> plain_options c = true -> NoDup (ellipsis_names p) ->
  match_ p c [] = Ok (true, vs) -> inst eq (meaning vs) p c.
Proof.
  intros p c vs Hs Hc Hp Hn Hm. assert (V0 : vars_ok []) by (intros s t; discriminate).
  assert (P0 : pre true (ellipsis_names p) []) by (intros _; split; [exact Hn | intros s _ l; discriminate]).
  destruct (sound true p c [] vs Hs Hc Hp V0 P0 Hm) as [_ [_ [C _]]]. exact C.
Qed.
(** An instance is recognised, whatever its variables stand for. *)
Theorem C60_match_complete_partial : forall g p c,
  complete_pattern p = true -> concrete c = true -> plain_options c = true ->
  (forall s, In s (ellipsis_names p) -> count_occ string_dec (names p) s = 1%nat) ->
  inst broadcasts_to g p c -> exists vs, match_ p c [] = Ok (true, vs).
Proof.
  intros g p c Hs Hc Hp Ho Hi. destruct (complete g broadcasts_to p c [] Hs Hc Hp Hi Ho ltac:(intros s t _ E; discriminate E)) as [vs [M _]]. eauto.
Qed.
(** No exception and no undefined behaviour, for any pattern. *)
Theorem C60_match_total_partial : forall p c,
  concrete c = true -> plain_options c = true -> NoDup (ellipsis_names p) ->
  exists b vs, match_ p c [] = Ok (b, vs).
Proof.
  intros p c Hc Hp Hn. destruct (total p c [] Hc Hp ltac:(split; [exact Hn | intros s _ l; discriminate])) as [b [vs [M _]]]. eauto.
Qed.
(** Every concrete type matches itself, and only itself. *)
Theorem C60_match_concrete : forall p c vs, concrete p = true -> concrete c = true ->
  (p = c -> match_ p c vs = Ok (true, vs)) /\ (forall vs', match_ p c vs = Ok (true, vs') -> p = c).
Proof. intros p c vs Hp Hc. split; [intros <-; exact (match_same p vs Hp) | intros vs'; exact (match_only p c vs vs' Hp Hc)]. Qed.
Example C60_example : sound_pattern ex_p = true /\ complete_pattern ex_p = true /\ concrete ex_c = true /\ plain_options ex_c = true /\
  NoDup (ellipsis_names ex_p) /\ (forall s, In s (ellipsis_names ex_p) -> count_occ string_dec (names ex_p) s = 1%nat) /\
  match_ ex_p ex_c [] = Ok (true, ex_vs) /\ inst broadcasts_to (meaning ex_vs) ex_p ex_c.
Proof.
  repeat split; try reflexivity.
  - repeat constructor; intros [].
  - intros s [<-|[]]. reflexivity.
  - refine (proj1 (C60_match_sound_partial ex_p ex_c [] ex_vs _ _ _ _ _)); try reflexivity. intros s t; discriminate.
Qed.

(** *** Where it fails *)
(** Dim discards the variables below it: (Dim * T, T) accepts (3 * int32, float64). *)
Theorem C60_dim_discards_refuted : exists p c vs, concrete c = true /\ plain_options c = true /\
  match_ p c [] = Ok (true, vs) /\ ~ exists g, inst broadcasts_to g p c.
Proof.
  exists (TTuple [TDimKind (TTypevar "T"); TTypevar "T"] false), (TTuple [TFixedDim 3 i32; f64] false), [("T", f64)].
  repeat split. intros [g [cs [E H]]]. injection E as <-. destruct H as [[d [f [E1 [G1 _]]]] [[G2 _] _]]. destruct d; cbn in E1; [|discriminate]. injection E1 as <- <-.
  rewrite G1 in G2. discriminate.
Qed.
(** A power of var accepts dimensions that are not var: var ** N * Any accepts 3 * int32. *)
Theorem C60_var_power_refuted : exists p c vs, concrete c = true /\ plain_options c = true /\
  match_ p c [] = Ok (true, vs) /\ ~ inst broadcasts_to (meaning vs) p c.
Proof.
  exists (TPow (TVarDim (TBuiltin void)) "N" TAny), (TFixedDim 3 i32), [("N", TFixedDim 1 (TBuiltin void))].
  repeat split. intros [ds [f [E [_ [G H]]]]]. unfold meaning in G. cbn in G. injection G as G. destruct ds as [|d ds]; [discriminate|].
  specialize (H ltac:(discriminate)). inversion H; subst. discriminate E.
Qed.
(** A name used by two ellipses and a candidate that needs broadcasting reads uninitialised memory. *)
Theorem C60_repeated_ellipsis_refuted : exists p c, sound_pattern p = true /\ concrete c = true /\ plain_options c = true /\
  (exists g, inst broadcasts_to g p c) /\ match_ p c [] = UB.
Proof.
  exists (TTuple [TEllipsis "Dims" i32; TEllipsis "Dims" i32] false), (TTuple [TFixedDim 3 i32; TFixedDim 2 (TFixedDim 3 i32)] false).
  repeat split. exists (fun _ => Some (BFrag [DFixed 2; DFixed 3])). exists [TFixedDim 3 i32; TFixedDim 2 (TFixedDim 3 i32)]. split; [reflexivity|]. cbn [inst].
  split; [|split; [|reflexivity]].
  - exists [DFixed 3], i32. repeat split. intros _. eexists. split; [reflexivity|]. exists [DFixed 2], [DFixed 3]. split; [reflexivity|]. repeat constructor.
  - exists [DFixed 2; DFixed 3], i32. repeat split. intros _. eexists. split; [reflexivity|]. exists [], [DFixed 2; DFixed 3]. split; [reflexivity|]. repeat constructor.
Qed.
(** An option of an array counts as a dimension: D * T accepts ?3 * int32, and a
    named ellipsis throws on it. *)
Theorem C60_option_of_dims_refuted : exists c vs, concrete c = true /\
  match_ (TTypevarDim "D" (TTypevar "T")) c [] = Ok (true, vs) /\
  ~ inst broadcasts_to (meaning vs) (TTypevarDim "D" (TTypevar "T")) c /\
  subst true vs (TTypevarDim "D" (TTypevar "T")) = Throw "invalid_argument" /\
  match_ (TEllipsis "Dims" (TTypevar "T")) c [] = Throw "type_error".
Proof.
  exists (TOption (TFixedDim 3 i32)), [("T", i32); ("D", TOption (TFixedDim 3 i32))]. repeat split.
  intros [d [f [_ [E _]]]]. destruct d; discriminate.
Qed.
(** The kinds Bytes and String leave out types that belong to them. *)
Theorem C60_kinds_refuted :
  (in_kind KBytes (TLeaf (LFixedBytes 8 1)) /\ match_ (TKind KBytes) (TLeaf (LFixedBytes 8 1)) [] = Ok (false, [])) /\
  (in_kind KString (TLeaf (LChar 0)) /\ match_ (TKind KString) (TLeaf (LChar 0)) [] = Ok (false, [])).
Proof. split; split; try reflexivity; cbn; eauto. Qed.
(** An ellipsis before a pattern whose number of dimensions is not known takes too
    much: ... * ... * 3 * T does not accept 3 * int32 although it is an instance. *)
Theorem C60_two_ellipses_refuted : exists p c, concrete c = true /\ (exists g, inst broadcasts_to g p c) /\ match_ p c [] = Ok (false, []).
Proof.
  exists (TEllipsis "" (TEllipsis "" (TFixedDim 3 i32))), (TFixedDim 3 i32). split; [reflexivity|]. split; [|reflexivity].
  exists (fun _ => None). exists [], (TFixedDim 3 i32). split; [reflexivity|]. split; [|congruence].
  exists [], (TFixedDim 3 i32). split; [reflexivity|]. split; [|congruence]. cbn. eauto.
Qed.

(** ** C61: substituting what a match found gives the candidate back *)
Theorem C61_round_trip_partial : forall p c vs,
  sound_pattern p = true -> substitutable p = true -> concrete c = true -> plain_options c = true -> NoDup (ellipsis_names p) ->
  match_ p c [] = Ok (true, vs) -> subst true vs p = Ok c.
Proof.
  intros p c vs Hs Hu Hc Hp Hn Hm. assert (V0 : vars_ok []) by (intros s t; discriminate).
  assert (P0 : pre true (ellipsis_names p) []) by (intros _; split; [exact Hn | intros s _ l; discriminate]).
  destruct (sound true p c [] vs Hs Hc Hp V0 P0 Hm) as [V [_ [I _]]].
  destruct (subst_sound true p c vs Hu Hc V I) as [c' [E [_ L]]]. rewrite (L eq_refl) in E. exact E.
Qed.
(** With names used by several ellipses, and from variables that already have
    values, it gives a type the candidate broadcasts to. *)
Theorem C61_round_trip_wider_partial : forall p c vs vs',
  sound_pattern p = true -> substitutable p = true -> concrete c = true -> plain_options c = true -> vars_ok vs ->
  match_ p c vs = Ok (true, vs') -> exists c', subst true vs' p = Ok c' /\ wider c c'.
Proof.
  intros p c vs vs' Hs Hu Hc Hp Hv Hm. destruct (sound false p c vs vs' Hs Hc Hp Hv ltac:(discriminate) Hm) as [V [_ [I _]]].
  destruct (subst_sound false p c vs' Hu Hc V I) as [c' [E [W _]]]. eauto.
Qed.
(** Substitution on its own: for any assignment under which [c] is an instance. *)
Theorem C61_substitute_instance_partial : forall p c vs,
  substitutable p = true -> concrete c = true -> vars_ok vs -> inst eq (meaning vs) p c -> subst true vs p = Ok c.
Proof.
  intros p c vs Hu Hc Hv Hi. destruct (subst_sound true p c vs Hu Hc Hv Hi) as [c' [E [_ L]]]. rewrite (L eq_refl) in E. exact E.
Qed.
Example C61_example : substitutable ex_p = true /\ subst true ex_vs ex_p = Ok ex_c.
Proof. split; [reflexivity|]. apply (C61_round_trip_partial ex_p ex_c ex_vs); try reflexivity. repeat constructor; intros []. Qed.
(** *** Where it fails *)
(** Patterns with a variadic tuple lose the fields after the named ones. *)
Theorem C61_variadic_refuted : exists p c vs, concrete c = true /\ match_ p c [] = Ok (true, vs) /\ subst true vs p = Ok (TTuple [i32] false) /\ c <> TTuple [i32] false.
Proof. exists (TTuple [TTypevar "T"] true), (TTuple [i32; f64] false), [("T", i32)]. repeat split. discriminate. Qed.
(** A callable inside a tuple without other variables is left as it is. *)
Theorem C61_nested_callable_refuted : exists p c vs, sound_pattern p = true /\ concrete c = true /\ match_ p c [] = Ok (true, vs) /\ subst true vs p = Ok p /\ p <> c.
Proof.
  exists (TTuple [TCallable (TTypevar "R") (TTuple [TTypevar "T"] false) (TStruct [] [] false)] false),
    (TTuple [TCallable i32 (TTuple [f64] false) (TStruct [] [] false)] false), [("T", f64); ("R", i32)]. repeat split. discriminate.
Qed.
(** A callable with keyword parameters cannot be substituted at all. *)
Theorem C61_keywords_refuted : exists p c vs, sound_pattern p = true /\ concrete c = true /\ match_ p c [] = Ok (true, vs) /\ subst true vs p = UB.
Proof.
  exists (TCallable (TTypevar "R") (TTuple [] false) (TStruct ["a"] [TTypevar "T"] false)),
    (TCallable i32 (TTuple [] false) (TStruct ["a"] [f64] false)), [("T", f64); ("R", i32)]. repeat split.
Qed.
(** An ellipsis without a name matches but cannot be substituted. *)
Theorem C61_unnamed_ellipsis_refuted : exists p c vs, sound_pattern p = true /\ concrete c = true /\ match_ p c [] = Ok (true, vs) /\ subst true vs p = Throw "invalid_argument".
Proof. exists (TEllipsis "" (TTypevar "T")), (TFixedDim 3 i32), [("T", i32)]. repeat split. Qed.

(** ** C62: substitution into a concrete type *)
Theorem C62_not_symbolic_partial : forall p vs c,
  vars_ok vs -> (forall s, In s (exponents p) -> exists t, find vs s = Some t) ->
  subst true vs p = Ok c -> symbolic c = false.
Proof. intros p vs c Hv Hb H. exact (subst_nonsymbolic p vs c Hv Hb H). Qed.
(** A type without symbolic parts is returned as it is. *)
Theorem C62_concrete_unchanged : forall concrete_ vs c, symbolic c = false -> (forall r ps k, c <> TCallable r ps k) -> subst concrete_ vs c = Ok c.
Proof. intros b vs c H N. destruct c; cbn [subst symbolic] in *; try discriminate H; try rewrite H; try reflexivity. destruct (N c1 c2 c3 eq_refl). Qed.
(** Without variables a pattern is returned as it is. *)
Theorem C62_no_variables_partial : forall p, plain_pattern p = true -> subst false [] p = Ok p.
Proof. exact subst_nil. Qed.
Example C62_example : vars_ok ex_vs /\ (forall s, In s (exponents ex_p) -> exists t, find ex_vs s = Some t) /\ subst true ex_vs ex_p = Ok ex_c /\ symbolic ex_c = false /\
  plain_pattern ex_p = true /\ symbolic ex_p = true /\ subst false [] ex_p = Ok ex_p.
Proof.
  split; [|repeat split].
  - intros s t. unfold ex_vs, find. cbn [find_raw].
    repeat match goal with |- context [String.eqb ?a s] => destruct (String.eqb a s); [cbn; intros H; injection H as <-; reflexivity|] end. discriminate.
  - intros s [<-|[]]. eexists. reflexivity.
Qed.
(** *** Where it fails *)
Theorem C62_exponent_refuted : exists p vs c, vars_ok vs /\ subst true vs p = Ok c /\ symbolic c = true.
Proof. exists (TPow (TFixedDim 3 (TBuiltin void)) "N" i32), [], (TPow (TFixedDim 3 (TBuiltin void)) "N" i32). split; [intros s t; discriminate | split; reflexivity]. Qed.
(** A fragment taken from a symbolic candidate carries Fixed into a concrete type. *)
Theorem C62_fragment_refuted : exists p c vs c', match_ p c [] = Ok (true, vs) /\ subst true vs p = Ok c' /\ symbolic c' = true.
Proof. exists (TEllipsis "Dims" i32), (TFixedDimKind i32), [("Dims", TDimFragment [-2])], (TFixedDimKind i32). repeat split. Qed.
(** Kinds cannot be substituted even when no concrete type is asked for. *)
Theorem C62_kinds_refuted : forall vs k, subst false vs (TTuple [TKind k] false) = Throw "runtime_error".
Proof. reflexivity. Qed.

Print Assumptions C60_match_sound_partial.
Print Assumptions C60_match_exact_partial.
Print Assumptions C60_match_complete_partial.
Print Assumptions C60_match_total_partial.
Print Assumptions C60_match_concrete.
Print Assumptions C60_dim_discards_refuted.
Print Assumptions C60_var_power_refuted.
Print Assumptions C60_repeated_ellipsis_refuted.
Print Assumptions C60_option_of_dims_refuted.
Print Assumptions C60_kinds_refuted.
Print Assumptions C60_two_ellipses_refuted.
Print Assumptions C61_round_trip_partial.
Print Assumptions C61_round_trip_wider_partial.
Print Assumptions C61_substitute_instance_partial.
Print Assumptions C61_variadic_refuted.
Print Assumptions C61_nested_callable_refuted.
Print Assumptions C61_keywords_refuted.
Print Assumptions C61_unnamed_ellipsis_refuted.
Print Assumptions C62_not_symbolic_partial.
Print Assumptions C62_concrete_unchanged.
Print Assumptions C62_no_variables_partial.
Print Assumptions C62_exponent_refuted.
Print Assumptions C62_fragment_refuted.
Print Assumptions C62_kinds_refuted.
