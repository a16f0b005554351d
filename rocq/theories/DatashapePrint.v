(** What is printed is a spelling (C90). *)
From Verif Require Import Base ParseIntModel ScanModel ScanSpec ScanProofs EncodingModel EncodingSpec EncodingProofs EscapeModel EscapeSpec EscapeProofs TypesModel DatashapeModel DatashapeSpec DatashapeProofs DatashapeRead.
Open Scope Z_scope.

(** * Decimal texts *)
Lemma dec_value_snoc ds c : dec_value (ds ++ [c]) = 10 * dec_value ds + (c - 48).
Proof. unfold dec_value. now rewrite fold_left_app. Qed.
Lemma uint_snoc ds c : uint_lit ds -> dec_value ds <> 0 -> digit_c c -> uint_lit (ds ++ [c]).
Proof. intros [|d t D F] N C; [exfalso; apply N; reflexivity|]. cbn [app]. constructor; auto. apply Forall_app. auto. Qed.
Lemma dec_loop_ok f : forall n acc, 0 <= n < Z.of_nat f -> exists ds, dec_loop f n acc = ds ++ acc /\ uint_lit ds /\ dec_value ds = n.
Proof.
  induction f as [|f IH]; intros n acc H; [lia|]. cbn [dec_loop]. destruct (Z.ltb_spec n 10) as [L|L].
  - exists [48 + n]. split; auto. split; [|unfold dec_value; cbn [fold_left]; lia]. destruct (Z.eq_dec n 0) as [->|N]; [constructor|]. constructor; auto. lia.
  - assert (B : 0 <= n / 10 < Z.of_nat f) by (split; [apply Z.div_pos; lia|]; apply Z.div_lt_upper_bound; lia).
    destruct (IH (n / 10) (48 + n mod 10 :: acc) B) as (ds & E & U & V). exists (ds ++ [48 + n mod 10]). rewrite E, <- app_assoc. split; auto.
    pose proof (Z.mod_pos_bound n 10 ltac:(lia)). pose proof (Z.div_mod n 10 ltac:(lia)). split.
    + apply uint_snoc; auto; [|unfold digit_c; lia]. rewrite V. assert (1 <= n / 10) by (apply Z.div_le_lower_bound; lia). lia.
    + rewrite dec_value_snoc, V. lia.
Qed.
Lemma int_text_numeral bits n : 0 <= n < 2 ^ bits -> numeral bits n (int_text n).
Proof.
  intros H. unfold int_text. destruct (Z.ltb_spec n 0); [lia|]. unfold dec_text. destruct (dec_loop_ok (S (Z.to_nat n)) n [] ltac:(lia)) as (ds & E & U & V).
  rewrite E, app_nil_r. split; auto. split; auto. lia.
Qed.

(** * Names *)
Lemma simple_name n : is_simple_identifier_name n = true -> name n.
Proof.
  destruct n as [|c r]; [discriminate|]. cbn [is_simple_identifier_name]. rewrite andb_true_iff. intros (A & B). exists c, r. split; auto. split; [now apply name_start_iff|].
  rewrite Forall_forall. rewrite forallb_forall in B. intros x X. apply name_char_iff, B, X.
Qed.
Lemma name_simple n : name n -> is_simple_identifier_name n = true.
Proof.
  intros (c & r & -> & C & F). cbn [is_simple_identifier_name]. rewrite andb_true_iff. split; [now apply name_start_iff|]. rewrite forallb_forall. rewrite Forall_forall in F. intros x X. apply name_char_iff, F, X.
Qed.
Lemma field_text n : nice_field n -> exists ns, name_text n = Ok ns /\ field_name false n ns.
Proof.
  intros H. unfold name_text. destruct (is_simple_identifier_name n) eqn:E.
  - exists n. split; auto. constructor. now apply simple_name.
  - destruct H as [H|(cps & T & F)]; [apply name_simple in H; congruence|]. exists (quote_of true :: printed true cps ++ [quote_of true]). split; [now apply print_eq|].
    constructor. exists 39, (printed true cps). split; auto. split; auto. exact (ds_printed true cps n T F).
Qed.
Lemma name_field n : name n -> name_text n = Ok n /\ field_name true n n.
Proof. intros H. unfold name_text. rewrite name_simple by auto. split; auto. now constructor. Qed.

(** * Lists *)
Definition print_types := fix types (first : bool) (l : list dt) : outcome (list Z) :=
  match l with
  | [] => Ok []
  | t :: r => do s <- print_type t; do s' <- types false r; Ok ((if first then [] else lit ", ") ++ s ++ s')
  end.
Definition print_fields := fix fields (first : bool) (l : list (list Z * dt)) : outcome (list Z) :=
  match l with
  | [] => Ok []
  | (n, t) :: r =>
      do ns <- name_text n; do s <- print_type t; do s' <- fields false r;
      Ok ((if first then [] else lit ", ") ++ ns ++ lit ": " ++ s ++ s')
  end.
Definition good (t : dt) : Prop := exists s, print_type t = Ok s /\ spelled t s.
Lemma gap1 : gap [32].
Proof. constructor; [unfold space_c; lia|constructor]. Qed.
Lemma print_types_ok l : l <> [] -> Forall good l -> exists s, types l s /\ types l (32 :: s) /\ forall first, print_types first l = Ok ((if first then [] else lit ", ") ++ s).
Proof.
  intros N F. induction l as [|t l IH]; [congruence|]. inversion F as [|? ? (s & P & S) F']; subst. destruct l as [|u l].
  - exists s. split; [exact (ty_one t s [] gap_nil S)|]. split; [exact (ty_one t s [32] gap1 S)|]. intros first. cbn [print_types]. rewrite P. cbn [bind]. now rewrite app_nil_r.
  - destruct (IH ltac:(discriminate) F') as (s' & T & T' & E). exists (s ++ codes "," ++ 32 :: s'). split; [exact (ty_cons t s [] [] _ _ gap_nil gap_nil S T')|].
    split; [exact (ty_cons t s [32] [] _ _ gap1 gap_nil S T')|]. intros first. specialize (E false). cbn [print_types] in *. rewrite P. cbn [bind]. rewrite E. reflexivity.
Qed.
Definition good_field (bare : bool) (f : list Z * dt) : Prop := (exists ns, name_text (fst f) = Ok ns /\ field_name bare (fst f) ns) /\ good (snd f).
Lemma print_fields_ok bare l : l <> [] -> Forall (good_field bare) l ->
  exists s, items bare l s /\ items bare l (32 :: s) /\ forall first, print_fields first l = Ok ((if first then [] else lit ", ") ++ s).
Proof.
  intros N F. induction l as [|(n, t) l IH]; [congruence|]. inversion F as [|? ? ((ns & Pn & Fn) & (s & P & S)) F']; subst. cbn [fst snd] in *. destruct l as [|u l].
  - exists (ns ++ codes ":" ++ [32] ++ s). split; [exact (it_one bare n ns t s [] [] [32] gap_nil gap_nil gap1 Fn S)|]. split; [exact (it_one bare n ns t s [32] [] [32] gap1 gap_nil gap1 Fn S)|].
    intros first. cbn [print_fields]. rewrite Pn. cbn [bind]. rewrite P. cbn [bind]. now rewrite app_nil_r.
  - destruct (IH ltac:(discriminate) F') as (s' & T & T' & E). exists (ns ++ codes ":" ++ [32] ++ s ++ codes "," ++ 32 :: s').
    split; [exact (it_cons bare n ns t s [] [] [32] [] _ _ gap_nil gap_nil gap1 gap_nil Fn S T')|].
    split; [exact (it_cons bare n ns t s [32] [] [32] [] _ _ gap1 gap_nil gap1 gap_nil Fn S T')|].
    intros first. specialize (E false). cbn [print_fields] in *. rewrite Pn. cbn [bind]. rewrite P. cbn [bind]. rewrite E. reflexivity.
Qed.
Lemma print_tuple l v : print_type (DTuple l v) = do s <- print_types true l; Ok (lit "(" ++ s ++ lit (if v then ", ...)" else ")")).
Proof. reflexivity. Qed.
Lemma print_struct l v : print_type (DStruct l v) = do s <- print_fields true l; Ok (lit "{" ++ s ++ lit (if v then ", ...}" else "}")).
Proof. reflexivity. Qed.
Definition any {A} (l : list A) : bool := match l with [] => false | _ => true end.
Lemma print_callable r p pv k kv : print_type (DCallable r p pv k kv) =
  do ps <- print_types true p; do ks <- print_fields (negb (any p || pv)) k; do rs <- print_type r;
  Ok (lit "(" ++ ps ++ (if pv then (if any p then lit ", ..." else lit "...") else []) ++ ks ++ (if any k && kv then lit ", ..." else []) ++ lit ") -> " ++ rs).
Proof. destruct p, k; reflexivity. Qed.

Section Induction.
Variable P : dt -> Prop.
Hypothesis HT : forall l v, Forall P l -> P (DTuple l v).
Hypothesis HS : forall l v, Forall (fun f => P (snd f)) l -> P (DStruct l v).
Hypothesis HC : forall r l v k kv, P r -> Forall P l -> Forall (fun f => P (snd f)) k -> P (DCallable r l v k kv).
Hypothesis H0 : forall t, match t with
  | DBuiltin _ | DKind _ | DBytes _ | DFixedBytes _ _ | DString | DFixedString _ _ | DChar _ | DType | DArray | DState | DTypevar _ => True
  | DFixed _ e | DVar e | DFixedKind e | DDimKind e | DTypevarDim _ e | DTypevarApp _ e | DEllipsis _ e | DPow _ _ e | DPointer e | DOption e => P e
  | _ => False end -> P t.
Fixpoint dt_rect' (t : dt) : P t.
Proof.
  destruct t; try (apply H0; exact I); try (apply H0; apply dt_rect').
  - apply HT. revert fields. fix go 1. intros [|t l]; constructor; [apply dt_rect'|apply go].
  - apply HS. revert fields. fix go 1. intros [|[n t] l]; constructor; [apply dt_rect'|apply go].
  - apply HC; [apply dt_rect'| |].
    + revert pos. fix go 1. intros [|t' l]; constructor; [apply dt_rect'|apply go].
    + revert kwds. fix go 1. intros [|[n t'] l]; constructor; [apply dt_rect'|apply go].
Qed.
End Induction.
Lemma spelled_word w t : In (w, t) words -> spelled t (codes w).
Proof. apply sp_word. Qed.
Ltac word := apply spelled_word; unfold words; cbn [In]; tauto.
Lemma gap1' : gap (codes " ").
Proof. exact gap1. Qed.
Lemma plain_denotes l : Forall (fun c => c <> 39 /\ c <> 92) l -> ds_denotes 39 l l.
Proof. induction 1 as [|c l (A & B) F I]; [constructor|]. exact (dsd_cons 39 [c] [c] l l (ds_plain 39 c A B) I). Qed.
Lemma dec_value_nonneg ds : Forall digit_c ds -> 0 <= dec_value ds.
Proof.
  intros F. unfold dec_value. assert (G : forall a, 0 <= a -> 0 <= fold_left (fun a c => 10 * a + (c - 48)) ds a).
  { induction F as [|c ds C F IH]; intros a A; cbn [fold_left]; auto. apply IH. unfold digit_c in C. lia. }
  apply G. lia.
Qed.
Theorem print_spelled t : printable t -> good t.
Proof.
  induction t as [l v IH|l v IH|r l v k kv IHr IHl IHk|t IH] using dt_rect'; intros H.
  - inversion H; subst. destruct l as [|t l].
    + destruct v; [exfalso; match goal with X : true = true -> _ |- _ => exact (X eq_refl eq_refl) end|]. exists (codes "()"). split; auto. exact (sp_tuple [] false [] (ar_none [] gap_nil)).
    + destruct (print_types_ok (t :: l)) as (s & T & _ & E); [discriminate| |]. { rewrite Forall_forall in *. auto. }
      unfold good. rewrite print_tuple, E. cbn [bind app]. destruct v.
      * exists (codes "(" ++ (s ++ [] ++ codes "," ++ [32] ++ dots ++ []) ++ codes ")"). split; [flat; reflexivity|]. apply sp_tuple, ar_some; auto. apply (en_dots [] [32] [] gap_nil gap1 gap_nil).
      * exists (codes "(" ++ (s ++ []) ++ codes ")"). split; [flat; reflexivity|]. apply sp_tuple, ar_some; auto. apply (en_plain [] gap_nil).
  - inversion H; subst. destruct l as [|f l].
    + destruct v; [exfalso; match goal with X : true = true -> _ |- _ => exact (X eq_refl eq_refl) end|]. exists (codes "{}"). split; auto. exact (sp_struct [] false [] (me_none [] gap_nil)).
    + destruct (print_fields_ok false (f :: l)) as (s & T & _ & E); [discriminate| |].
      { rewrite Forall_forall in *. intros x X. match goal with Y : forall x, In x (f :: l) -> nice_field _ /\ _ |- _ => destruct (Y x X) as (A & B) end. split; [now apply field_text|apply (IH x X B)]. }
      unfold good. rewrite print_struct, E. cbn [bind app]. destruct v.
      * exists (codes "{" ++ (s ++ [] ++ codes "," ++ [32] ++ dots ++ []) ++ codes "}"). split; [flat; reflexivity|]. apply sp_struct, me_some; auto. apply (en_dots [] [32] [] gap_nil gap1 gap_nil).
      * exists (codes "{" ++ (s ++ []) ++ codes "}"). split; [flat; reflexivity|]. apply sp_struct, me_some; auto. apply (en_plain [] gap_nil).
  - assert (X : printable r /\ Forall printable l) by (inversion H; auto). destruct X as (Hr & Hl). destruct (IHr Hr) as (rs & Pr & Sr).
    assert (Gl : Forall good l) by (rewrite Forall_forall in *; auto).
    assert (Ar : exists ps, print_types true l = Ok ps /\ (l = [] /\ ps = [] \/ l <> [] /\ types l ps)).
    { destruct l as [|t l]; [exists []; auto|]. destruct (print_types_ok (t :: l)) as (s & T & _ & E); [discriminate|auto|]. exists s. rewrite E. split; auto. right. split; auto. discriminate. }
    destruct Ar as (ps & Pp & Tp). unfold good. rewrite print_callable, Pp, Pr. cbn [bind]. destruct k as [|f k].
    + assert (v = kv) by (inversion H; congruence). subst kv. cbn [print_fields bind any andb app]. destruct Tp as [(-> & ->)|(N & T)].
      * cbn [any app]. destruct v.
        -- exists (codes "(" ++ ([] ++ dots ++ []) ++ codes ")" ++ [32] ++ codes "->" ++ [32] ++ rs). split; [flat; reflexivity|]. apply (sp_callable [] true); auto using gap1. apply ar_dots; constructor.
        -- exists (codes "(" ++ [] ++ codes ")" ++ [32] ++ codes "->" ++ [32] ++ rs). split; [flat; reflexivity|]. apply (sp_callable [] false); auto using gap1. apply ar_none; constructor.
      * replace (any l) with true by (destruct l; [congruence|reflexivity]). destruct v.
        -- exists (codes "(" ++ (ps ++ [] ++ codes "," ++ [32] ++ dots ++ []) ++ codes ")" ++ [32] ++ codes "->" ++ [32] ++ rs). split; [flat; reflexivity|]. apply (sp_callable l true); auto using gap1.
           apply ar_some; auto. apply (en_dots [] [32] [] gap_nil gap1 gap_nil).
        -- exists (codes "(" ++ (ps ++ []) ++ codes ")" ++ [32] ++ codes "->" ++ [32] ++ rs). split; [flat; reflexivity|]. apply (sp_callable l false); auto using gap1. apply ar_some; auto. apply (en_plain [] gap_nil).
    + destruct (print_fields_ok true (f :: k)) as (s & T & T' & E); [discriminate| |].
      { inversion H; subst. rewrite Forall_forall in *. intros x X. match goal with Y : forall x, In x (f :: k) -> name _ /\ _ |- _ => destruct (Y x X) as (A & B) end.
        split; [exists (fst x); now apply name_field|apply (IHk x X B)]. }
      rewrite E. cbn [bind any andb]. set (es := if kv then lit ", ..." else []).
      assert (Ee : ending kv es). { unfold es. destruct kv; [exact (en_dots [] [32] [] gap_nil gap1 gap_nil)|exact (en_plain [] gap_nil)]. }
      assert (GO : forall b items', before_keywords l v b -> items true (f :: k) items' -> spelled (DCallable r l v (f :: k) kv) (codes "(" ++ b ++ items' ++ es ++ codes ")" ++ [32] ++ codes "->" ++ [32] ++ rs)).
      { intros b it B I. apply sp_callable_kw; auto using gap1. }
      destruct Tp as [(-> & ->)|(N & Tp)].
      * cbn [any app orb]. destruct v; cbn [negb].
        -- exists (codes "(" ++ ([] ++ dots ++ [] ++ codes ",") ++ (32 :: s) ++ es ++ codes ")" ++ [32] ++ codes "->" ++ [32] ++ rs). split; [flat; reflexivity|]. apply GO; auto. apply bk_dots; constructor.
        -- exists (codes "(" ++ [] ++ s ++ es ++ codes ")" ++ [32] ++ codes "->" ++ [32] ++ rs). split; [flat; reflexivity|]. apply GO; auto. constructor.
      * replace (any l) with true by (destruct l; [congruence|reflexivity]). cbn [orb negb]. destruct v.
        -- exists (codes "(" ++ (ps ++ [] ++ codes "," ++ [32] ++ dots ++ [] ++ codes ",") ++ (32 :: s) ++ es ++ codes ")" ++ [32] ++ codes "->" ++ [32] ++ rs). split; [flat; reflexivity|]. apply GO; auto. apply bk_some_dots; auto using gap1, gap_nil.
        -- exists (codes "(" ++ (ps ++ [] ++ codes ",") ++ (32 :: s) ++ es ++ codes ")" ++ [32] ++ codes "->" ++ [32] ++ rs). split; [flat; reflexivity|]. apply GO; auto. apply bk_some; auto using gap_nil.
  - unfold good. assert (DIM : forall d w e s, dimension d w -> spelled e s -> spelled (d e) (w ++ lit " * " ++ s)).
    { intros d w e s D S. exact (sp_dim d w e s [32] [32] D gap1 gap1 S). }
    inversion H; subst; cbn [print_type]; try contradiction;
      try (match goal with Y : printable ?e |- _ => match type of IH with _ => destruct (IH Y) as (s & P & S) end; rewrite P; cbn [bind] end).
    + destruct b; try congruence; eexists; (split; [reflexivity|]); try word.
      * exact (sp_complex32 [] [] (codes "float32") [] gap_nil gap_nil gap_nil (spelled_word "float32" (DBuiltin float32) ltac:(unfold words; cbn [In]; tauto))).
      * exact (sp_complex64 [] [] (codes "float64") [] gap_nil gap_nil gap_nil (spelled_word "float64" (DBuiltin float64) ltac:(unfold words; cbn [In]; tauto))).
    + destruct k; eexists; (split; [reflexivity|]); word.
    + destruct (Z.eqb_spec a 1) as [->|Na]; [exists (codes "bytes"); split; [reflexivity|word]|]. eexists; (split; [reflexivity|]).
      apply (sp_bytes a (int_text a) [] [] [] [] []); auto using gap_nil. apply int_text_numeral. unfold alignment in *. cbn [In] in *. split; [lia|]. change (2 ^ 31) with 2147483648. lia.
    + assert (Nn : numeral 31 n (int_text n)) by (apply int_text_numeral; unfold alignment in *; cbn [In] in *; lia).
      destruct (Z.eqb_spec a 1) as [->|Na]; eexists; (split; [reflexivity|]).
      * exact (sp_fixed_bytes n (int_text n) [] [] [] gap_nil gap_nil gap_nil Nn ltac:(lia)).
      * assert (Na' : numeral 31 a (int_text a)) by (apply int_text_numeral; unfold alignment in *; cbn [In] in *; lia).
        flat. apply (sp_fixed_bytes_align n (int_text n) a (int_text a) [] [] [] [32] [] [] []); auto using gap_nil, gap1.
    + eexists; (split; [reflexivity|]); word.
    + assert (Nn : numeral 31 n (int_text n)) by (apply int_text_numeral; lia). assert (EA : forall e, encoding_arg e (39 :: lit (encoding_text e) ++ [39])).
      { intros e0. exists (encoding_text e0). split; [destruct e0; cbn [encoding_text]; unfold encodings; cbn [In]; tauto|]. exists 39, (lit (encoding_text e0)). split; auto. split; auto.
        apply plain_denotes. destruct e0; repeat constructor; discriminate. }
      assert (GS : spelled (DFixedString n e) (codes "fixed_string" ++ [] ++ codes "[" ++ [] ++ int_text n ++ [] ++ codes "," ++ [32] ++ (39 :: lit (encoding_text e) ++ [39]) ++ [] ++ codes "]")).
      { apply sp_fixed_string_enc; auto using gap_nil, gap1. lia. }
      destruct e; eexists; (split; [reflexivity|]); try exact GS. exact (sp_fixed_string n (int_text n) [] [] [] gap_nil gap_nil gap_nil Nn ltac:(lia)).
    + assert (EA : encoding_arg e (39 :: lit (encoding_text e) ++ [39])).
      { exists (encoding_text e). split; [destruct e; cbn [encoding_text]; unfold encodings; cbn [In]; tauto|]. exists 39, (lit (encoding_text e)). split; auto. split; auto.
        apply plain_denotes. destruct e; repeat constructor; discriminate. }
      pose proof (sp_char e _ [] [] [] gap_nil gap_nil gap_nil EA) as GS. unfold char_encoding in *. cbn [In] in *.
      match goal with Y : _ \/ _ |- _ => destruct Y as [<-|[<-|[<-|[]]]] end.
      * eexists; (split; [reflexivity|]). apply GS. auto.
      * eexists; (split; [reflexivity|]). apply GS. auto.
      * exists (codes "char"). split; [reflexivity|word].
    + eexists; (split; [reflexivity|]); word.
    + eexists; (split; [reflexivity|]); word.
    + eexists; (split; [reflexivity|]); word.
    + eexists; (split; [reflexivity|]). apply DIM; auto. constructor. now apply int_text_numeral.
    + eexists; (split; [reflexivity|]). exact (DIM DVar _ e s di_var S).
    + eexists; (split; [reflexivity|]). exact (DIM DFixedKind _ e s di_fixed S).
    + eexists; (split; [reflexivity|]). exact (sp_dim_kind e s [32] [32] gap1 gap1 S).
    + eexists; (split; [reflexivity|]). now apply sp_typevar.
    + eexists; (split; [reflexivity|]). apply (DIM (DTypevarDim n)); auto. now constructor.
    + eexists; (split; [reflexivity|]). exact (sp_typevar_app n a s [] [] [] ltac:(assumption) gap_nil gap_nil gap_nil S).
    + eexists; (split; [reflexivity|]). exact (sp_dots e s [32] [32] gap1 gap1 S).
    + eexists; (split; [reflexivity|]). exact (sp_named_dots n e s [] [32] [32] ltac:(assumption) gap_nil gap1 gap1 S).
    + match goal with D : dimension d w |- _ => pose proof (fun c => sp_power_var d w n e s [] [32] [32] D gap_nil gap1 gap1 c S) as GS; destruct D end; try congruence.
      * eexists; (split; [reflexivity|]). 
        match goal with D : numeral 63 ?m ds |- _ => assert (M : 0 <= m < 2 ^ 63) by (destruct D as (U & V & W); split; auto; rewrite <- V; apply dec_value_nonneg; now apply uint_digits) end.
        apply (sp_power_var (DFixed n0) (int_text n0) n e s [] [32] [32]); auto using gap_nil, gap1. constructor. now apply int_text_numeral.
      * eexists; (split; [reflexivity|]). apply GS. assumption.
      * eexists; (split; [reflexivity|]). apply GS. assumption.
    + eexists; (split; [reflexivity|]). exact (sp_pointer t0 s [] [] [] gap_nil gap_nil gap_nil S).
    + eexists; (split; [reflexivity|]). exact (sp_option t0 s [] gap_nil S ltac:(assumption)).
Qed.
