(** Missing values. *)
From Verif Require Import Base ParseIntModel ParseIntSpec ParseIntProofs ParseIntProps ScanModel AssignModel
  OptionModel OptionSpec OptionProofs.
Open Scope Z_scope.

(** C76: after nd::assign_na the element is missing, for nd::is_na and for
    nd::array::is_na; the type is accepted exactly when it has a reserved value
    or is a text type.  Not so for the text types, see below. *)
Theorem C76_marking_missing_partial : forall T c, stores_type T c -> has_reserved T ->
  exists c', assign_na T c = Ok c' /\ stores_type T c' /\ missing T c' /\
    is_na T c' = Ok true /\ array_is_na T c' = Ok true.
Proof.
  intros T c Hc HT.
  destruct (assign_na_kernel_spec T c HT Hc) as (c' & E & Hc' & M).
  assert (S : na_supported T = true) by (apply supported_iff; auto).
  destruct (is_na_kernel_spec T c' HT Hc') as (r & Er & Hr).
  assert (r = true) as -> by tauto.
  exists c'. unfold assign_na, is_na. rewrite S. repeat (split; [assumption|]).
  unfold array_is_na, old_is_avail.
  assert (is_builtin T = true) as -> by (destruct T; cbn in HT; try contradiction; reflexivity).
  cbn [bind]. rewrite <- (is_avail_agrees T c' HT Hc'). exact Er.
Qed.
Print Assumptions C76_marking_missing_partial.
Theorem C76_accepted_types : forall T c, stores_type T c ->
  ((exists c', assign_na T c = Ok c') <-> has_reserved T \/ textual T) /\
  ((exists r, is_na T c = Ok r) <-> has_reserved T \/ textual T).
Proof.
  intros T c Hc. rewrite <- supported_iff. unfold assign_na, is_na.
  destruct (na_supported T) eqn:S; [|split; (split; [intros [x E]; discriminate|discriminate])].
  apply supported_iff in S. destruct S as [S|S].
  - destruct (assign_na_kernel_spec T c S Hc) as (c' & E & _). destruct (is_na_kernel_spec T c S Hc) as (r & Er & _).
    split; split; intros _; [reflexivity|exists c'; exact E|reflexivity|exists r; exact Er].
  - split; split; intros _; try reflexivity.
    + destruct S as [ -> | -> ]; destruct c; cbn in Hc; try contradiction; cbn; eexists; reflexivity.
    + rewrite (is_na_kernel_text T c S Hc). now exists false.
Qed.
Print Assumptions C76_accepted_types.
(** A string or bytes element is never missing, in particular not after it was
    marked missing. *)
Theorem C76_marking_missing_refuted : forall T c, textual T -> stores_type T c ->
  exists c', assign_na T c = Ok c' /\ stores_type T c' /\ is_na T c' = Ok false /\ array_is_na T c' = Ok false.
Proof.
  intros T c HT Hc.
  assert (S : na_supported T = true) by (apply supported_iff; auto).
  assert (N : forall d, stores_type T d -> is_na T d = Ok false /\ array_is_na T d = Ok false).
  { intros d Hd. unfold array_is_na, old_is_avail. assert (is_builtin T = false) as -> by (destruct HT; subst; reflexivity).
    assert (is_na T d = Ok false) as -> by (unfold is_na; rewrite S; now apply is_na_kernel_text). auto. }
  unfold assign_na. rewrite S.
  destruct HT as [ -> | -> ]; destruct c; cbn in Hc; try contradiction; cbn [assign_na_kernel str_clear];
    (eexists; split; [reflexivity|]); (split; [cbn; lia|]); apply N; cbn; lia.
Qed.
Print Assumptions C76_marking_missing_refuted.
(** The path taken by a JSON null and by missing-value texts
    (nd::old_assign_na): missing for every reserved type but uint32, for which
    the element keeps its old value. *)
Theorem C76_null_partial : forall T c, stores_type T c -> has_reserved T -> T <> OUInt 32 ->
  exists c', old_assign_na T c = Ok c' /\ stores_type T c' /\ missing T c' /\ array_is_na T c' = Ok true.
Proof.
  intros T c Hc HT HU.
  assert (B : is_builtin T = true) by (destruct T; cbn in HT; try contradiction; reflexivity).
  assert (U : forall b, T <> OUInt b) by (intros b ->; cbn in HT; subst; congruence).
  destruct (assign_na_builtin_spec T c HT U Hc) as (Hc' & M).
  exists (assign_na_builtin T c). unfold old_assign_na, array_is_na, old_is_avail. rewrite B. cbn [bind].
  repeat (split; [assumption || reflexivity|]).
  rewrite <- (is_avail_agrees T _ HT Hc').
  destruct (is_na_kernel_spec T _ HT Hc') as (r & Er & Hr). rewrite Er. f_equal. tauto.
Qed.
Print Assumptions C76_null_partial.
Theorem C76_null_refuted : forall w, word 32 w ->
  stores_type (OUInt 32) (CWord w) /\ old_assign_na (OUInt 32) (CWord w) = Ok (CWord w).
Proof. intros w Hw. split; [split; [unfold int_width; auto|exact Hw]|reflexivity]. Qed.
Print Assumptions C76_null_refuted.
Example C76_case :
  stores_type (OInt 16) (CWord 5) /\ has_reserved (OInt 16) /\ assign_na (OInt 16) (CWord 5) = Ok (CWord 32768) /\
  stores_type OString (CStr 4096 8192 (-17)) /\ textual OString /\
  assign_na OString (CStr 4096 8192 (-17)) = Ok (CStr 4096 0 0) /\
  is_na (OUInt 32) (CWord 7) = Ok false /\ assign_na (OUInt 8) (CWord 7) = Throw "no matching child".
Proof. cbn. unfold int_width, word, textual. repeat (split; [auto; lia|]). reflexivity. Qed.

(** C77: which elements are missing: exactly those that hold a reserved value,
    and the two ways to ask agree.  Not for types without a reserved value. *)
Theorem C77_missing_exact_partial : forall T c, stores_type T c -> has_reserved T ->
  exists r, is_na T c = Ok r /\ array_is_na T c = Ok r /\ (r = true <-> missing T c).
Proof.
  intros T c Hc HT.
  assert (S : na_supported T = true) by (apply supported_iff; auto).
  destruct (is_na_kernel_spec T c HT Hc) as (r & Er & Hr).
  exists r. unfold is_na, array_is_na, old_is_avail. rewrite S.
  assert (is_builtin T = true) as -> by (destruct T; cbn in HT; try contradiction; reflexivity).
  split; [exact Er|]. split; [|exact Hr]. cbn [bind]. rewrite <- (is_avail_agrees T c HT Hc). exact Er.
Qed.
Print Assumptions C77_missing_exact_partial.
(** Every uint8, uint16, uint64, uint128 and float16 element is reported missing
    by nd::array::is_na, while nd::is_na throws. *)
Theorem C77_missing_refuted : forall T c, stores_type T c -> ~ has_reserved T -> ~ textual T ->
  array_is_na T c = Ok true /\ is_na T c = Throw "no matching child".
Proof.
  intros T c Hc HR HX. unfold is_na.
  destruct (na_supported T) eqn:S; [apply supported_iff in S; tauto|]. split; [|reflexivity].
  destruct T, c; cbn in Hc, HR, HX; try contradiction; try (exfalso; apply HR; exact I).
  - exfalso. apply HR. apply Hc.
  - unfold array_is_na, old_is_avail. cbn. destruct (Z.eqb_spec b 32); [contradiction|reflexivity].
  - reflexivity.
  - exfalso; apply HX; now left.
  - exfalso; apply HX; now right.
Qed.
Print Assumptions C77_missing_refuted.
(** NaN is missing whatever its sign and payload, but a complex number is missing
    only if both parts are the reserved NaN. *)
Example C77_case :
  stores_type (OFlt S64) (CWord 0xfff8000000000000) /\ flt_of_bits S64 0xfff8000000000000 = FNan /\
  is_na (OFlt S64) (CWord 0xfff8000000000000) = Ok true /\
  is_na (OFlt S64) (CWord 0x7ff0000000000000) = Ok false /\ flt_of_bits S64 0x7ff0000000000000 = FInf false /\
  flt_of_bits S32 0x40400000 = FFin false (3 * one) /\
  stores_type (OCplx S32) (CPair 0x7fc00000 0x7fc00000) /\ is_na (OCplx S32) (CPair 0x7fc00000 0x7fc00000) = Ok false /\
  stores_type (OUInt 8) (CWord 5) /\ array_is_na (OUInt 8) (CWord 5) = Ok true.
Proof.
  split; [cbn; unfold word; lia|]. do 5 (split; [vm_compute; reflexivity|]).
  split; [cbn; unfold word; lia|]. split; [reflexivity|]. split; [cbn; unfold int_width, word; lia|reflexivity].
Qed.

(** C78: an operation on options: if an option argument is missing the result is
    missing and the operation is not carried out, whatever it would do;
    otherwise the result is that of the operation on the values. *)
Theorem C78_missing_propagates_partial : forall o0 o1 T0 T1 TR f x y r,
  stores_type T0 x -> stores_type T1 y -> stores_type TR r -> has_reserved TR ->
  (o0 = true -> has_reserved T0) -> (o1 = true -> has_reserved T1) ->
  ((o0 = true /\ missing T0 x) \/ (o1 = true /\ missing T1 y) ->
     exists c, forward_na o0 o1 T0 T1 TR f x y r = Ok c /\ stores_type TR c /\ missing TR c) /\
  (~ (o0 = true /\ missing T0 x) -> ~ (o1 = true /\ missing T1 y) ->
     forward_na o0 o1 T0 T1 TR f x y r = f x y).
Proof.
  intros o0 o1 T0 T1 TR f x y r Hx Hy Hr HR H0 H1. unfold forward_na.
  assert (SR : na_supported TR = true) by (apply supported_iff; auto).
  assert (S0 : o0 = true -> na_supported T0 = true) by (intros; apply supported_iff; auto).
  assert (S1 : o1 = true -> na_supported T1 = true) by (intros; apply supported_iff; auto).
  assert (G : (o0 && negb (na_supported T0) || o1 && negb (na_supported T1) || negb (na_supported TR)) = false).
  { rewrite SR. destruct o0, o1; cbn; rewrite ?S0, ?S1; auto. }
  rewrite G; clear G.
  destruct (assign_na_kernel_spec TR r HR Hr) as (c & E & Hc & M).
  assert (E' : assign_na TR r = Ok c) by (unfold assign_na; rewrite SR; exact E). clear E.
  assert (N0 : exists n0, (if o0 then is_na T0 x else Ok false) = Ok n0 /\ (n0 = true <-> o0 = true /\ missing T0 x)).
  { destruct o0; [|exists false; split; [reflexivity|split; [discriminate|intros []; discriminate]]].
    destruct (is_na_kernel_spec T0 x (H0 eq_refl) Hx) as (n & En & Hn). exists n. unfold is_na. rewrite (S0 eq_refl). tauto. }
  assert (N1 : exists n1, (if o1 then is_na T1 y else Ok false) = Ok n1 /\ (n1 = true <-> o1 = true /\ missing T1 y)).
  { destruct o1; [|exists false; split; [reflexivity|split; [discriminate|intros []; discriminate]]].
    destruct (is_na_kernel_spec T1 y (H1 eq_refl) Hy) as (n & En & Hn). exists n. unfold is_na. rewrite (S1 eq_refl). tauto. }
  destruct N0 as (n0 & -> & I0), N1 as (n1 & -> & I1). cbn [bind]. split.
  - intros H. exists c. split; [|auto].
    destruct n0; [exact E'|]. destruct n1; [exact E'|]. exfalso. destruct H as [H|H]; [apply I0 in H|apply I1 in H]; discriminate.
  - intros A B. destruct n0; [exfalso; apply A, I0; reflexivity|]. destruct n1; [exfalso; apply B, I1; reflexivity|]. reflexivity.
Qed.
Print Assumptions C78_missing_propagates_partial.
(** ... but the result of two present values can read as missing, with no
    overflow: (-2147483647) + (-1) as int32. *)
Definition add32 (x y : cell) : outcome cell :=
  match x, y with
  | CWord a, CWord b =>
      let s := int_of_bits true 32 a + int_of_bits true 32 b in
      if (- 2 ^ 31 <=? s) && (s <? 2 ^ 31) then Ok (CWord (s mod 2 ^ 32)) else UB
  | _, _ => UB
  end.
Theorem C78_present_stays_present_refuted :
  let x := CWord (2 ^ 32 - 2147483647) in let y := CWord (2 ^ 32 - 1) in
  ~ missing (OInt 32) x /\ ~ missing (OInt 32) y /\
  exists c, forward_na true true (OInt 32) (OInt 32) (OInt 32) add32 x y (CWord 0) = Ok c /\ missing (OInt 32) c.
Proof.
  cbn zeta. split; [vm_compute; discriminate|]. split; [vm_compute; discriminate|].
  exists (CWord (2 ^ 31)). split; vm_compute; reflexivity.
Qed.
Print Assumptions C78_present_stays_present_refuted.
Example C78_case :
  forward_na true false (OInt 32) (OInt 32) (OInt 32) (fun _ _ => Throw "division by zero") (CWord (2 ^ 31)) (CWord 0) (CWord 9) = Ok (CWord (2 ^ 31)) /\
  forward_na true true (OInt 32) (OInt 32) (OInt 32) add32 (CWord 4) (CWord 5) (CWord 0) = Ok (CWord 9) /\
  forward_na true true (OUInt 8) (OInt 32) (OInt 32) add32 (CWord 4) (CWord 5) (CWord 0) = Throw "no matching child".
Proof. repeat (split; [vm_compute; reflexivity|]). vm_compute; reflexivity. Qed.

(** C79: a text that means missing makes the option missing. *)
Theorem C79_missing_text_partial : forall T setv s c, stores_type T c -> has_reserved T -> T <> OUInt 32 -> na_token s ->
  exists c', set_option_from_utf8_string T setv s c = Ok c' /\ stores_type T c' /\ missing T c'.
Proof.
  intros T setv s c Hc HT HU Hs. unfold set_option_from_utf8_string.
  assert (is_string_kind T = false) as -> by (destruct T; cbn in HT; try contradiction; reflexivity).
  assert (parse_na s = true) as -> by (now apply parse_na_iff). cbn [negb andb].
  destruct (C76_null_partial T c Hc HT HU) as (c' & E & A & B & _). now exists c'.
Qed.
Print Assumptions C79_missing_text_partial.
(** Assigning a string: every reserved type but bool. *)
Theorem C79_missing_string_partial : forall T setv s c, stores_type T c -> has_reserved T -> T <> OBool -> na_token s ->
  exists c', string_to_option T setv s c = Ok c' /\ stores_type T c' /\ missing T c'.
Proof.
  intros T setv s c Hc HT HB Hs. unfold string_to_option.
  assert (S : na_supported T = true) by (apply supported_iff; auto). rewrite S. cbn [negb].
  assert (P : parse_na s = true) by (now apply parse_na_iff).
  destruct (assign_na_kernel_spec T c HT Hc) as (c' & E & A & B).
  exists c'. split; [|auto]. unfold assign_na. rewrite S.
  destruct T, c; cbn in HT, Hc; try contradiction; try congruence; rewrite ?P; try exact E.
  destruct (is_small_int b) eqn:Eb; [|exact E].
  unfold string_to_number_cell. rewrite Eb, (C16_missing_tokens true b s Hs). exact E.
Qed.
Print Assumptions C79_missing_string_partial.
(** The two exceptions: for uint32 the element keeps its value; assigning the
    string to an option of bool throws. *)
Theorem C79_missing_text_refuted : na_token [78; 65] /\
  (forall setv w, set_option_from_utf8_string (OUInt 32) setv [78; 65] (CWord w) = Ok (CWord w)) /\
  (forall setv w, string_to_option OBool setv [78; 65] (CWord w) = Throw "invalid_argument").
Proof. split; [unfold na_token; auto|]. split; intros; reflexivity. Qed.
Print Assumptions C79_missing_text_refuted.

Lemma cast_bits sgn b v : int_width b -> in_range sgn b v ->
  int_of_bits sgn b (cast false b v) = v /\ word b (cast false b v).
Proof.
  intros Hb Hv. assert (P := width_pos b Hb). unfold cast, word. cbn [andb].
  assert (Hp : 2 ^ b = 2 * 2 ^ (b - 1)) by (rewrite <- Z.pow_succ_r by lia; f_equal; lia).
  assert (0 < 2 ^ (b - 1)) by (apply Z.pow_pos_nonneg; lia).
  split; [|apply Z.mod_pos_bound; lia].
  unfold int_of_bits, in_range in *. set (Q := 2 ^ (b - 1)) in *. clearbody Q.
  destruct sgn; [|apply Z.mod_small; lia].
  destruct (Z.leb_spec 0 v).
  - rewrite Z.mod_small by lia. destruct (Z.ltb_spec v Q); lia.
  - assert (E : v mod 2 ^ b = v + 2 ^ b) by (symmetry; apply (Z.mod_unique v (2 ^ b) (-1)); lia).
    rewrite E. destruct (Z.ltb_spec (v + 2 ^ b) Q); lia.
Qed.
(** ... and the text of a number that the type can hold and that is not its
    reserved value makes the option present with that number, on both paths. *)
Theorem C79_number_text : forall (sgn : bool) b (neg : bool) setv s n c, is_small_int b = true -> (sgn = false -> b = 32) ->
  number s n -> n < 2 ^ 64 ->
  let T := if sgn then OInt b else OUInt b in
  let text := if neg then 45 :: s else s in
  let v := if neg then - n else n in
  ~ na_token text -> in_range sgn b v -> v <> (if sgn then - 2 ^ (b - 1) else 2 ^ b - 1) ->
  exists w, set_option_from_utf8_string T setv text c = Ok (CWord w) /\ string_to_option T setv text c = Ok (CWord w) /\
    int_of_bits sgn b w = v /\ stores_type T (CWord w) /\ ~ missing T (CWord w).
Proof.
  intros sgn b neg setv s n c Hb Hs Hn Hn64 T text v Hna Hr Hv.
  assert (HP : parse_na text = false).
  { destruct (parse_na text) eqn:E; [|reflexivity]. apply parse_na_iff in E. contradiction. }
  assert (HB : int_width b) by (unfold is_small_int in Hb; unfold int_width; lia).
  destruct (C16_store_exact_or_throw_partial sgn b neg s n ltac:(unfold is_small_int in Hb; lia) Hn Hn64) as (E & _).
  fold v text in E. specialize (E Hr).
  assert (E' : string_to_number sgn b text = Ok v).
  { apply E. intros -> ->. exact Hv. }
  destruct (cast_bits sgn b v HB Hr) as (Ev & Hw).
  exists (cast false b v).
  assert (Es : string_to_number_cell T setv text c = Ok (CWord (cast false b v))).
  { unfold T, string_to_number_cell. destruct sgn; rewrite Hb, E'; reflexivity. }
  split; [|split].
  - unfold set_option_from_utf8_string. rewrite HP, andb_false_r. unfold T in *; destruct sgn; exact Es.
  - unfold string_to_option.
    assert (na_supported T = true) as ->.
    { unfold T. destruct sgn; cbn; [unfold is_small_int in Hb; lia|]. rewrite Hs by reflexivity. reflexivity. }
    cbn [negb]. unfold T in *; destruct sgn; [rewrite Hb; exact Es|]. rewrite HP. exact Es.
  - split; [exact Ev|]. unfold T. destruct sgn; cbn [stores_type missing]; (split; [auto|]); rewrite Ev; exact Hv.
Qed.
Print Assumptions C79_number_text.
(** The reserved value itself is accepted as a number and reads as missing:
    int8 from the text -128. *)
Theorem C79_reserved_number_refuted : exists w, number [49; 50; 56] 128 /\ in_range true 8 (-128) /\
  (forall setv c, set_option_from_utf8_string (OInt 8) setv [45; 49; 50; 56] c = Ok (CWord w)) /\ missing (OInt 8) (CWord w).
Proof.
  exists 128. split; [apply (num_plain [49; 50; 56]); [repeat constructor; unfold digit; lia|discriminate]|].
  split; [unfold in_range; lia|]. split; [intros; reflexivity|reflexivity].
Qed.
Print Assumptions C79_reserved_number_refuted.
Example C79_case :
  na_token [110; 85; 108; 76] /\ stores_type (OInt 64) (CWord 3) /\
  (forall setv, set_option_from_utf8_string (OInt 64) setv [110; 85; 108; 76] (CWord 3) = Ok (CWord (2 ^ 63))) /\
  number [52; 50] 42 /\ (forall setv c, string_to_option (OInt 16) setv [45; 52; 50] c = Ok (CWord 65494)) /\ int_of_bits true 16 65494 = -42.
Proof.
  split; [unfold na_token; cbn; auto|]. split; [cbn; unfold int_width, word; lia|]. split; [intros; reflexivity|].
  split; [apply (num_plain [52; 50]); [repeat constructor; unfold digit; lia|discriminate]|]. split; [intros; reflexivity|reflexivity].
Qed.
