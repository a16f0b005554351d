(** C145-C151: fixed strings and characters. *)
From Verif Require Import Base EncodingModel EncodingSpec EncodingProofs EncodingProps FixedStrModel FixedStrSpec FixedStrProofs.
Open Scope Z_scope.

(** ** C145: a text that fits is stored, and every reader gives it back. *)
Theorem C145_stored_and_read_partial : forall e size cps src, units e size -> ~ In 0 cps -> text utf8_of cps src -> fits_in e size cps ->
  exists buf, (forall nocheck, set_from_utf8 e nocheck size src = Ok buf) /\ stores e size cps buf /\
    (forall nocheck, get_utf8_string e nocheck buf = Ok src) /\
    (forall nocheck fuel, (List.length buf <= fuel)%nat -> fixed_to_string e nocheck fuel buf = Ok src) /\
    (forall fuel, (List.length buf <= fuel)%nat -> print_data e fuel buf = Ok cps).
Proof.
  intros e size cps src HU N T1 (bs & T2 & L).
  assert (ST : stores e size cps (bs ++ zeros (size - Z.of_nat (List.length bs)))) by (exists bs; split; [exact T2|]; split; [exact L|reflexivity]).
  exists (bs ++ zeros (size - Z.of_nat (List.length bs))). pose proof (stores_holds e size cps _ HU N ST) as HO.
  split; [|split; [exact ST|split; [|split]]].
  - intros nc. unfold set_from_utf8. pose proof (text_count e cps bs T2) as K.
    pose proof (copy_text false Utf8 e nc cps src T1 bs T2 [] (S (Z.to_nat size) - List.length cps) [] size L ltac:(intros F; discriminate)) as C.
    rewrite app_nil_r in C. replace (List.length cps + (S (Z.to_nat size) - List.length cps))%nat with (S (Z.to_nat size)) in C by lia. rewrite C.
    destruct (S (Z.to_nat size) - List.length cps)%nat; reflexivity.
  - intros nc. destruct (holds_utf8 e nc cps _ HO) as (s & E & T). rewrite E. f_equal. exact (text_fun Utf8 cps s T src T1).
  - intros nc fuel HF. destruct (to_string_ok e nc fuel cps _ HO HF) as (s & E & T). rewrite E. f_equal. exact (text_fun Utf8 cps s T src T1).
  - intros fuel HF. exact (print_ok e fuel cps _ HO HF).
Qed.
Print Assumptions C145_stored_and_read_partial.
(** The text "a", U+0000, "b" fits in 4 bytes and is read back as "a". *)
Theorem C145_stored_and_read_refuted : exists e size cps src buf, units e size /\ text utf8_of cps src /\ fits_in e size cps /\
  set_from_utf8 e false size src = Ok buf /\ exists s, get_utf8_string e false buf = Ok s /\ s <> src.
Proof.
  assert (T : text utf8_of [97; 0; 98] [97; 0; 98]).
  { refine (text_cons _ 97 [97] _ _ _ (text_cons _ 0 [0] _ _ _ (text_cons _ 98 [98] _ _ _ (text_nil _)))); apply utf8_1; lia. }
  exists Utf8, 4, [97; 0; 98], [97; 0; 98], [97; 0; 98; 0]. split; [exists 4; cbn; lia|]. split; [exact T|].
  split; [exists [97; 0; 98]; split; [exact T|cbn; lia]|]. split; [reflexivity|]. exists [97]. split; [reflexivity|discriminate].
Qed.
Print Assumptions C145_stored_and_read_refuted.

(** ** C146: a checked assignment accepts exactly the texts that fit, and stores
    them; it throws for every other list of bytes. *)
Theorem C146_checked_iff : forall e size src buf, bytes src -> units e size ->
  (set_from_utf8 e false size src = Ok buf <-> exists cps, text utf8_of cps src /\ stores e size cps buf).
Proof. exact set_checked_iff. Qed.
Print Assumptions C146_checked_iff.
Theorem C146_checked_total : forall e size src, bytes src -> units e size ->
  (exists buf, set_from_utf8 e false size src = Ok buf) \/ (exists x, set_from_utf8 e false size src = Throw x).
Proof. exact set_checked. Qed.
Print Assumptions C146_checked_total.

(** ** C147: an assignment that does not check writes all of the buffer, and cuts
    the text at the last code point that fits. *)
Theorem C147_nocheck_total : forall e size src, bytes src -> units e size ->
  exists buf, set_from_utf8 e true size src = Ok buf /\ Z.of_nat (List.length buf) = size.
Proof.
  intros e size src HB HU. assert (H0 : 0 <= size) by (destruct HU as (k & K & ->); pose proof (char_size_pos e); nia).
  destruct (nocheck_total e (S (Z.to_nat size)) src [] size HB HU H0 ltac:(lia)) as (bs & E & L). exists bs. split; [exact E|exact L].
Qed.
Print Assumptions C147_nocheck_total.
Theorem C147_nocheck_cuts_partial : forall e size cps src, units e size -> text utf8_of cps src ->
  exists cps' pre buf, Forall2 (replaced e) cps cps' /\ cut e size cps' pre /\ stores e size pre buf /\ set_from_utf8 e true size src = Ok buf.
Proof.
  intros e size cps src HU T. assert (H0 : 0 <= size) by (destruct HU as (k & K & ->); pose proof (char_size_pos e); nia).
  destruct (nocheck_text false Utf8 e cps src T ltac:(intros F; discriminate) [] ltac:(left; reflexivity) (S (Z.to_nat size)) [] size HU H0 ltac:(lia))
    as (cps' & pre & bs & F & C & T2 & L & E).
  exists cps', pre, (bs ++ zeros (size - Z.of_nat (List.length bs))). split; [exact F|]. split; [exact C|].
  split; [exists bs; split; [exact T2|]; split; [exact L|reflexivity]|]. unfold set_from_utf8. rewrite app_nil_r in E. exact E.
Qed.
Print Assumptions C147_nocheck_cuts_partial.
(** One stray byte fills the buffer with question marks, and what follows is lost. *)
Theorem C147_stray_byte_refuted : exists e size src buf, bytes src /\ units e size /\ List.length src = 2%nat /\ size = 8 /\
  set_from_utf8 e true size src = Ok buf /\ buf = [63; 63; 63; 63; 63; 63; 63; 63].
Proof.
  exists Utf8, 8, [0x80; 97], (repeat 63 8). split; [repeat constructor; unfold byte; lia|]. split; [exists 8; cbn; lia|].
  split; [reflexivity|]. split; [reflexivity|]. split; reflexivity.
Qed.
Print Assumptions C147_stray_byte_refuted.
Theorem C147_stray_byte_fills : forall size b rest, 0 <= size -> bytes (b :: rest) -> bad_lead8 (b :: rest) ->
  set_from_utf8 Utf8 true size (b :: rest) = Ok (repeat 63 (Z.to_nat size)).
Proof.
  intros size b rest H HB HL. unfold set_from_utf8. pose proof (noerror_utf8_stuck (b :: rest) HB ltac:(discriminate) HL) as N.
  assert (G : forall n f out, (n < f)%nat -> (do r <- copy_loop false (next_fn Utf8 true) (append_fn Utf8 true) f (b :: rest) out (Z.of_nat n); finish (negb true) r) = Ok (out ++ repeat 63 n)).
  { induction n as [|n IH]; intros f out L; (destruct f; [lia|]).
    - rewrite copy_full. reflexivity.
    - cbn [copy_loop]. destruct (Z.ltb_spec 0 (Z.of_nat (S n))); [|lia]. rewrite N. cbn [bind andb].
      assert (X : encodes Utf8 63 [63]) by (apply (utf8_1 63); lia). rewrite (append_complete Utf8 true 63 [63] _ X) by (cbn [List.length]; lia).
      cbn [bind List.length]. replace (Z.of_nat (S n) - Z.of_nat 1) with (Z.of_nat n) by lia. rewrite IH by lia. rewrite <- app_assoc. reflexivity. }
  specialize (G (Z.to_nat size) (S (Z.to_nat size)) [] ltac:(lia)). rewrite Z2Nat.id in G by exact H. exact G.
Qed.
Print Assumptions C147_stray_byte_fills.

(** ** C148: from a fixed string to a fixed string. *)
Theorem C148_checked_partial : forall se de size src out, bytes src -> whole se src -> units de size ->
  (fixed_to_fixed se de false size src = Ok out <->
   exists cps, holds se cps src /\ stores de size cps out /\ (text (encodes se) cps src \/ fits_in de (size - 1) cps)).
Proof. exact fixed_checked_iff. Qed.
Print Assumptions C148_checked_partial.
Theorem C148_checked_total : forall se de size src, bytes src -> whole se src -> units de size ->
  (exists out, fixed_to_fixed se de false size src = Ok out) \/ (exists x, fixed_to_fixed se de false size src = Throw x).
Proof. exact fixed_checked. Qed.
Print Assumptions C148_checked_total.
(** "abc" in four bytes fits in three, and is rejected as too large. *)
Theorem C148_exact_fit_refuted : exists se de size src cps, bytes src /\ whole se src /\ units de size /\ holds se cps src /\ fits_in de size cps /\
  fixed_to_fixed se de false size src = Throw "runtime_error: Input is too large".
Proof.
  assert (T : text utf8_of [97; 98; 99] [97; 98; 99]).
  { refine (text_cons _ 97 [97] _ _ _ (text_cons _ 98 [98] _ _ _ (text_cons _ 99 [99] _ _ _ (text_nil _)))); apply utf8_1; lia. }
  exists Utf8, Utf8, 3, [97; 98; 99; 0], [97; 98; 99]. split; [repeat constructor; unfold byte; lia|]. split; [exists 4%nat; reflexivity|]. split; [exists 3; cbn; lia|].
  split.
  - split; [cbn; lia|]. exists [97; 98; 99], [0]. split; [exact T|]. split; [reflexivity|]. right. exists []. reflexivity.
  - split; [exists [97; 98; 99]; split; [exact T|cbn; lia]|reflexivity].
Qed.
Print Assumptions C148_exact_fit_refuted.
Theorem C148_exact_fit_always_thrown : forall se de src cps bs, bytes src -> whole se src -> holds se cps src -> ~ text (encodes se) cps src ->
  text (encodes de) cps bs -> exists x, fixed_to_fixed se de false (Z.of_nat (List.length bs)) src = Throw x.
Proof.
  intros se de src cps bs HB HW HO NT T.
  assert (HU : units de (Z.of_nat (List.length bs))).
  { clear HO NT. induction T as [|cp b cps rest X T (k & K & IH)]; [exists 0; cbn; lia|]. destruct (enc_units de cp b X) as (j & J1 & J). exists (j + k). rewrite app_length, Nat2Z.inj_add, J, IH. split; [lia|ring]. }
  destruct (fixed_checked se de _ src HB HW HU) as [(out & E)|E]; [exfalso|exact E].
  apply (fixed_checked_iff se de _ src out HB HW HU) in E as (cps' & HO' & (bs' & T' & L & _) & M).
  assert (EQ : cps' = cps).
  { destruct (holds_utf8 se false cps src HO) as (s & S1 & S2). destruct (holds_utf8 se false cps' src HO') as (s' & S1' & S2'). rewrite S1 in S1'. injection S1' as ->.
    exact (C12_text_unique Utf8 _ _ _ S2' S2). }
  subst cps'. destruct M as [M|(b & B & LB)]; [exact (NT M)|]. rewrite (text_fun de cps bs T b B) in LB. lia.
Qed.
Print Assumptions C148_exact_fit_always_thrown.
Theorem C148_nocheck_cuts : forall se de size src cps, units de size -> holds se cps src ->
  exists cps' pre out, Forall2 (replaced de) cps cps' /\ cut de size cps' pre /\ stores de size pre out /\ fixed_to_fixed se de true size src = Ok out.
Proof.
  intros se de size src cps HU (N & b1 & tl & T & -> & D). assert (H0 : 0 <= size) by (destruct HU as (k & K & ->); pose proof (char_size_pos de); nia).
  destruct (nocheck_text true se de cps b1 T (fun _ => N) tl ltac:(destruct D as [D|D]; [left; exact D|right; split; [reflexivity|exact D]]) (S (Z.to_nat size)) [] size HU H0 ltac:(lia))
    as (cps' & pre & bs & F & C & T2 & L & E).
  exists cps', pre, (bs ++ zeros (size - Z.of_nat (List.length bs))). split; [exact F|]. split; [exact C|].
  split; [exists bs; split; [exact T2|]; split; [exact L|reflexivity]|]. exact E.
Qed.
Print Assumptions C148_nocheck_cuts.

(** ** C149: reading a buffer of any bytes. *)
Theorem C149_checked_partial : forall e fuel src s, bytes src -> whole e src -> (List.length src <= fuel)%nat ->
  (fixed_to_string e false fuel src = Ok s <-> exists cps, holds e cps src /\ text utf8_of cps s).
Proof.
  intros e fuel src s HB HW HF. split.
  - intros H. unfold fixed_to_string in H.
    destruct (grow_checked e fuel src [] _ HB HW HF (cap_big e src) ltac:(pose proof (cap_big e src); cbn [List.length]; lia)) as [(cps & HO)|(x & X)]; [|rewrite X in H; discriminate].
    exists cps. split; [exact HO|]. destruct (to_string_ok e false fuel cps src HO HF) as (s' & E & T). unfold fixed_to_string in E. rewrite E in H. injection H as <-. exact T.
  - intros (cps & HO & T). destruct (to_string_ok e false fuel cps src HO HF) as (s' & E & T'). rewrite E. f_equal. exact (text_fun Utf8 cps s' T' s T).
Qed.
Print Assumptions C149_checked_partial.
Theorem C149_checked_total : forall e fuel src, bytes src -> whole e src -> (List.length src <= fuel)%nat ->
  (exists s, fixed_to_string e false fuel src = Ok s) \/ (exists x, fixed_to_string e false fuel src = Throw x).
Proof.
  intros e fuel src HB HW HF.
  destruct (grow_checked e fuel src [] _ HB HW HF (cap_big e src) ltac:(pose proof (cap_big e src); cbn [List.length]; lia)) as [(cps & HO)|X]; [left|right; exact X].
  destruct (to_string_ok e false fuel cps src HO HF) as (s & E & _). exists s. exact E.
Qed.
Print Assumptions C149_checked_total.
Theorem C149_agree : forall e cps src fuel nocheck nocheck', holds e cps src -> (List.length src <= fuel)%nat ->
  exists s, text utf8_of cps s /\ get_utf8_string e nocheck src = Ok s /\ fixed_to_string e nocheck' fuel src = Ok s /\ print_data e fuel src = Ok cps.
Proof.
  intros e cps src fuel nc nc' HO HF. destruct (holds_utf8 e nc cps src HO) as (s & E & T). destruct (to_string_ok e nc' fuel cps src HO HF) as (s' & E' & T').
  exists s. split; [exact T|]. split; [exact E|]. split; [rewrite E'; f_equal; exact (text_fun Utf8 cps s' T' s T)|exact (print_ok e fuel cps src HO HF)].
Qed.
Print Assumptions C149_agree.
(** Printing, and reading without checks, never end at a byte that starts no
    UTF-8 sequence; a lead surrogate at the end of UTF-16 is read beyond the end;
    and a checked reader returns bytes that are not ASCII. *)
Theorem C149_reading_refuted :
  (exists data, bytes data /\ forall fuel, print_data Utf8 fuel data = NoFuel) /\
  (exists data, bytes data /\ forall fuel, fixed_to_string Utf8 true fuel data = NoFuel) /\
  (exists data, bytes data /\ whole Utf16 data /\ forall fuel, print_data Utf16 (S fuel) data = UB) /\
  (exists data s, bytes data /\ get_utf8_string Ascii false data = Ok s /\ forall cps, ~ text utf8_of cps s).
Proof.
  assert (B : bytes [0x80]) by (repeat constructor; unfold byte; lia).
  assert (N : next_fn Utf8 true [0x80] = Ok (63, [0x80])) by reflexivity.
  repeat split.
  - exists [0x80]. split; [exact B|]. unfold print_data. induction fuel as [|fuel IH]; [reflexivity|]. cbn [print_loop]. rewrite N. cbn [bind Z.eqb Pos.eqb]. rewrite IH. reflexivity.
  - exists [0x80]. split; [exact B|]. intros fuel. unfold fixed_to_string.
    assert (G : forall f out cap, 17 <= cap -> Z.of_nat (List.length out) <= cap -> grow_loop (next_fn Utf8 true) (append_fn Utf8 true) f [0x80] out cap = NoFuel).
    { induction f as [|f IH]; intros out cap C O; [reflexivity|]. cbn [grow_loop]. rewrite N. cbn [bind Z.eqb Pos.eqb].
      set (cap' := if 8 <=? cap - Z.of_nat (List.length out) then cap else 2 * cap).
      assert (C' : 17 <= cap' /\ 8 <= cap' - Z.of_nat (List.length out)) by (unfold cap'; destruct (Z.leb_spec 8 (cap - Z.of_nat (List.length out))); lia).
      destruct (append_utf8_ok true 63 (cap' - Z.of_nat (List.length out)) ltac:(unfold scalar; lia) (proj2 C')) as (u & U & UL & A). rewrite A. cbn [bind]. apply IH; [lia|].
      rewrite app_length, Nat2Z.inj_add. lia. }
    apply G; vm_compute; intros Q; discriminate Q.
  - exists [0; 0xD8]. split; [repeat constructor; unfold byte; lia|]. split; [exists 1%nat; reflexivity|]. intros fuel. reflexivity.
  - exists [200], [200]. split; [repeat constructor; unfold byte; lia|]. split; [reflexivity|]. intros cps H.
    inversion H as [|cp bs cps' rest X T E1 E2]; subst. inversion X; subst; cbn [app] in E2; injection E2 as E2; try lia; try discriminate.
Qed.
Print Assumptions C149_reading_refuted.

(** ** C150: a character gives back the code point it was given, or '?'. *)
Theorem C150_char_set_get : forall e cp, char_encoding e = Ok e -> 0 <= cp < 2 ^ 32 ->
  exists bs, set_code_point e cp = Ok bs /\ List.length bs = char_size e /\
    (((exists b, encodes e cp b) /\ encodes e cp bs /\ get_code_point e bs = Ok cp) \/ ((forall b, ~ encodes e cp b) /\ get_code_point e bs = Ok 63)).
Proof.
  intros e cp E R.
  assert (LEN : forall bs, set_code_point e cp = Ok bs -> List.length bs = char_size e).
  { intros bs H. assert (G : exists k, 1 <= k /\ Z.of_nat (char_size e) = k * Z.of_nat (char_size e)) by (exists 1; lia). destruct G as (k & K & GE).
    pose proof (C46_append_in_bounds e true cp k R K) as F. rewrite <- GE in F. unfold set_code_point in H.
    destruct (append_fn e true cp (Z.of_nat (char_size e))) as [[b r]| | |] eqn:A; try discriminate H. cbn [bind] in H. injection H as <-. cbn [fits] in F.
    destruct F as (NE & F1 & F2). assert (L1 : (1 <= List.length b)%nat) by (destruct b; [congruence|cbn; lia]).
    destruct e; try discriminate E; cbn [char_size] in *; [lia| |].
    - cbn [append_fn negb] in A. unfold noerror_append_ucs2, store in A. destruct (_ <=? _) in A; [|discriminate]. injection A as <- _. reflexivity.
    - cbn [append_fn negb] in A. unfold noerror_append_utf32, store in A. destruct (_ <=? _) in A; [|discriminate]. injection A as <- _. reflexivity. }
  destruct (classic_scalar e cp R) as [(bs & B)|N].
  - destruct (code_point_ok e cp bs B E) as (S1 & S2). exists bs. split; [exact S1|]. split; [exact (LEN bs S1)|]. left. split; [exists bs; exact B|]. split; [exact B|exact S2].
  - destruct (code_point_not e cp R E N) as (bs & S1 & S2). exists bs. split; [exact S1|]. split; [exact (LEN bs S1)|]. right. split; [exact N|exact S2].
Qed.
Print Assumptions C150_char_set_get.
Theorem C150_char_encodings : forall e, (exists e', char_encoding e = Ok e') <-> (forall c1 c2 b1 b2, encodes e c1 b1 -> encodes e c2 b2 -> List.length b1 = List.length b2).
Proof.
  assert (A : encodes Utf8 97 [97]) by (apply (utf8_1 97); lia).
  assert (B : encodes Utf8 0x80 [0xC2; 0x80]) by (apply (utf8_2 2 0); lia).
  assert (C : encodes Utf16 97 [97; 0]) by (apply utf16_1; [unfold scalar; lia|lia|exists 97, 0; unfold byte; repeat split; lia]).
  assert (D : encodes Utf16 0x10000 ([0; 0xD8] ++ [0; 0xDC])).
  { apply (utf16_2 0 0); [lia|lia|exists 0, 0xD8; unfold byte; repeat split; lia|exists 0, 0xDC; unfold byte; repeat split; lia]. }
  intros e. destruct e; split; intros H; try (eexists; reflexivity); try (destruct H as (e' & H); discriminate H).
  - intros c1 c2 b1 b2 X Y. destruct X, Y. reflexivity.
  - intros c1 c2 b1 b2 X Y. destruct X as [? ? _ _ (? & ? & _ & _ & _ & ->)], Y as [? ? _ _ (? & ? & _ & _ & _ & ->)]. reflexivity.
  - discriminate (H _ _ _ _ A B).
  - discriminate (H _ _ _ _ C D).
  - intros c1 c2 b1 b2 X Y. destruct X as [? ? _ (? & ? & ? & ? & _ & _ & _ & _ & _ & ->)], Y as [? ? _ (? & ? & ? & ? & _ & _ & _ & _ & _ & ->)]. reflexivity.
Qed.
Print Assumptions C150_char_encodings.

(** ** C151: characters and strings. *)
Theorem C151_string_to_char_partial : forall e src buf, char_encoding e = Ok e -> bytes src ->
  (string_to_char e false src = Ok buf <->
   (exists cp, utf8_of cp src /\ encodes e cp buf) \/ (src = [] /\ encodes e 0 buf)).
Proof.
  intros e src buf E HB. unfold string_to_char. assert (HU : units e (Z.of_nat (char_size e))) by (exists 1; lia).
  assert (LEN : forall cp b, encodes e cp b -> List.length b = char_size e).
  { intros cp b H. destruct (C150_char_encodings e) as [F _]. rewrite (F (ex_intro _ e E) cp 0 b _ H (proj2 (zero_unit e _) eq_refl)). apply repeat_length. }
  rewrite (set_checked_iff e _ src buf HB HU). split.
  - intros (cps & T1 & bs & T2 & L & ->). destruct T2 as [|cp b cps rest X T2].
    + right. inversion T1; subst. split; [reflexivity|]. cbn [List.length app]. apply zero_unit. f_equal. lia.
    + rewrite app_length, (LEN cp b X) in *. destruct T2 as [|cp' b' cps rest X' T2].
      * left. exists cp. inversion T1 as [|? ? ? ? U V]; subst. inversion V; subst. rewrite app_nil_r. split; [exact U|]. cbn [List.length].
        replace (Z.to_nat _) with 0%nat by lia. cbn [repeat]. rewrite !app_nil_r. exact X.
      * exfalso. rewrite app_length, (LEN cp' b' X') in L. pose proof (char_size_pos e). lia.
  - intros [(cp & U & X)|(-> & X)].
    + exists [cp]. split; [rewrite <- (app_nil_r src); constructor; [exact U|constructor]|]. exists buf. split; [rewrite <- (app_nil_r buf); constructor; [exact X|constructor]|].
      rewrite (LEN cp buf X). split; [lia|]. replace (Z.to_nat _) with 0%nat by lia. cbn [repeat]. rewrite app_nil_r. reflexivity.
    + exists []. split; [constructor|]. exists []. split; [constructor|]. split; [cbn; lia|]. apply zero_unit in X. rewrite X. cbn [List.length app]. f_equal. lia.
Qed.
Print Assumptions C151_string_to_char_partial.
(** The empty string is no character, and is accepted as U+0000. *)
Theorem C151_empty_refuted : forall e nocheck, char_encoding e = Ok e -> string_to_char e nocheck [] = Ok (repeat 0 (char_size e)).
Proof. intros [] []; intros H; try discriminate H; reflexivity. Qed.
Print Assumptions C151_empty_refuted.
Theorem C151_char_to_string : forall e nocheck cp data fuel, char_encoding e = Ok e -> encodes e cp data -> (4 <= fuel)%nat ->
  exists s, char_to_string e nocheck fuel data = Ok s /\ ((cp <> 0 /\ utf8_of cp s) \/ (cp = 0 /\ s = [])).
Proof.
  intros e nc cp data fuel E X HF.
  assert (LEN : List.length data = char_size e).
  { destruct (C150_char_encodings e) as [F _]. rewrite (F (ex_intro _ e E) cp 0 data _ X (proj2 (zero_unit e _) eq_refl)). apply repeat_length. }
  pose proof (char_size_pos e). destruct (Z.eq_dec cp 0) as [->|NZ].
  - assert (HO : holds e [] data).
    { split; [intros []|]. exists [], data. split; [constructor|]. split; [reflexivity|]. right. exists []. rewrite app_nil_r. apply zero_unit. exact X. }
    destruct (to_string_ok e nc fuel [] data HO ltac:(lia)) as (s & S & T). exists s. split; [exact S|]. right. inversion T. auto.
  - assert (HO : holds e [cp] data).
    { split; [intros [I|[]]; congruence|]. exists data, []. rewrite app_nil_r. split; [|split; [reflexivity|left; reflexivity]].
      rewrite <- (app_nil_r data). constructor; [exact X|constructor]. }
    destruct (to_string_ok e nc fuel [cp] data HO ltac:(lia)) as (s & S & T). exists s. split; [exact S|]. left. split; [exact NZ|].
    inversion T as [|? ? ? ? U V]; subst. inversion V; subst. rewrite app_nil_r. exact U.
Qed.
Print Assumptions C151_char_to_string.

(** ** Cases *)
Example C145_case : exists buf, set_from_utf8 Utf16 false 8 [0xC3; 0xA9; 0xF0; 0x9F; 0x98; 0x80] = Ok buf /\ get_utf8_string Utf16 false buf = Ok [0xC3; 0xA9; 0xF0; 0x9F; 0x98; 0x80] /\
  buf = [0xE9; 0; 0x3D; 0xD8; 0; 0xDE; 0; 0].
Proof. eexists. split; [reflexivity|]. split; reflexivity. Qed.
Example C147_case : set_from_utf8 Ascii true 3 [97; 0xC3; 0xA9; 98; 99] = Ok [97; 63; 98].
Proof. reflexivity. Qed.
Example C148_case : fixed_to_fixed Utf16 Utf8 false 4 [97; 0; 0xE9; 0; 0; 0; 98; 0] = Ok [97; 0xC3; 0xA9; 0].
Proof. reflexivity. Qed.
Example C149_case : fixed_to_string Utf8 false 5 [97; 98; 0; 99] = Ok [97; 98].
Proof. reflexivity. Qed.
Example C150_case : set_code_point Ucs2 0xD800 = Ok [63; 0] /\ set_code_point Ascii 200 = Ok [63].
Proof. split; reflexivity. Qed.
Example C151_case : string_to_char Utf32 false [0xC3; 0xA9] = Ok [0xE9; 0; 0; 0] /\ exists x, string_to_char Utf32 false [97; 98] = Throw x.
Proof. split; [reflexivity|eexists; reflexivity]. Qed.
