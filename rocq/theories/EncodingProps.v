(** C09-C12, C46: string encodings.  [encodes e cp bs] (EncodingSpec): [bs] is the
    form of code point [cp] in encoding [e], from the Unicode standard;
    [text (encodes e) cps buf]: [buf] is the encoding of the code points [cps];
    [next_fn e nocheck], [append_fn e nocheck]: the functions that
    get_{next,append}_unicode_codepoint_function return. *)
From Verif Require Import Base EncodingModel EncodingSpec EncodingProofs.

(** C09: what an encoder writes, wherever it fits, is the code point's form, and
    decoding it (whatever follows) gives the code point back and stops right
    after it; both error modes, all five encodings. *)
Theorem C09_append_writes_encoding : forall e nocheck cp bs room, encodes e cp bs -> Z.of_nat (List.length bs) <= room ->
  append_fn e nocheck cp room = Ok (bs, room - Z.of_nat (List.length bs)).
Proof. exact append_complete. Qed.
Print Assumptions C09_append_writes_encoding.
Theorem C09_round_trip : forall e nc1 nc2 cp bs room rest, encodes e cp bs -> Z.of_nat (List.length bs) <= room ->
  exists room', append_fn e nc1 cp room = Ok (bs, room') /\ next_fn e nc2 (bs ++ rest) = Ok (cp, rest).
Proof.
  intros e nc1 nc2 cp bs room rest H R. exists (room - Z.of_nat (List.length bs)).
  split; [apply append_complete; auto|apply next_complete; auto].
Qed.
Print Assumptions C09_round_trip.
(** Every scalar value is representable in UTF-8, UTF-16, UTF-32, those below
    U+10000 in UCS-2, those below U+0080 in ASCII. *)
Theorem C09_representable : forall cp, scalar cp ->
  (exists bs, encodes Utf8 cp bs) /\ (exists bs, encodes Utf16 cp bs) /\ (exists bs, encodes Utf32 cp bs) /\
  (cp < 0x10000 -> exists bs, encodes Ucs2 cp bs) /\ (cp < 0x80 -> exists bs, encodes Ascii cp bs).
Proof.
  intros cp S. pose proof S as [S1 S2]. split; [|split; [|split; [|split]]]; cbn [encodes].
  - destruct (utf8_append_spec cp S) as (bs & _ & U & _). eauto.
  - destruct (Z.ltb_spec cp 0x10000).
    + exists (bytes16 cp). apply utf16_1; auto. apply bytes16_word; [lia|reflexivity].
    + assert (D : cp - 65536 = 1024 * ((cp - 65536) / 1024) + (cp - 65536) mod 1024) by (apply Z.div_mod; lia).
      pose proof (Z.mod_pos_bound (cp - 65536) 1024 ltac:(lia)).
      exists (bytes16 (0xD800 + (cp - 65536) / 1024) ++ bytes16 (0xDC00 + (cp - 65536) mod 1024)).
      replace cp with (0x10000 + 1024 * ((cp - 65536) / 1024) + (cp - 65536) mod 1024) at 1 by lia.
      apply utf16_2; [lia|lia|apply bytes16_word; [lia|reflexivity]|apply bytes16_word; [lia|reflexivity]].
  - exists (bytes32 cp). constructor; auto. apply bytes32_word; [lia|reflexivity].
  - intros L. exists (bytes16 cp). constructor; auto. apply bytes16_word; [lia|reflexivity].
  - intros L. exists [cp]. constructor; lia.
Qed.
Print Assumptions C09_representable.

(** C10. *)
Theorem C10_utf8_accepts_exactly_wellformed : forall buf cp rest, bytes buf -> buf <> [] ->
  (next_fn Utf8 false buf = Ok (cp, rest) <-> exists bs, utf8_of cp bs /\ buf = bs ++ rest).
Proof. exact next_utf8_iff. Qed.
Print Assumptions C10_utf8_accepts_exactly_wellformed.
Theorem C10_utf8_rejects_malformed : forall buf, bytes buf -> buf <> [] ->
  ~ starts_utf8 buf -> exists e, next_fn Utf8 false buf = Throw e.
Proof.
  intros buf HB HN NS. destruct (next_utf8_cases buf HB HN) as [(cp & bs & r & E & U & _)|(_ & (e & H) & _)]; [|exists e; exact H].
  exfalso. apply NS. exists cp, bs, r. auto.
Qed.
Print Assumptions C10_utf8_rejects_malformed.
(** The same for the other checked decoders (ASCII: 7 bits; UCS-2: no
    surrogates; UTF-16: paired surrogates; UTF-32: scalar values). *)
Theorem C10_checked_decoders_exact : forall e buf cp rest, bytes buf -> whole e buf -> buf <> [] ->
  (next_fn e false buf = Ok (cp, rest) <-> exists bs, encodes e cp bs /\ buf = bs ++ rest) /\
  ((forall cp bs rest, encodes e cp bs -> buf <> bs ++ rest) -> exists x, next_fn e false buf = Throw x).
Proof.
  intros e buf cp rest HB HW HN. split; [apply next_strict_iff; auto|]. intros N.
  destruct (next_strict_cases e buf HB HW HN) as [(cp' & bs & r & E & U & _)|H]; auto. exfalso. eapply N; eauto.
Qed.
Print Assumptions C10_checked_decoders_exact.

(** C11: the checked decoders, on a non-empty buffer of whole units, either
    throw or consume at least one byte of the buffer and read nothing else. *)
Theorem C11_checked_in_bounds_and_progress : forall e buf, bytes buf -> whole e buf -> buf <> [] ->
  (exists x, next_fn e false buf = Throw x) \/
  (exists cp pre rest, next_fn e false buf = Ok (cp, rest) /\ buf = pre ++ rest /\ pre <> []).
Proof.
  intros e buf HB HW HN. destruct (next_strict_cases e buf HB HW HN) as [(cp & bs & r & E & U & H)|H]; [right|left; auto].
  exists cp, bs, r. split; [auto|split; [auto|eapply encodes_nonempty; eauto]].
Qed.
Print Assumptions C11_checked_in_bounds_and_progress.
(** The no-error decoders agree with the checked ones where those succeed and
    otherwise yield '?', consuming at least one byte, except in two cases ... *)
Theorem C11_noerror_partial : forall e buf, bytes buf -> whole e buf -> buf <> [] ->
  (e = Utf8 -> ~ bad_lead8 buf) -> (e = Utf16 -> ~ dangling_lead16 buf) ->
  (exists cp pre rest, next_fn e false buf = Ok (cp, rest) /\ next_fn e true buf = Ok (cp, rest) /\ buf = pre ++ rest /\ pre <> []) \/
  ((exists x, next_fn e false buf = Throw x) /\
   exists pre rest, next_fn e true buf = Ok (63, rest) /\ buf = pre ++ rest /\ pre <> []).
Proof.
  intros e buf HB HW HN N8 N16. destruct (noerror_cases e buf HB HW HN N8 N16) as [(cp & rest & H1 & H2)|H]; auto.
  left. pose proof H1 as H1'. apply next_strict_iff in H1'; auto. destruct H1' as (bs & U & E).
  exists cp, bs, rest. split; [auto|split; [auto|split; [auto|eapply encodes_nonempty; eauto]]].
Qed.
Print Assumptions C11_noerror_partial.
(** ... and in exactly those two cases the property fails: no progress on a
    byte that cannot start a UTF-8 sequence (a decoding loop never ends), and a
    read past the end for a lead surrogate in the last unit. *)
Theorem C11_noerror_utf8_no_progress_refuted : forall buf, bytes buf -> buf <> [] -> bad_lead8 buf ->
  next_fn Utf8 true buf = Ok (63, buf).
Proof. exact noerror_utf8_stuck. Qed.
Print Assumptions C11_noerror_utf8_no_progress_refuted.
Theorem C11_noerror_utf16_out_of_bounds_refuted : forall buf, bytes buf -> dangling_lead16 buf ->
  next_fn Utf16 true buf = UB.
Proof. exact noerror_utf16_oob. Qed.
Print Assumptions C11_noerror_utf16_out_of_bounds_refuted.
(** A buffer that ends in the middle of a unit is read past its end. *)
Theorem C11_partial_unit_refuted : forall nc b, next_fn Ucs2 nc [b] = UB /\ next_fn Utf16 nc [b] = UB /\ next_fn Utf32 nc [b] = UB.
Proof. intros [] b; repeat split. Qed.
Print Assumptions C11_partial_unit_refuted.

(** C12. *)
Theorem C12_transcode_preserves_text : forall e nocheck cps buf, e = Ucs2 \/ e = Utf16 \/ e = Utf32 -> text (encodes e) cps buf ->
  exists out, string_range_as_utf8_string e nocheck buf = Ok out /\ text utf8_of cps out.
Proof. exact as_utf8_complete. Qed.
Print Assumptions C12_transcode_preserves_text.
Theorem C12_transcode_ascii_utf8_identity : forall nocheck buf,
  string_range_as_utf8_string Ascii nocheck buf = Ok buf /\ string_range_as_utf8_string Utf8 nocheck buf = Ok buf.
Proof. split; reflexivity. Qed.
Print Assumptions C12_transcode_ascii_utf8_identity.
(** An ill-formed buffer throws; so the output is always well-formed UTF-8 of
    the same text. *)
Theorem C12_transcode_rejects : forall e buf, e = Ucs2 \/ e = Utf16 \/ e = Utf32 -> bytes buf -> whole e buf ->
  (forall cps, ~ text (encodes e) cps buf) -> exists x, string_range_as_utf8_string e false buf = Throw x.
Proof. exact as_utf8_rejects. Qed.
Print Assumptions C12_transcode_rejects.
Theorem C12_transcode_noerror_total : forall e buf, e = Ucs2 \/ e = Utf32 -> bytes buf -> whole e buf ->
  exists out, string_range_as_utf8_string e true buf = Ok out.
Proof.
  intros e buf He HB HW. destruct (range_loop_noerror e He (S (List.length buf)) buf [] HB HW ltac:(lia)) as (out & E).
  exists out. destruct He as [-> | ->]; exact E.
Qed.
Print Assumptions C12_transcode_noerror_total.
(** Reading a text is unambiguous, so "the same text" means something. *)
Theorem C12_text_unique : forall e cps cps' buf, text (encodes e) cps buf -> text (encodes e) cps' buf -> cps = cps'.
Proof.
  intros e cps cps' buf H. revert cps'. induction H as [|cp bs cps rest H1 HT IH]; intros cps' H'.
  - inversion H' as [|cp bs cps0 rest Hx _ E]; auto. apply encodes_nonempty in Hx. destruct bs; [congruence|discriminate].
  - remember (bs ++ rest) as buf. destruct H' as [|cp' bs' cps0 rest' Hx HT'].
    + apply encodes_nonempty in H1. destruct bs; [congruence|discriminate].
    + destruct (encodes_prefix_unique _ _ _ _ _ _ _ Hx H1 Heqbuf) as (-> & _ & ->). f_equal; auto.
Qed.
Print Assumptions C12_text_unique.

(** C46: an encoder with room for at least one unit never writes outside its
    buffer, whatever 32-bit value it is given. *)
Theorem C46_append_in_bounds : forall e nocheck cp k, 0 <= cp < 2 ^ 32 -> 1 <= k ->
  fits (k * Z.of_nat (char_size e)) (append_fn e nocheck cp (k * Z.of_nat (char_size e))).
Proof. exact append_in_bounds. Qed.
Print Assumptions C46_append_in_bounds.
Theorem C46_checked_append_sound_partial : forall e cp room bs room', e = Ascii \/ e = Ucs2 \/ e = Utf8 -> 0 <= cp < 2 ^ 32 ->
  append_fn e false cp room = Ok (bs, room') -> encodes e cp bs.
Proof. exact append_sound. Qed.
Print Assumptions C46_checked_append_sound_partial.
Theorem C46_noerror_append_substitutes : forall e cp room, e = Ascii \/ e = Ucs2 -> 0 <= cp < 2 ^ 32 -> Z.of_nat (char_size e) <= room ->
  (forall bs, ~ encodes e cp bs) ->
  exists bs, append_fn e true cp room = Ok (bs, room - Z.of_nat (char_size e)) /\ encodes e 63 bs.
Proof. exact append_substitutes. Qed.
Print Assumptions C46_noerror_append_substitutes.
(** The checked UTF-16 and UTF-32 encoders accept lone surrogates and values
    above U+10FFFF. *)
Theorem C46_checked_append_refuted :
  (exists bs r, append_fn Utf16 false 0xD800 8 = Ok (bs, r) /\ forall cp, ~ encodes Utf16 cp bs) /\
  (exists bs r, append_fn Utf32 false 0x110000 8 = Ok (bs, r) /\ forall cp, ~ encodes Utf32 cp bs).
Proof.
  split; eexists _, _; (split; [reflexivity|]); intros cp H.
  - pose proof (next_complete Utf16 false cp _ [] H) as N. discriminate.
  - pose proof (next_complete Utf32 false cp _ [] H) as N. discriminate.
Qed.
Print Assumptions C46_checked_append_refuted.

(** Concrete cases. *)
Example ex_c09 : encodes Utf8 0x20AC [0xE2; 0x82; 0xAC] /\ encodes Utf16 0x1F600 [0x3D; 0xD8; 0x00; 0xDE].
Proof.
  split.
  - apply (utf8_3 2 2 0x2C); unfold scalar; lia.
  - apply (utf16_2 0x3D 0x200 [0x3D; 0xD8] [0x00; 0xDE]); try lia; [exists 0x3D, 0xD8|exists 0, 0xDE]; unfold byte; repeat split; lia.
Qed.
Example ex_c10 : bytes [0xC3; 0xA9; 0x21] /\ next_fn Utf8 false [0xC3; 0xA9; 0x21] = Ok (0xE9, [0x21]) /\
  next_fn Utf8 false [0xC0; 0x80] = Throw "string_encode_error" /\ next_fn Utf8 false [0xED; 0xA0; 0x80] = Throw "string_encode_error".
Proof. split; [repeat constructor; lia|repeat split]. Qed.
Example ex_c11 : whole Utf16 [0x41; 0; 0x3D; 0xD8] /\ dangling_lead16 [0x3D; 0xD8] /\ bad_lead8 [0xBF; 0x41].
Proof. split; [exists 2%nat; reflexivity|split; [exists 0x3D, 0xD8; split; [reflexivity|lia]|left; cbn; lia]]. Qed.
Example ex_c12 : text (encodes Utf16) [0x41; 0x1F600] [0x41; 0; 0x3D; 0xD8; 0x00; 0xDE].
Proof.
  apply (text_cons _ 0x41 [0x41; 0]). { apply utf16_1; [unfold scalar; lia|lia|exists 0x41, 0; unfold byte; repeat split; lia]. }
  apply (text_cons _ 0x1F600 [0x3D; 0xD8; 0x00; 0xDE] [] []); [apply ex_c09|constructor].
Qed.
