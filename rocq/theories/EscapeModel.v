(** Model of the quoted-string printing and parsing of
    [src/dynd/parse_util.cpp] and [src/dynd/string_encodings.cpp].
    Buffers are lists of bytes as in ScanModel.v; a [std::string] is the list of
    its bytes; the message and position of a thrown error are not modelled. *)
From Verif Require Import Base ScanModel EncodingModel.

(** The [for (int i = 0; i < n; ++i) { char d = *begin++; if (!hex) throw ...; }]
    loop of parse_util.cpp:94-99, 106-111: the digits passed and the rest. *)
Fixpoint hex_scan (n : nat) (it : list Z) : outcome (list Z * list Z) :=
  match n with
  | O => Ok ([], it)
  | S n =>
      do d <- deref it;
      if negb (is_hex d) then Throw "parse_error"
      else do (ds, r) <- hex_scan n (tl it); Ok (d :: ds, r)
  end.

(** parse_util.cpp:80-88, the escapes of one character: quote, backslash, / b f n r t. *)
Definition simple_escape (c : Z) : bool :=
  (c =? 34) || (c =? 92) || (c =? 47) || (c =? 98) || (c =? 102) || (c =? 110) || (c =? 114) || (c =? 116).

(** parse_util.cpp:73-127, the loop: [acc] is the text since the opening quote,
    newest first. *)
Fixpoint dq_loop (fuel : nat) (escaped : bool) (acc it : list Z) : outcome (list Z * bool * list Z) :=
  match fuel with
  | O => NoFuel
  | S fuel =>
      if at_end it then Throw "parse_error"
      else
        do c <- deref it;
        let it1 := tl it in
        if c =? 92 then
          if at_end it1 then Throw "parse_error"
          else
            do e <- deref it1;
            let it2 := tl it1 in
            if simple_escape e then dq_loop fuel true (e :: c :: acc) it2
            else if e =? 117 then
              if len it2 <? 4 then Throw "parse_error"
              else do (ds, it3) <- hex_scan 4 it2; dq_loop fuel true (rev ds ++ e :: c :: acc) it3
            else if e =? 85 then
              if len it2 <? 8 then Throw "parse_error"
              else do (ds, it3) <- hex_scan 8 it2; dq_loop fuel true (rev ds ++ e :: c :: acc) it3
            else Throw "parse_error"
        else if c =? 34 then Ok (rev acc, escaped, it1)
        else dq_loop fuel escaped (c :: acc) it1
  end.
(** parse_util.cpp:65-128 parse_doublequote_string_no_ws: body, out_escaped and
    the remaining buffer; [None] when it returns false. *)
Definition parse_doublequote_string_no_ws (it : list Z) : outcome (option (list Z * bool * list Z)) :=
  match parse_token_no_ws it [34] with
  | None => Ok None
  | Some it1 => do x <- dq_loop (S (List.length it1)) false [] it1; Ok (Some x)
  end.

(** The digit accumulation of parse_util.cpp:162-175, 182-195: [cp *= 16] and
    the additions are uint32_t arithmetic; a bad digit sets cp to '?'. *)
Definition hex_digit (d : Z) : option Z :=
  if is_dig d then Some (d - 48)
  else if between 65 70 d then Some (d - 65 + 10)
  else if between 97 102 d then Some (d - 97 + 10)
  else None.
Fixpoint hex_accum (n : nat) (cp : Z) (it : list Z) : outcome (Z * list Z) :=
  match n with
  | O => Ok (cp, it)
  | S n =>
      do d <- deref it;
      let cp := u32 (cp * 16) in
      let cp := match hex_digit d with Some v => u32 (cp + v) | None => 63 end in
      hex_accum n cp (tl it)
  end.
(** parse_util.cpp:140-160, the character a simple escape stands for. *)
Definition escape_char (c : Z) : option Z :=
  if (c =? 34) || (c =? 92) || (c =? 47) then Some c
  else if c =? 98 then Some 8
  else if c =? 102 then Some 12
  else if c =? 110 then Some 10
  else if c =? 114 then Some 13
  else if c =? 116 then Some 9
  else None.

(** parse_util.cpp:130-212 unescape_string. *)
Fixpoint unescape_loop (fuel : nat) (it out : list Z) : outcome (list Z) :=
  match fuel with
  | O => NoFuel
  | S fuel =>
      if at_end it then Ok out
      else
        do c <- deref it;
        let it1 := tl it in
        if c =? 92 then
          if at_end it1 then Ok out
          else
            do e <- deref it1;
            let it2 := tl it1 in
            match escape_char e with
            | Some v => unescape_loop fuel it2 (out ++ [v])
            | None =>
                if e =? 117 then
                  if len it2 <? 4 then Ok out
                  else do (cp, it3) <- hex_accum 4 0 it2; do out' <- string_append_utf8 cp out; unescape_loop fuel it3 out'
                else if e =? 85 then
                  if len it2 <? 8 then Ok out
                  else do (cp, it3) <- hex_accum 8 0 it2; do out' <- string_append_utf8 cp out; unescape_loop fuel it3 out'
                else unescape_loop fuel it2 (out ++ [63])
            end
        else unescape_loop fuel it1 (out ++ [c])
  end.
Definition unescape_string (s : list Z) : outcome (list Z) := unescape_loop (S (List.length s)) s [].

(** type.cpp:560-586 hexadecimal_print of one byte, of a uint16_t and of a
    uint32_t; [hexadecimal\[\]] is 0123456789abcdef. *)
Definition hex_char (v : Z) : Z := if v <? 10 then 48 + v else 97 + (v - 10).
Definition hex_byte (v : Z) : list Z := let v := u8 v in [hex_char (Z.shiftr v 4); hex_char (Z.land v 0x0f)].
Definition hexadecimal_print16 (v : Z) : list Z := hex_byte (Z.land (Z.shiftr v 8) 0xff) ++ hex_byte (Z.land v 0xff).
Definition hexadecimal_print32 (v : Z) : list Z :=
  hex_byte (Z.shiftr v 24) ++ hex_byte (Z.land (Z.shiftr v 16) 0xff) ++
  hex_byte (Z.land (Z.shiftr v 8) 0xff) ++ hex_byte (Z.land v 0xff).

(** string_encodings.cpp:411-454: the characters written to the stream. *)
Definition print_escaped_unicode_codepoint (cp : Z) (single_quote : bool) : list Z :=
  if cp <? 0x80 then
    if cp =? 8 then [92; 98]
    else if cp =? 12 then [92; 102]
    else if cp =? 10 then [92; 110]
    else if cp =? 13 then [92; 114]
    else if cp =? 9 then [92; 116]
    else if cp =? 92 then [92; 92]
    else if cp =? 39 then (if single_quote then [92; 39] else [39])
    else if cp =? 34 then (if single_quote then [34] else [92; 34])
    else if (cp <? 0x20) || (cp =? 0x7f) then [92; 117] ++ hexadecimal_print16 (u16 cp)
    else [cp]
  else if cp <? 0x10000 then [92; 117] ++ hexadecimal_print16 (u16 cp)
  else [92; 85] ++ hexadecimal_print32 (u32 cp).

(** string_encodings.cpp:456-466. *)
Fixpoint print_escaped_loop (fuel : nat) (it : list Z) (single_quote : bool) (o : list Z) : outcome (list Z) :=
  match fuel with
  | O => NoFuel
  | S fuel =>
      if at_end it then Ok o
      else
        do (cp, it') <- next_utf8 it;
        print_escaped_loop fuel it' single_quote (o ++ print_escaped_unicode_codepoint cp single_quote)
  end.
Definition print_escaped_utf8_string (s : list Z) (single_quote : bool) : outcome (list Z) :=
  let q := if single_quote then 39 else 34 in
  do o <- print_escaped_loop (S (List.length s)) s single_quote [q]; Ok (o ++ [q]).

(** parse_util.cpp:413-492 datashape::parse_quoted_string. *)
Fixpoint ds_hex (n : nat) (cp : Z) (it : list Z) : outcome (Z * list Z) :=
  match n with
  | O => Ok (cp, it)
  | S n =>
      do d <- deref it;
      match hex_digit d with
      | Some v => ds_hex n (u32 (u32 (cp * 16) + v)) (tl it)
      | None => Throw "internal_parse_error"
      end
  end.
Fixpoint ds_quoted_loop (fuel : nat) (quote : Z) (it out : list Z) : outcome (list Z * list Z) :=
  match fuel with
  | O => NoFuel
  | S fuel =>
      if at_end it then Throw "internal_parse_error"
      else
        do c <- deref it;
        let it1 := tl it in
        if c =? 92 then
          if at_end it1 then Throw "internal_parse_error"
          else
            do e <- deref it1;
            let it2 := tl it1 in
            if e =? 39 then ds_quoted_loop fuel quote it2 (out ++ [39])
            else
              match escape_char e with
              | Some v => ds_quoted_loop fuel quote it2 (out ++ [v])
              | None =>
                  if e =? 117 then
                    if len it2 <? 4 then Throw "internal_parse_error"
                    else do (cp, it3) <- ds_hex 4 0 it2; do out' <- string_append_utf8 cp out; ds_quoted_loop fuel quote it3 out'
                  else Throw "internal_parse_error"
              end
        else if negb (c =? quote) then ds_quoted_loop fuel quote it1 (out ++ [c])
        else Ok (out, it1)
  end.
Definition ds_parse_quoted_string (it : list Z) : outcome (option (list Z * list Z)) :=
  do t1 <- ds_parse_token it [39];
  match t1 with
  | Some it1 => do x <- ds_quoted_loop (S (List.length it1)) 39 it1 []; Ok (Some x)
  | None =>
      do t2 <- ds_parse_token it [34];
      match t2 with
      | Some it1 => do x <- ds_quoted_loop (S (List.length it1)) 34 it1 []; Ok (Some x)
      | None => Ok None
      end
  end.

(** parse_util.cpp:359-378 parse_na. *)
Definition parse_na (it : list Z) : outcome bool :=
  if len it =? 0 then Ok true
  else if len it =? 2 then
    do c0 <- load_at it 0; do c1 <- load_at it 1; Ok ((c0 =? 78) && (c1 =? 65))
  else if len it =? 4 then
    do c0 <- load_at it 0; do c1 <- load_at it 1; do c2 <- load_at it 2; do c3 <- load_at it 3;
    if ci c0 78 && ci c1 85 && ci c2 76 && ci c3 76 then Ok true
    else Ok ((c0 =? 78) && (c1 =? 111) && (c2 =? 110) && (c3 =? 101))
  else Ok false.

(** parse_util.cpp:494-508 datashape::string_to_encoding. *)
Definition lit (s : string) : list Z := map (fun a => Z.of_N (Ascii.N_of_ascii a)) (list_ascii_of_string s).
Definition string_to_encoding (estr : list Z) : outcome enc :=
  if list_eqb estr (lit "A") || list_eqb estr (lit "ascii") || list_eqb estr (lit "us-ascii") then Ok Ascii
  else if list_eqb estr (lit "U8") || list_eqb estr (lit "utf8") || list_eqb estr (lit "utf-8") || list_eqb estr (lit "utf_8") then Ok Utf8
  else if list_eqb estr (lit "U16") || list_eqb estr (lit "utf16") || list_eqb estr (lit "utf-16") || list_eqb estr (lit "utf_16") then Ok Utf16
  else if list_eqb estr (lit "U32") || list_eqb estr (lit "utf32") || list_eqb estr (lit "utf-32") || list_eqb estr (lit "utf_32") then Ok Utf32
  else if list_eqb estr (lit "ucs2") || list_eqb estr (lit "ucs-2") || list_eqb estr (lit "ucs_2") then Ok Ucs2
  else Throw "internal_parse_error".
