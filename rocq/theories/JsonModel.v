(** JSON: validating, reading and writing (src/dynd/json_parser.cpp,
    src/dynd/json_formatter.cpp).
    A text [\[begin, end)] is the list of its bytes, as in ScanModel.v; a parser
    returns what it stored and the remaining text.  [Throw parse_error] and
    [Throw json_parse_error] are the exceptions that carry a position, any other
    [Throw] is an exception that does not.  Only the checked error modes (the
    default of eval_context) are modelled.  Left out: float, complex and 128 bit
    numbers, fixed_string, type values, options of unsigned integers (nothing is
    stored for their null, see OptionModel.v) and of non-scalars (they throw), and
    the conversion of the JSON argument to a UTF-8 buffer. *)
From Verif Require Import Base ParseIntModel ScanModel EncodingModel EscapeModel DatashapeModel.
Open Scope Z_scope.

(** ** validate_json *)
(** json_parser.cpp:80-158 skip_json_value; [skip_elements] and [skip_members] are
    the for loops with the test of the closing bracket after them (116-126,
    93-111).  The fuel stands for the call stack and the loops; it never runs
    out (JsonProofs). *)
Fixpoint skip_value (fuel : nat) (it : list Z) : outcome (list Z) :=
  match fuel with
  | O => NoFuel
  | S f =>
      let it := skip_whitespace it in
      match it with
      | [] => Throw "parse_error"
      | c :: r =>
          if c =? 123 then match parse_token r [125] with Some r' => Ok r' | None => skip_members f r end
          else if c =? 91 then match parse_token r [93] with Some r' => Ok r' | None => skip_elements f r end
          else if c =? 34 then
            do x <- parse_doublequote_string_no_ws it;
            match x with Some (_, _, r') => Ok r' | None => Throw "parse_error" end
          else if c =? 116 then match parse_token it (lit "true") with Some r' => Ok r' | None => Throw "parse_error" end
          else if c =? 102 then match parse_token it (lit "false") with Some r' => Ok r' | None => Throw "parse_error" end
          else if c =? 110 then match parse_token it (lit "null") with Some r' => Ok r' | None => Throw "parse_error" end
          else if (c =? 45) || is_dig c then
            do x <- json_parse_number it;
            match x with Some (_, r') => Ok r' | None => Throw "parse_error" end
          else Throw "parse_error"
      end
  end
with skip_elements (fuel : nat) (it : list Z) : outcome (list Z) :=
  match fuel with
  | O => NoFuel
  | S f =>
      do r <- skip_value f it;
      match parse_token r [44] with
      | Some r' => skip_elements f r'
      | None => match parse_token r [93] with Some r' => Ok r' | None => Throw "parse_error" end
      end
  end
with skip_members (fuel : nat) (it : list Z) : outcome (list Z) :=
  match fuel with
  | O => NoFuel
  | S f =>
      do x <- parse_doublequote_string_no_ws (skip_whitespace it);
      match x with
      | None => Throw "parse_error"
      | Some (_, _, r) =>
          match parse_token r [58] with
          | None => Throw "parse_error"
          | Some r' =>
              do r'' <- skip_value f r';
              match parse_token r'' [44] with
              | Some r3 => skip_members f r3
              | None => match parse_token r'' [125] with Some r3 => Ok r3 | None => Throw "parse_error" end
              end
          end
      end
  end.
Definition skip_json_value (it : list Z) : outcome (list Z) := skip_value (S (2 * List.length it)) it.
(** json_parser.cpp:669-687 validate_json: [Ok tt] if it returns. *)
Definition validate_json (text : list Z) : outcome unit :=
  do r <- skip_json_value text;
  if at_end (skip_whitespace r) then Ok tt else Throw "parse_error".

(** ** parse_json *)
(** The types read; [JInt sgn W] is an integer type of [W] bits.  A struct is the
    list of its field names and the list of its field types. *)
Inductive jty :=
| JBool | JInt (sgn : bool) (W : Z) | JString
| JOptBool | JOptInt (W : Z) | JOptString
| JFixed (n : Z) (el : jty) | JVar (el : jty) | JTuple (tys : list jty) | JStruct (names : list (list Z)) (tys : list jty).
(** What is stored: the byte of a bool, the integer, the bytes of a string, the
    elements. *)
Inductive jval := VBool (w : Z) | VInt (v : Z) | VStr (s : list Z) | VList (vs : list jval).
Definition parser := list Z -> outcome (jval * list Z).

(** string_type.cpp:24-62 set_from_utf8_string: the string stored. The buffer has
    [cap] bytes, and is doubled when fewer than 8 are left. *)
Fixpoint utf8_copy (fuel : nat) (it out : list Z) (cap : Z) : outcome (list Z) :=
  match it with
  | [] => Ok out
  | _ =>
      match fuel with
      | O => NoFuel
      | S f =>
          do (cp, it') <- next_fn Utf8 false it;
          let cap := if 8 <=? cap - len out then cap else 2 * cap in
          do (bs, _) <- append_fn Utf8 false cp (cap - len out);
          utf8_copy f it' (out ++ bs) cap
      end
  end.
Definition set_from_utf8_string (s : list Z) : outcome jval :=
  do out <- utf8_copy (List.length s) s [] ((len s + 16) * 1124 / 1024); Ok (VStr out).

(** A [catch (const std::exception &e) { throw json_parse_error(...) }]. *)
Definition located {A} (o : outcome A) : outcome A := match o with Throw _ => Throw "json_parse_error" | _ => o end.
(** The text of a literal: [unescape_string] if the scanner saw a backslash. *)
Definition content (body : list Z) (escaped : bool) : outcome (list Z) := if escaped then unescape_string body else Ok body.

(** json_parser.cpp:342-401 parse_bool_json with option = false. *)
Definition parse_bool_json : parser := fun it =>
  let fail := Throw "json_parse_error" in
  match parse_token it (lit "true") with
  | Some r => Ok (VBool 1, r)
  | None =>
  match parse_token it (lit "false") with
  | Some r => Ok (VBool 0, r)
  | None =>
  match parse_token it (lit "null") with
  | Some r => fail
  | None =>
      do x <- json_parse_number it;
      match x with
      | Some (m, r) =>
          match m with
          | [c] => if c =? 48 then Ok (VBool 0, r) else if c =? 49 then Ok (VBool 1, r) else fail
          | _ => fail
          end
      | None =>
          do y <- parse_doublequote_string_no_ws it;
          match y with
          | Some (b, e, r) => do w <- content b e; do v <- parse_bool_checked w; Ok (VBool (if v then 1 else 0), r)
          | None => fail
          end
      end
  end end end.
(** parse_util.hpp:1397-1427 parse_number_json with option = false.  The escaped
    branch unescapes the literal but converts the original range. *)
Definition parse_number_json (sgn : bool) (W : Z) : parser := fun it =>
  do x <- json_parse_number it;
  match x with
  | Some (m, r) => do v <- string_to_number sgn W m; Ok (VInt v, r)
  | None =>
      do y <- parse_doublequote_string_no_ws it;
      match y with
      | Some (b, e, r) =>
          do v <- located (if e then do _ <- unescape_string b; string_to_number sgn W b else string_to_number sgn W b);
          Ok (VInt v, r)
      | None => Throw "json_parse_error"
      end
  end.
(** json_parser.cpp:403-430 parse_string_json. *)
Definition parse_string_json : parser := fun it =>
  do x <- parse_doublequote_string_no_ws (skip_whitespace it);
  match x with
  | Some (b, e, r) => do v <- located (do w <- content b e; set_from_utf8_string w); Ok (v, r)
  | None => Throw "json_parse_error"
  end.

(** option.cpp:65-73 old_assign_na: what is stored for a missing value.  The
    string is cleared. *)
Definition na_value (t : jty) : option jval :=
  match t with
  | JOptBool => Some (VBool 2) | JOptInt W => Some (VInt (tmin true W)) | JOptString => Some (VStr [])
  | _ => None
  end.
(** option.cpp:89-109 set_option_from_utf8_string. *)
Definition set_option (t : jty) (w : list Z) : outcome jval :=
  let na := negb (match t with JOptString => true | _ => false end) && ParseIntModel.parse_na w in
  match t with
  | JOptBool => if na then Ok (VBool 2) else do v <- parse_bool_checked w; Ok (VBool (if v then 1 else 0))
  | JOptInt W => if na then Ok (VInt (tmin true W)) else do v <- string_to_number true W w; Ok (VInt v)
  | JOptString => set_from_utf8_string w
  | _ => Throw "runtime_error"
  end.
(** json_parser.cpp:488-549 parse_option_json. *)
Definition parse_option_json (t : jty) : parser := fun it0 =>
  let it := skip_whitespace it0 in
  match parse_token it (lit "null") with
  | Some r => match na_value t with Some v => Ok (v, r) | None => Throw "runtime_error" end
  | None =>
      do x <- parse_doublequote_string_no_ws it;
      match x with
      | Some (b, e, r) => do v <- located (do w <- content b e; set_option t w); Ok (v, r)
      | None =>
          match t with
          | JOptBool =>
              match parse_token it (lit "true") with
              | Some r => Ok (VBool 1, r)
              | None =>
              match parse_token it (lit "false") with
              | Some r => Ok (VBool 0, r)
              | None =>
                  do y <- json_parse_number it;
                  match y with
                  | Some (m, r) =>
                      if compare_range_to_literal m (lit "1") then Ok (VBool 1, r)
                      else if compare_range_to_literal m (lit "0") then Ok (VBool 0, r)
                      else Throw "json_parse_error"
                  | None => Throw "json_parse_error"
                  end
              end end
          | JOptInt W =>
              do y <- json_parse_number it;
              match y with
              | Some (m, r) => do v <- string_to_number true W m; Ok (VInt v, r)
              | None => Throw "json_parse_error"
              end
          | _ => Throw "json_parse_error"
          end
      end
  end.

(** json_parser.cpp:161-182 parse_strided_dim_json after the opening bracket: the
    loop (172-178) with [left] elements to go. *)
Fixpoint strided_loop (p : parser) (left : nat) (acc : list jval) (it : list Z) : outcome (jval * list Z) :=
  match left with
  | O => match parse_token it [93] with Some r => Ok (VList (rev acc), r) | None => Throw "json_parse_error" end
  | S k =>
      do (v, r) <- p it;
      match k with
      | O => strided_loop p k (v :: acc) r
      | S _ => match parse_token r [44] with Some r' => strided_loop p k (v :: acc) r' | None => Throw "json_parse_error" end
      end
  end.
Definition parse_strided_dim_json (p : parser) (n : Z) : parser := fun it =>
  match parse_token it [91] with
  | None => Throw "json_parse_error"
  | Some r => strided_loop p (Z.to_nat n) [] r
  end.
(** json_parser.cpp:184-223 parse_var_dim_json: [alloc] elements are allocated,
    the next one is stored at index [size].  The memory the elements are moved
    to on a resize is the subject of C29-C31. *)
Fixpoint var_loop (fuel : nat) (p : parser) (size alloc : Z) (acc : list jval) (it : list Z) : outcome (jval * list Z) :=
  match fuel with
  | O => NoFuel
  | S f =>
      let alloc := if size =? alloc then alloc * 2 else alloc in
      if alloc <=? size then UB
      else
        do (v, r) <- p it;
        match parse_token r [44] with
        | Some r' => var_loop f p (size + 1) alloc (v :: acc) r'
        | None => match parse_token r [93] with Some r' => Ok (VList (rev (v :: acc)), r') | None => Throw "json_parse_error" end
        end
  end.
Definition parse_var_dim_json (p : parser) : parser := fun it =>
  match parse_token it [91] with
  | None => Throw "json_parse_error"
  | Some r =>
      match parse_token r [93] with
      | Some r' => Ok (VList [], r')
      | None => var_loop (S (List.length r)) p 0 8 [] r
      end
  end.

(** json_parser.cpp:296-323 parse_tuple_json_from_list, after the opening bracket:
    the loop over the fields. *)
Fixpoint tuple_loop (ps : list parser) (acc : list jval) (it : list Z) : outcome (jval * list Z) :=
  match ps with
  | [] => match parse_token it [93] with Some r => Ok (VList (rev acc), r) | None => Throw "json_parse_error" end
  | p :: ps' =>
      do (v, r) <- p (skip_whitespace it);
      match ps' with
      | [] => tuple_loop ps' (v :: acc) r
      | _ => match parse_token r [44] with Some r' => tuple_loop ps' (v :: acc) r' | None => Throw "json_parse_error" end
      end
  end.
(** struct_type.cpp:28-35 get_field_index; [None] for -1. *)
Fixpoint field_index (names : list (list Z)) (n : list Z) : option nat :=
  match names with
  | [] => None
  | m :: r => if list_eqb m n then Some O else match field_index r n with Some i => Some (S i) | None => None end
  end.
Fixpoint set_nth {A} (i : nat) (v : A) (l : list A) : list A :=
  match l, i with
  | [], _ => []
  | _ :: r, O => v :: r
  | x :: r, S i => x :: set_nth i v r
  end.
(** json_parser.cpp:244-275, the loop over the members of an object.  [slots] are
    the fields populated so far. *)
Fixpoint object_loop (fuel : nat) (names : list (list Z)) (ps : list parser) (slots : list (option jval)) (it : list Z)
  : outcome (list (option jval) * list Z) :=
  match fuel with
  | O => NoFuel
  | S f =>
      do x <- parse_doublequote_string_no_ws (skip_whitespace it);
      match x with
      | None => Throw "json_parse_error"
      | Some (b, e, r) =>
          match parse_token r [58] with
          | None => Throw "json_parse_error"
          | Some r1 =>
              do n <- content b e;
              do (slots', r2) <-
                match field_index names n with
                | None => do r2 <- skip_json_value r1; Ok (slots, r2)
                | Some i => match nth_error ps i with
                            | Some p => do (v, r2) <- p r1; Ok (set_nth i (Some v) slots, r2)
                            | None => UB
                            end
                end;
              match parse_token r2 [44] with
              | Some r3 => object_loop f names ps slots' r3
              | None => match parse_token r2 [125] with Some r3 => Ok (slots', r3) | None => Throw "json_parse_error" end
              end
          end
      end
  end.
(** json_parser.cpp:277-291: the fields that were not populated. *)
Fixpoint fill_missing (tys : list jty) (slots : list (option jval)) : outcome (list jval) :=
  match tys, slots with
  | [], _ => Ok []
  | t :: tys, s :: slots =>
      do v <- match s with
              | Some v => Ok v
              | None => match na_value t with Some v => Ok v | None => Throw "json_parse_error" end
              end;
      do vs <- fill_missing tys slots; Ok (v :: vs)
  | _ :: _, [] => UB
  end.
(** json_parser.cpp:225-294 parse_struct_json_from_object; 325-332 parse_struct_json. *)
Definition parse_struct_json (names : list (list Z)) (tys : list jty) (ps : list parser) : parser := fun it =>
  match parse_token it [123] with
  | Some r =>
      do (slots, r1) <-
        match parse_token r [125] with
        | Some r1 => Ok (repeat None (List.length tys), r1)
        | None => object_loop (S (List.length r)) names ps (repeat None (List.length tys)) r
        end;
      do vs <- fill_missing tys slots; Ok (VList vs, r1)
  | None =>
      match parse_token it [91] with
      | Some r => tuple_loop ps [] r
      | None => Throw "json_parse_error"
      end
  end.
(** json_parser.cpp:334-340 parse_tuple_json. *)
Definition parse_tuple_json (ps : list parser) : parser := fun it =>
  match parse_token it [91] with
  | Some r => tuple_loop ps [] r
  | None => Throw "json_parse_error"
  end.

(** json_parser.cpp:551-603 parse_json. *)
Fixpoint parse_value (tp : jty) (it0 : list Z) {struct tp} : outcome (jval * list Z) :=
  let it := skip_whitespace it0 in
  match tp with
  | JFixed n el => parse_strided_dim_json (parse_value el) n it
  | JVar el => parse_var_dim_json (parse_value el) it
  | JStruct names tys => parse_struct_json names tys (map (fun t => parse_value t) tys) it
  | JTuple tys => parse_tuple_json (map (fun t => parse_value t) tys) it
  | JBool => parse_bool_json it
  | JInt sgn W => parse_number_json sgn W it
  | JString => parse_string_json it
  | JOptBool | JOptInt _ | JOptString => parse_option_json tp it
  end.
(** json_parser.cpp:689-719 parse_json(out, json_begin, json_end). *)
Definition parse_json (tp : jty) (text : list Z) : outcome jval :=
  do (v, r) <- parse_value tp text;
  if at_end (skip_whitespace r) then Ok v else Throw "json_parse_error".

(** ** format_json *)
(** json_formatter.cpp:18-65 output_data: the bytes written and the capacity of the
    buffer.  Simplification: sizes do not overflow intptr_t. *)
Record obuf := { otext : list Z; ocap : Z }.
Definition ensure_capacity (o : obuf) (added : Z) : obuf :=
  if ocap o - len (otext o) <? added then
    let new_capacity := 2 * ocap o in
    let new_capacity := if new_capacity <? len (otext o) + added then len (otext o) + added else new_capacity in
    {| otext := otext o; ocap := new_capacity |}
  else o.
(** The memcpy into the buffer: UB if it does not fit. *)
Definition put (o : obuf) (bs : list Z) : outcome obuf :=
  if len (otext o) + len bs <=? ocap o then Ok {| otext := otext o ++ bs; ocap := ocap o |} else UB.
Definition write (o : obuf) (bs : list Z) : outcome obuf := put (ensure_capacity o (len bs)) bs.

(** json_formatter.cpp:90-146 print_escaped_unicode_codepoint. *)
Definition json_escape (o : obuf) (cp : Z) : outcome obuf :=
  if cp <? 0x80 then
    if cp =? 8 then write o [92; 98]
    else if cp =? 12 then write o [92; 102]
    else if cp =? 10 then write o [92; 110]
    else if cp =? 13 then write o [92; 114]
    else if cp =? 9 then write o [92; 116]
    else if cp =? 92 then write o [92; 92]
    else if cp =? 47 then write o [92; 47]
    else if cp =? 34 then write o [92; 34]
    else if (cp <? 0x20) || (cp =? 0x7f) then write o ([92; 117] ++ hexadecimal_print16 (u16 cp))
    else write o [u8 cp]
  else
    let o := ensure_capacity o 16 in
    do (bs, _) <- append_fn Utf8 true cp (ocap o - len (otext o));
    put o bs.
(** json_formatter.cpp:148-161 format_json_encoded_string; the loop. *)
Fixpoint format_chars (fuel : nat) (it : list Z) (o : obuf) : outcome obuf :=
  match it with
  | [] => Ok o
  | _ =>
      match fuel with
      | O => NoFuel
      | S f => do (cp, it') <- next_fn Utf8 true it; do o <- json_escape o cp; format_chars f it' o
      end
  end.
Definition format_json_encoded_string (fuel : nat) (s : list Z) (o : obuf) : outcome obuf :=
  do o <- write o [34]; do o <- format_chars fuel s o; write o [34].

(** The comma separated loops (205-210, 214-222, 236-241, 252-257). *)
Fixpoint format_seq (fs : list (obuf -> outcome obuf)) (o : obuf) : outcome obuf :=
  match fs with
  | [] => Ok o
  | f :: fs' => do o <- f o; match fs' with [] => Ok o | _ => do o <- write o [44]; format_seq fs' o end
  end.
Definition format_member (name : list Z) (f : obuf -> outcome obuf) (o : obuf) : outcome obuf :=
  do o <- format_json_encoded_string (List.length name) name o; do o <- write o [58]; f o.
Fixpoint format_fields (fs : list (jval -> obuf -> outcome obuf)) (vs : list jval) : option (list (obuf -> outcome obuf)) :=
  match fs, vs with
  | [], [] => Some []
  | f :: fs, v :: vs => match format_fields fs vs with Some r => Some (f v :: r) | None => None end
  | _, _ => None
  end.
Fixpoint zip_members (names : list (list Z)) (fs : list (obuf -> outcome obuf)) : list (obuf -> outcome obuf) :=
  match names, fs with
  | n :: names, f :: fs => format_member n f :: zip_members names fs
  | _, _ => []
  end.
(** json_formatter.cpp:69-82 (bool), 84-88 (number), 163-169 (string), 171-178
    (option; old_is_avail of a string is always true, see OptionModel.v), 197-225
    (struct), 227-267 (dimensions), 269-315 format_json.  The value must have the
    shape of the type: else [UB].  The numbers are written in decimal
    (print_as, type.cpp:770-808). *)
Fixpoint format_value (as_list : bool) (tp : jty) (v : jval) (o : obuf) {struct tp} : outcome obuf :=
  match tp, v with
  | JBool, VBool w => write o (if negb (w =? 0) then lit "true" else lit "false")
  | JInt _ _, VInt z => write o (int_text z)
  | JString, VStr s => format_json_encoded_string (List.length s) s o
  | JOptBool, VBool w =>
      if w <=? 1 then write o (if negb (w =? 0) then lit "true" else lit "false") else write o (lit "null")
  | JOptInt W, VInt z => if negb (z =? tmin true W) then write o (int_text z) else write o (lit "null")
  | JOptString, VStr s => format_json_encoded_string (List.length s) s o
  | JFixed n el, VList vs =>
      if n =? Z.of_nat (List.length vs) then
        do o <- write o [91]; do o <- format_seq (map (fun x => format_value as_list el x) vs) o; write o [93]
      else UB
  | JVar el, VList vs =>
      do o <- write o [91]; do o <- format_seq (map (fun x => format_value as_list el x) vs) o; write o [93]
  | JStruct names tys, VList vs =>
      match format_fields (map (fun t => format_value as_list t) tys) vs with
      | None => UB
      | Some fs =>
          if as_list then do o <- write o [91]; do o <- format_seq fs o; write o [93]
          else do o <- write o [123]; do o <- format_seq (zip_members names fs) o; write o [125]
      end
  | JTuple _, _ => Throw "runtime_error"
  | _, _ => UB
  end.
(** json_formatter.cpp:317-345 format_json: the text of the string returned. *)
Definition format_json (tp : jty) (v : jval) (as_list : bool) : outcome (list Z) :=
  do o <- format_value as_list tp v {| otext := []; ocap := 1024 |}; Ok (otext o).

(** ** Reports of errors *)
(** json_parser.cpp:610-638 get_error_line_column, for the offset [position] into
    the text; the previous line, the current line, the line number and the column.
    [int(position - begin + 1)] is a conversion to 32 bits.  Simplification: the
    line number does not overflow. *)
Fixpoint error_context (fuel : nat) (position begin line : Z) (cur s : list Z) : outcome (list Z * list Z * Z * Z) :=
  match fuel with
  | O => NoFuel
  | S f =>
      match s with
      | [] => Throw "runtime_error"
      | _ =>
          match to_newline s with
          | None => Ok (cur, s, line, cast true 32 (position - begin + 1))
          | Some (k, rest) =>
              let line_end := begin + Z.of_nat k + 1 in
              if position <? line_end then Ok (cur, firstn k s, line, cast true 32 (position - begin + 1))
              else error_context f position line_end (line + 1) (firstn k s) rest
          end
      end
  end.
Definition get_error_line_column (text : list Z) (position : Z) : outcome (list Z * list Z * Z * Z) :=
  error_context (S (List.length text)) position 0 1 [] text.
(** std::string::substr. *)
Definition substr (s : list Z) (pos n : Z) : outcome (list Z) :=
  if (pos <? 0) || (len s <? pos) then Throw "out_of_range" else Ok (firstn (Z.to_nat n) (skipn (Z.to_nat pos) s)).
Definition spaces (n : Z) : list Z := repeat 32 (Z.to_nat n).
(** json_parser.cpp:640-667 print_json_parse_error_marker. *)
Definition print_marker (line_prev line_cur : list Z) (line column : Z) : outcome (list Z) :=
  if len line_cur <? 200 then
    Ok ((if 1 <? line then line_prev ++ [10] else []) ++ line_cur ++ [10] ++ spaces (column - 1) ++ [94; 10])
  else if column <? 80 then
    do h <- substr line_cur 0 80; Ok (h ++ lit " ..." ++ [10] ++ spaces (column - 1) ++ [94; 10])
  else
    let start := column - 60 in
    do h <- substr line_cur (start - 1) 80; Ok (lit " ... " ++ h ++ lit " ..." ++ [10] ++ spaces 65 ++ [94; 10]).
