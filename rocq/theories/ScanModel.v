(** Model of the text scanners of [include/dynd/parse_util.hpp] and
    [src/dynd/parse_util.cpp].

    The buffer [\[begin, end)] is the list of its remaining bytes (0..255).  A
    scanner returns [Some (matched, rest)] when it returns true (the output
    range is [matched], the new [begin] is at [rest]), and [None] when it
    returns false, in which case [begin] is unchanged.  Where the C++ dereferences
    [*begin] the model uses [deref], which is [UB] at the end of the buffer.
    Simplification: [char] is taken as 0..255; every test in these functions
    compares with ASCII characters, for which signed and unsigned chars agree. *)
From Verif Require Import Base.

Definition deref (it : list Z) : outcome Z := match it with [] => UB | c :: _ => Ok c end.

Definition between (lo hi c : Z) : bool := (lo <=? c) && (c <=? hi).
Definition is_lower : Z -> bool := between 97 122.
Definition is_upper : Z -> bool := between 65 90.
Definition is_dig : Z -> bool := between 48 57.
Definition is_hex (d : Z) : bool := is_dig d || between 65 70 d || between 97 102 d.
(** config.hpp:44 DYND_ISSPACE = std::isspace, in the "C" locale. *)
Definition is_space (c : Z) : bool := (c =? 32) || between 9 13 c.

(** The loop [while (begin < end && p( *begin)) ++begin;]: what it passes over
    and what remains. *)
Fixpoint span (p : Z -> bool) (it : list Z) : list Z * list Z :=
  match it with
  | [] => ([], [])
  | c :: r => if p c then let (m, r') := span p r in (c :: m, r') else ([], it)
  end.

(** parse_util.cpp:24-43. *)
Definition name_start (c : Z) : bool := is_lower c || is_upper c || (c =? 95).
Definition name_char (c : Z) : bool := is_lower c || is_upper c || is_dig c || (c =? 95).
Definition parse_name_no_ws (it : list Z) : outcome (option (list Z * list Z)) :=
  match it with
  | [] => Ok None
  | c :: r => if name_start c then let (m, r') := span name_char r in Ok (Some (c :: m, r')) else Ok None
  end.

(** parse_util.cpp:46-64. *)
Definition alpha (c : Z) : bool := is_lower c || is_upper c.
Definition parse_alpha_name_no_ws (it : list Z) : outcome (option (list Z * list Z)) :=
  match it with
  | [] => Ok None
  | c :: r => if alpha c then let (m, r') := span alpha r in Ok (Some (c :: m, r')) else Ok None
  end.

(** parse_util.hpp:213-220. *)
Definition skip_whitespace (it : list Z) : list Z := snd (span is_space it).

(** memchr(begin, '\n', end - begin) + 1, or [None] if there is no newline. *)
Fixpoint after_newline (it : list Z) : option (list Z) :=
  match it with
  | [] => None
  | c :: r => if c =? 10 then Some r else after_newline r
  end.

(** parse_util.hpp:232-251 (recursive in the code as well; each call starts
    after at least the '#' and the newline, so [length it] is fuel enough). *)
Fixpoint skip_pound_loop (fuel : nat) (it : list Z) : outcome (list Z) :=
  let it1 := snd (span is_space it) in
  match it1 with
  | c :: _ =>
      if c =? 35 then
        match after_newline it1 with
        | None => Ok []
        | Some r => match fuel with O => NoFuel | S fuel => skip_pound_loop fuel r end
        end
      else Ok it1
  | [] => Ok it1
  end.
Definition skip_whitespace_and_pound_comments (it : list Z) : outcome (list Z) := skip_pound_loop (List.length it) it.

(** parse_util.hpp:262-275. *)
Definition skip_required_whitespace (it : list Z) : option (list Z) :=
  match it with
  | c :: r => if is_space c then Some (snd (span is_space r)) else None
  | [] => None
  end.

(** parse_util.hpp:404-412, 426-434: tokens; [memcmp(begin, token, N - 1) == 0]
    with the length test before it. *)
Fixpoint starts_with (tok it : list Z) : option (list Z) :=
  match tok, it with
  | [], _ => Some it
  | t :: tok, c :: r => if c =? t then starts_with tok r else None
  | _ :: _, [] => None
  end.
Definition parse_token_no_ws (it tok : list Z) : option (list Z) :=
  if Z.of_nat (List.length tok) <=? Z.of_nat (List.length it) then starts_with tok it else None.
(** parse_util.hpp:292-301, 315-324. *)
Definition parse_token (it tok : list Z) : option (list Z) := parse_token_no_ws (skip_whitespace it) tok.
(** parse_util.hpp:347-356, 370-379 datashape::parse_token. *)
Definition ds_parse_token (it tok : list Z) : outcome (option (list Z)) :=
  do it1 <- skip_whitespace_and_pound_comments it; Ok (parse_token_no_ws it1 tok).
(** parse_util.hpp:539-541. *)
Fixpoint list_eqb (a b : list Z) : bool :=
  match a, b with
  | [], [] => true
  | x :: a, y :: b => (x =? y) && list_eqb a b
  | _, _ => false
  end.
Definition compare_range_to_literal (range tok : list Z) : bool :=
  (Z.of_nat (List.length range) =? Z.of_nat (List.length tok)) && list_eqb range tok.

(** parse_util.hpp:555-584. *)
Definition parse_unsigned_int_no_ws (it : list Z) : outcome (option (list Z * list Z)) :=
  match it with
  | [] => Ok None
  | c :: r =>
      if between 49 57 c then let (m, r') := span is_dig r in Ok (Some (c :: m, r'))
      else if c =? 48 then
        match r with
        | d :: _ => if is_dig d then Ok None else Ok (Some ([c], r))
        | [] => Ok (Some ([c], r))
        end
      else Ok None
  end.

(** parse_util.hpp:598-608: the optional '-' is matched with [parse_token],
    which skips whitespace in front of it (but not after it); the range returned
    starts at the original [begin]. *)
Definition parse_int_no_ws (it : list Z) : outcome (option (list Z * list Z)) :=
  let '(skipped, it1) := match parse_token it [45] with
    | Some r => (fst (span is_space it) ++ [45], r)
    | None => ([], it)
    end in
  do x <- parse_unsigned_int_no_ws it1;
  match x with Some (m, r) => Ok (Some (skipped ++ m, r)) | None => Ok None end.

(** parse_util.hpp:616-626 datashape::parse_number; the empty string means no
    match. *)
Definition ds_parse_number (it : list Z) : outcome (list Z * list Z) :=
  do it1 <- skip_whitespace_and_pound_comments it;
  do x <- parse_unsigned_int_no_ws it1;
  match x with Some (m, r) => Ok (m, r) | None => Ok ([], it) end.

(** parse_util.cpp:215-270 json::parse_number; [acc] collects the bytes passed,
    newest first.  Every [return false] is [Ok None]. *)
Definition at_end (it : list Z) : bool := match it with [] => true | _ => false end.
Definition json_exponent (acc it : list Z) : outcome (option (list Z * list Z)) :=
  match it with
  | c :: r =>
      if (c =? 101) || (c =? 69) then
        if at_end r then Ok None
        else
          do s <- deref r;
          let signed := (s =? 43) || (s =? 45) in
          let acc1 := if signed then s :: c :: acc else c :: acc in
          let r1 := if signed then tl r else r in
          if signed && at_end r1 then Ok None
          else
            do d <- deref r1;
            if is_dig d then
              let (m, r2) := span is_dig (tl r1) in Ok (Some (rev acc1 ++ d :: m, r2))
            else Ok None
      else Ok (Some (rev acc, it))
  | [] => Ok (Some (rev acc, it))
  end.
Definition json_fraction (acc it : list Z) : outcome (option (list Z * list Z)) :=
  match it with
  | c :: r =>
      if c =? 46 then
        if at_end r then Ok None
        else
          do d <- deref r;
          if is_dig d then
            let (m, r2) := span is_dig (tl r) in json_exponent (rev m ++ d :: c :: acc) r2
          else Ok None
      else json_exponent acc it
  | [] => json_exponent acc it
  end.
Definition json_parse_number (it : list Z) : outcome (option (list Z * list Z)) :=
  if at_end it then Ok None
  else
    do c0 <- deref it;
    let neg := c0 =? 45 in
    let acc := if neg then [c0] else [] in
    let it1 := if neg then tl it else it in
    if at_end it1 then Ok None
    else
      do c <- deref it1;
      if c =? 48 then json_fraction (c :: acc) (tl it1)
      else if between 49 57 c then
        let (m, r) := span is_dig (tl it1) in json_fraction (rev m ++ c :: acc) r
      else Ok None.

(** parse_util.cpp:273-283, 286-309, 312-322, 325-337: the output value and the
    remaining buffer.  [int d0 = begin\[0\]] etc. are loads. *)
Definition load_at (it : list Z) (i : nat) : outcome Z := match nth_error it i with Some c => Ok c | None => UB end.
Definition len (it : list Z) : Z := Z.of_nat (List.length it).
Definition parse_2digit_int_no_ws (it : list Z) : outcome (option (Z * list Z)) :=
  if 2 <=? len it then
    do d0 <- load_at it 0; do d1 <- load_at it 1;
    if (48 <=? d0) && (d0 <=? 57) && (48 <=? d1) && (d1 <=? 57) then
      Ok (Some ((d0 - 48) * 10 + (d1 - 48), skipn 2 it))
    else Ok None
  else Ok None.
Definition parse_1or2digit_int_no_ws (it : list Z) : outcome (option (Z * list Z)) :=
  if 2 <=? len it then
    do d0 <- load_at it 0; do d1 <- load_at it 1;
    if (48 <=? d0) && (d0 <=? 57) then
      if (48 <=? d1) && (d1 <=? 57) then Ok (Some ((d0 - 48) * 10 + (d1 - 48), skipn 2 it))
      else Ok (Some (d0 - 48, skipn 1 it))
    else Ok None
  else if len it =? 1 then
    do d0 <- load_at it 0;
    if (48 <=? d0) && (d0 <=? 57) then Ok (Some (d0 - 48, skipn 1 it)) else Ok None
  else Ok None.
Definition parse_4digit_int_no_ws (it : list Z) : outcome (option (Z * list Z)) :=
  if 4 <=? len it then
    do d0 <- load_at it 0; do d1 <- load_at it 1; do d2 <- load_at it 2; do d3 <- load_at it 3;
    if (48 <=? d0) && (d0 <=? 57) && (48 <=? d1) && (d1 <=? 57) && (48 <=? d2) && (d2 <=? 57) && (48 <=? d3) && (d3 <=? 57) then
      Ok (Some ((((d0 - 48) * 10 + (d1 - 48)) * 10 + (d2 - 48)) * 10 + (d3 - 48), skipn 4 it))
    else Ok None
  else Ok None.
Definition parse_6digit_int_no_ws (it : list Z) : outcome (option (Z * list Z)) :=
  if 6 <=? len it then
    do d0 <- load_at it 0; do d1 <- load_at it 1; do d2 <- load_at it 2;
    do d3 <- load_at it 3; do d4 <- load_at it 4; do d5 <- load_at it 5;
    if (48 <=? d0) && (d0 <=? 57) && (48 <=? d1) && (d1 <=? 57) && (48 <=? d2) && (d2 <=? 57) && (48 <=? d3) && (d3 <=? 57) &&
       (48 <=? d4) && (d4 <=? 57) && (48 <=? d5) && (d5 <=? 57) then
      Ok (Some ((((((d0 - 48) * 10 + (d1 - 48)) * 10 + (d2 - 48)) * 10 + (d3 - 48)) * 10 + (d4 - 48)) * 10 + (d5 - 48), skipn 6 it))
    else Ok None
  else Ok None.

(** parse_util.hpp:875-917 parse<bool> (checked).  [ci c u] is
    [c == 'U' || c == 'u'] for the upper case letter [u]. *)
Definition ci (c u : Z) : bool := (c =? u) || (c =? u + 32).
Definition parse_bool_checked (it : list Z) : outcome bool :=
  let fail := Throw "invalid_argument" in
  if len it =? 1 then
    do c <- load_at it 0;
    if (c =? 48) || (c =? 110) || (c =? 78) || (c =? 102) || (c =? 70) then Ok false
    else if (c =? 49) || (c =? 121) || (c =? 89) || (c =? 116) || (c =? 84) then Ok true
    else fail
  else if len it =? 4 then
    do c0 <- load_at it 0; do c1 <- load_at it 1; do c2 <- load_at it 2; do c3 <- load_at it 3;
    if ci c0 84 && ci c1 82 && ci c2 85 && ci c3 69 then Ok true else fail
  else if len it =? 5 then
    do c0 <- load_at it 0; do c1 <- load_at it 1; do c2 <- load_at it 2; do c3 <- load_at it 3; do c4 <- load_at it 4;
    if ci c0 70 && ci c1 65 && ci c2 76 && ci c3 83 && ci c4 69 then Ok false else fail
  else if len it =? 2 then
    do c0 <- load_at it 0; do c1 <- load_at it 1;
    if ci c0 78 && ci c1 79 then Ok false
    else if ci c0 79 && ci c1 78 then Ok true else fail
  else if len it =? 3 then
    do c0 <- load_at it 0; do c1 <- load_at it 1; do c2 <- load_at it 2;
    if ci c0 79 && ci c1 70 && ci c2 70 then Ok false
    else if ci c0 89 && ci c1 69 && ci c2 83 then Ok true else fail
  else fail.

(** parse_util.hpp:698-739 parse<bool> (nocheck). *)
Definition parse_bool_nocheck (it : list Z) : outcome bool :=
  if len it =? 1 then
    do c <- load_at it 0;
    if (c =? 48) || (c =? 110) || (c =? 78) || (c =? 102) || (c =? 70) then Ok false
    else if (c =? 49) || (c =? 121) || (c =? 89) || (c =? 116) || (c =? 84) then Ok true
    else Ok false
  else if len it =? 4 then Ok true
  else if len it =? 5 then
    do c0 <- load_at it 0; do c1 <- load_at it 1; do c2 <- load_at it 2; do c3 <- load_at it 3; do c4 <- load_at it 4;
    if ci c0 70 && ci c1 65 && ci c2 76 && ci c3 83 && ci c4 69 then Ok false else Ok true
  else if len it =? 2 then
    do c0 <- load_at it 0; do c1 <- load_at it 1;
    if ci c0 78 && ci c1 79 then Ok false
    else if ci c0 79 && ci c1 78 then Ok true else Ok false
  else if len it =? 3 then
    do c0 <- load_at it 0; do c1 <- load_at it 1; do c2 <- load_at it 2;
    if ci c0 79 && ci c1 70 && ci c2 70 then Ok false
    else if ci c0 89 && ci c1 69 && ci c2 83 then Ok true else Ok false
  else Ok false.
