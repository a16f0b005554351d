(** Model of [include/dynd/string_search.hpp] and [include/dynd/string.hpp].

    A string is the list of its bytes (0..255); [ld s i] is the load [s\[i\]],
    [UB] outside the string.  Indices are mathematical integers: the code's
    size_t/intptr_t arithmetic cannot overflow for strings that exist in memory
    (where it can become negative and wrap, as in [string_search_1char_reverse],
    the wrap is modelled).  A match handler is a function on a state that may
    stop the search. *)
From Verif Require Import Base.

Definition size (s : list Z) : Z := Z.of_nat (List.length s).
Definition ld (s : list Z) (i : Z) : outcome Z :=
  if i <? 0 then UB else match nth_error s (Z.to_nat i) with Some c => Ok c | None => UB end.

(** string_search.hpp:14-26 bloom_filter_t ([ch & 63] of a negative char is that
    of the byte). *)
Definition bloom_add (mask ch : Z) : Z := Z.lor mask (Z.shiftl 1 (Z.land ch 63)).
Definition bloom_has (mask ch : Z) : bool := negb (Z.land mask (Z.shiftl 1 (Z.land ch 63)) =? 0).

Section Search.
Context {St : Type} (handle : Z -> St -> outcome (St * bool)).

(** string_search.hpp:34-42, n <= 10. *)
Fixpoint naive_loop (fuel : nat) (h : list Z) (needle i : Z) (st : St) : outcome St :=
  if i <? size h then
    match fuel with
    | O => NoFuel
    | S fuel =>
        do c <- ld h i;
        if c =? needle then
          do (st', stop) <- handle i st;
          if (stop : bool) then Ok st' else naive_loop fuel h needle (i + 1) st'
        else naive_loop fuel h needle (i + 1) st
    end
  else Ok st.

(** memchr(haystack + s, needle, n): the code passes the whole size [n], not
    what is left of it, so with [s > 0] the call runs past the end of the
    haystack unless it finds the character before. *)
Fixpoint chr_at (h : list Z) (needle : Z) (k : Z) : option Z :=
  match h with
  | [] => None
  | c :: h => if c =? needle then Some k else chr_at h needle (k + 1)
  end.
Definition memchr_n (h : list Z) (needle s : Z) : outcome (option Z) :=
  match chr_at (skipn (Z.to_nat s) h) needle s with
  | Some k => Ok (Some k)
  | None => if s =? 0 then Ok None else UB
  end.
(** string_search.hpp:43-56, n > 10. *)
Fixpoint chr_loop (fuel : nat) (h : list Z) (needle s : Z) (st : St) : outcome St :=
  if s <? size h then
    match fuel with
    | O => NoFuel
    | S fuel =>
        do r <- memchr_n h needle s;
        match r with
        | None => Ok st
        | Some k => do (st', stop) <- handle k st; if (stop : bool) then Ok st' else chr_loop fuel h needle (k + 1) st'
        end
    end
  else Ok st.
(** string_search.hpp:31-57. *)
Definition string_search_1char (h : list Z) (needle : Z) (st : St) : outcome St :=
  if size h <=? 10 then naive_loop (List.length h) h needle 0 st else chr_loop (List.length h) h needle 0 st.

(** string_search.hpp:59-69: [size_t i = n - 1; i <= 0; --i]; after i = 0 the
    decrement wraps to the largest size_t and the loop ends. *)
Definition string_search_1char_reverse (h : list Z) (needle : Z) (st : St) : outcome St :=
  let i := u64 (size h - 1) in
  if i <=? 0 then
    do c <- ld h i;
    if c =? needle then do (st', stop) <- handle i st; if (stop : bool) then Ok st' else Ok st' else Ok st
  else Ok st.

(** string_search.hpp:111-133, the delta table: the bloom filter and [skip]. *)
Fixpoint delta_loop (fuel : nat) (p : list Z) (mlast i mask skip : Z) : outcome (Z * Z) :=
  if i <? mlast then
    match fuel with
    | O => NoFuel
    | S fuel =>
        do c <- ld p i; do l <- ld p mlast;
        delta_loop fuel p mlast (i + 1) (bloom_add mask c) (if c =? l then mlast - i - 1 else skip)
    end
  else Ok (mask, skip).
(** string_search.hpp:138-143, [for (j = 0; j < mlast; j++) if (s\[i + j\] != p\[j\]) break;]. *)
Fixpoint cmp_loop (fuel : nat) (h p : list Z) (i mlast j : Z) : outcome Z :=
  if j <? mlast then
    match fuel with
    | O => NoFuel
    | S fuel =>
        do a <- ld h (i + j); do b <- ld p j;
        if negb (a =? b) then Ok j else cmp_loop fuel h p i mlast (j + 1)
    end
  else Ok j.
(** string_search.hpp:151-157: the step after a candidate ([skip] added), or,
    with [skip = 0], string_search.hpp:159-164. *)
Definition advance (h : list Z) (m w mask skip i : Z) : outcome Z :=
  if i <? w then do c <- ld h (m - 1 + (i + 1)); if negb (bloom_has mask c) then Ok (i + m) else Ok (i + skip)
  else Ok (i + skip).
(** string_search.hpp:135-165; note the fall-through after a match: [i = i + mlast]
    and then the step for a miss. *)
Fixpoint search_loop (fuel : nat) (h p : list Z) (m w mlast mask skip i : Z) (st : St) : outcome St :=
  if i <=? w then
    match fuel with
    | O => NoFuel
    | S fuel =>
        do a <- ld h (m - 1 + i); do b <- ld p (m - 1);
        if a =? b then
          do j <- cmp_loop (List.length p) h p i mlast 0;
          if j =? mlast then
            do (st', stop) <- handle i st;
            if (stop : bool) then Ok st'
            else do i' <- advance h m w mask skip (i + mlast); search_loop fuel h p m w mlast mask skip (i' + 1) st'
          else do i' <- advance h m w mask skip i; search_loop fuel h p m w mlast mask skip (i' + 1) st
        else do i' <- advance h m w mask 0 i; search_loop fuel h p m w mlast mask skip (i' + 1) st
    end
  else Ok st.
(** string_search.hpp:71-168. *)
Definition string_search (h p : list Z) (st : St) : outcome St :=
  let n := size h in
  let m := size p in
  let w := n - m in
  if w <? 0 then Ok st
  else if m <=? 1 then
    if m =? 0 then Ok st else do c <- ld p 0; string_search_1char h c st
  else
    let mlast := m - 1 in
    do (mask, skip) <- delta_loop (List.length p) p mlast 0 0 (mlast - 1);
    do l <- ld p mlast;
    search_loop (S (List.length h)) h p m w mlast (bloom_add mask l) skip 0 st.

(** string_search.hpp:203-210 (rdelta_loop), 215-220 (rcmp_loop), 227-240 (radvance),
    212-241 (rsearch_loop). *)
Fixpoint rdelta_loop (fuel : nat) (p : list Z) (i mask skip : Z) : outcome (Z * Z) :=
  if 0 <? i then
    match fuel with
    | O => NoFuel
    | S fuel =>
        do c <- ld p i; do f <- ld p 0;
        rdelta_loop fuel p (i - 1) (bloom_add mask c) (if c =? f then i - 1 else skip)
    end
  else Ok (mask, skip).
Fixpoint rcmp_loop (fuel : nat) (h p : list Z) (i j : Z) : outcome Z :=
  if 0 <? j then
    match fuel with
    | O => NoFuel
    | S fuel =>
        do a <- ld h (i + j); do b <- ld p j;
        if negb (a =? b) then Ok j else rcmp_loop fuel h p i (j - 1)
    end
  else Ok j.
Definition radvance (h : list Z) (m mask skip i : Z) : outcome Z :=
  if 0 <? i then do c <- ld h (i - 1); if negb (bloom_has mask c) then Ok (i - m) else Ok (i - skip)
  else Ok (i - skip).
Fixpoint rsearch_loop (fuel : nat) (h p : list Z) (m mlast mask skip i : Z) (st : St) : outcome St :=
  if 0 <=? i then
    match fuel with
    | O => NoFuel
    | S fuel =>
        do a <- ld h i; do b <- ld p 0;
        if a =? b then
          do j <- rcmp_loop (List.length p) h p i mlast;
          if j =? 0 then
            do (st', stop) <- handle i st;
            if (stop : bool) then Ok st'
            else do i' <- radvance h m mask skip i; rsearch_loop fuel h p m mlast mask skip (i' - 1) st'
          else do i' <- radvance h m mask skip i; rsearch_loop fuel h p m mlast mask skip (i' - 1) st
        else do i' <- radvance h m mask 0 i; rsearch_loop fuel h p m mlast mask skip (i' - 1) st
    end
  else Ok st.
(** string_search.hpp:170-244. *)
Definition string_search_reverse (h p : list Z) (st : St) : outcome St :=
  let n := size h in
  let m := size p in
  let w := n - m in
  if w <? 0 then Ok st
  else if m <=? 1 then
    if m =? 0 then Ok st else do c <- ld p 0; string_search_1char_reverse h c st
  else
    let mlast := m - 1 in
    do f <- ld p 0;
    do (mask, skip) <- rdelta_loop (List.length p) p mlast (bloom_add 0 f) (mlast - 1);
    rsearch_loop (S (List.length h)) h p m mlast mask skip w st.
End Search.

(** string_search.hpp:246-258 string_finder, 260-272 string_counter, 274-286
    string_contains; string.hpp:37-76, 151-162. *)
Definition finder (i : Z) (_ : Z) : outcome (Z * bool) := Ok (i, true).
Definition counter (_ : Z) (c : Z) : outcome (Z * bool) := Ok (c + 1, false).
Definition container (_ : Z) (_ : bool) : outcome (bool * bool) := Ok (true, true).
Definition string_count (h p : list Z) : outcome Z := string_search counter h p 0.
Definition string_find (h p : list Z) : outcome Z := string_search finder h p (-1).
Definition string_rfind (h p : list Z) : outcome Z := string_search_reverse finder h p (-1).
Definition string_contains (h p : list Z) : outcome bool := string_search container h p false.

(** memcpy(dst + d, src + s, len); [len] is a size_t that may have wrapped. *)
Definition memcpy (dst : list Z) (d : Z) (src : list Z) (s len : Z) : outcome (list Z) :=
  if (0 <=? len) && (0 <=? s) && (s + len <=? size src) && (0 <=? d) && (d + len <=? size dst) then
    Ok (firstn (Z.to_nat d) dst ++ firstn (Z.to_nat len) (skipn (Z.to_nat s) src) ++ skipn (Z.to_nat (d + len)) dst)
  else UB.

(** string_search.hpp:288-300 string_inplace_replacer; the state is dst. *)
Definition inplace_replacer (new : list Z) (i : Z) (dst : list Z) : outcome (list Z * bool) :=
  do d <- memcpy dst i new 0 (size new); Ok (d, false).
(** string_search.hpp:302-332 string_copy_replacer; the state is dst, the offset
    of m_dst in it, and m_last_src_start. *)
Definition copy_replacer (src : list Z) (old_size : Z) (new : list Z) (i : Z) (st : list Z * Z * Z) : outcome (list Z * Z * Z * bool) :=
  let '(dst, d, last) := st in
  let chunk := i - last in
  do dst1 <- memcpy dst d src last chunk;
  do dst2 <- memcpy dst1 (d + chunk) new 0 (size new);
  Ok (dst2, d + chunk + size new, i + old_size, false).
Definition copy_replacer_finish (src : list Z) (st : list Z * Z * Z) : outcome (list Z) :=
  let '(dst, d, last) := st in memcpy dst d src last (size src - last).

(** string.hpp:82-123 string_replace.  [dst.resize(k)] is taken to make dst a
    string of [k] unspecified bytes ([junk]); resize itself is C27. *)
Definition string_replace (junk : Z) (src old new : list Z) : outcome (list Z) :=
  if (size old =? 0) || (size src <? size old) then Ok src
  else if size old =? size new then
    if size old =? 1 then
      do o <- ld old 0; do n <- ld new 0; Ok (map (fun c => if c =? o then n else c) src)
    else string_search (inplace_replacer new) src old src
  else
    do count <- string_count src old;
    let total := size src + (size new - size old) * count in
    if total <? 0 then Throw "bad_alloc"
    else
      do st <- string_search (copy_replacer src (size old) new) src old (repeat junk (Z.to_nat total), 0, 0);
      copy_replacer_finish src st.

(** string.hpp:125-149. *)
Definition memcmp_eq (a b : list Z) : bool := if list_eq_dec Z.eq_dec a b then true else false.
Definition string_startswith (str sub : list Z) : bool :=
  if size str <? size sub then false else memcmp_eq (firstn (List.length sub) str) sub.
Definition string_endswith (str sub : list Z) : bool :=
  if size str <? size sub then false else memcmp_eq (skipn (Z.to_nat (size str - size sub)) str) sub.

(** string.hpp:17-35 string_concat. *)
Fixpoint concat_sizes (ss : list (list Z)) : Z := match ss with [] => 0 | s :: ss => size s + concat_sizes ss end.
Fixpoint concat_loop (ss : list (list Z)) (d : list Z) (dst : Z) : outcome (list Z) :=
  match ss with
  | [] => Ok d
  | s :: ss => do d' <- memcpy d dst s 0 (size s); concat_loop ss d' (dst + size s)
  end.
Definition string_concat (junk : Z) (ss : list (list Z)) : outcome (list Z) :=
  concat_loop ss (repeat junk (Z.to_nat (concat_sizes ss))) 0.

(** string_search.hpp:334-366 string_splitter: the state is the array of strings
    (the first [count + 1] allocated), m_i and m_last_src_start; [assign] reads
    [m_src + last, m_src + last + new_size). *)
Definition substr (src : list Z) (s len : Z) : outcome (list Z) :=
  if (0 <=? len) && (0 <=? s) && (s + len <=? size src) then Ok (firstn (Z.to_nat len) (skipn (Z.to_nat s) src)) else UB.
Definition put (arr : list (list Z)) (i : Z) (v : list Z) : outcome (list (list Z)) :=
  if (0 <=? i) && (i <? Z.of_nat (List.length arr)) then Ok (firstn (Z.to_nat i) arr ++ v :: skipn (Z.to_nat (i + 1)) arr) else UB.
Definition splitter (src : list Z) (split_size i : Z) (st : list (list Z) * Z * Z) : outcome (list (list Z) * Z * Z * bool) :=
  let '(arr, k, last) := st in
  let new_size := i - last in
  do v <- substr src last new_size; do arr' <- put arr k v;
  Ok (arr', k + 1, last + (new_size + split_size), false).
Definition splitter_finish (src : list Z) (st : list (list Z) * Z * Z) : outcome (list (list Z)) :=
  let '(arr, k, last) := st in
  do v <- substr src last (size src - last); put arr k v.
(** kernels/string_split_kernel.hpp:22-46. *)
Definition string_split (h p : list Z) : outcome (list (list Z)) :=
  do count <- string_count h p;
  if count =? 0 then Ok [h]
  else
    do st <- string_search (splitter h (size p)) h p (repeat [] (Z.to_nat (count + 1)), 0, 0);
    splitter_finish h st.
