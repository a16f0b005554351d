(** Model of nd::json::parse: [include/dynd/parse.hpp],
    [include/dynd/kernels/parse_kernel.hpp],
    [include/dynd/callables/parse_callable.hpp], [src/dynd/parse.cpp].

    Texts are lists of bytes as in ScanModel.v: a pair (begin, end) is the list of
    the bytes between them, and advancing begin drops bytes from its front.
    Values are those of JsonModel ([VBool] the byte of a bool, [VInt], [VStr] the
    bytes of a dynd::string).  Messages of exceptions are not modelled. *)
From Verif Require Import Base ScanModel EscapeModel ParseIntModel JsonModel.

(** The scalars with an entry in the dispatcher (parse.cpp:26-44): bool, the
    integers of W = 8, 16, 32, 64 bits, dynd::string. *)
Inductive psc := SBool | SInt (sgn : bool) (W : Z) | SString.
(** Types: a scalar, an option of a scalar, a struct, fixed_dim or var_dim, or a
    type without an entry (floats, bytes, tuples, ...).  Simplification: options
    of anything but these scalars are left out. *)
Inductive pty := PScalar (s : psc) | POption (s : psc) | PStruct (tys : list pty) | PFixedDim (n : Z) (el : pty) | PVarDim (el : pty) | POther.

(** parse_kernel.hpp:15-68 _parse_number: what remains after the number ([end] is
    set to the end of the number), or [None] for false. *)
Definition skip_digits (it : list Z) : list Z := snd (span is_dig it).
(** parse_kernel.hpp:47-63. *)
Definition pn_exponent (it : list Z) : outcome (option (list Z)) :=
  match it with
  | c :: r =>
      if (c =? 101) || (c =? 69) then
        if at_end r then Ok None
        else
          do s <- deref r;
          let signed := (s =? 43) || (s =? 45) in
          let r1 := if signed then tl r else r in
          if signed && at_end r1 then Ok None
          else do d <- deref r1; if is_dig d then Ok (Some (skip_digits (tl r1))) else Ok None
      else Ok (Some it)
  | [] => Ok (Some it)
  end.
(** parse_kernel.hpp:34-45. *)
Definition pn_fraction (it : list Z) : outcome (option (list Z)) :=
  match it with
  | c :: r =>
      if c =? 46 then
        if at_end r then Ok None
        else do d <- deref r; if is_dig d then pn_exponent (skip_digits (tl r)) else Ok None
      else pn_exponent it
  | [] => pn_exponent it
  end.
Definition pk_parse_number (it : list Z) : outcome (option (list Z)) :=
  if at_end it then Ok None
  else
    do c0 <- deref it;
    let it1 := if c0 =? 45 then tl it else it in
    if at_end it1 then Ok None
    else
      do c <- deref it1;
      if c =? 48 then pn_fraction (tl it1)
      else if between 49 57 c then pn_fraction (skip_digits (tl it1))
      else Ok None.
(** The range [begin, end) when [end] has the bytes [r] left of [it]. *)
Definition range_before (it r : list Z) : list Z := firstn (List.length it - List.length r) it.

(** parse_kernel.hpp:70-98 _parse_na: what remains after the word, or [None]. *)
Definition pk_parse_na (it : list Z) : outcome (option (list Z)) :=
  do w4 <-
    (if 4 <=? len it then
       do c0 <- load_at it 0; do c1 <- load_at it 1; do c2 <- load_at it 2; do c3 <- load_at it 3;
       Ok ((ci c0 78 && ci c1 85 && ci c2 76 && ci c3 76) || ((c0 =? 78) && (c1 =? 111) && (c2 =? 110) && (c3 =? 101)))
     else Ok false);
  if w4 then Ok (Some (skipn 4 it))
  else
    do w2 <- (if 2 <=? len it then do c0 <- load_at it 0; do c1 <- load_at it 1; Ok ((c0 =? 78) && (c1 =? 65)) else Ok false);
    if w2 then Ok (Some (skipn 2 it))
    else if len it =? 0 then Ok (Some it)
    else Ok None.

(** parse_util.cpp:380-411 json::parse_bool. *)
Definition json_parse_bool (it : list Z) : outcome (bool * list Z) :=
  let fail := Throw "invalid_argument" in
  match parse_token it (lit "true") with
  | Some r => Ok (true, r)
  | None =>
  match parse_token it (lit "false") with
  | Some r => Ok (false, r)
  | None =>
      do x <- json_parse_number it;
      match x with
      | Some (m, r) =>
          if len m =? 1 then
            do c <- load_at m 0;
            if c =? 48 then Ok (false, r) else if c =? 49 then Ok (true, r) else fail
          else fail
      | None =>
          do y <- parse_doublequote_string_no_ws it;
          match y with
          | Some (b, e, r) => do w <- (if e then unescape_string b else Ok b); do v <- parse_bool_checked w; Ok (v, r)
          | None => fail
          end
      end
  end end.

(** The kernels: parse_kernel<bool>, <intN>, <string>, <option_type> with its two
    children, and assign_na_kernel with what it stores. *)
Inductive kern := KBool | KInt (sgn : bool) (W : Z) | KString | KNa (v : jval) | KOption (na value : kern).

(** parse_kernel.hpp:118-125, 100-114, 127-168, 215-236: [single]; the value
    stored and the new begin.  assign_na_kernel gets no arguments. *)
Definition single_int (sgn : bool) (W : Z) : parser := fun it =>
  do x <- pk_parse_number it;
  match x with
  | Some r => let m := range_before it r in do v <- (if sgn then parse_s W m else parse_u W m); Ok (VInt v, r)
  | None => Throw "runtime_error"
  end.
Definition single_bool : parser := fun it => do (v, r) <- json_parse_bool it; Ok (VBool (if v then 1 else 0), r).
(** The unescaped text [val] is computed and not used. *)
Definition single_string : parser := fun it0 =>
  let it := skip_whitespace it0 in
  do x <- parse_doublequote_string_no_ws it;
  match x with
  | Some (b, e, r) => do _ <- unescape_string b; Ok (VStr b, r)
  | None => Throw "json_parse_error"
  end.
Fixpoint single (k : kern) : parser := fun it =>
  match k with
  | KBool => single_bool it
  | KInt sgn W => single_int sgn W it
  | KString => single_string it
  | KNa v => Ok (v, it)
  | KOption na value =>
      do x <- pk_parse_na it;
      match x with
      | Some r => do (v, _) <- single na it; Ok (v, r)
      | None => single value it
      end
  end.

(** The call graph: the nodes put in it by [resolve]. *)
Inductive node := NLeaf (k : kern) | NOption.

(** option.cpp:28-42 make_assign_na, assign_na_kernel.hpp: what is stored for a
    missing value; uint8, uint16 and uint64 have no entry (dispatcher.hpp:271:
    out_of_range). *)
Definition assign_na_resolve (s : psc) : outcome (list node) :=
  match s with
  | SBool => Ok [NLeaf (KNa (VBool 2))]
  | SInt true W => Ok [NLeaf (KNa (VInt (tmin true W)))]
  | SInt false W => if W =? 32 then Ok [NLeaf (KNa (VInt (tmax false W)))] else Throw "out_of_range"
  | SString => Ok [NLeaf (KNa (VStr []))]
  end.
Definition scalar_resolve (s : psc) : list node :=
  match s with SBool => [NLeaf KBool] | SInt sgn W => [NLeaf (KInt sgn W)] | SString => [NLeaf KString] end.
(** parse_callable.hpp:18-25 (default_instantiable_callable.hpp:23-31), 37-58,
    86-92, 137-143, 171-177: [resolve].  Those of struct, fixed_dim and var_dim put
    nothing in the call graph. *)
Definition resolve (tp : pty) : outcome (list node) :=
  match tp with
  | PScalar s => Ok (scalar_resolve s)
  | POption s => do na <- assign_na_resolve s; Ok (NOption :: na ++ scalar_resolve s)
  | PStruct _ | PFixedDim _ _ | PVarDim _ => Ok []
  | POther => Throw "out_of_range"
  end.

(** kernel_builder.hpp operator(): takes the next node and instantiates it.  Past
    the last node there is no function to call. *)
Fixpoint instantiate (fuel : nat) (ns : list node) : outcome (kern * list node) :=
  match ns with
  | [] => UB
  | NLeaf k :: r => Ok (k, r)
  | NOption :: r =>
      match fuel with
      | O => NoFuel
      | S f => do (a, r1) <- instantiate f r; do (b, r2) <- instantiate f r1; Ok (KOption a b, r2)
      end
  end.

(** parse.hpp:24-40 nd::json::parse with base_callable.cpp:14-30 (call). *)
Definition parse (tp : pty) (text : list Z) : outcome jval :=
  let it := skip_whitespace text in
  do ns <- resolve tp;
  do (k, _) <- instantiate (List.length ns) ns;
  do (v, r) <- single k it;
  match skip_whitespace r with [] => Ok v | _ => Throw "json_parse_error" end.
