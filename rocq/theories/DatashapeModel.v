(** The textual form of types: printing (operator<< of ndt::type) and parsing
    (ndt::type(string), src/dynd/types/datashape_parser.cpp).

    Texts are lists of bytes as in ScanModel and EscapeModel; a scanner that
    returns false gives [None] and leaves the text.  Error messages and positions
    are not kept, except in [get_error_line_column] below; every thrown exception
    is [Throw].  Left out: types registered by the user (new_id), categorical
    types, adapt and expr types, dimension fragments, CUDA types (the build
    without DYND_CUDA throws for them), and the arguments of callable\[...\] (the
    model throws). *)
From Verif Require Import Base ParseIntModel ScanModel EncodingModel EscapeModel TypesModel.
Open Scope Z_scope.

(** Types, with names as bytes.  This is the type of MatchModel and IndexModel
    with the remaining scalar types spelled out, and constructed type variables. *)
Inductive skind := KAny | KScalar | KBool | KInt | KUInt | KFloat | KComplex | KBytes | KFixedBytes | KString | KFixedString | KCategorical.
Inductive dt :=
| DBuiltin (b : builtin)
| DKind (k : skind)
| DBytes (align : Z)
| DFixedBytes (n align : Z)
| DString
| DFixedString (n : Z) (e : enc)
| DChar (e : enc)
| DType
| DArray
| DState
| DFixed (n : Z) (e : dt)
| DVar (e : dt)
| DFixedKind (e : dt)
| DDimKind (e : dt)
| DTypevar (name : list Z)
| DTypevarDim (name : list Z) (e : dt)
| DTypevarApp (name : list Z) (arg : dt)
| DEllipsis (name : list Z) (e : dt)
| DPow (base : dt) (exponent : list Z) (e : dt)
| DPointer (t : dt)
| DOption (t : dt)
| DTuple (fields : list dt) (variadic : bool)
| DStruct (fields : list (list Z * dt)) (variadic : bool)
| DCallable (ret : dt) (pos : list dt) (pos_variadic : bool) (kwds : list (list Z * dt)) (kwd_variadic : bool).
(** type::is_null, include/dynd/type.hpp:153. *)
Definition null : dt := DBuiltin uninitialized.

(** ** Constructors that check their arguments *)
(** src/dynd/types/typevar_type.cpp:101-118; an empty name is refused as well. *)
Definition valid_typevar_name (n : list Z) : bool :=
  match n with c :: r => is_upper c && forallb name_char r | [] => false end.
(** typevar_type.hpp:26-37, typevar_dim_type.hpp:21-32,
    typevar_constructed_type.hpp:22-32. *)
Definition checked_name (n : list Z) (t : dt) : outcome dt := if valid_typevar_name n then Ok t else Throw "type_error".
(** ellipsis_dim_type.hpp:22-39. *)
Definition make_ellipsis (n : list Z) (e : dt) : outcome dt :=
  match n with [] => Ok (DEllipsis [] e) | _ => checked_name n (DEllipsis n e) end.
(** option_type.hpp:78-88. *)
Definition make_option (t : dt) : outcome dt := match t with DOption _ => Throw "type_error" | _ => Ok (DOption t) end.
(** bytes_type.hpp:26-34. *)
Definition small_power (a : Z) : bool := (a =? 1) || (a =? 2) || (a =? 4) || (a =? 8) || (a =? 16).
Definition make_bytes (a : Z) : outcome dt := if small_power a then Ok (DBytes a) else Throw "runtime_error".
(** fixed_bytes_type.hpp:18-38. *)
Definition make_fixed_bytes (n a : Z) : outcome dt :=
  if n <? a then Throw "runtime_error"
  else if negb (small_power a) then Throw "runtime_error"
  else if negb (Z.land n (a - 1) =? 0) then Throw "runtime_error"
  else Ok (DFixedBytes n a).
(** char_type.hpp:26-41. *)
Definition make_char (e : enc) : outcome dt :=
  match e with Ascii | Ucs2 | Utf32 => Ok (DChar e) | _ => Throw "runtime_error" end.
(** src/dynd/type.cpp:537-546, ndt::pow of a dimension; the exponent is at least 1
    where the parser calls it. *)
Fixpoint pow (d : dt -> dt) (e : dt) (k : nat) : dt := match k with O => e | S k => d (pow d e k) end.

(** ** Printing *)
(** src/dynd/type.cpp:441-506, and the print_type of each class, cited per case. *)
Definition builtin_text (b : builtin) : string :=
  match b with
  | uninitialized => "uninitialized" | bool_ => "bool"
  | int8 => "int8" | int16 => "int16" | int32 => "int32" | int64 => "int64" | int128 => "int128"
  | uint8 => "uint8" | uint16 => "uint16" | uint32 => "uint32" | uint64 => "uint64" | uint128 => "uint128"
  | float16 => "float16" | float32 => "float32" | float64 => "float64" | float128 => "float128"
  | complex_float32 => "complex[float32]" | complex_float64 => "complex[float64]" | void => "void"
  end.
(** any_kind_type.hpp:18, scalar_kind_type.cpp, bool_kind_type.hpp:26, ... *)
Definition kind_text (k : skind) : string :=
  match k with
  | KAny => "Any" | KScalar => "Scalar" | KBool => "Bool" | KInt => "Int" | KUInt => "UInt" | KFloat => "Float" | KComplex => "Complex"
  | KBytes => "Bytes" | KFixedBytes => "FixedBytes" | KString => "String" | KFixedString => "FixedString" | KCategorical => "Categorical"
  end.
(** include/dynd/string_encodings.hpp:47-63. *)
Definition encoding_text (e : enc) : string :=
  match e with Ascii => "ascii" | Ucs2 => "ucs2" | Utf8 => "utf8" | Utf16 => "utf16" | Utf32 => "utf32" end.
(** A non-negative integer written to a stream. *)
Fixpoint dec_loop (fuel : nat) (n : Z) (acc : list Z) : list Z :=
  match fuel with
  | O => acc
  | S f => if n <? 10 then 48 + n :: acc else dec_loop f (n / 10) (48 + n mod 10 :: acc)
  end.
Definition dec_text (n : Z) : list Z := dec_loop (S (Z.to_nat n)) n [].
Definition int_text (n : Z) : list Z := if n <? 0 then 45 :: dec_text (- n) else dec_text n.
(** include/dynd/types/str_util.hpp:8-25. *)
Definition is_simple_identifier_name (s : list Z) : bool :=
  match s with c :: r => name_start c && forallb name_char r | [] => false end.
(** struct_type.cpp:83-88, callable_type.cpp:71-76. *)
Definition name_text (n : list Z) : outcome (list Z) :=
  if is_simple_identifier_name n then Ok n else print_escaped_utf8_string n true.
Fixpoint print_type (t : dt) {struct t} : outcome (list Z) :=
  let types := fix types (first : bool) (l : list dt) : outcome (list Z) :=
    match l with
    | [] => Ok []
    | t :: r => do s <- print_type t; do s' <- types false r; Ok ((if first then [] else lit ", ") ++ s ++ s')
    end in
  let fields := fix fields (first : bool) (l : list (list Z * dt)) : outcome (list Z) :=
    match l with
    | [] => Ok []
    | (n, t) :: r =>
        do ns <- name_text n; do s <- print_type t; do s' <- fields false r;
        Ok ((if first then [] else lit ", ") ++ ns ++ lit ": " ++ s ++ s')
    end in
  match t with
  | DBuiltin b => Ok (lit (builtin_text b))
  | DKind k => Ok (lit (kind_text k))
  | DBytes a => Ok (lit "bytes" ++ if a =? 1 then [] else lit "[align=" ++ int_text a ++ lit "]")       (* bytes_type.cpp *)
  | DFixedBytes n a =>                                                                                   (* fixed_bytes_type.cpp *)
      Ok (lit "fixed_bytes[" ++ int_text n ++ (if a =? 1 then [] else lit ", align=" ++ int_text a) ++ lit "]")
  | DString => Ok (lit "string")
  | DFixedString n e =>                                                                                  (* fixed_string_type.cpp *)
      Ok (lit "fixed_string[" ++ int_text n ++ (match e with Utf8 => [] | _ => lit ", '" ++ lit (encoding_text e) ++ lit "'" end) ++ lit "]")
  | DChar e => Ok (lit "char" ++ match e with Utf32 => [] | _ => lit "['" ++ lit (encoding_text e) ++ lit "']" end)
  | DType => Ok (lit "type")
  | DArray => Ok (lit "array")
  | DState => Ok (lit "State")
  | DFixed n e => do s <- print_type e; Ok (int_text n ++ lit " * " ++ s)                                (* fixed_dim_type.cpp *)
  | DVar e => do s <- print_type e; Ok (lit "var * " ++ s)
  | DFixedKind e => do s <- print_type e; Ok (lit "Fixed * " ++ s)
  | DDimKind e => do s <- print_type e; Ok (lit "Dim * " ++ s)
  | DTypevar n => Ok n
  | DTypevarDim n e => do s <- print_type e; Ok (n ++ lit " * " ++ s)
  | DTypevarApp n a => do s <- print_type a; Ok (n ++ lit "[" ++ s ++ lit "]")
  | DEllipsis n e => do s <- print_type e; Ok (n ++ lit "... * " ++ s)
  | DPow b x e =>                                                                                        (* pow_dimsym_type.cpp:20-40 *)
      do s <- print_type e;
      Ok ((match b with DFixed n _ => int_text n | DVar _ => lit "var" | DTypevarDim n _ => n | _ => [] end) ++ lit "**" ++ x ++ lit " * " ++ s)
  | DPointer t => do s <- print_type t; Ok (lit "pointer[" ++ s ++ lit "]")
  | DOption t => do s <- print_type t; Ok (lit "?" ++ s)
  | DTuple l v => do s <- types true l; Ok (lit "(" ++ s ++ lit (if v then ", ...)" else ")"))           (* tuple_type.cpp *)
  | DStruct l v => do s <- fields true l; Ok (lit "{" ++ s ++ lit (if v then ", ...}" else "}"))         (* struct_type.cpp:76-96 *)
  | DCallable r p pv k kv =>                                                                             (* callable_type.cpp:34-86 *)
      let npos := negb (at_end (map (fun _ => 0) p)) in
      let nkwd := negb (at_end (map (fun _ => 0) k)) in
      do ps <- types true p; do ks <- fields (negb (npos || pv)) k; do rs <- print_type r;
      Ok (lit "(" ++ ps ++ (if pv then (if npos then lit ", ..." else lit "...") else []) ++ ks ++
          (if nkwd && kv then lit ", ..." else []) ++ lit ") -> " ++ rs)
  end.

(** ** Parsing *)
(** A parser of types: the type and the remaining text; [None] is the null type. *)
Definition parser := list Z -> outcome (option (dt * list Z)).
Notation tok it s := (ds_parse_token it (lit s)).
Definition perror {A} : outcome A := Throw "internal_parse_error".
(** [if (!parse_token(...)) throw ...] *)
Definition require (it : list Z) (s : string) : outcome (list Z) :=
  do x <- tok it s; match x with Some r => Ok r | None => perror end.
(** [tp = parse(...); if (tp.is_null()) throw ...] *)
Definition need (p : parser) (it : list Z) : outcome (dt * list Z) :=
  do x <- p it; match x with Some r => Ok r | None => perror end.

(** datashape_parser.cpp:48-57. *)
Definition parse_name_or_number (it : list Z) : outcome (option (list Z * list Z)) :=
  do x <- parse_name_no_ws it;
  match x with Some y => Ok (Some y) | None => parse_unsigned_int_no_ws it end.
(** Standard atoi and atoll of digits: undefined if the value does not fit. *)
Definition digits_value (ds : list Z) : Z := fold_left (fun a c => 10 * a + (c - 48)) ds 0.
Definition atoi (ds : list Z) : outcome Z := let v := digits_value ds in if v <? 2 ^ 31 then Ok v else UB.
Definition atoll (ds : list Z) : outcome Z := let v := digits_value ds in if v <? 2 ^ 63 then Ok v else UB.

(** datashape_parser.cpp:61-85. *)
Definition parse_complex_parameters (p : parser) (it : list Z) : outcome (dt * list Z) :=
  do x <- tok it "[";
  match x with
  | Some it1 =>
      do (tp, it2) <- need p it1;
      do it3 <- require it2 "]";
      match tp with
      | DBuiltin float32 => Ok (DBuiltin complex_float32, it3)
      | DBuiltin float64 => Ok (DBuiltin complex_float64, it3)
      | _ => perror
      end
  | None => Ok (DBuiltin complex_float64, it)
  end.

(** *** The arguments in brackets
    bytes_type.cpp, fixed_bytes_type.cpp, fixed_string_type.cpp, char_type.cpp,
    fixed_dim_type.cpp, option_type.cpp, pointer_type.cpp: parse_type_args.  They
    are called only when the next token is a bracket. *)
Inductive argparser := PBytes | PFixedBytes | PFixedString | PChar | PFixed | POption | PPointer | PCuda | PCallable.
Definition parse_number_arg (it : list Z) : outcome (list Z * list Z) :=
  do (ds, r) <- ds_parse_number it; if at_end ds then perror else Ok (ds, r).
Definition parse_encoding (it : list Z) : outcome (enc * list Z) :=
  do x <- ds_parse_quoted_string it;
  match x with Some (s, r) => do e <- string_to_encoding s; Ok (e, r) | None => perror end.
Definition parse_type_args (p : parser) (a : argparser) (it : list Z) : outcome (dt * list Z) :=
  match a with
  | PBytes =>
      do it <- require it "["; do it <- require it "align"; do it <- require it "=";
      do (ds, it) <- parse_number_arg it; do it <- require it "]";
      do n <- atoi ds; do t <- make_bytes n; Ok (t, it)
  | PFixedBytes =>
      do it <- require it "["; do (ds, it) <- parse_number_arg it;
      do x <- tok it "]";
      match x with
      | Some it => do n <- atoi ds; do t <- make_fixed_bytes n 1; Ok (t, it)
      | None =>
          do it <- require it ","; do it <- require it "align"; do it <- require it "=";
          do (ds', it) <- parse_number_arg it; do it <- require it "]";
          do n <- atoi ds; do a <- atoi ds'; do t <- make_fixed_bytes n a; Ok (t, it)
      end
  | PFixedString =>
      do it <- require it "["; do (ds, it) <- ds_parse_number it;
      do (t, it) <- (if at_end ds then
          do (e, it) <- parse_encoding it; Ok (DFixedString 0 e, it)
        else
          do n <- atoi ds;
          if n =? 0 then perror
          else
            do x <- tok it ",";
            match x with
            | Some it => do (e, it) <- parse_encoding it; Ok (DFixedString n e, it)
            | None => Ok (DFixedString n Utf8, it)
            end);
      do it <- require it "]"; Ok (t, it)
  | PChar =>
      do it <- require it "["; do (e, it) <- parse_encoding it; do it <- require it "]"; do t <- make_char e; Ok (t, it)
  | PFixed =>
      do it <- require it "["; do (ds, it) <- parse_number_arg it; do n <- atoll ds;
      do it <- require it "]"; do it <- require it "*"; do (e, it) <- need p it; Ok (DFixed n e, it)
  | POption =>
      do it <- require it "["; do (t, it) <- need p it; do it <- require it "]"; do o <- make_option t; Ok (o, it)
  | PPointer =>
      do it <- require it "["; do (t, it) <- need p it; do it <- require it "]"; Ok (DPointer t, it)
  | PCuda | PCallable => perror
  end.

(** *** The table of names, src/dynd/type_registry.cpp:34-101
    The entry of a name: the type it stands for alone, the dimension constructor,
    the parser of its arguments.  callable registers its constructor at start-up
    (callable_type.cpp:16-22); called as a dimension it throws. *)
Record entry := Entry { singleton : option dt; dim_of : option (dt -> outcome dt); args : option argparser }.
Definition named (t : dt) := Entry (Some t) None None.
Definition nothing := Entry None None None.
Definition registry : list (string * entry) :=
  [("Any", named (DKind KAny)); ("Scalar", named (DKind KScalar)); ("Bool", named (DKind KBool)); ("bool", named (DBuiltin bool_));
   ("Int", named (DKind KInt)); ("int8", named (DBuiltin int8)); ("int16", named (DBuiltin int16)); ("int32", named (DBuiltin int32));
   ("int64", named (DBuiltin int64)); ("int128", named (DBuiltin int128));
   ("UInt", named (DKind KUInt)); ("uint8", named (DBuiltin uint8)); ("uint16", named (DBuiltin uint16)); ("uint32", named (DBuiltin uint32));
   ("uint64", named (DBuiltin uint64)); ("uint128", named (DBuiltin uint128));
   ("Float", named (DKind KFloat)); ("float16", named (DBuiltin float16)); ("float32", named (DBuiltin float32));
   ("float64", named (DBuiltin float64)); ("float128", named (DBuiltin float128));
   ("Complex", named (DKind KComplex)); ("complex32", named (DBuiltin complex_float32)); ("complex64", named (DBuiltin complex_float64));
   ("void", named (DBuiltin void)); ("Dim", Entry None (Some (fun e => Ok (DDimKind e))) None);
   ("Bytes", named (DKind KBytes)); ("FixedBytes", named (DKind KFixedBytes)); ("fixed_bytes", Entry None None (Some PFixedBytes));
   ("bytes", Entry (Some (DBytes 1)) None (Some PBytes));
   ("String", named (DKind KString)); ("FixedString", named (DKind KFixedString)); ("fixed_string", Entry None None (Some PFixedString));
   ("char", Entry (Some (DChar Utf32)) None (Some PChar)); ("string", named DString); ("tuple", nothing); ("struct", nothing);
   ("Fixed", Entry None (Some (fun e => Ok (DFixedKind e))) None); ("fixed", Entry None None (Some PFixed));
   ("var", Entry None (Some (fun e => Ok (DVar e))) None);
   ("Categorical", named (DKind KCategorical)); ("categorical", nothing); ("option", Entry None None (Some POption));
   ("pointer", Entry None None (Some PPointer)); ("memory", nothing); ("type", named DType); ("array", named DArray);
   ("callable", Entry None (Some (fun _ => Throw "invalid_argument")) (Some PCallable)); ("Expr", nothing); ("adapt", nothing); ("expr", nothing);
   ("cuda_host", Entry None None (Some PCuda)); ("cuda_device", Entry None None (Some PCuda)); ("State", nothing)]%string.
Fixpoint assoc {A} (l : list (string * A)) (n : list Z) : option A :=
  match l with
  | [] => None
  | (k, v) :: r => if list_eqb (lit k) n then Some v else assoc r n
  end.
(** type_registry.cpp:138-147. *)
Definition lookup_id_by_name (n : list Z) : option entry := assoc registry n.
(** datashape_parser.cpp:32-46. *)
Definition builtin_types : list (string * dt) :=
  [("int", DBuiltin int32); ("intptr", DBuiltin int64); ("uintptr", DBuiltin uint64); ("size", DBuiltin uint64); ("real", DBuiltin float64);
   ("complex64", DBuiltin complex_float32); ("complex128", DBuiltin complex_float64); ("complex", DBuiltin complex_float64)]%string.

(** *** Structs, datashape_parser.cpp:368-491 *)
Definition parse_struct_item_bare (p : parser) (it : list Z) : outcome (option ((list Z * dt) * list Z)) :=
  do it <- skip_whitespace_and_pound_comments it;
  do x <- parse_name_no_ws it;
  match x with
  | Some (n, it) => do it <- require it ":"; do (t, it) <- need p it; Ok (Some ((n, t), it))
  | None => Ok None
  end.
Definition parse_struct_item_general (p : parser) (it : list Z) : outcome (option ((list Z * dt) * list Z)) :=
  do it <- skip_whitespace_and_pound_comments it;
  do x <- parse_name_no_ws it;
  do y <- (match x with Some y => Ok (Some y) | None => ds_parse_quoted_string it end);
  match y with
  | Some (n, it) => do it <- require it ":"; do (t, it) <- need p it; Ok (Some ((n, t), it))
  | None => Ok None
  end.
(** The loops of parse_struct (453-484) and parse_funcproto_kwds (494-533), which
    differ in the item and the closing character: the items, whether they end in
    ..., and the rest. *)
Fixpoint items_loop (item : list Z -> outcome (option ((list Z * dt) * list Z))) (close : string) (fuel : nat)
    (acc : list (list Z * dt)) (it : list Z) : outcome (list (list Z * dt) * bool * list Z) :=
  match fuel with
  | O => NoFuel
  | S f =>
      do v <- tok it "...";
      match v with
      | Some it => do it <- require it close; Ok (rev acc, true, it)
      | None =>
          do it <- skip_whitespace_and_pound_comments it;
          do x <- item it;
          match x with
          | None => perror
          | Some (nt, it) =>
              do c <- tok it ",";
              match c with
              | Some it =>
                  do e <- tok it close;
                  match e with
                  | Some it => Ok (rev (nt :: acc), false, it)
                  | None => items_loop item close f (nt :: acc) it
                  end
              | None => do it <- require it close; Ok (rev (nt :: acc), false, it)
              end
          end
      end
  end.
Definition parse_struct (p : parser) (it : list Z) : outcome (option (dt * list Z)) :=
  do o <- tok it "{";
  match o with
  | None => Ok None
  | Some it =>
      do e <- tok it "}";
      match e with
      | Some it => Ok (Some (DStruct [] false, it))
      | None =>
          do (l, v, it) <- items_loop (parse_struct_item_general p) "}" (S (List.length it)) [] it;
          Ok (Some (DStruct l v, it))
      end
  end.

(** *** Tuples and callables, datashape_parser.cpp:537-655 *)
(** 566-573: the lookahead for NAME : or ..., NAME : at the start of an item.  The
    flag set when ... and a comma were seen, where the keywords would start, and
    whether they do. *)
Definition keywords_ahead (it : list Z) : outcome (bool * list Z * bool) :=
  do e <- tok it "...";
  do (v, kb, b) <- (match e with
    | Some it1 => do c <- tok it1 ","; match c with Some it2 => Ok (true, it2, it2) | None => Ok (false, it, it1) end
    | None => Ok (false, it, it)
    end);
  do b <- skip_whitespace_and_pound_comments b;
  do n <- parse_name_no_ws b;
  match n with
  | Some (_, b) => do c <- tok b ":"; match c with Some _ => Ok (v, kb, true) | None => Ok (v, kb, false) end
  | None => Ok (v, kb, false)
  end.
Inductive tuple_end := TEnd (fields : list dt) (variadic : bool) (it : list Z) | TResult (t : dt) (it : list Z).
Fixpoint tuple_loop (p : parser) (fuel : nat) (acc : list dt) (variadic : bool) (it : list Z) : outcome tuple_end :=
  match fuel with
  | O => NoFuel
  | S f =>
      do (v, kb, kw) <- keywords_ahead it;
      let variadic := variadic || v in
      if kw then
        do (kwds, kv, it) <- items_loop (parse_struct_item_bare p) ")" (S (List.length kb)) [] kb;
        do a <- tok it "->";
        match a with
        | None => Ok (TResult (DTuple (rev acc) false) it)
        | Some it => do (r, it) <- need p it; Ok (TResult (DCallable r (rev acc) variadic kwds kv) it)
        end
      else
        do e <- tok it "...";
        do c <- (match e with Some it1 => tok it1 ")" | None => Ok None end);
        match c with
        | Some it => Ok (TEnd (rev acc) true it)
        | None =>
            do (t, it) <- need p it;
            do c <- tok it ",";
            match c with
            | Some it =>
                do e <- tok it ")";
                match e with
                | Some it => Ok (TEnd (rev (t :: acc)) variadic it)
                | None => tuple_loop p f (t :: acc) variadic it
                end
            | None => do it <- require it ")"; Ok (TEnd (rev (t :: acc)) variadic it)
            end
        end
  end.
(** 633-654: the arrow after the closing parenthesis.  Without keywords the
    callable's keyword struct is variadic when its tuple is
    (callable_type.cpp:274-285). *)
Definition parse_tuple_or_funcproto (p : parser) (it : list Z) : outcome (option (dt * list Z)) :=
  do o <- tok it "(";
  match o with
  | None => Ok None
  | Some it =>
      do e <- tok it ")";
      do x <- (match e with Some it => Ok (TEnd [] false it) | None => tuple_loop p (S (List.length it)) [] false it end);
      match x with
      | TResult t it => Ok (Some (t, it))
      | TEnd l v it =>
          do a <- tok it "->";
          match a with
          | None => Ok (Some (DTuple l v, it))
          | Some it => do (r, it) <- need p it; Ok (Some (DCallable r l v [] v, it))
          end
      end
  end.

(** *** Dimensions and names, datashape_parser.cpp:659-827 *)
Definition head_is (f : Z -> bool) (n : list Z) : bool := match n with c :: _ => f c | [] => false end.
(** 674-686, 690-707: the base of a power; [void] in the second use. *)
Definition pow_base (n : list Z) : outcome (dt -> dt) :=
  if head_is is_dig n then do s <- parse_s 64 n; Ok (DFixed s)
  else if compare_range_to_literal n (lit "var") then Ok DVar
  else if compare_range_to_literal n (lit "Fixed") then Ok DFixedKind
  else if head_is is_upper n then (if valid_typevar_name n then Ok (DTypevarDim n) else Throw "type_error")
  else perror.
(** 663-716: after NAME or NUMBER and the two stars.  The result may stay null. *)
Definition parse_pow (p : parser) (n it : list Z) : outcome (option dt * list Z) :=
  do e <- parse_name_or_number it;
  match e with
  | None => perror
  | Some (x, it) =>
      if head_is (between 49 57) x then
        do k <- parse_s 64 x;
        do it <- require it "*";
        do r <- p it;
        let '(elt, it) := match r with Some y => y | None => (null, it) end in
        do d <- pow_base n; Ok (Some (pow d elt (Z.to_nat k)), it)
      else if head_is is_upper x then
        do s <- tok it "*";
        match s with
        | None => Ok (None, it)
        | Some it =>
            do d <- pow_base n;
            do r <- p it;
            let '(elt, it) := match r with Some y => y | None => (null, it) end in
            do t <- checked_name x (DPow (d (DBuiltin void)) x elt); Ok (Some t, it)
        end
      else perror
  end.
(** 717-743: after NAME or NUMBER and one star. *)
Definition parse_dim (p : parser) (n it : list Z) : outcome (option dt * list Z) :=
  do (e, it) <- need p it;
  if head_is is_dig n then do s <- parse_s 64 n; Ok (Some (DFixed s e), it)
  else
    match lookup_id_by_name n with
    | Some en => match dim_of en with Some d => do t <- d e; Ok (Some t, it) | None => perror end
    | None => if head_is is_upper n then do t <- checked_name n (DTypevarDim n e); Ok (Some t, it) else perror
    end.
(** 755-806: a name that is not a dimension. *)
Definition parse_dtype (p : parser) (n it : list Z) : outcome (option dt * list Z) :=
  if compare_range_to_literal n (lit "complex") then do (t, it) <- parse_complex_parameters p it; Ok (Some t, it)
  else if compare_range_to_literal n (lit "State") then Ok (Some DState, it)
  else
    match assoc builtin_types n with
    | Some t => Ok (Some t, it)
    | None =>
        match lookup_id_by_name n with
        | Some en =>
            do b <- tok it "[";
            match b with
            | Some _ =>
                match args en with
                | Some a => do (t, it) <- parse_type_args p a it; Ok (Some t, it)
                | None => perror
                end
            | None => match singleton en with Some t => Ok (Some t, it) | None => perror end
            end
        | None =>
            if head_is is_upper n then
              do b <- tok it "[";
              match b with
              | None => do t <- checked_name n (DTypevar n); Ok (Some t, it)
              | Some it =>
                  do (a, it) <- need p it; do it <- require it "]";
                  do t <- checked_name n (DTypevarApp n a); Ok (Some t, it)
              end
            else perror
        end
    end.
Definition parse_named (p : parser) (n it : list Z) : outcome (option dt * list Z) :=
  do w <- tok it "**";
  match w with
  | Some it => parse_pow p n it
  | None =>
      do s <- tok it "*";
      match s with
      | Some it => parse_dim p n it
      | None =>
          do e <- tok it "...";
          match e with
          | Some it =>
              do it <- require it "*"; do (e, it) <- need p it; do t <- make_ellipsis n e; Ok (Some t, it)
          | None => parse_dtype p n it
          end
      end
  end.
Definition parse_datashape_nooption (p : parser) (it : list Z) : outcome (option (dt * list Z)) :=
  do it <- skip_whitespace_and_pound_comments it;
  do nn <- parse_name_or_number it;
  do (result, it) <- (match nn with
    | Some (n, it) => parse_named p n it
    | None =>
        match parse_token_no_ws it (lit "...") with
        | Some it => do it <- require it "*"; do (e, it) <- need p it; Ok (Some (DEllipsis [] e), it)
        | None => Ok (None, it)
        end
    end);
  match result with
  | Some t => Ok (Some (t, it))
  | None =>
      do s <- parse_struct p it;
      match s with Some x => Ok (Some x) | None => parse_tuple_or_funcproto p it end
  end.
(** 832-846: datashape::parse. *)
Definition parse_step (p : parser) (it : list Z) : outcome (option (dt * list Z)) :=
  do it1 <- skip_whitespace_and_pound_comments it;
  match parse_token_no_ws it1 (lit "?") with
  | Some it2 =>
      do r <- parse_datashape_nooption p it2;
      match r with Some (t, it3) => do o <- make_option t; Ok (Some (o, it3)) | None => Ok None end
  | None => parse_datashape_nooption p it
  end.
(** Every nested call is made on a shorter text, so the length of the text is
    enough fuel (proved: the result is never NoFuel). *)
Fixpoint parse (fuel : nat) (it : list Z) : outcome (option (dt * list Z)) :=
  match fuel with O => NoFuel | S f => parse_step (parse f) it end.
Definition ds_parse (it : list Z) : outcome (option (dt * list Z)) := parse (S (List.length it)) it.

(** *** Statements, datashape_parser.cpp:848-929
    The names defined so far; the types they stand for are never looked up. *)
Fixpoint mem_name (n : list Z) (l : list (list Z)) : bool :=
  match l with [] => false | m :: r => list_eqb m n || mem_name n r end.
Definition parse_stmt (symtable : list (list Z)) (it : list Z) : outcome (option (dt * list (list Z) * list Z)) :=
  do x <- tok it "type";
  match x with
  | Some it1 =>
      match skip_required_whitespace it1 with
      | None => if at_end it1 then Ok (Some (DType, symtable, it1)) else Ok None
      | Some it2 =>
          do n <- parse_name_no_ws it2;
          match n with
          | None =>
              do it3 <- skip_whitespace_and_pound_comments it2;
              if at_end it3 then Ok (Some (DType, symtable, it3)) else perror
          | Some (n, it3) =>
              do it4 <- require it3 "=";
              do (t, it5) <- need ds_parse it4;
              match lookup_id_by_name n with
              | Some _ => perror
              | None => if mem_name n symtable then perror else Ok (Some (t, n :: symtable, it5))
              end
          end
      end
  | None => do r <- ds_parse it; match r with Some (t, it1) => Ok (Some (t, symtable, it1)) | None => Ok None end
  end.
(** 911-929. *)
Fixpoint stmts (fuel : nat) (symtable : list (list Z)) (result : dt) (it : list Z) : outcome dt :=
  match fuel with
  | O => NoFuel
  | S f =>
      do r <- parse_stmt symtable it;
      match r with
      | Some (t, st, it) => stmts f st t it
      | None => do it <- skip_whitespace_and_pound_comments it; if at_end it then Ok result else perror
      end
  end.
Definition parse_top (it : list Z) : outcome dt :=
  do r <- parse_stmt [] it;
  match r with
  | Some (t, st, it) => stmts (S (List.length it)) st t it
  | None => perror
  end.
(** 966-990: type_from_datashape; the rethrown exception is a type_error (or the
    runtime_error of get_error_line_column). *)
Definition type_from_datashape (s : list Z) : outcome dt := parse_top s.

(** *** Positions of errors, datashape_parser.cpp:936-964
    Line and column of [position], an offset into the text; [None] for the
    runtime_error. *)
Fixpoint to_newline (s : list Z) : option (nat * list Z) :=
  match s with
  | [] => None
  | c :: r => if c =? 10 then Some (O, r) else match to_newline r with Some (k, r') => Some (S k, r') | None => None end
  end.
Fixpoint line_column (fuel : nat) (position : Z) (begin : Z) (line : Z) (s : list Z) : outcome (option (Z * Z)) :=
  match fuel with
  | O => NoFuel
  | S f =>
      match s with
      | [] => Ok None
      | _ =>
          match to_newline s with
          | None => Ok (Some (line, position - begin + 1))
          | Some (k, r) =>
              let next := begin + Z.of_nat k + 1 in
              if position <? next then Ok (Some (line, position - begin + 1)) else line_column f position next (line + 1) r
          end
      end
  end.
Definition get_error_line_column (s : list Z) (position : Z) : outcome (option (Z * Z)) :=
  line_column (S (List.length s)) position 0 1 s.
