(** Specification for C90-C93: how types are spelled.  [codes], [name], [uint_lit],
    [dec_value], [space_c], [skipped] are those of ScanSpec; [ds_denotes] (quoted
    strings) that of EscapeSpec. *)
From Coq Require Import List ZArith String.
From Verif Require Import Base TypesModel EncodingModel EncodingSpec ScanSpec EscapeSpec DatashapeModel.
Import ListNotations.
Open Scope Z_scope.

(** ** Gaps: what may stand between two tokens *)
Inductive gap : list Z -> Prop :=
| gap_nil : gap []
| gap_space c g : space_c c -> gap g -> gap (c :: g)
| gap_comment body g : ~ In 10 body -> gap g -> gap (35 :: body ++ 10 :: g).

(** ** Words *)
Definition words : list (string * dt) :=
  [("bool", DBuiltin bool_); ("int8", DBuiltin int8); ("int16", DBuiltin int16); ("int32", DBuiltin int32); ("int64", DBuiltin int64);
   ("int128", DBuiltin int128); ("uint8", DBuiltin uint8); ("uint16", DBuiltin uint16); ("uint32", DBuiltin uint32);
   ("uint64", DBuiltin uint64); ("uint128", DBuiltin uint128); ("float16", DBuiltin float16); ("float32", DBuiltin float32);
   ("float64", DBuiltin float64); ("float128", DBuiltin float128); ("void", DBuiltin void);
   ("complex", DBuiltin complex_float64); ("complex32", DBuiltin complex_float32); ("complex64", DBuiltin complex_float32); ("complex128", DBuiltin complex_float64);
   ("int", DBuiltin int32); ("intptr", DBuiltin int64); ("uintptr", DBuiltin uint64); ("size", DBuiltin uint64); ("real", DBuiltin float64);
   ("Any", DKind KAny); ("Scalar", DKind KScalar); ("Bool", DKind KBool); ("Int", DKind KInt); ("UInt", DKind KUInt); ("Float", DKind KFloat);
   ("Complex", DKind KComplex); ("Bytes", DKind KBytes); ("FixedBytes", DKind KFixedBytes); ("String", DKind KString);
   ("FixedString", DKind KFixedString); ("Categorical", DKind KCategorical);
   ("bytes", DBytes 1); ("string", DString); ("char", DChar Utf32); ("type", DType); ("array", DArray); ("State", DState)]%string.
(** Names that start with a capital letter and are not type variables. *)
Definition reserved : list string :=
  ["Any"; "Scalar"; "Bool"; "Int"; "UInt"; "Float"; "Complex"; "Dim"; "Bytes"; "FixedBytes"; "String"; "FixedString"; "Fixed";
   "Categorical"; "Expr"; "State"]%string.
Definition capital_name (n : list Z) : Prop := exists c r, n = c :: r /\ 65 <= c <= 90 /\ Forall name_char_p r.
Definition typevar_name (n : list Z) : Prop := capital_name n /\ ~ In n (map codes reserved).
Definition encodings : list (string * enc) :=
  [("A", Ascii); ("ascii", Ascii); ("us-ascii", Ascii); ("U8", Utf8); ("utf8", Utf8); ("utf-8", Utf8); ("utf_8", Utf8);
   ("U16", Utf16); ("utf16", Utf16); ("utf-16", Utf16); ("utf_16", Utf16); ("U32", Utf32); ("utf32", Utf32); ("utf-32", Utf32); ("utf_32", Utf32);
   ("ucs2", Ucs2); ("ucs-2", Ucs2); ("ucs_2", Ucs2)]%string.
Definition quoted (w text : list Z) : Prop := exists q body, (q = 39 \/ q = 34) /\ ds_denotes q body w /\ text = q :: body ++ [q].
Definition encoding_arg (e : enc) (text : list Z) : Prop := exists w, In (w, e) encodings /\ quoted (codes w) text.
(** A decimal numeral below 2^bits. *)
Definition numeral (bits n : Z) (ds : list Z) : Prop := uint_lit ds /\ dec_value ds = n /\ n < 2 ^ bits.

(** ** The grammar *)
(** Dimensions: what stands before the star. *)
Inductive dimension : (dt -> dt) -> list Z -> Prop :=
| di_number n ds : numeral 63 n ds -> dimension (DFixed n) ds
| di_var : dimension DVar (codes "var")
| di_fixed : dimension DFixedKind (codes "Fixed")
| di_typevar n : typevar_name n -> dimension (DTypevarDim n) n.
Definition alignment (a : Z) : Prop := In a [1; 2; 4; 8; 16].
Definition dots := codes "...".
(** How a list may end: nothing or one comma more, or (open lists) dots. *)
Inductive ending : bool -> list Z -> Prop :=
| en_plain g : gap g -> ending false g
| en_comma g g' : gap g -> gap g' -> ending false (g ++ codes "," ++ g')
| en_dots g g' g'' : gap g -> gap g' -> gap g'' -> ending true (g ++ codes "," ++ g' ++ dots ++ g'').
Inductive field_name : bool -> list Z -> list Z -> Prop :=
| fn_name bare n : name n -> field_name bare n n
| fn_quoted n text : quoted n text -> field_name false n text.
Inductive spelled : dt -> list Z -> Prop :=
| sp_word w t : In (w, t) words -> spelled t (codes w)
| sp_complex32 g g' s g'' : gap g -> gap g' -> gap g'' -> spelled (DBuiltin float32) s ->
    spelled (DBuiltin complex_float32) (codes "complex" ++ g ++ codes "[" ++ g' ++ s ++ g'' ++ codes "]")
| sp_complex64 g g' s g'' : gap g -> gap g' -> gap g'' -> spelled (DBuiltin float64) s ->
    spelled (DBuiltin complex_float64) (codes "complex" ++ g ++ codes "[" ++ g' ++ s ++ g'' ++ codes "]")
| sp_bytes a ds g1 g2 g3 g4 g5 : gap g1 -> gap g2 -> gap g3 -> gap g4 -> gap g5 -> numeral 31 a ds -> alignment a ->
    spelled (DBytes a) (codes "bytes" ++ g1 ++ codes "[" ++ g2 ++ codes "align" ++ g3 ++ codes "=" ++ g4 ++ ds ++ g5 ++ codes "]")
| sp_fixed_bytes n ds g1 g2 g3 : gap g1 -> gap g2 -> gap g3 -> numeral 31 n ds -> 1 <= n ->
    spelled (DFixedBytes n 1) (codes "fixed_bytes" ++ g1 ++ codes "[" ++ g2 ++ ds ++ g3 ++ codes "]")
| sp_fixed_bytes_align n ds a ds' g1 g2 g3 g4 g5 g6 g7 : gap g1 -> gap g2 -> gap g3 -> gap g4 -> gap g5 -> gap g6 -> gap g7 ->
    numeral 31 n ds -> numeral 31 a ds' -> alignment a -> a <= n -> (a | n) ->
    spelled (DFixedBytes n a) (codes "fixed_bytes" ++ g1 ++ codes "[" ++ g2 ++ ds ++ g3 ++ codes "," ++ g4 ++ codes "align" ++ g5 ++ codes "=" ++
      g6 ++ ds' ++ g7 ++ codes "]")
| sp_fixed_string n ds g1 g2 g3 : gap g1 -> gap g2 -> gap g3 -> numeral 31 n ds -> 1 <= n ->
    spelled (DFixedString n Utf8) (codes "fixed_string" ++ g1 ++ codes "[" ++ g2 ++ ds ++ g3 ++ codes "]")
| sp_fixed_string_enc n ds e w g1 g2 g3 g4 g5 : gap g1 -> gap g2 -> gap g3 -> gap g4 -> gap g5 -> numeral 31 n ds -> 1 <= n -> encoding_arg e w ->
    spelled (DFixedString n e) (codes "fixed_string" ++ g1 ++ codes "[" ++ g2 ++ ds ++ g3 ++ codes "," ++ g4 ++ w ++ g5 ++ codes "]")
| sp_char e w g1 g2 g3 : gap g1 -> gap g2 -> gap g3 -> encoding_arg e w -> In e [Ascii; Ucs2; Utf32] ->
    spelled (DChar e) (codes "char" ++ g1 ++ codes "[" ++ g2 ++ w ++ g3 ++ codes "]")
| sp_dim d w e s g g' : dimension d w -> gap g -> gap g' -> spelled e s -> spelled (d e) (w ++ g ++ codes "*" ++ g' ++ s)
| sp_dim_kind e s g g' : gap g -> gap g' -> spelled e s -> spelled (DDimKind e) (codes "Dim" ++ g ++ codes "*" ++ g' ++ s)
| sp_fixed n ds e s g1 g2 g3 g4 g5 : gap g1 -> gap g2 -> gap g3 -> gap g4 -> gap g5 -> numeral 63 n ds -> spelled e s ->
    spelled (DFixed n e) (codes "fixed" ++ g1 ++ codes "[" ++ g2 ++ ds ++ g3 ++ codes "]" ++ g4 ++ codes "*" ++ g5 ++ s)
| sp_power d w k ds e s g1 g2 g3 : dimension d w -> gap g1 -> gap g2 -> gap g3 -> numeral 63 k ds -> 1 <= k -> spelled e s ->
    spelled (Nat.iter (Z.to_nat k) d e) (w ++ g1 ++ codes "**" ++ ds ++ g2 ++ codes "*" ++ g3 ++ s)
| sp_power_var d w n e s g1 g2 g3 : dimension d w -> gap g1 -> gap g2 -> gap g3 -> capital_name n -> spelled e s ->
    spelled (DPow (d (DBuiltin void)) n e) (w ++ g1 ++ codes "**" ++ n ++ g2 ++ codes "*" ++ g3 ++ s)
| sp_dots e s g g' : gap g -> gap g' -> spelled e s -> spelled (DEllipsis [] e) (dots ++ g ++ codes "*" ++ g' ++ s)
| sp_named_dots n e s g1 g2 g3 : capital_name n -> gap g1 -> gap g2 -> gap g3 -> spelled e s ->
    spelled (DEllipsis n e) (n ++ g1 ++ dots ++ g2 ++ codes "*" ++ g3 ++ s)
| sp_typevar n : typevar_name n -> spelled (DTypevar n) n
| sp_typevar_app n a s g1 g2 g3 : typevar_name n -> gap g1 -> gap g2 -> gap g3 -> spelled a s ->
    spelled (DTypevarApp n a) (n ++ g1 ++ codes "[" ++ g2 ++ s ++ g3 ++ codes "]")
| sp_option t s g : gap g -> spelled t s -> (forall u, t <> DOption u) -> spelled (DOption t) (codes "?" ++ g ++ s)
| sp_option_arg t s g1 g2 g3 : gap g1 -> gap g2 -> gap g3 -> spelled t s -> (forall u, t <> DOption u) ->
    spelled (DOption t) (codes "option" ++ g1 ++ codes "[" ++ g2 ++ s ++ g3 ++ codes "]")
| sp_pointer t s g1 g2 g3 : gap g1 -> gap g2 -> gap g3 -> spelled t s ->
    spelled (DPointer t) (codes "pointer" ++ g1 ++ codes "[" ++ g2 ++ s ++ g3 ++ codes "]")
| sp_tuple l v s : arguments l v s -> spelled (DTuple l v) (codes "(" ++ s ++ codes ")")
| sp_struct l v s : members l v s -> spelled (DStruct l v) (codes "{" ++ s ++ codes "}")
| sp_callable l v s r rs g g' : arguments l v s -> gap g -> gap g' -> spelled r rs ->
    spelled (DCallable r l v [] v) (codes "(" ++ s ++ codes ")" ++ g ++ codes "->" ++ g' ++ rs)
| sp_callable_kw l v s k ks kv es r rs g g' : before_keywords l v s -> items true k ks -> ending kv es -> gap g -> gap g' -> spelled r rs ->
    spelled (DCallable r l v k kv) (codes "(" ++ s ++ ks ++ es ++ codes ")" ++ g ++ codes "->" ++ g' ++ rs)
(** one or more types, separated by commas *)
with types : list dt -> list Z -> Prop :=
| ty_one t s g : gap g -> spelled t s -> types [t] (g ++ s)
| ty_cons t s g g' l r : gap g -> gap g' -> spelled t s -> types l r -> types (t :: l) (g ++ s ++ g' ++ codes "," ++ r)
(** one or more NAME : TYPE; bare names only, or quoted as well *)
with items : bool -> list (list Z * dt) -> list Z -> Prop :=
| it_one bare n ns t s g g1 g2 : gap g -> gap g1 -> gap g2 -> field_name bare n ns -> spelled t s ->
    items bare [(n, t)] (g ++ ns ++ g1 ++ codes ":" ++ g2 ++ s)
| it_cons bare n ns t s g g1 g2 g3 l r : gap g -> gap g1 -> gap g2 -> gap g3 -> field_name bare n ns -> spelled t s -> items bare l r ->
    items bare ((n, t) :: l) (g ++ ns ++ g1 ++ codes ":" ++ g2 ++ s ++ g3 ++ codes "," ++ r)
(** between the parentheses *)
with arguments : list dt -> bool -> list Z -> Prop :=
| ar_none g : gap g -> arguments [] false g
| ar_dots g g' : gap g -> gap g' -> arguments [] true (g ++ dots ++ g')
| ar_some l s v es : types l s -> ending v es -> arguments l v (s ++ es)
with members : list (list Z * dt) -> bool -> list Z -> Prop :=
| me_none g : gap g -> members [] false g
| me_dots g g' : gap g -> gap g' -> members [] true (g ++ dots ++ g')
| me_some l s v es : items false l s -> ending v es -> members l v (s ++ es)
(** the positional arguments, when keywords follow *)
with before_keywords : list dt -> bool -> list Z -> Prop :=
| bk_none : before_keywords [] false []
| bk_dots g g' : gap g -> gap g' -> before_keywords [] true (g ++ dots ++ g' ++ codes ",")
| bk_some l s g : types l s -> gap g -> before_keywords l false (s ++ g ++ codes ",")
| bk_some_dots l s g g' g'' : types l s -> gap g -> gap g' -> gap g'' -> before_keywords l true (s ++ g ++ codes "," ++ g' ++ dots ++ g'' ++ codes ",").

(** What may follow a type: nothing that could go on with it, a letter or digit at
    once, or one of * . [ - : after a gap. *)
Definition ends (rest : list Z) : Prop :=
  ~ next_is name_char_p rest /\ exists r, skipped rest r /\ ~ next_is (fun c => In c (codes "*.[-:")) r.

(** ** Scripts: aliases, and at last a type
    [script st t s]: the text [s], after definitions of the names [st], stands
    for [t]. *)
Definition known_names : list string :=
  map fst words ++ ["fixed_bytes"; "fixed_string"; "fixed"; "option"; "pointer"; "tuple"; "struct"; "categorical"; "memory"; "callable";
   "adapt"; "expr"; "cuda_host"; "cuda_device"; "var"; "Fixed"; "Dim"; "Expr"]%string.
(** the words of [words] that can be redefined all the same *)
Definition redefinable : list string := ["complex"; "complex128"; "int"; "intptr"; "uintptr"; "size"; "real"]%string.
Definition taken (n : list Z) : Prop := In n (map codes known_names) /\ ~ In n (map codes redefinable).
Inductive script : list (list Z) -> dt -> list Z -> Prop :=
| sc_type st t s g g' : gap g -> spelled t s -> skipped g' [] -> (t = DType -> ~ next_is (eq 35) g') -> script st t (g ++ s ++ g')
| sc_last st n t s g w g1 g2 g' : gap g -> w <> [] -> Forall space_c w -> name n -> gap g1 -> gap g2 -> spelled t s -> skipped g' [] ->
    ~ taken n -> ~ In n st -> script st t (g ++ codes "type" ++ w ++ n ++ g1 ++ codes "=" ++ g2 ++ s ++ g')
| sc_alias st n t s g w g1 g2 u rest : gap g -> w <> [] -> Forall space_c w -> name n -> gap g1 -> gap g2 -> spelled t s -> ends rest ->
    ~ taken n -> ~ In n st -> script (n :: st) u rest ->
    script st u (g ++ codes "type" ++ w ++ n ++ g1 ++ codes "=" ++ g2 ++ s ++ rest).

(** ** Types that are printed so that they can be read back
    (all others are listed with the theorem). *)
Definition char_encoding (e : enc) : Prop := In e [Ascii; Ucs2; Utf32].
(** names that survive: an identifier, or UTF-8 text without characters above
    U+FFFF *)
Definition nice_field (n : list Z) : Prop := name n \/ exists cps, text utf8_of cps n /\ Forall (fun cp => cp < 0x10000) cps.
Inductive printable : dt -> Prop :=
| pr_builtin b : b <> uninitialized -> printable (DBuiltin b)
| pr_kind k : printable (DKind k)
| pr_bytes a : alignment a -> printable (DBytes a)
| pr_fixed_bytes n a : alignment a -> a <= n -> (a | n) -> n < 2 ^ 31 -> printable (DFixedBytes n a)
| pr_string : printable DString
| pr_fixed_string n e : 1 <= n < 2 ^ 31 -> printable (DFixedString n e)
| pr_char e : char_encoding e -> printable (DChar e)
| pr_type : printable DType
| pr_array : printable DArray
| pr_state : printable DState
| pr_fixed n e : 0 <= n < 2 ^ 63 -> printable e -> printable (DFixed n e)
| pr_var e : printable e -> printable (DVar e)
| pr_fixed_kind e : printable e -> printable (DFixedKind e)
| pr_dim_kind e : printable e -> printable (DDimKind e)
| pr_typevar n : typevar_name n -> printable (DTypevar n)
| pr_typevar_dim n e : typevar_name n -> printable e -> printable (DTypevarDim n e)
| pr_typevar_app n a : typevar_name n -> printable a -> printable (DTypevarApp n a)
| pr_dots e : printable e -> printable (DEllipsis [] e)
| pr_named_dots n e : capital_name n -> printable e -> printable (DEllipsis n e)
| pr_pow d w n e : dimension d w -> w <> codes "Fixed" -> capital_name n -> printable e -> printable (DPow (d (DBuiltin void)) n e)
| pr_pointer t : printable t -> printable (DPointer t)
| pr_option t : printable t -> (forall u, t <> DOption u) -> printable (DOption t)
| pr_tuple l v : Forall printable l -> (v = true -> l <> []) -> printable (DTuple l v)
| pr_struct l v : Forall (fun f => nice_field (fst f) /\ printable (snd f)) l -> (v = true -> l <> []) -> printable (DStruct l v)
| pr_callable r l v : printable r -> Forall printable l -> printable (DCallable r l v [] v)
| pr_callable_kw r l v k kv : printable r -> Forall printable l -> Forall (fun f => name (fst f) /\ printable (snd f)) k -> k <> [] ->
    printable (DCallable r l v k kv).

(** ** Types as their constructors admit them (C91) *)
Inductive proper : dt -> Prop :=
| po_builtin b : proper (DBuiltin b)
| po_kind k : proper (DKind k)
| po_bytes a : alignment a -> proper (DBytes a)
| po_fixed_bytes n a : alignment a -> a <= n -> (a | n) -> proper (DFixedBytes n a)
| po_string : proper DString
| po_fixed_string n e : 0 <= n < 2 ^ 31 -> proper (DFixedString n e)
| po_char e : In e [Ascii; Ucs2; Utf32] -> proper (DChar e)
| po_type : proper DType
| po_array : proper DArray
| po_state : proper DState
| po_fixed n e : 0 <= n < 2 ^ 63 -> proper e -> proper (DFixed n e)
| po_var e : proper e -> proper (DVar e)
| po_fixed_kind e : proper e -> proper (DFixedKind e)
| po_dim_kind e : proper e -> proper (DDimKind e)
| po_typevar n : capital_name n -> proper (DTypevar n)
| po_typevar_dim n e : capital_name n -> proper e -> proper (DTypevarDim n e)
| po_typevar_app n a : capital_name n -> proper a -> proper (DTypevarApp n a)
| po_dots e : proper e -> proper (DEllipsis [] e)
| po_named_dots n e : capital_name n -> proper e -> proper (DEllipsis n e)
| po_pow b n e : proper b -> capital_name n -> proper e -> proper (DPow b n e)
| po_pointer t : proper t -> proper (DPointer t)
| po_option t : proper t -> (forall u, t <> DOption u) -> proper (DOption t)
| po_tuple l v : Forall proper l -> proper (DTuple l v)
| po_struct l v : Forall (fun f => proper (snd f)) l -> proper (DStruct l v)
| po_callable r l v k kv : proper r -> Forall proper l -> Forall (fun f => proper (snd f)) k -> proper (DCallable r l v k kv).
(** What no statement begins with: none of letters, digits, _ ? . { ( *)
Definition foreign (c : Z) : Prop := ~ name_char_p c /\ ~ In c (codes "?.{(").

(** ** Numerals below 2^31 (C91) *)
Definition small_numerals (s : list Z) : Prop := forall a ds b, s = a ++ ds ++ b -> Forall digit_c ds -> dec_value ds < 2 ^ 31.

(** ** Lines and columns, both counted from 1 (C92)
    [at_line_column s pos line col]: [pos] characters of [s] precede the position;
    they are the complete lines [a] and the beginning [b] of the line. *)
Definition newlines (s : list Z) : Z := Z.of_nat (count_occ Z.eq_dec s 10).
Definition at_line_column (s : list Z) (pos line col : Z) : Prop :=
  exists a b r, s = a ++ b ++ r /\ pos = Z.of_nat (List.length (a ++ b)) /\ (a = [] \/ exists a', a = a' ++ [10]) /\ ~ In 10 b /\
    line = 1 + newlines a /\ col = 1 + Z.of_nat (List.length b).
