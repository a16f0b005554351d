(** Specification for C94-C97: the JSON grammar of RFC 8259 and what a JSON text
    means for a type.  Independent of the code (only the types [jty], the stored
    values [jval] and the encodings are taken from the models). *)
From Coq Require Import List ZArith String.
From Verif Require Import EncodingSpec ScanSpec EscapeSpec ParseIntSpec JsonModel.
Import ListNotations.
Open Scope Z_scope.

(** ** The grammar (RFC 8259 section 2), for a class [sp] of whitespace characters
    and a class [str] of string contents. *)
Inductive nonterminal := Value | Element | Elements | Member | Members.
Inductive json (sp : Z -> Prop) (str : list Z -> Prop) : nonterminal -> list Z -> Prop :=
| g_true : json sp str Value (codes "true")
| g_false : json sp str Value (codes "false")
| g_null : json sp str Value (codes "null")
| g_number m : json_number m -> json sp str Value m
| g_string b : str b -> json sp str Value (34 :: b ++ [34])
| g_empty_array w : Forall sp w -> json sp str Value (91 :: w ++ [93])
| g_array es : json sp str Elements es -> json sp str Value (91 :: es ++ [93])
| g_empty_object w : Forall sp w -> json sp str Value (123 :: w ++ [125])
| g_object ms : json sp str Members ms -> json sp str Value (123 :: ms ++ [125])
| g_element w v w' : Forall sp w -> json sp str Value v -> Forall sp w' -> json sp str Element (w ++ v ++ w')
| g_one e : json sp str Element e -> json sp str Elements e
| g_more e es : json sp str Element e -> json sp str Elements es -> json sp str Elements (e ++ 44 :: es)
| g_member w b w' e : Forall sp w -> str b -> Forall sp w' -> json sp str Element e ->
    json sp str Member (w ++ (34 :: b ++ [34]) ++ w' ++ 58 :: e)
| g_one_member m : json sp str Member m -> json sp str Members m
| g_more_members m ms : json sp str Member m -> json sp str Members ms -> json sp str Members (m ++ 44 :: ms).

(** RFC 8259: whitespace is space, tab, line feed, carriage return; a string is
    UTF-8 text without control characters, with the escapes of section 7. *)
Definition rfc_space (c : Z) : Prop := c = 32 \/ c = 9 \/ c = 10 \/ c = 13.
Inductive rfc_string : list Z -> Prop :=
| rs_nil : rfc_string []
| rs_char cp bs t : utf8_of cp bs -> 32 <= cp -> cp <> 34 -> cp <> 92 -> rfc_string t -> rfc_string (bs ++ t)
| rs_escape e v t : In (e, v) escapes -> rfc_string t -> rfc_string (92 :: e :: t)
| rs_u ds v t : List.length ds = 4%nat -> hex_num ds v -> rfc_string t -> rfc_string (92 :: 117 :: ds ++ t).
Definition rfc8259 (text : list Z) : Prop := json rfc_space rfc_string Element text.
(** What libdynd takes: also vertical tab and form feed as whitespace, and any
    bytes and \UXXXXXXXX inside strings. *)
Definition relaxed : nonterminal -> list Z -> Prop := json space_c dq_body.

(** ** What a JSON value means for a type
    [rd sgn W m v]: the characters [m] are read as the integer [v] of that type. *)
Definition quoted (b : list Z) : list Z := 34 :: b ++ [34].
Definition utf8_text (w : list Z) : Prop := exists cps, text utf8_of cps w.
(** A sequence of comma separated values, one for each of the given meanings. *)
Definition meaning := list Z -> jval -> Prop.
Inductive seq : list meaning -> list Z -> list jval -> Prop :=
| seq_nil w : Forall space_c w -> seq [] w []
| seq_one (M : meaning) w x w' v : Forall space_c w -> M x v -> Forall space_c w' -> seq [M] (w ++ x ++ w') [v]
| seq_more (M : meaning) Ms w x w' v es vs : Forall space_c w -> M x v -> Forall space_c w' -> Ms <> [] -> seq Ms es vs ->
    seq (M :: Ms) (w ++ x ++ w' ++ 44 :: es) (v :: vs).
(** The members of an object: each one names a field, and its value is read as the
    type of the field, or names no field, and then it is any JSON value.  The
    result are the fields set, in order. *)
Definition first_at (names : list (list Z)) (n : list Z) (i : nat) : Prop :=
  nth_error names i = Some n /\ forall j, (j < i)%nat -> nth_error names j <> Some n.
Inductive one_member (names : list (list Z)) (Ms : list meaning) : list Z -> list (nat * jval) -> Prop :=
| om_field w b n w' w'' x w3 i M v : Forall space_c w -> dq_denotes b n -> Forall space_c w' -> Forall space_c w'' -> Forall space_c w3 ->
    first_at names n i -> nth_error Ms i = Some M -> M x v ->
    one_member names Ms (w ++ quoted b ++ w' ++ 58 :: w'' ++ x ++ w3) [(i, v)]
| om_other w b n w' w'' x w3 : Forall space_c w -> dq_denotes b n -> Forall space_c w' -> Forall space_c w'' -> Forall space_c w3 ->
    ~ In n names -> relaxed Value x -> one_member names Ms (w ++ quoted b ++ w' ++ 58 :: w'' ++ x ++ w3) [].
Inductive all_members (names : list (list Z)) (Ms : list meaning) : list Z -> list (nat * jval) -> Prop :=
| am_one m s : one_member names Ms m s -> all_members names Ms m s
| am_more m s ms s' : one_member names Ms m s -> all_members names Ms ms s' -> all_members names Ms (m ++ 44 :: ms) (s ++ s').
(** The last setting of field [i]. *)
Definition last_set (i : nat) (s : list (nat * jval)) (v : jval) : Prop :=
  exists a b, s = a ++ (i, v) :: b /\ forall v', ~ In (i, v') b.
Definition never_set (i : nat) (s : list (nat * jval)) : Prop := forall v, ~ In (i, v) s.
(** The missing value of an option. *)
Inductive missing : jty -> jval -> Prop :=
| na_bool : missing JOptBool (VBool 2)
| na_int W : missing (JOptInt W) (VInt (- 2 ^ (W - 1)))
| na_str : missing JOptString (VStr []).
Definition fields_from (tys : list jty) (s : list (nat * jval)) (vs : list jval) : Prop :=
  List.length vs = List.length tys /\
  forall i t v, nth_error tys i = Some t -> nth_error vs i = Some v -> last_set i s v \/ (never_set i s /\ missing t v).

Section Meaning.
Variable rd : bool -> Z -> list Z -> Z -> Prop.
Inductive bool_means : meaning :=
| bm_true : bool_means (codes "true") (VBool 1)
| bm_false : bool_means (codes "false") (VBool 0)
| bm_one : bool_means (codes "1") (VBool 1)
| bm_zero : bool_means (codes "0") (VBool 0)
| bm_true_word b w : dq_denotes b w -> true_word w -> bool_means (quoted b) (VBool 1)
| bm_false_word b w : dq_denotes b w -> false_word w -> bool_means (quoted b) (VBool 0).
(** An integer may stand in quotes, but then without escapes. *)
Inductive int_means (sgn : bool) (W : Z) : meaning :=
| im_number m v : json_number m -> rd sgn W m v -> int_means sgn W m (VInt v)
| im_quoted b v : dq_body b -> ~ In 92 b -> rd sgn W b v -> int_means sgn W (quoted b) (VInt v).
Inductive string_means : meaning :=
| sm_string b w : dq_denotes b w -> utf8_text w -> string_means (quoted b) (VStr w).
Inductive option_means : jty -> meaning :=
| op_null t v : missing t v -> option_means t (codes "null") v
| op_bool x v : bool_means x v -> option_means JOptBool x v
| op_bool_na b w : dq_denotes b w -> na_word w -> option_means JOptBool (quoted b) (VBool 2)
| op_number W m v : json_number m -> rd true W m v -> option_means (JOptInt W) m (VInt v)
| op_quoted W b w v : dq_denotes b w -> ~ na_word w -> rd true W w v -> option_means (JOptInt W) (quoted b) (VInt v)
| op_int_na W b w : dq_denotes b w -> na_word w -> option_means (JOptInt W) (quoted b) (VInt (- 2 ^ (W - 1)))
| op_string x v : string_means x v -> option_means JOptString x v.

Fixpoint means (tp : jty) : meaning :=
  match tp with
  | JBool => bool_means
  | JInt sgn W => int_means sgn W
  | JString => string_means
  | JOptBool | JOptInt _ | JOptString => option_means tp
  | JFixed n el => fun t v => exists es vs, t = 91 :: es ++ [93] /\ v = VList vs /\ seq (repeat (means el) (Z.to_nat n)) es vs
  | JVar el => fun t v => exists es vs, t = 91 :: es ++ [93] /\ v = VList vs /\ seq (repeat (means el) (List.length vs)) es vs
  | JTuple tys => fun t v => exists es vs, t = 91 :: es ++ [93] /\ v = VList vs /\ seq (map (fun t => means t) tys) es vs
  | JStruct names tys => fun t v => exists vs, v = VList vs /\
      ((exists es, t = 91 :: es ++ [93] /\ seq (map (fun t => means t) tys) es vs) \/
       (exists ms s, t = 123 :: ms ++ [125] /\ fields_from tys s vs /\
          (Forall space_c ms /\ s = [] \/ all_members names (map (fun t => means t) tys) ms s)))
  end.
End Meaning.
(** A whole text: the value with whitespace around it. *)
Definition text_means rd (tp : jty) (t : list Z) (v : jval) : Prop :=
  exists w x w', Forall space_c w /\ Forall space_c w' /\ t = w ++ x ++ w' /\ means rd tp x v.

(** The ideal reading of an integer: an optional minus sign and a number below
    2^64; the value fits the type.  ([-2^63] is left out for 64 bits: see C16.) *)
Definition reads_as (sgn : bool) (W : Z) (m : list Z) (v : Z) : Prop :=
  exists (neg : bool) s n, m = (if neg then 45 :: s else s) /\ number s n /\ n < 2 ^ 64 /\
    v = (if neg then - n else n) /\ in_range sgn W v /\ (sgn = true -> W = 64 -> v <> - 2 ^ 63).

(** ** Types and their values *)
(** The sizes are those of integer types, and a struct has a name for each field. *)
Fixpoint well_formed (tp : jty) : Prop :=
  match tp with
  | JInt _ W | JOptInt W => W = 8 \/ W = 16 \/ W = 32 \/ W = 64
  | JFixed n el => 0 <= n /\ well_formed el
  | JVar el => well_formed el
  | JTuple tys => fold_right (fun t P => well_formed t /\ P) True tys
  | JStruct names tys => List.length names = List.length tys /\ fold_right (fun t P => well_formed t /\ P) True tys
  | _ => True
  end.
(** No 64 bit signed integers (C16: reading their smallest value is undefined). *)
Fixpoint no_int64 (tp : jty) : Prop :=
  match tp with
  | JInt sgn W => sgn = true -> W <> 64
  | JOptInt W => W <> 64
  | JFixed _ el | JVar el => no_int64 el
  | JTuple tys | JStruct _ tys => fold_right (fun t P => no_int64 t /\ P) True tys
  | _ => True
  end.
(** What can be written: no tuples, and field names that are distinct UTF-8. *)
Fixpoint printable (tp : jty) : Prop :=
  match tp with
  | JFixed _ el | JVar el => printable el
  | JTuple tys => False
  | JStruct names tys => NoDup names /\ Forall utf8_text names /\ fold_right (fun t P => printable t /\ P) True tys
  | _ => True
  end.
Fixpoint all2 (Ps : list (jval -> Prop)) (vs : list jval) : Prop :=
  match Ps, vs with
  | [], [] => True
  | P :: Ps, v :: vs => P v /\ all2 Ps vs
  | _, _ => False
  end.
Fixpoint has_type (tp : jty) (v : jval) {struct tp} : Prop :=
  match tp, v with
  | JBool, VBool w => w = 0 \/ w = 1
  | JInt sgn W, VInt z => in_range sgn W z
  | JString, VStr s => utf8_text s
  | JOptBool, VBool w => w = 0 \/ w = 1 \/ w = 2
  | JOptInt W, VInt z => in_range true W z
  | JOptString, VStr s => utf8_text s
  | JFixed n el, VList vs => n = Z.of_nat (List.length vs) /\ Forall (fun x => has_type el x) vs
  | JVar el, VList vs => Forall (fun x => has_type el x) vs
  | JTuple tys, VList vs => all2 (map (fun t => has_type t) tys) vs
  | JStruct names tys, VList vs => all2 (map (fun t => has_type t) tys) vs
  | _, _ => False
  end.
(** No element of a plain int64 type is the smallest one (C16: reading it back is
    undefined behaviour). *)
Fixpoint no_int64_min (tp : jty) (v : jval) {struct tp} : Prop :=
  match tp, v with
  | JInt sgn W, VInt z => sgn = true -> W = 64 -> z <> - 2 ^ 63
  | JFixed _ el, VList vs | JVar el, VList vs => Forall (fun x => no_int64_min el x) vs
  | JTuple tys, VList vs | JStruct _ tys, VList vs => all2 (map (fun t => no_int64_min t) tys) vs
  | _, _ => True
  end.

(** ** Positions *)
(** [pos] is in line [line], at the given column (both from 1), in a line whose
    text is [cur], and [prev] is the line before it (empty for the first). *)
Definition context (t : list Z) (pos : Z) (prev cur : list Z) (line column : Z) : Prop :=
  exists a b c r, t = a ++ b ++ c ++ r /\ pos = Z.of_nat (List.length (a ++ b)) /\ cur = b ++ c /\ ~ In 10 cur /\
    (r = [] \/ exists r', r = 10 :: r') /\ column = Z.of_nat (List.length b) + 1 /\
    ((a = [] /\ prev = [] /\ line = 1) \/
     (exists a', a = a' ++ prev ++ [10] /\ ~ In 10 prev /\ (a' = [] \/ exists a2, a' = a2 ++ [10]) /\
        line = Z.of_nat (count_occ Z.eq_dec a 10) + 1)).
(** In the report [m] a line with a caret follows a line, and above the caret is
    character [c] of that line, or its end. *)
Definition caret_under (m : list Z) (c : option Z) : Prop :=
  exists pre l k, m = pre ++ l ++ [10] ++ repeat 32 k ++ [94; 10] /\ ~ In 10 l /\ (pre = [] \/ exists p, pre = p ++ [10]) /\
    (k <= List.length l)%nat /\ nth_error l k = c.
