(** Specification for the text scanners (C17, C18, C20, C47, C48).  Texts are
    lists of character codes; [codes "abc"] are the codes of a literal. *)
From Coq Require Import List ZArith String Ascii.
Import ListNotations.
Open Scope Z_scope.

Definition codes (s : string) : list Z := map (fun a => Z.of_N (N_of_ascii a)) (list_ascii_of_string s).

Definition letter (c : Z) : Prop := 97 <= c <= 122 \/ 65 <= c <= 90.
Definition digit_c (c : Z) : Prop := 48 <= c <= 57.
Definition space_c (c : Z) : Prop := c = 32 \/ 9 <= c <= 13.

(** [next_is P r]: the text [r] goes on with a character of [P]. *)
Definition next_is (P : Z -> Prop) (r : list Z) : Prop := exists c r', r = c :: r' /\ P c.

(** [a-zA-Z_][a-zA-Z0-9_]* and [a-zA-Z]+ *)
Definition name_char_p (c : Z) : Prop := letter c \/ digit_c c \/ c = 95.
Definition name (m : list Z) : Prop := exists c t, m = c :: t /\ (letter c \/ c = 95) /\ Forall name_char_p t.
Definition alpha_name (m : list Z) : Prop := m <> [] /\ Forall letter m.

(** What skipping whitespace and #-comments removes from the front of a text. *)
Inductive skipped : list Z -> list Z -> Prop :=
| sk_stop r : ~ next_is (fun c => space_c c \/ c = 35) r -> skipped r r
| sk_space c s r : space_c c -> skipped s r -> skipped (c :: s) r
| sk_comment body s r : ~ In 10 body -> skipped s r -> skipped (35 :: body ++ 10 :: s) r
| sk_comment_eof body : ~ In 10 body -> skipped (35 :: body) [].

(** JSON numbers (RFC 7159): [-] int [frac] [exp]. *)
Inductive json_sign : list Z -> Prop := sg_none : json_sign [] | sg_minus : json_sign [45].
Inductive json_int : list Z -> Prop :=
| int_zero : json_int [48]
| int_pos c t : 49 <= c <= 57 -> Forall digit_c t -> json_int (c :: t).
Inductive json_frac : list Z -> Prop :=
| fr_none : json_frac []
| fr_some ds : ds <> [] -> Forall digit_c ds -> json_frac (46 :: ds).
Inductive json_exp : list Z -> Prop :=
| ex_none : json_exp []
| ex_some e sgn ds : e = 101 \/ e = 69 -> (sgn = [] \/ sgn = [43] \/ sgn = [45]) -> ds <> [] -> Forall digit_c ds ->
    json_exp (e :: sgn ++ ds).
Definition json_number (m : list Z) : Prop :=
  exists s i f e, json_sign s /\ json_int i /\ json_frac f /\ json_exp e /\ m = s ++ i ++ f ++ e.

(** Unsigned decimal integers without leading zeros. *)
Definition uint_lit (m : list Z) : Prop := json_int m.

(** Value of a digit string. *)
Definition dec_value (ds : list Z) : Z := fold_left (fun a c => 10 * a + (c - 48)) ds 0.

(** Case folding of ASCII text. *)
Definition lower_c (c : Z) : Z := if ((65 <=? c) && (c <=? 90))%bool then c + 32 else c.
Definition fold_case (s : list Z) : list Z := map lower_c s.
Definition false_word (s : list Z) : Prop := In (fold_case s) (map codes ["0"; "n"; "f"; "no"; "off"; "false"]%string).
Definition true_word (s : list Z) : Prop := In (fold_case s) (map codes ["1"; "y"; "t"; "on"; "yes"; "true"]%string).

(** Reading a JSON number from the front of a text, as the code does it: each
    part is taken as long as possible, and a '.' or an 'e' that could start a
    further part must be followed by one.  [m] is read and [r] remains. *)
Definition exp_mark (c : Z) : Prop := c = 101 \/ c = 69.
Definition json_read (t m r : list Z) : Prop :=
  exists s i f e, json_sign s /\ json_int i /\ json_frac f /\ json_exp e /\
    m = s ++ i ++ f ++ e /\ t = m ++ r /\
    (e <> [] \/ f <> [] \/ i <> [48] -> ~ next_is digit_c r) /\
    (e = [] -> ~ next_is exp_mark r) /\
    (e = [] /\ f = [] -> ~ next_is (eq 46) r).
