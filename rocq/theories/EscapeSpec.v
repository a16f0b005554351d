(** Specification for C13, C19, C49, C50: quoted literals.  Independent of the
    code; [utf8_of] is the Unicode standard's UTF-8 (EncodingSpec). *)
From Coq Require Import List ZArith String.
From Verif Require Import EncodingSpec ScanSpec.
Import ListNotations.
Open Scope Z_scope.

(** Hexadecimal digits and numerals. *)
Inductive hex_is : Z -> Z -> Prop :=
| hx_dig d : 48 <= d <= 57 -> hex_is d (d - 48)
| hx_up d : 65 <= d <= 70 -> hex_is d (d - 65 + 10)
| hx_low d : 97 <= d <= 102 -> hex_is d (d - 97 + 10).
(** [hex_num ds v]: the digits [ds] denote [v] (most significant first). *)
Inductive hex_num : list Z -> Z -> Prop :=
| hn_nil : hex_num [] 0
| hn_snoc ds d v w : hex_num ds v -> hex_is d w -> hex_num (ds ++ [d]) (16 * v + w).

(** One-character escapes: the character after the backslash and what it means. *)
Definition escapes : list (Z * Z) :=
  [(34, 34); (92, 92); (47, 47); (98, 8); (102, 12); (110, 10); (114, 13); (116, 9)].

(** One item of a double-quoted literal: its text and, if it has one, the code
    units it stands for ([None] for a \u or \U escape that is not a scalar value). *)
Inductive dq_item : list Z -> option (list Z) -> Prop :=
| it_plain c : c <> 34 -> c <> 92 -> dq_item [c] (Some [c])
| it_simple e v : In (e, v) escapes -> dq_item [92; e] (Some [v])
| it_u ds cp bs : List.length ds = 4%nat -> hex_num ds cp -> utf8_of cp bs -> dq_item (92 :: 117 :: ds) (Some bs)
| it_U ds cp bs : List.length ds = 8%nat -> hex_num ds cp -> utf8_of cp bs -> dq_item (92 :: 85 :: ds) (Some bs)
| it_u_bad ds cp : List.length ds = 4%nat -> hex_num ds cp -> ~ scalar cp -> dq_item (92 :: 117 :: ds) None
| it_U_bad ds cp : List.length ds = 8%nat -> hex_num ds cp -> ~ scalar cp -> dq_item (92 :: 85 :: ds) None.

(** The inside of a double-quoted literal, well formed ... *)
Inductive dq_body : list Z -> Prop :=
| db_nil : dq_body []
| db_cons i v t : dq_item i v -> dq_body t -> dq_body (i ++ t).
(** ... and the bytes it denotes. *)
Inductive dq_denotes : list Z -> list Z -> Prop :=
| dd_nil : dq_denotes [] []
| dd_cons i v t w : dq_item i (Some v) -> dq_denotes t w -> dq_denotes (i ++ t) (v ++ w).

(** Datashape literals: either quote, \' also allowed, no \U. *)
Inductive ds_item (q : Z) : list Z -> list Z -> Prop :=
| ds_plain c : c <> q -> c <> 92 -> ds_item q [c] [c]
| ds_simple e v : In (e, v) ((39, 39) :: escapes) -> ds_item q [92; e] [v]
| ds_u ds cp bs : List.length ds = 4%nat -> hex_num ds cp -> utf8_of cp bs -> ds_item q (92 :: 117 :: ds) bs.
Inductive ds_denotes (q : Z) : list Z -> list Z -> Prop :=
| dsd_nil : ds_denotes q [] []
| dsd_cons i v t w : ds_item q i v -> ds_denotes q t w -> ds_denotes q (i ++ t) (v ++ w).

(** Missing-value words. *)
Definition na_word (s : list Z) : Prop := s = [] \/ s = codes "NA"%string \/ fold_case s = codes "null"%string \/ s = codes "None"%string.
