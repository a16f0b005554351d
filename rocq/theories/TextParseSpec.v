(** Specification for C132-C137: what a text means to nd::json::parse.
    Independent of the code (only the types and values come from the model). *)
From Coq Require Import List ZArith String.
From Verif Require Import ScanSpec EscapeSpec ParseIntSpec JsonModel JsonSpec TextParseModel.
Import ListNotations.
Open Scope Z_scope.

(** [x] with whitespace around it. *)
Definition around (M : meaning) (t : list Z) (v : jval) : Prop :=
  exists w x w', Forall space_c w /\ Forall space_c w' /\ t = w ++ x ++ w' /\ M x v.

(** A JSON number that is an integer [i], written with at most zeros after the
    point or an exponent below 100 ([number]); a minus sign only for signed types. *)
Definition writes_int (sgn : bool) (x : list Z) (i : Z) : Prop :=
  json_number x /\ exists (neg : bool) s n, x = (if neg then 45 :: s else s) /\ number s n /\
    i = (if neg then - n else n) /\ (neg = true -> sgn = true).
Definition int_text (sgn : bool) (W : Z) : meaning := fun x v => exists i, writes_int sgn x i /\ in_range sgn W i /\ v = VInt i.
(** A string literal and what it denotes (EscapeSpec). *)
Definition str_text : meaning := fun x v => exists b w, x = quoted b /\ dq_denotes b w /\ v = VStr w.

(** The stored value that stands for missing, for the types that have one. *)
Inductive stands_missing : psc -> jval -> Prop :=
| sm_bool : stands_missing SBool (VBool 2)
| sm_int W : stands_missing (SInt true W) (VInt (- 2 ^ (W - 1)))
| sm_uint32 : stands_missing (SInt false 32) (VInt (2 ^ 32 - 1))
| sm_string : stands_missing SString (VStr []).

(** Sizes of integers. *)
Definition sized (s : psc) : Prop := match s with SInt _ W => W = 8 \/ W = 16 \/ W = 32 \/ W = 64 | _ => True end.

(** The same type for the other JSON parser (JsonModel). *)
Inductive same_type : pty -> jty -> Prop :=
| st_bool : same_type (PScalar SBool) JBool
| st_int sgn W : same_type (PScalar (SInt sgn W)) (JInt sgn W)
| st_string : same_type (PScalar SString) JString
| st_opt_bool : same_type (POption SBool) JOptBool
| st_opt_int W : same_type (POption (SInt true W)) (JOptInt W)
| st_opt_string : same_type (POption SString) JOptString.
