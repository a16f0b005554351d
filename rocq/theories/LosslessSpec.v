(** The values of a type, independently of is_lossless_assignment.  Only the
    names of the types are taken from the models. *)
From Verif Require Import Base TypesModel MatchModel.
Open Scope Z_scope.

(** Extended real numbers: NaN, the infinities and the multiples of 2^-16494,
    the smallest positive quadruple precision number. *)
Inductive xreal := NaN | Inf (neg : bool) | Units (z : Z).
Definition unit1 : Z := 2 ^ 16494.
Definition integer (z : Z) : xreal := Units (z * unit1).

(** The binary floating point format with precision [p] and exponents from
    [lo] to [hi]: the numbers m * 2^e with m < 2^p. *)
Definition is_binary (p lo hi : Z) (x : xreal) : Prop :=
  match x with
  | Units z => exists m e, Z.abs z = m * 2 ^ (e + 16494) /\ 0 <= m < 2 ^ p /\ lo <= e <= hi
  | _ => True
  end.
(** IEEE 754 binary16, binary32, binary64, binary128. *)
Definition binary16 := is_binary 11 (-24) 5.
Definition binary32 := is_binary 24 (-149) 104.
Definition binary64 := is_binary 53 (-1074) 971.
Definition binary128 := is_binary 113 (-16494) 16271.

Definition zero : xreal := Units 0.
Definition is_integer (lo hi : Z) (re im : xreal) : Prop := exists z, lo <= z <= hi /\ re = integer z /\ im = zero.
(** The numbers (real part, imaginary part) of a builtin type. *)
Definition number_of (b : builtin) (re im : xreal) : Prop :=
  match b with
  | bool_ => is_integer 0 1 re im
  | int8 => is_integer (- 2 ^ 7) (2 ^ 7 - 1) re im
  | int16 => is_integer (- 2 ^ 15) (2 ^ 15 - 1) re im
  | int32 => is_integer (- 2 ^ 31) (2 ^ 31 - 1) re im
  | int64 => is_integer (- 2 ^ 63) (2 ^ 63 - 1) re im
  | int128 => is_integer (- 2 ^ 127) (2 ^ 127 - 1) re im
  | uint8 => is_integer 0 (2 ^ 8 - 1) re im
  | uint16 => is_integer 0 (2 ^ 16 - 1) re im
  | uint32 => is_integer 0 (2 ^ 32 - 1) re im
  | uint64 => is_integer 0 (2 ^ 64 - 1) re im
  | uint128 => is_integer 0 (2 ^ 128 - 1) re im
  | float16 => binary16 re /\ im = zero
  | float32 => binary32 re /\ im = zero
  | float64 => binary64 re /\ im = zero
  | float128 => binary128 re /\ im = zero
  | complex_float32 => binary32 re /\ binary32 im
  | complex_float64 => binary64 re /\ binary64 im
  | uninitialized | void => False
  end.
Definition numeric (b : builtin) : bool := match b with uninitialized | void => false | _ => true end.

(** Values: numbers, the missing value, byte strings, texts, sequences, and
    anything else. *)
Inductive value := VNum (re im : xreal) | VNA | VBytes (l : list Z) | VText (l : list Z) | VSeq (l : list value) | VOther (n : Z).

(** The values a type can hold.  A pointer holds what its target does; an
    option also holds the missing value; a pattern holds nothing. *)
Fixpoint holds (t : ty) (v : value) {struct t} : Prop :=
  let all := fix all (ts : list ty) (vs : list value) : Prop :=
               match ts, vs with
               | [], [] => True
               | t :: ts', v :: vs' => holds t v /\ all ts' vs'
               | _, _ => False
               end in
  match t, v with
  | TBuiltin b, VNum re im => number_of b re im
  | TLeaf (LBytes _), VBytes _ => True
  | TLeaf (LFixedBytes n _), VBytes l => Z.of_nat (List.length l) = n
  | TLeaf (LString | LFixedString _ _ | LChar _), VText _ => True
  | TLeaf (LOther _), VOther _ => True
  | TOption _, VNA => True
  | TOption t, v => holds t v
  | TPointer t, v => holds t v
  | TFixedDim n e, VSeq l => Z.of_nat (List.length l) = n /\ Forall (holds e) l
  | TVarDim e, VSeq l => Forall (holds e) l
  | (TTuple ts _ | TStruct _ ts _), VSeq vs => all ts vs
  | TCallable _ _ _, VOther _ => True
  | _, _ => False
  end.

(** The destination can represent all the values of the source. *)
Definition holds_all_of (dst src : ty) : Prop := forall v, holds src v -> holds dst v.

(** The missing value can occur: there is an option above the data, possibly
    behind pointers. *)
Fixpoint can_be_missing (t : ty) : bool :=
  match t with TOption _ => true | TPointer t => can_be_missing t | _ => false end.
(** What is left without pointers and options. *)
Fixpoint core (t : ty) : ty := match t with TOption t | TPointer t => core t | _ => t end.
(** The types whose text needs decoding, and the patterns that stand for many types. *)
Definition never_lossless (t : ty) : bool :=
  match t with
  | TLeaf (LString | LFixedString _ _ | LChar _) | TAny | TFixedDimKind _ | TPow _ _ _ | TDimFragment _
  | TKind KFixedBytes | TKind KFixedString => true
  | _ => false
  end.
