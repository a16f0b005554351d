(** Model of dynd::uint128 / dynd::int128 (the portable implementation, used
    because the build never defines DYND_HAS_INT128 / DYND_HAS_UINT128:
    include/dynd/config.hpp:617-630). *)
From Verif Require Import Base.

(** include/dynd/uint128.hpp:21-26, int128.hpp:16-21 — two 64-bit words. *)
Record w128 := W { hi : Z; lo : Z }.

(** [~x] on uint64_t. *)
Definition not64 (x : Z) : Z := 2 ^ 64 - 1 - x.
(** bool converted to uint64_t. *)
Definition b2z (b : bool) : Z := if b then 1 else 0.
(** (int64_t)x *)
Definition s64_of (x : Z) : Z := if x <? 2 ^ 63 then x else x - 2 ^ 64.

(** ** uint128 *)
(** uint128.hpp:31-41 — construction from a (possibly negative) machine
    integer [v]: m_lo(value) converts modulo 2^64, m_hi is always 0. *)
Definition u_of_int (v : Z) : w128 := W 0 (u64 v).
(** uint128.hpp:48,73 *)
Definition u_eq (a b : w128) : bool := (hi a =? hi b) && (lo a =? lo b).
Definition u_neq (a b : w128) : bool := negb (hi a =? hi b) || negb (lo a =? lo b).
(** uint128.hpp:56-67 — unary minus: note the logical negation [!m_hi]. *)
Definition u_neg (a : w128) : w128 :=
  if negb (lo a =? 0)
  then W (b2z (hi a =? 0)) (u64 (- lo a))
  else W (u64 (- hi a)) 0.
(** uint128.hpp:69 — operator! *)
Definition u_not (a : w128) : bool := negb (hi a =? 0) && negb (lo a =? 0).
(** uint128.hpp:71 — operator~ *)
Definition u_compl (a : w128) : w128 := W (not64 (hi a)) (not64 (lo a)).
(** uint128.hpp:85-91 *)
Definition u_lt (a b : w128) : bool := (hi a <? hi b) || ((hi a =? hi b) && (lo a <? lo b)).
Definition u_le (a b : w128) : bool := (hi a <? hi b) || ((hi a =? hi b) && (lo a <=? lo b)).
Definition u_gt (a b : w128) : bool := u_lt b a.
Definition u_ge (a b : w128) : bool := u_le b a.
(** uint128.hpp:93-97 *)
Definition u_add (a b : w128) : w128 :=
  let l := u64 (lo a + lo b) in
  W (u64 (hi a + hi b + b2z (l <? lo a))) l.
(** uint128.hpp:99-109 — the uint64_t and uint32_t overloads. *)
Definition u_add64 (a : w128) (r : Z) : w128 :=
  let l := u64 (lo a + r) in W (u64 (hi a + b2z (l <? lo a))) l.
(** uint128.hpp:111-115 *)
Definition u_sub (a b : w128) : w128 :=
  let l := u64 (lo a + not64 (lo b) + 1) in
  W (u64 (hi a + not64 (hi b) + b2z (l <? lo a))) l.
(** uint128.hpp:117-121 *)
Definition u_sub64 (a : w128) (r : Z) : w128 :=
  let l := u64 (lo a + not64 r + 1) in
  W (u64 (hi a + 18446744073709551615 + b2z (l <? lo a))) l.
(** src/dynd/uint128.cpp:73-84 — operator*(uint32_t).
    [x & 0xffffffff] is written [x mod 2^32] and [(x & 0xffffffff00000000) >> 32]
    is written [x / 2^32] (identities on 64-bit words). *)
Definition u_mul32 (a : w128) (r : Z) : w128 :=
  let lo_partial := u64 ((lo a mod 2 ^ 32) * r) in
  let tmp := u64 ((lo a / 2 ^ 32) * r) in
  let l := u64 (lo_partial + u64 (tmp * 2 ^ 32)) in
  let h := u64 (tmp / 2 ^ 32 + b2z (l <? lo_partial)) in
  W (u64 (h + u64 (hi a * r))) l.
(** src/dynd/uint128.cpp:105-121 — divrem; returns (quotient, remainder).
    Division by zero is undefined behaviour. *)
Definition u_divrem (a : w128) (r : Z) : outcome (w128 * Z) :=
  if r =? 0 then UB else
  let hi_div := hi a / r in
  let hi_rem := hi a mod r in
  let mid_val := Z.lor (u64 (hi_rem * 2 ^ 32)) (lo a / 2 ^ 32) in
  let mid_div := mid_val / r in
  let mid_rem := mid_val mod r in
  let low_val := Z.lor (u64 (mid_rem * 2 ^ 32)) (lo a mod 2 ^ 32) in
  let low_div := low_val / r in
  Ok (W hi_div (Z.lor (u64 (mid_div * 2 ^ 32)) low_div), low_val mod r).
(** src/dynd/uint128.cpp:87-103 — operator/(uint32_t): the same computation
    without the remainder. *)
Definition u_div32 (a : w128) (r : Z) : outcome w128 :=
  do qr <- u_divrem a r; Ok (fst qr).

(** src/dynd/uint128.cpp:123-138 — operator<<.  [buf] is the part of the
    40-character buffer already filled (right to left), [idx] the next free
    position; writing below position 0 is undefined behaviour. *)
Fixpoint u_print_loop (fuel : nat) (tmp : w128) (idx : Z) (buf : list Z) : outcome (list Z) :=
  match fuel with
  | O => NoFuel
  | S fuel' =>
      do qd <- u_divrem tmp 10;
      let '(q, digit) := qd in
      if idx <? 0 then UB else
      let buf' := (digit + 48) :: buf in
      if u_neq q (W 0 0) then u_print_loop fuel' q (idx - 1) buf' else Ok buf'
  end.
Definition u_print (a : w128) : outcome (list Z) :=
  if u_eq a (W 0 0) then Ok [48] else u_print_loop 40 a 39 [].

(** ** int128 *)
(** int128.hpp:26-38 — construction from a machine integer. *)
Definition i_of_int (v : Z) : w128 := W (if v <? 0 then 18446744073709551615 else 0) (u64 v).
(** int128.hpp:54 *)
Definition i_eq (a b : w128) : bool := (lo a =? lo b) && (hi a =? hi b).
(** int128.hpp:52 — operator! *)
Definition i_not (a : w128) : bool := (hi a =? 0) && (lo a =? 0).
(** int128.hpp:72-84 *)
Definition i_lt (a b : w128) : bool :=
  (s64_of (hi a) <? s64_of (hi b)) || ((hi a =? hi b) && (lo a <? lo b)).
Definition i_le (a b : w128) : bool :=
  (s64_of (hi a) <? s64_of (hi b)) || ((hi a =? hi b) && (lo a <=? lo b)).
Definition i_gt (a b : w128) : bool := i_lt b a.
Definition i_ge (a b : w128) : bool := i_le b a.
(** int128.hpp:88-95 and 105-111 — negate / unary minus. *)
Definition i_neg (a : w128) : w128 :=
  let l := not64 (lo a) in let h := not64 (hi a) in
  let l1 := u64 (l + 1) in W (u64 (h + b2z (l1 <? l))) l1.
(** int128.hpp:97-103 — operator+=; note [~rhs.m_hi]. *)
Definition i_add_assign (a b : w128) : w128 :=
  let l := u64 (lo a + lo b) in
  W (u64 (hi a + not64 (hi b) + b2z (l <? lo a))) l.
(** int128.hpp:113-123 *)
Definition i_add (a b : w128) : w128 := u_add a b.
Definition i_sub (a b : w128) : w128 := u_sub a b.
(** src/dynd/int128.cpp:75-93 — operator*(uint32_t); recursive on the negation. *)
Fixpoint i_mul32 (fuel : nat) (a : w128) (r : Z) : outcome w128 :=
  match fuel with
  | O => NoFuel
  | S fuel' =>
      if s64_of (hi a) <? 0
      then do p <- i_mul32 fuel' (i_neg a) r; Ok (i_neg p)
      else Ok (u_mul32 a r)
  end.
(** src/dynd/int128.cpp:117-127 — operator<<; characters are ASCII codes. *)
Definition i_print (a : w128) : outcome (list Z) :=
  if i_lt a (i_of_int 0)
  then do s <- u_print (i_neg a); Ok (45 :: s)
  else u_print a.
(** int128.hpp:130-150 — conversion to float/double.  Floating point rounding
    is abstract: [rnd] rounds an (integral) exact result; the products and the
    sum are rounded. *)
Definition u_to_double (rnd : Z -> Z) (a : w128) : Z :=
  rnd (rnd (lo a) + rnd (rnd (hi a) * 2 ^ 64)).
Definition i_to_double (rnd : Z -> Z) (a : w128) : Z :=
  if i_lt a (i_of_int 0) then u_to_double rnd (i_neg a) else u_to_double rnd a.
