(** Common vocabulary of the model: outcomes of C++ calls, machine integers.
    Nothing here models a particular libdynd function. *)
From Coq Require Export List ZArith Lia Bool String.
From Coq Require Export ZifyBool ZifyNat ZifyN.
Export ListNotations.
(* no on-disk caches: every build starts from the same state *)
#[export] Unset Lia Cache.
#[export] Unset Nia Cache.
Open Scope Z_scope.

(** The result of running a piece of C++ code:
    [Ok a]      it returns [a];
    [Throw e]   it throws the C++ exception called [e];
    [UB]        it executes undefined behaviour (signed overflow, out-of-bounds
                access, null dereference, ...);
    [NoFuel]    the model's recursion bound was exhausted (every theorem about
                a fuelled function excludes this outcome). *)
Inductive outcome (A : Type) : Type :=
| Ok (a : A)
| Throw (e : string)
| UB
| NoFuel.
Arguments Ok {A} a.
Arguments Throw {A} e.
Arguments UB {A}.
Arguments NoFuel {A}.

Definition bind {A B} (x : outcome A) (f : A -> outcome B) : outcome B :=
  match x with
  | Ok a => f a
  | Throw e => Throw e
  | UB => UB
  | NoFuel => NoFuel
  end.
Notation "'do' x <- e ; f" := (bind e (fun x => f))
  (at level 200, x pattern, e at level 100, f at level 200).

(** 64-bit signed integers: [intptr_t], [ptrdiff_t], [int64_t] on LP64. *)
Definition INT64_MIN : Z := - 2 ^ 63.
Definition INT64_MAX : Z := 2 ^ 63 - 1.
Definition s64 (x : Z) : Prop := - 2 ^ 63 <= x <= 2 ^ 63 - 1.
Definition is_s64 (x : Z) : bool := (INT64_MIN <=? x) && (x <=? INT64_MAX).

(** Signed 64-bit arithmetic: overflow is undefined behaviour. *)
Definition chk64 (x : Z) : outcome Z := if is_s64 x then Ok x else UB.
Definition add64 (a b : Z) : outcome Z := chk64 (a + b).
Definition sub64 (a b : Z) : outcome Z := chk64 (a - b).
Definition mul64 (a b : Z) : outcome Z := chk64 (a * b).
Definition neg64 (a : Z) : outcome Z := chk64 (- a).
(** C++ integer division truncates towards zero; dividing by zero is UB. *)
Definition div64 (a b : Z) : outcome Z := if b =? 0 then UB else chk64 (Z.quot a b).

(** Unsigned machine words: arithmetic is modulo 2^w. *)
Definition wrap (w : Z) (x : Z) : Z := x mod 2 ^ w.
Definition u8 (x : Z) : Z := x mod 256.
Definition u16 (x : Z) : Z := x mod 65536.
Definition u32 (x : Z) : Z := x mod 4294967296.
Definition u64 (x : Z) : Z := x mod 18446744073709551616.
(** Reinterpretation of the low [w] bits as a two's complement number
    (conversion to a signed type: implementation defined before C++20, this is
    what every supported compiler does). *)
Definition to_signed (w : Z) (x : Z) : Z :=
  let y := x mod 2 ^ w in if y <? 2 ^ (w - 1) then y else y - 2 ^ w.

Lemma chk64_ok x : s64 x -> chk64 x = Ok x.
Proof.
  unfold chk64, is_s64, s64, INT64_MIN, INT64_MAX; intros H.
  destruct (Z.leb_spec (- 2 ^ 63) x); destruct (Z.leb_spec x (2 ^ 63 - 1)); cbn; try reflexivity; lia.
Qed.

Lemma chk64_ub x : ~ s64 x -> chk64 x = UB.
Proof.
  unfold chk64, is_s64, s64, INT64_MIN, INT64_MAX; intros H.
  destruct (Z.leb_spec (- 2 ^ 63) x); destruct (Z.leb_spec x (2 ^ 63 - 1)); cbn; try reflexivity; lia.
Qed.

Lemma add64_ok a b : s64 (a + b) -> add64 a b = Ok (a + b).
Proof. exact (chk64_ok (a + b)). Qed.
Lemma sub64_ok a b : s64 (a - b) -> sub64 a b = Ok (a - b).
Proof. exact (chk64_ok (a - b)). Qed.
Lemma mul64_ok a b : s64 (a * b) -> mul64 a b = Ok (a * b).
Proof. exact (chk64_ok (a * b)). Qed.
Lemma neg64_ok a : s64 (- a) -> neg64 a = Ok (- a).
Proof. exact (chk64_ok (- a)). Qed.

Lemma Forall2_length {A B} {R : A -> B -> Prop} {l1 l2} :
  Forall2 R l1 l2 -> List.length l1 = List.length l2.
Proof. induction 1; cbn; congruence. Qed.

(** Bit-level facts used by several models. *)
Lemma lor_disjoint a b k : 0 <= k -> 0 <= b < 2 ^ k -> Z.lor (a * 2 ^ k) b = a * 2 ^ k + b.
Proof.
  intros Hk Hb.
  assert (H : Z.land (a * 2 ^ k) b = 0).
  { apply Z.bits_inj'; intros n Hn. rewrite Z.land_spec, Z.bits_0.
    destruct (Z.ltb_spec n k).
    - rewrite Z.mul_pow2_bits_low by lia. reflexivity.
    - destruct (Z.eq_dec b 0) as [->|Hb0]; [rewrite Z.bits_0; apply andb_false_r|].
      rewrite (Z.bits_above_log2 b n), andb_false_r; auto; try lia.
      assert (Z.log2 b < k) by (apply Z.log2_lt_pow2; lia). lia. }
  rewrite Z.add_nocarry_lxor by exact H. now rewrite Z.lxor_lor by exact H.
Qed.

Lemma land_mask x k : 0 <= k -> Z.land x (2 ^ k - 1) = x mod 2 ^ k.
Proof. intros. rewrite <- Z.land_ones by lia. f_equal. rewrite Z.ones_equiv. lia. Qed.

(** Extracting a bit field in place: [x & (ones(w) << k)]. *)
Lemma land_field x k w : 0 <= k -> 0 <= w ->
  Z.land x ((2 ^ w - 1) * 2 ^ k) = (x / 2 ^ k) mod 2 ^ w * 2 ^ k.
Proof.
  intros Hk Hw. rewrite <- land_mask by lia.
  rewrite <- !Z.shiftl_mul_pow2, <- Z.shiftr_div_pow2 by lia.
  apply Z.bits_inj'; intros n Hn. rewrite Z.land_spec, !Z.shiftl_spec by lia.
  destruct (Z.ltb_spec n k).
  - rewrite !(Z.testbit_neg_r _ (n - k)) by lia. apply andb_false_r.
  - rewrite Z.land_spec, Z.shiftr_spec by lia. f_equal. f_equal. lia.
Qed.
