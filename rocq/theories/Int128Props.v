(** C32-C34, C44: 128-bit integers.  [wf a] says both words are 64-bit words;
    [uval]/[sval] are the unsigned/signed value (Int128Spec). *)
From Verif Require Import Base Int128Model Int128Spec Int128Proofs.
Local Notation u a := (uval (hi a) (lo a)).
Local Notation s a := (sval (hi a) (lo a)).

(** C32: what is right for all inputs ... *)
Theorem C32_uint_add_partial : forall a b, wf a -> wf b ->
  wf (u_add a b) /\ u (u_add a b) = (u a + u b) mod 2 ^ 128.
Proof. exact u_add_ok. Qed.
Print Assumptions C32_uint_add_partial.
Theorem C32_uint_add_word_partial : forall a r, wf a -> 0 <= r < 2 ^ 64 ->
  wf (u_add64 a r) /\ u (u_add64 a r) = (u a + r) mod 2 ^ 128.
Proof. exact u_add64_ok. Qed.
Print Assumptions C32_uint_add_word_partial.
Theorem C32_uint_mul_partial : forall a r, wf a -> 0 <= r < 2 ^ 32 ->
  wf (u_mul32 a r) /\ u (u_mul32 a r) = (u a * r) mod 2 ^ 128.
Proof. exact u_mul32_ok. Qed.
Print Assumptions C32_uint_mul_partial.
Theorem C32_uint_divrem_partial : forall a r, wf a -> 0 < r < 2 ^ 32 ->
  exists q m, u_divrem a r = Ok (q, m) /\ wf q /\ u q = u a / r /\ m = u a mod r.
Proof. exact u_divrem_ok. Qed.
Print Assumptions C32_uint_divrem_partial.
Theorem C32_uint_div_partial : forall a r, wf a -> 0 < r < 2 ^ 32 ->
  exists q, u_div32 a r = Ok q /\ wf q /\ u q = u a / r.
Proof. exact u_div32_ok. Qed.
Print Assumptions C32_uint_div_partial.
Theorem C32_uint_complement_partial : forall a, wf a ->
  wf (u_compl a) /\ u (u_compl a) = 2 ^ 128 - 1 - u a.
Proof. exact u_compl_ok. Qed.
Print Assumptions C32_uint_complement_partial.
Theorem C32_int_add_partial : forall a b, wf a -> wf b ->
  wf (i_add a b) /\ s (i_add a b) = signed128 (s a + s b).
Proof. exact i_add_ok. Qed.
Print Assumptions C32_int_add_partial.
Theorem C32_int_neg_partial : forall a, wf a -> s (i_neg a) = signed128 (- s a).
Proof. exact i_neg_signed. Qed.
Print Assumptions C32_int_neg_partial.
Theorem C32_int_mul_partial : forall a r fuel, wf a -> 0 <= r < 2 ^ 32 ->
  s a <> - 2 ^ 127 -> (2 <= fuel)%nat ->
  exists p, i_mul32 fuel a r = Ok p /\ wf p /\ s p = signed128 (s a * r).
Proof. exact i_mul32_ok. Qed.
Print Assumptions C32_int_mul_partial.

(** ... and exactly where it is wrong: *)
(** a - b is right iff the low word of b is nonzero. *)
Theorem C32_uint_sub_exact_domain : forall a b, wf a -> wf b ->
  (u (u_sub a b) = (u a - u b) mod 2 ^ 128 <-> lo b <> 0).
Proof. exact u_sub_iff. Qed.
Print Assumptions C32_uint_sub_exact_domain.
Theorem C32_uint_sub_word_exact_domain : forall a r, wf a -> 0 <= r < 2 ^ 64 ->
  (u (u_sub64 a r) = (u a - r) mod 2 ^ 128 <-> r <> 0).
Proof. exact u_sub64_iff. Qed.
Print Assumptions C32_uint_sub_word_exact_domain.
Theorem C32_int_sub_exact_domain : forall a b, wf a -> wf b ->
  (s (i_sub a b) = signed128 (s a - s b) <-> lo b <> 0).
Proof. exact i_sub_iff. Qed.
Print Assumptions C32_int_sub_exact_domain.
Theorem C32_uint_neg_exact_domain : forall a, wf a ->
  (u (u_neg a) = (- u a) mod 2 ^ 128 <-> lo a = 0 \/ hi a = 2 ^ 64 - 1).
Proof. exact u_neg_iff. Qed.
Print Assumptions C32_uint_neg_exact_domain.
(** operator! on uint128 is right only for nonzero values with one zero word. *)
Theorem C32_uint_not_exact_domain : forall a, wf a ->
  (u_not a = (u a =? 0) <-> u a <> 0 /\ (hi a = 0 \/ lo a = 0)).
Proof. exact u_not_iff. Qed.
Print Assumptions C32_uint_not_exact_domain.
(** int128 += never computes the sum. *)
Theorem C32_int_add_assign_never_right : forall a b, wf a -> wf b ->
  s (i_add_assign a b) <> signed128 (s a + s b).
Proof. exact i_add_assign_never. Qed.
Print Assumptions C32_int_add_assign_never_right.
(** multiplying the minimum value recurses forever. *)
Theorem C32_int_mul_min_diverges : forall r fuel, i_mul32 fuel (W (2 ^ 63) 0) r = NoFuel.
Proof. exact i_mul32_min_diverges. Qed.
Print Assumptions C32_int_mul_min_diverges.
Theorem C32_refuted : exists a b, wf a /\ wf b /\
  u (u_sub a b) <> (u a - u b) mod 2 ^ 128.
Proof. exists (W 5 7), (W 1 0). unfold wf; cbn; repeat split; lia. Qed.
Print Assumptions C32_refuted.
Example C32_case : wf (W 3 (2 ^ 64 - 1)) /\ u_add (W 3 (2 ^ 64 - 1)) (W 4 2) = W 8 1.
Proof. unfold wf; cbn; split; [lia | reflexivity]. Qed.

(** C33 *)
Theorem C33_uint_order : forall a b, wf a -> wf b ->
  (u_eq a b = true <-> u a = u b) /\ (u_neq a b = true <-> u a <> u b) /\
  (u_lt a b = true <-> u a < u b) /\ (u_le a b = true <-> u a <= u b) /\
  (u_gt a b = true <-> u a > u b) /\ (u_ge a b = true <-> u a >= u b).
Proof. exact cmp_ok. Qed.
Print Assumptions C33_uint_order.
Theorem C33_int_order : forall a b, wf a -> wf b ->
  (i_eq a b = true <-> s a = s b) /\
  (i_lt a b = true <-> s a < s b) /\ (i_le a b = true <-> s a <= s b) /\
  (i_gt a b = true <-> s a > s b) /\ (i_ge a b = true <-> s a >= s b).
Proof. exact icmp_ok. Qed.
Print Assumptions C33_int_order.
Example C33_case : i_lt (W (2 ^ 64 - 1) 5) (W 0 1) = true /\ u_lt (W (2 ^ 64 - 1) 5) (W 0 1) = false.
Proof. split; reflexivity. Qed.

(** C34 *)
Theorem C34_uint_print : forall a, wf a -> exists t, u_print a = Ok t /\ is_decimal (u a) t.
Proof. exact u_print_ok. Qed.
Print Assumptions C34_uint_print.
Theorem C34_int_print : forall a, wf a -> exists t,
  (0 <= s a -> i_print a = Ok t /\ is_decimal (s a) t) /\
  (s a < 0 -> i_print a = Ok (45 :: t) /\ is_decimal (- s a) t).
Proof. exact i_print_ok. Qed.
Print Assumptions C34_int_print.
Example C34_case : i_print (W (2 ^ 63) 0) =
  Ok (45 :: map (fun d => d + 48)
    [1;7;0;1;4;1;1;8;3;4;6;0;4;6;9;2;3;1;7;3;1;6;8;7;3;0;3;7;1;5;8;8;4;1;0;5;7;2;8]).
Proof. reflexivity. Qed.

(** C44: conversions from and to machine numbers. *)
Theorem C44_int_from_machine_integer : forall v, - 2 ^ 63 <= v < 2 ^ 64 ->
  wf (i_of_int v) /\ s (i_of_int v) = v.
Proof. exact i_of_int_ok. Qed.
Print Assumptions C44_int_from_machine_integer.
Theorem C44_uint_from_machine_integer_exact_domain : forall v, - 2 ^ 63 <= v < 2 ^ 64 ->
  wf (u_of_int v) /\ (u (u_of_int v) = v mod 2 ^ 128 <-> 0 <= v).
Proof. exact u_of_int_iff. Qed.
Print Assumptions C44_uint_from_machine_integer_exact_domain.
(** For every monotone rounding the conversion of a negative int128 to a
    floating point number is non-negative: the sign is lost. *)
Theorem C44_int_to_double_sign_refuted : forall rnd a, wf a -> s a < 0 ->
  (forall x y, x <= y -> rnd x <= rnd y) -> rnd 0 = 0 -> ~ (i_to_double rnd a < 0).
Proof. exact (fun rnd a Ha _ Hm H0 H => Zlt_not_le _ _ H (i_to_double_nonneg rnd a Ha Hm H0)). Qed.
Print Assumptions C44_int_to_double_sign_refuted.
Example C44_case : i_to_double (fun x => x) (i_of_int (-3)) = 3 /\ s (i_of_int (-3)) = -3.
Proof. split; reflexivity. Qed.
