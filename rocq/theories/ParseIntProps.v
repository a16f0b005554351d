(** C14-C16, C45: integers from text.  [number s n] (ParseIntSpec): the text is a
    decimal number denoting [n]; bytes of a text are its character codes. *)
From Verif Require Import Base ParseIntModel ParseIntSpec ParseIntProofs.

(** C14.  Every in-range number is parsed to its exact value ... *)
Theorem C14_uint_in_range_exact_partial : forall W s n, 0 <= W -> number s n -> n < 2 ^ W -> parse_u W s = Ok n.
Proof. exact parse_u_complete. Qed.
Print Assumptions C14_uint_in_range_exact_partial.
(** ... a returned value comes from a number and is that number modulo 2^W ... *)
Theorem C14_uint_returns_only_numbers_partial : forall W s v, 0 <= W -> parse_u W s = Ok v ->
  exists n, number s n /\ v = n mod 2 ^ W.
Proof. exact parse_u_sound. Qed.
Print Assumptions C14_uint_returns_only_numbers_partial.
(** ... anything that is not a number throws ... *)
Theorem C14_uint_nonnumber_throws : forall W s, 0 <= W -> (forall n, ~ number s n) -> exists e, parse_u W s = Throw e.
Proof.
  intros W s HW H. destruct (parse_u_total W s) as [[v Hv]|]; auto.
  destruct (parse_u_sound W s v HW Hv) as (n & Hn & _). exfalso; eapply H; eauto.
Qed.
Print Assumptions C14_uint_nonnumber_throws.
(** ... and an overflow is reported when the wrapped result of the first
    overflowing digit is below the previous partial result. *)
Theorem C14_uint_overflow_detected_partial : forall W ds c rest, 0 <= W -> Forall digit ds -> digit c ->
  dec ds < 2 ^ W -> 2 ^ W <= 10 * dec ds + (c - 48) < 2 ^ W + dec ds ->
  parse_u W (ds ++ c :: rest) = Throw "out_of_range".
Proof. exact parse_u_overflow. Qed.
Print Assumptions C14_uint_overflow_detected_partial.
Theorem C14_uint_exponent_overflow_detected_partial : forall W ds e es j, 0 <= W -> Forall digit ds -> e = 101 \/ e = 69 ->
  Forall digit es -> es <> [] -> Z.of_nat j < dec es < 100 ->
  dec ds * 10 ^ Z.of_nat j < 2 ^ W ->
  2 ^ W <= dec ds * 10 ^ Z.of_nat (S j) < 2 ^ W + dec ds * 10 ^ Z.of_nat j ->
  parse_u W (ds ++ e :: es) = Throw "out_of_range".
Proof. exact parse_u_exp_overflow. Qed.
Print Assumptions C14_uint_exponent_overflow_detected_partial.
(** The full claim (throw on every overflow) is false: "300" as uint8,
    "30000000000000000000" as uint64; and "." or "e5" pass for 0. *)
Theorem C14_uint_overflow_refuted :
  (exists s n, number s n /\ 2 ^ 8 <= n /\ parse_u 8 s = Ok 44) /\
  (exists s n, number s n /\ 2 ^ 64 <= n /\ parse_u 64 s = Ok 11553255926290448384) /\
  parse_u 32 [46] = Ok 0 /\ parse_u 32 [101; 53] = Ok 0.
Proof.
  assert (D : forall l, forallb is_digit l = true -> Forall digit l).
  { intros l H. apply Forall_forall. intros x Hx. apply is_digit_iff. rewrite forallb_forall in H. auto. }
  split; [|split; [|split; reflexivity]].
  - exists [51; 48; 48], 300. split; [|split; [lia|reflexivity]]. apply (num_plain [51; 48; 48]); [apply D; reflexivity|discriminate].
  - exists (51 :: repeat 48 19), 30000000000000000000. split; [|split; [lia|reflexivity]].
    apply (num_plain (51 :: repeat 48 19)); [apply D; reflexivity|discriminate].
Qed.
Print Assumptions C14_uint_overflow_refuted.

(** C15: signed parsing, for every text whose digits denote less than 2^W. *)
Theorem C15_int_exact_partial : forall W (neg : bool) s n, 1 <= W -> number s n -> n < 2 ^ W ->
  parse_s W (if neg then 45 :: s else s) =
    if (if neg then n <=? 2 ^ (W - 1) else n <? 2 ^ (W - 1)) then Ok (if neg then - n else n) else Throw "overflow_error".
Proof. exact parse_s_exact. Qed.
Print Assumptions C15_int_exact_partial.
(** Whatever is returned is in the type's range and congruent to the text. *)
Theorem C15_int_sound_partial : forall W s v, 1 <= W -> parse_s W s = Ok v ->
  exists (neg : bool) t n, s = (if neg then 45 :: t else t) /\ number t n /\ in_range true W v /\
    (neg = false -> v = n mod 2 ^ W) /\ (neg = true -> v = - (n mod 2 ^ W)).
Proof. exact parse_s_sound. Qed.
Print Assumptions C15_int_sound_partial.
(** "-300" as int8 is accepted as -44. *)
Theorem C15_int_overflow_refuted : parse_s 8 [45; 51; 48; 48] = Ok (-44) /\ ~ in_range true 8 (-300).
Proof. split; [reflexivity|]. unfold in_range. lia. Qed.
Print Assumptions C15_int_overflow_refuted.

(** C16: string_to_number into an integer of [W] bits, checked mode. *)
Theorem C16_store_exact_or_throw_partial : forall sgn W (neg : bool) s n, 2 <= W <= 64 -> number s n -> n < 2 ^ 64 ->
  let v := if neg then - n else n in
  (in_range sgn W v -> (sgn = true -> W = 64 -> v <> - 2 ^ 63) ->
     string_to_number sgn W (if neg then 45 :: s else s) = Ok v) /\
  (~ in_range sgn W v -> string_to_number sgn W (if neg then 45 :: s else s) = Throw "overflow_error").
Proof. exact string_to_number_exact. Qed.
Print Assumptions C16_store_exact_or_throw_partial.
Theorem C16_missing_tokens : forall sgn W s, na_token s ->
  string_to_number sgn W s = if sgn then Ok (- 2 ^ (W - 1)) else Throw "type_error".
Proof. exact string_to_number_na. Qed.
Print Assumptions C16_missing_tokens.
Theorem C16_nonnumber_throws : forall sgn W s, ~ na_token s ->
  (forall (neg : bool) t n, s = (if neg then 45 :: t else t) -> ~ number t n) ->
  exists e, string_to_number sgn W s = Throw e.
Proof. exact string_to_number_reject. Qed.
Print Assumptions C16_nonnumber_throws.
(** Without error checking the digits are taken modulo 2^64. *)
Theorem C16_nocheck_wraps : forall W s n, 0 <= W -> number s n -> parse_u_nocheck W s = n mod 2 ^ W.
Proof. exact parse_u_nocheck_ok. Qed.
Print Assumptions C16_nocheck_wraps.
(** Refuted at the edges: an overflow of the intermediate uint64 can store a
    wrapped value, and the smallest int64 runs into signed overflow. *)
Theorem C16_edges_refuted :
  (* 3 * 10^19 stored in a uint64 *)
  string_to_number false 64 (51 :: repeat 48 19) = Ok 11553255926290448384 /\
  (* -9223372036854775808 stored in an int64 *)
  string_to_number true 64 [45;57;50;50;51;51;55;50;48;51;54;56;53;52;55;55;53;56;48;56] = UB.
Proof. split; reflexivity. Qed.
Print Assumptions C16_edges_refuted.

(** C45: is_overflow answers exactly whether the source value is outside the
    destination type, for all signedness and width combinations. *)
Theorem C45_is_overflow_exact : forall ds db ss sb src, 1 <= db -> 1 <= sb -> in_range ss sb src ->
  (is_overflow ds db ss sb src = true <-> ~ in_range ds db src).
Proof.
  intros ds db ss sb src H1 H2 H3. pose proof (is_overflow_ok ds db ss sb src H1 H2 ltac:(lia) H3) as H.
  destruct (is_overflow ds db ss sb src); split; intros X; try discriminate; auto.
  - intros Y. apply H in Y. discriminate.
  - exfalso. apply X. apply H. reflexivity.
Qed.
Print Assumptions C45_is_overflow_exact.

(** Instances: "12e+3", "7.00", "-128" as int8, "null". *)
Example C14_exp : parse_u 16 [49; 50; 101; 43; 51] = Ok 12000 /\ number [49; 50; 101; 43; 51] 12000.
Proof.
  split; [reflexivity|].
  apply (num_exp_plus [49; 50] 101 [51]); try (repeat constructor; unfold digit; lia); try discriminate; try (left; reflexivity).
Qed.
Example C14_frac : parse_u 8 [55; 46; 48; 48] = Ok 7.
Proof. reflexivity. Qed.
Example C14_big_overflow : parse_u 8 [50; 53; 54] = Throw "out_of_range".
Proof. reflexivity. Qed.
Example C15_min : parse_s 8 [45; 49; 50; 56] = Ok (-128) /\ parse_s 8 [49; 50; 56] = Throw "overflow_error".
Proof. split; reflexivity. Qed.
Example C16_null : string_to_number true 32 [78; 117; 76; 108] = Ok (-2147483648).
Proof. reflexivity. Qed.
Example C45_case : is_overflow true 16 false 8 255 = false /\ is_overflow true 8 false 8 200 = true.
Proof. split; reflexivity. Qed.
