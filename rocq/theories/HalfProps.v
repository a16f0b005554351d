(** C35, C36: float16 conversions on bit patterns. *)
From Verif Require Import Base HalfModel HalfSpec HalfProofs.

(** C35: for every binary16 pattern [h] the conversion returns a pattern of the
    target format with the same sign, which is a NaN/infinity exactly when [h]
    is, and which otherwise has the same value (magnitudes are counted in units
    of the smallest positive value of each format; one binary16 unit is
    [unit32] binary32 units, [unit64] binary64 units). *)
Theorem C35_half_to_float_exact : forall h, is_pattern binary16 h ->
  exists f, halfbits_to_float h = Ok f /\ is_pattern binary32 f /\ sign binary32 f = sign binary16 h /\
    (is_nan binary32 f <-> is_nan binary16 h) /\ (is_inf binary32 f <-> is_inf binary16 h) /\
    (is_finite binary16 h -> is_finite binary32 f /\ mag binary32 f = mag binary16 h * 2 ^ 125).
Proof. exact widen32. Qed.
Print Assumptions C35_half_to_float_exact.
Theorem C35_half_to_double_exact : forall h, is_pattern binary16 h ->
  exists f, halfbits_to_double h = Ok f /\ is_pattern binary64 f /\ sign binary64 f = sign binary16 h /\
    (is_nan binary64 f <-> is_nan binary16 h) /\ (is_inf binary64 f <-> is_inf binary16 h) /\
    (is_finite binary16 h -> is_finite binary64 f /\ mag binary64 f = mag binary16 h * 2 ^ 1050).
Proof. exact widen64. Qed.
Print Assumptions C35_half_to_double_exact.

(** C36: the complete case description [narrowing_ok] (HalfSpec): NaN stays NaN
    with its sign, infinity and everything at or above 65536 goes to infinity,
    [65520,65536) throws overflow_error, normal range rounds to nearest with
    ties to even, below 2^-14 the result is exact or runtime_error is thrown. *)
Theorem C36_float_to_half : forall f, is_pattern binary32 f ->
  narrowing_ok Ok (Throw "runtime_error") (Throw "overflow_error") binary32 unit32 f (float_to_halfbits f).
Proof. exact narrow32. Qed.
Print Assumptions C36_float_to_half.
Theorem C36_double_to_half : forall d, is_pattern binary64 d ->
  narrowing_ok Ok (Throw "runtime_error") (Throw "overflow_error") binary64 unit64 d (double_to_halfbits d).
Proof. exact narrow64. Qed.
Print Assumptions C36_double_to_half.

(** Narrowing after widening is the identity (NaN: still a NaN, same sign). *)
Theorem C36_roundtrip_float : forall h, is_pattern binary16 h ->
  exists f, halfbits_to_float h = Ok f /\
    (~ is_nan binary16 h -> float_to_halfbits f = Ok h) /\
    (is_nan binary16 h -> exists h', float_to_halfbits f = Ok h' /\ is_nan binary16 h' /\
                                     sign binary16 h' = sign binary16 h).
Proof.
  apply (roundtrip_core binary32 unit32); [reflexivity | exact widen32 | exact narrow32].
Qed.
Print Assumptions C36_roundtrip_float.
Theorem C36_roundtrip_double : forall h, is_pattern binary16 h ->
  exists d, halfbits_to_double h = Ok d /\
    (~ is_nan binary16 h -> double_to_halfbits d = Ok h) /\
    (is_nan binary16 h -> exists h', double_to_halfbits d = Ok h' /\ is_nan binary16 h' /\
                                     sign binary16 h' = sign binary16 h).
Proof.
  apply (roundtrip_core binary64 unit64); [apply pow_pos; lia | exact widen64 | exact narrow64].
Qed.
Print Assumptions C36_roundtrip_double.

(** Concrete cases: 1.0, the largest subnormal, a tie, an inexact tiny value,
    65520 and 65536. *)
Example C35_one : is_pattern binary16 0x3c00 /\ is_finite binary16 0x3c00 /\ halfbits_to_float 0x3c00 = Ok 0x3f800000.
Proof. split; [|split]; [unfold is_pattern; cbn; lia | discriminate | reflexivity]. Qed.
Example C35_subnormal : is_finite binary16 0x03ff /\ halfbits_to_float 0x03ff = Ok 0x387fc000.
Proof. split; [discriminate | reflexivity]. Qed.
Example C36_tie_even : (* 1 + 2^-11 is halfway; 1 + 3*2^-11 too *)
  float_to_halfbits 0x3f801000 = Ok 0x3c00 /\ float_to_halfbits 0x3f803000 = Ok 0x3c02.
Proof. split; reflexivity. Qed.
Example C36_underflow : float_to_halfbits 0x33000001 = Throw "runtime_error".
Proof. reflexivity. Qed.
Example C36_overflow : float_to_halfbits 0x477ff000 = Throw "overflow_error" /\ float_to_halfbits 0x47800000 = Ok 0x7c00.
Proof. split; reflexivity. Qed.
Example C36_negative_double : is_pattern binary64 0xc000000000000000 /\ double_to_halfbits 0xc000000000000000 = Ok 0xc000.
Proof. split; [unfold is_pattern; cbn; lia | reflexivity]. Qed.
