(** C63-C68: assigning a number of one type to another under an error mode. *)
From Verif Require Import Base ParseIntModel ParseIntSpec ParseIntProofs AssignModel AssignSpec AssignProofs AssignProofs2 AssignProofs3 AssignProofs4.
Open Scope Z_scope.

Ltac vsplit := lazymatch goal with |- _ /\ _ => split; vsplit | |- _ => idtac end.

Ltac vr := lazymatch goal with |- assign _ _ _ _ = _ => vm_compute; reflexivity | |- _ => idtac end.

(** C63: integer to integer, any widths and signedness: the checked modes store
    exactly the value or throw overflow_error; nocheck reduces modulo 2^bits. *)
Theorem C63_checked : forall m ds db ss sb z, is_type (TInt ds db) -> is_type (TInt ss sb) -> in_int ss sb z -> m <> nocheck ->
  (in_int ds db z -> assign m (TInt ds db) (TInt ss sb) (VInt z) = Ok (VInt z)) /\
  (~ in_int ds db z -> assign m (TInt ds db) (TInt ss sb) (VInt z) = Throw "overflow_error").
Proof.
  intros m ds db ss sb z T1 T2 H M.
  assert (E : assign m (TInt ds db) (TInt ss sb) (VInt z) = v_int (overflow_i2i ds db ss sb z)) by (destruct m; [congruence| | |]; reflexivity).
  rewrite E, i2i_spec by assumption. unfold v_int. split; intros R; rewrite in_int_range in R;
    destruct (Z.leb_spec (tmin ds db) z); destruct (Z.leb_spec z (tmax ds db)); cbn; auto; lia.
Qed.
Print Assumptions C63_checked.
Theorem C63_nocheck_wraps : forall ds db ss sb z, is_type (TInt ds db) ->
  exists w, assign nocheck (TInt ds db) (TInt ss sb) (VInt z) = Ok (VInt w) /\ in_int ds db w /\ (w - z) mod 2 ^ db = 0.
Proof.
  intros ds db ss sb z T. pose proof (type_b ds db T). destruct (nocheck_i2i ds db z) as (w & E & R & M); [lia|].
  exists w. cbn [assign nocheck_cast]. rewrite E. rewrite in_int_range. auto.
Qed.
Print Assumptions C63_nocheck_wraps.

(** C64: real to integer.  Where the rounded limit is harmless - the value lies
    within the destination's range, or outside it but not on the number one
    above the maximum - overflow mode truncates or throws overflow_error, and
    fractional and inexact mode also reject a fraction. *)
Theorem C64_overflow_partial : forall F s b x v, is_type (TInt s b) -> is_flt F x -> num_of x = Num v ->
  (tmin s b * unit1 <= v <= tmax s b * unit1 ->
     assign overflow (TInt s b) (TFlt F) (VFlt x) = Ok (VInt (Z.quot v unit1))) /\
  (v < tmin s b * unit1 \/ tmax s b * unit1 < v -> v <> (tmax s b + 1) * unit1 ->
     assign overflow (TInt s b) (TFlt F) (VFlt x) = Throw "overflow_error").
Proof.
  intros F s b x v T Hx N. rewrite <- one_unit. pose proof (overflow_f2i_spec F s b x T Hx) as S. rewrite N in S.
  destruct S as (S1 & S2 & S3). cbn [assign]. unfold v_int. split.
  - intros R. rewrite (S1 R). reflexivity.
  - intros R Q. rewrite (S3 R) by tauto. reflexivity.
Qed.
Print Assumptions C64_overflow_partial.
Theorem C64_fractional_partial : forall m F s b x v, is_type (TInt s b) -> is_flt F x -> num_of x = Num v ->
  m = fractional \/ m = inexact ->
  (forall z, v = z * unit1 -> in_int s b z -> assign m (TInt s b) (TFlt F) (VFlt x) = Ok (VInt z)) /\
  (tmin s b * unit1 <= v <= tmax s b * unit1 -> v mod unit1 <> 0 ->
     assign m (TInt s b) (TFlt F) (VFlt x) = Throw "runtime_error") /\
  (v < tmin s b * unit1 \/ tmax s b * unit1 < v -> v <> (tmax s b + 1) * unit1 ->
     assign m (TInt s b) (TFlt F) (VFlt x) = Throw "overflow_error").
Proof.
  intros m F s b x v T Hx N M. rewrite <- one_unit. pose proof (fractional_f2i_spec F s b x T Hx) as S. rewrite N in S.
  destruct S as (S1 & S2 & _ & S4).
  assert (E : assign m (TInt s b) (TFlt F) (VFlt x) = v_int (fractional_f2i F s b x)) by (destruct M as [-> | ->]; reflexivity).
  rewrite E. unfold v_int. split; [|split].
  - intros z V R. rewrite in_int_range in R. rewrite (S1 z V R). reflexivity.
  - intros R Q. rewrite (S2 R Q). reflexivity.
  - intros R Q. rewrite (S4 R) by tauto. reflexivity.
Qed.
Print Assumptions C64_fractional_partial.
(** The full claim fails on exactly one finite value per destination, and on NaN:
    undefined behaviour happens iff the value is NaN (overflow mode only) or
    one above a maximum that the source format cannot represent. *)
Theorem C64_undefined_iff : forall F s b x, is_type (TInt s b) -> is_flt F x ->
  (assign overflow (TInt s b) (TFlt F) (VFlt x) = UB <->
     num_of x = NaN \/ (num_of x = Num ((tmax s b + 1) * unit1) /\ ~ magnitude F (tmax s b * unit1))) /\
  (assign fractional (TInt s b) (TFlt F) (VFlt x) = UB <->
     num_of x = Num ((tmax s b + 1) * unit1) /\ ~ magnitude F (tmax s b * unit1)).
Proof.
  intros F s b x T Hx. rewrite <- one_unit. pose proof one_pos as P.
  assert (D : fp F < digits s b <-> ~ magnitude F (tmax s b * one)).
  { split.
    - intros D M. pose proof (i2f_max F s b T) as L. unfold lim in L. destruct (Z.leb_spec (digits s b) (fp F)); [lia|].
      pose proof (tmax_pos s b T). unfold i2f in L. rewrite fround_id in L by (replace (Z.abs (tmax s b)) with (tmax s b) by lia; exact M).
      injection L as L1 L2. replace (Z.abs (tmax s b)) with (tmax s b) in L2 by lia. nia.
    - intros M. destruct (Z.lt_ge_cases (fp F) (digits s b)) as [|G]; auto. exfalso. apply M.
      rewrite magnitude_iff. exists (tmax s b), 1074. rewrite one_pow. pose proof (fmt_facts F). pose proof (tmax_pos s b T).
      split; [reflexivity|]. split; [|lia].
      assert (tmax s b + 1 = 2 ^ digits s b) by (destruct s; unfold tmax, digits; lia).
      assert (2 ^ digits s b <= 2 ^ fp F) by (apply Z.pow_le_mono_r; lia). lia. }
  pose proof (overflow_f2i_spec F s b x T Hx) as S. pose proof (fractional_f2i_spec F s b x T Hx) as Q.
  pose proof (tmax_pos s b T) as TM. pose proof (tmin_neg s b T) as TN.
  cbn [assign]. unfold v_int. destruct (num_of x) as [|i|v] eqn:N.
  - rewrite S, Q. split; split; intros H; try discriminate; auto. destruct H as (H & _). discriminate.
  - rewrite S, Q. split; split; intros H; try discriminate; try (destruct H as [H|(H & _)]; discriminate). destruct H; discriminate.
  - destruct S as (S1 & S2 & S3). destruct Q as (Q1 & Q2 & Q3 & Q4).
    assert (C : v = (tmax s b + 1) * one /\ fp F < digits s b \/ (tmin s b * one <= v <= tmax s b * one) \/
                (v < tmin s b * one \/ tmax s b * one < v) /\ ~ (v = (tmax s b + 1) * one /\ fp F < digits s b)) by lia.
    destruct C as [(V & G)|[R|(R & NG)]].
    + rewrite (S2 V G), (Q3 V G), V. split; split; intros _; auto; [right|]; (split; [reflexivity|]; apply D; exact G).
    + rewrite (S1 R). split; split; intros H; try discriminate.
      * destruct H as [H|(H & _)]; [discriminate|]. injection H as H. nia.
      * exfalso. destruct (Z.eq_dec (v mod one) 0) as [M|M].
        -- pose proof (Z.div_mod v one ltac:(lia)) as DM. rewrite M in DM.
           rewrite (Q1 (v / one)) in H; [discriminate|lia|nia].
        -- rewrite (Q2 R M) in H. discriminate.
      * destruct H as (H & _). injection H as H. nia.
    + rewrite (S3 R NG), (Q4 R NG). split; split; intros H; try discriminate.
      * destruct H as [H|(H & H2)]; [discriminate|]. injection H as H. exfalso. apply NG. split; [exact H|apply D; exact H2].
      * destruct H as (H & H2). injection H as H. exfalso. apply NG. split; [exact H|apply D; exact H2].
Qed.
Print Assumptions C64_undefined_iff.
(** 2^63 as a double, 2^31 as a float, 2^64 as a double, NaN. *)
Theorem C64_boundary_refuted :
  assign overflow (TInt true 64) (TFlt S64) (VFlt (FFin false (2 ^ 63 * unit1))) = UB /\
  assign fractional (TInt true 32) (TFlt S32) (VFlt (FFin false (2 ^ 31 * unit1))) = UB /\
  assign inexact (TInt false 64) (TFlt S64) (VFlt (FFin false (2 ^ 64 * unit1))) = UB /\
  assign overflow (TInt true 8) (TFlt S64) (VFlt FNan) = UB.
Proof. vsplit; vm_compute; reflexivity. Qed.
Print Assumptions C64_boundary_refuted.
(** Complex to integer: a non-zero imaginary part is an error in every checked
    mode; otherwise the real part is assigned as a real would be. *)
Theorem C64_complex : forall m F s b x y, m <> nocheck ->
  (num_of y <> Num 0 -> assign m (TInt s b) (TCplx F) (VCplx x y) = Throw "runtime_error") /\
  (num_of y = Num 0 -> assign m (TInt s b) (TCplx F) (VCplx x y) = assign m (TInt s b) (TFlt F) (VFlt x)).
Proof.
  intros m F s b x y M. split.
  - intros N. assert (Z : flt_nz y = true) by (destruct (flt_nz y) eqn:E; auto; apply flt_nz_false in E; contradiction).
    destruct m; [congruence| | |]; cbn [assign]; unfold v_int, overflow_c2i, fractional_c2i; rewrite Z; reflexivity.
  - intros N. apply flt_nz_zero in N.
    destruct m; [congruence| | |]; cbn [assign]; unfold v_int, overflow_c2i, fractional_c2i; rewrite N; reflexivity.
Qed.
Print Assumptions C64_complex.

(** C65: inexact mode never changes a number: if it returns, the stored value is
    a value of the destination type and stands for the same number. *)
Theorem C65_inexact_lossless : forall dst src v w, is_type dst -> is_type src -> of_type src v ->
  assign inexact dst src v = Ok w -> of_type dst w /\ denote w = denote v.
Proof. intros dst src v w Td Ts Hv E. split; [exact (assign_typed _ _ _ _ _ Td Ts Hv E)|exact (inexact_sound _ _ _ _ Td Ts Hv E)]. Qed.
Print Assumptions C65_inexact_lossless.
(** To an integer, fractional mode is lossless too. *)
Theorem C65_fractional_lossless : forall s b src v w, is_type (TInt s b) -> is_type src -> of_type src v ->
  assign fractional (TInt s b) src v = Ok w -> of_type (TInt s b) w /\ denote w = denote v.
Proof. intros s b src v w Td Ts Hv E. split; [exact (assign_typed _ _ _ _ _ Td Ts Hv E)|exact (fractional_sound _ _ _ _ _ Td Ts Hv E)]. Qed.
Print Assumptions C65_fractional_lossless.

(** C66: a finite number the destination can represent is assigned exactly, in
    every mode, between all pairs of types. *)
Theorem C66_representable_partial : forall m dst src v, is_type dst -> is_type src -> of_type src v ->
  finite (denote v) -> representable dst (denote v) ->
  exists w, assign m dst src v = Ok w /\ of_type dst w /\ denote w = denote v.
Proof.
  intros m dst src v Td Ts Hv Fi Re. destruct (complete m dst src v Td Ts Hv Fi Re) as (w & E & D).
  exists w. split; [exact E|]. split; [exact (assign_typed _ _ _ _ _ Td Ts Hv E)|exact D].
Qed.
Print Assumptions C66_representable_partial.
(** Without finiteness it fails: infinities are rejected when the source is
    complex, NaN is rejected by inexact mode even into the same precision. *)
Theorem C66_nonfinite_refuted :
  assign overflow (TFlt S64) (TCplx S64) (VCplx (FInf false) fzero) = Throw "overflow_error" /\
  assign overflow (TCplx S32) (TCplx S64) (VCplx (FInf false) fzero) = Throw "overflow_error" /\
  assign inexact (TFlt S32) (TFlt S64) (VFlt FNan) = Throw "runtime_error" /\
  assign inexact (TCplx S64) (TFlt S64) (VFlt FNan) = Throw "runtime_error" /\
  assign inexact (TCplx S64) (TCplx S64) (VCplx FNan fzero) = Ok (VCplx FNan fzero) /\
  representable (TFlt S64) (Inf false, Num 0) /\ representable (TFlt S32) (NaN, Num 0).
Proof.
  vsplit; vr.
  - exists (VFlt (FInf false)). split; [exact I|cbn [denote num_of]; try reflexivity].
  - exists (VFlt FNan). split; [exact I|cbn [denote num_of]; try reflexivity].
Qed.
Print Assumptions C66_nonfinite_refuted.
(** Real infinities and NaN do pass overflow mode. *)
Theorem C66_nonfinite_real : forall F G x, num_of x = NaN \/ (exists s, num_of x = Inf s) ->
  assign overflow (TFlt F) (TFlt G) (VFlt x) = Ok (VFlt x) /\
  assign overflow (TCplx F) (TFlt G) (VFlt x) = Ok (VCplx x fzero).
Proof.
  intros F G x H. destruct x as [|s|s n]; cbn [num_of] in H; [| |destruct H as [H|(? & H)]; discriminate];
    cbn [assign nocheck_cast]; destruct (fsz_widens G F); split; reflexivity.
Qed.
Print Assumptions C66_nonfinite_real.

(** C67: the modes form a chain: whatever a stricter mode stores, every weaker
    mode stores as well. *)
Theorem C67_modes_ordered : forall m m' dst src v w, (rank m' <= rank m)%nat ->
  assign m dst src v = Ok w -> assign m' dst src v = Ok w.
Proof. exact strictness. Qed.
Print Assumptions C67_modes_ordered.
(** Every stored value is a value of the destination type, in every mode. *)
Theorem C67_typed : forall m dst src v w, is_type dst -> is_type src -> of_type src v ->
  assign m dst src v = Ok w -> of_type dst w.
Proof. exact assign_typed. Qed.
Print Assumptions C67_typed.
(** To bool: nocheck tests for non-zero, the checked modes accept 0 and 1 only. *)
Theorem C67_to_bool : forall src v, src <> TBool ->
  (forall c, denote v = denote (VBool c) -> forall m, assign m TBool src v = Ok (VBool c)) /\
  ((forall c, denote v <> denote (VBool c)) -> forall m, m <> nocheck -> assign m TBool src v = Throw "overflow_error").
Proof.
  intros src v Hs. split.
  - intros c D m. destruct (to_bool_fits v c D) as (A & B). destruct m; cbn [assign]; auto; destruct src; auto; congruence.
  - intros N m M. assert (E : overflow_bool v = Throw "overflow_error").
    { destruct (overflow_bool v) as [w|e| |] eqn:O; pose proof O as O'; unfold overflow_bool in O'.
      - destruct (overflow_bool_bool v w O) as (c & ->). exfalso. apply (N c). symmetry. exact (overflow_bool_sound v _ O).
      - repeat match type of O' with (if ?c then _ else _) = _ => destruct c; try discriminate end. exact (eq_sym O').
      - repeat match type of O' with (if ?c then _ else _) = _ => destruct c; try discriminate end.
      - repeat match type of O' with (if ?c then _ else _) = _ => destruct c; try discriminate end. }
    destruct m; [congruence| | |]; destruct src; try congruence; exact E.
Qed.
Print Assumptions C67_to_bool.

(** C68: conversion to a floating point type.  Unless it throws, the stored value
    is the representable number nearest to the source value, ties to even. *)
Theorem C68_int_nearest : forall m F s b z w, m <> inexact ->
  assign m (TFlt F) (TInt s b) (VInt z) = Ok w -> exists x, w = VFlt x /\ nearest F (z * unit1) x.
Proof.
  intros m F s b z w M E. assert (E' : w = VFlt (i2f F z)) by (destruct m; try congruence; cbn in E; congruence).
  exists (i2f F z). rewrite <- one_unit. split; [exact E'|]. apply i2f_nearest.
Qed.
Print Assumptions C68_int_nearest.
Theorem C68_real_nearest : forall F G x v, is_flt G x -> num_of x = Num v ->
  exists y, assign nocheck (TFlt F) (TFlt G) (VFlt x) = Ok (VFlt y) /\ nearest F v y.
Proof. intros F G x v Hx N. exists (f2f F x). split; [reflexivity|]. exact (f2f_nearest F G x v Hx N). Qed.
Print Assumptions C68_real_nearest.
(** In overflow and fractional mode a finite source beyond the largest finite
    destination value is an overflow_error, and everything else is rounded. *)
Theorem C68_real_overflow : forall m F G x v, is_flt G x -> num_of x = Num v -> m = overflow \/ m = fractional ->
  (biggest F < Z.abs v -> assign m (TFlt F) (TFlt G) (VFlt x) = Throw "overflow_error") /\
  (Z.abs v <= biggest F -> exists y, assign m (TFlt F) (TFlt G) (VFlt x) = Ok (VFlt y) /\ nearest F v y /\
     exists c, num_of y = Num c).
Proof.
  intros m F G x v Hx N M. pose proof (f_out_num F x v N) as O. pose proof (f2f_nearest F G x v Hx N) as NE.
  assert (FI : isfinite x = true) by (destruct x; cbn in *; congruence).
  assert (BM : fsz_widens G F = true -> Z.abs v <= biggest F).
  { intros W. rewrite biggest_fmax. pose proof (flt_of_num F x v (widen_flt G F x W Hx) N) as MM. apply magnitude_bounds in MM. lia. }
  assert (FM : Z.abs v <= biggest F -> exists c, num_of (f2f F x) = Num c).
  { intros B. destruct (f2f F x) as [|i|i n] eqn:X; cbn [num_of]; eauto.
    - destruct NE as (_ & []).
    - destruct NE as (_ & (A & _)). exfalso. assert (biggest F < too_big F) by (destruct F; vm_compute; reflexivity). lia. }
  split; intros B.
  - destruct (fsz_widens G F) eqn:W; [specialize (BM eq_refl); lia|].
    destruct M as [-> | ->]; cbn [assign]; rewrite W; unfold v_flt, overflow_f2f; rewrite FI, O;
      (destruct (Z.ltb_spec (biggest F) (Z.abs v)); [reflexivity|lia]).
  - exists (f2f F x). split; [|split; [exact NE|exact (FM B)]].
    destruct M as [-> | ->]; cbn [assign]; destruct (fsz_widens G F); auto; unfold v_flt, overflow_f2f; rewrite FI, O;
      (destruct (Z.ltb_spec (biggest F) (Z.abs v)); [lia|reflexivity]).
Qed.
Print Assumptions C68_real_overflow.
(** Integer to real in inexact mode: exact, or an exception - except that the
    conversion back is undefined when the rounded value leaves the integer type. *)
Theorem C68_int_inexact_partial : forall F s b z, is_type (TInt s b) -> in_int s b z ->
  (magnitude F (Z.abs z * unit1) -> exists x, assign inexact (TFlt F) (TInt s b) (VInt z) = Ok (VFlt x) /\ num_of x = Num (z * unit1)) /\
  (~ magnitude F (Z.abs z * unit1) ->
     assign inexact (TFlt F) (TInt s b) (VInt z) = Throw "runtime_error" \/
     (assign inexact (TFlt F) (TInt s b) (VInt z) = UB /\ forall c, num_of (i2f F z) = Num (c * unit1) -> ~ in_int s b c)).
Proof.
  intros F s b z T R. rewrite <- one_unit. pose proof one_pos as P. split.
  - intros M. destruct (check_i2f_complete F s b z T R M) as (d & E & D). exists d. cbn [assign]. unfold v_flt. rewrite E. auto.
  - intros M. cbn [assign]. unfold v_flt. destruct (check_i2f F s b z) as [d|e| |] eqn:E.
    + exfalso. apply M. apply check_i2f_sound in E. destruct E as (-> & D).
      pose proof (flt_of_num F _ _ (i2f_flt F z) D) as X. rewrite Z.abs_mul in X. replace (Z.abs one) with one in X by lia. exact X.
    + left. unfold check_i2f in E. destruct (f2i s b (i2f F z)) eqn:I; cbn [bind] in E; try discriminate.
      * destruct (negb (a =? z)); cbn [bind]; congruence.
      * exfalso. unfold f2i in I. destruct (i2f F z); try discriminate. cbv zeta in I. destruct (_ && _) in I; discriminate.
    + right. split; [reflexivity|]. intros c C I. unfold check_i2f in E.
      destruct (i2f F z) as [|i|i n] eqn:X; cbn [num_of] in C; try discriminate.
      assert (V : fval i n = c * one) by (unfold fval; congruence). apply in_int_range in I.
      rewrite (f2i_in s b i n T) in E by (rewrite V; nia). cbn [bind] in E. destruct (negb _) in E; discriminate.
    + exfalso. unfold check_i2f in E. unfold f2i in E. destruct (i2f F z); cbn in E; try discriminate.
      destruct (_ && _) in E; cbn [bind] in E; try discriminate. destruct (negb _) in E; discriminate.
Qed.
Print Assumptions C68_int_inexact_partial.
Theorem C68_int_inexact_refuted :
  in_int true 64 (2 ^ 63 - 1) /\ assign inexact (TFlt S64) (TInt true 64) (VInt (2 ^ 63 - 1)) = UB /\
  in_int false 32 (2 ^ 32 - 1) /\ assign inexact (TFlt S32) (TInt false 32) (VInt (2 ^ 32 - 1)) = UB.
Proof. unfold in_int. vsplit; try lia; vm_compute; reflexivity. Qed.
Print Assumptions C68_int_inexact_refuted.

(** Instances. *)
Example C63_case : assign overflow (TInt true 8) (TInt false 16) (VInt 127) = Ok (VInt 127) /\
  assign inexact (TInt true 8) (TInt false 16) (VInt 128) = Throw "overflow_error" /\
  assign nocheck (TInt true 8) (TInt false 16) (VInt 200) = Ok (VInt (-56)).
Proof. vsplit; vm_compute; reflexivity. Qed.
(** -3.5 *)
Definition m35 : flt := FFin true (7 * 2 ^ 1073).
Example C64_case : assign overflow (TInt true 8) (TFlt S32) (VFlt m35) = Ok (VInt (-3)) /\
  assign fractional (TInt true 8) (TFlt S32) (VFlt m35) = Throw "runtime_error" /\
  assign overflow (TInt false 8) (TFlt S32) (VFlt m35) = Throw "overflow_error" /\ is_flt S32 m35.
Proof.
  vsplit; vr. exists 7, (-1). repeat split; try lia.
Qed.
(** 2^24 + 1 is not a float: inexact mode throws, the others round to even. *)
Example C65_case : assign inexact (TFlt S32) (TInt true 32) (VInt 16777217) = Throw "runtime_error" /\
  assign overflow (TFlt S32) (TInt true 32) (VInt 16777217) = Ok (VFlt (FFin false (16777216 * unit1))) /\
  assign inexact (TCplx S32) (TInt true 32) (VInt (-5)) = Ok (VCplx (FFin true (5 * unit1)) fzero).
Proof. vsplit; vm_compute; reflexivity. Qed.
(** The double 2^-150 rounds to zero, 3 * 2^-150 to 2^-148 (ties to even). *)
Example C68_case : assign nocheck (TFlt S32) (TFlt S64) (VFlt (FFin false (2 ^ 924))) = Ok (VFlt (FFin false 0)) /\
  assign nocheck (TFlt S32) (TFlt S64) (VFlt (FFin false (3 * 2 ^ 924))) = Ok (VFlt (FFin false (2 ^ 926))) /\
  assign nocheck (TFlt S32) (TFlt S64) (VFlt (FFin true (2 ^ 1202))) = Ok (VFlt (FInf true)).
Proof. vsplit; vm_compute; reflexivity. Qed.
