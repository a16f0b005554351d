(** C98, C99, C100: which assignments lose nothing. *)
From Verif Require Import Base TypesModel MatchModel MatchProofs LosslessModel LosslessSpec LosslessProofs.
From Verif Require AssignModel AssignSpec AssignProofs AssignProofs2 AssignProofs3 AssignProofs4.
Open Scope Z_scope.

(** C98: between builtin number types the answer is yes exactly when the
    destination holds every number of the source. *)
Theorem C98_builtin_exact : forall d s, numeric d = true -> numeric s = true ->
  exists r, lossless (TBuiltin d) (TBuiltin s) = Ok r /\ (r = true <-> holds_all_of (TBuiltin d) (TBuiltin s)).
Proof.
  intros d s D S. destruct (builtin_exact d s D S) as (r & E & X). exists r. split; [exact E|]. rewrite X. split.
  - intros I v H. apply holds_builtin in H as (re & im & -> & H). exact (I re im H).
  - intros I re im H. exact (I (VNum re im) H).
Qed.
Print Assumptions C98_builtin_exact.
Example C98_met : numeric int64 = true /\ numeric float64 = true /\ numeric float128 = true /\
  lossless (TBuiltin float64) (TBuiltin int64) = Ok false /\ lossless (TBuiltin float128) (TBuiltin int64) = Ok true /\
  lossless (TBuiltin float16) (TBuiltin uint8) = Ok true /\ lossless (TBuiltin complex_float32) (TBuiltin int32) = Ok false /\
  holds (TBuiltin int16) (VNum (integer (-300)) zero).
Proof. do 7 (split; [reflexivity|]). exists (-300). split; [lia|]. split; reflexivity. Qed.
(** There is nothing to answer when one of the types holds no number. *)
Theorem C98_builtin_throws : forall d s, numeric d = false \/ numeric s = false ->
  lossless (TBuiltin d) (TBuiltin s) = Throw "unhandled built-in case".
Proof. exact builtin_throws. Qed.
Print Assumptions C98_builtin_throws.
Example C98_throws_met : numeric void = false /\ numeric uninitialized = false. Proof. split; reflexivity. Qed.

(** The assignment of C63 to C68 agrees: after a positive answer it needs no
    error check.  [builtin_of] names the types of the assignment kernels. *)
Definition builtin_of (t : AssignModel.nty) : builtin :=
  match t with
  | AssignModel.TBool => bool_
  | AssignModel.TInt true b => if b =? 8 then int8 else if b =? 16 then int16 else if b =? 32 then int32 else int64
  | AssignModel.TInt false b => if b =? 8 then uint8 else if b =? 16 then uint16 else if b =? 32 then uint32 else uint64
  | AssignModel.TFlt AssignModel.S32 => float32
  | AssignModel.TFlt AssignModel.S64 => float64
  | AssignModel.TCplx AssignModel.S32 => complex_float32
  | AssignModel.TCplx AssignModel.S64 => complex_float64
  end.
Section Agree.
Import AssignModel AssignSpec AssignProofs AssignProofs2 AssignProofs3 AssignProofs4.
Local Transparent AssignSpec.unit1.
Lemma mag_small F z : Z.abs z < 2 ^ 24 \/ (F = S64 /\ Z.abs z < 2 ^ 53) -> magnitude F (Z.abs z * AssignSpec.unit1).
Proof.
  intros H. unfold AssignSpec.unit1. destruct F; cbn [magnitude]; exists (Z.abs z), 0; (split; [reflexivity|]); (split; [|lia]);
    destruct H as [H|[X H]]; try discriminate X; pose proof (Z.abs_nonneg z); (split; [assumption|]); try exact H; apply (Z.lt_trans _ _ _ H); reflexivity.
Qed.
Local Opaque AssignSpec.unit1.
Lemma mag_widen x : is_flt S32 x -> is_flt S64 x.
Proof.
  destruct x as [| |g n]; cbn [is_flt]; auto. cbn [magnitude]. intros (m & e & E & M & R). exists m, e. split; [exact E|]. split; [|lia].
  split; [lia|]. apply Z.lt_trans with (2 ^ 24); [lia|]. reflexivity.
Qed.
Lemma in_int_of s b z : is_type (TInt s b) -> in_int s b z -> Z.abs z < 2 ^ b.
Proof. intros T H. destruct s; cbn [in_int] in H; destruct T as [->|[->|[->| ->]]]; revert H; pows; cbn [Z.sub Z.add Z.opp Z.pos_sub Pos.pred_double Z.succ_double Z.pred_double Z.double]; pows; lia. Qed.
Ltac sizes T T' :=
  cbn [is_type] in T, T'; repeat match goal with H : _ \/ _ |- _ => destruct H as [H|H] end; subst.
Lemma agree_rep dst src v : is_type dst -> is_type src -> of_type src v ->
  lossless (TBuiltin (builtin_of dst)) (TBuiltin (builtin_of src)) = Ok true -> representable dst (denote v).
Proof.
  intros Td Ts Hv E. destruct src as [|s b|G|G], v as [c|z|x|x y]; cbn [of_type] in Hv; try contradiction.
  - destruct dst as [|s' b'|F|F].
    + exists (VBool c). split; [exact I|reflexivity].
    + exists (VInt (if c then 1 else 0)). split; [|cbn [denote]; destruct c; rewrite ?Z.mul_1_l; reflexivity].
      destruct c, s'; sizes Td Td; cbn [of_type in_int]; pows; cbn [Z.sub Z.add Z.opp Z.pos_sub Pos.pred_double]; pows; lia.
    + exists (VFlt (FFin false ((if c then 1 else 0) * AssignSpec.unit1))). split.
      * cbn [of_type is_flt]. rewrite <- (Z.abs_eq (if c then 1 else 0)) by (destruct c; lia). apply mag_small. left. destruct c; reflexivity.
      * cbn [denote num_of]. destruct c; rewrite ?Z.mul_1_l; reflexivity.
    + exists (VCplx (FFin false ((if c then 1 else 0) * AssignSpec.unit1)) (FFin false 0)). split.
      * cbn [of_type is_flt]. split; [|exact (mag_small F 0 ltac:(left; reflexivity))].
        rewrite <- (Z.abs_eq (if c then 1 else 0)) by (destruct c; lia). apply mag_small. left. destruct c; reflexivity.
      * cbn [denote num_of]. destruct c; rewrite ?Z.mul_1_l; reflexivity.
  - pose proof (in_int_of s b z Ts Hv) as B. destruct dst as [|s' b'|F|F].
    + exfalso. destruct s; sizes Ts Ts; discriminate E.
    + exists (VInt z). split; [|reflexivity]. cbn [of_type].
      destruct s, s'; sizes Td Ts; try discriminate E; cbn [in_int] in *; revert Hv; pows; cbn [Z.sub Z.add Z.opp Z.pos_sub Pos.pred_double Z.succ_double Z.pred_double Z.double]; pows; lia.
    + exists (VFlt (FFin (z <? 0) (Z.abs z * AssignSpec.unit1))). split.
      * cbn [of_type is_flt]. apply mag_small. destruct s, F; sizes Ts Ts; try discriminate E; revert B; pows; try (left; lia); right; split; try reflexivity; lia.
      * cbn [denote num_of]. destruct (Z.ltb_spec z 0); f_equal; f_equal; [rewrite Z.abs_neq by lia|rewrite Z.abs_eq by lia]; lia.
    + exists (VCplx (FFin (z <? 0) (Z.abs z * AssignSpec.unit1)) (FFin false 0)). split.
      * cbn [of_type is_flt]. split; [|exact (mag_small F 0 ltac:(left; reflexivity))].
        apply mag_small. destruct s, F; sizes Ts Ts; try discriminate E; revert B; pows; try (left; lia); right; split; try reflexivity; lia.
      * cbn [denote num_of]. destruct (Z.ltb_spec z 0); f_equal; f_equal; [rewrite Z.abs_neq by lia|rewrite Z.abs_eq by lia]; lia.
  - destruct dst as [|s' b'|F|F].
    + destruct G; discriminate E.
    + exfalso. destruct s', G; sizes Td Td; discriminate E.
    + exists (VFlt x). split; [|reflexivity]. cbn [of_type]. destruct F, G; try discriminate E; try exact Hv. exact (mag_widen x Hv).
    + exists (VCplx x (FFin false 0)). split; [|reflexivity]. cbn [of_type]. split; [|exact (mag_small F 0 ltac:(left; reflexivity))].
      destruct F, G; try discriminate E; try exact Hv. exact (mag_widen x Hv).
  - destruct dst as [|s' b'|F|F].
    + destruct G; discriminate E.
    + exfalso. destruct s', G; sizes Td Td; discriminate E.
    + destruct F, G; discriminate E.
    + exists (VCplx x y). split; [|reflexivity]. cbn [of_type]. destruct Hv as [Hx Hy].
      destruct F, G; try discriminate E; split; try assumption; apply mag_widen; assumption.
Qed.
End Agree.
(** After a positive answer nothing needs checking: without checks every value
    arrives as the same number, and every checked mode accepts every finite value. *)
Theorem C98_needs_no_check : forall dst src v, AssignSpec.is_type dst -> AssignSpec.is_type src -> AssignSpec.of_type src v ->
  lossless (TBuiltin (builtin_of dst)) (TBuiltin (builtin_of src)) = Ok true ->
  (exists w, AssignModel.assign AssignModel.nocheck dst src v = Ok w /\ AssignSpec.of_type dst w /\ AssignSpec.denote w = AssignSpec.denote v) /\
  (AssignSpec.finite (AssignSpec.denote v) -> forall m,
   exists w, AssignModel.assign m dst src v = Ok w /\ AssignSpec.of_type dst w /\ AssignSpec.denote w = AssignSpec.denote v).
Proof.
  intros dst src v Td Ts Hv E. pose proof (agree_rep dst src v Td Ts Hv E) as R.
  assert (Fin : AssignSpec.finite (AssignSpec.denote v) -> forall m,
   exists w, AssignModel.assign m dst src v = Ok w /\ AssignSpec.of_type dst w /\ AssignSpec.denote w = AssignSpec.denote v).
  { intros Fi m. destruct (AssignProofs4.complete m dst src v Td Ts Hv Fi R) as (w & A & D). exists w.
    split; [exact A|]. split; [exact (AssignProofs3.assign_typed _ _ _ _ _ Td Ts Hv A)|exact D]. }
  split; [|exact Fin].
  destruct v as [c|z|x|x y]; [apply Fin; eexists; eexists; reflexivity|apply Fin; eexists; eexists; reflexivity| |].
  - destruct src as [|s b|G|G]; cbn [AssignSpec.of_type] in Hv; try contradiction.
    destruct dst as [|s' b'|F|F].
    + destruct G; discriminate E.
    + destruct s', G, Td as [->|[->|[->| ->]]]; discriminate E.
    + assert (X : AssignSpec.is_flt F x) by (destruct F, G; try discriminate E; try exact Hv; exact (mag_widen x Hv)).
      exists (AssignModel.VFlt x). cbn [AssignModel.assign AssignModel.nocheck_cast]. rewrite AssignProofs.f2f_id by exact X. split; [reflexivity|]. split; [exact X|reflexivity].
    + assert (X : AssignSpec.is_flt F x) by (destruct F, G; try discriminate E; try exact Hv; exact (mag_widen x Hv)).
      exists (AssignModel.VCplx x AssignModel.fzero). cbn [AssignModel.assign AssignModel.nocheck_cast]. rewrite AssignProofs.f2f_id by exact X.
      split; [reflexivity|]. split; [split; [exact X|exact (mag_small F 0 ltac:(left; reflexivity))]|reflexivity].
  - destruct src as [|s b|G|G]; cbn [AssignSpec.of_type] in Hv; try contradiction.
    destruct dst as [|s' b'|F|F].
    + destruct G; discriminate E.
    + destruct s', G, Td as [->|[->|[->| ->]]]; discriminate E.
    + destruct F, G; discriminate E.
    + assert (X : AssignSpec.is_flt F x /\ AssignSpec.is_flt F y)
        by (destruct Hv as [Hx Hy]; destruct F, G; try discriminate E; split; try assumption; apply mag_widen; assumption).
      exists (AssignModel.VCplx x y). cbn [AssignModel.assign AssignModel.nocheck_cast]. rewrite !AssignProofs.f2f_id by apply X.
      split; [reflexivity|]. split; [exact X|reflexivity].
Qed.
Print Assumptions C98_needs_no_check.
Example C98_needs_no_check_met : lossless (TBuiltin (builtin_of (AssignModel.TFlt AssignModel.S64))) (TBuiltin (builtin_of (AssignModel.TInt false 32))) = Ok true /\
  AssignSpec.of_type (AssignModel.TInt false 32) (AssignModel.VInt 4294967295).
Proof. split; [reflexivity|]. cbn. lia. Qed.

(** C99: a positive answer means that the destination holds every value of the
    source.  The code forgets the missing value. *)
Theorem C99_option_refuted :
  lossless (TBuiltin int32) (TOption (TBuiltin int32)) = Ok true /\ holds (TOption (TBuiltin int32)) VNA /\ ~ holds (TBuiltin int32) VNA.
Proof. split; [reflexivity|]. split; [exact I|]. intros H; exact H. Qed.
Print Assumptions C99_option_refuted.
(** It is right for every other value, whatever the types. *)
Theorem C99_sound_partial : forall dst src v, lossless dst src = Ok true -> holds src v -> v <> VNA -> holds dst v.
Proof. exact lossless_sound. Qed.
Print Assumptions C99_sound_partial.
(** The wrong answers are exactly those with an option above the source's data
    and none above the destination's. *)
Theorem C99_sound_exactly : forall dst src, lossless dst src = Ok true ->
  (holds_all_of dst src <-> (can_be_missing src = true -> can_be_missing dst = true)).
Proof. exact sound_iff. Qed.
Print Assumptions C99_sound_exactly.
Example C99_met :
  lossless (TOption (TPointer (TBuiltin int64))) (TPointer (TOption (TBuiltin uint32))) = Ok true /\
  holds (TPointer (TOption (TBuiltin uint32))) (VNum (integer 7) zero) /\
  lossless (TFixedDim 2 (TBuiltin int32)) (TFixedDim 2 (TBuiltin int32)) = Ok true /\
  holds (TFixedDim 2 (TBuiltin int32)) (VSeq [VNum (integer 1) zero; VNum (integer 2) zero]) /\
  lossless (TFixedDim 2 (TBuiltin int64)) (TFixedDim 2 (TBuiltin int32)) = Ok false.
Proof.
  split; [reflexivity|]. split; [exists 7; split; [lia|split; reflexivity]|]. split; [reflexivity|]. split; [|reflexivity].
  split; [reflexivity|]. constructor; [exists 1; split; [lia|split; reflexivity]|]. constructor; [exists 2; split; [lia|split; reflexivity]|]. constructor.
Qed.

(** C100: chains of lossless assignments are lossless. *)
Theorem C100_transitive : forall a b c, lossless a b = Ok true -> lossless b c = Ok true -> lossless a c = Ok true.
Proof. exact lossless_trans. Qed.
Print Assumptions C100_transitive.
Example C100_met : lossless (TBuiltin float64) (TOption (TBuiltin int32)) = Ok true /\ lossless (TOption (TBuiltin int32)) (TPointer (TBuiltin uint16)) = Ok true.
Proof. split; reflexivity. Qed.
(** A type need not be lossless to itself: not text, not an option of anything but a number. *)
Theorem C100_reflexive_refuted :
  lossless (TLeaf LString) (TLeaf LString) = Ok false /\
  lossless (TOption (TFixedDim 3 (TBuiltin int32))) (TOption (TFixedDim 3 (TBuiltin int32))) = Ok false /\
  lossless (TPointer (TLeaf (LBytes 1))) (TPointer (TLeaf (LBytes 1))) = Ok false.
Proof. repeat split; reflexivity. Qed.
Print Assumptions C100_reflexive_refuted.
(** Exactly when it is. *)
Theorem C100_reflexive_exactly : forall t, lossless t t = Ok true <->
  match core t with TBuiltin b => numeric b = true | c => t = c /\ never_lossless c = false end.
Proof.
  intros t. pose proof (lossless_builtin_core t t) as B. pose proof (lossless_other t t) as O. pose proof (core_not t) as N.
  assert (R : forall c, core t = c -> match c with TBuiltin _ => False | _ => True end -> (lossless t t = Ok true <-> t = c /\ never_lossless c = false)).
  { intros c Cc Nb. rewrite Cc in O, N. split.
    - intros E. destruct (O Nb E) as [[X|[(x & y & X & Y)|[(x & X & Y)|(nn & x & y & X & Y)]]] V].
      + split; [exact X|exact V].
      + split; [|exact V]. rewrite <- Cc. rewrite Y. reflexivity.
      + exfalso. rewrite Y in Cc. cbn [core] in Cc. rewrite <- Cc in X. discriminate X.
      + split; [|exact V]. rewrite <- Cc. rewrite Y. reflexivity.
    - intros [X V]. rewrite X. clear O B X. destruct c as [b|l| | | | | | | | | |k| | | | | | | ]; try contradiction; try discriminate V; cbn [lossless]; rewrite ?ty_eqb_refl; try reflexivity.
      + destruct l; try discriminate V; try reflexivity; rewrite ?Z.eqb_refl, ?ty_eqb_refl; reflexivity.
      + destruct k; try discriminate V; rewrite ?ty_eqb_refl; reflexivity. }
  destruct (core t) as [b|l| | | | | | | | | |k| | | | | | | ] eqn:Ct; try (exact (R _ eq_refl I)).
  clear R O. split.
  - intros E. destruct (B b eq_refl E) as (c & X & Y). injection X as <-. destruct (numeric b) eqn:Nb; [reflexivity|]. rewrite builtin_throws in Y by auto. discriminate Y.
  - intros Nb. rewrite lossless_core, Ct. cbn [lossless]. rewrite to_builtin_core, Ct. destruct (builtin_exact b b Nb Nb) as (r & E & X). rewrite E. f_equal. apply X. intros re im H; exact H.
Qed.
Print Assumptions C100_reflexive_exactly.
(** The function always returns, except between builtin types of which one
    holds no number, where it throws. *)
Theorem C100_answers : forall d s,
  (exists r, lossless d s = Ok r) \/
  (lossless d s = Throw "unhandled built-in case" /\ exists b c, core d = TBuiltin b /\ core s = TBuiltin c /\ (numeric b = false \/ numeric c = false)).
Proof.
  intros d s. rewrite lossless_core. destruct (core d) as [b|l| | | | | | | | | |k| | | | | | | ] eqn:Cd; cbn [lossless]; try (left; eexists; reflexivity).
  - rewrite to_builtin_core. destruct (core s) as [c| | | | | | | | | | | | | | | | | | ] eqn:Cs; try (left; eexists; reflexivity).
    destruct (numeric b) eqn:B; [destruct (numeric c) eqn:C|].
    + left. destruct (builtin_exact b c B C) as (r & E & _). exists r. exact E.
    + right. split; [apply builtin_throws; auto|]. exists b, c. auto.
    + right. split; [apply builtin_throws; auto|]. exists b, c. auto.
  - destruct l; left; eexists; reflexivity.
  - pose proof (core_not d) as N. rewrite Cd in N. contradiction.
  - pose proof (core_not d) as N. rewrite Cd in N. contradiction.
  - destruct k; left; eexists; reflexivity.
Qed.
Print Assumptions C100_answers.
