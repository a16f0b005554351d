From Verif Require Import Base TypesModel MatchModel MatchProofs LosslessModel LosslessSpec.
Open Scope Z_scope.

(** ** Numbers *)
Lemma unit1_pos : 0 < unit1. Proof. unfold unit1. apply Z.pow_pos_nonneg; lia. Qed.
Lemma integer_inj a b : integer a = integer b -> a = b.
Proof. intros H. injection H as H. pose proof unit1_pos as U. apply Z.mul_cancel_r in H; [exact H|]. intros E. rewrite E in U. discriminate U. Qed.
Lemma zero_integer : zero = integer 0. Proof. reflexivity. Qed.

Lemma is_integer_incl lo hi lo' hi' : lo' <= lo -> hi <= hi' -> forall re im, is_integer lo hi re im -> is_integer lo' hi' re im.
Proof. intros A B re im (z & Hz & E & F). exists z. split; [lia|]. split; assumption. Qed.
Lemma is_integer_at lo hi z : lo <= z <= hi -> is_integer lo hi (integer z) zero.
Proof. intros H. exists z. split; [exact H|]. split; reflexivity. Qed.
Lemma is_integer_not lo hi z : ~ lo <= z <= hi -> ~ is_integer lo hi (integer z) zero.
Proof. intros H (z' & Hz & E & _). apply integer_inj in E. subst. contradiction. Qed.

Lemma binary_integer p lo hi z : lo <= 0 <= hi -> Z.abs z < 2 ^ p -> is_binary p lo hi (integer z).
Proof.
  intros H Hz. unfold integer. cbn [is_binary]. exists (Z.abs z), 0. split.
  - rewrite Z.abs_mul. rewrite Z.add_0_l. unfold unit1 at 1. rewrite (Z.abs_eq (2 ^ 16494)) by (apply Z.pow_nonneg; lia). reflexivity.
  - split; lia.
Qed.
Lemma binary_incl p lo hi p' lo' hi' : 0 <= p <= p' -> lo' <= lo -> hi <= hi' -> forall x, is_binary p lo hi x -> is_binary p' lo' hi' x.
Proof.
  intros P A B [| |z] H; cbn [is_binary] in *; [exact I|exact I|]. destruct H as (m & e & E & M & R).
  exists m, e. split; [exact E|]. split; [|lia]. split; [lia|]. apply Z.lt_le_trans with (2 ^ p); [lia|]. apply Z.pow_le_mono_r; lia.
Qed.
(** The least positive number of a format is not in one with a larger least exponent. *)
Lemma binary_tiny p lo hi : 0 < p -> lo <= hi -> -16494 <= lo -> is_binary p lo hi (Units (2 ^ (lo + 16494))).
Proof.
  intros P L M. cbn [is_binary]. exists 1, lo. rewrite Z.abs_eq by (apply Z.pow_nonneg; lia). split; [lia|]. split; [|lia].
  split; [lia|]. apply Z.pow_gt_1; lia.
Qed.
Lemma binary_no_tiny p lo hi e0 : -16494 <= e0 < lo -> ~ is_binary p lo hi (Units (2 ^ (e0 + 16494))).
Proof.
  intros L H. cbn [is_binary] in H. destruct H as (m & e & E & M & R).
  rewrite Z.abs_eq in E by (apply Z.pow_nonneg; lia).
  replace (e + 16494) with ((e - e0) + (e0 + 16494)) in E by lia. rewrite (Z.pow_add_r 2 (e - e0) (e0 + 16494)) in E by lia.
  assert (0 < 2 ^ (e0 + 16494)) by (apply Z.pow_pos_nonneg; lia).
  assert (1 < 2 ^ (e - e0)) by (apply Z.pow_gt_1; lia).
  set (u := 2 ^ (e0 + 16494)) in *. set (w := 2 ^ (e - e0)) in *. assert (1 = m * w) by (apply (Z.mul_cancel_r _ _ u); [lia|]; rewrite Z.mul_1_l, <- Z.mul_assoc; exact E).
  destruct (Z.eq_dec m 0) as [->|]; [lia|]. nia.
Qed.
(** 2^p + 1 needs p + 1 bits. *)
Lemma binary_no_odd p lo hi : 0 < p -> -16494 <= lo -> ~ is_binary p lo hi (integer (2 ^ p + 1)).
Proof.
  intros P L H. unfold integer in H. cbn [is_binary] in H. destruct H as (m & e & E & M & R).
  assert (P2 : 0 < 2 ^ p) by (apply Z.pow_pos_nonneg; lia). pose proof unit1_pos as U.
  rewrite Z.abs_eq in E by nia.
  destruct (Z_le_gt_dec 0 e) as [He|He].
  - rewrite Z.pow_add_r in E by lia. change (2 ^ 16494) with unit1 in E. rewrite Z.mul_assoc in E. apply Z.mul_cancel_r in E; [|intros X; rewrite X in U; lia].
    destruct (Z.eq_dec e 0) as [->|N]; [change (2 ^ 0) with 1 in E; lia|].
    replace e with (1 + (e - 1)) in E by lia. rewrite Z.pow_add_r in E by lia.
    replace p with (1 + (p - 1)) in E by lia. rewrite (Z.pow_add_r 2 1 (p - 1)) in E by lia. change (2 ^ 1) with 2 in E.
    set (a := 2 ^ (p - 1)) in *. set (b := 2 ^ (e - 1)) in *. assert (X : 2 * (m * b - a) = 1) by nia. lia.
  - replace unit1 with (2 ^ (- e) * 2 ^ (e + 16494)) in E by (unfold unit1; rewrite <- Z.pow_add_r by lia; f_equal; lia).
    rewrite Z.mul_assoc in E. assert (V : 0 < 2 ^ (e + 16494)) by (apply Z.pow_pos_nonneg; lia).
    apply Z.mul_cancel_r in E; [|intros X; rewrite X in V; lia].
    assert (1 <= 2 ^ (- e)) by (change 1 with (2 ^ 0); apply Z.pow_le_mono_r; lia). nia.
Qed.
Lemma binary_zero p lo hi : 0 < p -> lo <= 0 <= hi -> is_binary p lo hi zero.
Proof. intros P H. rewrite zero_integer. apply binary_integer; [exact H|]. cbn. apply Z.pow_pos_nonneg; lia. Qed.

(** ** Each pair of builtin types *)
Ltac pows := repeat match goal with |- context [2 ^ Zpos ?n] => let v := eval vm_compute in (2 ^ Zpos n) in change (2 ^ Zpos n) with v end.

Definition incl (d s : builtin) : Prop := forall re im, number_of s re im -> number_of d re im.
(** How a real type looks: an interval of integers or a format. *)
Ltac yes_int := intros re im; apply is_integer_incl; pows; lia.
Ltac yes_flt :=
  intros re im (z & Hz & -> & ->);
  split; [apply binary_integer; [lia|revert Hz; pows; lia]|first [reflexivity | apply binary_zero; lia]].
Ltac yes_f2f :=
  intros re im (A & B); split; [revert A; apply binary_incl; lia|first [exact B | subst; apply binary_zero; lia | revert B; apply binary_incl; lia]].
Definition format (b : builtin) : Z * Z * Z :=
  match b with
  | float16 => (11, -24, 5) | float32 | complex_float32 => (24, -149, 104) | float64 | complex_float64 => (53, -1074, 971)
  | float128 => (113, -16494, 16271) | _ => (0, 0, 0)
  end.
Definition range (b : builtin) : Z * Z :=
  match b with
  | bool_ => (0, 1)
  | int8 => (- 2 ^ 7, 2 ^ 7 - 1) | int16 => (- 2 ^ 15, 2 ^ 15 - 1) | int32 => (- 2 ^ 31, 2 ^ 31 - 1) | int64 => (- 2 ^ 63, 2 ^ 63 - 1)
  | int128 => (- 2 ^ 127, 2 ^ 127 - 1)
  | uint8 => (0, 2 ^ 8 - 1) | uint16 => (0, 2 ^ 16 - 1) | uint32 => (0, 2 ^ 32 - 1) | uint64 => (0, 2 ^ 64 - 1) | uint128 => (0, 2 ^ 128 - 1)
  | _ => (0, 0)
  end.
Definition is_int (b : builtin) : bool := match base_kind b with bool_kind | int_kind | uint_kind => true | _ => false end.
Definition is_flt (b : builtin) : bool := match base_kind b with float_kind => true | _ => false end.
Definition is_cplx (b : builtin) : bool := match base_kind b with complex_kind => true | _ => false end.
Lemma number_int b re im : is_int b = true -> number_of b re im <-> is_integer (fst (range b)) (snd (range b)) re im.
Proof. intros H. destruct b; try discriminate H; reflexivity. Qed.
Lemma number_flt b re im : is_flt b = true -> number_of b re im <-> is_binary (fst (fst (format b))) (snd (fst (format b))) (snd (format b)) re /\ im = zero.
Proof. intros H. destruct b; try discriminate H; reflexivity. Qed.
Lemma number_cplx b re im : is_cplx b = true ->
  number_of b re im <-> is_binary (fst (fst (format b))) (snd (fst (format b))) (snd (format b)) re /\
                        is_binary (fst (fst (format b))) (snd (fst (format b))) (snd (format b)) im.
Proof. intros H. destruct b; try discriminate H; reflexivity. Qed.
(** The formats and ranges, compared with the sizes; all by inspection of the tables. *)
Lemma format_ok b : is_flt b = true \/ is_cplx b = true ->
  0 < fst (fst (format b)) /\ snd (fst (format b)) <= 0 <= snd (format b) /\ -16494 <= snd (fst (format b)).
Proof. intros H. destruct b; cbn in H; destruct H; try discriminate; cbn [format fst snd]; lia. Qed.

Definition size_of (b : builtin) : Z := if is_cplx b then data_size b / 2 else data_size b.
(** A wider format contains a narrower one; of two formats of different size
    the larger one has the smaller least exponent. *)
Lemma format_le d s : (is_flt d = true \/ is_cplx d = true) -> (is_flt s = true \/ is_cplx s = true) -> size_of s <= size_of d ->
  fst (fst (format s)) <= fst (fst (format d)) /\ snd (fst (format d)) <= snd (fst (format s)) /\ snd (format s) <= snd (format d).
Proof. intros Hd Hs. destruct d; cbn in Hd; destruct Hd; try discriminate; destruct s; cbn in Hs; destruct Hs; try discriminate; cbn [format fst snd]; intros X; vm_compute in X; try (exfalso; apply X; reflexivity); repeat split; discriminate. Qed.
Lemma format_gt d s : (is_flt d = true \/ is_cplx d = true) -> (is_flt s = true \/ is_cplx s = true) -> size_of d < size_of s ->
  snd (fst (format s)) < snd (fst (format d)).
Proof. intros Hd Hs. destruct d; cbn in Hd; destruct Hd; try discriminate; destruct s; cbn in Hs; destruct Hs; try discriminate; cbn [format fst snd]; intros X; vm_compute in X; try discriminate X; reflexivity. Qed.
Lemma int_format_lt d s : (is_flt d = true \/ is_cplx d = true) -> is_int s = true -> (s = bool_ \/ data_size s < size_of d) ->
  - 2 ^ fst (fst (format d)) < fst (range s) /\ snd (range s) < 2 ^ fst (fst (format d)).
Proof.
  intros Hd Hs. destruct d; cbn in Hd; destruct Hd; try discriminate; destruct s; try discriminate Hs; cbn [format range fst snd]; pows; intros [X|X];
    try discriminate X; vm_compute in X; try discriminate X; split; reflexivity.
Qed.
Lemma int_format_ge d s : (is_flt d = true \/ is_cplx d = true) -> is_int s = true -> s <> bool_ -> size_of d <= data_size s ->
  fst (range s) <= 2 ^ fst (fst (format d)) + 1 <= snd (range s).
Proof.
  intros Hd Hs. destruct d; cbn in Hd; destruct Hd; try discriminate; destruct s; try discriminate Hs; cbn [format range fst snd]; pows; intros N X;
    try congruence; vm_compute in X; try congruence; split; discriminate.
Qed.

Lemma integer_min b : is_int b = true -> number_of b (integer (fst (range b))) zero.
Proof. intros H. apply number_int; [exact H|]. apply is_integer_at. destruct b; try discriminate H; cbn [range fst snd]; pows; lia. Qed.
Lemma integer_max b : is_int b = true -> number_of b (integer (snd (range b))) zero.
Proof. intros H. apply number_int; [exact H|]. apply is_integer_at. destruct b; try discriminate H; cbn [range fst snd]; pows; lia. Qed.
Lemma incl_ints d s : is_int d = true -> is_int s = true ->
  (incl d s <-> fst (range d) <= fst (range s) /\ snd (range s) <= snd (range d)).
Proof.
  intros Hd Hs. split.
  - intros I. pose proof (I _ _ (integer_min s Hs)) as A. pose proof (I _ _ (integer_max s Hs)) as B.
    apply number_int in A, B; try assumption. destruct A as (x & Hx & Ex & _), B as (y & Hy & Ey & _).
    apply integer_inj in Ex, Ey. lia.
  - intros [A B] re im H. apply number_int in H; [|exact Hs]. apply number_int; [exact Hd|]. exact (is_integer_incl _ _ _ _ A B _ _ H).
Qed.
Lemma incl_int_to_flt d s : (is_flt d = true \/ is_cplx d = true) -> is_int s = true -> (s = bool_ \/ data_size s < size_of d) -> incl d s.
Proof.
  intros Hd Hs H re im N. apply number_int in N; [|exact Hs]. destruct N as (z & Hz & -> & ->).
  pose proof (format_ok d Hd) as (P & Z0 & _). pose proof (int_format_lt d s Hd Hs H) as [A B].
  assert (X : is_binary (fst (fst (format d))) (snd (fst (format d))) (snd (format d)) (integer z)).
  { apply binary_integer; [exact Z0|]. set (w := 2 ^ fst (fst (format d))) in *. lia. }
  destruct Hd as [Hd|Hd].
  - apply number_flt; [exact Hd|]. split; [exact X|reflexivity].
  - apply number_cplx; [exact Hd|]. split; [exact X|]. apply binary_zero; assumption.
Qed.
Lemma not_int_to_flt d s : (is_flt d = true \/ is_cplx d = true) -> is_int s = true -> s <> bool_ -> size_of d <= data_size s -> ~ incl d s.
Proof.
  intros Hd Hs Nb H I. pose proof (int_format_ge d s Hd Hs Nb H) as R. pose proof (format_ok d Hd) as (P & Z0 & L).
  assert (N : number_of s (integer (2 ^ fst (fst (format d)) + 1)) zero) by (apply number_int; [exact Hs|]; apply is_integer_at; exact R).
  apply I in N. destruct Hd as [Hd|Hd].
  - apply number_flt in N; [|exact Hd]. exact (binary_no_odd _ _ _ P L (proj1 N)).
  - apply number_cplx in N; [|exact Hd]. exact (binary_no_odd _ _ _ P L (proj1 N)).
Qed.
Lemma incl_flts d s : (is_flt d = true \/ is_cplx d = true) -> (is_flt s = true \/ is_cplx s = true) -> (is_cplx s = true -> is_cplx d = true) ->
  (incl d s <-> size_of s <= size_of d).
Proof.
  intros Hd Hs Hc. pose proof (format_ok d Hd) as (P & Z0 & L). pose proof (format_ok s Hs) as (P' & Z0' & L'). split.
  - intros I. destruct (Z_le_gt_dec (size_of s) (size_of d)) as [H|H]; [exact H|exfalso].
    pose proof (format_gt d s Hd Hs ltac:(lia)) as G.
    pose proof (binary_tiny _ _ (snd (format s)) P' (Z.le_trans _ _ _ (proj1 Z0') (proj2 Z0')) L') as T.
    pose proof (binary_no_tiny (fst (fst (format d))) _ (snd (format d)) _ (conj L' G)) as F.
    assert (N : number_of s (Units (2 ^ (snd (fst (format s)) + 16494))) zero).
    { destruct Hs as [Hs|Hs]; [apply number_flt|apply number_cplx]; [exact Hs| |exact Hs|]; split; try exact T; [reflexivity|apply binary_zero; assumption]. }
    apply I in N. destruct Hd as [Hd|Hd]; [apply number_flt in N|apply number_cplx in N]; try exact Hd; exact (F (proj1 N)).
  - intros H. destruct (format_le d s Hd Hs H) as (A & B & C).
    assert (W : forall x, is_binary (fst (fst (format s))) (snd (fst (format s))) (snd (format s)) x ->
                          is_binary (fst (fst (format d))) (snd (fst (format d))) (snd (format d)) x) by (apply binary_incl; lia).
    intros re im N. destruct Hs as [Hs|Hs].
    + apply number_flt in N; [|exact Hs]. destruct N as [N ->]. destruct Hd as [Hd|Hd]; [apply number_flt|apply number_cplx]; try exact Hd.
      * split; [exact (W _ N)|reflexivity].
      * split; [exact (W _ N)|apply binary_zero; assumption].
    + specialize (Hc Hs). apply number_cplx in N; [|exact Hs]. apply number_cplx; [exact Hc|]. split; apply W; tauto.
Qed.
Lemma not_flt_to_int d s : is_int d = true -> is_flt s = true \/ is_cplx s = true -> ~ incl d s.
Proof.
  intros Hd Hs I. pose proof (format_ok s Hs) as (P & Z0 & L).
  assert (N : number_of s NaN zero).
  { destruct Hs as [Hs|Hs]; [apply number_flt|apply number_cplx]; try exact Hs; split; try exact Logic.I; [reflexivity|apply binary_zero; assumption]. }
  apply I in N. apply number_int in N; [|exact Hd]. destruct N as (z & _ & E & _). discriminate E.
Qed.
Lemma not_cplx_to_flt d s : is_flt d = true -> is_cplx s = true -> ~ incl d s.
Proof.
  intros Hd Hs I. pose proof (format_ok s (or_intror Hs)) as (P & Z0 & L).
  assert (N : number_of s zero NaN) by (apply number_cplx; [exact Hs|]; split; [apply binary_zero; assumption|exact Logic.I]).
  apply I in N. apply number_flt in N; [|exact Hd]. destruct N as [_ E]. discriminate E.
Qed.

Lemma builtin_exact d s : numeric d = true -> numeric s = true ->
  exists r, lossless_builtin d s = Ok r /\ (r = true <-> incl d s).
Proof.
  intros Hd Hs.
  assert (Kd : is_int d = true \/ is_flt d = true \/ is_cplx d = true) by (destruct d; try discriminate Hd; vm_compute; tauto).
  assert (Ks : is_int s = true \/ is_flt s = true \/ is_cplx s = true) by (destruct s; try discriminate Hs; vm_compute; tauto).
  destruct Kd as [Kd|Kd], Ks as [Ks|Ks].
  - (* integers *)
    assert (X : exists r, lossless_builtin d s = Ok r /\ (r = true <-> fst (range d) <= fst (range s) /\ snd (range s) <= snd (range d))).
    { destruct d; try discriminate Kd; destruct s; try discriminate Ks; cbn [range fst snd]; pows;
        (exists true; split; [reflexivity|]; split; intros; [lia|reflexivity]) || (exists false; split; [reflexivity|]; split; [discriminate|lia]). }
    destruct X as (r & E & X). exists r. split; [exact E|]. rewrite X. symmetry. apply incl_ints; assumption.
  - exists false. split; [destruct d; try discriminate Kd; destruct s; try reflexivity; destruct Ks; discriminate|].
    split; [discriminate|]. intros I. exfalso. exact (not_flt_to_int d s Kd Ks I).
  - destruct (builtin_eqb s bool_) eqn:Eb.
    + apply builtin_eqb_eq in Eb. subst s. exists true. split; [destruct d; try reflexivity; destruct Kd; discriminate|].
      split; [intros _|reflexivity]. apply incl_int_to_flt; tauto.
    + assert (Nb : s <> bool_) by (intros ->; discriminate Eb).
      assert (X : lossless_builtin d s = Ok (data_size s <? size_of d)).
      { destruct d; cbn in Kd; destruct Kd; try discriminate; destruct s; try discriminate Ks; try congruence; reflexivity. }
      rewrite X. eexists. split; [reflexivity|]. rewrite Z.ltb_lt. split.
      * intros H. apply incl_int_to_flt; tauto.
      * intros I. destruct (Z_lt_le_dec (data_size s) (size_of d)) as [H|H]; [exact H|]. exfalso. exact (not_int_to_flt d s Kd Ks Nb H I).
  - destruct (is_cplx s && is_flt d) eqn:C.
    + apply andb_true_iff in C as [Cs Cd]. exists false. split.
      * destruct d; try discriminate Cd; destruct s; try discriminate Cs; reflexivity.
      * split; [discriminate|]. intros I. exfalso. exact (not_cplx_to_flt d s Cd Cs I).
    + assert (Hc : is_cplx s = true -> is_cplx d = true).
      { intros Cs. rewrite Cs in C. destruct Kd as [Kd|Kd]; [rewrite Kd in C; discriminate C|exact Kd]. }
      exists (size_of s <=? size_of d). split.
      * destruct d; cbn in Kd; destruct Kd; try discriminate; destruct s; cbn in Ks; destruct Ks; try discriminate; try discriminate C; reflexivity.
      * rewrite Z.leb_le. symmetry. apply incl_flts; assumption.
Qed.
Lemma builtin_throws d s : numeric d = false \/ numeric s = false -> lossless_builtin d s = Throw "unhandled built-in case".
Proof. intros [H|H]; [destruct d; try discriminate H; destruct s; reflexivity|destruct s; try discriminate H; destruct d; reflexivity]. Qed.

(** ** All types *)
Lemma lossless_core d s : lossless d s = lossless (core d) s.
Proof. induction d; try reflexivity; cbn [lossless core]; assumption. Qed.
Lemma to_builtin_core d s : lossless_to_builtin d s = match core s with TBuiltin b => lossless_builtin d b | _ => Ok false end.
Proof. induction s; try reflexivity; cbn [lossless_to_builtin core]; assumption. Qed.
Lemma core_not t : match core t with TOption _ | TPointer _ => False | _ => True end.
Proof. induction t; try exact I; cbn [core]; assumption. Qed.
Lemma core_core t : core (core t) = core t.
Proof. induction t; try reflexivity; cbn [core]; assumption. Qed.
Lemma holds_option t v : holds (TOption t) v <-> v = VNA \/ holds t v.
Proof. destruct v; cbn [holds]; split; intros H; try tauto; try (right; exact H); destruct H as [H|H]; try discriminate H; exact H. Qed.
Lemma holds_core t : forall v, holds t v <-> (can_be_missing t = true /\ v = VNA) \/ holds (core t) v.
Proof.
  induction t; intros v; try (cbn [can_be_missing core]; split; [intros H; right; exact H|intros [[H _]|H]; [discriminate H|exact H]]).
  - cbn [can_be_missing core]. change (holds (TPointer t) v) with (holds t v). apply IHt.
  - rewrite holds_option, IHt. cbn [can_be_missing core]. tauto.
Qed.
Lemma core_no_na t : ~ holds (core t) VNA.
Proof. pose proof (core_not t) as H. destruct (core t) as [b|l| | | | | | | | | | | | | | | | | ]; try contradiction; cbn [holds]; try tauto. destruct l; tauto. Qed.
Lemma missing_iff t : holds t VNA <-> can_be_missing t = true.
Proof. rewrite holds_core. pose proof (core_no_na t). tauto. Qed.
Lemma holds_builtin b v : holds (TBuiltin b) v <-> exists re im, v = VNum re im /\ number_of b re im.
Proof.
  destruct v; cbn [holds]; split; intros H; try contradiction; try (destruct H as (? & ? & H & _); discriminate H).
  - eauto.
  - destruct H as (a & c & E & H). injection E as -> ->. exact H.
Qed.
Lemma builtin_true_incl d s : lossless_builtin d s = Ok true -> incl d s.
Proof.
  intros E. destruct (numeric d) eqn:D, (numeric s) eqn:S; try (rewrite builtin_throws in E by auto; discriminate E).
  destruct (builtin_exact d s D S) as (r & E' & X). rewrite E in E'. injection E' as <-. tauto.
Qed.
(** What a positive answer with a destination that is not builtin says. *)
Lemma lossless_other d s : match core d with TBuiltin _ => False | _ => True end -> lossless d s = Ok true ->
  (s = core d \/ (exists a b, core d = TLeaf (LBytes a) /\ s = TLeaf (LBytes b)) \/ (exists a, core d = TLeaf (LBytes a) /\ s = TKind KFixedBytes)
   \/ (exists n a b, core d = TLeaf (LFixedBytes n a) /\ s = TLeaf (LFixedBytes n b))) /\ never_lossless (core d) = false.
Proof.
  intros N E. rewrite lossless_core in E. pose proof (core_not d) as C. revert N C E.
  destruct (core d) as [b|l| | | | | | | | | |k| | | | | | | ]; intros N C E; try contradiction; cbn [lossless never_lossless] in *; try discriminate E;
    try (injection E as E; match goal with |- (s = ?t \/ _) /\ _ => change (ty_eqb t s = true) in E end; apply ty_eqb_eq in E; split; [left; symmetry; exact E|reflexivity]).
  - destruct l as [a|n a| | | |]; try discriminate E; split; try reflexivity.
    + injection E as E. destruct s as [b|l| | | | | | | | | |k| | | | | | | ]; try discriminate E; [destruct l as [b|n b| | | |]|destruct k]; try discriminate E.
      * right; left. eauto.
      * right; right; left. eauto.
    + injection E as E. destruct s as [b|l| | | | | | | | | |k| | | | | | | ]; try discriminate E. destruct l as [b|m b| | | |]; try discriminate E.
      apply Z.eqb_eq in E. subst m. right; right; right. eauto.
    + injection E as E. change (ty_eqb (TLeaf (LOther n)) s = true) in E. apply ty_eqb_eq in E. left; symmetry; exact E.
  - destruct k; try discriminate E; (injection E as E; match goal with |- (s = ?t \/ _) /\ _ => change (ty_eqb t s = true) in E end; apply ty_eqb_eq in E; split; [left; symmetry; exact E|reflexivity]).
Qed.
Lemma lossless_builtin_core d s b : core d = TBuiltin b -> lossless d s = Ok true -> exists c, core s = TBuiltin c /\ lossless_builtin b c = Ok true.
Proof. intros C E. rewrite lossless_core, C in E. cbn [lossless] in E. rewrite to_builtin_core in E. destruct (core s) as [c| | | | | | | | | | | | | | | | | | ]; try discriminate E. eauto. Qed.

(** Up to the missing value a positive answer is right. *)
Lemma lossless_sound d s v : lossless d s = Ok true -> holds s v -> v <> VNA -> holds d v.
Proof.
  intros E H N. rewrite holds_core. right. pose proof (lossless_builtin_core d s) as B. pose proof (lossless_other d s) as O.
  destruct (core d) as [b|l| | | | | | | | | |k| | | | | | | ] eqn:Cd;
    try (destruct (O I E) as [[->|[(x & y & X & ->)|[(x & X & ->)|(nn & x & y & X & ->)]]] _]; try discriminate X;
         try (injection X as ->); try (injection X as -> ->); try exact H; try contradiction H; destruct v; cbn [holds] in *; try contradiction; exact H).
  destruct (B b eq_refl E) as (c & Cs & E'). apply holds_core in H as [[_ H]|H]; [contradiction|]. rewrite Cs in H.
  apply holds_builtin in H as (re & im & -> & H). apply holds_builtin. exists re, im. split; [reflexivity|]. exact (builtin_true_incl _ _ E' _ _ H).
Qed.
Lemma sound_iff d s : lossless d s = Ok true -> (holds_all_of d s <-> (can_be_missing s = true -> can_be_missing d = true)).
Proof.
  intros E. split.
  - intros A M. apply missing_iff. apply A. apply missing_iff. exact M.
  - intros M v H. destruct v; try (apply (lossless_sound d s _ E H); discriminate). apply missing_iff. apply M. apply missing_iff. exact H.
Qed.

(** ** Preorder *)
Lemma never_core_missing d s : never_lossless (core d) = true -> lossless d s = Ok false.
Proof.
  intros N. rewrite lossless_core. destruct (core d) as [b|l| | | | | | | | | |k| | | | | | | ]; try discriminate N; cbn [lossless]; try reflexivity.
  - destruct l; try discriminate N; reflexivity.
  - destruct k; try discriminate N; reflexivity.
Qed.
Lemma incl_trans a b c : incl a b -> incl b c -> incl a c.
Proof. intros H K re im N. apply H, K, N. Qed.
Lemma builtin_trans a b c : lossless_builtin a b = Ok true -> lossless_builtin b c = Ok true -> lossless_builtin a c = Ok true.
Proof.
  intros E F.
  destruct (numeric a) eqn:A; [|rewrite builtin_throws in E by auto; discriminate E].
  destruct (numeric b) eqn:B; [|rewrite builtin_throws in E by auto; discriminate E].
  destruct (numeric c) eqn:C; [|rewrite builtin_throws in F by auto; discriminate F].
  destruct (builtin_exact a c A C) as (r & R & X). rewrite R. f_equal. apply X.
  exact (incl_trans a b c (builtin_true_incl _ _ E) (builtin_true_incl _ _ F)).
Qed.
Lemma not_core_inv t : (match t with TOption _ | TPointer _ => False | _ => True end) -> core t = t.
Proof. destruct t; try contradiction; reflexivity. Qed.
Lemma lossless_trans a b c : lossless a b = Ok true -> lossless b c = Ok true -> lossless a c = Ok true.
Proof.
  intros E F. pose proof (lossless_builtin_core a b) as B. pose proof (lossless_other a b) as O. pose proof (core_not a) as N.
  destruct (core a) as [x|l| | | | | | | | | |k| | | | | | | ] eqn:Ca.
  - destruct (B x eq_refl E) as (y & Cb & E1). destruct (lossless_builtin_core b c y Cb F) as (z & Cc & F1).
    rewrite lossless_core, Ca. cbn [lossless]. rewrite to_builtin_core, Cc. exact (builtin_trans _ _ _ E1 F1).
  - destruct (O I E) as [[->|[(x & y & X & ->)|[(x & X & ->)|(nn & x & y & X & ->)]]] V]; try discriminate X; rewrite lossless_core, Ca; try exact F;
      injection X as ->; cbn [lossless] in *; try discriminate F; exact F.
  - destruct (O I E) as [[->|[(x & y & X & _)|[(x & X & _)|(n0 & x & y & X & _)]]] V]; try discriminate X. rewrite lossless_core, Ca. exact F.
  - destruct (O I E) as [[->|[(x & y & X & _)|[(x & X & _)|(n0 & x & y & X & _)]]] V]; try discriminate X. rewrite lossless_core, Ca. exact F.
  - contradiction.
  - contradiction.
  - destruct (O I E) as [[->|[(x & y & X & _)|[(x & X & _)|(n0 & x & y & X & _)]]] V]; try discriminate X. rewrite lossless_core, Ca. exact F.
  - destruct (O I E) as [[->|[(x & y & X & _)|[(x & X & _)|(n0 & x & y & X & _)]]] V]; try discriminate X. rewrite lossless_core, Ca. exact F.
  - destruct (O I E) as [[->|[(x & y & X & _)|[(x & X & _)|(n0 & x & y & X & _)]]] V]; try discriminate X. rewrite lossless_core, Ca. exact F.
  - destruct (O I E) as [[->|[(x & y & X & _)|[(x & X & _)|(n0 & x & y & X & _)]]] V]; try discriminate X. rewrite lossless_core, Ca. exact F.
  - destruct (O I E) as [[->|[(x & y & X & _)|[(x & X & _)|(n0 & x & y & X & _)]]] V]; try discriminate X. rewrite lossless_core, Ca. exact F.
  - destruct (O I E) as [[->|[(x & y & X & _)|[(x & X & _)|(n0 & x & y & X & _)]]] V]; try discriminate X. rewrite lossless_core, Ca. exact F.
  - destruct (O I E) as [[->|[(x & y & X & _)|[(x & X & _)|(n0 & x & y & X & _)]]] V]; try discriminate X. rewrite lossless_core, Ca. exact F.
  - destruct (O I E) as [[->|[(x & y & X & _)|[(x & X & _)|(n0 & x & y & X & _)]]] V]; try discriminate X. rewrite lossless_core, Ca. exact F.
  - destruct (O I E) as [[->|[(x & y & X & _)|[(x & X & _)|(n0 & x & y & X & _)]]] V]; try discriminate X. rewrite lossless_core, Ca. exact F.
  - destruct (O I E) as [[->|[(x & y & X & _)|[(x & X & _)|(n0 & x & y & X & _)]]] V]; try discriminate X. rewrite lossless_core, Ca. exact F.
  - destruct (O I E) as [[->|[(x & y & X & _)|[(x & X & _)|(n0 & x & y & X & _)]]] V]; try discriminate X. rewrite lossless_core, Ca. exact F.
  - destruct (O I E) as [[->|[(x & y & X & _)|[(x & X & _)|(n0 & x & y & X & _)]]] V]; try discriminate X. rewrite lossless_core, Ca. exact F.
  - destruct (O I E) as [[->|[(x & y & X & _)|[(x & X & _)|(n0 & x & y & X & _)]]] V]; try discriminate X. rewrite lossless_core, Ca. exact F.
Qed.
