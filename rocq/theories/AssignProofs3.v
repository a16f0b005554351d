(** The assignment table as a whole. *)
From Verif Require Import Base ParseIntModel ParseIntSpec ParseIntProofs AssignModel AssignSpec AssignProofs AssignProofs2.
Open Scope Z_scope.

Lemma fval_abs s n : 0 <= n -> Z.abs (fval s n) = n.
Proof. destruct s; cbn; lia. Qed.
Lemma magnitude_0 F : magnitude F 0.
Proof. rewrite magnitude_iff. pose proof (fmt_facts F). exists 0, (fq F). split; [reflexivity|]. split; [split; [lia|apply Z.pow_pos_nonneg; lia]|lia]. Qed.
Lemma magnitude_1 F : magnitude F one.
Proof.
  rewrite magnitude_iff. pose proof (fmt_facts F). exists 1, 1074. rewrite one_pow. split; [lia|].
  split; [|lia]. split; [lia|]. change 1 with (2 ^ 0). apply Z.pow_lt_mono_r; lia.
Qed.
Lemma flt_of_num F x c : is_flt F x -> num_of x = Num c -> magnitude F (Z.abs c).
Proof.
  destruct x as [|s|s n]; cbn [num_of is_flt]; try discriminate. intros H E. injection E as <-.
  pose proof (magnitude_bounds F n H). replace (Z.abs (if s then - n else n)) with n; auto. destruct s; lia.
Qed.
(** A finite value that fits [F] goes through unchanged, whatever the format it
    came from. *)
Lemma f2f_fits F x c : (exists G, is_flt G x) -> num_of x = Num c -> magnitude F (Z.abs c) ->
  f2f F x = x /\ f_out F x = false /\ isfinite x = true.
Proof.
  intros (G & Hx) E H. destruct x as [|s|s n]; cbn [num_of] in E; try discriminate. injection E as E.
  cbn in Hx. pose proof (magnitude_bounds G n Hx) as B.
  assert (M : magnitude F n) by (replace n with (Z.abs c); [exact H|]; rewrite <- E; destruct s; lia).
  cbn [f2f isfinite]. rewrite fround_id by exact M. rewrite f_out_mag by exact M. auto.
Qed.
Lemma i2f_bool F c : num_of (i2f F (bool_z c)) = Num (if c then one else 0) /\ is_flt F (i2f F (bool_z c)).
Proof.
  split; [|apply i2f_flt]. rewrite i2f_exact.
  - destruct c; cbn [bool_z]; f_equal; lia.
  - destruct c; cbn [bool_z]; [change (Z.abs 1) with 1; rewrite Z.mul_1_l; apply magnitude_1|apply magnitude_0].
Qed.
Lemma fzero_flt F : is_flt F fzero. Proof. apply magnitude_0. Qed.

(** ** Results are values of the destination type. *)
Lemma cast_in_int s b z : is_type (TInt s b) -> in_int s b (cast s b z).
Proof.
  intros T. apply in_int_range. pose proof (type_b s b T).
  pose proof (cast_range s b z ltac:(lia)) as R. unfold in_range, tmin, tmax in *. destruct s; lia.
Qed.
Lemma f2i_typed s b x z : f2i s b x = Ok z -> in_int s b z.
Proof.
  destruct x; cbn; try discriminate. destruct (_ && _) eqn:E; [|discriminate]. intros X; injection X as <-.
  apply in_int_range. lia.
Qed.

Lemma nocheck_typed dst src v w : is_type dst -> of_type src v -> nocheck_cast dst v = Ok w -> of_type dst w.
Proof.
  intros Td Hv E. destruct dst as [|s b|F|F], src as [|s' b'|G|G], v as [c|z|x|x y]; cbn [of_type] in Hv; try tauto;
    cbn [nocheck_cast] in E;
    repeat match type of E with bind (f2i ?s ?b ?x) _ = Ok _ => destruct (f2i s b x) eqn:X; cbn [bind] in E; try discriminate end;
    injection E as <-; cbn [of_type]; auto; try (apply cast_in_int; exact Td); try (eapply f2i_typed; eassumption);
    try (apply i2f_flt); try (split; [apply i2f_flt|apply fzero_flt]).
  - eapply f2f_flt; exact Hv.
  - destruct Hv. eapply f2f_flt; eassumption.
  - split; [eapply f2f_flt; exact Hv|apply fzero_flt].
  - destruct Hv. split; eapply f2f_flt; eassumption.
Qed.

Ltac ok_inv E :=
  repeat match type of E with
  | (if ?c then _ else _) = Ok _ => destruct c eqn:?; try discriminate E
  | bind ?o _ = Ok _ => destruct o eqn:?; cbn [bind] in E; try discriminate E
  end.


Lemma overflow_f2i_typed F s b x z : overflow_f2i F s b x = Ok z -> in_int s b z.
Proof. unfold overflow_f2i. intros E. ok_inv E. eapply f2i_typed; exact E. Qed.
Lemma fractional_f2i_typed F s b x z : fractional_f2i F s b x = Ok z -> in_int s b z.
Proof. unfold fractional_f2i. intros E. ok_inv E. eapply f2i_typed; exact E. Qed.
Lemma overflow_bool_bool v w : overflow_bool v = Ok w -> exists b, w = VBool b.
Proof. unfold overflow_bool. intros E. ok_inv E; injection E as <-; eauto. Qed.

Lemma assign_typed m dst src v w : is_type dst -> is_type src -> of_type src v ->
  assign m dst src v = Ok w -> of_type dst w.
Proof.
  intros Td Ts Hv E.
  assert (NC : nocheck_cast dst v = Ok w -> of_type dst w) by exact (nocheck_typed dst src v w Td Hv).
  destruct m; [exact (NC E)| | |];
    destruct dst as [|s b|F|F], src as [|s' b'|G|G], v as [c|z|x|x y]; cbn [of_type] in Hv; try tauto;
    cbn [assign] in E; try (exact (NC E)); try (apply overflow_bool_bool in E; destruct E as (? & ->); exact I);
    try (destruct (fsz_widens G F) eqn:W; [exact (NC E)|]);
    unfold v_int, v_flt, v_cplx in E; ok_inv E; try (injection E as <-); cbn [of_type fst snd];
    try match goal with
    | H : overflow_i2i _ _ _ _ _ = Ok _ |- _ => unfold overflow_i2i in H; ok_inv H; injection H as <-; apply cast_in_int; exact Td
    | H : overflow_f2i _ _ _ _ = Ok _ |- _ => eapply overflow_f2i_typed; exact H
    | H : fractional_f2i _ _ _ _ = Ok _ |- _ => eapply fractional_f2i_typed; exact H
    | H : overflow_c2i _ _ _ _ _ = Ok _ |- _ => unfold overflow_c2i in H; ok_inv H; eapply overflow_f2i_typed; exact H
    | H : fractional_c2i _ _ _ _ _ = Ok _ |- _ => unfold fractional_c2i in H; ok_inv H; eapply fractional_f2i_typed; exact H
    | H : overflow_f2f _ _ = Ok _ |- _ => unfold overflow_f2f in H; ok_inv H; injection H as <-; eapply f2f_flt; eassumption
    | H : check_f2f _ _ = Ok _ |- _ => unfold check_f2f in H; cbv zeta in H; ok_inv H; injection H as <-; eapply f2f_flt; eassumption
    | H : overflow_f2c _ _ = Ok _ |- _ => unfold overflow_f2c in H; ok_inv H; injection H as <-; split; [eapply f2f_flt; eassumption|apply fzero_flt]
    | H : check_f2c _ _ = Ok _ |- _ => unfold check_f2c in H; cbv zeta in H; ok_inv H; injection H as <-; split; [eapply f2f_flt; eassumption|apply fzero_flt]
    | H : overflow_c2f _ _ _ = Ok _ |- _ => unfold overflow_c2f in H; ok_inv H; injection H as <-; destruct Hv; eapply f2f_flt; eassumption
    | H : overflow_c2c _ _ = Ok _ |- _ => unfold overflow_c2c in H; ok_inv H; injection H as <-; destruct Hv, F, G; try discriminate W; split; eapply f2f_flt; eassumption
    | H : check_c2c _ _ = Ok _ |- _ => unfold check_c2c in H; cbv zeta in H; ok_inv H; injection H as <-; destruct Hv, F, G; try discriminate W; split; eapply f2f_flt; eassumption
    | H : check_i2f _ _ _ _ = Ok _ |- _ => apply check_i2f_sound in H; destruct H as (-> & _); first [apply i2f_flt | fail]
    end.
  - (* complex to real, inexact *)
    destruct Hv as (Hx & Hy). destruct F, G; try (unfold overflow_c2f in Heqo; ok_inv Heqo; injection Heqo as <-; eapply f2f_flt; eassumption).
    unfold check_c2f in Heqo; cbv zeta in Heqo; ok_inv Heqo; injection Heqo as <-; eapply f2f_flt; eassumption.
  - (* integer to complex, inexact *)
    destruct (check_i2f F s' b' z) eqn:C; cbn [bind] in Heqo; try discriminate. injection Heqo as <-.
    apply check_i2f_sound in C. destruct C as (-> & _). split; [apply i2f_flt|apply fzero_flt].
Qed.

(** ** Inexact mode never changes the value. *)
Lemma cast_id_int s b z : is_type (TInt s b) -> in_int s b z -> cast s b z = z.
Proof.
  intros T H. pose proof (type_b s b T). apply cast_id; [lia|].
  apply in_int_range in H. unfold in_range, tmin, tmax in *. destruct s; lia.
Qed.
Lemma bool_cast s b c : is_type (TInt s b) -> cast s b (bool_z c) = bool_z c.
Proof.
  intros T. apply cast_id_int; auto. apply in_int_range.
  pose proof (tmax_pos s b T). pose proof (tmin_neg s b T). destruct c; cbn; lia.
Qed.
Lemma fractional_f2i_sound F s b x z : is_type (TInt s b) -> is_flt F x ->
  fractional_f2i F s b x = Ok z -> num_of x = Num (z * one).
Proof.
  intros T Hx E. pose proof (fractional_f2i_spec F s b x T Hx) as S. pose proof one_pos as P.
  destruct (num_of x) as [|i|v] eqn:N; try congruence. f_equal.
  destruct S as (S1 & S2 & S3 & S4).
  destruct (Z.le_gt_cases (tmin s b * one) v) as [L|L].
  2:{ rewrite S4 in E; [discriminate|lia|]. intros (X & _). pose proof (tmax_pos s b T). pose proof (tmin_neg s b T). nia. }
  destruct (Z.le_gt_cases v (tmax s b * one)) as [U|U].
  - destruct (Z.eq_dec (v mod one) 0) as [M|M]; [|rewrite S2 in E by (auto; lia); discriminate].
    pose proof (Z.div_mod v one ltac:(lia)) as D. rewrite M in D.
    rewrite (S1 (v / one)) in E by nia. injection E as <-. lia.
  - destruct (Z.eq_dec v ((tmax s b + 1) * one)) as [V|V].
    + destruct (Z.lt_ge_cases (fp F) (digits s b)) as [D|D]; [rewrite S3 in E by auto; discriminate|].
      rewrite S4 in E; [discriminate|lia|lia].
    + rewrite S4 in E; [discriminate|lia|tauto].
Qed.
Lemma overflow_bool_sound v w : overflow_bool v = Ok w -> denote w = denote v.
Proof.
  unfold overflow_bool. pose proof (i2f_bool S64 false) as (F0 & _). pose proof (i2f_bool S64 true) as (F1 & _).
  destruct v as [c|z|x|x y].
  - destruct c; cbn [Bool.eqb]; intros E; injection E as <-; reflexivity.
  - cbn [bool_z]. destruct (Z.eqb_spec z 0) as [->|]; [intros E; injection E as <-; reflexivity|].
    destruct (Z.eqb_spec z 1) as [->|]; [|discriminate]. intros E; injection E as <-. cbn [denote]. rewrite Z.mul_1_l. reflexivity.
  - destruct (flt_eq x (i2f S64 (bool_z false))) eqn:A; [|destruct (flt_eq x (i2f S64 (bool_z true))) eqn:B; [|discriminate]];
      intros E; injection E as <-; cbn [denote]; f_equal.
    + apply flt_eq_num in A. rewrite A, F0. reflexivity.
    + apply flt_eq_num in B. rewrite B, F1, one_unit. reflexivity.
  - destruct (flt_eq x (i2f S64 (bool_z false)) && flt_eq y fzero) eqn:A;
      [|destruct (flt_eq x (i2f S64 (bool_z true)) && flt_eq y fzero) eqn:B; [|discriminate]];
      intros E; injection E as <-; cbn [denote].
    + apply andb_true_iff in A. destruct A as (A & A2). apply flt_eq_num in A, A2. rewrite A, A2, F0. reflexivity.
    + apply andb_true_iff in B. destruct B as (B1 & B2). apply flt_eq_num in B1, B2. rewrite B1, B2, F1, one_unit. reflexivity.
Qed.
Lemma nocheck_bool_src dst c : is_type dst -> exists w, nocheck_cast dst (VBool c) = Ok w /\ denote w = denote (VBool c).
Proof.
  intros T. destruct dst as [|s b|F|F]; cbn [nocheck_cast]; (eexists; split; [reflexivity|]); cbn [denote].
  - reflexivity.
  - rewrite bool_cast by exact T. f_equal. f_equal. destruct c; cbn [bool_z]; lia.
  - destruct (i2f_bool F c) as (-> & _). rewrite one_unit. reflexivity.
  - destruct (i2f_bool F c) as (-> & _). rewrite one_unit. reflexivity.
Qed.

Lemma flt_pair x (y : xnum) v : num_of x = v -> (num_of x, y) = (v, y).
Proof. now intros ->. Qed.

Lemma inexact_sound dst src v w : is_type dst -> is_type src -> of_type src v ->
  assign inexact dst src v = Ok w -> denote w = denote v.
Proof.
  intros Td Ts Hv E.
  destruct dst as [|s b|F|F], src as [|s' b'|G|G], v as [c|z|x|x y]; cbn [of_type] in Hv; try tauto; cbn [assign] in E;
    try (exact (overflow_bool_sound _ _ E));
    try (destruct (nocheck_bool_src _ c Td) as (w' & E' & D'); rewrite E' in E; injection E as <-; exact D').
  - unfold v_int in E. rewrite i2i_spec in E by assumption. ok_inv E. ok_inv Heqo. injection Heqo as <-. injection E as <-. reflexivity.
  - unfold v_int in E. ok_inv E. injection E as <-. cbn [denote].
    rewrite (fractional_f2i_sound G s b x a Td Hv Heqo), one_unit. reflexivity.
  - destruct Hv as (Hx & Hy). unfold v_int, fractional_c2i in E. ok_inv E. ok_inv Heqo. injection E as <-. cbn [denote].
    rewrite (fractional_f2i_sound G s b x a Td Hx Heqo), (flt_nz_false y Heqb0), one_unit. reflexivity.
  - unfold v_flt in E. ok_inv E. injection E as <-. cbn [denote]. apply check_i2f_sound in Heqo.
    destruct Heqo as (_ & ->). rewrite one_unit. reflexivity.
  - destruct (fsz_widens G F) eqn:W.
    + cbn [nocheck_cast] in E. injection E as <-. cbn [denote]. rewrite num_f2f; [reflexivity|]. exact (widen_flt G F x W Hv).
    + unfold v_flt, check_f2f in E. cbv zeta in E. ok_inv E. ok_inv Heqo. injection Heqo as <-. injection E as <-.
      apply negb_false_iff, flt_eq_num in Heqb0. cbn [denote]. rewrite Heqb0. reflexivity.
  - destruct Hv as (Hx & Hy). unfold v_flt in E. ok_inv E. injection E as <-. cbn [denote].
    assert (O : forall F', fsz_widens G F' = true -> overflow_c2f F' x y = Ok a -> (num_of a, Num 0) = (num_of x, num_of y)).
    { intros F' W H. unfold overflow_c2f in H. ok_inv H. injection H as <-. rewrite (flt_nz_false y Heqb).
      rewrite num_f2f; [reflexivity|]. exact (widen_flt G F' x W Hx). }
    destruct F, G; try (refine (O _ _ Heqo); reflexivity).
    unfold check_c2f in Heqo. cbv zeta in Heqo. ok_inv Heqo. injection Heqo as <-.
    rewrite (flt_nz_false y Heqb). apply negb_false_iff, flt_eq_num in Heqb1. rewrite Heqb1. reflexivity.
  - unfold v_cplx in E. destruct (check_i2f F s' b' z) eqn:C; cbn [bind] in E; try discriminate. injection E as <-.
    apply check_i2f_sound in C. destruct C as (_ & C). cbn [denote fst snd]. rewrite C, one_unit. reflexivity.
  - unfold v_cplx, check_f2c in E. cbv zeta in E. ok_inv E. ok_inv Heqo. injection Heqo as <-. injection E as <-.
    apply negb_false_iff, flt_eq_num in Heqb0. cbn [denote fst snd]. rewrite Heqb0. reflexivity.
  - destruct Hv as (Hx & Hy). destruct (fsz_widens G F) eqn:W.
    + cbn [nocheck_cast] in E. injection E as <-. cbn [denote].
      rewrite !num_f2f; [reflexivity| |]; eapply widen_flt; eassumption.
    + unfold v_cplx, check_c2c in E. cbv zeta in E. ok_inv E. ok_inv Heqo. injection Heqo as <-. injection E as <-.
      apply orb_false_iff in Heqb0. destruct Heqb0 as (A & B). apply negb_false_iff, flt_eq_num in A, B.
      cbn [denote fst snd]. rewrite A, B. reflexivity.
Qed.

(** To an integer, fractional mode is as strict. *)
Lemma fractional_sound s b src v w : is_type (TInt s b) -> is_type src -> of_type src v ->
  assign fractional (TInt s b) src v = Ok w -> denote w = denote v.
Proof. intros Td Ts Hv E. apply (inexact_sound (TInt s b) src v w Td Ts Hv). destruct src, v; exact E. Qed.

(** ** A representable value goes through unchanged in every mode. *)
Lemma f2i_fits F s b x z : is_type (TInt s b) -> is_flt F x -> num_of x = Num (z * one) -> in_int s b z ->
  f2i s b x = Ok z /\ overflow_f2i F s b x = Ok z /\ fractional_f2i F s b x = Ok z.
Proof.
  intros T Hx N R. pose proof one_pos as P. apply in_int_range in R.
  pose proof (overflow_f2i_spec F s b x T Hx) as O. pose proof (fractional_f2i_spec F s b x T Hx) as Q. rewrite N in O, Q.
  assert (V : tmin s b * one <= z * one <= tmax s b * one) by nia.
  split; [|split].
  - destruct x as [|i|i n]; cbn [num_of] in N; try discriminate.
    assert (A : fval i n = z * one) by (unfold fval; congruence). rewrite (f2i_in s b i n T) by (rewrite A; exact V).
    rewrite A, Z.quot_mul by lia. reflexivity.
  - destruct O as (O & _). rewrite (O V), Z.quot_mul by lia. reflexivity.
  - destruct Q as (Q & _). apply Q; auto.
Qed.
Lemma to_bool_fits v c : denote v = denote (VBool c) ->
  overflow_bool v = Ok (VBool c) /\ nocheck_cast TBool v = Ok (VBool c).
Proof.
  intros D. pose proof one_pos as P. destruct (i2f_bool S64 false) as (F0 & _). destruct (i2f_bool S64 true) as (F1 & _).
  destruct v as [c'|z|x|x y]; cbn [denote] in D; rewrite <- one_unit in D; unfold overflow_bool; cbn [nocheck_cast].
  - injection D as D. assert (c' = c) as -> by (destruct c, c'; auto; lia). destruct c; auto.
  - injection D as D. assert (z = bool_z c) as -> by (destruct c; cbn; nia). destruct c; auto.
  - injection D as D. unfold flt_nz. destruct c.
    + rewrite (flt_eq_fin x (i2f S64 (bool_z true)) one D F1).
      assert (A : forall q, num_of q = Num 0 -> flt_eq x q = false).
      { intros q Q. destruct (flt_eq x q) eqn:X; auto. apply flt_eq_num in X. rewrite D, Q in X. injection X as X. lia. }
      rewrite (A (i2f S64 (bool_z false)) F0), (A fzero eq_refl). auto.
    + rewrite (flt_eq_fin x (i2f S64 (bool_z false)) 0 D F0), (flt_eq_fin x fzero 0 D eq_refl). auto.
  - injection D as D DY. unfold flt_nz. rewrite (flt_eq_fin y fzero 0 DY eq_refl). rewrite !andb_true_r, orb_false_r. destruct c.
    + rewrite (flt_eq_fin x (i2f S64 (bool_z true)) one D F1).
      assert (A : forall q, num_of q = Num 0 -> flt_eq x q = false).
      { intros q Q. destruct (flt_eq x q) eqn:X; auto. apply flt_eq_num in X. rewrite D, Q in X. injection X as X. lia. }
      rewrite (A (i2f S64 (bool_z false)) F0), (A fzero eq_refl). auto.
    + rewrite (flt_eq_fin x (i2f S64 (bool_z false)) 0 D F0), (flt_eq_fin x fzero 0 D eq_refl). auto.
Qed.
