(** Completeness, strictness order, rounding conversions. *)
From Verif Require Import Base ParseIntModel ParseIntSpec ParseIntProofs AssignModel AssignSpec AssignProofs AssignProofs2 AssignProofs3.
Open Scope Z_scope.

(** What representable means, per destination. *)
Lemma rep_flt F n : representable (TFlt F) n -> finite n -> exists c, n = (Num c, Num 0) /\ magnitude F (Z.abs c).
Proof.
  intros (v & Hv & <-) (a & b & E). destruct v as [c|z|x|x y]; cbn [of_type] in Hv; try tauto.
  cbn [denote] in *. injection E as E _. exists a. split; [now rewrite E|]. exact (flt_of_num F x a Hv E).
Qed.
Lemma rep_cplx F n : representable (TCplx F) n -> finite n ->
  exists c d, n = (Num c, Num d) /\ magnitude F (Z.abs c) /\ magnitude F (Z.abs d).
Proof.
  intros (v & Hv & <-) (a & b & E). destruct v as [c|z|x|x y]; cbn [of_type] in Hv; try tauto. destruct Hv as (Hx & Hy).
  cbn [denote] in *. injection E as E E2. exists a, b. split; [now rewrite E, E2|].
  split; [exact (flt_of_num F x a Hx E)|exact (flt_of_num F y b Hy E2)].
Qed.

Lemma complete m dst src v : is_type dst -> is_type src -> of_type src v ->
  finite (denote v) -> representable dst (denote v) ->
  exists w, assign m dst src v = Ok w /\ denote w = denote v.
Proof.
  intros Td Ts Hv Fin Rep. pose proof one_pos as P.
  assert (E0 : forall F x, is_flt F x -> flt_eq x x = true \/ ~ exists c, num_of x = Num c).
  { intros F x _. destruct (num_of x) as [| |c] eqn:N; [right|right|left].
    - intros (c & X). congruence. - intros (c & X). congruence. - exact (flt_eq_fin x x c N N). }
  destruct dst as [|s b|F|F].
  - (* bool *)
    destruct Rep as (vb & Hb & D). destruct vb as [c| | |]; cbn [of_type] in Hb; try tauto.
    destruct (to_bool_fits v c (eq_sym D)) as (A & B).
    destruct m; cbn [assign]; [exists (VBool c); auto| | |];
      (destruct src; [exists (VBool c); auto|exists (VBool c); auto|exists (VBool c); auto|exists (VBool c); auto]).
  - (* integer *)
    destruct Rep as (vz & Hz & D). destruct vz as [|zd| |]; cbn [of_type] in Hz; try tauto.
    destruct src as [|s' b'|G|G], v as [c|z|x|x y]; cbn [of_type] in Hv; try tauto; cbn [denote] in *; rewrite <- one_unit in D.
    + destruct (nocheck_bool_src (TInt s b) c Td) as (w & E & Dw). exists w. split; [|exact Dw]. destruct m; exact E.
    + injection D as D. assert (zd = z) as -> by nia. exists (VInt z). split; [|reflexivity].
      assert (C : overflow_i2i s b s' b' z = Ok z).
      { rewrite i2i_spec by assumption. apply in_int_range in Hz.
        destruct (Z.leb_spec (tmin s b) z); destruct (Z.leb_spec z (tmax s b)); try lia. reflexivity. }
      destruct m; cbn [assign nocheck_cast]; unfold v_int; rewrite ?C; cbn [bind]; auto. rewrite cast_id_int by assumption. auto.
    + injection D as D. symmetry in D. destruct (f2i_fits G s b x zd Td Hv D Hz) as (A & B & C).
      exists (VInt zd). split; [|cbn [denote]; rewrite D, one_unit; reflexivity].
      destruct m; cbn [assign nocheck_cast]; unfold v_int; rewrite ?A, ?B, ?C; reflexivity.
    + destruct Hv as (Hx & Hy). injection D as D DY. symmetry in D, DY. destruct (f2i_fits G s b x zd Td Hx D Hz) as (A & B & C).
      exists (VInt zd). split; [|cbn [denote]; rewrite D, DY, one_unit; reflexivity].
      destruct m; cbn [assign nocheck_cast]; unfold v_int, overflow_c2i, fractional_c2i;
        rewrite ?(flt_nz_zero y DY), ?A, ?B, ?C; reflexivity.
  - (* real *)
    destruct (rep_flt F _ Rep Fin) as (cc & N & M).
    destruct src as [|s' b'|G|G], v as [c|z|x|x y]; cbn [of_type] in Hv; try tauto; cbn [denote] in N.
    + destruct (nocheck_bool_src (TFlt F) c Td) as (w & E & Dw). exists w. split; [|exact Dw]. destruct m; exact E.
    + injection N as N. rewrite <- one_unit in N. subst cc.
      assert (M' : magnitude F (Z.abs z * one)) by (replace (Z.abs z * one) with (Z.abs (z * one)); [exact M|rewrite Z.abs_mul; f_equal; lia]).
      destruct (check_i2f_complete F s' b' z Ts Hv M') as (d & E & Dd).
      pose proof (check_i2f_sound F s' b' z d E) as (Ed & _). exists (VFlt d).
      split; [|cbn [denote]; rewrite Dd, one_unit; reflexivity].
      destruct m; cbn [assign nocheck_cast]; rewrite <- ?Ed; auto. unfold v_flt. rewrite E. reflexivity.
    + injection N as N. destruct (f2f_fits F x cc (ex_intro _ G Hv) N M) as (A & B & C).
      exists (VFlt x). split; [|reflexivity].
      assert (Q : flt_eq x x = true) by exact (flt_eq_fin x x cc N N).
      destruct m; cbn [assign nocheck_cast]; destruct (fsz_widens G F); unfold v_flt, overflow_f2f, check_f2f; cbv zeta;
        rewrite ?A, ?B, ?C, ?A, ?Q; reflexivity.
    + destruct Hv as (Hx & Hy). injection N as N NY. destruct (f2f_fits F x cc (ex_intro _ G Hx) N M) as (A & B & C).
      exists (VFlt x). split; [|cbn [denote]; rewrite NY; reflexivity].
      assert (Q : flt_eq x x = true) by exact (flt_eq_fin x x cc N N).
      assert (O : overflow_c2f F x y = Ok x) by (unfold overflow_c2f; rewrite (flt_nz_zero y NY), B, A; reflexivity).
      destruct m; cbn [assign nocheck_cast]; unfold v_flt; rewrite ?O, ?A; auto.
      destruct F, G; rewrite ?O; auto. unfold check_c2f. cbv zeta. rewrite (flt_nz_zero y NY), B, A, Q. reflexivity.
  - (* complex *)
    destruct (rep_cplx F _ Rep Fin) as (cc & cd & N & M & M2).
    destruct src as [|s' b'|G|G], v as [c|z|x|x y]; cbn [of_type] in Hv; try tauto; cbn [denote] in N.
    + destruct (nocheck_bool_src (TCplx F) c Td) as (w & E & Dw). exists w. split; [|exact Dw]. destruct m; exact E.
    + injection N as N _. rewrite <- one_unit in N. subst cc.
      assert (M' : magnitude F (Z.abs z * one)) by (replace (Z.abs z * one) with (Z.abs (z * one)); [exact M|rewrite Z.abs_mul; f_equal; lia]).
      destruct (check_i2f_complete F s' b' z Ts Hv M') as (d & E & Dd).
      pose proof (check_i2f_sound F s' b' z d E) as (Ed & _). exists (VCplx d fzero).
      split; [|cbn [denote]; rewrite Dd, one_unit; reflexivity].
      destruct m; cbn [assign nocheck_cast]; rewrite <- ?Ed; auto. unfold v_cplx. rewrite E. reflexivity.
    + injection N as N _. destruct (f2f_fits F x cc (ex_intro _ G Hv) N M) as (A & B & C).
      exists (VCplx x fzero). split; [|reflexivity].
      assert (Q : flt_eq x x = true) by exact (flt_eq_fin x x cc N N).
      destruct m; cbn [assign nocheck_cast]; unfold v_cplx, overflow_f2c, check_f2c; cbv zeta;
        rewrite ?A, ?B, ?C, ?A, ?Q; reflexivity.
    + destruct Hv as (Hx & Hy). injection N as N NY. destruct (f2f_fits F x cc (ex_intro _ G Hx) N M) as (A & B & C).
      destruct (f2f_fits F y cd (ex_intro _ G Hy) NY M2) as (A' & B' & C').
      exists (VCplx x y). split; [|reflexivity].
      assert (Q : flt_eq x x = true) by exact (flt_eq_fin x x cc N N).
      assert (Q' : flt_eq y y = true) by exact (flt_eq_fin y y cd NY NY).
      destruct m; cbn [assign nocheck_cast]; rewrite ?A, ?A'; auto; destruct (fsz_widens G F) eqn:W; auto;
        (assert (F = S32) as -> by (destruct F, G; auto; discriminate W));
        unfold v_cplx, overflow_c2c, check_c2c; cbv zeta; rewrite ?B, ?B', ?A, ?A', ?Q, ?Q'; reflexivity.
Qed.

(** ** Stricter modes only reject more. *)
Lemma to_bool_agree v w : overflow_bool v = Ok w -> nocheck_cast TBool v = Ok w.
Proof.
  intros E. pose proof (overflow_bool_sound v w E) as D. destruct (overflow_bool_bool v w E) as (c & ->).
  exact (proj2 (to_bool_fits v c (eq_sym D))).
Qed.
Lemma step_inexact dst src v w : assign inexact dst src v = Ok w -> assign fractional dst src v = Ok w.
Proof.
  destruct dst as [|s b|F|F], src as [|s' b'|G|G], v as [c|z|x|x y]; cbn [assign]; intros E; try exact E.
  - unfold v_flt in E. ok_inv E. injection E as <-. apply check_i2f_sound in Heqo. destruct Heqo as (-> & _). reflexivity.
  - destruct (fsz_widens G F); [exact E|]. unfold v_flt, check_f2f, overflow_f2f in *. cbv zeta in E.
    destruct (isfinite x && f_out F x); [discriminate|]. destruct (negb _) in E; [discriminate|]. exact E.
  - destruct F, G; try exact E. unfold v_flt, check_c2f, overflow_c2f in *. cbv zeta in E.
    destruct (flt_nz y); [discriminate|]. destruct (f_out S32 x); [discriminate|]. destruct (negb _) in E; [discriminate|]. exact E.
  - unfold v_cplx in E. destruct (check_i2f F s' b' z) eqn:C; cbn [bind] in E; try discriminate. injection E as <-.
    apply check_i2f_sound in C. destruct C as (-> & _). reflexivity.
  - unfold v_cplx, check_f2c, overflow_f2c in *. cbv zeta in E.
    destruct (isfinite x && f_out F x); [discriminate|]. destruct (negb _) in E; [discriminate|]. exact E.
  - destruct (fsz_widens G F); [exact E|]. unfold v_cplx, check_c2c, overflow_c2c in *. cbv zeta in E.
    destruct (f_out S32 x || f_out S32 y); [discriminate|]. destruct (negb _ || negb _) in E; [discriminate|]. exact E.
Qed.
Lemma step_fractional dst src v w : assign fractional dst src v = Ok w -> assign overflow dst src v = Ok w.
Proof.
  destruct dst as [|s b|F|F], src as [|s' b'|G|G], v as [c|z|x|x y]; cbn [assign]; intros E; try exact E.
  - unfold v_int, fractional_f2i, overflow_f2i in *. destruct (f2i_out G s b x); [discriminate|].
    destruct (negb _) in E; [discriminate|]. exact E.
  - unfold v_int, fractional_c2i, overflow_c2i, fractional_f2i, overflow_f2i in *. destruct (flt_nz y); [discriminate|].
    destruct (f2i_out G s b x); [discriminate|]. destruct (negb _) in E; [discriminate|]. exact E.
Qed.
Lemma step_overflow dst src v w : assign overflow dst src v = Ok w -> assign nocheck dst src v = Ok w.
Proof.
  destruct dst as [|s b|F|F], src as [|s' b'|G|G], v as [c|z|x|x y]; cbn [assign]; intros E; try exact E; try discriminate;
    try exact (to_bool_agree _ _ E).
  - unfold v_int, overflow_i2i in E. destruct (is_overflow _ _ _ _ _); [discriminate|exact E].
  - unfold v_int, overflow_f2i in E. destruct (f2i_out _ _ _ _); [discriminate|exact E].
  - unfold v_int, overflow_c2i, overflow_f2i in E. destruct (flt_nz y); [discriminate|]. destruct (f2i_out _ _ _ _); [discriminate|exact E].
  - destruct (fsz_widens G F); [exact E|]. unfold v_flt, overflow_f2f in E. destruct (_ && _) in E; [discriminate|exact E].
  - unfold v_flt, overflow_c2f in E. destruct (flt_nz y); [discriminate|]. destruct (f_out _ _); [discriminate|exact E].
  - unfold v_cplx, overflow_f2c in E. destruct (_ && _) in E; [discriminate|exact E].
  - destruct (fsz_widens G F) eqn:W; [exact E|]. assert (F = S32) as -> by (destruct F, G; auto; discriminate W).
    unfold v_cplx, overflow_c2c in E. destruct (_ || _) in E; [discriminate|exact E].
Qed.
Lemma strictness m m' dst src v w : (rank m' <= rank m)%nat -> assign m dst src v = Ok w -> assign m' dst src v = Ok w.
Proof.
  intros R E.
  assert (A : forall w, assign inexact dst src v = Ok w -> assign overflow dst src v = Ok w) by (intros; apply step_fractional, step_inexact; assumption).
  destruct m, m'; cbn [rank] in R; try lia; auto using step_inexact, step_fractional, step_overflow.
Qed.

(** ** Rounding conversions *)
Lemma i2f_nearest F z : nearest F (z * one) (i2f F z).
Proof.
  pose proof one_pos as P. unfold i2f.
  assert (V : fval (z <? 0) (Z.abs z * one) = z * one) by (destruct (Z.ltb_spec z 0); cbn [fval]; nia).
  rewrite <- V at 1. apply fround_nearest; [nia|]. left. rewrite V.
  destruct (Z.ltb_spec z 0); destruct (Z.ltb_spec (z * one) 0); auto; nia.
Qed.
Lemma f2f_nearest F G x v : is_flt G x -> num_of x = Num v -> nearest F v (f2f F x).
Proof.
  destruct x as [|s|s n]; cbn [num_of is_flt]; try discriminate. intros H E. injection E as E.
  pose proof (magnitude_bounds G n H). cbn [f2f]. change (fval s n = v) in E. rewrite <- E.
  apply fround_nearest; [lia|]. destruct (Z.eq_dec n 0); [right; assumption|left].
  destruct s; cbn [fval]; [destruct (Z.ltb_spec (- n) 0)|destruct (Z.ltb_spec n 0)]; auto; lia.
Qed.
Lemma f_out_num F x v : num_of x = Num v -> f_out F x = (biggest F <? Z.abs v).
Proof.
  destruct x as [|s|s n]; cbn [num_of]; try discriminate. intros E. injection E as E.
  rewrite f_out_fin, biggest_fmax. unfold fval. rewrite E. reflexivity.
Qed.
