From Verif Require Import Base Int128Model Int128Spec.
Local Ltac Zify.zify_post_hook ::= Z.div_mod_to_equations.

Definition wf (a : w128) : Prop := 0 <= hi a < 2 ^ 64 /\ 0 <= lo a < 2 ^ 64.
Definition U (a : w128) : Z := uval (hi a) (lo a).
Definition Sg (a : w128) : Z := sval (hi a) (lo a).

Ltac unf := unfold wf, U, Sg, sval, uval, signed128, u64, not64, b2z, s64_of in *; cbn [hi lo] in *.

Lemma U_range a : wf a -> 0 <= U a < 2 ^ 128.
Proof. unf. lia. Qed.
Lemma Sg_range a : wf a -> - 2 ^ 127 <= Sg a < 2 ^ 127.
Proof. unf. intros. destruct (Z.ltb_spec (hi a) (2 ^ 63)); lia. Qed.
Lemma Sg_signed a : wf a -> Sg a = signed128 (U a).
Proof. unf. intros. destruct (Z.ltb_spec (hi a) (2 ^ 63)); lia. Qed.
Lemma signed128_mod x : signed128 (x mod 2 ^ 128) = signed128 x.
Proof. unf. lia. Qed.
Lemma signed128_id x : - 2 ^ 127 <= x < 2 ^ 127 -> signed128 x = x.
Proof. unf. lia. Qed.
Lemma U_Sg_mod a : wf a -> U a = Sg a mod 2 ^ 128.
Proof. unf. intros. destruct (Z.ltb_spec (hi a) (2 ^ 63)); lia. Qed.

Lemma u_add_ok a b : wf a -> wf b -> wf (u_add a b) /\ U (u_add a b) = (U a + U b) mod 2 ^ 128.
Proof.
  unfold u_add; unf. intros Ha Hb.
  destruct (Z.ltb_spec ((lo a + lo b) mod 18446744073709551616) (lo a)); lia.
Qed.

Lemma u_add64_ok a r : wf a -> 0 <= r < 2 ^ 64 ->
  wf (u_add64 a r) /\ U (u_add64 a r) = (U a + r) mod 2 ^ 128.
Proof.
  unfold u_add64; unf. intros Ha Hb.
  destruct (Z.ltb_spec ((lo a + r) mod 18446744073709551616) (lo a)); lia.
Qed.

Lemma u_sub_wf a b : wf (u_sub a b).
Proof. unfold u_sub; unf. lia. Qed.

(** Subtraction is right exactly when the low word of the subtrahend is nonzero. *)
Lemma u_sub_iff a b : wf a -> wf b ->
  (U (u_sub a b) = (U a - U b) mod 2 ^ 128 <-> lo b <> 0).
Proof.
  unfold u_sub; unf. intros Ha Hb.
  destruct (Z.ltb_spec ((lo a + (2 ^ 64 - 1 - lo b) + 1) mod 18446744073709551616) (lo a)); lia.
Qed.
Lemma u_sub64_iff a r : wf a -> 0 <= r < 2 ^ 64 ->
  (U (u_sub64 a r) = (U a - r) mod 2 ^ 128 <-> r <> 0).
Proof.
  unfold u_sub64; unf. intros Ha Hb.
  destruct (Z.ltb_spec ((lo a + (2 ^ 64 - 1 - r) + 1) mod 18446744073709551616) (lo a)); lia.
Qed.

Lemma u_neg_iff a : wf a ->
  (U (u_neg a) = (- U a) mod 2 ^ 128 <-> lo a = 0 \/ hi a = 2 ^ 64 - 1).
Proof.
  unfold u_neg; unf. intros Ha.
  destruct (Z.eqb_spec (lo a) 0); destruct (Z.eqb_spec (hi a) 0); cbn [negb hi lo]; lia.
Qed.

Lemma u_not_iff a : wf a -> (u_not a = (U a =? 0) <-> U a <> 0 /\ (hi a = 0 \/ lo a = 0)).
Proof.
  unfold u_not; unf. intros Ha.
  destruct (Z.eqb_spec (lo a) 0); destruct (Z.eqb_spec (hi a) 0); cbn [negb andb];
    destruct (Z.eqb_spec (hi a * 2 ^ 64 + lo a) 0); split; intros H; try lia; try discriminate; reflexivity.
Qed.

Lemma u_compl_ok a : wf a -> wf (u_compl a) /\ U (u_compl a) = 2 ^ 128 - 1 - U a.
Proof. unfold u_compl; unf. lia. Qed.

Lemma cmp_ok a b : wf a -> wf b ->
  (u_eq a b = true <-> U a = U b) /\ (u_neq a b = true <-> U a <> U b) /\
  (u_lt a b = true <-> U a < U b) /\ (u_le a b = true <-> U a <= U b) /\
  (u_gt a b = true <-> U a > U b) /\ (u_ge a b = true <-> U a >= U b).
Proof. unfold u_eq, u_neq, u_gt, u_ge, u_lt, u_le; unf. intros. repeat split; lia. Qed.

Lemma icmp_ok a b : wf a -> wf b ->
  (i_eq a b = true <-> Sg a = Sg b) /\
  (i_lt a b = true <-> Sg a < Sg b) /\ (i_le a b = true <-> Sg a <= Sg b) /\
  (i_gt a b = true <-> Sg a > Sg b) /\ (i_ge a b = true <-> Sg a >= Sg b).
Proof.
  unfold i_eq, i_gt, i_ge, i_lt, i_le; unf. intros.
  destruct (Z.ltb_spec (hi a) (2 ^ 63)); destruct (Z.ltb_spec (hi b) (2 ^ 63)); repeat split; lia.
Qed.

Lemma mul32_core x y h r :
  0 <= x < 2 ^ 32 -> 0 <= y < 2 ^ 32 -> 0 <= h < 2 ^ 64 -> 0 <= r < 2 ^ 32 ->
  wf (u_mul32 (W h (y * 2 ^ 32 + x)) r) /\
  U (u_mul32 (W h (y * 2 ^ 32 + x)) r) = ((h * 2 ^ 64 + (y * 2 ^ 32 + x)) * r) mod 2 ^ 128.
Proof.
  intros Hx Hy Hh Hr. unfold u_mul32; cbn [hi lo].
  replace ((y * 2 ^ 32 + x) mod 2 ^ 32) with x by lia.
  replace ((y * 2 ^ 32 + x) / 2 ^ 32) with y by lia.
  assert (Hxr : 0 <= x * r < 2 ^ 64) by nia.
  assert (Hyr : 0 <= y * r < 2 ^ 64) by nia.
  replace ((h * 2 ^ 64 + (y * 2 ^ 32 + x)) * r) with ((h * r) * 2 ^ 64 + ((y * r) * 2 ^ 32 + x * r)) by ring.
  generalize dependent (x * r); intros xr Hxr. generalize dependent (y * r); intros yr Hyr.
  generalize (h * r); intros hr.
  unf. 
  replace (xr mod 18446744073709551616) with xr by lia.
  replace (yr mod 18446744073709551616) with yr by lia.
  destruct (Z.ltb_spec ((xr + (yr * 2 ^ 32) mod 18446744073709551616) mod 18446744073709551616) xr); lia.
Qed.

Lemma u_mul32_ok a r : wf a -> 0 <= r < 2 ^ 32 ->
  wf (u_mul32 a r) /\ U (u_mul32 a r) = (U a * r) mod 2 ^ 128.
Proof.
  intros Ha Hr. destruct a as [h l]. unfold wf in Ha; cbn [hi lo] in Ha.
  pose proof (mul32_core (l mod 2 ^ 32) (l / 2 ^ 32) h r ltac:(lia) ltac:(lia) ltac:(lia) Hr) as H.
  replace (l / 2 ^ 32 * 2 ^ 32 + l mod 2 ^ 32) with l in H by lia. exact H.
Qed.

Lemma u_divrem_ok a r : wf a -> 0 < r < 2 ^ 32 ->
  exists q m, u_divrem a r = Ok (q, m) /\ wf q /\ U q = U a / r /\ m = U a mod r.
Proof.
  intros Ha Hr. unfold u_divrem. destruct (Z.eqb_spec r 0); [lia|].
  destruct a as [h l]; unf.
  set (y := l / 2 ^ 32). set (x := l mod 2 ^ 32).
  assert (Hx : 0 <= x < 2 ^ 32) by (subst x; lia).
  assert (Hy : 0 <= y < 2 ^ 32) by (subst y; lia).
  assert (El : l = y * 2 ^ 32 + x) by (subst x y; lia).
  clearbody x y.
  pose proof (Z.div_mod h r ltac:(lia)) as Eh. pose proof (Z.mod_pos_bound h r ltac:(lia)) as Bh.
  set (hd := h / r) in *. set (hr := h mod r) in *.
  assert (Hhd : 0 <= hd < 2 ^ 64).
  { subst hd. split; [apply Z.div_pos; lia|]. apply Z.div_lt_upper_bound; [lia|]. nia. }
  clearbody hd hr.
  replace ((hr * 2 ^ 32) mod 18446744073709551616) with (hr * 2 ^ 32) by (rewrite Z.mod_small; lia).
  rewrite (lor_disjoint hr y 32) by lia.
  pose proof (Z.div_mod (hr * 2 ^ 32 + y) r ltac:(lia)) as Em.
  pose proof (Z.mod_pos_bound (hr * 2 ^ 32 + y) r ltac:(lia)) as Bm.
  set (md := (hr * 2 ^ 32 + y) / r) in *. set (mr := (hr * 2 ^ 32 + y) mod r) in *.
  assert (Hmd : 0 <= md < 2 ^ 32).
  { subst md. split; [apply Z.div_pos; lia|]. apply Z.div_lt_upper_bound; [lia|]. nia. }
  clearbody md mr.
  replace ((mr * 2 ^ 32) mod 18446744073709551616) with (mr * 2 ^ 32) by (rewrite Z.mod_small; lia).
  rewrite (lor_disjoint mr x 32) by lia.
  pose proof (Z.div_mod (mr * 2 ^ 32 + x) r ltac:(lia)) as El2.
  pose proof (Z.mod_pos_bound (mr * 2 ^ 32 + x) r ltac:(lia)) as Bl.
  set (ld := (mr * 2 ^ 32 + x) / r) in *. set (lr := (mr * 2 ^ 32 + x) mod r) in *.
  assert (Hld : 0 <= ld < 2 ^ 32).
  { subst ld. split; [apply Z.div_pos; lia|]. apply Z.div_lt_upper_bound; [lia|]. nia. }
  clearbody ld lr.
  replace ((md * 2 ^ 32) mod 18446744073709551616) with (md * 2 ^ 32) by (rewrite Z.mod_small; lia).
  rewrite (lor_disjoint md ld 32) by lia.
  eexists _, _; split; [reflexivity|]. cbn [hi lo].
  assert (E : h * 2 ^ 64 + l = r * (hd * 2 ^ 64 + (md * 2 ^ 32 + ld)) + lr) by (subst; nia).
  split; [lia|]. split.
  - eapply Z.div_unique; [left; exact Bl | exact E].
  - eapply Z.mod_unique; [left; exact Bl | exact E].
Qed.

Lemma u_div32_ok a r : wf a -> 0 < r < 2 ^ 32 ->
  exists q, u_div32 a r = Ok q /\ wf q /\ U q = U a / r.
Proof.
  intros Ha Hr. destruct (u_divrem_ok a r Ha Hr) as (q & m & E & Hq & HU & _).
  exists q. unfold u_div32. rewrite E. auto.
Qed.

(** ** Printing *)
Lemma dec_value_app s : forall acc t, dec_value acc (s ++ t) = dec_value (dec_value acc s) t.
Proof. induction s; intros; cbn; auto. Qed.
Lemma dec_value_shift s : forall acc, dec_value acc s = acc * 10 ^ Z.of_nat (List.length s) + dec_value 0 s.
Proof.
  induction s as [|c s IH]; intros acc; cbn [dec_value List.length].
  - cbn; lia.
  - rewrite IH, (IH (10 * 0 + (c - 48))). rewrite Nat2Z.inj_succ, Z.pow_succ_r by lia. ring.
Qed.

Lemma u_print_loop_ok fuel : forall tmp idx buf k,
  wf tmp -> 0 < U tmp -> U tmp < 10 ^ Z.of_nat k -> (k <= fuel)%nat -> Z.of_nat k <= idx + 1 ->
  exists s, u_print_loop fuel tmp idx buf = Ok (s ++ buf) /\
    Forall (fun c => 48 <= c <= 57) s /\ dec_value 0 s = U tmp /\ hd 0 s <> 48 /\ s <> [].
Proof.
  induction fuel as [|fuel IH]; intros tmp idx buf k Hw Hpos Hk Hf Hidx.
  - assert (k = 0%nat) by lia. subst k. cbn in Hk. lia.
  - cbn [u_print_loop].
    destruct (u_divrem_ok tmp 10 Hw ltac:(lia)) as (q & m & E & Hq & HUq & Hm).
    rewrite E. cbn [bind].
    assert (Hk1 : (0 < k)%nat) by (destruct k; [cbn in Hk; lia | lia]).
    destruct (Z.ltb_spec idx 0); [lia|].
    destruct (cmp_ok q (W 0 0) Hq) as (_ & Hneq & _); [unf; lia|].
    destruct (u_neq q (W 0 0)) eqn:En.
    + assert (HUq0 : U q <> 0) by (apply Hneq; reflexivity).
      pose proof (U_range q Hq).
      destruct (IH q (idx - 1) ((m + 48) :: buf) (k - 1)%nat) as (s & Es & Hd & Hv & Hh & Hn); auto; try lia.
      { rewrite HUq. apply Z.div_lt_upper_bound; [lia|]. rewrite <- Z.pow_succ_r by lia.
        replace (Z.succ (Z.of_nat (k - 1))) with (Z.of_nat k) by lia. exact Hk. }
      exists (s ++ [m + 48]). rewrite Es, <- app_assoc. split; [reflexivity|].
      split; [apply Forall_app; split; auto; repeat constructor; lia|].
      split; [rewrite dec_value_app, Hv; cbn [dec_value]; lia|].
      split; [destruct s; [congruence | exact Hh] | destruct s; discriminate].
    + assert (HUq0 : U q = 0).
      { destruct (Z.eq_dec (U q) 0) as [|n]; auto. apply Hneq in n. congruence. }
      exists [m + 48]. split; [reflexivity|].
      assert (m = U tmp) by lia.
      split; [repeat constructor; lia|]. split; [cbn [dec_value]; lia|].
      split; [cbn; lia | discriminate].
Qed.

Lemma u_print_ok a : wf a -> exists s, u_print a = Ok s /\ is_decimal (U a) s.
Proof.
  intros Hw. unfold u_print.
  destruct (cmp_ok a (W 0 0) Hw) as (Heq & _); [unf; lia|].
  destruct (u_eq a (W 0 0)) eqn:E.
  - exists [48]. split; auto. unfold is_decimal. rewrite (proj1 Heq eq_refl). repeat split; auto; try discriminate.
    repeat constructor; lia.
  - assert (U a <> 0) by (intros H; apply Heq in H; congruence).
    pose proof (U_range a Hw).
    destruct (u_print_loop_ok 40 a 39 [] 39%nat Hw) as (s & Es & Hd & Hv & Hh & Hn); try lia.
    rewrite app_nil_r in Es. exists s; split; auto. repeat split; auto; congruence.
Qed.

(** ** int128 *)
Lemma i_neg_ok a : wf a -> wf (i_neg a) /\ U (i_neg a) = (- U a) mod 2 ^ 128.
Proof.
  unfold i_neg; unf. intros Ha.
  destruct (Z.ltb_spec ((2 ^ 64 - 1 - lo a + 1) mod 18446744073709551616) (2 ^ 64 - 1 - lo a)); lia.
Qed.

Lemma i_neg_signed a : wf a -> Sg (i_neg a) = signed128 (- Sg a).
Proof.
  intros Ha. destruct (i_neg_ok a Ha) as [Hw E]. rewrite Sg_signed, E, signed128_mod by auto.
  rewrite (U_Sg_mod a Ha). pose proof (Sg_range a Ha). generalize dependent (Sg a); intros s Hs.
  unf. lia.
Qed.

Lemma signed_add x y : signed128 ((x mod 2 ^ 128 + y mod 2 ^ 128)) = signed128 (x + y).
Proof. unf. lia. Qed.

Lemma i_add_ok a b : wf a -> wf b -> wf (i_add a b) /\ Sg (i_add a b) = signed128 (Sg a + Sg b).
Proof.
  intros Ha Hb. destruct (u_add_ok a b Ha Hb) as [Hw E]. split; auto.
  unfold i_add. rewrite Sg_signed, E, signed128_mod by auto. rewrite (U_Sg_mod a Ha), (U_Sg_mod b Hb).
  apply signed_add.
Qed.

Lemma i_sub_iff a b : wf a -> wf b ->
  (Sg (i_sub a b) = signed128 (Sg a - Sg b) <-> lo b <> 0).
Proof.
  intros Ha Hb. rewrite <- (u_sub_iff a b Ha Hb). unfold i_sub.
  rewrite Sg_signed by apply u_sub_wf. pose proof (U_range _ (u_sub_wf a b)) as R.
  rewrite (U_Sg_mod a Ha), (U_Sg_mod b Hb).
  generalize dependent (U (u_sub a b)). generalize (Sg a) (Sg b). intros x y z Hz. unf. lia.
Qed.

(** += never computes the sum. *)
Lemma i_add_assign_never a b : wf a -> wf b ->
  Sg (i_add_assign a b) <> signed128 (Sg a + Sg b).
Proof.
  intros Ha Hb.
  assert (Hw : wf (i_add_assign a b)) by (unfold i_add_assign; unf; lia).
  rewrite Sg_signed by auto.
  assert (E : U (i_add_assign a b) <> (U a + U b) mod 2 ^ 128).
  { unfold i_add_assign; unf.
    destruct (Z.ltb_spec ((lo a + lo b) mod 18446744073709551616) (lo a)); lia. }
  intros H. apply E. rewrite (U_Sg_mod a Ha), (U_Sg_mod b Hb).
  pose proof (U_range _ Hw) as R.
  generalize dependent (U (i_add_assign a b)). generalize (Sg a) (Sg b). intros x y z _ H Hz. unf. lia.
Qed.

Lemma sg_nonneg_U a : wf a -> 0 <= Sg a -> U a = Sg a.
Proof. unf. intros. destruct (Z.ltb_spec (hi a) (2 ^ 63)); lia. Qed.

Lemma mod_small_signed x y r : 0 <= y -> signed128 (- (signed128 ((x * r) mod 2 ^ 128))) = signed128 (- (x * r)).
Proof. intros _. generalize (x * r). intros z. unf. lia. Qed.

Lemma i_mul32_ok a r fuel : wf a -> 0 <= r < 2 ^ 32 -> Sg a <> - 2 ^ 127 -> (2 <= fuel)%nat ->
  exists p, i_mul32 fuel a r = Ok p /\ wf p /\ Sg p = signed128 (Sg a * r).
Proof.
  intros Ha Hr Hm Hf. destruct fuel as [|[|fuel]]; try lia.
  assert (Hs : forall b, wf b -> (s64_of (hi b) <? 0) = (Sg b <? 0)).
  { intros b Hb. unf. destruct (Z.ltb_spec (hi b) (2 ^ 63)).
    - destruct (Z.ltb_spec (hi b) 0), (Z.ltb_spec (hi b * 2 ^ 64 + lo b) 0); lia.
    - destruct (Z.ltb_spec (hi b - 2 ^ 64) 0), (Z.ltb_spec (hi b * 2 ^ 64 + lo b - 2 ^ 128) 0); lia. }
  assert (Hp : forall b, wf b -> 0 <= Sg b -> exists p, Ok (u_mul32 b r) = Ok p /\ wf p /\ Sg p = signed128 (Sg b * r)).
  { intros b Hb Hpos. destruct (u_mul32_ok b r Hb Hr) as [Hw E]. eexists; split; [reflexivity|]. split; auto.
    rewrite Sg_signed, E, signed128_mod by auto. now rewrite sg_nonneg_U. }
  cbn [i_mul32]. rewrite Hs by auto. destruct (Z.ltb_spec (Sg a) 0) as [Hn|Hn].
  - destruct (i_neg_ok a Ha) as [Hnw HnU]. pose proof (i_neg_signed a Ha) as HnS.
    pose proof (Sg_range a Ha). rewrite signed128_id in HnS by lia.
    rewrite Hs by auto. destruct (Z.ltb_spec (Sg (i_neg a)) 0); [lia|].
    destruct (Hp (i_neg a) Hnw ltac:(lia)) as (p & Ep & Hpw & HpS). injection Ep as <-. cbn [bind].
    eexists; split; [reflexivity|]. destruct (i_neg_ok _ Hpw) as [Hw2 _]. split; auto.
    rewrite i_neg_signed by auto. rewrite HpS, HnS.
    replace (Sg a * r) with (- (- Sg a * r)) by ring. generalize (- Sg a * r). intros z. unf. lia.
  - apply Hp; auto.
Qed.

Lemma i_neg_min : i_neg (W (2 ^ 63) 0) = W (2 ^ 63) 0.
Proof. reflexivity. Qed.

Lemma i_mul32_min_diverges r fuel : i_mul32 fuel (W (2 ^ 63) 0) r = NoFuel.
Proof.
  induction fuel as [|fuel IH]; cbn [i_mul32]; auto.
  change (s64_of (hi (W (2 ^ 63) 0)) <? 0) with true. cbn iota. rewrite i_neg_min, IH. reflexivity.
Qed.

Lemma neg_mod x : - 2 ^ 127 <= x < 0 -> (- (x mod 2 ^ 128)) mod 2 ^ 128 = - x.
Proof. lia. Qed.

Lemma i_print_ok a : wf a -> exists s,
  (0 <= Sg a -> i_print a = Ok s /\ is_decimal (Sg a) s) /\
  (Sg a < 0 -> i_print a = Ok (45 :: s) /\ is_decimal (- Sg a) s).
Proof.
  intros Ha. unfold i_print.
  destruct (icmp_ok a (i_of_int 0) Ha) as (_ & Hlt & _); [cbn; unfold wf; cbn; lia|].
  change (Sg (i_of_int 0)) with 0 in Hlt.
  destruct (i_lt a (i_of_int 0)) eqn:E.
  - assert (Sg a < 0) by (apply Hlt; reflexivity).
    destruct (i_neg_ok a Ha) as [Hw HU]. destruct (u_print_ok _ Hw) as (s & Es & Hd).
    exists s. rewrite Es. cbn [bind]. split; [lia|]. intros _. split; auto.
    replace (- Sg a) with (U (i_neg a)); auto. rewrite HU. rewrite (U_Sg_mod a Ha).
    pose proof (Sg_range a Ha). apply neg_mod. lia.
  - assert (0 <= Sg a) by (destruct (Z.ltb_spec (Sg a) 0) as [L|]; [apply Hlt in L; congruence | lia]).
    destruct (u_print_ok _ Ha) as (s & Es & Hd). exists s. split; [|lia]. intros _. split; auto.
    now rewrite <- sg_nonneg_U.
Qed.

(** ** conversions *)
Lemma i_of_int_ok v : - 2 ^ 63 <= v < 2 ^ 64 -> wf (i_of_int v) /\ Sg (i_of_int v) = v.
Proof.
  intros H. unfold i_of_int; unf. destruct (Z.ltb_spec v 0).
  - split; [lia|]. destruct (Z.ltb_spec 18446744073709551615 (2 ^ 63)); lia.
  - split; [lia|]. destruct (Z.ltb_spec 0 (2 ^ 63)); lia.
Qed.
Lemma u_of_int_iff v : - 2 ^ 63 <= v < 2 ^ 64 ->
  wf (u_of_int v) /\ (U (u_of_int v) = v mod 2 ^ 128 <-> 0 <= v).
Proof. intros H. unfold u_of_int; unf. lia. Qed.

Lemma i_to_double_nonneg rnd a : wf a ->
  (forall x y, x <= y -> rnd x <= rnd y) -> rnd 0 = 0 -> 0 <= i_to_double rnd a.
Proof.
  intros Ha Hm H0.
  assert (Hp : forall x, 0 <= x -> 0 <= rnd x) by (intros x Hx; rewrite <- H0; auto).
  assert (forall b, wf b -> 0 <= u_to_double rnd b).
  { intros b Hb. unfold u_to_double, wf in *. apply Hp.
    pose proof (Hp (lo b) ltac:(lia)). pose proof (Hp (rnd (hi b) * 2 ^ 64)).
    pose proof (Hp (hi b) ltac:(lia)). lia. }
  unfold i_to_double. destruct (i_lt a (i_of_int 0)); [apply H, i_neg_ok | apply H]; auto.
Qed.
