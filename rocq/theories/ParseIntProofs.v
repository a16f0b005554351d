From Verif Require Import Base ParseIntModel ParseIntSpec.

Lemma is_digit_iff c : is_digit c = true <-> digit c.
Proof. unfold is_digit, digit. lia. Qed.
Lemma is_digit_not c : is_digit c = false <-> ~ digit c.
Proof. unfold is_digit, digit. lia. Qed.

Definition decfrom (r : Z) (ds : list Z) : Z := fold_left (fun a c => 10 * a + (c - 48)) ds r.

Lemma decfrom_ge ds : forall r, 0 <= r -> Forall digit ds -> r <= decfrom r ds.
Proof.
  induction ds as [|c ds IH]; intros r Hr Hd; [cbn; lia|]. inversion Hd as [|? ? Hc Hd']; subst.
  unfold digit in Hc. specialize (IH (10 * r + (c - 48)) ltac:(lia) Hd').
  change (decfrom r (c :: ds)) with (decfrom (10 * r + (c - 48)) ds). lia.
Qed.
Lemma decfrom_mod ds : forall r m, 0 < m -> decfrom (r mod m) ds mod m = decfrom r ds mod m.
Proof.
  induction ds as [|c ds IH]; intros r m Hm; [cbn; apply Z.mod_mod; lia|].
  change (decfrom (10 * (r mod m) + (c - 48)) ds mod m = decfrom (10 * r + (c - 48)) ds mod m).
  rewrite <- (IH (10 * (r mod m) + (c - 48)) m Hm), <- (IH (10 * r + (c - 48)) m Hm).
  f_equal. f_equal. rewrite Z.add_mod, Z.mul_mod_idemp_r, <- Z.add_mod by lia. reflexivity.
Qed.
Lemma dec_app a b : dec (a ++ b) = decfrom (dec a) b.
Proof. unfold dec, decfrom. apply fold_left_app. Qed.

Lemma skip_zeros_spec s : exists zs, s = zs ++ skip_zeros s /\ Forall (eq 48) zs /\
  match skip_zeros s with c :: _ => c <> 48 | [] => True end.
Proof.
  induction s as [|c s (zs & E & Hz & Hh)]; cbn.
  - exists []; auto.
  - destruct (Z.eqb_spec c 48) as [->|N].
    + exists (48 :: zs). cbn. rewrite <- E. auto.
    + exists []; auto.
Qed.
Lemma skip_zeros_all zs : Forall (eq 48) zs -> skip_zeros zs = [].
Proof. induction 1 as [|? ? E H IH]; cbn; auto. subst. cbn. auto. Qed.
Lemma skip_zeros_nil s : skip_zeros s = [] -> Forall (eq 48) s.
Proof. intros H. destruct (skip_zeros_spec s) as (zs & E & Hz & _). rewrite H, app_nil_r in E. now subst. Qed.
Lemma dec_zeros zs s : Forall (eq 48) zs -> dec (zs ++ s) = dec s.
Proof.
  unfold dec. intros H. rewrite fold_left_app. f_equal.
  induction H as [|? ? E H IH]; cbn; auto. subst. cbn. auto.
Qed.

Lemma exp_digits_sound s e : exp_digits s = (e, []) -> Forall digit s /\ e = dec s /\ 0 <= e < 100.
Proof.
  unfold exp_digits. destruct s as [|c s]; [intros [= <-]; repeat split; auto; lia|].
  destruct (is_digit c) eqn:Ec; [|discriminate]. apply is_digit_iff in Ec. unfold digit in *.
  destruct s as [|d s].
  { intros [= <-]. split; [repeat constructor; unfold digit; lia|]. unfold dec; cbn [fold_left]. lia. }
  destruct (is_digit d) eqn:Ed; [|discriminate]. apply is_digit_iff in Ed. unfold digit in *.
  intros H. pose proof (f_equal fst H) as H1. pose proof (f_equal snd H) as H2. cbn [fst snd] in H1, H2. subst s e. clear H. split; [repeat constructor; unfold digit; lia|]. unfold dec; cbn [fold_left]. lia.
Qed.
Lemma exp_digits_complete s : Forall digit s -> (match s with c :: _ => c <> 48 | [] => True end) ->
  dec s < 100 -> exp_digits s = (dec s, []).
Proof.
  intros Hd Hh Hl. unfold exp_digits.
  destruct s as [|c s]; [reflexivity|]. inversion Hd as [|? ? Hc Hd1]; subst. pose proof (proj2 (is_digit_iff c) Hc) as E. rewrite E.
  destruct s as [|d s]; [unfold dec; cbn [fold_left]; f_equal; lia|]. inversion Hd1 as [|? ? Hd2 Hd3]; subst.
  pose proof (proj2 (is_digit_iff d) Hd2) as E2. rewrite E2. unfold digit in *.
  destruct s as [|x s]; [unfold dec; cbn [fold_left]; f_equal; lia|]. exfalso. inversion Hd3 as [|? ? Hx Hd4]; subst. unfold digit in *.
  change (dec (c :: d :: x :: s)) with (decfrom (10 * (10 * (10 * 0 + (c - 48)) + (d - 48)) + (x - 48)) s) in Hl.
  pose proof (decfrom_ge s (10 * (10 * (10 * 0 + (c - 48)) + (d - 48)) + (x - 48)) ltac:(lia) Hd4). lia.
Qed.

Lemma exp_loop_sound W i : 0 <= W -> forall r p v, exp_loop W i r p = Ok v -> 0 <= r < 2 ^ W ->
  v = (r * 10 ^ Z.of_nat i) mod 2 ^ W.
Proof.
  intros HW. induction i as [|i IH]; intros r p v H Hr; cbn [exp_loop] in H.
  - injection H as <-. cbn. rewrite Z.mul_1_r, Z.mod_small; auto.
  - pose proof (Z.pow_pos_nonneg 2 W ltac:(lia) HW) as HP.
    destruct (_ <? _); [discriminate|].
    apply IH in H; [|apply Z.mod_pos_bound; lia]. rewrite H.
    rewrite Z.mul_mod_idemp_l by lia. f_equal. rewrite Nat2Z.inj_succ, Z.pow_succ_r by lia. ring.
Qed.
Lemma exp_loop_complete W i : 0 <= W -> forall r, 0 <= r -> r * 10 ^ Z.of_nat i < 2 ^ W ->
  exp_loop W i r r = Ok (r * 10 ^ Z.of_nat i).
Proof.
  intros HW. induction i as [|i IH]; intros r Hr H; cbn [exp_loop]; [cbn; f_equal; lia|].
  rewrite Nat2Z.inj_succ, Z.pow_succ_r in * by lia.
  pose proof (Z.pow_pos_nonneg 10 (Z.of_nat i) ltac:(lia) ltac:(lia)) as HP.
  assert (Hle : r * 10 <= r * (10 * 10 ^ Z.of_nat i)).
  { apply Z.mul_le_mono_nonneg_l; lia. }
  rewrite (Z.mod_small (r * 10)) by lia.
  destruct (Z.ltb_spec (r * 10) r); [lia|]. rewrite IH by lia. f_equal. ring.
Qed.
Lemma exp_loop_total W i : forall r p, (exists v, exp_loop W i r p = Ok v) \/ (exists e, exp_loop W i r p = Throw e).
Proof.
  induction i as [|i IH]; intros r p; cbn [exp_loop]; [left; eauto|].
  destruct (_ <? _); [right; eauto|apply IH].
Qed.

(** Tails of a number after its leading digits, with the factor they contribute. *)
Inductive tail_ok : list Z -> Z -> Prop :=
| t_nil : tail_ok [] 1
| t_frac zs : Forall (eq 48) zs -> tail_ok (46 :: zs) 1
| t_exp e es : e = 101 \/ e = 69 -> Forall digit es -> es <> [] -> dec es < 100 -> tail_ok (e :: es) (10 ^ dec es)
| t_exp_plus e es : e = 101 \/ e = 69 -> Forall digit es -> es <> [] -> dec es < 100 -> tail_ok (e :: 43 :: es) (10 ^ dec es).

Lemma number_tail s n : number s n <-> s <> [] /\ exists ds t k, s = ds ++ t /\ Forall digit ds /\ tail_ok t k /\ n = dec ds * k.
Proof.
  split.
  - intros H. destruct H as [ds H N|ds zs H H'|ds e es H He H1 H2 H3|ds e es H He H1 H2 H3].
    + split; auto. exists ds, [], 1. rewrite app_nil_r. repeat split; auto using t_nil. ring.
    + split; [destruct ds; discriminate|]. exists ds, (46 :: zs), 1. repeat split; auto using t_frac. ring.
    + split; [destruct ds; discriminate|]. exists ds, (e :: es), (10 ^ dec es). repeat split; auto using t_exp.
    + split; [destruct ds; discriminate|]. exists ds, (e :: 43 :: es), (10 ^ dec es). repeat split; auto using t_exp_plus.
  - intros (N & ds & t & k & -> & Hd & Ht & ->). destruct Ht.
    + rewrite app_nil_r in *. rewrite Z.mul_1_r. constructor; auto.
    + rewrite Z.mul_1_r. constructor; auto.
    + constructor; auto.
    + constructor; auto.
Qed.

Lemma zeros_digits zs : Forall (eq 48) zs -> Forall digit zs.
Proof. intros H. eapply Forall_impl; [|exact H]. unfold digit; intros; lia. Qed.

Lemma exp_core_sound s x : exp_digits (skip_zeros s) = (x, []) -> Forall digit s /\ x = dec s /\ 0 <= x < 100.
Proof.
  intros H. apply exp_digits_sound in H as (Hd & Hx & Hr).
  destruct (skip_zeros_spec s) as (zs & E & Hz & _).
  split; [rewrite E; apply Forall_app; split; auto using zeros_digits|].
  split; auto. rewrite E, dec_zeros by auto. auto.
Qed.
Lemma exp_core_complete s : Forall digit s -> dec s < 100 -> exp_digits (skip_zeros s) = (dec s, []).
Proof.
  intros Hd Hl. destruct (skip_zeros_spec s) as (zs & E & Hz & Hh).
  rewrite E in Hd. apply Forall_app in Hd as [_ Hd].
  assert (Edec : dec s = dec (skip_zeros s)) by (rewrite E at 1; apply dec_zeros; auto).
  rewrite Edec in *. apply exp_digits_complete; auto.
Qed.
Lemma dec_nonneg s : Forall digit s -> 0 <= dec s.
Proof. intros. apply (decfrom_ge s 0); auto; lia. Qed.

Lemma exp_part_sound W r s v e : 0 <= W -> exp_part W r s = Ok v -> 0 <= r < 2 ^ W -> (e = 101 \/ e = 69) ->
  exists k, tail_ok (e :: s) k /\ v = (r * k) mod 2 ^ W.
Proof.
  intros HW H Hr He. unfold exp_part in H.
  assert (Core : forall t, (match t with [] => Throw "invalid_argument" | _ =>
      let '(exponent, rest) := exp_digits (skip_zeros t) in
      match rest with [] => exp_loop W (Z.to_nat exponent) r r | _ => Throw "invalid_argument" end end) = Ok v ->
      t <> [] /\ Forall digit t /\ dec t < 100 /\ v = (r * 10 ^ dec t) mod 2 ^ W).
  { intros t Ht. assert (t <> []) by (destruct t; congruence).
    assert (Ht' : (let '(exponent, rest) := exp_digits (skip_zeros t) in
      match rest with [] => exp_loop W (Z.to_nat exponent) r r | _ => Throw "invalid_argument" end) = Ok v) by (destruct t; [congruence|exact Ht]).
    clear Ht. destruct (exp_digits (skip_zeros t)) as [x rest] eqn:Ex. destruct rest; [|discriminate].
    apply exp_core_sound in Ex as (Hd & -> & Hx).
    apply exp_loop_sound in Ht'; auto. rewrite Z2Nat.id in Ht' by lia. repeat split; auto; lia. }
  destruct s as [|c s]; [discriminate|].
  destruct (Z.eqb_spec c 43) as [->|N].
  - apply Core in H as (H1 & H2 & H3 & H4). exists (10 ^ dec s). split; auto. apply t_exp_plus; auto.
  - apply (Core (c :: s)) in H as (H1 & H2 & H3 & H4). exists (10 ^ dec (c :: s)). split; auto. apply t_exp; auto.
Qed.

Lemma parse_u_loop_sound W : 0 <= W -> forall s r p v, parse_u_loop W r p s = Ok v -> 0 <= r < 2 ^ W ->
  exists ds t k, s = ds ++ t /\ Forall digit ds /\ tail_ok t k /\ v = (decfrom r ds * k) mod 2 ^ W.
Proof.
  intros HW. induction s as [|c s IH]; intros r p v H Hr.
  - cbn in H. injection H as <-. exists [], [], 1. repeat split; auto using t_nil. cbn. rewrite Z.mul_1_r, Z.mod_small; auto.
  - cbn [parse_u_loop] in H. pose proof (Z.pow_pos_nonneg 2 W ltac:(lia) HW) as HP.
    destruct (is_digit c) eqn:Ec.
    + destruct (_ <? p); [discriminate|].
      apply IH in H as (ds & t & k & -> & Hd & Ht & ->); [|apply Z.mod_pos_bound; lia].
      exists (c :: ds), t, k. apply is_digit_iff in Ec. repeat split; auto.
      change (decfrom r (c :: ds)) with (decfrom (10 * r + (c - 48)) ds). rewrite (Z.mul_comm r 10).
      rewrite Z.mul_mod, decfrom_mod, <- Z.mul_mod by lia. reflexivity.
    + destruct (Z.eqb_spec c 46) as [->|N].
      * destruct (skip_zeros s) eqn:Es; [|discriminate]. injection H as <-.
        exists [], (46 :: s), 1. repeat split; auto using t_frac, skip_zeros_nil. cbn. rewrite Z.mul_1_r, Z.mod_small; auto.
      * destruct ((c =? 101) || (c =? 69)) eqn:Ee; [|discriminate].
        apply (exp_part_sound W r s v c) in H as (k & Hk & ->); auto; [|lia].
        exists [], (c :: s), k. repeat split; auto.
Qed.

Lemma parse_u_sound W s v : 0 <= W -> parse_u W s = Ok v -> exists n, number s n /\ v = n mod 2 ^ W.
Proof.
  intros HW H. assert (N : s <> []) by (destruct s; discriminate || congruence).
  assert (H' : parse_u_loop W 0 0 s = Ok v) by (destruct s; [congruence|exact H]).
  pose proof (Z.pow_pos_nonneg 2 W ltac:(lia) HW) as HP.
  apply parse_u_loop_sound in H' as (ds & t & k & E & Hd & Ht & Ev); auto; [|lia].
  exists (dec ds * k). split; [|exact Ev]. apply number_tail. split; auto. exists ds, t, k. auto.
Qed.

Lemma exp_part_complete W r t e k : 0 <= W -> tail_ok (e :: t) k -> e = 101 \/ e = 69 -> 0 <= r -> r * k < 2 ^ W ->
  exp_part W r t = Ok (r * k).
Proof.
  intros HW Ht He Hr Hk. unfold exp_part. inversion Ht as [|zs Hz|e' es He' Hd Hn Hl|e' es He' Hd Hn Hl]; subst.
  - lia.
  - destruct t as [|c t]; [congruence|].
    inversion Hd as [|? ? Hc Hd']; subst. unfold digit in Hc. destruct (Z.eqb_spec c 43); [lia|].
    rewrite exp_core_complete by auto. pose proof (dec_nonneg _ Hd) as H0.
    rewrite exp_loop_complete; rewrite ?Z2Nat.id; auto.
  - cbn [Z.eqb Pos.eqb]. destruct es as [|c es]; [congruence|].
    rewrite exp_core_complete by auto. pose proof (dec_nonneg _ Hd) as H0.
    rewrite exp_loop_complete; rewrite ?Z2Nat.id; auto.
Qed.

Lemma tail_not_digit t k : tail_ok t k -> match t with c :: _ => is_digit c = false | [] => True end /\ 1 <= k.
Proof.
  intros H. destruct H as [|zs|e es He Hd|e es He Hd]; split; auto; try lia.
  - destruct He; subst; reflexivity.
  - pose proof (Z.pow_pos_nonneg 10 (dec es) ltac:(lia) (dec_nonneg _ Hd)). lia.
  - destruct He; subst; reflexivity.
  - pose proof (Z.pow_pos_nonneg 10 (dec es) ltac:(lia) (dec_nonneg _ Hd)). lia.
Qed.

Lemma parse_u_loop_complete W : 0 <= W -> forall ds t k r, Forall digit ds -> tail_ok t k -> 0 <= r ->
  decfrom r ds * k < 2 ^ W -> parse_u_loop W r r (ds ++ t) = Ok (decfrom r ds * k).
Proof.
  intros HW ds t k. induction ds as [|c ds IH]; intros r Hd Ht Hr Hk.
  - cbn [app]. cbn in Hk. change (decfrom r []) with r. destruct t as [|c t].
    + inversion Ht; subst. cbn. f_equal. lia.
    + cbn [parse_u_loop]. pose proof (tail_not_digit _ _ Ht) as [E _]. rewrite E.
      inversion Ht as [|zs Hz|e es He Hd' Hn Hl|e es He Hd' Hn Hl]; subst.
      * cbn [Z.eqb Pos.eqb]. rewrite skip_zeros_all by auto. f_equal. lia.
      * replace (c =? 46) with false by lia. replace ((c =? 101) || (c =? 69)) with true by lia.
        apply exp_part_complete with (e := c); auto.
      * replace (c =? 46) with false by lia. replace ((c =? 101) || (c =? 69)) with true by lia.
        apply exp_part_complete with (e := c); auto.
  - inversion Hd as [|? ? Hc Hd']; subst. cbn [app parse_u_loop].
    rewrite (proj2 (is_digit_iff c) Hc). unfold digit in Hc.
    change (decfrom r (c :: ds)) with (decfrom (10 * r + (c - 48)) ds) in *.
    pose proof (tail_not_digit _ _ Ht) as [_ Hk1].
    pose proof (decfrom_ge ds (10 * r + (c - 48)) ltac:(lia) Hd') as Hge.
    assert (Hle : decfrom (10 * r + (c - 48)) ds <= decfrom (10 * r + (c - 48)) ds * k).
    { rewrite <- (Z.mul_1_r (decfrom _ _)) at 1. apply Z.mul_le_mono_nonneg_l; lia. }
    replace (r * 10 + (c - 48)) with (10 * r + (c - 48)) by ring.
    rewrite Z.mod_small by lia. destruct (Z.ltb_spec (10 * r + (c - 48)) r); [lia|].
    apply IH; auto. lia.
Qed.

Lemma parse_u_complete W s n : 0 <= W -> number s n -> n < 2 ^ W -> parse_u W s = Ok n.
Proof.
  intros HW H Hn. apply number_tail in H as (N & ds & t & k & -> & Hd & Ht & ->).
  unfold parse_u. assert (E := parse_u_loop_complete W HW ds t k 0 Hd Ht ltac:(lia) Hn).
  change (decfrom 0 ds) with (dec ds) in E. destruct (ds ++ t); [congruence|exact E].
Qed.

Lemma exp_part_total W r s : (exists v, exp_part W r s = Ok v) \/ (exists e, exp_part W r s = Throw e).
Proof.
  unfold exp_part. destruct (match s with c :: s' => if c =? 43 then s' else s | [] => s end) eqn:E; [eauto|].
  destruct (exp_digits _) as [x [|]]; [apply exp_loop_total|eauto].
Qed.
Lemma parse_u_total W s : (exists v, parse_u W s = Ok v) \/ (exists e, parse_u W s = Throw e).
Proof.
  assert (G : forall s0 r p, (exists v, parse_u_loop W r p s0 = Ok v) \/ (exists e, parse_u_loop W r p s0 = Throw e)).
  { induction s0 as [|c t IH]; intros r p; cbn [parse_u_loop]; [eauto|].
    destruct (is_digit c). { destruct (_ <? _); eauto. }
    destruct (c =? 46). { destruct (skip_zeros t); eauto. }
    destruct (_ || _); [apply exp_part_total|eauto]. }
  unfold parse_u. destruct s; [eauto|apply G].
Qed.
Lemma parse_u_range W s v : 0 <= W -> parse_u W s = Ok v -> 0 <= v < 2 ^ W.
Proof.
  intros HW H. apply parse_u_sound in H as (n & _ & ->); auto. apply Z.mod_pos_bound.
  apply Z.pow_pos_nonneg; lia.
Qed.

(** A text denotes at most one number. *)
Lemma number_digits_unique ds1 t1 k1 ds2 t2 k2 : Forall digit ds1 -> Forall digit ds2 ->
  tail_ok t1 k1 -> tail_ok t2 k2 -> ds1 ++ t1 = ds2 ++ t2 -> ds1 = ds2 /\ t1 = t2.
Proof.
  intros H1 H2 T1 T2. apply tail_not_digit in T1 as [T1 _]. apply tail_not_digit in T2 as [T2 _].
  revert ds2 H2. induction H1 as [|c ds1 Hc H1 IH]; intros ds2 H2 E.
  - destruct H2 as [|d ds2 Hd H2]; [auto|]. cbn in E. subst t1. apply is_digit_iff in Hd. congruence.
  - destruct H2 as [|d ds2 Hd H2]; cbn in E.
    + subst t2. apply is_digit_iff in Hc. congruence.
    + injection E as -> E. destruct (IH ds2 H2 E). subst. auto.
Qed.
Lemma tail_unique t k1 k2 : tail_ok t k1 -> tail_ok t k2 -> k1 = k2.
Proof.
  intros H1 H2. destruct H1 as [|zs|e es He Hd|e es He Hd]; inversion H2; subst; try lia; auto.
  - inversion Hd; subst. unfold digit in *. lia.
  - match goal with H : Forall digit (43 :: es) |- _ => inversion H; subst end. unfold digit in *. lia.
Qed.
Lemma number_unique s n1 n2 : number s n1 -> number s n2 -> n1 = n2.
Proof.
  intros H1 H2. apply number_tail in H1 as (_ & d1 & t1 & k1 & E1 & D1 & T1 & ->).
  apply number_tail in H2 as (_ & d2 & t2 & k2 & E2 & D2 & T2 & ->).
  destruct (number_digits_unique d1 t1 k1 d2 t2 k2) as [-> ->]; auto; [congruence|].
  f_equal. eapply tail_unique; eauto.
Qed.
Lemma number_nonneg s n : number s n -> 0 <= n.
Proof.
  intros H. apply number_tail in H as (_ & d1 & t1 & k1 & E1 & D1 & T1 & ->).
  apply tail_not_digit in T1 as [_ K]. apply Z.mul_nonneg_nonneg; [apply dec_nonneg; auto|lia].
Qed.

(** When a single out-of-range step wraps below the previous value it is caught. *)
Lemma parse_u_loop_overflow W : 0 <= W -> forall ds c rest r, Forall digit ds -> digit c -> 0 <= r ->
  decfrom r ds < 2 ^ W -> 2 ^ W <= 10 * decfrom r ds + (c - 48) < 2 ^ W + decfrom r ds ->
  parse_u_loop W r r (ds ++ c :: rest) = Throw "out_of_range".
Proof.
  intros HW. induction ds as [|d ds IH]; intros c rest r Hd Hc Hr Hlt Ho.
  - cbn [app parse_u_loop]. change (decfrom r []) with r in *. rewrite (proj2 (is_digit_iff c) Hc).
    replace ((r * 10 + (c - 48)) mod 2 ^ W) with (10 * r + (c - 48) - 2 ^ W).
    + destruct (Z.ltb_spec (10 * r + (c - 48) - 2 ^ W) r); [reflexivity|lia].
    + apply Z.mod_unique with (q := 1); lia.
  - inversion Hd as [|? ? Hd1 Hd']; subst. cbn [app parse_u_loop].
    rewrite (proj2 (is_digit_iff d) Hd1). unfold digit in Hd1.
    change (decfrom r (d :: ds)) with (decfrom (10 * r + (d - 48)) ds) in *.
    pose proof (decfrom_ge ds (10 * r + (d - 48)) ltac:(lia) Hd') as Hge.
    replace (r * 10 + (d - 48)) with (10 * r + (d - 48)) by ring.
    rewrite Z.mod_small by lia. destruct (Z.ltb_spec (10 * r + (d - 48)) r); [lia|].
    apply IH; auto. lia.
Qed.
Lemma parse_u_overflow W ds c rest : 0 <= W -> Forall digit ds -> digit c ->
  dec ds < 2 ^ W -> 2 ^ W <= 10 * dec ds + (c - 48) < 2 ^ W + dec ds ->
  parse_u W (ds ++ c :: rest) = Throw "out_of_range".
Proof.
  intros. unfold parse_u. rewrite <- (parse_u_loop_overflow W H ds c rest 0); auto; try lia.
  destruct ds; reflexivity.
Qed.

(** * is_overflow *)
Lemma pow_half b : 1 <= b -> 2 ^ b = 2 * 2 ^ (b - 1).
Proof. intros. rewrite <- Z.pow_succ_r by lia. f_equal; lia. Qed.
Lemma pow_lt_mono a b : 0 <= b -> a <= b -> 2 ^ a <= 2 ^ b.
Proof. intros. apply Z.pow_le_mono_r; lia. Qed.

Lemma cast_id sgn b x : 1 <= b -> in_range sgn b x -> cast sgn b x = x.
Proof.
  intros Hb Hr. unfold in_range, cast in *. pose proof (pow_half b Hb) as E.
  pose proof (Z.pow_pos_nonneg 2 (b - 1) ltac:(lia) ltac:(lia)) as HP. cbn zeta.
  destruct sgn; cbn [andb].
  - destruct (Z.lt_ge_cases x 0).
    + replace (x mod 2 ^ b) with (x + 2 ^ b) by (apply Z.mod_unique with (q := -1); lia).
      destruct (Z.leb_spec (2 ^ (b - 1)) (x + 2 ^ b)); lia.
    + rewrite Z.mod_small by lia. destruct (Z.leb_spec (2 ^ (b - 1)) x); lia.
  - apply Z.mod_small; lia.
Qed.
Lemma cast_range sgn b x : 1 <= b -> in_range sgn b (cast sgn b x).
Proof.
  intros Hb. unfold in_range, cast. pose proof (pow_half b Hb) as E.
  pose proof (Z.pow_pos_nonneg 2 (b - 1) ltac:(lia) ltac:(lia)) as HP. cbn zeta.
  pose proof (Z.mod_pos_bound x (2 ^ b) ltac:(lia)) as HM.
  destruct sgn; cbn [andb]; [|lia]. destruct (Z.leb_spec (2 ^ (b - 1)) (x mod 2 ^ b)); lia.
Qed.

Lemma is_overflow_ok ds db ss sb src : 1 <= db -> 1 <= sb -> (db < sb \/ db = sb \/ sb <= db - 1) ->
  in_range ss sb src -> (is_overflow ds db ss sb src = false <-> in_range ds db src).
Proof.
  intros Hd Hs _ Hr. pose proof (pow_half db Hd) as E1. pose proof (pow_half sb Hs) as E2.
  pose proof (Z.pow_pos_nonneg 2 (db - 1) ltac:(lia) ltac:(lia)) as HP1.
  pose proof (Z.pow_pos_nonneg 2 (sb - 1) ltac:(lia) ltac:(lia)) as HP2.
  unfold is_overflow. destruct ds, ss; unfold tmin, tmax.
  - destruct (Z.ltb_spec db sb) as [L|L].
    + assert (M := pow_lt_mono (db - 1) (sb - 1) ltac:(lia) ltac:(lia)).
      rewrite !cast_id by (unfold in_range in *; lia). unfold in_range in *. lia.
    + assert (M := pow_lt_mono (sb - 1) (db - 1) ltac:(lia) ltac:(lia)). unfold in_range in *. split; [lia|reflexivity].
  - destruct (Z.le_gt_cases db sb) as [L|L].
    + assert (M := pow_lt_mono (db - 1) (sb - 1) ltac:(lia) ltac:(lia)).
      rewrite cast_id by (unfold in_range in *; lia). unfold in_range in *. lia.
    + assert (M := pow_lt_mono sb (db - 1) ltac:(lia) ltac:(lia)).
      assert (Ec : cast false sb (2 ^ (db - 1) - 1) = 2 ^ sb - 1).
      { unfold cast. cbn [andb]. symmetry. apply Z.mod_unique with (q := 2 ^ (db - 1 - sb) - 1); [lia|].
        replace (2 ^ (db - 1)) with (2 ^ sb * 2 ^ (db - 1 - sb)); [ring|]. rewrite <- Z.pow_add_r by lia. f_equal; lia. }
      rewrite Ec. unfold in_range in *. lia.
  - destruct (Z.ltb_spec db sb) as [L|L].
    + assert (M := pow_lt_mono db (sb - 1) ltac:(lia) ltac:(lia)).
      rewrite !cast_id by (unfold in_range in *; lia). unfold in_range in *. lia.
    + assert (M := pow_lt_mono (sb - 1) db ltac:(lia) ltac:(lia)). unfold in_range in *. lia.
  - destruct (Z.ltb_spec db sb) as [L|L].
    + assert (M := pow_lt_mono db sb ltac:(lia) ltac:(lia)).
      rewrite !cast_id by (unfold in_range in *; lia). unfold in_range in *. lia.
    + assert (M := pow_lt_mono sb db ltac:(lia) ltac:(lia)). unfold in_range in *. split; [lia|reflexivity].
Qed.

(** * Signed parsing *)
Lemma parse_s_exact W (neg : bool) s n : 1 <= W -> number s n ->
  n < 2 ^ W ->
  parse_s W (if neg then 45 :: s else s) =
    if (if neg then n <=? 2 ^ (W - 1) else n <? 2 ^ (W - 1)) then Ok (if neg then - n else n) else Throw "overflow_error".
Proof.
  intros HW Hn Hlt. unfold parse_s.
  assert (Es : strip_minus (if neg then 45 :: s else s) = (neg, s)).
  { destruct neg; [reflexivity|]. unfold strip_minus. destruct s as [|c s]; [reflexivity|].
    destruct (Z.eqb_spec c 45) as [->|]; auto. exfalso.
    apply number_tail in Hn as (_ & ds & t & k & E & Hd & Ht & _). destruct ds as [|d ds]; cbn in E.
    - subst t. inversion Ht; subst; lia.
    - injection E as <- _. inversion Hd; subst. unfold digit in *. lia. }
  rewrite Es. rewrite (parse_u_complete W s n) by (auto; lia). cbn [bind].
  pose proof (number_nonneg _ _ Hn) as H0. pose proof (pow_half W HW) as E.
  pose proof (Z.pow_pos_nonneg 2 (W - 1) ltac:(lia) ltac:(lia)) as HP.
  assert (Ec : cast false W (tmin true W) = 2 ^ (W - 1)).
  { unfold cast, tmin. cbn [andb]. symmetry. apply Z.mod_unique with (q := -1); lia. }
  rewrite Ec.
  pose proof (is_overflow_ok true W false W n HW HW ltac:(lia) ltac:(unfold in_range; lia)) as Ho.
  destruct neg; cbn [andb].
  - destruct (Z.eqb_spec n (2 ^ (W - 1))) as [->|N].
    + rewrite Z.leb_refl. reflexivity.
    + destruct (is_overflow true W false W n) eqn:Eo.
      * destruct (Z.leb_spec n (2 ^ (W - 1))); [|reflexivity]. exfalso.
        assert (X : true = false) by (apply Ho; unfold in_range; lia). discriminate.
      * apply proj1 in Ho. specialize (Ho eq_refl). rewrite cast_id by auto. unfold in_range in Ho.
        destruct (Z.leb_spec n (2 ^ (W - 1))); [reflexivity|lia].
  - destruct (is_overflow true W false W n) eqn:Eo.
    + destruct (Z.ltb_spec n (2 ^ (W - 1))); [|reflexivity]. exfalso.
      assert (X : true = false) by (apply Ho; unfold in_range; lia). discriminate.
    + apply proj1 in Ho. specialize (Ho eq_refl). rewrite cast_id by auto. unfold in_range in Ho.
      destruct (Z.ltb_spec n (2 ^ (W - 1))); [reflexivity|lia].
Qed.

Lemma parse_s_sound W s v : 1 <= W -> parse_s W s = Ok v ->
  exists (neg : bool) t n, s = (if neg then 45 :: t else t) /\ number t n /\
    in_range true W v /\ (neg = false -> v = n mod 2 ^ W) /\ (neg = true -> v = - (n mod 2 ^ W)).
Proof.
  intros HW H. unfold parse_s in H.
  assert (Es : exists neg t, strip_minus s = (neg, t) /\ s = (if neg : bool then 45 :: t else t)).
  { unfold strip_minus. destruct s as [|c s]; [exists false, []; auto|].
    destruct (Z.eqb_spec c 45) as [->|]; [exists true, s; auto | exists false, (c :: s); auto]. }
  destruct Es as (neg & t & Es & E). rewrite Es in H.
  destruct (parse_u W t) as [u| | |] eqn:Eu; try discriminate. cbn [bind] in H.
  pose proof (parse_u_range W t u ltac:(lia) Eu) as Hu.
  destruct (parse_u_sound W t u ltac:(lia) Eu) as (n & Hn & En).
  exists neg, t, n. pose proof (pow_half W HW) as E2. split; auto. split; auto.
  pose proof (Z.pow_pos_nonneg 2 (W - 1) ltac:(lia) ltac:(lia)) as HP.
  assert (Ec : cast false W (tmin true W) = 2 ^ (W - 1)).
  { unfold cast, tmin. cbn [andb]. symmetry. apply Z.mod_unique with (q := -1); lia. }
  rewrite Ec in H. rewrite <- En.
  destruct (neg && (u =? 2 ^ (W - 1))) eqn:Em.
  - injection H as <-. unfold tmin, in_range. destruct neg; [|discriminate]. cbn in Em.
    assert (u = 2 ^ (W - 1)) as -> by lia. repeat split; try lia; auto.
  - pose proof (is_overflow_ok true W false W u HW HW ltac:(lia) ltac:(unfold in_range; lia)) as Ho.
    destruct (is_overflow true W false W u); [discriminate|]. apply proj1 in Ho. specialize (Ho eq_refl).
    rewrite cast_id in H by auto. injection H as <-. unfold in_range in *.
    destruct neg; repeat split; auto; try lia; try discriminate.
Qed.

(** * string_to_number *)
Lemma overflow_check_ok W value neg : 2 <= W <= 64 -> 0 <= value < 2 ^ 64 ->
  overflow_check W value neg = false <-> (value < 2 ^ (W - 1) \/ (neg = true /\ value = 2 ^ (W - 1))).
Proof.
  intros HW Hv. unfold overflow_check.
  pose proof (Z.pow_pos_nonneg 2 (W - 1) ltac:(lia) ltac:(lia)) as HP.
  assert (M := pow_lt_mono (W - 1) 63 ltac:(lia) ltac:(lia)).
  change (2 ^ 63) with 9223372036854775808 in M. change (2 ^ 64) with 18446744073709551616 in Hv.
  assert (E1 : u64 (- tmin true W) = 2 ^ (W - 1)).
  { unfold u64, tmin. rewrite Z.opp_involutive. apply Z.mod_small. lia. }
  assert (E2 : Z.land value (u64 (Z.lnot (tmax true W))) = value / 2 ^ (W - 1) * 2 ^ (W - 1)).
  { assert (Eu : u64 (Z.lnot (tmax true W)) = (2 ^ (65 - W) - 1) * 2 ^ (W - 1)).
    { unfold u64, tmax, Z.lnot. symmetry.
      replace (Z.pred (- (2 ^ (W - 1) - 1))) with (- 2 ^ (W - 1)) by lia.
      rewrite Z.mul_sub_distr_r, <- Z.pow_add_r by lia. replace (65 - W + (W - 1)) with 64 by lia.
      change (2 ^ 64) with 18446744073709551616.
      apply Z.mod_unique with (q := -1); lia. }
    rewrite Eu, land_field by lia. f_equal. apply Z.mod_small.
    split; [apply Z.div_pos; lia|]. apply Z.div_lt_upper_bound; [lia|].
    rewrite <- Z.pow_add_r by lia. replace (W - 1 + (65 - W)) with 64 by lia. exact (proj2 Hv). }
  rewrite E1, E2.
  assert (Hq : value / 2 ^ (W - 1) * 2 ^ (W - 1) = 0 <-> value < 2 ^ (W - 1)).
  { split; intros H.
    - pose proof (Z.div_mod value (2 ^ (W - 1)) ltac:(lia)). pose proof (Z.mod_pos_bound value (2 ^ (W - 1)) ltac:(lia)). lia.
    - rewrite Z.div_small by lia. reflexivity. }
  set (q := value / 2 ^ (W - 1) * 2 ^ (W - 1)) in *. clearbody q.
  destruct neg; cbn [andb].
  - destruct (Z.eqb_spec value (2 ^ (W - 1))) as [E|E]; [split; auto|].
    destruct (Z.eqb_spec q 0) as [E0|E0]; cbn [negb].
    + split; auto. intros _. left. tauto.
    + split; [discriminate|]. intros [L|[_ L]]; tauto.
  - destruct (Z.eqb_spec q 0) as [E0|E0]; cbn [negb].
    + split; auto. intros _. left. tauto.
    + split; [discriminate|]. intros [L|[L _]]; [tauto|discriminate].
Qed.

Lemma strip_number s n : number s n -> strip_minus s = (false, s).
Proof.
  intros Hn. unfold strip_minus. destruct s as [|c s]; [reflexivity|].
  destruct (Z.eqb_spec c 45) as [->|]; auto. exfalso.
  apply number_tail in Hn as (_ & ds & t & k & E & Hd & Ht & _). destruct ds as [|d ds]; cbn in E.
  - subst t. inversion Ht; subst; lia.
  - injection E as <- _. inversion Hd; subst. unfold digit in *. lia.
Qed.

Lemma lower_eq c l u : lower c = l -> 97 <= l <= 122 -> u = l - 32 -> c = l \/ c = u.
Proof. unfold lower. intros. destruct ((65 <=? c) && (c <=? 90)) eqn:E; lia. Qed.
Lemma parse_na_iff s : parse_na s = true <-> na_token s.
Proof.
  unfold na_token. split.
  - intros H. destruct s as [|a [|b [|c [|d [|]]]]]; try discriminate; auto; cbn [parse_na] in H.
    + right; left. f_equal; [lia|]. f_equal. lia.
    + apply orb_true_iff in H as [H|H].
      * right; right; left. cbn [map]. unfold lower.
        assert (a = 78 \/ a = 110) by lia. assert (b = 85 \/ b = 117) by lia.
        assert (c = 76 \/ c = 108) by lia. assert (d = 76 \/ d = 108) by lia.
        destruct H0, H1, H2, H3; subst; reflexivity.
      * right; right; right. repeat f_equal; lia.
  - intros [->|[->|[H| ->]]]; try reflexivity.
    destruct s as [|a [|b [|c [|d [|]]]]]; try discriminate. cbn [map] in H. injection H as Ha Hb Hc Hd.
    apply (lower_eq a 110 78) in Ha; try lia. apply (lower_eq b 117 85) in Hb; try lia.
    apply (lower_eq c 108 76) in Hc; try lia. apply (lower_eq d 108 76) in Hd; try lia.
    destruct Ha, Hb, Hc, Hd; subst; reflexivity.
Qed.
Lemma number_not_na s n (neg : bool) : number s n -> parse_na (if neg then 45 :: s else s) = false.
Proof.
  intros Hn. apply not_true_is_false. intros H. apply parse_na_iff in H.
  assert (Hh : exists c t, s = c :: t /\ (digit c \/ c = 46 \/ c = 101 \/ c = 69)).
  { apply number_tail in Hn as (N & ds & t & k & E & Hd & Ht & _). destruct ds as [|d ds]; cbn in E.
    - subst t. destruct Ht; [congruence| | |]; do 2 eexists; split; eauto; lia.
    - subst s. inversion Hd; subst. eauto. }
  destruct Hh as (c & t & -> & Hc). unfold digit in Hc.
  destruct neg, H as [H|[H|[H|H]]]; try discriminate.
  - injection H as H _. lia.
  - cbn [map] in H. injection H as H _. apply (lower_eq c 110 78) in H; lia.
  - injection H as H _. lia.
Qed.

Lemma string_to_number_exact sgn W (neg : bool) s n : 2 <= W <= 64 -> number s n -> n < 2 ^ 64 ->
  let v := if neg then - n else n in
  (in_range sgn W v -> (sgn = true -> W = 64 -> v <> - 2 ^ 63) ->
     string_to_number sgn W (if neg then 45 :: s else s) = Ok v) /\
  (~ in_range sgn W v -> string_to_number sgn W (if neg then 45 :: s else s) = Throw "overflow_error").
Proof.
  intros HW Hn Hlt v. pose proof (number_nonneg _ _ Hn) as H0.
  pose proof (number_not_na s n neg Hn) as Hna.
  assert (Es : strip_minus (if neg then 45 :: s else s) = (neg, s)) by (destruct neg; [reflexivity|eapply strip_number; eauto]).
  unfold string_to_number. rewrite Hna, Es. rewrite (parse_u_complete 64 s n) by (auto; lia). cbn [bind].
  pose proof (pow_half W ltac:(lia)) as E2. pose proof (Z.pow_pos_nonneg 2 (W - 1) ltac:(lia) ltac:(lia)) as HP.
  assert (M := pow_lt_mono (W - 1) 63 ltac:(lia) ltac:(lia)).
  destruct sgn.
  - unfold assign_signed. pose proof (overflow_check_ok W n neg HW ltac:(lia)) as Ho.
    destruct (overflow_check W n neg) eqn:Eo.
    + split; intros H; [exfalso|reflexivity]. apply proj2 in Ho.
      assert (X : true = false); [apply Ho|discriminate]. unfold in_range, v in H. destruct neg; [|left; lia].
      destruct (Z.eq_dec n (2 ^ (W - 1))); [right; auto|left; lia].
    + apply proj1 in Ho. specialize (Ho eq_refl).
      split; [intros Hr Hne | intros Hr; exfalso; apply Hr; unfold in_range, v; destruct neg; destruct Ho as [|[? ?]]; try discriminate; lia].
      change (2 ^ 63) with 9223372036854775808 in *.
      assert (Hn63 : n < 9223372036854775808).
      { destruct Ho as [|[-> En]]; [lia|]. destruct (Z.eq_dec W 64) as [->|].
        - exfalso. apply (Hne eq_refl eq_refl). unfold v. rewrite En. reflexivity.
        - assert (2 ^ (W - 1) <= 2 ^ 62) by (apply pow_lt_mono; lia). change (2 ^ 62) with 4611686018427387904 in *. lia. }
      rewrite (cast_id true 64 n); [|lia|unfold in_range; change (2 ^ (64 - 1)) with 9223372036854775808; lia].
      destruct neg.
      * rewrite neg64_ok by (unfold s64; change (2 ^ 63) with 9223372036854775808; lia). cbn [bind].
        rewrite cast_id by (auto; lia). reflexivity.
      * cbn [bind]. rewrite cast_id by (auto; lia). reflexivity.
  - pose proof (is_overflow_ok false W false 64 n ltac:(lia) ltac:(lia) ltac:(lia) ltac:(unfold in_range; lia)) as Ho.
    destruct (is_overflow false W false 64 n) eqn:Eo.
    + rewrite orb_true_r. split; intros H; [exfalso|reflexivity].
      assert (X : true = false); [apply Ho; unfold in_range, v in *; destruct neg; lia|discriminate].
    + apply proj1 in Ho. specialize (Ho eq_refl). rewrite orb_false_r.
      destruct neg; cbn [andb].
      * destruct (Z.eqb_spec n 0) as [->|N]; cbn [negb].
        -- split; [intros; rewrite cast_id by (auto; lia); reflexivity|]. intros H; exfalso; apply H; unfold in_range, v in *; lia.
        -- split; [intros H; exfalso; unfold in_range, v in *; lia|reflexivity].
      * split; [intros; rewrite cast_id by (auto; lia); reflexivity|]. intros H; exfalso; apply H; exact Ho.
Qed.

Lemma string_to_number_na sgn W s : na_token s ->
  string_to_number sgn W s = if sgn then Ok (- 2 ^ (W - 1)) else Throw "type_error".
Proof. intros H. apply parse_na_iff in H. unfold string_to_number. rewrite H. destruct sgn; reflexivity. Qed.

Lemma string_to_number_reject sgn W s : ~ na_token s ->
  (forall neg t n, s = (if neg : bool then 45 :: t else t) -> ~ number t n) ->
  exists e, string_to_number sgn W s = Throw e.
Proof.
  intros Hna Hnum. unfold string_to_number.
  destruct (parse_na s) eqn:E; [apply parse_na_iff in E; tauto|].
  assert (Es : exists neg t, strip_minus s = (neg, t) /\ s = (if neg : bool then 45 :: t else t)).
  { unfold strip_minus. destruct s as [|c s]; [exists false, []; auto|].
    destruct (Z.eqb_spec c 45) as [->|]; [exists true, s; auto | exists false, (c :: s); auto]. }
  destruct Es as (neg & t & Es & Et). rewrite Es.
  destruct (parse_u_total 64 t) as [[v Hv]|[e He]].
  - exfalso. apply parse_u_sound in Hv as (n & Hn & _); [|lia]. eapply Hnum; eauto.
  - rewrite He. cbn. eauto.
Qed.

(** nocheck: the value modulo the type's range *)
Lemma exp_loop_nocheck_ok W i : 0 <= W -> forall r, exp_loop_nocheck W i (r mod 2 ^ W) = (r * 10 ^ Z.of_nat i) mod 2 ^ W.
Proof.
  intros HW. pose proof (Z.pow_pos_nonneg 2 W ltac:(lia) HW) as HP.
  induction i as [|i IH]; intros r; cbn [exp_loop_nocheck]; [cbn; rewrite Z.mul_1_r; auto|].
  rewrite Z.mul_mod_idemp_l by lia. rewrite IH. f_equal. rewrite Nat2Z.inj_succ, Z.pow_succ_r by lia. ring.
Qed.
Lemma parse_u_nocheck_ok W s n : 0 <= W -> number s n -> parse_u_nocheck W s = n mod 2 ^ W.
Proof.
  intros HW H. pose proof (Z.pow_pos_nonneg 2 W ltac:(lia) HW) as HP.
  apply number_tail in H as (N & ds & t & k & -> & Hd & Ht & ->). clear N.
  unfold parse_u_nocheck. change (dec ds) with (decfrom 0 ds).
  assert (G : forall ds r, Forall digit ds -> parse_u_nocheck_loop W (r mod 2 ^ W) (ds ++ t) = (decfrom r ds * k) mod 2 ^ W).
  { clear ds Hd. induction ds as [|c ds IH]; intros r Hd.
    - cbn [app]. change (decfrom r []) with r. destruct Ht as [|zs Hz|e es He Hd' Hn Hl|e es He Hd' Hn Hl].
      + cbn. now rewrite Z.mul_1_r.
      + cbn. now rewrite Z.mul_1_r.
      + cbn [parse_u_nocheck_loop]. replace (is_digit e) with false by (unfold is_digit; lia).
        replace ((e =? 101) || (e =? 69)) with true by lia.
        destruct es as [|c es]; [congruence|]. inversion Hd' as [|? ? Hc Hd'']; subst. unfold digit in Hc.
        destruct (Z.eqb_spec c 43); [lia|]. rewrite exp_core_complete by auto.
        rewrite exp_loop_nocheck_ok by auto. rewrite Z2Nat.id by (apply dec_nonneg; auto). reflexivity.
      + cbn [parse_u_nocheck_loop]. replace (is_digit e) with false by (unfold is_digit; lia).
        replace ((e =? 101) || (e =? 69)) with true by lia. cbn [Z.eqb Pos.eqb].
        destruct es as [|c es]; [congruence|]. rewrite exp_core_complete by auto.
        rewrite exp_loop_nocheck_ok by auto. rewrite Z2Nat.id by (apply dec_nonneg; auto). reflexivity.
    - inversion Hd as [|? ? Hc Hd']; subst. cbn [app parse_u_nocheck_loop].
      rewrite (proj2 (is_digit_iff c) Hc).
      change (decfrom r (c :: ds)) with (decfrom (10 * r + (c - 48)) ds).
      rewrite <- IH by auto. f_equal. rewrite Z.add_mod, Z.mul_mod_idemp_l, <- Z.add_mod by lia. f_equal. ring. }
  rewrite <- (G ds 0 Hd). now rewrite Z.mod_0_l by lia.
Qed.

(** Overflow while applying the exponent. *)
Lemma exp_loop_overflow W j : 0 <= W -> forall i r, 0 <= r -> (j < i)%nat ->
  r * 10 ^ Z.of_nat j < 2 ^ W -> 2 ^ W <= r * 10 ^ Z.of_nat (S j) < 2 ^ W + r * 10 ^ Z.of_nat j ->
  exp_loop W i r r = Throw "out_of_range".
Proof.
  intros HW. induction j as [|j IH]; intros i r Hr Hi Hlt Ho; (destruct i as [|i]; [lia|]); cbn [exp_loop].
  - change (10 ^ Z.of_nat 0) with 1 in *. change (10 ^ Z.of_nat 1) with 10 in *.
    replace ((r * 10) mod 2 ^ W) with (r * 10 - 2 ^ W) by (apply Z.mod_unique with (q := 1); lia).
    destruct (Z.ltb_spec (r * 10 - 2 ^ W) r); [reflexivity|lia].
  - pose proof (Z.pow_pos_nonneg 10 (Z.of_nat j) ltac:(lia) ltac:(lia)) as HP.
    rewrite (Nat2Z.inj_succ (S j)), Z.pow_succ_r in Ho by lia.
    rewrite Nat2Z.inj_succ, Z.pow_succ_r in Hlt, Ho by lia.
    assert (Hle : r * 10 <= r * (10 * 10 ^ Z.of_nat j)) by (apply Z.mul_le_mono_nonneg_l; lia).
    rewrite (Z.mod_small (r * 10)) by lia. destruct (Z.ltb_spec (r * 10) r); [lia|].
    apply IH; try lia; rewrite ?Nat2Z.inj_succ, ?Z.pow_succ_r by lia; lia.
Qed.
Lemma parse_u_exp_overflow W ds e es j : 0 <= W -> Forall digit ds -> e = 101 \/ e = 69 ->
  Forall digit es -> es <> [] -> Z.of_nat j < dec es < 100 ->
  dec ds * 10 ^ Z.of_nat j < 2 ^ W ->
  2 ^ W <= dec ds * 10 ^ Z.of_nat (S j) < 2 ^ W + dec ds * 10 ^ Z.of_nat j ->
  parse_u W (ds ++ e :: es) = Throw "out_of_range".
Proof.
  intros HW Hd He Hes Hn Hj Hlt Ho.
  assert (G : forall ds r, Forall digit ds -> 0 <= r -> decfrom r ds * 10 ^ Z.of_nat j < 2 ^ W ->
     2 ^ W <= decfrom r ds * 10 ^ Z.of_nat (S j) < 2 ^ W + decfrom r ds * 10 ^ Z.of_nat j ->
     parse_u_loop W r r (ds ++ e :: es) = Throw "out_of_range").
  { clear ds Hd Hlt Ho. induction ds as [|c ds IH]; intros r Hd Hr Hlt Ho.
    - cbn [app parse_u_loop]. change (decfrom r []) with r in *.
      replace (is_digit e) with false by (unfold is_digit; lia). replace (e =? 46) with false by lia.
      replace ((e =? 101) || (e =? 69)) with true by lia. unfold exp_part.
      destruct es as [|c es]; [congruence|]. inversion Hes as [|? ? Hc Hes']; subst. unfold digit in Hc.
      destruct (Z.eqb_spec c 43); [lia|]. rewrite exp_core_complete by (auto; lia).
      apply exp_loop_overflow with (j := j); auto. lia.
    - inversion Hd as [|? ? Hc Hd']; subst. cbn [app parse_u_loop]. rewrite (proj2 (is_digit_iff c) Hc). unfold digit in Hc.
      change (decfrom r (c :: ds)) with (decfrom (10 * r + (c - 48)) ds) in *.
      pose proof (decfrom_ge ds (10 * r + (c - 48)) ltac:(lia) Hd') as Hge.
      pose proof (Z.pow_pos_nonneg 10 (Z.of_nat j) ltac:(lia) ltac:(lia)) as HP.
      assert (Hle : decfrom (10 * r + (c - 48)) ds * 1 <= decfrom (10 * r + (c - 48)) ds * 10 ^ Z.of_nat j).
      { apply Z.mul_le_mono_nonneg_l; lia. }
      replace (r * 10 + (c - 48)) with (10 * r + (c - 48)) by ring.
      rewrite Z.mod_small by lia. destruct (Z.ltb_spec (10 * r + (c - 48)) r); [lia|]. apply IH; auto. lia. }
  unfold parse_u. assert (E := G ds 0 Hd ltac:(lia) Hlt Ho). destruct ds; exact E.
Qed.
