(** One index: what apply_single_linear_index selects. *)
From Verif Require Import Base LinearIndexModel LinearIndexSpec LinearIndexProofs LayoutModel LayoutSpec IndexModel IndexSpec.
Open Scope Z_scope.

Lemma chk64_inv x y : chk64 x = Ok y -> y = x.
Proof. unfold chk64. destruct (is_s64 x); congruence. Qed.
Lemma bind_ok {A B} (x : outcome A) (f : A -> outcome B) y : bind x f = Ok y -> exists a, x = Ok a /\ f a = Ok y.
Proof. destruct x; cbn; try discriminate. eauto. Qed.
Lemma div64_inv a b y : div64 a b = Ok y -> y = Z.quot a b.
Proof. unfold div64. destruct (b =? 0); [discriminate|]. apply chk64_inv. Qed.

Lemma sli_index r n s : 0 <= n < 2 ^ 63 -> idx64 r -> r_step r = 0 -> apply_single_linear_index r n = Ok s -> o_remove s = true /\ at_index (r_start r) n (o_start s).
Proof.
  intros N (I1 & I2 & I3) Z0 E. destruct r as [a b k]. cbn [r_start r_finish r_step] in *. subst k. assert (Sn : s64 n) by (unfold s64; lia).
  destruct (single_index_cases n a b (proj1 N) Sn I1) as (C1 & C2 & C3). unfold at_index, from_end.
  destruct (Z.ltb_spec a 0); destruct (Z.lt_ge_cases a (- n)); destruct (Z.lt_ge_cases a n); try (rewrite C3 in E by lia; discriminate).
  - rewrite C2 in E by lia. injection E as <-. cbn [o_remove o_start]. lia.
  - rewrite C1 in E by lia. injection E as <-. cbn [o_remove o_start]. lia.
Qed.
Lemma sli_index_ok r n i : 0 <= n < 2 ^ 63 -> idx64 r -> r_step r = 0 -> at_index (r_start r) n i -> exists s, apply_single_linear_index r n = Ok s /\ o_remove s = true /\ o_start s = i.
Proof.
  intros N (I1 & I2 & I3) Z0 (E & B). destruct r as [a b k]. cbn [r_start r_finish r_step] in *. subst k. assert (Sn : s64 n) by (unfold s64; lia).
  destruct (single_index_cases n a b (proj1 N) Sn I1) as (C1 & C2 & C3). unfold from_end in E.
  destruct (Z.ltb_spec a 0).
  - rewrite C2 by lia. eexists. split; [reflexivity|]. cbn. lia.
  - rewrite C1 by lia. eexists. split; [reflexivity|]. cbn. lia.
Qed.
Lemma sli_slice r n s : 0 <= n < 2 ^ 63 -> idx64 r -> r_step r <> 0 -> apply_single_linear_index r n = Ok s ->
  o_remove s = false /\ 0 <= o_size s /\ (forall j i, in_slice r n j i <-> 0 <= j < o_size s /\ i = o_start s + j * o_stride s) /\ (forall j, 0 <= j < o_size s -> 0 <= o_start s + j * o_stride s < n).
Proof.
  intros N (I1 & I2 & I3) Z0 E. destruct r as [a b k]. unfold in_slice. cbn [r_start r_finish r_step] in *. assert (Sn : s64 n) by (unfold s64; lia).
  unfold apply_single_linear_index in E. cbn [r_start r_finish r_step] in E. destruct (Z.eqb_spec k 0); [lia|]. destruct (Z.ltb_spec 0 k) as [K|K].
  - unfold pos_range in E. rewrite pos_start_eq, pos_end_eq in E by (auto; lia). set (lo := Z.max 0 (from_end n a)) in *. set (hi := Z.min n (from_end n b)) in *.
    assert (LO : 0 <= lo) by (unfold lo; lia). assert (HI : hi <= n) by (unfold hi; lia). clearbody lo hi.
    destruct (_ && _); [discriminate|]. cbn [bind] in E. destruct (b <? - n); [discriminate|]. cbn [bind] in E. apply bind_ok in E as (z & D & E). apply chk64_inv in D. subst z.
    destruct (Z.ltb_spec 0 (hi - lo)) as [P|P].
    + assert (G : exists sz, s = mk_linidx false lo k sz /\ 0 <= sz /\ forall j, 0 <= j -> (j < sz <-> lo + j * k < hi)).
      { destruct (Z.eqb_spec k 1) as [->|K1].
        - injection E as <-. exists (hi - lo). split; [reflexivity|]. split; [lia|]. intros j J. lia.
        - apply bind_ok in E as (x & Ex & E). apply chk64_inv in Ex. subst x. apply bind_ok in E as (x & Ex & E). apply chk64_inv in Ex. subst x. apply bind_ok in E as (x & Ex & E). apply div64_inv in Ex. injection E as <-. exists x. subst x.
          split; [reflexivity|]. split; [apply Z.quot_pos; lia|]. intros j J. rewrite ceil_count by lia. lia. }
      destruct G as (sz & -> & SZ & G). cbn [o_remove o_size o_start o_stride]. split; [reflexivity|]. split; [exact SZ|]. split.
      * intros j i. split.
        -- intros (J & [(_ & -> & B)|(B & _)]); [|lia]. split; [|reflexivity]. split; [exact J|]. apply G; auto.
        -- intros (J & ->). split; [lia|]. left. split; [auto|]. split; [reflexivity|]. apply G; lia.
      * intros j J. assert (0 <= j * k) by (apply Z.mul_nonneg_nonneg; lia). destruct (G j (proj1 J)) as (G1 & _). specialize (G1 (proj2 J)). lia.
    + injection E as <-. cbn [o_remove o_size o_start o_stride]. split; [reflexivity|]. split; [lia|]. split; [|intros; lia]. intros j i. split; [|intros; lia].
      intros (J & [(_ & -> & B)|(B & _)]); [|lia]. assert (0 <= j * k) by (apply Z.mul_nonneg_nonneg; lia). lia.
  - assert (K' : k < 0) by lia. unfold neg_range in E. rewrite neg_start_eq, neg_end_eq in E by (auto; lia).
    apply bind_ok in E as (lo & L & E). apply bind_ok in E as (hi & H & E).
    assert (LO : lo = neg_lo n a /\ -1 <= lo < n).
    { unfold neg_lo, SLICE_BEGIN in *. change (- 2 ^ 63) with INT64_MIN. destruct (Z.eqb_spec a INT64_MIN); [injection L as <-; lia|]. destruct ((0 <=? a) && (n <=? a) || (a <? - n)) eqn:B; [discriminate|]. injection L as <-. split; [reflexivity|]. unfold from_end. destruct (Z.ltb_spec a 0); lia. }
    assert (HI : hi = neg_hi n b /\ -1 <= hi).
    { unfold neg_hi, SLICE_END in *. change (2 ^ 63 - 1) with INT64_MAX. destruct (Z.eqb_spec b INT64_MAX); [injection H as <-; lia|]. destruct ((0 <=? b) && (n <=? b)) eqn:B; [discriminate|]. injection H as <-. split; [reflexivity|]. lia. }
    destruct LO as (<- & LO). destruct HI as (<- & HI). clear L H. apply bind_ok in E as (z & D & E). apply chk64_inv in D. subst z.
    destruct (Z.ltb_spec 0 (lo - hi)) as [P|P].
    + assert (G : exists sz, s = mk_linidx false lo k sz /\ 0 <= sz /\ forall j, 0 <= j -> (j < sz <-> hi < lo + j * k)).
      { destruct (Z.eqb_spec k (-1)) as [->|K1].
        - injection E as <-. exists (lo - hi). split; [reflexivity|]. split; [lia|]. intros j J. lia.
        - apply bind_ok in E as (x & Ex & E). apply chk64_inv in Ex. subst x. apply bind_ok in E as (x & Ex & E). apply chk64_inv in Ex. subst x. apply bind_ok in E as (x & Ex & E). apply chk64_inv in Ex. subst x. apply bind_ok in E as (x & Ex & E). apply div64_inv in Ex. injection E as <-. exists x. subst x.
          split; [reflexivity|]. split; [apply Z.quot_pos; lia|]. intros j J. rewrite ceil_count by lia. lia. }
      destruct G as (sz & -> & SZ & G). cbn [o_remove o_size o_start o_stride]. split; [reflexivity|]. split; [exact SZ|]. split.
      * intros j i. split.
        -- intros (J & [(B & _)|(_ & -> & B)]); [lia|]. split; [|reflexivity]. split; [exact J|]. apply G; auto.
        -- intros (J & ->). split; [lia|]. right. split; [auto|]. split; [reflexivity|]. apply G; lia.
      * intros j J. assert (j * k <= 0) by (apply Z.mul_nonneg_nonpos; lia). destruct (G j (proj1 J)) as (G1 & _). specialize (G1 (proj2 J)). lia.
    + injection E as <-. cbn [o_remove o_size o_start o_stride]. split; [reflexivity|]. split; [lia|]. split; [|intros; lia]. intros j i. split; [|intros; lia].
      intros (J & [(B & _)|(_ & -> & B)]); [lia|]. assert (j * k <= 0) by (apply Z.mul_nonneg_nonpos; lia). lia.
Qed.
Lemma nop_full r : is_nop r = true <-> full r.
Proof. unfold is_nop, full, SLICE_BEGIN, SLICE_END, INT64_MIN, INT64_MAX. rewrite !andb_true_iff, !Z.eqb_eq. tauto. Qed.
Lemma sli_full r n : 0 <= n < 2 ^ 63 -> full r -> apply_single_linear_index r n = Ok (mk_linidx false 0 1 n).
Proof.
  intros N (A & B & C). destruct r as [a b k]. cbn [r_start r_finish r_step] in *. subst. unfold SLICE_BEGIN, SLICE_END. assert (Sn : s64 n) by (unfold s64; lia).
  unfold apply_single_linear_index. cbn [r_step r_start r_finish]. change (1 =? 0) with false. change (0 <? 1) with true. cbn iota. unfold pos_range. rewrite pos_start_eq, pos_end_eq by (auto; unfold s64; lia).
  change (0 <=? - 2 ^ 63) with false. cbn [andb bind]. destruct (Z.ltb_spec (2 ^ 63 - 1) (- n)); [lia|]. cbn [bind]. unfold from_end. destruct (Z.ltb_spec (- 2 ^ 63) 0); [|lia]. destruct (Z.ltb_spec (2 ^ 63 - 1) 0); [lia|].
  rewrite Z.max_l by lia. rewrite Z.min_l by lia. rewrite sub64_ok by (unfold s64; lia). cbn [bind]. rewrite Z.sub_0_r. destruct (Z.ltb_spec 0 n); [reflexivity|]. do 2 f_equal. lia.
Qed.
Lemma in_slice_full r n j i : 0 <= n < 2 ^ 63 -> full r -> in_slice r n j i <-> i = j /\ 0 <= j < n.
Proof.
  intros N F. assert (I : idx64 r) by (destruct F as (A & B & C); unfold idx64, s64, SLICE_BEGIN, SLICE_END in *; lia).
  assert (Z1 : r_step r <> 0) by (destruct F as (_ & _ & ->); lia). destruct (sli_slice r n (mk_linidx false 0 1 n) N I Z1 (sli_full r n N F)) as (_ & _ & H & _). rewrite H. cbn [o_size o_start o_stride]. lia.
Qed.
