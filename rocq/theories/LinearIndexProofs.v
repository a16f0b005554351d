From Coq Require Import Sorted.
From Verif Require Import Base LinearIndexModel LinearIndexSpec.

Lemma StronglySorted_map_seq (R : Z -> Z -> Prop) (f : nat -> Z) :
  (forall i j, (i < j)%nat -> R (f i) (f j)) ->
  forall len a, StronglySorted R (map f (seq a len)).
Proof.
  intros H len; induction len as [|len IH]; intros a; cbn; constructor; auto.
  apply Forall_forall; intros x Hx; apply in_map_iff in Hx as (i & <- & Hi).
  apply in_seq in Hi; apply H; lia.
Qed.

Lemma in_positions s k m x :
  In x (positions s k m) <-> exists j, 0 <= j < m /\ x = s + j * k.
Proof.
  unfold positions; rewrite in_map_iff; split.
  - intros (i & <- & Hi); apply in_seq in Hi; exists (Z.of_nat i); lia.
  - intros (j & Hj & ->); exists (Z.to_nat j); rewrite in_seq; split; [f_equal; f_equal|]; lia.
Qed.

Lemma positions_upward s e k m :
  0 < k -> (forall j, 0 <= j -> (j < m <-> s + j * k < e)) ->
  is_upward_slice s e k (positions s k m).
Proof.
  intros Hk Hm; split.
  - apply StronglySorted_map_seq; intros i j Hij; nia.
  - intros x; rewrite in_positions; split.
    + intros (j & Hj & ->); exists j; repeat split; try lia; apply Hm; lia.
    + intros (j & Hj & -> & Hx); exists j; split; auto; split; auto; apply Hm; lia.
Qed.

Lemma positions_downward s e k m :
  k < 0 -> (forall j, 0 <= j -> (j < m <-> e < s + j * k)) ->
  is_downward_slice s e k (positions s k m).
Proof.
  intros Hk Hm; split.
  - apply StronglySorted_map_seq; intros i j Hij; nia.
  - intros x; rewrite in_positions; split.
    + intros (j & Hj & ->); exists j; repeat split; try lia; apply Hm; lia.
    + intros (j & Hj & -> & Hx); exists j; split; auto; split; auto; apply Hm; lia.
Qed.

Lemma ceil_count k d j : 0 < k -> 0 < d -> 0 <= j ->
  (j < Z.quot (d + k - 1) k <-> j * k < d).
Proof.
  intros Hk Hd Hj; rewrite Z.quot_div_nonneg by lia.
  split; intros H.
  - assert (k * ((d + k - 1) / k) <= d + k - 1) by (apply Z.mul_div_le; lia). nia.
  - assert (d + k - 1 < k * (((d + k - 1) / k) + 1)).
    { pose proof (Z.mul_succ_div_gt (d + k - 1) k). unfold Z.succ in *. lia. }
    nia.
Qed.

Lemma quot_le_self a k : 0 < k -> 0 <= a -> Z.quot a k <= a.
Proof.
  intros Hk Ha; rewrite Z.quot_div_nonneg by lia. apply Z.div_le_upper_bound; [lia|]. nia.
Qed.

Lemma single_index_cases n i fin :
  0 <= n -> s64 n -> s64 i ->
  let res := apply_single_linear_index (mk_irange i fin 0) n in
  (0 <= i < n -> res = Ok (mk_linidx true i 1 1)) /\
  (- n <= i < 0 -> res = Ok (mk_linidx true (i + n) 1 1)) /\
  (n <= i \/ i < - n -> res = Throw "index_out_of_bounds").
Proof.
  intros Hn Hn64 Hi res; subst res; unfold apply_single_linear_index, single_index; cbn [r_step r_start].
  rewrite Z.eqb_refl. unfold neg64; rewrite chk64_ok by (unfold s64 in *; lia); cbn [bind].
  destruct (Z.leb_spec 0 i); destruct (Z.ltb_spec i n); destruct (Z.leb_spec (-n) i);
    repeat split; intros; try lia; try reflexivity;
    unfold add64; rewrite chk64_ok by (unfold s64 in *; lia); reflexivity.
Qed.

Lemma pos_start_eq n s : 0 <= n -> s64 n -> s64 s ->
  pos_start s n = if (0 <=? s) && (n <=? s) then rng_oob else Ok (Z.max 0 (from_end n s)).
Proof.
  intros Hn Hn64 Hs; unfold pos_start, from_end, neg64; rewrite chk64_ok by (unfold s64 in *; lia); cbn [bind].
  destruct (Z.leb_spec 0 s); cbn [andb].
  - destruct (Z.ltb_spec s n), (Z.leb_spec n s), (Z.ltb_spec s 0); try lia; try reflexivity. f_equal; lia.
  - destruct (Z.leb_spec (-n) s), (Z.ltb_spec s 0); try lia.
    + unfold add64; rewrite chk64_ok by (unfold s64 in *; lia). f_equal; lia.
    + f_equal; lia.
Qed.

Lemma pos_end_eq n f : 0 <= n -> s64 n -> s64 f ->
  pos_end f n = if f <? - n then rng_oob else Ok (Z.min n (from_end n f)).
Proof.
  intros Hn Hn64 Hs; unfold pos_end, from_end, neg64; rewrite chk64_ok by (unfold s64 in *; lia); cbn [bind].
  destruct (Z.leb_spec 0 f).
  - destruct (Z.leb_spec f n), (Z.ltb_spec f (-n)), (Z.ltb_spec f 0); try lia; f_equal; lia.
  - destruct (Z.leb_spec (-n) f), (Z.ltb_spec f (-n)), (Z.ltb_spec f 0); try lia; try reflexivity.
    unfold add64; rewrite chk64_ok by (unfold s64 in *; lia). f_equal; lia.
Qed.

Lemma from_end_range n s : 0 <= n -> s64 n -> s64 s -> ~ (0 <= s /\ n <= s) ->
  0 <= Z.max 0 (from_end n s) <= n.
Proof. unfold from_end; intros; destruct (Z.ltb_spec s 0); lia. Qed.

Lemma pos_slice_spec n s f k :
  0 <= n -> s64 n -> s64 s -> s64 f -> s64 k -> 0 < k ->
  let res := apply_single_linear_index (mk_irange s f k) n in
  let lo := Z.max 0 (from_end n s) in
  let hi := Z.min n (from_end n f) in
  (pos_throws n s f -> res = Throw "irange_out_of_bounds") /\
  (~ pos_throws n s f ->
     (k <> 1 /\ lo < hi /\ 2 ^ 63 - 1 < hi - lo + k -> res = UB) /\
     (~ (k <> 1 /\ lo < hi /\ 2 ^ 63 - 1 < hi - lo + k) ->
        exists st sd sz, res = Ok (mk_linidx false st sd sz) /\ 0 <= sz /\
          is_upward_slice lo hi k (positions st sd sz) /\
          in_bounds n (positions st sd sz))).
Proof.
  intros Hn Hn64 Hs Hf Hk64 Hk res lo hi.
  subst res. unfold apply_single_linear_index; cbn [r_step r_start r_finish].
  destruct (Z.eqb_spec k 0); [lia|]. destruct (Z.ltb_spec 0 k); [|lia].
  unfold pos_range. rewrite pos_start_eq, pos_end_eq by assumption. fold lo. fold hi.
  unfold pos_throws.
  destruct ((0 <=? s) && (n <=? s)) eqn:E1; cbn [bind].
  { split; intros H1; [reflexivity | exfalso; lia]. }
  destruct (f <? - n) eqn:E2; cbn [bind].
  { split; intros H1; [reflexivity | exfalso; lia]. }
  split; intros H1; [exfalso; lia|].
  assert (Hlo : 0 <= lo /\ (lo < n \/ lo = 0)) by (subst lo; unfold from_end; destruct (Z.ltb_spec s 0); lia).
  assert (Hhi : 0 <= hi <= n) by (subst hi; unfold from_end; destruct (Z.ltb_spec f 0); lia).
  rewrite sub64_ok by (unfold s64 in *; lia). cbn [bind].
  clearbody lo hi. unfold s64 in *.
  destruct (Z.ltb_spec 0 (hi - lo)) as [Hd|Hd].
  - destruct (Z.eqb_spec k 1) as [->|Hk1].
    + split; intros H2; [lia|]. exists lo, 1, (hi - lo). split; [reflexivity|]. split; [lia|].
      assert (Hu : is_upward_slice lo hi 1 (positions lo 1 (hi - lo))).
      { apply positions_upward; intros; lia. }
      split; [exact Hu|]. intros x Hx; apply (proj2 Hu) in Hx as (j & Hj & -> & Hx); lia.
    + unfold add64. split; intros H2.
      * rewrite chk64_ub by (unfold s64; lia). reflexivity.
      * rewrite chk64_ok by (unfold s64; lia). cbn [bind].
        unfold sub64; rewrite chk64_ok by (unfold s64; lia). cbn [bind].
        unfold div64. destruct (Z.eqb_spec k 0); [lia|].
        assert (Hq0 : 0 <= Z.quot (hi - lo + k - 1) k) by (apply Z.quot_pos; lia).
        assert (Hq1 : Z.quot (hi - lo + k - 1) k <= hi - lo + k - 1).
        { apply quot_le_self; lia. }
        rewrite chk64_ok by (unfold s64; lia). cbn [bind].
        eexists _, _, _; split; [reflexivity|]. split; [lia|].
        assert (Hu : is_upward_slice lo hi k (positions lo k (Z.quot (hi - lo + k - 1) k))).
        { apply positions_upward; [lia|]. intros j Hj. rewrite ceil_count by lia. lia. }
        split; [exact Hu|]. intros x Hx. apply (proj2 Hu) in Hx as (j & Hj & -> & Hx).
        assert (0 <= j * k) by (apply Z.mul_nonneg_nonneg; lia). lia.
  - split; intros H2; [lia|]. exists 0, 1, 0; repeat split; try lia; try (cbn; constructor); cbn in *; try tauto.
    intros (j & Hj & -> & Hx). assert (0 <= j * k) by (apply Z.mul_nonneg_nonneg; lia). lia.
Qed.

Lemma neg_start_eq n s : 0 <= n -> s64 n -> s64 s ->
  neg_start s n = if s =? INT64_MIN then Ok (n - 1)
                  else if ((0 <=? s) && (n <=? s)) || (s <? - n) then rng_oob else Ok (from_end n s).
Proof.
  intros Hn Hn64 Hs; unfold neg_start, from_end, neg64, INT64_MIN, s64 in *; rewrite chk64_ok by (unfold s64; lia); cbn [bind].
  destruct (Z.eqb_spec s (- 2 ^ 63)) as [->|Hm].
  - destruct (Z.leb_spec 0 (- 2^63)); [lia|]. destruct (Z.leb_spec (-n) (- 2^63)); [lia|].
    unfold sub64; rewrite chk64_ok by (unfold s64; lia); reflexivity.
  - destruct (Z.leb_spec 0 s); cbn [andb].
    + destruct (Z.ltb_spec s n), (Z.leb_spec n s), (Z.ltb_spec s 0), (Z.ltb_spec s (-n)); cbn [orb]; try lia; reflexivity.
    + destruct (Z.leb_spec (-n) s), (Z.ltb_spec s 0), (Z.ltb_spec s (-n)); cbn [orb]; try lia; try reflexivity.
      unfold add64; rewrite chk64_ok by (unfold s64; lia). f_equal; lia.
Qed.

Lemma neg_end_eq n f : 0 <= n -> s64 n -> s64 f ->
  neg_end f n = if f =? INT64_MAX then Ok (-1)
                else if (0 <=? f) && (n <=? f) then rng_oob else Ok (Z.max (-1) (from_end n f)).
Proof.
  intros Hn Hn64 Hs; unfold neg_end, from_end, neg64, INT64_MAX, s64 in *; rewrite chk64_ok by (unfold s64; lia); cbn [bind].
  destruct (Z.eqb_spec f (2 ^ 63 - 1)) as [->|Hm].
  - destruct (Z.leb_spec 0 (2^63-1)); [|lia]. destruct (Z.ltb_spec (2^63-1) n); [lia|]. reflexivity.
  - destruct (Z.leb_spec 0 f); cbn [andb].
    + destruct (Z.ltb_spec f n), (Z.leb_spec n f), (Z.ltb_spec f 0); try lia; try reflexivity. f_equal; lia.
    + destruct (Z.leb_spec (-n) f), (Z.ltb_spec f 0); try lia.
      * unfold add64; rewrite chk64_ok by (unfold s64; lia). f_equal; lia.
      * f_equal; lia.
Qed.

Lemma neg_slice_spec n s f k :
  0 <= n -> s64 n -> s64 s -> s64 f -> s64 k -> k < 0 ->
  let res := apply_single_linear_index (mk_irange s f k) n in
  let first := neg_lo n s in
  let last := neg_hi n f in
  (neg_throws n s f -> res = Throw "irange_out_of_bounds") /\
  (~ neg_throws n s f ->
     (k <> -1 /\ last < first /\ 2 ^ 63 - 1 < first - last - k -> res = UB) /\
     (~ (k <> -1 /\ last < first /\ 2 ^ 63 - 1 < first - last - k) ->
        exists st sd sz, res = Ok (mk_linidx false st sd sz) /\ 0 <= sz /\
          is_downward_slice first last k (positions st sd sz) /\
          in_bounds n (positions st sd sz))).
Proof.
  intros Hn Hn64 Hs Hf Hk64 Hk res lo hi.
  subst res. unfold apply_single_linear_index; cbn [r_step r_start r_finish].
  destruct (Z.eqb_spec k 0); [lia|]. destruct (Z.ltb_spec 0 k); [lia|].
  unfold neg_range. rewrite neg_start_eq, neg_end_eq by assumption.
  unfold neg_throws, SLICE_BEGIN, SLICE_END. change (- 2 ^ 63) with INT64_MIN. change (2 ^ 63 - 1) with INT64_MAX.
  assert (Elo : (if s =? INT64_MIN then Ok (n - 1)
     else if (0 <=? s) && (n <=? s) || (s <? - n) then rng_oob else Ok (from_end n s)) =
     if negb (s =? INT64_MIN) && ((0 <=? s) && (n <=? s) || (s <? - n)) then rng_oob else Ok lo).
  { subst lo; unfold neg_lo, SLICE_BEGIN; change (- 2 ^ 63) with INT64_MIN; destruct (s =? INT64_MIN); cbn [negb andb]; [reflexivity|].
    destruct ((0 <=? s) && (n <=? s) || (s <? - n)); reflexivity. }
  rewrite Elo; clear Elo.
  assert (Ehi : (if f =? INT64_MAX then Ok (-1)
     else if (0 <=? f) && (n <=? f) then rng_oob else Ok (Z.max (-1) (from_end n f))) =
     if negb (f =? INT64_MAX) && ((0 <=? f) && (n <=? f)) then rng_oob else Ok hi).
  { subst hi; unfold neg_hi, SLICE_END; change (2 ^ 63 - 1) with INT64_MAX; destruct (f =? INT64_MAX); cbn [negb andb]; [reflexivity|].
    destruct ((0 <=? f) && (n <=? f)); reflexivity. }
  rewrite Ehi; clear Ehi.
  destruct (negb (s =? INT64_MIN) && ((0 <=? s) && (n <=? s) || (s <? - n))) eqn:E1; cbn [bind].
  { split; intros H1; [reflexivity | exfalso; lia]. }
  destruct (negb (f =? INT64_MAX) && ((0 <=? f) && (n <=? f))) eqn:E2; cbn [bind].
  { destruct (s <? -n); split; intros H1; try reflexivity; exfalso; lia. }
  split; intros H1; [exfalso; lia|].
  assert (Hlo : -1 <= lo < n).
  { subst lo; unfold neg_lo, from_end, SLICE_BEGIN, INT64_MIN, s64 in *.
    destruct (Z.eqb_spec s (-2^63)); [lia|]. destruct (Z.ltb_spec s 0); lia. }
  assert (Hhi : -1 <= hi < n \/ hi = -1).
  { subst hi; unfold neg_hi, from_end, SLICE_END, INT64_MAX, s64 in *.
    destruct (Z.eqb_spec f (2^63-1)); [lia|]. destruct (Z.ltb_spec f 0); lia. }
  rewrite sub64_ok by (unfold s64 in *; lia). cbn [bind].
  clearbody lo hi. unfold s64, INT64_MAX, INT64_MIN in *. clear E1 E2 H1.
  destruct (Z.ltb_spec 0 (lo - hi)) as [Hd|Hd].
  - destruct (Z.eqb_spec k (-1)) as [->|Hk1].
    + split; intros H2; [lia|]. exists lo, (-1), (lo - hi). split; [reflexivity|]. split; [lia|].
      assert (Hu : is_downward_slice lo hi (-1) (positions lo (-1) (lo - hi))).
      { apply positions_downward; intros; lia. }
      split; [exact Hu|]. intros x Hx; apply (proj2 Hu) in Hx as (j & Hj & -> & Hx); lia.
    + unfold neg64. destruct (Z.eq_dec k (- 2^63)) as [->|Hkm].
      * rewrite (chk64_ub (- - 2 ^ 63)) by (unfold s64; lia). cbn [bind].
        split; intros H2; [reflexivity | lia].
      * rewrite (chk64_ok (- k)) by (unfold s64; lia). cbn [bind].
        unfold add64. split; intros H2.
        -- rewrite chk64_ub by (unfold s64; lia). reflexivity.
        -- rewrite chk64_ok by (unfold s64; lia). cbn [bind].
           unfold sub64; rewrite chk64_ok by (unfold s64; lia). cbn [bind].
           unfold div64. destruct (Z.eqb_spec (-k) 0); [lia|].
           assert (Hq0 : 0 <= Z.quot (lo - hi + (-k) - 1) (-k)) by (apply Z.quot_pos; lia).
           assert (Hq1 : Z.quot (lo - hi + (-k) - 1) (-k) <= lo - hi + (-k) - 1).
           { apply quot_le_self; lia. }
           rewrite chk64_ok by (unfold s64; lia). cbn [bind].
           eexists _, _, _; split; [reflexivity|]. split; [lia|].
           assert (Hu : is_downward_slice lo hi k (positions lo k (Z.quot (lo - hi + (-k) - 1) (-k)))).
           { apply positions_downward; [lia|]. intros j Hj. rewrite ceil_count by lia. lia. }
           split; [exact Hu|]. intros x Hx. apply (proj2 Hu) in Hx as (j & Hj & -> & Hx).
        assert (j * k <= 0) by (apply Z.mul_nonneg_nonpos; lia). lia.
  - split; intros H2; [lia|]. exists 0, 1, 0; repeat split; try lia; try (cbn; constructor); cbn in *; try tauto.
    intros (j & Hj & -> & Hx). assert (j * k <= 0) by (apply Z.mul_nonneg_nonpos; lia). lia.
Qed.

(** Range-builder notation *)
Lemma range_up_spec n a b k (sl su : bool) :
  0 < n -> 0 < k -> n + k <= 2 ^ 63 - 1 ->
  - n <= a < n -> - n <= b <= n ->
  (sl = true -> a <> -1 /\ a <> n - 1) ->
  exists r st sd sz,
    range_up sl a su b k = Ok r /\
    apply_single_linear_index r n = Ok (mk_linidx false st sd sz) /\
    is_upward_slice (from_end n a + if sl then 1 else 0)
                    (Z.min n (from_end n b + if su then 0 else 1)) k (positions st sd sz) /\
    in_bounds n (positions st sd sz).
Proof.
  intros Hn Hk Hnk Ha Hb Hsl.
  set (s' := if sl then a + 1 else a).
  set (f' := if su then b else if b =? -1 then INT64_MAX else b + 1).
  assert (Hr : range_up sl a su b k = Ok (mk_irange s' f' k)).
  { unfold range_up, lt_irange, le_irange, irange_le, irange_lt, irange_by, s', f'.
    destruct sl; [rewrite add64_ok by (unfold s64; lia)|]; cbn [bind r_start r_finish r_step];
    destruct su; try reflexivity; destruct (Z.eqb_spec b (-1)); cbn [negb]; try reflexivity;
    rewrite add64_ok by (unfold s64; lia); reflexivity. }
  assert (Hs' : s64 s') by (unfold s', s64; destruct sl; lia).
  assert (Hf' : s64 f') by (unfold f', s64, INT64_MAX; destruct su; try lia; destruct (Z.eqb_spec b (-1)); lia).
  assert (H64 : s64 n /\ s64 k) by (unfold s64; lia).
  pose proof (pos_slice_spec n s' f' k ltac:(lia) (proj1 H64) Hs' Hf' (proj2 H64) Hk) as [_ H].
  assert (Hlo : Z.max 0 (from_end n s') = from_end n a + (if sl then 1 else 0)).
  { unfold s', from_end; destruct sl; [specialize (Hsl eq_refl)|];
    destruct (Z.ltb_spec a 0); try destruct (Z.ltb_spec (a + 1) 0); lia. }
  assert (Hhi : Z.min n (from_end n f') = Z.min n (from_end n b + (if su then 0 else 1))).
  { unfold f', from_end, INT64_MAX in *; destruct su; [f_equal; lia|]. unfold s64 in *.
    destruct (Z.eqb_spec b (-1)) as [->|].
    - destruct (Z.ltb_spec (-1) 0), (Z.ltb_spec (2^63-1) 0); lia.
    - destruct (Z.ltb_spec b 0), (Z.ltb_spec (b+1) 0); lia. }
  assert (Ht : ~ pos_throws n s' f').
  { unfold pos_throws, s', f', INT64_MAX; destruct sl; [specialize (Hsl eq_refl)|]; destruct su;
    try destruct (Z.eqb_spec b (-1)); lia. }
  destruct H as [_ H]; [exact Ht|]. rewrite Hlo, Hhi in H.
  destruct H as (st & sd & sz & E & _ & H1 & H2).
  { intros (_ & H1 & H2).
    assert (Z.min n (from_end n b + (if su then 0 else 1)) <= n) by lia.
    rewrite <- Hlo in H2. lia. }
  exists (mk_irange s' f' k), st, sd, sz. auto.
Qed.

Lemma range_down_spec n a b k (sl su : bool) :
  0 < n -> k < 0 -> n - k <= 2 ^ 63 - 1 ->
  - n <= a <= n -> (sl = false -> a < n) -> (sl = true -> a <> 0 /\ a <> - n) ->
  - n <= b < n ->
  exists r st sd sz,
    range_down sl a su b k = Ok r /\
    apply_single_linear_index r n = Ok (mk_linidx false st sd sz) /\
    is_downward_slice (from_end n a - if sl then 1 else 0)
                      (from_end n b - if su then 0 else 1) k (positions st sd sz) /\
    in_bounds n (positions st sd sz).
Proof.
  intros Hn Hk Hnk Ha Ha2 Hsl Hb.
  set (s' := if sl then a - 1 else a).
  set (f' := if su then b else if b =? 0 then INT64_MAX else b - 1).
  assert (Hr : range_down sl a su b k = Ok (mk_irange s' f' k)).
  { unfold range_down, gt_irange, ge_irange, irange_ge, irange_gt, irange_by, s', f'.
    destruct sl; [rewrite sub64_ok by (unfold s64; lia)|]; cbn [bind r_start r_finish r_step];
    destruct su; try reflexivity; destruct (Z.eqb_spec b 0); cbn [negb]; try reflexivity;
    rewrite sub64_ok by (unfold s64; lia); reflexivity. }
  assert (Hs' : s64 s') by (unfold s', s64; destruct sl; lia).
  assert (Hf' : s64 f') by (unfold f', s64, INT64_MAX; destruct su; try lia; destruct (Z.eqb_spec b 0); lia).
  assert (H64 : s64 n /\ s64 k) by (unfold s64; lia).
  pose proof (neg_slice_spec n s' f' k ltac:(lia) (proj1 H64) Hs' Hf' (proj2 H64) Hk) as [_ H].
  assert (Hlo : neg_lo n s' = from_end n a - (if sl then 1 else 0)).
  { unfold neg_lo, SLICE_BEGIN, s', from_end; destruct sl.
    - specialize (Hsl eq_refl). destruct (Z.eqb_spec (a-1) (-2^63)); [lia|].
      destruct (Z.ltb_spec a 0); destruct (Z.ltb_spec (a - 1) 0); lia.
    - destruct (Z.eqb_spec a (-2^63)); [lia|]. lia. }
  assert (Hhi : neg_hi n f' = from_end n b - (if su then 0 else 1)).
  { unfold neg_hi, f', from_end, SLICE_END, INT64_MAX in *; destruct su.
    - destruct (Z.eqb_spec b (2^63-1)); [lia|]. destruct (Z.ltb_spec b 0); lia.
    - destruct (Z.eqb_spec b 0) as [->|].
      + rewrite Z.eqb_refl. destruct (Z.ltb_spec 0 0); lia.
      + destruct (Z.eqb_spec (b-1) (2^63-1)); [lia|].
        destruct (Z.ltb_spec b 0), (Z.ltb_spec (b-1) 0); lia. }
  assert (Ht : ~ neg_throws n s' f').
  { unfold neg_throws, SLICE_BEGIN, SLICE_END, s', f', INT64_MAX; destruct sl; [specialize (Hsl eq_refl)|specialize (Ha2 eq_refl)]; destruct su;
    try destruct (Z.eqb_spec b 0); lia. }
  destruct H as [_ H]; [exact Ht|]. rewrite Hlo, Hhi in H.
  destruct H as (st & sd & sz & E & _ & H1 & H2).
  { intros (_ & H1 & H2). rewrite <- Hlo, <- Hhi in *.
    assert (neg_lo n s' <= n - 1).
    { rewrite Hlo. unfold from_end; destruct (Z.ltb_spec a 0); destruct sl; try specialize (Hsl eq_refl); try specialize (Ha2 eq_refl); lia. }
    assert (-1 <= neg_hi n f').
    { unfold neg_hi. destruct (f' =? SLICE_END); lia. }
    lia. }
  exists (mk_irange s' f' k), st, sd, sz. auto.
Qed.
