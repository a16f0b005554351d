(** C01-C04: indexing and slicing one dimension. *)
From Coq Require Import Sorted.
From Verif Require Import Base LinearIndexModel LinearIndexSpec LinearIndexProofs.

(** C01 *)
Theorem C01_single_index : forall n i fin,
  0 <= n -> s64 n -> s64 i ->
  let res := apply_single_linear_index (mk_irange i fin 0) n in
  (0 <= i < n -> res = Ok (mk_linidx true i 1 1)) /\
  (- n <= i < 0 -> res = Ok (mk_linidx true (i + n) 1 1)) /\
  (n <= i \/ i < - n -> res = Throw "index_out_of_bounds").
Proof. exact single_index_cases. Qed.
Print Assumptions C01_single_index.
Example C01_case : apply_single_linear_index (irange_idx (-2)) 5 = Ok (mk_linidx true 3 1 1)
  /\ 0 <= 5 /\ s64 5 /\ s64 (-2).
Proof. unfold s64; split; [reflexivity | lia]. Qed.

(** C02: throws exactly on [pos_throws]; signed overflow exactly on the listed
    condition; otherwise the selected positions are the Python slice. *)
Theorem C02_positive_step_slice : forall n s f k,
  0 <= n -> s64 n -> s64 s -> s64 f -> s64 k -> 0 < k ->
  let res := apply_single_linear_index (mk_irange s f k) n in
  let lo := Z.max 0 (from_end n s) in
  let hi := Z.min n (from_end n f) in
  (pos_throws n s f -> res = Throw "irange_out_of_bounds") /\
  (~ pos_throws n s f ->
     (k <> 1 /\ lo < hi /\ 2 ^ 63 - 1 < hi - lo + k -> res = UB) /\
     (~ (k <> 1 /\ lo < hi /\ 2 ^ 63 - 1 < hi - lo + k) ->
        exists st sd sz, res = Ok (mk_linidx false st sd sz) /\ 0 <= sz /\
          is_upward_slice lo hi k (positions st sd sz) /\
          in_bounds n (positions st sd sz))).
Proof. exact pos_slice_spec. Qed.
Print Assumptions C02_positive_step_slice.
Example C02_case : apply_single_linear_index (mk_irange (-8) 100 3) 10 = Ok (mk_linidx false 2 3 3)
  /\ positions 2 3 3 = [2; 5; 8] /\ ~ pos_throws 10 (-8) 100.
Proof. unfold pos_throws; repeat split; lia. Qed.
(** the overflow corner is reachable: a[0:2:INTPTR_MAX] *)
Example C02_overflow_case :
  apply_single_linear_index (mk_irange 0 2 INT64_MAX) 5 = UB.
Proof. reflexivity. Qed.

(** C03 *)
Theorem C03_negative_step_slice : forall n s f k,
  0 <= n -> s64 n -> s64 s -> s64 f -> s64 k -> k < 0 ->
  let res := apply_single_linear_index (mk_irange s f k) n in
  let first := neg_lo n s in
  let last := neg_hi n f in
  (neg_throws n s f -> res = Throw "irange_out_of_bounds") /\
  (~ neg_throws n s f ->
     (k <> -1 /\ last < first /\ 2 ^ 63 - 1 < first - last - k -> res = UB) /\
     (~ (k <> -1 /\ last < first /\ 2 ^ 63 - 1 < first - last - k) ->
        exists st sd sz, res = Ok (mk_linidx false st sd sz) /\ 0 <= sz /\
          is_downward_slice first last k (positions st sd sz) /\
          in_bounds n (positions st sd sz))).
Proof. exact neg_slice_spec. Qed.
Print Assumptions C03_negative_step_slice.
Example C03_case : apply_single_linear_index (irange_by irange_all (-2)) 6 = Ok (mk_linidx false 5 (-2) 3)
  /\ positions 5 (-2) 3 = [5; 3; 1] /\ ~ neg_throws 6 INT64_MIN INT64_MAX.
Proof. unfold neg_throws, SLICE_BEGIN, SLICE_END, INT64_MIN, INT64_MAX; repeat split; lia. Qed.

(** C04: the comparison notation, upward and downward.  Partial: the strict
    lower comparison with -1 and the strict upper comparison with 0 are
    excluded (refuted below); [a] one past the last start position is also
    excluded because the slice then throws (C02/C03). *)
Theorem C04_range_up_partial : forall n a b k (sl su : bool),
  0 < n -> 0 < k -> n + k <= 2 ^ 63 - 1 ->
  - n <= a < n -> - n <= b <= n ->
  (sl = true -> a <> -1 /\ a <> n - 1) ->
  exists r st sd sz,
    range_up sl a su b k = Ok r /\
    apply_single_linear_index r n = Ok (mk_linidx false st sd sz) /\
    is_upward_slice (from_end n a + if sl then 1 else 0)
                    (Z.min n (from_end n b + if su then 0 else 1)) k (positions st sd sz) /\
    in_bounds n (positions st sd sz).
Proof. exact range_up_spec. Qed.
Print Assumptions C04_range_up_partial.

Theorem C04_range_down_partial : forall n a b k (sl su : bool),
  0 < n -> k < 0 -> n - k <= 2 ^ 63 - 1 ->
  - n <= a <= n -> (sl = false -> a < n) -> (sl = true -> a <> 0 /\ a <> - n) ->
  - n <= b < n ->
  exists r st sd sz,
    range_down sl a su b k = Ok r /\
    apply_single_linear_index r n = Ok (mk_linidx false st sd sz) /\
    is_downward_slice (from_end n a - if sl then 1 else 0)
                      (from_end n b - if su then 0 else 1) k (positions st sd sz) /\
    in_bounds n (positions st sd sz).
Proof. exact range_down_spec. Qed.
Print Assumptions C04_range_down_partial.

(** [0 > irange().by(-1)] ("strictly below index 0") selects the whole
    dimension, backwards, instead of nothing. *)
Theorem C04_strict_above_zero_refuted : exists r,
  range_down true 0 false 0 (-1) = Ok r /\
  exists st sd sz, apply_single_linear_index r 3 = Ok (mk_linidx false st sd sz) /\
    positions st sd sz = [2; 1; 0] /\ ~ is_downward_slice (0 - 1) (0 - 1) (-1) [2; 1; 0].
Proof.
  eexists; split; [reflexivity|]. exists 2, (-1), 3; repeat split.
  intros [_ H]. destruct (H 2) as [H1 _]. destruct H1 as (j & Hj & E & _); [cbn; tauto|]. lia.
Qed.
Print Assumptions C04_strict_above_zero_refuted.

(** [-1 < irange()] with -1 counted from the end ("after the last element")
    selects the whole dimension. *)
Theorem C04_strict_after_last_refuted : exists r,
  range_up true (-1) false 2 1 = Ok r /\
  exists st sd sz, apply_single_linear_index r 3 = Ok (mk_linidx false st sd sz) /\
    positions st sd sz = [0; 1; 2] /\
    ~ is_upward_slice (from_end 3 (-1) + 1) 3 1 [0; 1; 2].
Proof.
  eexists; split; [reflexivity|]. exists 0, 1, 3; repeat split.
  intros [_ H]. destruct (H 0) as [H1 _]. destruct H1 as (j & Hj & E & _); [cbn; tauto|].
  change (from_end 3 (-1)) with 2 in E. lia.
Qed.
Print Assumptions C04_strict_after_last_refuted.

Example C04_case : exists r, range_up true 1 false (-2) 2 = Ok r /\
  apply_single_linear_index r 10 = Ok (mk_linidx false 2 2 4) /\ positions 2 2 4 = [2; 4; 6; 8].
Proof. eexists; repeat split. Qed.
