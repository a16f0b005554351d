(** C138-C144: categorical types. *)
From Verif Require Import Base CatModel CatSpec CatProofs SearchModel.
From Coq Require Import Sorted.
Open Scope Z_scope.

(** Orders used in the examples. *)
Lemma ltb_strict : strict_total Z.ltb.
Proof. split; [exact Z.ltb_irrefl|]. split; [lia|]. intros x y. rewrite !Z.ltb_lt. lia. Qed.
Lemma asc_from : forall n k, ascending Z.ltb (map Z.of_nat (seq k n)).
Proof.
  induction n as [|n IH]; intros k; cbn; constructor; [apply IH|]. rewrite Forall_forall. intros x X.
  apply in_map_iff in X as (i & <- & I). apply in_seq in I. apply Z.ltb_lt. lia.
Qed.

(** ** C138: making a categorical type. *)
(** The code calls a null function for any list of categories but the empty one. *)
Theorem C138_construct_refuted : forall junk cats, cats <> [] -> List.length junk = List.length cats ->
  make code_kernels junk FixedOfScalar cats = UB.
Proof.
  intros junk [|a [|b r]] N J; [congruence| |reflexivity].
  destruct junk as [|x [|y q]]; try discriminate. reflexivity.
Qed.
Print Assumptions C138_construct_refuted.
(** With an order and an assignment, the lists of distinct categories are accepted
    whatever their order, the others refused, and the categories are the list. *)
Theorem C138_construct_partial : forall lt junk cats, strict_total lt -> List.length junk = List.length cats ->
  (NoDup cats -> exists c, make (working lt) junk FixedOfScalar cats = Ok c /\ count c = Z.of_nat (List.length cats) /\
     (Z.of_nat (List.length cats) <= 2 ^ 32 -> get_categories (working lt) c = Ok cats)) /\
  (~ NoDup cats -> throws (make (working lt) junk FixedOfScalar cats)).
Proof.
  intros lt junk cats T J. cbn [make]. split; intros N.
  - destruct (construct_good lt junk cats T J N) as (c & E & G). exists c. split; [exact E|]. split; [exact (count_len lt cats c G)|].
    intros B. unfold get_categories. rewrite (count_len lt cats c G), Nat2Z.id.
    apply (get_from_ok lt cats c G (List.length cats) 0 B). reflexivity.
  - rewrite (construct_dup lt junk cats T N). eexists. reflexivity.
Qed.
Print Assumptions C138_construct_partial.
(** Other arrays are refused, and the categories of an existing type cannot be read back. *)
Theorem C138_other_arrays : forall K junk tp cats, tp <> FixedOfScalar -> throws (make K junk tp cats).
Proof. intros K junk [] cats H; [congruence| |]; eexists; reflexivity. Qed.
Print Assumptions C138_other_arrays.
Theorem C138_get_categories_refuted : forall lt cats, strict_total lt -> ascending lt cats -> cats <> [] ->
  get_categories code_kernels (presorted cats) = UB.
Proof.
  intros lt [|x cats] T A N; [congruence|]. unfold get_categories.
  rewrite (count_len lt _ _ (presorted_good lt _ A)), Nat2Z.id. cbn [List.length get_from].
  change 0 with (Z.of_nat 0). rewrite (category_of_ok lt (x :: cats) _ (presorted_good lt _ A) 0 x) by (lia || reflexivity).
  reflexivity.
Qed.
Print Assumptions C138_get_categories_refuted.
Example C138_case : construct (working Z.ltb) [7; 7; 7]%nat [30; 10; 20] = Ok (Cat [10; 20; 30] [1; 2; 0]%nat [2; 0; 1]%nat 8) /\
  throws (construct (working Z.ltb) [7; 7; 7]%nat [30; 10; 30]) /\ construct code_kernels [7; 7; 7]%nat [30; 10; 20] = UB.
Proof. split; [reflexivity|]. split; [eexists; reflexivity|reflexivity]. Qed.

(** ** C139: category i has value i, and values and categories are in bijection. *)
Theorem C139_values_partial : forall lt cats c, strict_total lt -> made lt cats c -> Z.of_nat (List.length cats) <= 2 ^ 32 ->
  (forall i x, nth_error cats i = Some x -> value_of_category lt c x = Ok (Z.of_nat i) /\ category_of_value c (Z.of_nat i) = Ok x) /\
  (forall x, ~ In x cats -> throws (value_of_category lt c x)) /\
  (forall v, 0 <= v < 2 ^ 32 -> Z.of_nat (List.length cats) <= v -> throws (category_of_value c v)).
Proof.
  intros lt cats c T M B. pose proof (made_good lt cats c T M) as G.
  split; [|split].
  - intros i x X. assert (I : (i < List.length cats)%nat) by (apply nth_error_Some; congruence).
    destruct (value_of lt cats c T G x) as [V _]; [lia|]. rewrite (V i X), Z.mod_small by lia.
    split; [reflexivity|]. apply (category_of_ok lt cats c G); [lia|exact X].
  - intros x N. destruct (value_of lt cats c T G x) as [_ V]; [lia|]. rewrite (V N). eexists. reflexivity.
  - intros v R H. rewrite (category_of_throw lt cats c G v R H). eexists. reflexivity.
Qed.
Print Assumptions C139_values_partial.
(** The shortcut for sorted categories checks nothing: the last of [3; 2; 1] is
    not recognized, and the two values of [5; 5] are one category. *)
Theorem C139_presorted_refuted : (exists cats, NoDup cats /\ In 1 cats /\ throws (value_of_category Z.ltb (presorted cats) 1)) /\
  (exists cats v w x, v <> w /\ category_of_value (presorted cats) v = Ok x /\ category_of_value (presorted cats) w = Ok x).
Proof.
  split.
  - exists [3; 2; 1]. split; [repeat constructor; cbn; lia|]. split; [cbn; auto|]. eexists. reflexivity.
  - exists [5; 5], 0, 1, 5. split; [lia|]. split; reflexivity.
Qed.
Print Assumptions C139_presorted_refuted.
(** Beyond 2^32 categories a value is truncated, and is that of another category. *)
Theorem C139_wide_refuted : exists lt cats c x y v, strict_total lt /\ made lt cats c /\ In x cats /\ In y cats /\ x <> y /\
  value_of_category lt c x = Ok v /\ value_of_category lt c y = Ok v.
Proof.
  set (n := (Z.to_nat (2 ^ 32) + 1)%nat).
  exists Z.ltb, (map Z.of_nat (seq 0 n)), (presorted (map Z.of_nat (seq 0 n))), 0, (2 ^ 32), 0.
  pose proof (asc_from n 0) as A. pose proof (presorted_good Z.ltb _ A) as G.
  assert (L : List.length (map Z.of_nat (seq 0 n)) = n) by (rewrite map_length; apply seq_length).
  assert (NE : forall i, (i < n)%nat -> nth_error (map Z.of_nat (seq 0 n)) i = Some (Z.of_nat i)).
  { intros i I. apply map_nth_error. apply nth_error_seq. exact I. }
  assert (N0 : (0 < n)%nat) by (clear; lia).
  assert (N1 : (Z.to_nat (2 ^ 32) < n)%nat) by (clear; lia).
  assert (NZ : Z.of_nat n < 2 ^ 63) by (unfold n; clear; lia).
  clearbody n.
  pose proof (NE 0%nat N0) as E0. pose proof (NE (Z.to_nat (2 ^ 32)) N1) as E1. rewrite Z2Nat.id in E1 by lia.
  split; [exact ltb_strict|]. split; [exact (made_presorted _ _ A)|]. split; [exact (nth_error_In _ _ E0)|].
  split; [exact (nth_error_In _ _ E1)|]. split; [lia|]. split.
  - destruct (value_of Z.ltb _ _ ltb_strict G 0) as [V _]; [rewrite L; exact NZ|]. exact (V 0%nat E0).
  - destruct (value_of Z.ltb _ _ ltb_strict G (2 ^ 32)) as [V _]; [rewrite L; exact NZ|].
    rewrite (V _ E1). rewrite Z2Nat.id by lia. reflexivity.
Qed.
Print Assumptions C139_wide_refuted.
Example C139_case : exists c, made Z.ltb [30; 10; 20] c /\ value_of_category Z.ltb c 10 = Ok 1 /\ category_of_value c 2 = Ok 20 /\
  throws (value_of_category Z.ltb c 11) /\ throws (category_of_value c 3).
Proof.
  eexists. split; [apply (made_unsorted Z.ltb [30; 10; 20] [7; 7; 7]%nat); reflexivity|].
  split; [reflexivity|]. split; [reflexivity|]. split; eexists; reflexivity.
Qed.

(** ** C140: the storage. *)
(** Every value fits, up to 2^32 categories, and no smaller storage type would do;
    whatever is stored, printing it prints its category, or NA. *)
Theorem C140_storage : forall lt cats c, strict_total lt -> made lt cats c -> Z.of_nat (List.length cats) <= 2 ^ 32 ->
  (c_storage c = 8 \/ c_storage c = 16 \/ c_storage c = 32) /\
  (forall x v, value_of_category lt c x = Ok v -> 0 <= v < 2 ^ c_storage c) /\
  (forall w, w = 8 \/ w = 16 \/ w = 32 -> w < c_storage c ->
     exists x v, In x cats /\ value_of_category lt c x = Ok v /\ 2 ^ w <= v) /\
  (forall cell, 0 <= cell < 2 ^ c_storage c -> print_data c cell = Ok (nth_error cats (Z.to_nat cell))).
Proof.
  intros lt cats c T M B. pose proof (made_good lt cats c T M) as G.
  destruct (C139_values_partial lt cats c T M B) as (V1 & V2 & V3).
  pose proof (g_storage _ _ _ G) as S. unfold storage_of in S. set (n := List.length cats) in *.
  assert (SS : (c_storage c = 8 /\ Z.of_nat n <= 256) \/ (c_storage c = 16 /\ 256 < Z.of_nat n <= 65536) \/ (c_storage c = 32 /\ 65536 < Z.of_nat n)).
  { destruct (Z.leb_spec (Z.of_nat n) 256); [left; auto|]. destruct (Z.leb_spec (Z.of_nat n) 65536); [right; left; auto|right; right; auto]. }
  assert (P : Z.of_nat n <= 2 ^ c_storage c) by (destruct SS as [(-> & ?) | [(-> & ?) | (-> & ?)]]; lia).
  assert (P' : 2 ^ c_storage c <= 2 ^ 32) by (destruct SS as [(-> & ?) | [(-> & ?) | (-> & ?)]]; lia).
  clear S. split; [tauto|]. split; [|split].
  - intros x v E. destruct (in_dec Z.eq_dec x cats) as [I|N].
    + destruct (In_nth_error _ _ I) as [i X]. destruct (V1 i x X) as [Q _]. rewrite Q in E. injection E as <-.
      assert (i < n)%nat by (apply nth_error_Some; congruence). lia.
    + destruct (V2 x N) as [e Q]. congruence.
  - intros w W LW. assert (H : exists i, (i < n)%nat /\ 2 ^ w <= Z.of_nat i).
    { exists (n - 1)%nat. destruct SS as [(E & ?)|[(E & ?)|(E & ?)]]; rewrite E in LW; destruct W as [-> | [-> | -> ]]; lia. }
    destruct H as (i & I & Q). destruct (nth_error cats i) as [x|] eqn:X; [|apply nth_error_None in X; lia].
    exists x, (Z.of_nat i). split; [exact (nth_error_In _ _ X)|]. split; [exact (proj1 (V1 i x X))|exact Q].
  - intros cell C. unfold print_data. rewrite (count_len lt cats c G). fold n. destruct (Z.ltb_spec cell (Z.of_nat n)) as [L|L].
    + destruct (nth_error cats (Z.to_nat cell)) as [x|] eqn:X; [|apply nth_error_None in X; lia].
      destruct (V1 _ x X) as [_ Q]. rewrite Z2Nat.id in Q by lia. rewrite Q. reflexivity.
    + rewrite (proj2 (nth_error_None cats (Z.to_nat cell))) by lia. reflexivity.
Qed.
Print Assumptions C140_storage.
(** ** C144: missing values. *)
(** A value that prints as NA exists unless the storage type is exactly full. *)
Theorem C144_na_partial : forall lt cats c, strict_total lt -> made lt cats c -> Z.of_nat (List.length cats) <= 2 ^ 32 ->
  ((exists cell, 0 <= cell < 2 ^ c_storage c /\ print_data c cell = Ok None) <->
   Z.of_nat (List.length cats) <> 256 /\ Z.of_nat (List.length cats) <> 65536 /\ Z.of_nat (List.length cats) <> 2 ^ 32).
Proof.
  intros lt cats c T M B. destruct (C140_storage lt cats c T M B) as (_ & _ & _ & PD).
  pose proof (g_storage _ _ _ (made_good lt cats c T M)) as S. unfold storage_of in S.
  set (n := List.length cats) in *.
  assert (SS : (c_storage c = 8 /\ Z.of_nat n <= 256) \/ (c_storage c = 16 /\ 256 < Z.of_nat n <= 65536) \/ (c_storage c = 32 /\ 65536 < Z.of_nat n)).
  { destruct (Z.leb_spec (Z.of_nat n) 256); [left; auto|]. destruct (Z.leb_spec (Z.of_nat n) 65536); [right; left; auto|right; right; auto]. }
  clear S. split.
  - intros (cell & C & E). rewrite (PD cell C) in E. injection E as E. apply nth_error_None in E. fold n in E.
    destruct SS as [(Q & ?)|[(Q & ?)|(Q & ?)]]; rewrite Q in C; lia.
  - intros (N1 & N2 & N3). assert (L : Z.of_nat n < 2 ^ c_storage c) by (destruct SS as [(-> & ?) | [(-> & ?) | (-> & ?)]]; lia).
    exists (Z.of_nat n). split; [lia|]. rewrite PD by lia. f_equal. apply nth_error_None. rewrite Nat2Z.id. reflexivity.
Qed.
Print Assumptions C144_na_partial.
Theorem C144_na_refuted : exists lt cats c, strict_total lt /\ made lt cats c /\
  forall cell, 0 <= cell < 2 ^ c_storage c -> print_data c cell <> Ok None.
Proof.
  exists Z.ltb, (map Z.of_nat (seq 0 256)), (presorted (map Z.of_nat (seq 0 256))).
  pose proof (made_presorted Z.ltb _ (asc_from 256 0)) as M.
  split; [exact ltb_strict|]. split; [exact M|]. intros cell C E.
  destruct (proj1 (C144_na_partial Z.ltb _ _ ltb_strict M ltac:(rewrite map_length, seq_length; lia)) (ex_intro _ cell (conj C E))) as [N _].
  apply N. rewrite map_length, seq_length. reflexivity.
Qed.
Print Assumptions C144_na_refuted.
Example C140_case : c_storage (presorted [10; 20; 30]) = 8 /\ print_data (presorted [10; 20; 30]) 2 = Ok (Some 30) /\
  print_data (presorted [10; 20; 30]) 3 = Ok None /\ c_storage (presorted (map Z.of_nat (seq 0 257))) = 16.
Proof. repeat split. Qed.

(** ** C141: two categorical types are equal exactly when they have the same
    categories in the same order, however they were made. *)
Theorem C141_equal : forall lt cats cats' c d, strict_total lt -> made lt cats c -> made lt cats' d ->
  (equal c d = true <-> cats = cats').
Proof. intros lt cats cats' c d T M N. exact (good_equal lt cats cats' c d T (made_good _ _ _ T M) (made_good _ _ _ T N)). Qed.
Print Assumptions C141_equal.
(** Equal types give equal values to equal categories. *)
Theorem C141_equal_values : forall lt cats cats' c d, strict_total lt -> made lt cats c -> made lt cats' d ->
  Z.of_nat (List.length cats) <= 2 ^ 32 -> Z.of_nat (List.length cats') <= 2 ^ 32 ->
  (equal c d = true <-> forall v, 0 <= v < 2 ^ 32 -> category_of_value c v = category_of_value d v).
Proof.
  intros lt cats cats' c d T M N B B'. rewrite (C141_equal lt cats cats' c d T M N). split.
  - intros <- v V. pose proof (made_good _ _ _ T M) as G. pose proof (made_good _ _ _ T N) as H.
    destruct (Z.lt_ge_cases v (Z.of_nat (List.length cats))) as [L|L].
    + destruct (nth_error cats (Z.to_nat v)) as [x|] eqn:X; [|apply nth_error_None in X; lia].
      pose proof (category_of_ok lt cats c G (Z.to_nat v) x ltac:(lia) X) as Q1.
      pose proof (category_of_ok lt cats d H (Z.to_nat v) x ltac:(lia) X) as Q2. rewrite Z2Nat.id in Q1, Q2 by lia. congruence.
    + rewrite (category_of_throw lt cats c G v V L), (category_of_throw lt cats d H v V L). reflexivity.
  - intros E. apply nth_error_ext. intros i. pose proof (made_good _ _ _ T M) as G. pose proof (made_good _ _ _ T N) as H.
    destruct (nth_error cats i) as [x|] eqn:X; destruct (nth_error cats' i) as [y|] eqn:Y; [| | |reflexivity].
    + assert (i < List.length cats)%nat by (apply nth_error_Some; congruence).
      pose proof (E (Z.of_nat i) ltac:(lia)) as Q.
      rewrite (category_of_ok lt cats c G i x ltac:(lia) X), (category_of_ok lt cats' d H i y ltac:(lia) Y) in Q. congruence.
    + assert (i < List.length cats)%nat by (apply nth_error_Some; congruence). apply nth_error_None in Y.
      pose proof (E (Z.of_nat i) ltac:(lia)) as Q.
      rewrite (category_of_ok lt cats c G i x ltac:(lia) X), (category_of_throw lt cats' d H (Z.of_nat i) ltac:(lia) ltac:(lia)) in Q. discriminate.
    + assert (i < List.length cats')%nat by (apply nth_error_Some; congruence). apply nth_error_None in X.
      pose proof (E (Z.of_nat i) ltac:(lia)) as Q.
      rewrite (category_of_ok lt cats' d H i y ltac:(lia) Y), (category_of_throw lt cats c G (Z.of_nat i) ltac:(lia) ltac:(lia)) in Q. discriminate.
Qed.
Print Assumptions C141_equal_values.
Example C141_case : exists c d, made Z.ltb [10; 20] c /\ made Z.ltb [20; 10] d /\ equal c d = false /\ equal c (presorted [10; 20]) = true.
Proof.
  eexists. eexists. split; [apply (made_unsorted Z.ltb [10; 20] [7; 7]%nat); reflexivity|].
  split; [apply (made_unsorted Z.ltb [20; 10] [7; 7]%nat); reflexivity|]. split; reflexivity.
Qed.

(** ** C142: factor_categorical. *)
Theorem C142_factor_refuted : forall values, values <> [] -> factor code_kernels values = UB.
Proof.
  intros [|v r] N; [congruence|]. unfold factor. cbn [fill_factor set_find set_insert bind].
  destruct r as [|w r]; reflexivity.
Qed.
Print Assumptions C142_factor_refuted.
(** With an order and an assignment: the categories are the distinct values, in
    order; the same type as from any list of the distinct values in order. *)
Theorem C142_factor_partial : forall lt values, strict_total lt ->
  exists cats c, factor (working lt) values = Ok c /\ made lt cats c /\ ascending lt cats /\
    (forall x, In x cats <-> In x values) /\
    (Z.of_nat (List.length cats) <= 2 ^ 32 -> forall x, In x values <-> exists v, value_of_category lt c x = Ok v).
Proof.
  intros lt values T. unfold factor. destruct (fill_factor_ok lt T values []) as (u & -> & A & M); [constructor|].
  cbn [bind]. rewrite map_copy_id. cbn [bind]. exists u, (presorted u).
  pose proof (made_presorted lt u A) as MD.
  assert (E : forall x, In x u <-> In x values) by (intros x; rewrite M; cbn; intuition).
  split; [reflexivity|]. split; [exact MD|]. split; [exact A|]. split; [exact E|].
  intros B x. destruct (C139_values_partial lt u _ T MD B) as (V1 & V2 & _). rewrite <- E. split.
  - intros I. destruct (In_nth_error _ _ I) as [i X]. exists (Z.of_nat i). exact (proj1 (V1 i x X)).
  - intros (v & Q). destruct (in_dec Z.eq_dec x u) as [I|N]; [exact I|]. destruct (V2 x N) as [e Q']. congruence.
Qed.
Print Assumptions C142_factor_partial.
Example C142_case : factor (working Z.ltb) [20; 10; 20; 30; 10] = Ok (presorted [10; 20; 30]) /\ factor code_kernels [20; 10; 20] = UB.
Proof. split; reflexivity. Qed.

(** ** C143: the text of a categorical type. *)
(** It has the categories in the order of their values. *)
Theorem C143_print_partial : forall lt cats c, strict_total lt -> made lt cats c -> Z.of_nat (List.length cats) <= 2 ^ 32 ->
  cats <> [] -> print_type c = Ok cats.
Proof.
  intros lt [|x cats] c T M B N; [congruence|]. pose proof (made_good lt _ c T M) as G. unfold print_type.
  change 0 with (Z.of_nat 0). rewrite (category_of_ok lt _ c G 0 x) by (lia || reflexivity). cbn [bind].
  rewrite (count_len lt _ c G). replace (Z.to_nat (Z.of_nat (List.length (x :: cats)) - 1)) with (List.length cats) by (cbn [List.length]; lia).
  change 1 with (Z.of_nat 1). rewrite (print_rest_ok lt _ c G (List.length cats) 1 B); [reflexivity|]. cbn [List.length]. lia.
Qed.
Print Assumptions C143_print_partial.
(** A type without categories cannot be printed, and no text is read back. *)
Theorem C143_print_empty_refuted : forall lt c, strict_total lt -> made lt [] c -> throws (print_type c).
Proof.
  intros lt c T M. unfold print_type. rewrite (category_of_throw lt [] c (made_good lt _ c T M) 0) by (cbn; lia).
  eexists. reflexivity.
Qed.
Print Assumptions C143_print_empty_refuted.
Theorem C143_read_back_refuted : forall lt cats c text, strict_total lt -> made lt cats c -> print_type c = Ok text ->
  parse_type text <> Ok c.
Proof. intros. discriminate. Qed.
Print Assumptions C143_read_back_refuted.
Example C143_case : print_type (presorted [10; 20; 30]) = Ok [10; 20; 30] /\ throws (print_type (presorted [])).
Proof. split; [reflexivity|eexists; reflexivity]. Qed.
