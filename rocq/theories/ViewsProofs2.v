(* Addresses of permuted arrays, rotate, transpose, reshape, new_axis, view. *)
From Coq Require Import Permutation.
From Verif Require Import Base IterModel IterSpec IterProofs ViewsModel ViewsSpec ViewsProofs.
Local Open Scope Z_scope.

(* ---- sums -------------------------------------------------------------- *)

Definition zsum (l : list Z) : Z := fold_right Z.add 0 l.

Lemma zsum_app a b : zsum (a ++ b) = zsum a + zsum b.
Proof. induction a as [ | x a IH ]; cbn [zsum fold_right app]; [ reflexivity | fold (zsum (a ++ b)) (zsum a); lia ]. Qed.

Lemma zsum_perm a b : Permutation a b -> zsum a = zsum b.
Proof.
  intros P; induction P; cbn [zsum fold_right]; [ reflexivity | | | ].
  - fold (zsum l) (zsum l'); lia.
  - fold (zsum l); lia.
  - lia.
Qed.

Lemma dot_zsum idx strides n :
  List.length idx = n -> List.length strides = n ->
  dot idx strides = zsum (map (fun k => nth k idx 0 * nth k strides 0) (seq 0 n)).
Proof.
  revert strides n; induction idx as [ | i idx IH ]; intros [ | s strides ] n Hi Hs; cbn [List.length] in *; subst; try discriminate.
  - reflexivity.
  - cbn [dot seq map zsum fold_right nth]; f_equal.
    rewrite (IH strides (List.length idx)) by lia.
    rewrite <- seq_shift, map_map; reflexivity.
Qed.

Lemma seq_split_at n m : (n <= m)%nat -> seq 0 m = seq 0 n ++ seq n (m - n).
Proof. intros H; change (seq n (m - n)) with (seq (0 + n) (m - n)); rewrite <- seq_app; f_equal; lia. Qed.

Lemma map_ext_seq {A} (f g : nat -> A) a n :
  (forall k, (a <= k < a + n)%nat -> f k = g k) -> map f (seq a n) = map g (seq a n).
Proof. intros H; apply map_ext_in; intros k Hk; apply in_seq in Hk; apply H; lia. Qed.

Lemma axes_as_map axes : map (fun k => axis axes k) (seq 0 (List.length axes)) = axes.
Proof.
  induction axes as [ | a axes IH ]; [ reflexivity | ].
  cbn [List.length seq map axis nth]; f_equal; rewrite <- seq_shift, map_map; exact IH.
Qed.

Lemma permuted_dot axes idx strides idx' strides' :
  permutation_of (List.length axes) axes -> (List.length axes <= List.length idx)%nat ->
  List.length strides = List.length idx ->
  permuted axes idx idx' -> permuted axes strides strides' ->
  dot idx' strides' = dot idx strides.
Proof.
  intros P L E (I1 & I2 & I3) (S1 & S2 & S3).
  rewrite (dot_zsum idx' strides' (List.length idx)), (dot_zsum idx strides (List.length idx)) by congruence.
  rewrite (seq_split_at (List.length axes) (List.length idx) L), !map_app, !zsum_app; f_equal.
  - set (f := fun v => nth (Z.to_nat v) idx 0 * nth (Z.to_nat v) strides 0).
    transitivity (zsum (map f axes)).
    + rewrite <- (axes_as_map axes) at 2; rewrite map_map; f_equal.
      apply map_ext_seq; intros k Hk; unfold f, axis; rewrite I2, S2 by lia; reflexivity.
    + rewrite (zsum_perm _ _ (Permutation_map f P)), map_map; f_equal.
      apply map_ext_seq; intros k Hk; unfold f; rewrite Nat2Z.id; reflexivity.
  - f_equal; apply map_ext_seq; intros k Hk; rewrite I3, S3 by lia; reflexivity.
Qed.

Lemma perm_onto axes v :
  permutation_of (List.length axes) axes -> (v < List.length axes)%nat ->
  exists k, (k < List.length axes)%nat /\ nth k axes 0 = Z.of_nat v.
Proof.
  intros P H; assert (HI : In (Z.of_nat v) axes).
  { apply (Permutation_in _ (Permutation_sym P)), in_map, in_seq; lia. }
  apply (In_nth _ _ 0) in HI as (k & K1 & K2); exists k; split; assumption.
Qed.

Lemma in_shape_nth idx shape :
  in_shape idx shape <->
  List.length idx = List.length shape /\ forall k, (k < List.length idx)%nat -> 0 <= nth k idx 0 < nth k shape 0.
Proof.
  revert shape; induction idx as [ | i idx IH ]; intros [ | n shape ]; cbn [List.length].
  - split; [ intros _; split; [ reflexivity | intros k Hk; lia ] | constructor ].
  - split; [ intros H; inversion H | intros [H _]; discriminate ].
  - split; [ intros H; inversion H | intros [H _]; discriminate ].
  - split.
    + intros H; inversion H as [ | ? ? ? ? H1 H2 ]; subst; apply IH in H2 as [K1 K2]; split; [ lia | ].
      intros [ | k ] Hk; cbn [nth]; [ exact H1 | apply K2; lia ].
    + intros [H1 H2]; constructor; [ exact (H2 O ltac:(lia)) | ].
      apply IH; split; [ lia | ]; intros k Hk; exact (H2 (Datatypes.S k) ltac:(lia)).
Qed.

Lemma permuted_in_shape axes idx shape idx' shape' :
  permutation_of (List.length axes) axes -> (List.length axes <= List.length idx)%nat ->
  permuted axes idx idx' -> permuted axes shape shape' ->
  (in_shape idx shape <-> in_shape idx' shape').
Proof.
  intros P L (I1 & I2 & I3) (S1 & S2 & S3); rewrite !in_shape_nth, I1, S1; split; intros [E H]; (split; [ exact E | ]); intros k Hk.
  - destruct (Nat.lt_ge_cases k (List.length axes)) as [X | X].
    + rewrite I2, S2 by exact X; pose proof (perm_range axes k P X) as R; unfold axis in R; apply H; lia.
    + rewrite I3, S3 by exact X; apply H; exact Hk.
  - destruct (Nat.lt_ge_cases k (List.length axes)) as [X | X].
    + destruct (perm_onto axes k P X) as (j & J1 & J2).
      specialize (H j ltac:(lia)); rewrite I2, S2, J2, Nat2Z.id in H by exact J1; exact H.
    + specialize (H k Hk); rewrite I3, S3 in H by exact X; exact H.
Qed.

Lemma permuted_map {A B} (f : A -> B) axes l l' :
  permutation_of (List.length axes) axes -> (List.length axes <= List.length l)%nat ->
  permuted axes l l' -> permuted axes (map f l) (map f l').
Proof.
  intros P L (H1 & H2 & H3); split; [ rewrite !map_length; exact H1 | split ]; intros k d Hk.
  - pose proof (perm_range axes k P Hk) as R; unfold axis in R.
    destruct l as [ | x l0 ] eqn:EL; [ cbn in L; lia | rewrite <- EL in * ].
    rewrite (nth_indep (map f l') d (f x)), (nth_indep (map f l) d (f x)) by (rewrite map_length; lia).
    rewrite !map_nth; f_equal; apply H2; exact Hk.
  - destruct (Nat.lt_ge_cases k (List.length l)) as [X | X].
    + destruct l as [ | x l0 ] eqn:EL; [ cbn in X; lia | rewrite <- EL in * ].
      rewrite (nth_indep (map f l') d (f x)), (nth_indep (map f l) d (f x)) by (rewrite map_length; lia).
      rewrite !map_nth; f_equal; apply H3; exact Hk.
    + rewrite !nth_overflow by (rewrite map_length; lia); reflexivity.
Qed.

(* A permuted list is determined. *)
Lemma permuted_unique {A} axes (l a b : list A) : permuted axes l a -> permuted axes l b -> a = b.
Proof.
  intros (A1 & A2 & A3) (B1 & B2 & B3).
  destruct l as [ | x l ].
  - destruct a; [ | discriminate ]; destruct b; [ reflexivity | discriminate ].
  - apply (nth_ext a b x x); [ congruence | ].
    intros k Hk; destruct (Nat.lt_ge_cases k (List.length axes)) as [X | X]; [ rewrite A2, B2 by exact X; reflexivity | rewrite A3, B3 by exact X; reflexivity ].
Qed.

(* ---- transpose and rotate ---------------------------------------------- *)

Definition rev_axes (n : nat) : list Z := map (fun i => Z.of_nat (n - i - 1)) (seq 0 n).

Lemma nth_map_seq {A} (f : nat -> A) a n k d : (k < n)%nat -> nth k (map f (seq a n)) d = f (a + k)%nat.
Proof.
  intros H; rewrite (nth_indep _ d (f O)) by (rewrite map_length, seq_length; exact H).
  rewrite map_nth, seq_nth by exact H; reflexivity.
Qed.

Lemma rev_axes_length n : List.length (rev_axes n) = n.
Proof. unfold rev_axes; rewrite map_length, seq_length; reflexivity. Qed.

Lemma perm_by_props axes :
  (forall k, (k < List.length axes)%nat -> 0 <= axis axes k < Z.of_nat (List.length axes)) ->
  (forall v, (v < List.length axes)%nat -> exists k, (k < List.length axes)%nat /\ axis axes k = Z.of_nat v) ->
  permutation_of (List.length axes) axes.
Proof.
  intros R O; unfold permutation_of; apply Permutation_sym, NoDup_Permutation_bis.
  - apply FinFun.Injective_map_NoDup; [ intros x y; lia | apply seq_NoDup ].
  - rewrite map_length, seq_length; lia.
  - intros v HI; apply in_map_iff in HI as (x & <- & HI); apply in_seq in HI.
    destruct (O x ltac:(lia)) as (k & K1 & <-); apply nth_In; exact K1.
Qed.

Lemma rev_axes_perm n : permutation_of (List.length (rev_axes n)) (rev_axes n).
Proof.
  apply perm_by_props; rewrite rev_axes_length.
  - intros k Hk; unfold axis, rev_axes; rewrite nth_map_seq by exact Hk; lia.
  - intros v Hv; exists (n - v - 1)%nat; split; [ lia | ].
    unfold axis, rev_axes; rewrite nth_map_seq by lia; lia.
Qed.

Lemma rev_axes_irreducible n : irreducible (rev_axes n).
Proof.
  intros k Hk; rewrite rev_axes_length in Hk; exists O; split; [ lia | ].
  unfold rev_axes; rewrite nth_map_seq by lia; lia.
Qed.

Lemma permuted_rev {A} (l : list A) : permuted (rev_axes (List.length l)) l (rev l).
Proof.
  split; [ apply rev_length | split ]; rewrite rev_axes_length; intros k d Hk.
  - unfold rev_axes; rewrite nth_map_seq by exact Hk; rewrite Nat2Z.id.
    rewrite rev_nth by exact Hk; f_equal; lia.
  - rewrite !nth_overflow by (rewrite ?rev_length; exact Hk); reflexivity.
Qed.

Definition rot_axes (to from : nat) : list Z :=
  if (from <? to)%nat
  then map Z.of_nat (seq 0 from) ++ map (fun i => Z.of_nat i + 1) (seq from (to - from)) ++ [Z.of_nat from]
  else map Z.of_nat (seq 0 to) ++ [Z.of_nat from] ++ map (fun i => Z.of_nat i - 1) (seq (to + 1) (from - to)).

Lemma rot_axes_length to from : to <> from -> List.length (rot_axes to from) = (Nat.max to from + 1)%nat.
Proof.
  intros N; unfold rot_axes; destruct (Nat.ltb_spec from to);
    rewrite !app_length, !map_length, !seq_length; cbn [List.length]; lia.
Qed.

(* which axis stands at position k *)
Definition rot_at (to from k : nat) : nat :=
  if (k =? to)%nat then from
  else if (from <=? k)%nat && (k <? to)%nat then (k + 1)%nat
  else if (to <? k)%nat && (k <=? from)%nat then (k - 1)%nat
  else k.

Lemma axis_rot to from k :
  to <> from -> (k < Nat.max to from + 1)%nat -> axis (rot_axes to from) k = Z.of_nat (rot_at to from k).
Proof.
  intros N Hk; unfold axis, rot_axes, rot_at; destruct (Nat.ltb_spec from to) as [L | L].
  - destruct (Nat.lt_ge_cases k from) as [C | C].
    + rewrite app_nth1 by (rewrite map_length, seq_length; exact C).
      rewrite nth_map_seq by exact C; cbn [Nat.add].
      destruct (Nat.eqb_spec k to); [ lia | ]; destruct (Nat.leb_spec from k); [ lia | cbn [andb] ].
      destruct (Nat.ltb_spec to k); [ lia | reflexivity ].
    + rewrite app_nth2 by (rewrite map_length, seq_length; exact C); rewrite map_length, seq_length.
      destruct (Nat.lt_ge_cases k to) as [D | D].
      * rewrite app_nth1 by (rewrite map_length, seq_length; lia).
        rewrite nth_map_seq by lia.
        destruct (Nat.eqb_spec k to); [ lia | ]; destruct (Nat.leb_spec from k); [ | lia ].
        destruct (Nat.ltb_spec k to); [ cbn [andb]; lia | lia ].
      * rewrite app_nth2 by (rewrite map_length, seq_length; lia); rewrite map_length, seq_length.
        replace (k - from - (to - from))%nat with O by lia; cbn [nth].
        destruct (Nat.eqb_spec k to); [ reflexivity | lia ].
  - destruct (Nat.lt_ge_cases k to) as [C | C].
    + rewrite app_nth1 by (rewrite map_length, seq_length; exact C).
      rewrite nth_map_seq by exact C; cbn [Nat.add].
      destruct (Nat.eqb_spec k to); [ lia | ]; destruct (Nat.leb_spec from k); [ lia | cbn [andb] ].
      destruct (Nat.ltb_spec to k); [ lia | reflexivity ].
    + rewrite app_nth2 by (rewrite map_length, seq_length; exact C); rewrite map_length, seq_length.
      destruct (Nat.eqb_spec k to) as [ -> | D ].
      * rewrite Nat.sub_diag; reflexivity.
      * replace (k - to)%nat with (Datatypes.S (k - to - 1)) by lia; cbn [app nth].
        rewrite nth_map_seq by lia.
        destruct (Nat.leb_spec from k); destruct (Nat.ltb_spec k to); cbn [andb]; try lia;
          destruct (Nat.ltb_spec to k); destruct (Nat.leb_spec k from); cbn [andb]; lia.
Qed.

Ltac rot_cases :=
  unfold rot_at;
  repeat match goal with
         | |- context [(?a =? ?b)%nat] => destruct (Nat.eqb_spec a b)
         | |- context [(?a <=? ?b)%nat] => destruct (Nat.leb_spec a b)
         | |- context [(?a <? ?b)%nat] => destruct (Nat.ltb_spec a b)
         end; cbn [andb].

Lemma rot_axes_perm to from :
  to <> from -> permutation_of (List.length (rot_axes to from)) (rot_axes to from).
Proof.
  intros N; apply perm_by_props; rewrite rot_axes_length by exact N.
  - intros k Hk; rewrite axis_rot by assumption; rot_cases; lia.
  - intros v Hv.
    assert (X : exists k, (k < Nat.max to from + 1)%nat /\ rot_at to from k = v).
    { destruct (Nat.eq_dec v from) as [ -> | A ]; [ exists to; rot_cases; split; lia | ].
      destruct (Nat.le_gt_cases from v) as [B | B]; destruct (Nat.le_gt_cases v to) as [D | D].
      - exists (v - 1)%nat; rot_cases; split; lia.
      - exists v; rot_cases; split; lia.
      - destruct (Nat.eq_dec v to) as [ -> | E ]; [ exists (to + 1)%nat; rot_cases; split; lia | ].
        exists v; rot_cases; split; lia.
      - exists (v + 1)%nat; rot_cases; split; lia. }
    destruct X as (k & K1 & K2); exists k; split; [ exact K1 | rewrite axis_rot, K2 by assumption; reflexivity ].
Qed.

Lemma rot_axes_irreducible to from :
  to <> from -> (irreducible (rot_axes to from) <-> Nat.min to from = O).
Proof.
  intros N; unfold irreducible; rewrite rot_axes_length by exact N; split.
  - intros I; destruct (Nat.eq_dec (Nat.min to from) 0) as [ | X ]; [ assumption | exfalso ].
    destruct (I (Nat.min to from) ltac:(lia)) as (j & J1 & J2).
    fold (axis (rot_axes to from) j) in J2; rewrite axis_rot in J2 by (try assumption; lia).
    revert J2; rot_cases; lia.
  - intros E k Hk.
    destruct (Nat.eq_dec to 0) as [ -> | T ].
    + exists O; split; [ lia | ].
      fold (axis (rot_axes 0 from) 0); rewrite axis_rot by (try assumption; lia); rot_cases; lia.
    + assert (from = O) by lia; subst from.
      exists (k - 1)%nat; split; [ lia | ].
      fold (axis (rot_axes to 0) (k - 1)); rewrite axis_rot by (try assumption; lia); rot_cases; lia.
Qed.

Lemma rotate_axes a to from :
  to <> from -> rotate a (Z.of_nat to) (Z.of_nat from) = permute a (rot_axes to from).
Proof.
  intros N; unfold rotate, rot_axes.
  destruct (Z.eqb_spec (Z.of_nat from) (Z.of_nat to)); [ lia | ].
  destruct (Z.ltb_spec (Z.of_nat from) 0); [ lia | ]; destruct (Z.ltb_spec (Z.of_nat to) 0); [ lia | cbn [orb] ].
  rewrite !Nat2Z.id.
  destruct (Z.ltb_spec (Z.of_nat from) (Z.of_nat to)); destruct (Nat.ltb_spec from to); try lia; do 3 f_equal.
  - do 2 f_equal; lia.
  - do 2 f_equal; lia.
Qed.

(* ---- reshape ------------------------------------------------------------ *)

Lemma total_fold sh a n :
  fold_left (fun acc n => do x <- acc; mul64 x n) sh (Ok a) = Ok n -> n = a * product sh.
Proof. exact (itersize_fold sh a n). Qed.

Lemma total_value sh n : total sh = Ok n -> n = product sh.
Proof. intros H; apply total_fold in H; lia. Qed.

Lemma mul64_value a b c : mul64 a b = Ok c -> c = a * b.
Proof. unfold mul64, chk64; destruct (is_s64 (a * b)); [ intros H; injection H as <-; reflexivity | discriminate ]. Qed.

(* the strides are the packed ones *)
Lemma reshape_strides_hd n shape el ss :
  reshape_strides (n :: shape) el = Ok ss ->
  exists ss', ss = product shape * el :: ss' /\ List.length ss' = List.length shape.
Proof.
  revert n ss; induction shape as [ | m shape IH ]; intros n ss H.
  - cbn [reshape_strides] in H; injection H as <-; exists []; split; [ unfold product; cbn [fold_right]; f_equal; lia | reflexivity ].
  - change (reshape_strides (n :: m :: shape) el) with
      (do ss <- reshape_strides (m :: shape) el; do s <- mul64 m (hd 0 ss); Ok (s :: ss)) in H.
    destruct (reshape_strides (m :: shape) el) as [ ss0 | | | ] eqn:E; cbn [bind] in H; try discriminate.
    destruct (IH m ss0 E) as (ss1 & -> & L1); cbn [hd] in H.
    destruct (mul64 m (product shape * el)) as [ s | | | ] eqn:E2; cbn [bind] in H; try discriminate.
    apply mul64_value in E2; injection H as <-; exists (product shape * el :: ss1); split; [ | cbn; lia ].
    f_equal; subst s; cbn [product fold_right]; fold (product shape); lia.
Qed.

Definition keep (p : Z * Z) : Z := if 1 <? fst p then snd p else 0.

Lemma reshape_strides_packed shape el ss :
  reshape_strides shape el = Ok ss ->
  List.length ss = List.length shape /\ c_strides el shape (map keep (combine shape ss)).
Proof.
  revert ss; induction shape as [ | n shape IH ]; intros ss H; [ discriminate | ].
  destruct (reshape_strides_hd n shape el ss H) as (ss' & -> & L).
  split; [ cbn; lia | ]; cbn [combine map c_strides]; split.
  - intros Hn; unfold keep; cbn [fst snd]; destruct (Z.ltb_spec 1 n); [ reflexivity | lia ].
  - destruct shape as [ | m shape ]; [ destruct ss'; [ exact I | discriminate ] | ].
    change (reshape_strides (n :: m :: shape) el) with
      (do ss <- reshape_strides (m :: shape) el; do s <- mul64 m (hd 0 ss); Ok (s :: ss)) in H.
    destruct (reshape_strides (m :: shape) el) as [ ss0 | | | ] eqn:E; cbn [bind] in H; try discriminate.
    destruct (mul64 m (hd 0 ss0)) as [ s | | | ]; cbn [bind] in H; try discriminate.
    injection H as _ ->; apply (IH ss' eq_refl).
Qed.

(* row-major addresses of packed strides *)
Lemma addresses_cons base n shape s strides :
  element_addresses base (n :: shape) (s :: strides) =
  flat_map (fun i => element_addresses (base + i * s) shape strides) (upto n).
Proof.
  unfold element_addresses; cbn [row_major].
  induction (upto n) as [ | i l IH ]; [ reflexivity | ].
  cbn [flat_map]; rewrite map_app, IH; f_equal.
  rewrite map_map; apply map_ext; intros idx; unfold address; cbn [dot]; lia.
Qed.

Definition run (base el : Z) (n : nat) : list Z := map (fun k => base + Z.of_nat k * el) (seq 0 n).

Lemma run_app base el a b : run base el (a + b) = run base el a ++ run (base + Z.of_nat a * el) el b.
Proof.
  unfold run; rewrite seq_app, map_app; f_equal; cbn [Nat.add].
  replace (seq a b) with (map (fun k => (a + k)%nat) (seq 0 b)).
  - rewrite map_map; apply map_ext; intros; lia.
  - clear; revert a; induction b as [ | b IH ]; intros a; [ reflexivity | ].
    cbn [seq map]; f_equal; [ lia | ]; rewrite <- seq_shift, map_map, <- (IH (Datatypes.S a)).
    apply map_ext; intros; lia.
Qed.

Lemma flat_map_run base el s m n :
  (1 < Z.of_nat n -> s = Z.of_nat m * el) ->
  flat_map (fun i => run (base + i * s) el m) (map Z.of_nat (seq 0 n)) = run base el (n * m).
Proof.
  induction n as [ | n IH ]; intros H; [ reflexivity | ].
  rewrite seq_S, map_app, flat_map_app; cbn [map flat_map]; rewrite app_nil_r.
  replace (Datatypes.S n * m)%nat with (n * m + m)%nat by lia; rewrite run_app.
  rewrite IH by (intros; apply H; lia); f_equal; f_equal.
  destruct n as [ | n ]; [ cbn; lia | ]; rewrite H by lia; cbn [Nat.add]; lia.
Qed.

Lemma packed_addresses el shape : forall base strides,
  Forall (fun n => 0 <= n) shape -> c_strides el shape strides ->
  element_addresses base shape strides = run base el (Z.to_nat (product shape)).
Proof.
  induction shape as [ | n shape IH ]; intros base strides F C; destruct strides as [ | s strides ]; try (cbn in C; contradiction).
  - unfold element_addresses, run, address; unfold product; cbn [row_major map dot fold_right]; change (Z.to_nat 1) with 1%nat; cbn [seq map]; f_equal; lia.
  - destruct C as [C1 C2]; inversion F as [ | ? ? F1 F2 ]; subst.
    assert (PN : 0 <= product shape).
    { clear - F2; induction F2 as [ | x l Hx Hl IHl ]; cbn [product fold_right]; [ lia | fold (product l); nia ]. }
    rewrite addresses_cons; unfold upto.
    rewrite (flat_map_ext _ (fun i => run (base + i * s) el (Z.to_nat (product shape))))
      by (intros i; apply IH; assumption).
    rewrite flat_map_run.
    + f_equal; cbn [product fold_right]; fold (product shape); rewrite Z2Nat.inj_mul by lia; reflexivity.
    + intros H; rewrite C1 by lia; rewrite Z2Nat.id by lia; reflexivity.
Qed.

Lemma contiguous_run base el shape strides :
  contiguous base el shape strides <->
  element_addresses base shape strides = run base el (List.length (row_major shape)).
Proof.
  assert (L : List.length (element_addresses base shape strides) = List.length (row_major shape))
    by (unfold element_addresses; apply map_length).
  split.
  - intros H; apply (nth_ext _ _ 0 0).
    + unfold run; rewrite L, map_length, seq_length; reflexivity.
    + intros k Hk; rewrite L in Hk; rewrite (H k Hk); unfold run; rewrite nth_map_seq by exact Hk; reflexivity.
  - intros E k Hk; rewrite E; unfold run; rewrite nth_map_seq by exact Hk; reflexivity.
Qed.

Definition mk (p : Z * Z) : dim := DF (fst p) (if 1 <? fst p then snd p else 0).

Lemma shape_make sh ss :
  List.length ss = List.length sh ->
  shape_of (map mk (combine sh ss)) = sh /\ strides_of (map mk (combine sh ss)) = map keep (combine sh ss).
Proof.
  revert ss; induction sh as [ | n sh IH ]; intros [ | s ss ] L; cbn [List.length] in L; try discriminate; [ split; reflexivity | ].
  destruct (IH ss ltac:(lia)) as [H1 H2]; unfold shape_of, strides_of in *; cbn [combine map mk dsize fst snd].
  split; [ f_equal; exact H1 | f_equal; exact H2 ].
Qed.

Lemma existsb_neg sh : existsb (fun n => n <? 0) sh = false <-> Forall (fun n => 0 <= n) sh.
Proof.
  induction sh as [ | n sh IH ]; cbn [existsb]; [ split; [ constructor | reflexivity ] | ].
  rewrite orb_false_iff, IH; split.
  - intros [H1 H2]; constructor; [ lia | exact H2 ].
  - intros H; inversion H; subst; split; [ lia | assumption ].
Qed.

Lemma reshape_ok a shape r :
  reshape a shape = Ok r ->
  a_data r = a_data a /\ a_dtype r = a_dtype a /\ shape_of (a_dims r) = shape /\ fixed_dims (a_dims r) /\
  product shape = product (shape_of (a_dims a)) /\ Forall (fun n => 0 <= n) shape /\
  element_addresses (a_data r) shape (strides_of (a_dims r)) =
  run (a_data a) (t_size (a_dtype a)) (Z.to_nat (product shape)).
Proof.
  unfold reshape; destruct (total (shape_of (a_dims a))) as [ o | | | ] eqn:E1; cbn [bind]; try discriminate.
  destruct (total shape) as [ n | | | ] eqn:E2; cbn [bind]; try discriminate.
  destruct (Z.eqb_spec o n) as [ -> | ]; [ | discriminate ].
  destruct (reshape_strides shape (t_size (a_dtype a))) as [ ss | | | ] eqn:E3; cbn [bind]; try discriminate.
  apply total_value in E1, E2; apply reshape_strides_packed in E3 as [L C].
  unfold make_strided; destruct (t_meta (a_dtype a)); [ discriminate | ].
  destruct (existsb (fun n => n <? 0) shape) eqn:EN; [ discriminate | ]; apply existsb_neg in EN.
  change (fun p => DF (fst p) (if 1 <? fst p then snd p else 0)) with mk.
  intros H; injection H as <-; cbn [a_data a_dtype a_dims].
  destruct (shape_make shape ss L) as [S1 S2].
  split; [ reflexivity | split; [ reflexivity | split; [ exact S1 | split ] ] ].
  - clear - EN L; unfold fixed_dims; revert ss L; induction EN as [ | n sh Hn Hs IH ]; intros [ | s ss ] L; cbn [combine map];
      try discriminate; constructor; [ exact Hn | apply IH; cbn in L; lia ].
  - split; [ congruence | split; [ exact EN | ] ].
    rewrite S2; apply packed_addresses; assumption.
Qed.

(* ---- new_axis ------------------------------------------------------------ *)

Lemma dot_new_axis i1 i2 s1 s2 m :
  List.length i1 = List.length s1 ->
  dot (i1 ++ repeat 0 m ++ i2) (s1 ++ repeat 0 m ++ s2) = dot (i1 ++ i2) (s1 ++ s2).
Proof.
  intros L; rewrite !dot_app by (rewrite ?app_length, ?repeat_length; lia); f_equal.
  induction m as [ | m IH ]; cbn [repeat app dot]; [ reflexivity | exact IH ].
Qed.

(* ---- view ---------------------------------------------------------------- *)

Lemma dtp_eqb_eq a b : dtp_eqb a b = true <-> a = b.
Proof.
  unfold dtp_eqb; rewrite !andb_true_iff, !Z.eqb_eq, !Bool.eqb_true_iff; destruct a, b; cbn; split.
  - intros [[[[[-> ->] ->] ->] ->] ->]; reflexivity.
  - intros E; injection E as -> -> -> -> -> ->; repeat split.
Qed.

Lemma odims_eqb_eq a b : odims_eqb a b = true <-> a = b.
Proof.
  revert b; induction a as [ | [x | ] a IH ]; intros [ | [y | ] b ]; cbn [odims_eqb]; try (split; [ discriminate | intros E; discriminate ]).
  - split; reflexivity.
  - rewrite andb_true_iff, IH, Z.eqb_eq; split; [ intros [ -> -> ]; reflexivity | intros E; injection E as -> ->; split; reflexivity ].
  - rewrite IH; split; [ intros ->; reflexivity | intros E; injection E as ->; reflexivity ].
Qed.

(* what a dtype may be viewed as *)
Definition viewable (d v : dtp) : Prop :=
  d = v \/ t_pod d = true /\ t_pod v = true /\ t_size d = t_size v /\ t_align v <= t_align d.

Lemma viewable_refl d : viewable d d. Proof. left; reflexivity. Qed.

Lemma try_view_ok ds dt vds vdt r :
  try_view ds dt vds vdt = Some r ->
  r = ds /\ map dsize_of ds = vds /\ viewable dt vdt /\ (In DV ds -> dt = vdt).
Proof.
  revert vds r; induction ds as [ | [n s | ] ds IH ]; intros vds r; cbn [try_view].
  - destruct vds; [ | discriminate ]; destruct (dtp_eqb dt vdt) eqn:E.
    + apply dtp_eqb_eq in E; intros H; injection H as <-; repeat split; [ left; exact E | intros [] ].
    + destruct (t_pod dt && t_pod vdt && (t_size dt =? t_size vdt) && (t_align vdt <=? t_align dt)) eqn:K; [ | discriminate ].
      rewrite !andb_true_iff in K; destruct K as [[[K1 K2] K3] K4].
      intros H; injection H as <-; repeat split; [ right; repeat split; try assumption; lia | intros [] ].
  - destruct vds as [ | [m | ] vds ]; try discriminate.
    destruct (Z.eqb_spec n m) as [ <- | ]; [ | discriminate ].
    destruct (try_view ds dt vds vdt) as [ r' | ] eqn:E; [ | discriminate ].
    intros H; injection H as <-; destruct (IH vds r' E) as (-> & <- & V & D).
    repeat split; [ exact V | intros [X | X]; [ discriminate | exact (D X) ] ].
  - destruct (same_type (DV :: ds) dt (VType vds vdt)) eqn:E; [ | discriminate ].
    intros H; injection H as <-; unfold same_type in E; cbn [v_dims v_dtype] in E.
    apply andb_prop in E as [E1 E2]; apply odims_eqb_eq in E1; apply dtp_eqb_eq in E2; subst.
    repeat split; [ apply viewable_refl ].
Qed.

Lemma try_view_complete ds dt vds vdt :
  map dsize_of ds = vds -> viewable dt vdt -> (In DV ds -> dt = vdt) -> try_view ds dt vds vdt = Some ds.
Proof.
  intros <- V; induction ds as [ | [n s | ] ds IH ]; intros D; cbn [try_view map].
  - destruct (dtp_eqb dt vdt) eqn:E; [ reflexivity | ].
    destruct V as [ -> | (V1 & V2 & V3 & V4) ]; [ rewrite (proj2 (dtp_eqb_eq vdt vdt) eq_refl) in E; discriminate | ].
    rewrite V1, V2, V3, Z.eqb_refl, (proj2 (Z.leb_le _ _) V4); reflexivity.
  - cbn [dsize_of]; rewrite Z.eqb_refl, IH by (intros X; apply D; right; exact X); reflexivity.
  - specialize (D (or_introl eq_refl)); subst vdt; unfold same_type; cbn [v_dims v_dtype map].
    rewrite (proj2 (dtp_eqb_eq dt dt) eq_refl), (proj2 (odims_eqb_eq _ _) eq_refl); reflexivity.
Qed.
