(* C116-C120: kernels that combine other kernels. *)
From Coq Require FinFun.
From Verif Require Import Base FlowModel FlowSpec FlowProofs.
Local Open Scope Z_scope.

(* ---------------------------------------------------------------- C116 *)

(* outer: for up to three arguments with any numbers of dimensions the result
   has the dimensions of the first argument, then those of the second, and so
   on; the child is called once for every index of the result, in row-major
   order, on the elements the pieces of the index select. *)
Theorem C116_outer_partial (sizes strides : list (list Z)) (res_strides : list Z) dst srcs :
  (List.length sizes <= 3)%nat ->
  List.length srcs = List.length sizes ->
  map (@List.length Z) strides = map (@List.length Z) sizes ->
  List.length res_strides = List.length (List.concat sizes) ->
  exists loops, outer_entry sizes = Ok (loops, List.concat sizes) /\
    outer_run (combine loops (List.concat strides)) (combine (List.concat sizes) res_strides) dst srcs =
    map (fun idx => (dst + dot idx res_strides,
                     map (fun p => fst (fst p) + dot (snd p) (snd (fst p)))
                         (combine (combine srcs strides) (pieces (map (@List.length Z) sizes) idx))))
        (indices (List.concat sizes)).
Proof.
  intros N LS LT LR.
  assert (LC : List.length (List.concat strides) = List.length (List.concat sizes)).
  { clear - LT; revert strides LT; induction sizes as [ | a sizes IH ]; intros [ | b strides ] LT; try discriminate; auto.
    cbn in *; injection LT as E LT; rewrite !app_length, E, (IH strides LT); reflexivity. }
  assert (LF : loops_from 0 sizes = loops_from 0 strides).
  { clear - LT; revert strides LT; generalize 0%nat as i; induction sizes as [ | a sizes IH ];
      intros i [ | b strides ] LT; try discriminate; auto.
    cbn in *; injection LT as E LT; rewrite E, (IH _ strides LT); reflexivity. }
  assert (LL : forall i, List.length (loops_from i sizes) = List.length (List.concat sizes)).
  { clear; induction sizes as [ | a sizes IH ]; intros i; cbn; auto.
    rewrite !app_length, repeat_length, IH; reflexivity. }
  exists (loops_from 0 sizes); split.
  - unfold outer_entry.
    destruct (skip_spec sizes 0) as (P1 & P2 & P3).
    set (p := (skip_scalars 0 sizes - 0)%nat) in *.
    replace (skip_scalars 0 sizes) with p by (unfold p; lia).
    assert (SPL : sizes = repeat [] p ++ skipn p sizes) by (rewrite <- P2; symmetry; apply firstn_skipn).
    destruct (Nat.ltb_spec p (List.length sizes)) as [ L | L ].
    + destruct (Nat.leb_spec 4 (List.length sizes)); [ lia | ].
      pose proof (skipn_length p sizes) as SL.
      assert (E1 : loops_from 0 sizes = loops_from p (skipn p sizes)).
      { rewrite SPL at 1; rewrite loops_from_repeat; reflexivity. }
      assert (E2 : List.concat sizes = List.concat (skipn p sizes)).
      { rewrite SPL at 1; apply concat_repeat. }
      rewrite E1, E2; rewrite SPL at 2; apply outer_resolve_ok; [ lia | ].
      destruct (skipn p sizes); [ cbn [List.length] in SL; lia | exact P3 ].
    + assert (E : sizes = repeat [] p) by (rewrite SPL at 1; rewrite skipn_all2 by lia; apply app_nil_r).
      rewrite E at 1 2; rewrite <- (app_nil_r (repeat [] p)), loops_from_repeat, concat_repeat; reflexivity.
  - rewrite outer_run_ok by (rewrite !combine_length, LL, LC, LR; reflexivity).
    assert (M1 : map fst (combine (List.concat sizes) res_strides) = List.concat sizes).
    { clear - LR; revert res_strides LR; generalize (List.concat sizes) as l; induction l; intros [ | r rs ] L;
        try discriminate; cbn; auto; f_equal; auto. }
    assert (M2 : map snd (combine (List.concat sizes) res_strides) = res_strides).
    { clear - LR; revert res_strides LR; generalize (List.concat sizes) as l; induction l; intros [ | r rs ] L;
        try discriminate; cbn; auto; f_equal; auto. }
    rewrite M1, M2; apply map_ext_in; intros idx I; f_equal.
    apply indices_length in I.
    rewrite LF, <- LT; apply (src_move_all strides [] srcs idx); [ | lia ].
    rewrite LS, <- (map_length (@List.length Z) strides), LT, map_length; reflexivity.
Qed.
Print Assumptions C116_outer_partial.

(* The row-major order of the result lists every index vector of the shape
   exactly once. *)
Theorem C116_every_index shape idx :
  In idx (indices shape) <-> Forall2 (fun i n => 0 <= i < n) idx shape.
Proof.
  revert idx; induction shape as [ | n shape IH ]; intros idx; cbn [indices].
  - split; [ intros [ <- | [] ]; constructor | intros H; inversion H; left; auto ].
  - rewrite in_flat_map; split.
    + intros (k & K & H); apply in_map_iff in H; destruct H as (idx' & <- & H).
      apply in_seq in K; constructor; [ lia | apply IH; auto ].
    + intros H; inversion H as [ | i n' idx' shape' R F ]; subst.
      exists (Z.to_nat i); split; [ apply in_seq; lia | ].
      rewrite Z2Nat.id by lia; apply in_map, IH; auto.
Qed.
Print Assumptions C116_every_index.

Lemma nodup_app {A} (l1 l2 : list A) : NoDup l1 -> NoDup l2 -> (forall x, In x l1 -> ~ In x l2) -> NoDup (l1 ++ l2).
Proof.
  induction 1 as [ | x l1 N D IH ]; intros H2 H; auto; cbn; constructor.
  - rewrite in_app_iff; intros [Q | Q]; [ auto | apply (H x); [ left; auto | auto ] ].
  - apply IH; auto; intros y Y; apply H; right; auto.
Qed.

Theorem C116_no_index_twice shape : NoDup (indices shape).
Proof.
  induction shape as [ | n shape IH ]; cbn [indices]; [ constructor; [ intros [] | constructor ] | ].
  assert (G : forall m a, NoDup (flat_map (fun k => map (cons (Z.of_nat k)) (indices shape)) (seq a m))).
  { induction m as [ | m IM ]; intros a; cbn; [ constructor | ].
    apply nodup_app; [ | apply IM | ].
    - apply FinFun.Injective_map_NoDup; auto; intros x y E; injection E; auto.
    - intros x X Y; apply in_map_iff in X; destruct X as (x' & <- & _).
      apply in_flat_map in Y; destruct Y as (k & K & Y); apply in_map_iff in Y; destruct Y as (y' & E & _).
      apply in_seq in K; injection E; intros; lia. }
  apply G.
Qed.
Print Assumptions C116_no_index_twice.

(* The claim for functions of any number of arguments fails at four, unless all
   of them are scalars. *)
Theorem C116_outer_refuted sizes : (4 <= List.length sizes)%nat -> Exists (fun a => a <> []) sizes ->
  outer_entry sizes = UB.
Proof.
  intros N H; unfold outer_entry.
  destruct (skip_spec sizes 0) as (P1 & P2 & P3); rewrite Nat.sub_0_r in *.
  destruct (Nat.ltb_spec (skip_scalars 0 sizes) (List.length sizes)) as [ L | L ].
  - destruct (Nat.leb_spec 4 (List.length sizes)); [ reflexivity | lia ].
  - rewrite firstn_all2 in P2 by lia; rewrite P2 in H.
    apply Exists_exists in H; destruct H as (x & X & NX); apply repeat_spec in X; congruence.
Qed.
Print Assumptions C116_outer_refuted.

(* ---------------------------------------------------------------- C117 *)

Definition apart_from_buffer (buf bs a : Z) : Prop := forall k, (k < 128)%nat -> a <> elt buf bs k.

(* compose: for any number of elements, also in place, the result is the second
   function of the first; the elements go through a buffer of 128. *)
Theorem C117_compose f g buf bs m dst ds src ss count :
  bs <> 0 -> (ds <> 0 \/ (count <= 1)%nat) ->
  (forall k, (k < count)%nat -> apart_from_buffer buf bs (elt src ss k) /\ apart_from_buffer buf bs (elt dst ds k)) ->
  (forall k j, (k < j < count)%nat -> elt dst ds k <> elt src ss j) ->
  exists m', compose_strided f g buf bs m dst ds src ss count = Ok m' /\
    (forall k, (k < count)%nat -> m' (elt dst ds k) = g (f (m (elt src ss k)))) /\
    (forall a, apart_from_buffer buf bs a -> (forall k, (k < count)%nat -> a <> elt dst ds k) -> m' a = m a).
Proof.
  intros BS DS D H; unfold compose_strided.
  assert (NB : forall a, apart_from_buffer buf bs a -> ~ in_buf buf bs a).
  { intros a A (k & K & E); apply (A k); auto. }
  assert (BN : forall a, ~ in_buf buf bs a -> apart_from_buffer buf bs a).
  { intros a A k K E; apply A; exists k; auto. }
  assert (BI : forall k j, (k < j < chunk_max)%nat -> elt buf bs k <> elt buf bs j) by (unfold elt; intros; nia).
  assert (DI : forall k j, (k < j < count)%nat -> elt dst ds k <> elt dst ds j) by (unfold elt; intros; nia).
  set (c := Nat.min count chunk_max).
  assert (C : (c <= count)%nat /\ (c <= chunk_max)%nat) by (unfold c; lia).
  destruct (chunk_ok f g buf bs ds ss BI m dst src c) as (P1 & P2).
  - lia.
  - intros k K; split; apply NB, D; lia.
  - intros k j K; apply DI; lia.
  - set (m2 := strided (unary g) c (strided (unary f) c m buf bs [src] [ss]) dst ds [buf] [bs]) in *.
    assert (ED : forall k, elt (dst + Z.of_nat c * ds) ds k = elt dst ds (c + k)%nat) by (intros; unfold elt; lia).
    assert (ES : forall k, elt (src + Z.of_nat c * ss) ss k = elt src ss (c + k)%nat) by (intros; unfold elt; lia).
    destruct (compose_loop_ok f g buf bs ds ss BI count m2 dst src c (count - c)%nat) as (m' & E & Q1 & Q2).
    + lia.
    + intros k K; rewrite ED, ES; split; apply NB, D; lia.
    + intros k j K; rewrite !ED, ES; split; [ apply DI | apply H ]; lia.
    + exists m'; split; [ exact E | split ].
      * intros k K; destruct (Nat.lt_ge_cases k c) as [ L | L ].
        -- rewrite Q2.
           ++ apply P1; auto.
           ++ apply NB, D; lia.
           ++ intros j J; rewrite ED; apply DI; lia.
        -- replace k with (c + (k - c))%nat by lia.
           rewrite <- ED, Q1, ES by lia; f_equal; f_equal; apply P2; [ apply NB, D; lia | ].
           intros j J; apply not_eq_sym, H; lia.
      * intros a A NO; rewrite Q2; auto.
        -- apply P2; auto; intros k K; apply NO; lia.
        -- intros k K; rewrite ED; apply NO; lia.
Qed.
Print Assumptions C117_compose.

Theorem C117_compose_single f g buf m dst src : buf <> dst ->
  compose_single f g buf m dst src dst = g (f (m src)) /\
  (forall a, a <> dst -> a <> buf -> compose_single f g buf m dst src a = m a).
Proof.
  intros N; unfold compose_single; cbn [strided map unary]; unfold store; split.
  - rewrite Z.eqb_refl, Z.eqb_refl; reflexivity.
  - intros a A B; destruct (Z.eqb_spec a dst), (Z.eqb_spec a buf); congruence.
Qed.
Print Assumptions C117_compose_single.

(* constant writes its value to every element *)
Theorem C117_constant data m dst ds count :
  (forall k, (k < count)%nat -> elt dst ds k <> data) ->
  (forall k, (k < count)%nat -> constant_strided data m dst ds count (elt dst ds k) = m data) /\
  (forall a, (forall k, (k < count)%nat -> a <> elt dst ds k) -> constant_strided data m dst ds count a = m a).
Proof.
  intros H; unfold constant_strided; split; [ | intros a A; apply strided_other; auto ].
  revert m dst H; induction count as [ | count IH ]; intros m dst H k K; [ lia | ]; cbn [strided advance map unary].
  replace (data + 0) with data by lia.
  assert (V : store m dst (m data) data = m data) by (unfold store; destruct (data =? dst); reflexivity).
  assert (H' : forall j, (j < count)%nat -> elt (dst + ds) ds j <> data).
  { intros j J; rewrite <- elt_S; apply H; lia. }
  destruct k as [ | k ].
  - rewrite elt_0.
    destruct (Nat.eq_dec count 0) as [ -> | NZ ]; [ cbn; unfold store; rewrite Z.eqb_refl; reflexivity | ].
    destruct (Z.eq_dec ds 0) as [ -> | DZ ].
    + specialize (IH (store m dst (m data)) (dst + 0) H' 0%nat ltac:(lia)); rewrite elt_0 in IH.
      replace (dst + 0) with dst in * by lia; rewrite IH; exact V.
    + rewrite strided_other; [ unfold store; rewrite Z.eqb_refl; reflexivity | ].
      intros j J; unfold elt; nia.
  - rewrite elt_S, IH by (auto; lia); exact V.
Qed.
Print Assumptions C117_constant.

(* ---------------------------------------------------------------- C118 *)

(* left_compound and right_compound with a destination stride of zero fold the
   source into the destination, from the first element on; they differ in the
   side on which the accumulated value stands. *)
Theorem C118_compound_reduces op m dst src ss count :
  (forall k, (k < count)%nat -> elt src ss k <> dst) ->
  left_compound op m dst 0 src ss count dst =
    fold_left op (map (fun k => m (elt src ss k)) (seq 0 count)) (m dst) /\
  right_compound op m dst 0 src ss count dst =
    fold_left (fun acc x => op x acc) (map (fun k => m (elt src ss k)) (seq 0 count)) (m dst).
Proof.
  unfold left_compound, right_compound.
  assert (ST : forall v k n s, (k < n)%nat -> (forall k, (k < n)%nat -> elt s ss k <> dst) ->
    store m dst v (elt s ss k) = m (elt s ss k)).
  { intros v k n s K H; unfold store; destruct (Z.eqb_spec (elt s ss k) dst); auto; destruct (H k K); auto. }
  revert m src ST; induction count as [ | count IH ]; intros m src ST H; [ cbn; auto | ].
  cbn [strided advance map nth seq fold_left]; rewrite elt_0, !Z.add_0_r.
  assert (H' : forall k, (k < count)%nat -> elt (src + ss) ss k <> dst).
  { intros k K; rewrite <- elt_S; apply H; lia. }
  assert (G : forall v, map (fun k => store m dst v (elt (src + ss) ss k)) (seq 0 count) =
    map (fun k => m (elt src ss k)) (seq 1 count)).
  { intros v; rewrite <- seq_shift, map_map; apply map_ext_in; intros k K; apply in_seq in K.
    rewrite <- elt_S; apply (ST v (Datatypes.S k) (Datatypes.S count) src); auto; lia. }
  assert (V : forall v, store m dst v dst = v) by (intros v; unfold store; rewrite Z.eqb_refl; reflexivity).
  assert (ST' : forall w v k n s, (k < n)%nat -> (forall k, (k < n)%nat -> elt s ss k <> dst) ->
    store (store m dst w) dst v (elt s ss k) = store m dst w (elt s ss k)).
  { intros w v k n s K HH; unfold store; destruct (Z.eqb_spec (elt s ss k) dst); auto; destruct (HH k K); auto. }
  split.
  - destruct (IH (store m dst (op (m dst) (m src))) (src + ss) (ST' _) H') as (I1 & _).
    rewrite I1, G, V; reflexivity.
  - destruct (IH (store m dst (op (m src) (m dst))) (src + ss) (ST' _) H') as (_ & I2).
    rewrite I2, G, V; reflexivity.
Qed.
Print Assumptions C118_compound_reduces.

(* With a destination stride they combine element by element. *)
Theorem C118_compound_elementwise op m dst ds src ss count :
  ds <> 0 -> (forall k j, (k < j < count)%nat -> elt dst ds k <> elt src ss j) ->
  forall k, (k < count)%nat ->
  left_compound op m dst ds src ss count (elt dst ds k) = op (m (elt dst ds k)) (m (elt src ss k)) /\
  right_compound op m dst ds src ss count (elt dst ds k) = op (m (elt src ss k)) (m (elt dst ds k)).
Proof.
  intros D H k K; unfold left_compound, right_compound.
  split; (rewrite strided_spec; [ reflexivity | reflexivity | | auto ]); split; unfold elts; intros i j IJ;
    try (unfold elt; nia); cbn [combine map fst snd In]; intros [E | [E | [] ] ];
    try (apply (H i j IJ); auto; fail); unfold elt in E; nia.
Qed.
Print Assumptions C118_compound_elementwise.

(* ---------------------------------------------------------------- C119 *)

(* the window at position i of the source is inside it *)
Definition inside (l : level) (i : Z) : bool := (0 <=? i) && (i + lv_size l <=? lv_n l).
Fixpoint all_inside (ls : list level) (idx : list Z) : bool :=
  match ls, idx with
  | l :: ls', k :: idx' => inside l (lv_off l + k) && all_inside ls' idx'
  | _, _ => true
  end.
Definition positions (ls : list level) (idx : list Z) : list Z := map (fun p => lv_off (fst p) + snd p) (combine ls idx).

(* neighborhood in any number of dimensions: one call for every index of the
   source, in row-major order, at the window that starts at the index plus the
   offset. The child is called exactly when the window is inside the source in
   every dimension, and the boundary child otherwise. *)
Theorem C119_neighborhood ls flag dst src :
  nb_run ls flag dst src =
  map (fun idx => (flag || negb (all_inside ls idx), dst + dot idx (map lv_ds ls),
                   src + dot (positions ls idx) (map lv_ss ls)))
      (indices (map lv_n ls)).
Proof.
  revert flag dst src; induction ls as [ | l ls IH ]; intros flag dst src.
  - cbn; rewrite !Z.add_0_r, orb_false_r; reflexivity.
  - cbn [nb_run]; rewrite !nb_while_ok; cbn [fst snd].
    set (off := lv_off l); set (n := lv_n l).
    set (c0 := count0 l); set (c1 := count1 l); set (c2 := count2 l).
    set (src0 := src + off * lv_ss l).
    set (k0 := Z.to_nat (c0 - off)); set (k1 := Z.to_nat (c1 - Z.max off c0));
      set (k2 := Z.to_nat (c2 - Z.max (Z.max off c0) c1)).
    assert (B0 : c0 = Z.min 0 (n + off)) by reflexivity.
    assert (B1 : c1 = Z.min (n + off) (n - lv_size l + 1)) by reflexivity.
    assert (B2 : c2 = n + off) by reflexivity.
    assert (SH : forall d s st a k, elt (elt d s a) st k = elt (elt d s a) st k) by reflexivity.
    assert (SEQ : seq 0 (Z.to_nat n) = seq 0 k0 ++ seq k0 k1 ++ seq (k0 + k1) k2).
    { rewrite <- !seq_app; f_equal; unfold k0, k1, k2; lia. }
    assert (FS : forall (F : nat -> list event) a k, flat_map F (seq a k) = flat_map (fun t => F (a + t)%nat) (seq 0 k)).
    { intros F a k; revert a; induction k as [ | k IK ]; intros a; cbn; auto.
      f_equal; [ f_equal; lia | ]; rewrite (IK (Datatypes.S a)), <- seq_shift, flat_map_map.
      apply flat_map_ext; intros t; f_equal; lia. }
    set (G := fun t : nat => nb_run ls (flag || negb (inside l (off + Z.of_nat t))) (elt dst (lv_ds l) t) (elt src0 (lv_ss l) t)).
    transitivity (flat_map G (seq 0 (Z.to_nat n))).
    + rewrite SEQ, !flat_map_app; f_equal; [ | f_equal ].
      * assert (E : forall t, In t (seq 0 k0) -> nb_run ls true (elt dst (lv_ds l) t) (elt src0 (lv_ss l) t) = G t).
        { intros t T; apply in_seq in T; unfold G; f_equal.
          unfold inside; destruct (Z.leb_spec 0 (off + Z.of_nat t)); [ lia | ].
          cbn; rewrite orb_true_r; reflexivity. }
        revert E; generalize (seq 0 k0) as q; induction q as [ | t q IQ ]; intros E; cbn; auto.
        rewrite E by (left; auto); f_equal; apply IQ; intros; apply E; right; auto.
      * rewrite (FS G k0 k1).
        assert (E : forall t, In t (seq 0 k1) ->
          nb_run ls flag (elt (elt dst (lv_ds l) k0) (lv_ds l) t) (elt (elt src0 (lv_ss l) k0) (lv_ss l) t) = G (k0 + t)%nat).
        { intros t T; apply in_seq in T; unfold G; f_equal; [ | unfold elt; lia | unfold elt; lia ].
          unfold inside; fold n; destruct (Z.leb_spec 0 (off + Z.of_nat (k0 + t))); [ | lia ].
          destruct (Z.leb_spec (off + Z.of_nat (k0 + t) + lv_size l) n); [ cbn; rewrite orb_false_r; reflexivity | lia ]. }
        revert E; generalize (seq 0 k1) as q; induction q as [ | t q IQ ]; intros E; cbn; auto.
        rewrite E by (left; auto); f_equal; apply IQ; intros; apply E; right; auto.
      * rewrite (FS G (k0 + k1)%nat k2).
        assert (E : forall t, In t (seq 0 k2) ->
          nb_run ls true (elt (elt (elt dst (lv_ds l) k0) (lv_ds l) k1) (lv_ds l) t)
            (elt (elt (elt src0 (lv_ss l) k0) (lv_ss l) k1) (lv_ss l) t) = G (k0 + k1 + t)%nat).
        { intros t T; apply in_seq in T; unfold G; f_equal; [ | unfold elt; lia | unfold elt; lia ].
          unfold inside; fold n.
          destruct (Z.leb_spec (off + Z.of_nat (k0 + k1 + t) + lv_size l) n).
          - destruct (Z.leb_spec 0 (off + Z.of_nat (k0 + k1 + t))); [ lia | ].
            cbn; rewrite orb_true_r; reflexivity.
          - rewrite andb_false_r, orb_true_r; reflexivity. }
        revert E; generalize (seq 0 k2) as q; induction q as [ | t q IQ ]; intros E; cbn; auto.
        rewrite E by (left; auto); f_equal; apply IQ; intros; apply E; right; auto.
    + cbn [map indices]; rewrite map_flat_map; apply flat_map_ext; intros t; unfold G.
      rewrite IH, map_map; apply map_ext; intros idx.
      unfold positions; cbn [combine map fst snd all_inside dot].
      fold off; rewrite negb_andb, orb_assoc; f_equal; [ f_equal; unfold elt; lia | unfold elt, src0; lia ].
Qed.
Print Assumptions C119_neighborhood.

(* In particular no window given to the child reads outside the source. *)
Theorem C119_child_windows_inside ls dst src d s : In (false, d, s) (nb_run ls false dst src) ->
  exists idx, Forall2 (fun i n => 0 <= i < n) idx (map lv_n ls) /\
    s = src + dot (positions ls idx) (map lv_ss ls) /\
    Forall2 (fun i l => 0 <= i /\ i + lv_size l <= lv_n l) (positions ls idx) ls.
Proof.
  rewrite C119_neighborhood; intros H; apply in_map_iff in H; destruct H as (idx & E & I).
  exists idx; injection E as E1 E2 E3.
  assert (F := proj1 (C116_every_index _ _) I).
  split; [ exact F | split; [ auto | ] ].
  apply negb_false_iff in E1; clear - E1 F.
  revert idx E1 F; induction ls as [ | l ls IH ]; intros idx E F; inversion F; subst; [ constructor | ].
  cbn [all_inside] in E; apply andb_prop in E; destruct E as (E1 & E2).
  unfold positions; cbn [combine map fst snd]; constructor; [ | apply IH; auto ].
  unfold inside in E1; apply andb_prop in E1; lia.
Qed.
Print Assumptions C119_child_windows_inside.

(* ---------------------------------------------------------------- C120 *)

Definition in_arg_buffer (n : nat) (a : carg) (x : Z) : Prop :=
  match c_conv a with Some (_, buf, bs) => exists k, (k < n)%nat /\ x = elt buf bs k | None => False end.
Definition value_of (m : mem) (a : carg) (k : nat) : Z :=
  match c_conv a with
  | Some (f, _, _) => f (m (elt (c_src a) (c_stride a) k))
  | None => m (elt (c_src a) (c_stride a) k)
  end.
(* buffers do not overlap each other, and hold distinct elements *)
Fixpoint buffers_apart (n : nat) (args : list carg) : Prop :=
  match args with
  | [] => True
  | a :: args' =>
      (forall x b, In b args' -> in_arg_buffer n a x -> ~ in_arg_buffer n b x) /\
      (match c_conv a with Some (_, _, bs) => bs <> 0 | None => True end) /\ buffers_apart n args'
  end.

Lemma fill_other n args : forall m x, (forall a, In a args -> ~ in_arg_buffer n a x) -> fill_buffers n m args x = m x.
Proof.
  unfold fill_buffers; induction args as [ | a args IH ]; intros m x H; cbn [fold_left]; auto.
  rewrite IH by (intros; apply H; right; auto).
  specialize (H a (or_introl eq_refl)); unfold in_arg_buffer in H.
  destruct (c_conv a) as [ [ [f buf] bs] | ]; auto.
  apply strided_other; intros k K E; apply H; exists k; auto.
Qed.

Lemma fill_value n args : forall m,
  buffers_apart n args ->
  (forall a b k, In a args -> In b args -> (k < n)%nat -> ~ in_arg_buffer n a (elt (c_src b) (c_stride b) k)) ->
  forall a f buf bs k, In a args -> c_conv a = Some (f, buf, bs) -> (k < n)%nat ->
  fill_buffers n m args (elt buf bs k) = f (m (elt (c_src a) (c_stride a) k)).
Proof.
  unfold fill_buffers; induction args as [ | a0 args IH ]; intros m BA S a f buf bs k A E K; [ destruct A | ].
  destruct BA as (B1 & B2 & B3).
  cbn [fold_left].
  assert (S' : forall a b k, In a args -> In b args -> (k < n)%nat -> ~ in_arg_buffer n a (elt (c_src b) (c_stride b) k)).
  { intros; apply S; [ right | right | ]; auto. }
  destruct A as [ -> | A ].
  - rewrite E; change (fill_buffers n (strided (unary f) n m buf bs [c_src a] [c_stride a]) args (elt buf bs k) =
      f (m (elt (c_src a) (c_stride a) k))).
    rewrite fill_other.
    + rewrite strided_spec; auto.
      split.
      * intros i j IJ [Q | [] ]; cbn in Q.
        apply (S a a j (or_introl eq_refl) (or_introl eq_refl)); [ lia | ].
        unfold in_arg_buffer; rewrite E; exists i; split; [ lia | auto ].
      * rewrite E in B2; intros i j IJ; unfold elt; nia.
    + intros b Bb; apply B1; auto; unfold in_arg_buffer; rewrite E; exists k; auto.
  - rewrite (IH _ B3 S' a f buf bs k A E K); f_equal.
    destruct (c_conv a0) as [ [ [f0 buf0] bs0] | ] eqn:E0; auto.
    apply strided_other; intros j J Q.
    apply (S a0 a k (or_introl eq_refl) (or_intror A) K); unfold in_arg_buffer; rewrite E0; exists j; auto.
Qed.

Lemma start_elts n (m : mem) args k : (k < n)%nat ->
  (forall a f buf bs, In a args -> c_conv a = Some (f, buf, bs) -> m (elt buf bs k) = f (m (elt (c_src a) (c_stride a) k))) ->
  map m (elts (map buf_start args) (map buf_stride args) k) = map (fun a => value_of m a k) args.
Proof.
  intros K; induction args as [ | a args IH ]; intros H; [ reflexivity | ].
  unfold elts; cbn [map combine fst snd]; f_equal; [ | apply IH; intros; eapply H; eauto; right; auto ].
  specialize (H a); unfold buf_start, buf_stride, value_of; destruct (c_conv a) as [ [ [f buf] bs] | ]; auto.
  apply (H f buf bs); [ left | ]; auto.
Qed.

(* convert: for up to 128 elements the result is the function of the converted
   arguments. *)
Theorem C120_convert_partial op m dst ds args count : (count <= 128)%nat ->
  buffers_apart count args ->
  (forall a b k, In a args -> In b args -> (k < count)%nat -> ~ in_arg_buffer count a (elt (c_src b) (c_stride b) k)) ->
  (forall a k, In a args -> (k < count)%nat -> ~ in_arg_buffer count a (elt dst ds k)) ->
  ds <> 0 ->
  (forall a k j, In a args -> (k < j < count)%nat -> elt dst ds k <> elt (c_src a) (c_stride a) j) ->
  exists m', convert_strided op m dst ds args count = Ok m' /\
    (forall k, (k < count)%nat -> m' (elt dst ds k) = op (map (fun a => value_of m a k) args)) /\
    (forall x, (forall a, In a args -> ~ in_arg_buffer count a x) -> (forall k, (k < count)%nat -> x <> elt dst ds k) ->
       m' x = m x).
Proof.
  intros C BA SB DB D H; unfold convert_strided.
  destruct count as [ | c ]; [ exists m; split; [ reflexivity | split; auto; intros; lia ] | ].
  cbn [convert_loop].
  replace (Nat.min (Datatypes.S c) chunk_max) with (Datatypes.S c) by (unfold chunk_max; lia).
  set (n := Datatypes.S c) in *; rewrite Nat.sub_diag.
  set (m1 := fill_buffers n m args); set (m2 := strided op n m1 dst ds (map buf_start args) (map buf_stride args)).
  exists (fill_buffers n m2 args); split; [ destruct c; reflexivity | ].
  assert (IO : in_order n dst ds (map buf_start args) (map buf_stride args)).
  { split; [ | intros i j IJ; unfold elt; nia ].
    intros i j IJ Q; unfold elts in Q; apply in_map_iff in Q; destruct Q as (p & Q & P).
    assert (exists a, In a args /\ p = (buf_start a, buf_stride a)) as (a & A & ->).
    { clear - P; induction args as [ | a args IH ]; [ destruct P | ].
      cbn in P; destruct P as [ <- | P ]; [ exists a; split; [ left | ]; auto | ].
      destruct (IH P) as (b & B & E); exists b; split; [ right | ]; auto. }
    cbn [fst snd] in Q; unfold buf_start, buf_stride in Q.
    destruct (c_conv a) as [ [ [f buf] bs] | ] eqn:E.
    - apply (DB a i A); [ lia | ]; unfold in_arg_buffer; rewrite E; exists j; split; [ lia | auto ].
    - apply (H a i j A IJ); auto. }
  split.
  - intros k K; rewrite fill_other by (intros a A; apply DB; auto).
    unfold m2; rewrite strided_spec by (rewrite ?map_length; auto).
    f_equal; rewrite (start_elts n m1 args k K).
    + apply map_ext_in; intros a A; unfold value_of.
      assert (V : m1 (elt (c_src a) (c_stride a) k) = m (elt (c_src a) (c_stride a) k)).
      { apply fill_other; intros b B; apply SB; auto. }
      destruct (c_conv a) as [ [ [f buf] bs] | ]; rewrite V; reflexivity.
    + intros a f buf bs A E; unfold m1.
      rewrite (fill_value n args m BA SB a f buf bs k A E K); f_equal.
      symmetry; apply fill_other; intros b B; apply SB; auto.
  - intros x NB ND; rewrite fill_other by auto.
    unfold m2; rewrite strided_other by auto.
    apply fill_other; auto.
Qed.
Print Assumptions C120_convert_partial.

(* Beyond 128 elements the claim fails for every input: no destination element
   after the first 128 is written. *)
Theorem C120_convert_refuted op m dst ds args count : 
  exists m', convert_strided op m dst ds args count = Ok m' /\
    forall x, (forall a, In a args -> ~ in_arg_buffer 128 a x) -> (forall k, (k < 128)%nat -> x <> elt dst ds k) ->
    m' x = m x.
Proof.
  unfold convert_strided.
  assert (G : forall fuel m bsrc count, (count <= fuel)%nat ->
    exists m', convert_loop fuel op m dst ds args bsrc count = Ok m' /\
    forall x, (forall a, In a args -> ~ in_arg_buffer 128 a x) -> (forall k, (k < 128)%nat -> x <> elt dst ds k) ->
    m' x = m x); [ | apply G; lia ].
  induction fuel as [ | fuel IH ]; intros m0 bsrc n F.
  - destruct n; [ exists m0; split; auto | lia ].
  - destruct n as [ | n ]; [ exists m0; split; auto | ]; cbn [convert_loop].
    set (c := Nat.min (Datatypes.S n) chunk_max).
    assert (C : (1 <= c <= 128)%nat) by (unfold c, chunk_max; lia).
    edestruct IH as (m' & E & Q); [ | exists m'; split; [ exact E | ] ]; [ lia | ].
    intros x X1 X2; rewrite Q by auto.
    assert (X3 : forall a, In a args -> ~ in_arg_buffer c a x).
    { intros a A; specialize (X1 a A); unfold in_arg_buffer in *.
      destruct (c_conv a) as [ [ [f buf] bs] | ]; auto; intros (k & K & EE); apply X1; exists k; split; [ lia | auto ]. }
    rewrite fill_other by auto; rewrite strided_other by (intros; apply X2; lia).
    apply fill_other; auto.
Qed.
Print Assumptions C120_convert_refuted.

(* ------------------------------------------------ the hypotheses are met *)
Example outer_2_1 : outer_entry [[2; 3]; []; [4]] = Ok ([0; 0; 2]%nat, [2; 3; 4]).
Proof. reflexivity. Qed.
Example outer_run_2 : outer_run (combine [0; 1]%nat [8; 4]) (combine [2; 2] [16; 8]) 0 [100; 200] =
  [(0, [100; 200]); (8, [100; 204]); (16, [108; 200]); (24, [108; 204])].
Proof. reflexivity. Qed.
Example compose_200 : exists m', compose_strided (fun x => x + 1) (fun x => 2 * x) 10000 8 (fun a => a) 0 8 0 8 200 = Ok m' /\
  m' (elt 0 8 150) = 2402.
Proof.
  destruct (C117_compose (fun x => x + 1) (fun x => 2 * x) 10000 8 (fun a => a) 0 8 0 8 200) as (m' & E & V & _).
  - lia.
  - left; lia.
  - intros k K; unfold apart_from_buffer, elt; split; intros; lia.
  - intros k j K; unfold elt; lia.
  - exists m'; split; [ exact E | rewrite V by lia; reflexivity ].
Qed.
Example nb_1d : nb_run [Level 8 4 4 3 (-1)] false 0 100 =
  [(true, 0, 96); (false, 8, 100); (false, 16, 104); (true, 24, 108)].
Proof. reflexivity. Qed.
Example compound_fold : left_compound Z.sub (fun a => a) 100 0 1 1 3 100 = 94 /\
  right_compound Z.sub (fun a => a) 100 0 1 1 3 100 = -98.
Proof. split; reflexivity. Qed.
Example convert_129 : exists m', convert_strided (fun l => nth 0 l 0) (fun a => a) 0 8
    [CArg 20000 8 (Some ((fun x => x + 1), 40000, 8))] 129 = Ok m' /\ m' (elt 0 8 128) = 1024 /\ m' (elt 0 8 0) = 20001.
Proof. eexists; split; [ reflexivity | split; vm_compute; reflexivity ]. Qed.
Example convert_hyps : let args := [CArg 20000 8 (Some ((fun x => x + 1), 40000, 8)); CArg 0 8 None] in
  buffers_apart 100 args /\
  (forall a b k, In a args -> In b args -> (k < 100)%nat -> ~ in_arg_buffer 100 a (elt (c_src b) (c_stride b) k)) /\
  (forall a k, In a args -> (k < 100)%nat -> ~ in_arg_buffer 100 a (elt 0 8 k)).
Proof.
  cbn [buffers_apart c_conv In]; split; [ | split ].
  - split; [ | split; [ lia | split; auto ] ].
    intros x b [ <- | [] ] _; unfold in_arg_buffer; cbn [c_conv]; auto.
  - intros a b k [ <- | [ <- | [] ] ] [ <- | [ <- | [] ] ] K;
      unfold in_arg_buffer; cbn [c_conv c_src c_stride]; auto; intros (j & J & E); unfold elt in E; lia.
  - intros a k [ <- | [ <- | [] ] ] K;
      unfold in_arg_buffer; cbn [c_conv c_src c_stride]; auto; intros (j & J & E); unfold elt in E; lia.
Qed.
