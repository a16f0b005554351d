From Coq Require Import Sorting.Permutation Sorting.Sorted.
From Verif Require Import Base ShapeToolsModel ShapeToolsSpec ShapeToolsProofs KeepModel KeepSpec.
Local Open Scope Z_scope.

(* ------------------------------------------------------- packed layouts *)

Definition sz (sizes : list Z) (a : nat) : Z := nth a sizes 0.
Definition packed (perm : list nat) (sizes : list Z) (el : Z) (out : list Z) : Prop :=
  List.length out = List.length sizes /\
  forall k, (k < List.length perm)%nat ->
    let a := nth k perm 0%nat in
    1 < sz sizes a -> nth a out 0 = el * prodZ (map (sz sizes) (firstn k perm)).

Fixpoint sumZ (l : list Z) : Z := match l with [] => 0 | x :: l' => x + sumZ l' end.
Lemma sum_perm l l' : Permutation l l' -> sumZ l = sumZ l'.
Proof. induction 1; cbn; lia. Qed.
Lemma prod_perm l l' : Permutation l l' -> prodZ l = prodZ l'.
Proof. induction 1; cbn [prodZ]; nia. Qed.
Lemma prodZ_app l l' : prodZ (l ++ l') = prodZ l * prodZ l'.
Proof. induction l as [ | x l IH ]; cbn [app prodZ]; [ lia | rewrite IH; lia ]. Qed.

Lemma displacement_sum idx : forall st, List.length st = List.length idx ->
  displacement idx st = sumZ (map (fun a => nth a idx 0 * nth a st 0) (seq 0 (List.length idx))).
Proof.
  induction idx as [ | i idx IH ]; intros [ | s st ] L; cbn [List.length] in L; try lia; [ reflexivity | ].
  cbn [displacement List.length seq map sumZ nth]; rewrite IH by lia; f_equal; f_equal.
  rewrite <- seq_shift, map_map; reflexivity.
Qed.

Fixpoint digits (l : list (Z * Z)) : Z := match l with [] => 0 | (i, n) :: l' => i + n * digits l' end.
Lemma digits_range l : Forall (fun p => 0 <= fst p < snd p) l -> 0 <= digits l < prodZ (map snd l).
Proof.
  induction 1 as [ | (i, n) l H F IH ]; cbn [digits map prodZ snd fst] in *; [ lia | nia ].
Qed.
Lemma digits_inj l : forall l', map snd l = map snd l' ->
  Forall (fun p => 0 <= fst p < snd p) l -> Forall (fun p => 0 <= fst p < snd p) l' ->
  digits l = digits l' -> map fst l = map fst l'.
Proof.
  induction l as [ | (i, n) l IH ]; intros [ | (i', n') l' ] E F F' D; try discriminate; [ reflexivity | ].
  cbn [map snd fst digits] in *; injection E as <- E.
  inversion F as [ | ? ? F1 F2 ]; inversion F' as [ | ? ? F1' F2' ]; subst; cbn [fst snd] in *.
  assert (digits l = digits l') by nia.
  f_equal; [ nia | apply IH; auto ].
Qed.

Lemma nth_box sizes idx : in_box sizes idx -> forall a, (a < List.length sizes)%nat -> 0 <= nth a idx 0 < sz sizes a.
Proof.
  unfold in_box, sz; induction 1 as [ | n i sizes idx H F IH ]; intros a A; cbn [List.length] in A; [ lia | ].
  destruct a; cbn [nth]; [ auto | apply IH; lia ].
Qed.

Lemma sum_digits (f : nat -> Z) (sizes out : list Z) : forall perm c,
  (forall k, (k < List.length perm)%nat -> let a := nth k perm 0%nat in
     0 <= f a < sz sizes a /\ (1 < sz sizes a -> nth a out 0 = c * prodZ (map (sz sizes) (firstn k perm)))) ->
  sumZ (map (fun a => f a * nth a out 0) perm) = c * digits (map (fun a => (f a, sz sizes a)) perm).
Proof.
  induction perm as [ | a perm IH ]; intros c H; cbn [map sumZ digits]; [ lia | ].
  rewrite (IH (c * sz sizes a)).
  - destruct (H 0%nat ltac:(cbn; lia)) as (B & V); cbn [nth firstn map prodZ] in *.
    destruct (Z.eq_dec (sz sizes a) 1) as [ E | E ].
    + assert (Z0 : f a = 0) by lia; rewrite Z0; lia.
    + rewrite V by lia; nia.
  - intros k K; destruct (H (Datatypes.S k) ltac:(cbn; lia)) as (B & V); cbn [nth firstn map prodZ] in *.
    split; [ auto | intros X; rewrite V by auto; lia ].
Qed.

Lemma map_sz sizes : map (sz sizes) (seq 0 (List.length sizes)) = sizes.
Proof.
  unfold sz; induction sizes as [ | n sizes IH ]; [ reflexivity | ].
  cbn [List.length seq map nth]; rewrite <- seq_shift, map_map; cbn [nth]; rewrite IH; reflexivity.
Qed.

Lemma packed_fills perm sizes el out :
  0 < el -> axis_permutation (List.length sizes) perm -> packed perm sizes el out -> fills sizes out el.
Proof.
  intros EL P (L & K); unfold axis_permutation in P.
  assert (D : forall idx, in_box sizes idx -> displacement idx out = el * digits (map (fun a => (nth a idx 0, sz sizes a)) perm)).
  { intros idx B.
    assert (LI : List.length idx = List.length sizes) by (symmetry; eapply Forall2_length; exact B).
    rewrite displacement_sum by lia; rewrite LI.
    rewrite <- (sum_perm _ _ (Permutation_map _ P)).
    apply sum_digits; intros k KK; split; [ | apply K; auto ].
    apply nth_box; auto.
    assert (Q : In (nth k perm 0%nat) (seq 0 (List.length sizes))) by (eapply Permutation_in; [ exact P | apply nth_In; auto ]).
    apply in_seq in Q; lia. }
  assert (F : forall idx, in_box sizes idx -> Forall (fun p => 0 <= fst p < snd p) (map (fun a => (nth a idx 0, sz sizes a)) perm)).
  { intros idx B; apply Forall_forall; intros p Q; apply in_map_iff in Q; destruct Q as (a & <- & A); cbn [fst snd].
    apply nth_box; auto; apply (Permutation_in _ P) in A; apply in_seq in A; lia. }
  assert (S : forall idx, map snd (map (fun a => (nth a idx 0, sz sizes a)) perm) = map (sz sizes) perm).
  { intros; rewrite map_map; reflexivity. }
  split.
  - intros idx B; exists (digits (map (fun a => (nth a idx 0, sz sizes a)) perm)); split.
    + pose proof (digits_range _ (F idx B)) as R; rewrite S in R.
      rewrite (prod_perm _ _ (Permutation_map (sz sizes) P)), map_sz in R; exact R.
    + rewrite D by auto; lia.
  - intros idx idx' B B' E; rewrite !D in E by auto.
    assert (E' : digits (map (fun a => (nth a idx 0, sz sizes a)) perm) = digits (map (fun a => (nth a idx' 0, sz sizes a)) perm)) by nia.
    apply digits_inj in E'; auto; [ | rewrite !S; reflexivity ].
    rewrite !map_map in E'; cbn [fst] in E'.
    assert (LI : List.length idx = List.length sizes) by (symmetry; eapply Forall2_length; exact B).
    assert (LI' : List.length idx' = List.length sizes) by (symmetry; eapply Forall2_length; exact B').
    apply (nth_ext _ _ 0 0); [ lia | ]; intros a A.
    assert (I : In a perm) by (apply (Permutation_in _ (Permutation_sym P)); apply in_seq; lia).
    apply (proj1 map_ext_in_iff E' a I).
Qed.

(* ------------------------------------------------------- default strides *)

Lemma fold_prod l el : fold_right Z.mul el l = el * prodZ l.
Proof. induction l as [ | x l IH ]; cbn [fold_right prodZ]; [ lia | rewrite IH; lia ]. Qed.

Lemma default_length sizes el : List.length (default_strides sizes el) = List.length sizes.
Proof. induction sizes; cbn [default_strides List.length]; auto. Qed.

Lemma default_nth sizes el : forall a, (a < List.length sizes)%nat ->
  nth a (default_strides sizes el) 0 = el * prodZ (skipn (Datatypes.S a) sizes).
Proof.
  induction sizes as [ | n sizes IH ]; intros a A; cbn [List.length] in A; [ lia | ].
  destruct a; cbn [default_strides nth skipn]; [ apply fold_prod | apply IH; lia ].
Qed.

Lemma default_last sizes el : sizes <> [] -> nth (List.length sizes - 1) (default_strides sizes el) 0 = el.
Proof.
  intros N; rewrite default_nth.
  - rewrite skipn_all2; [ cbn; lia | ]; destruct sizes; [ congruence | cbn; lia ].
  - destruct sizes; [ congruence | cbn; lia ].
Qed.

Lemma firstn_rev_seq n k : (k <= n)%nat -> firstn k (rev (seq 0 n)) = rev (seq (n - k) k).
Proof.
  intros K; rewrite firstn_rev, seq_length; f_equal.
  replace (seq 0 n) with (seq 0 (n - k) ++ seq (n - k) k).
  - rewrite skipn_app, seq_length, skipn_all2 by (rewrite seq_length; lia).
    rewrite Nat.sub_diag; reflexivity.
  - change (seq (n - k) k) with (seq (0 + (n - k)) k); rewrite <- seq_app; f_equal; lia.
Qed.

Lemma map_sz_skipn sizes : forall a, map (sz sizes) (seq a (List.length sizes - a)) = skipn a sizes.
Proof.
  induction sizes as [ | n sizes IH ]; intros a; [ destruct a; reflexivity | ].
  destruct a.
  - cbn [skipn List.length]; rewrite Nat.sub_0_r; apply (map_sz (n :: sizes)).
  - cbn [skipn List.length]; rewrite <- (IH a); rewrite <- seq_shift, map_map; cbn; reflexivity.
Qed.

Lemma default_packed sizes el : packed (reversal (List.length sizes)) sizes el (default_strides sizes el).
Proof.
  split; [ apply default_length | ]; unfold reversal; intros k K; rewrite rev_length, seq_length in K.
  cbn zeta; intros _.
  rewrite rev_nth, seq_length, seq_nth by (rewrite ?seq_length; lia); cbn [Nat.add].
  rewrite default_nth by lia; f_equal.
  rewrite firstn_rev_seq by lia; rewrite map_rev.
  rewrite <- (prod_perm _ _ (Permutation_rev (map (sz sizes) (seq (List.length sizes - k) k)))).
  f_equal; replace (Datatypes.S (List.length sizes - Datatypes.S k)) with (List.length sizes - k)%nat by lia.
  rewrite <- map_sz_skipn; f_equal; f_equal; lia.
Qed.

(* --------------------------------------------------------- assign_strides *)

Lemma assign_length axes sizes : forall s out, List.length (assign_strides axes sizes s out) = List.length out.
Proof. induction axes as [ | a axes IH ]; intros; cbn [assign_strides]; [ auto | rewrite IH; apply update_length ]. Qed.

Lemma assign_other axes sizes : forall s out a, ~ In a axes -> (forall b, In b axes -> (b < List.length out)%nat) ->
  nth a (assign_strides axes sizes s out) 0 = nth a out 0.
Proof.
  induction axes as [ | b axes IH ]; intros s out a N B; cbn [assign_strides]; auto.
  rewrite IH.
  - rewrite update_nth by (apply B; left; auto).
    destruct (Nat.eqb_spec a b); [ subst; destruct N; left; auto | auto ].
  - intros X; apply N; right; auto.
  - intros c C; rewrite update_length; apply B; right; auto.
Qed.

Lemma assign_nth axes sizes : forall s out, NoDup axes -> (forall b, In b axes -> (b < List.length out)%nat) ->
  forall k, (k < List.length axes)%nat ->
  nth (nth k axes 0%nat) (assign_strides axes sizes s out) 0 =
  if 1 <? sz sizes (nth k axes 0%nat) then s * prodZ (map (sz sizes) (firstn k axes)) else 0.
Proof.
  induction axes as [ | b axes IH ]; intros s out ND B k K; cbn [List.length] in K; [ lia | ].
  inversion ND as [ | ? ? NI ND' ]; subst; cbn [assign_strides].
  assert (B' : forall (v : Z) c, In c axes -> (c < List.length (update b v out))%nat).
  { intros v c C; rewrite update_length; apply B; right; auto. }
  destruct k as [ | k ]; cbn [nth firstn map prodZ].
  - rewrite assign_other by auto; rewrite update_nth by (apply B; left; auto).
    rewrite Nat.eqb_refl; unfold sz; destruct (1 <? nth b sizes 0); lia.
  - rewrite IH by (auto; lia); destruct (1 <? sz sizes (nth k axes 0%nat)); [ unfold sz; lia | auto ].
Qed.

Lemma assign_packed perm sizes el out :
  axis_permutation (List.length sizes) perm -> List.length out = List.length sizes ->
  packed perm sizes el (assign_strides perm sizes el out).
Proof.
  intros P L; split; [ rewrite assign_length; auto | ]; intros k K; cbn zeta; intros N.
  rewrite assign_nth; auto.
  - destruct (Z.ltb_spec 1 (sz sizes (nth k perm 0%nat))); [ reflexivity | lia ].
  - apply (Permutation_NoDup (Permutation_sym P)), seq_NoDup.
  - intros b B; apply (Permutation_in _ P) in B; apply in_seq in B; lia.
Qed.

(* --------------------------------------------------------- the loop *)

Lemma read_length n : forall t p c l last broke c', read_strides n t p c = (l, last, broke, c') ->
  (List.length l <= n)%nat /\ (broke = false -> List.length l = n).
Proof.
  induction n as [ | n IH ]; intros t p c l last broke c'; cbn [read_strides].
  - intros E; injection E as <- <- <- <-; cbn; auto.
  - destruct t; try (intros E; injection E as <- <- <- <-; cbn; split; [ lia | discriminate ]).
    destruct (read_strides n t _ _) as [ [ [ l0 last0 ] broke0 ] c0 ] eqn:E0.
    intros E; injection E as <- <- <- <-; apply IH in E0; cbn [List.length]; split; [ lia | ].
    intros; f_equal; tauto.
Qed.

Lemma classify_no_throw t : (exists a, classify t = Ok a) /\ (forall c, (0 < sndim t)%nat \/ t <> SScalar -> exists a, classify_strided t c = Ok a).
Proof.
  induction t as [ | s e (IH1 & IH2) | e (IH1 & IH2) | e (IH1 & IH2) ]; cbn [classify classify_strided sndim].
  - split; [ eauto | ]; intros c [ H | H ]; [ lia | congruence ].
  - split.
    + destruct (Nat.ltb_spec 0 (sndim e)); [ destruct (s =? 0); auto; apply IH2; auto | eauto ].
    + intros c _; destruct (Z.abs s =? 0).
      * destruct (Nat.ltb_spec 0 (sndim e)); [ apply IH2; auto | eauto ].
      * destruct (Nat.ltb_spec 0 (sndim e)) as [ H | H ].
        -- destruct (IH2 c (or_introl H)) as (a & ->); cbn [bind]; destruct (Z.abs s <? c); eauto.
        -- cbn [bind]; destruct (Z.abs s <? c); eauto.
  - destruct IH1 as (a & E); rewrite E; destruct (1 <? sndim e)%nat; cbn [bind]; split; eauto.
  - destruct IH1 as (a & E); rewrite E; destruct (1 <? sndim e)%nat; cbn [bind]; split; eauto.
Qed.

Lemma start_ok fuel sizes el st : 0 < el -> sizes <> [] -> st = default_strides sizes el ->
  start_stride fuel st (List.length sizes) = Ok el.
Proof.
  intros EL N ->; unfold start_stride; rewrite default_last by auto.
  destruct (Z.eqb_spec el 0); [ lia | reflexivity ].
Qed.

(* F-order of the dimensions from np on *)
Lemma partial_packed sizes el np : (np <= List.length sizes)%nat ->
  let n := List.length sizes in
  packed (seq np (n - np) ++ reversal np) sizes el (assign_strides (seq np (n - np)) sizes el (default_strides sizes el)).
Proof.
  intros NP n; split; [ rewrite assign_length; apply default_length | ].
  assert (AX : forall b, In b (seq np (n - np)) -> (b < List.length (default_strides sizes el))%nat).
  { intros b B; apply in_seq in B; rewrite default_length; unfold n in *; lia. }
  intros k K; cbn zeta; rewrite app_length, seq_length in K; unfold reversal in *; rewrite rev_length, seq_length in K.
  destruct (Nat.lt_ge_cases k (n - np)) as [ H | H ].
  - rewrite !app_nth1 by (rewrite seq_length; auto).
    rewrite firstn_app, seq_length; replace (k - (n - np))%nat with 0%nat by lia; cbn [firstn]; rewrite app_nil_r.
    intros N; rewrite assign_nth; [ | apply seq_NoDup | auto | rewrite seq_length; auto ].
    destruct (Z.ltb_spec 1 (sz sizes (nth k (seq np (n - np)) 0%nat))); [ reflexivity | lia ].
  - rewrite !app_nth2 by (rewrite seq_length; auto); rewrite seq_length.
    rewrite firstn_app, seq_length, firstn_all2 by (rewrite seq_length; auto).
    set (j := (k - (n - np))%nat) in *; assert (J : (j < np)%nat) by lia; intros _.
    rewrite rev_nth, seq_length, seq_nth by (rewrite ?seq_length; lia); cbn [Nat.add].
    rewrite assign_other; [ | rewrite in_seq; lia | auto ].
    rewrite default_nth by lia; f_equal.
    rewrite map_app, prodZ_app, firstn_rev_seq by lia; rewrite map_rev.
    rewrite <- (prod_perm _ _ (Permutation_rev (map (sz sizes) (seq (np - j) j)))).
    rewrite Z.mul_comm, <- prodZ_app, <- map_app.
    replace (seq (np - j) j ++ seq np (n - np)) with (seq (np - j) (n - (np - j))).
    + rewrite map_sz_skipn; f_equal; f_equal; lia.
    + replace (n - (np - j))%nat with (j + (n - np))%nat by lia; rewrite seq_app; f_equal; f_equal; lia.
Qed.

Lemma partial_perm n np : (np <= n)%nat -> axis_permutation n (seq np (n - np) ++ reversal np).
Proof.
  intros NP; unfold axis_permutation, reversal.
  rewrite Permutation_app_comm, <- Permutation_rev.
  change (seq np (n - np)) with (seq (0 + np) (n - np)); rewrite <- seq_app.
  replace (np + (n - np))%nat with n by lia; auto.
Qed.

Lemma outer_packed perm n0 sizes el out : axis_permutation (List.length sizes) perm -> packed perm sizes el out ->
  axis_permutation (Datatypes.S (List.length sizes)) (map Datatypes.S perm ++ [0%nat]) /\
  packed (map Datatypes.S perm ++ [0%nat]) (n0 :: sizes) el (el * prodZ sizes :: out).
Proof.
  intros P (L & K); unfold axis_permutation in *; split.
  - cbn [seq]; rewrite <- seq_shift, Permutation_app_comm; cbn [app]; constructor; apply Permutation_map; auto.
  - split; [ cbn; f_equal; auto | ]; intros k KK; cbn zeta; rewrite app_length, map_length in KK; cbn [List.length] in KK.
    assert (MS : forall l, map (sz (n0 :: sizes)) (map Datatypes.S l) = map (sz sizes) l).
    { intros; rewrite map_map; reflexivity. }
    rewrite firstn_app, map_length.
    destruct (Nat.eq_dec k (List.length perm)) as [ -> | NE ].
    + rewrite app_nth2, map_length, Nat.sub_diag by (rewrite map_length; lia); cbn [nth firstn]; intros _.
      rewrite app_nil_r, firstn_all2 by (rewrite map_length; lia); rewrite MS.
      rewrite (prod_perm _ _ (Permutation_map (sz sizes) P)), map_sz; reflexivity.
    + rewrite app_nth1 by (rewrite map_length; lia).
      rewrite (nth_indep _ 0%nat 1%nat) by (rewrite map_length; lia); rewrite (map_nth Datatypes.S perm 0%nat); cbn [nth].
      replace (k - List.length perm)%nat with 0%nat by lia; cbn [firstn]; rewrite app_nil_r, firstn_map, MS.
      apply K; lia.
Qed.

Lemma reorder_step fuel sort sizes s0 strides' src : strides' <> [] ->
  reorder fuel sort sizes (s0 :: strides') src =
      let strides := s0 :: strides' in
      let n := List.length strides in
      if (sndim src <? n)%nat then
        do r <- reorder fuel sort (tl sizes) strides' src; Ok (s0 :: r)
      else
        match read_strides n src 0 true with
        | (l, last, broke, c_order) =>
            let np := if broke then Datatypes.S (List.length l) else n in
            do st1 <-
              (if c_order then Ok strides
               else if broke then UB
               else do s <- start_stride fuel strides n;
                    Ok (assign_strides (strides_to_axis_perm sort l) sizes s strides));
            if (np <? n)%nat then
              match last with
              | SScalar => Ok st1
              | _ =>
                  do a <- classify last;
                  match a with
                  | AF =>
                      do s <- start_stride fuel st1 n;
                      Ok (assign_strides (seq np (n - np)) sizes s st1)
                  | _ => Ok st1
                  end
              end
            else Ok st1
        end.
Proof. destruct strides'; [ congruence | reflexivity ]. Qed.

Lemma reorder_packed fuel sort src el : std_sort_contract sort -> 0 < el -> forall sizes,
  match reorder fuel sort sizes (default_strides sizes el) src with
  | Ok out => exists perm, axis_permutation (List.length sizes) perm /\ packed perm sizes el out
  | UB => True
  | _ => False
  end.
Proof.
  intros SC EL; induction sizes as [ | n0 sizes IH ].
  - exists []; split; [ apply Permutation_refl | split; [ reflexivity | cbn; lia ] ].
  - destruct sizes as [ | n1 sizes' ].
    { exists (reversal 1); split; [ apply reversal_perm | apply (default_packed [n0] el) ]. }
    set (sizes := n1 :: sizes') in *.
    change (default_strides (n0 :: sizes) el) with (fold_right Z.mul el sizes :: default_strides sizes el).
    rewrite reorder_step by (unfold sizes; cbn [default_strides]; discriminate); cbv zeta.
    set (all := fold_right Z.mul el sizes :: default_strides sizes el).
    assert (ALL : all = default_strides (n0 :: sizes) el) by reflexivity.
    assert (LN : List.length all = List.length (n0 :: sizes)) by (rewrite ALL; apply default_length).
    rewrite LN; set (n := List.length (n0 :: sizes)) in *.
    destruct (sndim src <? n)%nat.
    + cbn [tl]; destruct (reorder fuel sort sizes (default_strides sizes el) src) as [ r | s | | ]; cbn [bind]; auto.
      destruct IH as (perm & P & K); rewrite fold_prod.
      destruct (outer_packed perm n0 sizes el r P K); eauto.
    + destruct (read_strides n src 0 true) as [ [ [ l last ] broke ] c ] eqn:E.
      destruct (read_length _ _ _ _ _ _ _ _ E) as (L1 & L2).
      assert (ST : start_stride fuel all n = Ok el) by (rewrite ALL; apply (start_ok fuel (n0 :: sizes)); auto; discriminate).
      assert (DP : exists perm, axis_permutation n perm /\ packed perm (n0 :: sizes) el all).
      { exists (reversal n); split; [ apply reversal_perm | rewrite ALL; apply default_packed ]. }
      destruct c; [ cbn [bind] | destruct broke; [ exact I | ] ].
      * destruct (Nat.ltb_spec (if broke then Datatypes.S (List.length l) else n) n) as [ NP | NP ]; [ | exact DP ].
        set (np := if broke then Datatypes.S (List.length l) else n) in *.
        destruct (classify_no_throw last) as ((a & CA) & _); rewrite CA; cbn [bind].
        destruct last as [ | s t | t | t ]; [ exact DP | | | ]; destruct a; try exact DP.
        all: rewrite ST; cbn [bind]; exists (seq np (n - np) ++ reversal np); split; [ apply partial_perm; lia | rewrite ALL; apply partial_packed; unfold n in *; lia ].
      * rewrite ST; cbn [bind].
        rewrite Nat.ltb_irrefl.
        exists (strides_to_axis_perm sort l).
        assert (P : axis_permutation n (strides_to_axis_perm sort l)).
        { rewrite <- (L2 eq_refl) at 1; apply strides_to_axis_perm_perm; auto. }
        split; [ exact P | apply assign_packed; [ exact P | exact LN ] ].
Qed.
