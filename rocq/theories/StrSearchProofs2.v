From Verif Require Import Base StrSearchModel StrSearchSpec StrSearchProofs.

(** The specification relations are functional. *)
Lemma occurs_here a p s : occurs_at (a ++ p ++ s) p (Z.of_nat (List.length a)).
Proof. exists a, s. auto. Qed.
Lemma first_unique p a s a' s' : first_occurrence p a s -> first_occurrence p a' s' -> a ++ p ++ s = a' ++ p ++ s' -> a = a' /\ s = s'.
Proof.
  intros F F' E. assert (L : List.length a = List.length a').
  { assert (H1 := F (Z.of_nat (List.length a'))). rewrite E in H1. specialize (H1 (occurs_here _ _ _)).
    assert (H2 := F' (Z.of_nat (List.length a))). rewrite <- E in H2. specialize (H2 (occurs_here _ _ _)). lia. }
  assert (Ea : a = a').
  { apply (f_equal (firstn (List.length a))) in E. rewrite firstn_app, firstn_all, Nat.sub_diag in E. cbn [firstn] in E. rewrite L, firstn_app, firstn_all, Nat.sub_diag in E.
    cbn [firstn] in E. now rewrite !app_nil_r in E. }
  subst a'. split; auto. apply app_inv_head in E. now apply app_inv_head in E.
Qed.
Lemma counts_det p s c : counts p s c -> forall c', counts p s c' -> c = c'.
Proof.
  induction 1 as [s N|a s c F C IH]; intros c' C'.
  - inversion C' as [|a s' c2 F' C2 E]; auto. subst s. exfalso. apply (N _ (occurs_here a p s')).
  - inversion C' as [s2 N E|a' s' c2 F' C2 E]; subst; [exfalso; apply (N _ (occurs_here a p s))|].
    destruct (first_unique p a' s' a s F' F E) as (-> & ->). now rewrite (IH c2).
Qed.
Lemma pieces_det p s ps : pieces p s ps -> forall ps', pieces p s ps' -> ps = ps'.
Proof.
  induction 1 as [s N|a s ps F C IH]; intros ps' C'.
  - inversion C' as [|a s' c2 F' C2 E]; auto. subst s. exfalso. apply (N _ (occurs_here a p s')).
  - inversion C' as [s2 N E|a' s' c2 F' C2 E]; subst; [exfalso; apply (N _ (occurs_here a p s))|].
    destruct (first_unique p a' s' a s F' F E) as (-> & ->). now rewrite (IH c2).
Qed.
Lemma replaced_det p new s t : replaced p new s t -> forall t', replaced p new s t' -> t = t'.
Proof.
  induction 1 as [s N|a s t F C IH]; intros t' C'.
  - inversion C' as [|a s' c2 F' C2 E]; auto. subst s. exfalso. apply (N _ (occurs_here a p s')).
  - inversion C' as [s2 N E|a' s' c2 F' C2 E]; subst; [exfalso; apply (N _ (occurs_here a p s))|].
    destruct (first_unique p a' s' a s F' F E) as (-> & ->). now rewrite (IH c2).
Qed.

(** A non-exact search finds at most the true number. *)
Lemma path_at_most h p X : 1 <= size p -> forall ps i i' c, path h p X i ps -> 0 <= i' <= i -> i' <= size h ->
  counts p (skipn (Z.to_nat i') h) c -> Z.of_nat (List.length ps) <= c.
Proof.
  intros Hm. assert (NN : forall s c, counts p s c -> 0 <= c) by (induction 1; lia).
  induction ps as [|k ps IH]; intros i i' c P Hi Hh C; [cbn [List.length]; eauto|].
  apply path_lb in P as (Lk & O & i2 & Li & P). pose proof (occurs_range _ _ _ O) as R.
  assert (O' : occurs_at (skipn (Z.to_nat i') h) p (k - i')) by (apply occurs_skipn; [lia|lia|]; now replace (i' + (k - i')) with k by lia).
  inversion C as [s N E|a s c2 F C2 E]; subst; [exfalso; apply (N _ O')|].
  rewrite <- E in O'. specialize (F _ O'). cbn [List.length].
  assert (Es : s = skipn (Z.to_nat (i' + Z.of_nat (List.length a) + size p)) h).
  { replace (Z.to_nat (i' + Z.of_nat (List.length a) + size p)) with (Z.to_nat i' + List.length (a ++ p))%nat by (rewrite app_length; unfold size; lia).
    rewrite <- skipn_add, <- E, app_assoc, skipn_app, skipn_all, Nat.sub_diag. reflexivity. }
  rewrite Es in C2. apply (IH i2) in C2; auto; lia.
Qed.

(** When the memchr search runs over. *)
Lemma last_in {A} (l : list A) d : l <> [] -> In (last l d) l.
Proof.
  destruct l as [|a l]; [congruence|]. intros _. rewrite last_cons. revert a. induction l as [|b l IH]; intros a; [left; auto|].
  rewrite last_cons. right. apply IH.
Qed.
Lemma path_occurs h p X : forall ps i k, path h p X i ps -> In k ps -> occurs_at h p k.
Proof.
  induction ps as [|k ps IH]; intros i k' P I; [contradiction|]. apply path_lb in P as (L & O & i2 & _ & P). destruct I as [<-|I]; eauto.
Qed.
Lemma path_last h c : forall ps i, path h [c] True i ps -> i <= size h - 1 -> occurs_at h [c] (size h - 1) -> ps <> [] /\ forall d, last ps d = size h - 1.
Proof.
  induction ps as [|k ps IH]; intros i P Hi O.
  - inversion P as [? Q|]; subst. exfalso. apply (Q (size h - 1)); auto.
  - split; [discriminate|]. inversion P as [? Q|? ? i2 ? L' Ok Q K E P']; subst. change (size [c]) with 1 in *. intros d. rewrite last_cons.
    pose proof (occurs_range _ _ _ Ok) as R. change (size [c]) with 1 in R.
    destruct (Z.eq_dec k (size h - 1)) as [->|N].
    + destruct ps as [|k2 ps]; [reflexivity|]. apply path_lb in P' as (L2 & O2 & _). apply occurs_range in O2. change (size [c]) with 1 in O2. lia.
    + apply (IH (k + 1)); auto; [|lia]. apply path_skip with i2; auto.
Qed.
Lemma overruns_iff h p ps : 1 <= size p -> path h p (steady p) 0 ps -> (overruns h p ps = true <-> reads_beyond h p).
Proof.
  intros Hm P. unfold overruns, reads_beyond. rewrite !andb_true_iff, Z.eqb_eq, Z.ltb_lt.
  assert (A : size p = 1 <-> List.length p = 1%nat) by (unfold size; lia). rewrite A. assert (B : 10 < size h <-> (10 < List.length h)%nat) by (unfold size; lia). rewrite B.
  assert (G : List.length p = 1%nat -> (runs_over h ps = true <-> (exists k, occurs_at h p k) /\ ~ occurs_at h p (size h - 1))).
  2:{ unfold size in G. split; intros H; [destruct H as ((H1 & H2) & H3); apply G in H3; tauto|destruct H as (H1 & H2 & H3); apply G in H3; auto]. }
  intros E1. assert (St : steady p) by (left; lia). apply (path_weaken h p (steady p) True) in P; [|auto].
  destruct p as [|c [|? ?]]; try discriminate. destruct ps as [|k ps]; cbn [runs_over].
  - inversion P as [? Q|]; subst. split; [discriminate|]. intros ((k & O) & _). exfalso. apply (Q k); auto. apply occurs_range in O. lia.
  - rewrite negb_true_iff, Z.eqb_neq. split.
    + intros N. split; [exists k; eapply path_occurs; [exact P|left; auto]|]. intros O. apply N.
      apply occurs_range in O as RO. destruct (path_last h c (k :: ps) 0 P) as (_ & L); auto. lia.
    + intros (_ & N) E. apply N. rewrite <- E. eapply path_occurs; [exact P|]. apply last_in. discriminate.
Qed.

(** Counting. *)
Theorem count_spec h p : 1 <= size p ->
  (reads_beyond h p -> string_count h p = UB) /\
  (~ reads_beyond h p -> exists c, string_count h p = Ok c /\ (steady p -> counts p h c) /\ (forall c', counts p h c' -> c <= c')).
Proof.
  intros Hm. destruct (string_search_path h p Hm) as (ps & P & R). pose proof (overruns_iff h p ps Hm P) as OI. unfold string_count. rewrite R, run_counter. split.
  - intros B. apply OI in B. now rewrite B.
  - intros B. destruct (overruns h p ps); [tauto|]. exists (Z.of_nat (List.length ps)). split; [reflexivity|]. pose proof (size_nonneg h). split.
    + intros S. pose proof (exact_pieces h p (steady p) S ps 0 P ltac:(lia)) as PC. apply pieces_counts in PC. rewrite chunks_length in PC. cbn [Z.to_nat skipn] in PC.
      now replace (Z.of_nat (Datatypes.S (List.length ps)) - 1) with (Z.of_nat (List.length ps)) in PC by lia.
    + intros c' C. apply (path_at_most h p _ Hm ps 0 0 c' P); auto; lia.
Qed.

(** Non-steady needles: two adjacent occurrences are counted once. *)
Lemma get_app2 a b j : size a <= j -> get (a ++ b) j = get b (j - size a).
Proof. intros H. rewrite <- (get_app_r a b (j - size a)) by lia. f_equal. lia. Qed.
Theorem count_twice p : ~ steady p -> string_count (p ++ p) p = Ok 1 /\ counts p (p ++ p) 2.
Proof.
  intros NS. assert (Hm : 3 <= size p) by (destruct (Z.leb_spec (size p) 2); [exfalso; apply NS; left; unfold size in *; lia|lia]).
  assert (O0 : occurs_at (p ++ p) p 0) by (exists [], p; auto).
  destruct (delta_whole p ltac:(lia)) as (l & mask & skip & HL & SS & C & S & N & K). split.
  - unfold string_count. rewrite SS by (rewrite size_app; lia). rewrite size_app. replace (size p + size p - size p) with (size p) by lia.
    pose proof (size_nonneg p). cbn [search_loop]. replace (0 <=? size p) with true by lia. rewrite Z.add_0_r.
    rewrite !(ld_get _ (size p - 1)), HL. rewrite get_app_l, HL by lia. cbn [bind]. rewrite Z.eqb_refl.
    destruct (cmp_spec (p ++ p) p 0 (size p - 1) ltac:(lia) ltac:(rewrite size_app; lia) ltac:(lia) (List.length p) 0 ltac:(lia) ltac:(unfold size; lia)) as (j & Ej & Bj & Qj & Dj).
    rewrite Ej. cbn [bind]. destruct (Z.eqb_spec j (size p - 1)) as [->|Nj].
    2:{ exfalso. apply Dj; [lia|]. cbn [Z.add]. rewrite get_app_l by lia. auto. }
    cbn [counter bind]. unfold advance. rewrite Z.add_0_l. replace (size p - 1 <? size p) with true by lia.
    replace (size p - 1 + (size p - 1 + 1)) with (size p + (size p - 1)) by lia. rewrite ld_get, get_app_r, HL by lia. cbn [bind].
    rewrite (C (size p - 1) l) by (auto; lia). cbn [negb bind]. assert (skip <> 0) by tauto.
    destruct (List.length (p ++ p)); cbn [search_loop]; (replace (size p - 1 + skip + 1 <=? size p) with false by lia); reflexivity.
  - change (p ++ p) with ([] ++ p ++ p). change 2 with (1 + 1). constructor; [intros k Ok0; apply occurs_range in Ok0; cbn [List.length]; lia|].
    assert (E : counts p ([] ++ p ++ []) (0 + 1)).
    { constructor; [intros k O; cbn [List.length]; apply occurs_range in O; lia|]. constructor. intros k O. apply occurs_range in O. change (size []) with 0 in O. lia. }
    cbn [app] in E. rewrite app_nil_r in E. exact E.
Qed.
Theorem count_nil h : string_count h [] = Ok 0 /\ string_find h [] = Ok (-1) /\ string_contains h [] = Ok false.
Proof.
  unfold string_count, string_find, string_contains, string_search. change (size []) with 0. pose proof (size_nonneg h). replace (size h - 0 <? 0) with false by lia. auto.
Qed.

(** Replacing and splitting. *)
Lemma memcpy_at D X R src s len : size X = len -> 0 <= s -> s + len <= size src ->
  memcpy (D ++ X ++ R) (size D) src s len = Ok (D ++ firstn (Z.to_nat len) (skipn (Z.to_nat s) src) ++ R).
Proof.
  intros <- Hs Hl. pose proof (size_nonneg X). pose proof (size_nonneg D). pose proof (size_nonneg R). unfold memcpy. rewrite !size_app.
  replace (_ && _) with true by (symmetry; rewrite !andb_true_iff; repeat split; apply Z.leb_le; lia). f_equal. f_equal.
  - unfold size. rewrite Nat2Z.id, firstn_app, firstn_all, Nat.sub_diag. cbn [firstn]. apply app_nil_r.
  - f_equal. rewrite app_assoc. replace (Z.to_nat (size D + size X)) with (List.length (D ++ X)) by (rewrite app_length; unfold size; lia).
    rewrite skipn_app, skipn_all, Nat.sub_diag. reflexivity.
Qed.
Lemma firstn_size (s : list Z) : firstn (Z.to_nat (size s)) s = s.
Proof. unfold size. now rewrite Nat2Z.id, firstn_all. Qed.
Lemma size_firstn n (s : list Z) : 0 <= n <= size s -> size (firstn (Z.to_nat n) s) = n.
Proof. unfold size. rewrite firstn_length. lia. Qed.
Lemma size_skipn n (s : list Z) : 0 <= n <= size s -> size (skipn (Z.to_nat n) s) = size s - n.
Proof. unfold size. rewrite skipn_length. lia. Qed.

Lemma size_join h p X new : forall ps i last, path h p X i ps -> 0 <= last <= i -> last <= size h ->
  size (join new (chunks h (size p) last ps)) = size h - last + (size new - size p) * Z.of_nat (List.length ps).
Proof.
  induction ps as [|k ps IH]; intros i last P L Lh; [cbn [chunks join List.length]; rewrite size_skipn by lia; lia|].
  apply path_lb in P as (Lk & O & i' & Li & P). pose proof (occurs_range _ _ _ O) as R. pose proof (size_nonneg p).
  cbn [chunks]. rewrite join_cons by apply chunks_nonnil. rewrite !size_app. rewrite (IH i') by (auto; lia).
  rewrite size_firstn by (rewrite size_skipn by lia; lia). cbn [List.length]. lia.
Qed.

Lemma run_inplace h p X new : size new = size p -> forall ps i last D, path h p X i ps -> 0 <= last <= i -> last <= size h -> size D = last ->
  run false (inplace_replacer new) ps (D ++ skipn (Z.to_nat last) h) = Ok (D ++ join new (chunks h (size p) last ps)).
Proof.
  intros EN. induction ps as [|k ps IH]; intros i last D P L Lh ED; [reflexivity|].
  apply path_lb in P as (Lk & O & i' & Li & P). pose proof (occurs_range _ _ _ O) as R. pose proof (size_nonneg p).
  cbn [run]. unfold inplace_replacer at 1. rewrite (occurs_split h p k last O) by lia.
  assert (SF : size (firstn (Z.to_nat (k - last)) (skipn (Z.to_nat last) h)) = k - last) by (apply size_firstn; rewrite size_skipn by lia; lia).
  cbn [chunks]. set (F := firstn (Z.to_nat (k - last)) (skipn (Z.to_nat last) h)) in *.
  rewrite app_assoc. replace k with (size (D ++ F)) at 2 by (rewrite size_app; lia).
  rewrite memcpy_at by lia. cbn [bind Z.to_nat skipn].
  rewrite firstn_size. rewrite app_assoc. rewrite (IH i') by (auto; rewrite ?size_app; lia). rewrite join_cons by apply chunks_nonnil. now rewrite <- !app_assoc.
Qed.

Lemma split_at (J : list Z) n : 0 <= n <= size J -> exists A B, J = A ++ B /\ size A = n.
Proof. intros H. exists (firstn (Z.to_nat n) J), (skipn (Z.to_nat n) J). rewrite firstn_skipn. split; auto. now apply size_firstn. Qed.

Lemma run_copy h p X new : forall ps i last D J, path h p X i ps -> 0 <= last <= i -> last <= size h ->
  size J = size (join new (chunks h (size p) last ps)) ->
  exists st, run false (copy_replacer h (size p) new) ps (D ++ J, size D, last) = Ok st /\ copy_replacer_finish h st = Ok (D ++ join new (chunks h (size p) last ps)).
Proof.
  induction ps as [|k ps IH]; intros i last D J P L Lh EJ.
  - eexists. split; [reflexivity|]. unfold copy_replacer_finish. cbn [chunks join] in *. rewrite size_skipn in EJ by lia.
    rewrite <- (app_nil_r J). rewrite memcpy_at by lia. rewrite app_nil_r. f_equal. f_equal. rewrite firstn_all2; [auto|]. rewrite skipn_length. unfold size. lia.
  - apply path_lb in P as (Lk & O & i' & Li & P). pose proof (occurs_range _ _ _ O) as R. pose proof (size_nonneg p). pose proof (size_nonneg new).
    assert (SF : size (firstn (Z.to_nat (k - last)) (skipn (Z.to_nat last) h)) = k - last) by (apply size_firstn; rewrite size_skipn by lia; lia).
    cbn [chunks] in *. rewrite join_cons in * by apply chunks_nonnil. rewrite !size_app, SF in EJ. pose proof (size_nonneg (join new (chunks h (size p) (k + size p) ps))).
    destruct (split_at J (k - last)) as (J1 & J' & -> & S1); [lia|]. rewrite size_app in EJ. destruct (split_at J' (size new)) as (J2 & J3 & -> & S2); [lia|]. rewrite size_app in EJ.
    cbn [run]. unfold copy_replacer at 1. rewrite memcpy_at by lia. cbn [bind]. set (F := firstn (Z.to_nat (k - last)) (skipn (Z.to_nat last) h)) in *.
    rewrite app_assoc. replace (size D + (k - last)) with (size (D ++ F)) by (rewrite size_app; lia). rewrite memcpy_at by lia. cbn [bind Z.to_nat skipn]. rewrite firstn_size.
    rewrite app_assoc. replace (size (D ++ F) + size new) with (size ((D ++ F) ++ new)) by (rewrite (size_app (D ++ F)); lia).
    destruct (IH i' (k + size p) ((D ++ F) ++ new) J3 P) as (st & E1 & E2); [lia|lia|lia|]. exists st. rewrite E1. split; auto. rewrite E2. now rewrite <- !app_assoc.
Qed.

Lemma size_repeat x n : 0 <= n -> size (repeat x (Z.to_nat n)) = n.
Proof. intros H. unfold size. rewrite repeat_length. lia. Qed.

Theorem replace_path junk h p new : 1 <= size p -> exists ps, path h p (steady p) 0 ps /\
  ((size p = 1 /\ size new = 1) \/ string_replace junk h p new = if overruns h p ps && negb (size p =? size new) then UB else Ok (join new (chunks h (size p) 0 ps))).
Proof.
  intros Hm. destruct (string_search_path h p Hm) as (ps & P & R). exists ps. split; auto. pose proof (size_nonneg h).
  unfold string_replace. replace (size p =? 0) with false by lia. cbn [orb]. destruct (Z.ltb_spec (size h) (size p)) as [L|L].
  { right. inversion P as [? Q|? ? i2 ? L' Ok Q K E P']; subst; [|apply occurs_range in Ok; lia]. rewrite overruns_nil. reflexivity. }
  destruct (Z.eqb_spec (size p) (size new)) as [E|N]; [destruct (Z.eqb_spec (size p) 1) as [E1|N1]|].
  - left. lia.
  - right. rewrite andb_false_r. rewrite R. unfold overruns. replace (size p =? 1) with false by lia. cbn [andb].
    apply (run_inplace h p (steady p) new ltac:(lia) ps 0 0 [] P); auto; lia.
  - right. unfold string_count. rewrite R, run_counter. destruct (overruns h p ps) eqn:OV; [reflexivity|]. cbn [negb andb bind]. rewrite Z.add_0_l.
    pose proof (size_join h p (steady p) new ps 0 0 P ltac:(lia) ltac:(lia)) as SJ. rewrite Z.sub_0_r in SJ. rewrite <- SJ.
    pose proof (size_nonneg (join new (chunks h (size p) 0 ps))). replace (_ <? 0) with false by lia. rewrite R.
   
    destruct (run_copy h p (steady p) new ps 0 0 [] (repeat junk (Z.to_nat (size (join new (chunks h (size p) 0 ps))))) P) as (st & E1 & E2); [lia|lia|now apply size_repeat|].
    change (size []) with 0 in E1. cbn [app] in *. rewrite E1. cbn [bind]. exact E2.
Qed.

Lemma map_pieces o n s ps : pieces [o] s ps -> map (fun c => if c =? o then n else c) s = join [n] ps.
Proof.
  assert (NI : forall s, ~ In o s -> map (fun c => if c =? o then n else c) s = s).
  { induction s0 as [|c s0 IH]; intros I; [reflexivity|]. cbn [map]. rewrite IH by (intros X; apply I; right; auto). destruct (Z.eqb_spec c o) as [->|]; auto. exfalso. apply I. left. auto. }
  induction 1 as [s N|a s ps F P IH].
  - change (join [n] [s]) with s. apply NI. intros I. apply in_split in I as (a & b & ->). apply (N _ (occurs_here a [o] b)).
  - rewrite join_cons by (eapply pieces_nonnil; eauto). rewrite !map_app, IH. cbn [map]. rewrite Z.eqb_refl. f_equal.
    apply NI. intros I. apply in_split in I as (b & c & ->). specialize (F (Z.of_nat (List.length b))). rewrite app_length in F. cbn [List.length] in F.
    assert (occurs_at ((b ++ o :: c) ++ [o] ++ s) [o] (Z.of_nat (List.length b))); [|apply F in H; lia].
    exists b, (c ++ [o] ++ s). split; auto. now rewrite <- app_assoc.
Qed.

Theorem replace_spec junk h old new : 1 <= size old -> ~ (reads_beyond h old /\ size new <> 1) -> steady old ->
  exists d, string_replace junk h old new = Ok d /\ replaced old new h d.
Proof.
  intros Hm NB S. destruct (replace_path junk h old new Hm) as (ps & P & [(E1 & E2)|E]).
  - destruct (string_search_path h old Hm) as (ps2 & P2 & _). pose proof (size_nonneg h). pose proof (exact_pieces h old _ S ps2 0 P2 ltac:(lia)) as PC. cbn [Z.to_nat skipn] in PC.
    exists (join new (chunks h (size old) 0 ps2)). split; [|now apply pieces_replaced].
    destruct old as [|o [|? ?]]; [discriminate| |unfold size in E1; cbn [List.length] in E1; lia]. destruct new as [|n [|? ?]]; [discriminate| |unfold size in E2; cbn [List.length] in E2; lia].
    unfold string_replace. change (size [o]) with 1 in *. change (size [n]) with 1. change (1 =? 0) with false. cbn [orb]. destruct (Z.ltb_spec (size h) 1) as [L|L].
    + f_equal. assert (h = []) by (apply size_nil_iff; lia). subst h. apply (map_pieces o n) in PC. exact PC.
    + change (1 =? 1) with true. cbn iota. cbn [ld bind]. change (ld [o] 0) with (Ok o). change (ld [n] 0) with (Ok n). cbn [bind]. f_equal. now apply map_pieces.
  - exists (join new (chunks h (size old) 0 ps)). rewrite E. pose proof (overruns_iff h old ps Hm P) as OI. pose proof (size_nonneg h).
    pose proof (exact_pieces h old _ S ps 0 P ltac:(lia)) as PC. cbn [Z.to_nat skipn] in PC. split; [|now apply pieces_replaced].
    destruct (overruns h old ps) eqn:OV; [|reflexivity]. cbn [andb]. assert (RB : reads_beyond h old) by tauto. destruct (Z.eqb_spec (size old) (size new)) as [E'|N']; cbn [negb]; auto.
    exfalso. apply NB. split; auto. destruct RB as (E1 & _). unfold size in *. lia.
Qed.
(** Whatever the needle, no access outside the strings unless [reads_beyond], and
    only occurrences are replaced. *)
Theorem replace_safe junk h old new : 1 <= size old -> ~ (reads_beyond h old /\ size new <> 1) ->
  exists ps, h = join old ps /\ string_replace junk h old new = Ok (join new ps).
Proof.
  intros Hm NB. destruct (replace_path junk h old new Hm) as (ps & P & [(E1 & E2)|E]).
  - destruct (replace_spec junk h old new Hm NB) as (d & Ed & _); [left; unfold size in *; lia|].
    destruct (string_search_path h old Hm) as (ps2 & P2 & _). pose proof (size_nonneg h).
    assert (S : steady old) by (left; unfold size in *; lia).
    pose proof (exact_pieces h old _ S ps2 0 P2 ltac:(lia)) as PC. cbn [Z.to_nat skipn] in PC. exists (chunks h (size old) 0 ps2). split; [symmetry; now apply pieces_join|].
    destruct (replace_spec junk h old new Hm NB S) as (d' & Ed' & Rd). rewrite Ed'. f_equal. apply (replaced_det old new h); auto. now apply pieces_replaced.
  - pose proof (overruns_iff h old ps Hm P) as OI. exists (chunks h (size old) 0 ps). pose proof (join_chunks h old _ ps 0 0 P ltac:(lia)) as J. cbn [Z.to_nat skipn] in J. split; [auto|]. rewrite E.
    destruct (overruns h old ps) eqn:OV; [|reflexivity]. cbn [andb]. assert (RB : reads_beyond h old) by tauto. destruct (Z.eqb_spec (size old) (size new)) as [E'|N']; cbn [negb]; auto.
    exfalso. apply NB. split; auto. destruct RB as (E1 & _). unfold size in *. lia.
Qed.
Theorem replace_beyond junk h old new : reads_beyond h old -> size new <> 1 -> string_replace junk h old new = UB.
Proof.
  intros B N. assert (E1 : size old = 1) by (destruct B as (E & _); unfold size; lia). assert (Hm : 1 <= size old) by lia.
  destruct (replace_path junk h old new Hm) as (ps & P & [(_ & E2)|E]); [contradiction|]. rewrite E. apply (overruns_iff h old ps Hm P) in B. rewrite B. replace (size old =? size new) with false by lia. reflexivity.
Qed.

Lemma put_at A x B v : put (A ++ x :: B) (Z.of_nat (List.length A)) v = Ok (A ++ v :: B).
Proof.
  unfold put. rewrite app_length. cbn [List.length]. replace (_ && _) with true by (symmetry; rewrite andb_true_iff, Z.leb_le, Z.ltb_lt; lia).
  f_equal. f_equal; [|f_equal].
  - rewrite Nat2Z.id, firstn_app, firstn_all, Nat.sub_diag. cbn [firstn]. apply app_nil_r.
  - replace (Z.to_nat (Z.of_nat (List.length A) + 1)) with (List.length (A ++ [x])) by (rewrite app_length; cbn [List.length]; lia).
    change (A ++ x :: B) with (A ++ [x] ++ B). rewrite app_assoc, skipn_app, skipn_all, Nat.sub_diag. reflexivity.
Qed.
Lemma substr_in src s len : 0 <= s -> 0 <= len -> s + len <= size src -> substr src s len = Ok (firstn (Z.to_nat len) (skipn (Z.to_nat s) src)).
Proof. intros. unfold substr. replace (_ && _) with true; auto. symmetry. rewrite !andb_true_iff, !Z.leb_le. lia. Qed.
Lemma run_split h p X : forall ps i last A, path h p X i ps -> 0 <= last <= i -> last <= size h ->
  exists st, run false (splitter h (size p)) ps (A ++ repeat [] (S (List.length ps)), Z.of_nat (List.length A), last) = Ok st /\
    splitter_finish h st = Ok (A ++ chunks h (size p) last ps).
Proof.
  induction ps as [|k ps IH]; intros i last A P L Lh.
  - eexists. split; [reflexivity|]. unfold splitter_finish. cbn [chunks List.length repeat]. rewrite substr_in by lia. cbn [bind]. rewrite put_at. f_equal. f_equal. f_equal.
    apply firstn_all2. rewrite skipn_length. unfold size in *. lia.
  - apply path_lb in P as (Lk & O & i' & Li & P). pose proof (occurs_range _ _ _ O) as R. pose proof (size_nonneg p).
    cbn [run List.length chunks]. change (repeat [] (S (S (List.length ps)))) with (([] : list Z) :: repeat [] (S (List.length ps))). unfold splitter at 1.
    rewrite substr_in by lia. cbn [bind]. rewrite put_at. cbn [bind].
    replace (last + (k - last + size p)) with (k + size p) by lia. set (F := firstn (Z.to_nat (k - last)) (skipn (Z.to_nat last) h)) in *.
    destruct (IH i' (k + size p) (A ++ [F]) P ltac:(lia) ltac:(lia)) as (st & E1 & E2). rewrite app_length in E1. cbn [List.length] in E1.
    replace (Z.of_nat (List.length A + 1)) with (Z.of_nat (List.length A) + 1) in E1 by lia. rewrite <- app_assoc in E1, E2. exists st. split; [exact E1|exact E2].
Qed.
Theorem split_spec h p : 1 <= size p ->
  (reads_beyond h p -> string_split h p = UB) /\
  (~ reads_beyond h p -> exists ps, string_split h p = Ok ps /\ join p ps = h /\ (steady p -> pieces p h ps)).
Proof.
  intros Hm. destruct (string_search_path h p Hm) as (ps & P & R). pose proof (overruns_iff h p ps Hm P) as OI. pose proof (size_nonneg h).
  unfold string_split, string_count. rewrite R, run_counter. split.
  - intros B. apply OI in B. now rewrite B.
  - intros B. destruct (overruns h p ps) eqn:OV; [tauto|]. cbn [bind]. rewrite Z.add_0_l.
    assert (E : (if Z.of_nat (List.length ps) =? 0 then Ok [h] else
      do st <- string_search (splitter h (size p)) h p (repeat [] (Z.to_nat (Z.of_nat (List.length ps) + 1)), 0, 0); splitter_finish h st) = Ok (chunks h (size p) 0 ps)).
    { destruct (Z.eqb_spec (Z.of_nat (List.length ps)) 0) as [Z0|NZ]; [destruct ps; [reflexivity|discriminate]|].
      rewrite R. replace (Z.to_nat (Z.of_nat (List.length ps) + 1)) with (Datatypes.S (List.length ps)) by lia.
      destruct (run_split h p _ ps 0 0 [] P ltac:(lia) ltac:(lia)) as (st & E1 & E2). cbn [app List.length] in E1. change (Z.of_nat 0) with 0 in E1. rewrite E1. exact E2. }
    rewrite E. exists (chunks h (size p) 0 ps). split; [auto|split].
    + apply (join_chunks h p _ ps 0 0 P). lia.
    + intros S. apply (exact_pieces h p _ S ps 0 P). lia.
Qed.

(** Prefix, suffix, concatenation. *)
Theorem startswith_spec s q : string_startswith s q = true <-> exists b, s = q ++ b.
Proof.
  unfold string_startswith, memcmp_eq. destruct (Z.ltb_spec (size s) (size q)) as [L|L].
  - split; [discriminate|]. intros (b & ->). rewrite size_app in L. pose proof (size_nonneg b). lia.
  - destruct (list_eq_dec _ _ _) as [E|N].
    + split; auto. intros _. exists (skipn (List.length q) s). rewrite <- E at 1. now rewrite firstn_skipn.
    + split; [discriminate|]. intros (b & ->). exfalso. apply N. rewrite firstn_app, firstn_all, Nat.sub_diag. apply app_nil_r.
Qed.
Theorem endswith_spec s q : string_endswith s q = true <-> exists b, s = b ++ q.
Proof.
  unfold string_endswith, memcmp_eq. destruct (Z.ltb_spec (size s) (size q)) as [L|L].
  - split; [discriminate|]. intros (b & ->). rewrite size_app in L. pose proof (size_nonneg b). lia.
  - destruct (list_eq_dec _ _ _) as [E|N].
    + split; auto. intros _. exists (firstn (Z.to_nat (size s - size q)) s). rewrite <- E at 2. now rewrite firstn_skipn.
    + split; [discriminate|]. intros (b & ->). exfalso. apply N. rewrite size_app. replace (size b + size q - size q) with (size b) by lia. unfold size.
      rewrite Nat2Z.id, skipn_app, skipn_all, Nat.sub_diag. reflexivity.
Qed.
Lemma concat_loop_spec : forall ss D J, size J = concat_sizes ss -> concat_loop ss (D ++ J) (size D) = Ok (D ++ List.concat ss).
Proof.
  induction ss as [|s ss IH]; intros D J E; cbn [concat_loop concat_sizes List.concat] in *.
  - apply size_nil_iff in E. now subst J.
  - pose proof (size_nonneg s). assert (0 <= concat_sizes ss) by (clear; induction ss as [|s ss IH]; cbn [concat_sizes]; [lia|pose proof (size_nonneg s); lia]).
    destruct (split_at J (size s)) as (A & B & -> & SA); [lia|]. rewrite size_app in E. rewrite memcpy_at by lia. cbn [bind Z.to_nat skipn]. rewrite firstn_size, app_assoc.
    rewrite <- size_app. rewrite IH by lia. now rewrite <- app_assoc.
Qed.
Theorem concat_spec junk ss : string_concat junk ss = Ok (List.concat ss).
Proof.
  unfold string_concat. apply (concat_loop_spec ss []). apply size_repeat. induction ss as [|s ss IH]; cbn [concat_sizes]; [lia|]. pose proof (size_nonneg s). lia.
Qed.

(** Reverse search. *)
Lemma rdelta_spec p f : get p 0 = Some f -> forall fuel i mask skip, 0 <= i < size p -> (Z.to_nat i <= fuel)%nat ->
  (forall c, get p 0 = Some c -> bloom_has mask c = true) -> covers p mask (i + 1) (size p) -> 0 <= skip <= size p - 2 -> (forall j, i < j <= skip -> get p j <> Some f) ->
  exists mask' skip', rdelta_loop fuel p i mask skip = Ok (mask', skip') /\ covers p mask' 0 (size p) /\ 0 <= skip' <= size p - 2 /\ (forall j, 0 < j <= skip' -> get p j <> Some f).
Proof.
  intros HF. induction fuel as [|fuel IH]; intros i mask skip Hi F C0 C S N.
  - assert (i = 0) by lia. subst i. exists mask, skip. cbn [rdelta_loop]. change (0 <? 0) with false. split; [auto|split; [|split; [auto|auto]]].
    intros j c Hj G. destruct (Z.eq_dec j 0) as [->|]; auto. apply (C j); auto. lia.
  - cbn [rdelta_loop]. destruct (Z.ltb_spec 0 i) as [L|L].
    2:{ assert (i = 0) by lia. subst i. exists mask, skip. split; [auto|split; [|split; [auto|auto]]].
      intros j c Hj G. destruct (Z.eq_dec j 0) as [->|]; auto. apply (C j); auto. lia. }
    destruct (ld_in p i ltac:(lia)) as (c & E & G). rewrite E. cbn [bind]. rewrite (ld_get p 0), HF. cbn [bind]. apply IH.
    + lia.
    + lia.
    + intros d Gd. apply bloom_add_keep. auto.
    + intros j d Hj Gd. destruct (Z.eq_dec j i) as [->|Nj]; [assert (d = c) by congruence; subst; apply bloom_add_same|]. apply bloom_add_keep. apply (C j); auto. lia.
    + destruct (c =? f); lia.
    + intros j Hj. destruct (Z.eqb_spec c f) as [->|Ncf]; [lia|]. destruct (Z.eq_dec j i) as [->|]; [congruence|]. apply N. lia.
Qed.
Lemma rcmp_spec h p i : 0 <= i -> i + size p <= size h -> forall fuel j, 0 <= j < size p -> (Z.to_nat j <= fuel)%nat ->
  exists j', rcmp_loop fuel h p i j = Ok j' /\ 0 <= j' <= j /\ (forall x, j' < x <= j -> get h (i + x) = get p x) /\ (0 < j' -> get h (i + j') <> get p j').
Proof.
  intros Hi Hh. induction fuel as [|fuel IH]; intros j Hj F.
  - assert (j = 0) by lia. subst j. exists 0. cbn [rcmp_loop]. change (0 <? 0) with false. split; [auto|split; [lia|split; [intros; lia|lia]]].
  - cbn [rcmp_loop]. destruct (Z.ltb_spec 0 j) as [L|L].
    2:{ exists j. split; [auto|split; [lia|split; [intros; lia|lia]]]. }
    destruct (ld_in h (i + j) ltac:(lia)) as (a & E & G). destruct (ld_in p j ltac:(lia)) as (b & E' & G'). rewrite E, E'. cbn [bind].
    destruct (Z.eqb_spec a b) as [->|N]; cbn [negb].
    + destruct (IH (j - 1) ltac:(lia) ltac:(lia)) as (j' & R & B & Q & D). exists j'. split; [auto|split; [lia|split; [|auto]]].
      intros x Hx. destruct (Z.eq_dec x j) as [->|]; [congruence|apply Q; lia].
    + exists j. split; [auto|split; [lia|split; [intros; lia|congruence]]].
Qed.
Lemma radvance_spec h p mask i sk : covers p mask 0 (size p) -> 1 <= size p -> i <= size h -> 0 <= sk -> (forall k, i - sk <= k < i -> ~ occurs_at h p k) ->
  exists i', radvance h (size p) mask sk i = Ok i' /\ i' <= i /\ (forall k, i' <= k < i -> ~ occurs_at h p k).
Proof.
  intros HC Hm Hi Hk N. unfold radvance. destruct (Z.ltb_spec 0 i) as [L|L].
  - destruct (ld_in h (i - 1) ltac:(lia)) as (c & E & G). rewrite E. cbn [bind].
    destruct (bloom_has mask c) eqn:B; cbn [negb]; [exists (i - sk); split; [auto|split; [lia|auto]]|].
    exists (i - size p). split; [auto|split; [lia|]]. intros k Hk' O. apply occurs_iff in O as (_ & _ & O).
    specialize (O (i - 1 - k) ltac:(lia)). replace (k + (i - 1 - k)) with (i - 1) in O by lia.
    rewrite G in O. symmetry in O. rewrite (HC (i - 1 - k) c) in B; [discriminate|lia|auto].
  - exists (i - sk). split; [auto|split; [lia|auto]].
Qed.
Lemma rsearch_spec h p f mask skip : 2 <= size p -> get p 0 = Some f -> covers p mask 0 (size p) -> 0 <= skip <= size p - 2 -> (forall j, 0 < j <= skip -> get p j <> Some f) ->
  forall fuel i, i + size p <= size h -> (Z.to_nat (i + 1) <= fuel)%nat -> (forall k, i < k -> ~ occurs_at h p k) ->
  exists r, rsearch_loop finder fuel h p (size p) (size p - 1) mask skip i (-1) = Ok r /\
  ((r = -1 /\ forall k, ~ occurs_at h p k) \/ (occurs_at h p r /\ forall k, occurs_at h p k -> k <= r)).
Proof.
  intros Hm HF HC HS HN. induction fuel as [|fuel IH]; intros i Hi F N.
  { exists (-1). cbn [rsearch_loop]. replace (0 <=? i) with false by lia. split; auto. left. split; auto. intros k O. apply (N k); auto. apply occurs_range in O. lia. }
  cbn [rsearch_loop]. destruct (Z.leb_spec 0 i) as [L|L].
  2:{ exists (-1). split; auto. left. split; auto. intros k O. apply (N k); auto. apply occurs_range in O. lia. }
  destruct (ld_in h i ltac:(lia)) as (a & Ea & Ga). rewrite Ea. cbn [bind]. rewrite (ld_get p 0), HF. cbn [bind].
  destruct (Z.eqb_spec a f) as [->|Naf].
  - destruct (rcmp_spec h p i L Hi (List.length p) (size p - 1) ltac:(lia) ltac:(unfold size; lia)) as (j & Ej & Bj & Qj & Dj). rewrite Ej. cbn [bind].
    destruct (Z.eqb_spec j 0) as [->|Nj].
    + assert (O : occurs_at h p i).
      { apply occurs_iff. split; [auto|split; [auto|]]. intros x Hx. destruct (Z.eq_dec x 0) as [->|]; [rewrite Z.add_0_r; congruence|]. apply Qj. lia. }
      exists i. split; [reflexivity|]. right. split; auto. intros k Ok. destruct (Z.ltb_spec i k); [|lia]. exfalso. eapply N; eauto.
    + assert (NO : ~ occurs_at h p i) by (intros O; apply occurs_iff in O as (_ & _ & O); apply Dj; [lia|]; apply O; lia).
      destruct (radvance_spec h p mask i skip HC ltac:(lia) ltac:(lia) ltac:(lia)) as (i' & E & B & N').
      { intros x Hx O. apply occurs_iff in O as (_ & R & O). apply (HN (i - x)); [lia|]. rewrite <- O by lia. now replace (x + (i - x)) with i by lia. }
      rewrite E. cbn [bind]. apply IH; [lia|lia|]. intros k Hk. destruct (Z.ltb_spec i k); [apply N; lia|]. destruct (Z.eq_dec k i) as [->|]; auto. apply N'. lia.
  - assert (NO : ~ occurs_at h p i).
    { intros O. apply occurs_iff in O as (_ & _ & O). specialize (O 0 ltac:(lia)). rewrite Z.add_0_r in O. congruence. }
    destruct (radvance_spec h p mask i 0 HC ltac:(lia) ltac:(lia) ltac:(lia) ltac:(intros; lia)) as (i' & E & B & N').
    rewrite E. cbn [bind]. apply IH; [lia|lia|]. intros k Hk. destruct (Z.ltb_spec i k); [apply N; lia|]. destruct (Z.eq_dec k i) as [->|]; auto. apply N'. lia.
Qed.

Theorem rfind_spec h p : 2 <= size p -> exists r, string_rfind h p = Ok r /\
  ((r = -1 /\ forall k, ~ occurs_at h p k) \/ (occurs_at h p r /\ forall k, occurs_at h p k -> k <= r)).
Proof.
  intros Hm. unfold string_rfind, string_search_reverse. destruct (Z.ltb_spec (size h - size p) 0) as [L|L].
  { exists (-1). split; auto. left. split; auto. apply no_room. lia. }
  replace (size p <=? 1) with false by lia. destruct (get_in p 0 ltac:(lia)) as (f & HF). rewrite ld_get, HF. cbn [bind].
  destruct (rdelta_spec p f HF (List.length p) (size p - 1) (bloom_add 0 f) (size p - 1 - 1)) as (mask & skip & E & C & S & N).
  - lia.
  - unfold size. lia.
  - intros c G. assert (c = f) by congruence. subst. apply bloom_add_same.
  - intros j c Hj. lia.
  - lia.
  - intros j Hj. lia.
  - rewrite E. cbn [bind]. apply (rsearch_spec h p f); auto; [lia|unfold size in *; lia|]. intros k Hk O. apply occurs_range in O. lia.
Qed.
Theorem rfind_1 h c : (2 <= List.length h)%nat -> Z.of_nat (List.length h) < 2 ^ 63 -> string_rfind h [c] = Ok (-1).
Proof.
  intros L B. unfold string_rfind, string_search_reverse. change (size [c]) with 1. replace (size h - 1 <? 0) with false by (unfold size; lia).
  change (1 <=? 1) with true. change (1 =? 0) with false. cbn iota. change (ld [c] 0) with (Ok c). cbn [bind]. unfold string_search_1char_reverse.
  assert (E : u64 (size h - 1) = size h - 1) by (unfold u64, wrap; apply Z.mod_small; unfold size; lia). rewrite E. replace (size h - 1 <=? 0) with false by (unfold size; lia). reflexivity.
Qed.
Theorem rfind_1_1 x c : string_rfind [x] [c] = Ok (if x =? c then 0 else -1).
Proof. unfold string_rfind, string_search_reverse, string_search_1char_reverse. cbn. destruct (x =? c); reflexivity. Qed.
Theorem rfind_empty h c : string_rfind h [] = Ok (-1) /\ string_rfind [] [c] = Ok (-1).
Proof.
  split; [|reflexivity]. unfold string_rfind, string_search_reverse. change (size []) with 0. pose proof (size_nonneg h). replace (size h - 0 <? 0) with false by lia. reflexivity.
Qed.
