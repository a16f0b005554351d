From Verif Require Import Base BufModel BufSpec.
Local Open Scope Z_scope.

Lemma aligned_round8 n : 0 <= n -> n + 7 < 2 ^ 64 -> aligned_size n = round8 n.
Proof.
  intros N H; unfold aligned_size, round8, u64, wrap; rewrite Z.mod_small by lia.
  rewrite <- Z.ldiff_land; change 7 with (Z.ones 3) at 2; rewrite Z.ldiff_ones_r by lia.
  rewrite Z.shiftl_mul_pow2, Z.shiftr_div_pow2 by lia; reflexivity.
Qed.
Lemma round8_bounds n : n <= round8 n < n + 8.
Proof. unfold round8; pose proof (Z.div_mod (n + 7) 8 ltac:(lia)); pose proof (Z.mod_pos_bound (n + 7) 8 ltac:(lia)); lia. Qed.
Lemma padded_length bytes : Z.of_nat (List.length (padded bytes)) = round8 (Z.of_nat (List.length bytes)).
Proof.
  unfold padded; rewrite app_length, repeat_length; pose proof (round8_bounds (Z.of_nat (List.length bytes))); lia.
Qed.
Lemma layout_app l m : layout (l ++ m) = (layout l ++ layout m)%list.
Proof. apply flat_map_app. Qed.

(* the buffer after items have been put in *)
Definition holds (b : buf) (bytes : list Z) : Prop :=
  b_size b = Z.of_nat (List.length bytes) /\ b_size b <= b_capacity b /\ 128 <= b_capacity b /\
  (b_capacity b <= 128 \/ b_capacity b <= 3 * b_size b / 2) /\ 0 <= b_copied b <= 3 * b_capacity b /\
  exists m, b_data b = Some m /\ forall a, 0 <= a < b_capacity b -> m a = nth (Z.to_nat a) bytes 0.

Lemma holds_empty : holds empty_buf [].
Proof.
  unfold holds, empty_buf; cbn; repeat split; try lia; eexists; split; [ reflexivity | ].
  intros a A; destruct (Z.to_nat a); reflexivity.
Qed.

Lemma nth_repeat0 n k : nth k (repeat 0 n) 0 = 0.
Proof. revert k; induction n; intros [ | k ]; cbn; auto. Qed.

Lemma holds_emplace b old bytes junk : holds b old -> Z.of_nat (List.length bytes) + 7 < 2 ^ 64 ->
  snd (emplace_back b bytes (Some junk)) = false /\ holds (fst (emplace_back b bytes (Some junk))) (old ++ padded bytes)%list.
Proof.
  intros (SZ & LE & C1 & C2 & CP & m & D & M) H; unfold emplace_back, reserve; rewrite aligned_round8 by lia.
  set (k := round8 (Z.of_nat (List.length bytes))) in *.
  pose proof (round8_bounds (Z.of_nat (List.length bytes))) as RB; fold k in RB.
  assert (PL : Z.of_nat (List.length (old ++ padded bytes)) = b_size b + k).
  { rewrite app_length, Nat2Z.inj_add, padded_length; fold k; lia. }
  assert (W : forall (m' : Z -> Z) c, b_size b + k <= c -> (forall a, 0 <= a < c -> m' a = if a <? b_capacity b then m a else 0) ->
    forall a, 0 <= a < c -> write m' (b_size b) bytes a = nth (Z.to_nat a) (old ++ padded bytes) 0).
  { intros m' c KC E a A; unfold write.
    destruct (Z.leb_spec (b_size b) a) as [ G | G ]; cbn [andb].
    - rewrite app_nth2 by lia; unfold padded; destruct (Z.ltb_spec a (b_size b + Z.of_nat (List.length bytes))).
      + rewrite app_nth1 by lia; f_equal; lia.
      + rewrite app_nth2 by lia; rewrite nth_repeat0, E by lia; destruct (Z.ltb_spec a (b_capacity b)); auto.
        rewrite M by lia; apply nth_overflow; lia.
    - rewrite app_nth1 by lia; rewrite E by lia; rewrite (proj2 (Z.ltb_lt a (b_capacity b))) by lia; apply M; lia. }
  cbn [b_data b_capacity b_size b_copied]; destruct (Z.ltb_spec (b_capacity b) (b_size b + k)) as [ G | G ]; rewrite D; cbn [fst snd].
  - split; auto; unfold grown; cbn [b_capacity]; pose proof (Z.div_mod (b_capacity b * 3) 2 ltac:(lia)) as DM; pose proof (Z.mod_pos_bound (b_capacity b * 3) 2 ltac:(lia)) as MB.
    set (g := b_capacity b * 3 / 2) in *.
    pose proof (Z.div_mod (3 * (b_size b + k)) 2 ltac:(lia)) as DM2; pose proof (Z.mod_pos_bound (3 * (b_size b + k)) 2 ltac:(lia)) as MB2.
    set (cap := if b_size b + k <? g then g else b_size b + k) in *.
    assert (CC : g <= cap /\ b_size b + k <= cap /\ (cap = g \/ cap = b_size b + k)) by (unfold cap; destruct (Z.ltb_spec (b_size b + k) g); lia).
    unfold holds; cbn [b_data b_capacity b_size b_copied option_map]; repeat split; try lia.
    eexists; split; [ reflexivity | ]; apply W; [ lia | ].
    intros a A; destruct (Z.leb_spec (b_capacity b) a), (Z.ltb_spec a (b_capacity b + (cap - b_capacity b))), (Z.ltb_spec a (b_capacity b)); cbn [andb]; auto; lia.
  - split; auto; unfold holds; cbn [b_data b_capacity b_size b_copied option_map]; repeat split; try lia.
    eexists; split; [ reflexivity | ]; apply W; [ lia | ].
      intros a A; rewrite (proj2 (Z.ltb_lt a (b_capacity b))) by lia; auto.
Qed.

Lemma holds_build items : Forall (fun it => Z.of_nat (List.length (fst it)) + 7 < 2 ^ 64) items -> forall b old, holds b old ->
  holds (build items b) (old ++ layout (map fst items)).
Proof.
  induction 1 as [ | (bytes, junk) items H F IH ]; intros b old HB; cbn [build map layout flat_map fst].
  - rewrite app_nil_r; auto.
  - rewrite app_assoc; apply IH; apply holds_emplace; auto.
Qed.

(* ---------------------------------------------------------------- objects one after the other *)
Section Placed.
Context {X : Type} (sz : X -> Z).
Fixpoint total (l : list X) : Z := match l with [] => 0 | x :: l' => sz x + total l' end.
Fixpoint placed (o : Z) (l : list X) : list (Z * X) := match l with [] => [] | x :: l' => (o, x) :: placed (o + sz x) l' end.

Lemma total_app l m : total (l ++ m) = total l + total m.
Proof. induction l; cbn [total app]; lia. Qed.
Lemma placed_app l : forall m o, placed o (l ++ m) = (placed o l ++ placed (o + total l) m)%list.
Proof.
  induction l as [ | x l IH ]; intros m o; cbn [placed app total]; [ rewrite Z.add_0_r; auto | ].
  rewrite IH; do 3 f_equal; lia.
Qed.
Lemma placed_snoc l x : rev (placed 0 (l ++ [x])) = (total l, x) :: rev (placed 0 l).
Proof. rewrite placed_app, rev_app_distr; reflexivity. Qed.
Lemma placed_length l : forall o, List.length (placed o l) = List.length l.
Proof. induction l; intros; cbn; auto. Qed.

Lemma find_app x (l m : list (Z * X)) : find_at x (l ++ m) = match find_at x l with Some k => Some k | None => find_at x m end.
Proof. induction l as [ | (y, k) l IH ]; cbn [find_at app]; auto; destruct (y =? x); auto. Qed.
Lemma find_notin x (l : list (Z * X)) : (forall y k, In (y, k) l -> y <> x) -> find_at x l = None.
Proof.
  induction l as [ | (y, k) l IH ]; cbn [find_at In]; intros H; auto.
  destruct (Z.eqb_spec y x) as [ E | ]; [ destruct (H y k (or_introl eq_refl) E) | apply IH; intros; eapply H; right; eauto ].
Qed.
Lemma total_nonneg l : Forall (fun x => 0 < sz x) l -> 0 <= total l.
Proof. induction 1; cbn [total]; lia. Qed.
Lemma placed_range l : Forall (fun x => 0 < sz x) l -> forall o y k, In (y, k) (placed o l) -> o <= y < o + total l.
Proof.
  induction 1 as [ | x l P F IH ]; intros o y k; cbn [placed In total]; [ tauto | ].
  pose proof (total_nonneg l F); intros [ E | E ]; [ injection E as <- <-; lia | apply IH in E; lia ].
Qed.
Lemma find_placed a x b : Forall (fun x => 0 < sz x) (a ++ x :: b) -> find_at (total a) (rev (placed 0 (a ++ x :: b))) = Some x.
Proof.
  intros F; apply Forall_app in F; destruct F as (_ & F); inversion F as [ | ? ? P F' ]; subst.
  rewrite placed_app, rev_app_distr; cbn [placed rev]; rewrite <- app_assoc, find_app, find_notin.
  - cbn [app find_at]; rewrite Z.add_0_l, Z.eqb_refl; reflexivity.
  - intros y k I; apply in_rev in I; apply placed_range in I; auto; lia.
Qed.
Lemma find_end l : Forall (fun x => 0 < sz x) l -> find_at (total l) (rev (placed 0 l)) = None.
Proof. intros F; apply find_notin; intros y k I; apply in_rev in I; apply placed_range in I; auto; lia. Qed.
End Placed.

Definition ksz (k : kernel) : Z := aligned_size (k_size k).
Definition prefixed (k : kernel) : Prop := 16 <= k_size k < 2 ^ 32.
Lemma ksz_ge k : prefixed k -> 16 <= ksz k.
Proof. unfold prefixed, ksz; intros H; rewrite aligned_round8 by lia; pose proof (round8_bounds (k_size k)); lia. Qed.
Lemma ksz_pos l : Forall prefixed l -> Forall (fun k => 0 < ksz k) l.
Proof. intros F; eapply Forall_impl; [ | exact F ]; intros k K; apply ksz_ge in K; lia. Qed.
(* all but the last one have a child *)
Fixpoint chain (ks : list kernel) : Prop :=
  match ks with [] => True | [_] => True | k :: ks' => k_child k = true /\ chain ks' end.

Lemma destroy_chain cap : forall b a fuel, Forall prefixed (a ++ b) -> chain b -> (List.length b < fuel)%nat ->
  total ksz (a ++ b) <= cap ->
  destroy_at fuel cap (rev (placed ksz 0 (a ++ b))) (total ksz a) =
  if forallb k_child b && (cap <? total ksz (a ++ b) + 8) then UB else Ok (map k_id b).
Proof.
  induction b as [ | k b IH ]; intros a fuel F C L T; (destruct fuel as [ | fuel ]; [ cbn in L; lia | ]); cbn [destroy_at].
  - rewrite app_nil_r in *; cbn [forallb andb map]; destruct (cap <? total ksz a + 8); auto.
    rewrite find_end by (apply ksz_pos; auto); auto.
  - pose proof (ksz_pos _ F) as FP; rewrite find_placed by auto.
    pose proof (proj2 (proj1 (Forall_app _ _ _) F)) as FB; inversion FB as [ | ? ? PK FB' ]; subst.
    pose proof (ksz_ge k PK); pose proof (total_nonneg ksz b (ksz_pos _ FB')).
    rewrite total_app in *; cbn [total] in *.
    destruct (Z.ltb_spec cap (total ksz a + 8)); [ lia | ].
    cbn [forallb map]; destruct (k_child k) eqn:KC; cbn [andb].
    + change (total ksz a + aligned_size (k_size k)) with (total ksz a + ksz k).
      specialize (IH (a ++ [k])%list fuel); rewrite <- app_assoc in IH; cbn [app] in IH.
      rewrite (total_app ksz a [k]), (total_app ksz a (k :: b)) in IH; cbn [total] in IH; rewrite Z.add_0_r in IH.
      rewrite IH; auto.
      * destruct (forallb k_child b && (cap <? total ksz a + (ksz k + total ksz b) + 8)); reflexivity.
      * destruct b; cbn [chain] in *; tauto.
      * cbn in L; lia.
    + destruct b as [ | k2 b ]; [ reflexivity | destruct C; congruence ].
Qed.

(* what is left of a chain is a chain *)
Lemma chain_app a b : chain (a ++ b) -> chain a /\ (b <> [] -> forallb k_child a = true).
Proof.
  induction a as [ | k a IH ]; cbn [app chain forallb]; auto.
  destruct a as [ | k2 a ].
  - cbn [app]; split; auto; intros NB; destruct b; [ congruence | ]; destruct H as (-> & _); auto.
  - cbn [app] in *; intros (K & C); destruct (IH C) as (I1 & I2); split; [ split; auto | ].
    intros NB; rewrite K; cbn [andb]; apply (I2 NB).
Qed.

Lemma grown_ge b n : n <= grown b n.
Proof. unfold grown; destruct (Z.ltb_spec n (b_capacity b * 3 / 2)); lia. Qed.

Lemma destroy_all done cap : Forall prefixed done -> chain done -> total ksz done <= cap ->
  destroy_at (S (List.length (rev (placed ksz 0 done)))) cap (rev (placed ksz 0 done)) 0 =
  if forallb k_child done && (cap <? total ksz done + 8) then UB else Ok (map k_id done).
Proof.
  intros F C T; rewrite rev_length, placed_length.
  exact (destroy_chain cap done [] (S (List.length done)) F C ltac:(lia) T).
Qed.

(* where it stops: the kernels made, and the capacity then *)
Lemma construct_spec : forall ks done cap, Forall prefixed (done ++ ks) -> chain (done ++ ks) -> total ksz done <= cap ->
  exists made rest cap', ks = (made ++ rest)%list /\ total ksz (done ++ made) <= cap' /\
  (Forall (fun k => k_alloc k = true /\ k_ctor k = true) ks -> rest = []) /\
  construct ks cap (total ksz done) (rev (placed ksz 0 done)) (map k_id done) =
    if forallb k_child (done ++ made) && (cap' <? total ksz (done ++ made) + 8) then UB
    else Ok (map k_id (done ++ made), map k_id (done ++ made)).
Proof.
  assert (STOP : forall done ks cap, Forall prefixed (done ++ ks) -> chain (done ++ ks) -> total ksz done <= cap ->
    (do d <- destroy_at (S (List.length (rev (placed ksz 0 done)))) cap (rev (placed ksz 0 done)) 0; Ok (map k_id done, d)) =
    if forallb k_child (done ++ []) && (cap <? total ksz (done ++ []) + 8) then UB
    else Ok (map k_id (done ++ []), map k_id (done ++ []))).
  { intros done ks cap F C T; rewrite !app_nil_r; rewrite destroy_all; auto.
    - destruct (forallb k_child done && (cap <? total ksz done + 8)); reflexivity.
    - apply Forall_app in F; tauto.
    - apply chain_app in C; tauto. }
  induction ks as [ | k ks IH ]; intros done cap F C T; cbn [construct].
  - exists [], [], cap; split; [ reflexivity | split; [ rewrite app_nil_r; auto | split; [ auto | ] ] ].
    exact (STOP done [] cap F C T).
  - change (aligned_size (k_size k)) with (ksz k); set (size' := total ksz done + ksz k).
    destruct ((cap <? size') && negb (k_alloc k)) eqn:AL.
    + exists [], (k :: ks), cap; rewrite (STOP done (k :: ks) cap F C T), !app_nil_r; split; [ reflexivity | split; [ auto | split; [ | reflexivity ] ] ].
      intros X; inversion X as [ | ? ? (Y & _) _ ]; rewrite Y, andb_false_r in AL; discriminate.
    + set (cap1 := if cap <? size' then grown (Buf None cap size' 0) size' else cap).
      assert (CS : size' <= cap1) by (unfold cap1; destruct (Z.ltb_spec cap size'); [ apply grown_ge | auto ]).
      assert (PK : prefixed k) by (apply Forall_app in F; destruct F as (_ & F); inversion F; auto).
      pose proof (ksz_ge k PK) as KG.
      destruct (k_ctor k) eqn:CT.
      * replace (done ++ k :: ks)%list with ((done ++ [k]) ++ ks)%list in F, C by (rewrite <- app_assoc; reflexivity).
        assert (T' : total ksz (done ++ [k]) = size') by (rewrite total_app; cbn [total]; unfold size'; lia).
        destruct (IH (done ++ [k])%list cap1 F C ltac:(lia)) as (made & rest & cap2 & -> & T2 & R & E).
        exists (k :: made), rest, cap2; rewrite <- app_assoc in T2, E; cbn [app] in T2, E; split; [ reflexivity | split; [ auto | split ] ].
        -- intros X; inversion X; auto.
        -- rewrite placed_snoc, map_app, T' in E; cbn [map] in E; exact E.
      * exists [], (k :: ks), cap1; rewrite (STOP done (k :: ks) cap1 F C ltac:(unfold size' in *; lia)), !app_nil_r; split; [ reflexivity | split; [ | split; [ | reflexivity ] ] ].
        -- unfold size' in *; lia.
        -- intros X; inversion X as [ | ? ? (_ & Y) _ ]; congruence.
Qed.

(* ---------------------------------------------------------------- call graphs *)
Definition small (n : node) : Prop := 0 <= n_size n < 2 ^ 32.
Lemma nsz_pos n : small n -> 24 <= node_size n.
Proof.
  unfold small, node_size; intros H; rewrite !aligned_round8 by lia; pose proof (round8_bounds (n_size n)).
  change (round8 24) with 24; lia.
Qed.
Lemma nsz_all l : Forall small l -> Forall (fun n => 0 < node_size n) l.
Proof. intros F; eapply Forall_impl; [ | exact F ]; intros k K; apply nsz_pos in K; lia. Qed.

Lemma destroy_nodes : forall b a fuel, Forall small (a ++ b) -> (List.length b < fuel)%nat ->
  destroy_graph fuel false (rev (placed node_size 0 (a ++ b))) (total node_size (a ++ b)) (total node_size a) = Ok (map n_id b).
Proof.
  induction b as [ | k b IH ]; intros a fuel F L; (destruct fuel as [ | fuel ]; [ cbn in L; lia | ]); cbn [destroy_graph].
  - rewrite app_nil_r, Z.eqb_refl; reflexivity.
  - pose proof (nsz_all _ F) as FP; rewrite find_placed by auto.
    pose proof (proj2 (proj1 (Forall_app _ _ _) F)) as FB; inversion FB as [ | ? ? PK FB' ]; subst.
    pose proof (nsz_pos k PK); pose proof (total_nonneg node_size b (nsz_all _ FB')).
    specialize (IH (a ++ [k])%list fuel); rewrite <- app_assoc in IH; cbn [app] in IH.
    rewrite (total_app node_size a [k]) in IH; cbn [total] in IH; rewrite Z.add_0_r in IH.
    destruct (Z.eqb_spec (total node_size a) (total node_size (a ++ k :: b))) as [ E | _ ].
    { rewrite total_app in E; cbn [total] in E; lia. }
    rewrite IH; [ reflexivity | auto | cbn in L; lia ].
Qed.
Lemma destroy_all_nodes done : Forall small done ->
  destroy_graph (S (List.length (rev (placed node_size 0 done)))) false (rev (placed node_size 0 done)) (total node_size done) 0 = Ok (map n_id done).
Proof. intros F; rewrite rev_length, placed_length; exact (destroy_nodes done [] (S (List.length done)) F ltac:(lia)). Qed.

Lemma destroy_null l size fuel : size <> 0 -> destroy_graph (S fuel) true l size 0 = UB.
Proof. intros H; cbn [destroy_graph]; destruct (Z.eqb_spec 0 size); [ congruence | reflexivity ]. Qed.

Lemma graph_spec : forall ns done cap, Forall small (done ++ ns) -> 
  (exists made rest, ns = (made ++ rest)%list /\
    (Forall (fun n => n_alloc n = true /\ n_ctor n = true) ns -> rest = []) /\
    ((graph ns cap (total node_size done) (rev (placed node_size 0 done)) (map n_id done) = UB /\
        exists n rest', rest = n :: rest' /\ n_alloc n = false) \/
     (graph ns cap (total node_size done) (rev (placed node_size 0 done)) (map n_id done) =
        Ok (map n_id (done ++ made), map n_id (done ++ made)) /\ rest = []) \/
     (exists n rest', rest = n :: rest' /\ n_ctor n = false /\
      graph ns cap (total node_size done) (rev (placed node_size 0 done)) (map n_id done) =
        Ok (map n_id (done ++ made), map n_id (done ++ made) ++ [n_id n])))%list).
Proof.
  induction ns as [ | n ns IH ]; intros done cap F; cbn [graph].
  - exists [], []; repeat split; auto; right; left; rewrite !app_nil_r in *; rewrite destroy_all_nodes by auto; auto.
  - set (size' := total node_size done + node_size n).
    replace (done ++ n :: ns)%list with ((done ++ [n]) ++ ns)%list in F by (rewrite <- app_assoc; reflexivity).
    assert (FD : Forall small (done ++ [n])) by (apply Forall_app in F; tauto).
    assert (PN : small n) by (apply Forall_app in FD; destruct FD as (_ & X); inversion X; auto).
    pose proof (nsz_pos n PN); pose proof (total_nonneg node_size done (nsz_all _ (proj1 (proj1 (Forall_app _ _ _) FD)))).
    destruct ((cap <? size') && negb (n_alloc n)) eqn:AL.
    + exists [], (n :: ns); split; [ auto | split ].
      * intros X; inversion X as [ | ? ? (Y & _) _ ]; rewrite Y, andb_false_r in AL; discriminate.
      * left; rewrite destroy_null by (unfold size'; lia); split; auto; exists n, ns; split; auto.
        apply andb_true_iff in AL; destruct (n_alloc n); [ destruct AL; discriminate | auto ].
    + set (cap1 := if cap <? size' then grown (Buf None cap size' 0) size' else cap).
      assert (T' : total node_size (done ++ [n]) = size') by (rewrite total_app; cbn [total]; unfold size'; lia).
      destruct (n_ctor n) eqn:CT.
      * destruct (IH (done ++ [n])%list cap1 F) as (made & rest & -> & R & E).
        rewrite placed_snoc, map_app, T', <- app_assoc in E; cbn [map app] in E.
        exists (n :: made), rest; split; [ auto | split ]; [ intros X; inversion X; auto | ].
        destruct E as [ (E & EX) | [ E | (m & r & E1 & E2 & E3) ] ]; [ left | right; left | right; right; exists m, r ]; auto.
      * exists [], (n :: ns); split; [ auto | split ].
        -- intros X; inversion X as [ | ? ? (_ & Y) _ ]; congruence.
        -- right; right; exists n, ns; repeat split; auto; rewrite <- placed_snoc, <- T', destroy_all_nodes by auto.
           cbn [bind]; rewrite app_nil_r, map_app; reflexivity.
Qed.
