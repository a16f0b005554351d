(** Lemmas for C159. *)
From Verif Require Import Base LinearIndexModel ConcatModel.
Open Scope Z_scope.

Lemma len_app : forall (a b : list Z), len (a ++ b) = len a + len b.
Proof. intros. unfold len. rewrite app_length. lia. Qed.
Lemma store_mid : forall a o b v, store (a ++ o :: b) (len a) v = Ok (a ++ v :: b).
Proof.
  intros a o b v. unfold store. rewrite len_app. unfold len. cbn [List.length].
  rewrite (proj2 (Z.leb_le 0 _)) by lia. rewrite (proj2 (Z.ltb_lt _ _)) by lia. cbn [andb]. rewrite Nat2Z.id.
  rewrite firstn_app, firstn_all, Nat.sub_diag. cbn [firstn]. rewrite app_nil_r.
  rewrite skipn_app, (skipn_all2 a) by lia. replace (S (List.length a) - List.length a)%nat with 1%nat by lia. reflexivity.
Qed.
Lemma copy_mid : forall src a old b, List.length old = List.length src -> copy (a ++ old ++ b) (len a) 1 src = Ok (a ++ src ++ b).
Proof.
  induction src as [|v src IH]; intros a old b L; destruct old as [|o old]; try discriminate L; cbn [copy app].
  - reflexivity.
  - injection L as L. rewrite store_mid. cbn [bind]. replace (a ++ v :: old ++ b)%list with ((a ++ [v]) ++ old ++ b)%list by (rewrite <- app_assoc; reflexivity).
    replace (len a + 1) with (len (a ++ [v])) by (rewrite len_app; reflexivity). rewrite (IH (a ++ [v])%list old b L). rewrite <- app_assoc. reflexivity.
Qed.
Lemma range_in : forall s f n, 0 <= s < n -> s <= f <= n -> n < 2 ^ 63 ->
  apply_single_linear_index (mk_irange s f 1) n = Ok (if s <? f then mk_linidx false s 1 (f - s) else mk_linidx false 0 1 0).
Proof.
  intros s f n S F N. unfold apply_single_linear_index. cbn [r_step r_start r_finish]. cbn [Z.eqb Z.ltb Z.compare].
  unfold pos_range, pos_start, pos_end. rewrite (proj2 (Z.leb_le 0 s)), (proj2 (Z.ltb_lt s n)) by lia. cbn [bind].
  rewrite (proj2 (Z.leb_le 0 f)), (proj2 (Z.leb_le f n)) by lia. cbn [bind]. unfold sub64, chk64.
  destruct (is_s64 (f - s)) eqn:I; [|exfalso; unfold is_s64, INT64_MIN, INT64_MAX in I; apply andb_false_iff in I as [I|I]; apply Z.leb_gt in I; lia].
  cbn [bind]. destruct (Z.ltb_spec 0 (f - s)), (Z.ltb_spec s f); try lia; reflexivity.
Qed.
Lemma range_out : forall s f n, 0 <= n <= s -> apply_single_linear_index (mk_irange s f 1) n = Throw "irange_out_of_bounds".
Proof.
  intros s f n S. unfold apply_single_linear_index. cbn [r_step r_start r_finish]. cbn [Z.eqb Z.ltb Z.compare].
  unfold pos_range, pos_start. rewrite (proj2 (Z.leb_le 0 s)) by lia. rewrite (proj2 (Z.ltb_ge s n)) by lia. reflexivity.
Qed.
Lemma assign_mid : forall a old b src, (old <> [] \/ b <> []) -> List.length old = List.length src -> len (a ++ old ++ b) < 2 ^ 63 ->
  assign_range (a ++ old ++ b) (mk_irange (len a) (len a + len src) 1) src = Ok (a ++ src ++ b).
Proof.
  intros a old b src NE L B. unfold assign_range.
  assert (LO : len old = len src) by (unfold len; lia). rewrite !len_app in *.
  assert (0 <= len a) by (unfold len; lia). assert (0 <= len src) by (unfold len; lia). assert (0 <= len b) by (unfold len; lia).
  assert (P : 0 < len old + len b).
  { destruct old as [|o old]; [destruct b as [|o b]; [destruct NE; congruence|]|]; unfold len in *; cbn [List.length] in *; lia. }
  rewrite range_in by lia. cbn [bind]. destruct (Z.ltb_spec (len a) (len a + len src)) as [LT|GE]; cbn [o_size o_start o_stride].
  - replace (len a + len src - len a) with (len src) by lia. rewrite Z.eqb_refl. apply copy_mid. exact L.
  - assert (Z0 : len src = 0) by lia. destruct src; [|unfold len in Z0; cbn in Z0; lia]. destruct old; [|discriminate L]. reflexivity.
Qed.
