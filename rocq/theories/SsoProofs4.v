From Verif Require Import Base SsoModel SsoSpec SsoProofs SsoProofs2 SsoProofs3.

Section Ops4.
Variable NP : Z.
Hypothesis HNP : NP = 0 \/ NP = 1.
Notation Inv := (Inv NP).
Notation rep := (rep NP).

Definition others (s s' : st) (i : nat) : Prop := forall j, j <> i -> vals s' j = vals s j.
Lemma others_trans s s1 s2 i : others s s1 i -> others s1 s2 i -> others s s2 i.
Proof. intros A B j N. rewrite (B j N). now apply A. Qed.

(** Writing through data() inside the value. *)
Lemma wr_ok s a i u v w d : Inv s a -> a i = Some (u ++ v ++ w) -> len v = len d -> Forall isbyte d ->
  exists s', wr s i (len u) d = Ok s' /\ Inv s' (upd a i (Some (u ++ d ++ w))) /\ others s s' i.
Proof.
  intros I E L B. pose proof I as (I1 & _). specialize (I1 i). rewrite E in I1. destruct (vals s i) as [o|] eqn:V; [|contradiction].
  pose proof (len_nonneg u). pose proof (len_nonneg v). pose proof (len_nonneg w).
  assert (LL : len (u ++ d ++ w) = len (u ++ v ++ w)) by (rewrite !len_app; lia).
  destruct (rep_cases NP HNP _ _ _ I1) as [(S & OW & Eo & LC & BC)|(ad & k & t & S & OW & Eo & M & A & H' & K & BC)].
  - unfold wr. rewrite V, S. rewrite Eo. unfold iobj.
    assert (E2 : ((u ++ v ++ w) ++ repeat 0 (15 - Datatypes.length (u ++ v ++ w))) ++ [len (u ++ v ++ w)] = u ++ v ++ (w ++ repeat 0 (15 - Datatypes.length (u ++ v ++ w)) ++ [len (u ++ v ++ w)])) by now rewrite <- !app_assoc.
    rewrite E2, splice_at by auto. cbn [bind]. eexists. split; [reflexivity|].
    assert (E3 : u ++ d ++ w ++ repeat 0 (15 - Datatypes.length (u ++ v ++ w)) ++ [len (u ++ v ++ w)] = iobj (u ++ d ++ w)).
    { unfold iobj. rewrite LL. replace (List.length (u ++ d ++ w)) with (List.length (u ++ v ++ w)) by (unfold len in LL; lia). now rewrite <- !app_assoc. }
    rewrite E3. split.
    + apply (inv_put_inline NP HNP s a i); auto; [unfold own; now rewrite V| |lia]. apply Forall_app in BC as (BU & BC). apply Forall_app in BC as (_ & BW). apply Forall_app. split; auto. apply Forall_app. auto.
    + intros j Nj. cbn [vals set_val]. unfold upd. now rewrite (eqb_false j i Nj).
  - rewrite (wr_heap s i o ad (to_le 8 k) u v (w ++ t) (len u) d); auto.
    + eexists. split; [reflexivity|]. destruct K as (K1 & K2 & K3 & K4). apply Forall_app in BC as (BU & BC). apply Forall_app in BC as (_ & BW). split; [|intros j _; reflexivity].
      apply (inv_rewrite NP s a i ad k (u ++ v ++ w) (u ++ d ++ w) t); auto.
      * unfold own. now rewrite V.
      * apply Forall_app. split; auto. apply Forall_app. auto.
      * unfold okblock. rewrite LL. auto.
      * intros j. cbn [vals]. rewrite LL. destruct (Nat.eqb_spec j i) as [->|]; auto. now rewrite V, Eo.
      * intros x. cbn [heap]. unfold updz, block. now rewrite <- !app_assoc.
    + rewrite H'. unfold block. now rewrite <- !app_assoc.
Qed.

Definition full (s : st) (choice : choices) (i : nat) : Prop := ~ offers s choice \/ exists o k, vals s i = Some o /\ capacity NP (heap s) o = Ok k /\ 2 ^ 61 <= k.
Definition outcome_of (s : st) (choice : choices) (i : nat) (r : outcome st) (Q : st -> Prop) : Prop := (exists s', r = Ok s' /\ Q s') \/ (r = Throw "bad_alloc" /\ full s choice i).
Lemma result_outcome s choice i r (Q : st -> Prop) : result s choice r Q -> outcome_of s choice i r Q.
Proof. intros [X|(X & Y)]; [left; auto|right; split; auto; now left]. Qed.

Lemma resize_ok s a choice i o c n : Inv s a -> a i = Some c -> vals s i = Some o -> 0 <= n < 2 ^ 62 -> (is_sso o = true -> n <= 15 - NP -> Z.lor (len c) n = n) ->
  result s choice (resize NP s choice i n) (fun s' => exists c', Inv s' (upd a i (Some c')) /\ resized c n c' /\ others s s' i).
Proof.
  intros I E V Hn O. unfold resize. destruct (reserve_ok NP HNP s a choice i c n I E ltac:(lia)) as [(s1 & o1 & k1 & E1 & I1 & V1 & V1' & C1 & L1 & S1)|(E1 & X)]; rewrite E1; cbn [bind].
  - left. destruct (set_size_ok NP HNP s1 a i o1 c k1 n I1 E V1' C1 ltac:(lia)) as (s' & c' & E2 & I2 & RS & V2).
    + intros S. destruct (S1 S) as (Vo & Ln). apply O; auto. congruence.
    + exists s'. split; auto. exists c'. split; [auto|split; [auto|]]. intros j Nj. rewrite V2 by auto. now apply V1.
  - right. split; auto. destruct X as [X|X]; auto. lia.
Qed.
Lemma resize_grow_ok s a choice i c n : Inv s a -> a i = Some c -> 0 <= n < 2 ^ 62 ->
  outcome_of s choice i (resize_grow NP s choice i n) (fun s' => exists c', Inv s' (upd a i (Some c')) /\ resized c n c' /\ others s s' i).
Proof.
  intros I E Hn. unfold resize_grow. destruct (reserve_grow_ok NP HNP s a choice i c n I E Hn) as [(s1 & o1 & k1 & E1 & I1 & V1 & V1' & C1 & L1 & S1)|(E1 & X)]; rewrite E1; cbn [bind].
  - left. unfold resize. assert (R : reserve NP s1 None i n = Ok s1).
    { unfold reserve. rewrite V1', C1. cbn [bind]. replace (k1 <? n) with false by lia. reflexivity. }
    rewrite R. cbn [bind]. destruct (set_size_ok NP HNP s1 a i o1 c k1 n I1 E V1' C1 ltac:(lia)) as (s' & c' & E2 & I2 & RS & V2); [congruence|].
    exists s'. split; auto. exists c'. split; [auto|split; [auto|]]. intros j Nj. rewrite V2 by auto. now apply V1.
  - right. split; auto.
Qed.

Lemma upd_at {A} (a : nat -> A) i v : upd a i v i = v.
Proof. unfold upd. now rewrite Nat.eqb_refl. Qed.
Lemma upd_other {A} (a : nat -> A) i j v : j <> i -> upd a i v j = a j.
Proof. intros N. unfold upd. now rewrite (eqb_false j i N). Qed.
Lemma upd_upd {A} (a : nat -> A) i v w j : upd a i w j = upd (upd a i v) i w j.
Proof. unfold upd. destruct (Nat.eqb j i); auto. Qed.
Lemma resized_longer c n c' : resized c n c' -> len c <= n -> exists fill, c' = c ++ fill /\ len fill = n - len c.
Proof.
  intros (f & E & L & _) H. pose proof (len_nonneg c). rewrite firstn_all2 in E by (unfold len in *; lia). exists f. split; auto. rewrite E, len_app in L. lia.
Qed.

Lemma append_ok s a choice i p c d : Inv s a -> a i = Some c -> len c < 2 ^ 61 -> len d < 2 ^ 61 -> Forall isbyte d ->
  (forall s1 c', Inv s1 (upd a i (Some c')) -> others s s1 i -> rd s1 p (len d) = Ok d) ->
  outcome_of s choice i (append NP s choice i p (len d)) (fun s' => Inv s' (upd a i (Some (c ++ d)))).
Proof.
  intros I E LC LD B R. pose proof (len_nonneg c). pose proof (len_nonneg d). unfold append. destruct (inv_read NP HNP s a i c I E) as (o & V & _ & Z). rewrite V, Z.
  assert (U : u64 (len c + len d) = len c + len d) by (unfold u64; apply Z.mod_small; lia). rewrite U.
  destruct (resize_grow_ok s a choice i c (len c + len d) I E ltac:(lia)) as [(s1 & E1 & c' & I1 & RS & V1)|(E1 & X)]; rewrite E1; cbn [bind]; [|right; auto].
  left. rewrite (R s1 c' I1 V1). cbn [bind]. destruct (resized_longer c _ c' RS ltac:(lia)) as (f & -> & LF).
  destruct (wr_ok s1 _ i c f [] d I1) as (s2 & E2 & I2 & V2).
  - rewrite upd_at. now rewrite app_nil_r.
  - lia.
  - auto.
  - exists s2. split; auto. rewrite app_nil_r in I2. eapply inv_ext; [|exact I2]. intros j. apply upd_upd.
Qed.

(** The sources operations read from. *)
Lemma src_other s a s1 a1 i j d o : Inv s a -> a j = Some d -> vals s j = Some o -> j <> i -> Inv s1 a1 -> a1 j = Some d -> others s s1 i -> rd s1 (data_ptr j o) (len d) = Ok d.
Proof.
  intros I E V N I1 E1 O. destruct (inv_read NP HNP s1 a1 j d I1 E1) as (o1 & V1 & R & _). rewrite (O j N), V in V1. injection V1 as <-. exact R.
Qed.
Lemma src_ext s d : rd s (Ext d) (len d) = Ok d.
Proof. cbn [rd]. rewrite rd_from by (pose proof (len_nonneg d); lia). unfold len. now rewrite Nat2Z.id, firstn_all. Qed.

Lemma plus_ok s a choice k i j c d : Inv s a -> a k = None -> a i = Some c -> a j = Some d -> len c < 2 ^ 61 -> len d < 2 ^ 61 ->
  result s choice (plus NP s choice k i j) (fun s' => Inv s' (upd a k (Some (c ++ d)))).
Proof.
  intros I NK Ei Ej LC LD. pose proof (len_nonneg c). pose proof (len_nonneg d). unfold plus.
  destruct (inv_read NP HNP s a i c I Ei) as (oi & Vi & _ & Zi). destruct (inv_read NP HNP s a j d I Ej) as (oj & Vj & _ & Zj). rewrite Vi, Vj, Zi, Zj.
  assert (U : u64 (len c + len d) = len c + len d) by (unfold u64; apply Z.mod_small; lia). rewrite U.
  assert (Nik : i <> k) by congruence. assert (Njk : j <> k) by congruence.
  assert (VK : vals s k = None) by now apply (inv_none NP s a).
  set (s0 := set_val s k (Some blank)). assert (I0 : Inv s0 (upd a k (Some []))).
  { apply (inv_put_inline NP HNP s a k); auto; [unfold own; now rewrite VK|change (len (@nil Z)) with 0; lia]. }
  assert (O0 : others s s0 k) by (intros x Nx; unfold s0; cbn [vals set_val]; now apply upd_other).
  assert (V0 : vals s0 k = Some blank) by (unfold s0; cbn [vals set_val]; apply upd_at).
  assert (BC : Forall isbyte c) by (destruct (inv_get NP s a i c I Ei) as (x & _ & R); inversion R; auto).
  assert (BD : Forall isbyte d) by (destruct (inv_get NP s a j d I Ej) as (x & _ & R); inversion R; auto).
  destruct (resize_ok s0 _ choice k blank [] (len c + len d) I0 (upd_at _ _ _) V0 ltac:(lia)) as [(s1 & E1 & c' & I1 & RS & V1)|(E1 & X)].
  { intros _ _. apply Z.lor_0_l. }
  2:{ rewrite E1. right. split; auto. }
  rewrite E1. cbn [bind]. left. assert (O1 : others s s1 k) by (eapply others_trans; eauto).
  assert (S1 : rd s1 (data_ptr i oi) (len c) = Ok c).
  { eapply (src_other s a s1 _ k i c oi I Ei Vi Nik I1); auto. rewrite !upd_other by auto. exact Ei. }
  rewrite S1. cbn [bind]. destruct (resized_longer _ _ _ RS) as (f & -> & LF); [change (len (@nil Z)) with 0; lia|]. cbn [app] in *. change (len (@nil Z)) with 0 in LF.
  destruct (split3 f 0 (len c)) as (x & y & z & -> & LX & LY); [lia|lia|lia|].
  assert (x = []) by (destruct x; auto; rewrite len_cons in LX; pose proof (len_nonneg x); lia). subst x. cbn [app] in *. rewrite len_app in LF.
  destruct (wr_ok s1 _ k [] y z c I1) as (s2 & E2 & I2 & V2); [now rewrite upd_at|auto|auto|]. cbn [app] in *. change (len (@nil Z)) with 0 in E2. rewrite E2. cbn [bind].
  assert (S2 : rd s2 (data_ptr j oj) (len d) = Ok d).
  { eapply (src_other s a s2 _ k j d oj I Ej Vj Njk I2); [|eapply others_trans; eauto]. rewrite !upd_other by auto. exact Ej. }
  rewrite S2. cbn [bind]. destruct (wr_ok s2 _ k c z [] d I2) as (s3 & E3 & I3 & V3); [rewrite upd_at; now rewrite app_nil_r|lia|auto|].
  exists s3. split; auto. rewrite app_nil_r in I3. eapply inv_ext; [|exact I3]. intros x. unfold upd. destruct (Nat.eqb x k); auto.
Qed.

(** Assignment. *)
Lemma set_hobj ad m n : 0 <= n < 2 ^ 63 -> set_m_size (hobj ad m) (u64 (- n - 1)) = hobj ad n.
Proof.
  intros N. unfold hobj at 1. unfold set_m_size. rewrite firstn_len by now rewrite to_le_length. unfold hobj. f_equal. f_equal.
  assert (E2 : u64 (- n - 1) = 2 ^ 64 - 1 - n) by (unfold u64; replace (- n - 1) with (2 ^ 64 - 1 - n + (-1) * 18446744073709551616) by lia; rewrite Z.mod_add by lia; apply Z.mod_small; lia).
  rewrite E2. unfold u64. apply Z.mod_small. lia.
Qed.
Lemma split_nil {A} (l : list A) n : 0 <= n <= len l -> exists x y, l = x ++ y /\ len x = n.
Proof.
  intros H. exists (firstn (Z.to_nat n) l), (skipn (Z.to_nat n) l). rewrite firstn_skipn. split; auto. unfold len in *. rewrite firstn_length. lia.
Qed.
Lemma assign_ok s a choice i p c d : Inv s a -> a i = Some c -> len d < 2 ^ 61 -> Forall isbyte d -> rd s p (len d) = Ok d -> (p = Inl i -> len d <= 8) ->
  result s choice (assign NP s choice i p (len d)) (fun s' => Inv s' (upd a i (Some d))).
Proof.
  intros I E LD B R PI. pose proof (len_nonneg c). pose proof (len_nonneg d). pose proof I as (I1 & _). specialize (I1 i). rewrite E in I1. destruct (vals s i) as [o|] eqn:V; [|contradiction].
  assert (LO := inv_len NP HNP s a i o I V). unfold assign. rewrite V.
  destruct (rep_cases NP HNP _ _ _ I1) as [(S & OW & Eo & LC & BC)|(ad & k & t & S & OW & Eo & M & A & H' & K & BC)]; rewrite S.
  - assert (ON : own s i = None) by (unfold own; now rewrite V). unfold sso_capacity. destruct (Z.leb_spec (len d) (15 - NP)) as [L|L].
    + destruct (sso_assign_ok s i o p d V LO ltac:(lia)) as (s' & E' & H2 & V').
      { destruct p as [e|j|x]; [rewrite rd_set_val by discriminate; auto| |rewrite rd_set_val by discriminate; auto].
        destruct (Nat.eq_dec j i) as [->|Nj]; [|rewrite rd_set_val by congruence; auto]. rewrite rd_self_small; auto. }
      left. exists s'. split; auto. now apply (inv_put_inline NP HNP s a i s' d).
    + destruct (heap_assign_ok NP HNP s choice i o p d V LD R) as [(s' & x & E' & A & N & H2 & V')|(E' & X)].
      * left. exists s'. split; auto. apply (inv_put_heap NP s a i s' x (len d) d (NUL NP)); auto. apply (NUL_block NP HNP). lia.
      * right. auto.
  - pose proof K as (K1 & K2 & K3 & K4). rewrite (cap_heap NP (heap s) o ad k c t S M H' ltac:(lia)). cbn [bind].
    destruct (Z.leb_spec (len d) k) as [L|L].
    + left. rewrite R. cbn [bind]. destruct (split_nil (c ++ t) (len d)) as (y1 & r & E1 & L1); [rewrite len_app; destruct HNP; lia|].
      assert (LL : len (c ++ t) = len (y1 ++ r)) by congruence. rewrite !len_app in LL.
      destruct (split_nil r NP) as (y2 & z & -> & L2); [pose proof (len_nonneg r); destruct HNP; lia|]. rewrite len_app in LL.
      assert (BZ : Forall isbyte z). { assert (X : Forall isbyte (c ++ t)) by (apply Forall_app; auto). rewrite E1 in X. apply Forall_app in X as (_ & X). apply Forall_app in X. tauto. }
      rewrite (wr_heap s i o ad (to_le 8 k) [] y1 (y2 ++ z) 0 d); auto; [|rewrite H'; unfold block; cbn [app]; now rewrite E1]. cbn [bind app].
      rewrite (wr_heap _ i o ad (to_le 8 k) d y2 z (len d) (NUL NP)); auto; [|cbn [heap]; unfold updz; now rewrite Z.eqb_refl|now rewrite (NUL_len NP HNP)].
      cbn [bind vals]. rewrite V. eexists. split; [reflexivity|]. rewrite Eo, set_hobj by lia.
      apply (inv_rewrite NP s a i ad k c d (NUL NP ++ z)); auto.
      * unfold own. now rewrite V.
      * unfold okblock. rewrite len_app, (NUL_len NP HNP). split; [lia|split; [lia|split]].
        -- apply Forall_app. split; auto. apply NUL_bytes.
        -- intros ->. exists z. reflexivity.
      * intros x. cbn [heap set_val]. unfold updz. destruct (x =? ad); auto.
    + destruct (heap_assign_ok NP HNP s choice i o p d V LD R) as [(s' & x & E' & A' & N & H2 & V')|(E' & X)]; rewrite E'; cbn [bind]; [|right; auto].
      left. rewrite M. destruct (del_ok s' ad (block k c t)) as (s2 & E2 & V2 & H3).
      { rewrite H2. unfold updz. destruct (Z.eqb_spec ad x); congruence. }
      exists s2. split; auto. set (sx := mkst (vals s) (heap s2)).
      apply (inv_move NP HNP s a i o x (len d) c d (NUL NP) sx); auto.
      * apply (NUL_block NP HNP). lia.
      * intros z. unfold sx. cbn [heap]. rewrite H3, H2. unfold own. rewrite V, OW. unfold updz at 1. rewrite (Z.eqb_sym z). destruct (ad =? z); auto.
      * intros j. now rewrite V2, V'.
Qed.

(** Comparison. *)
Lemma equal_ok s a i j c d : Inv s a -> a i = Some c -> a j = Some d -> exists b, equal s i j = Ok b /\ (b = true <-> c = d).
Proof.
  intros I Ei Ej. unfold equal. destruct (inv_read NP HNP s a i c I Ei) as (oi & Vi & Ri & Zi). destruct (inv_read NP HNP s a j d I Ej) as (oj & Vj & Rj & Zj). rewrite Vi, Vj, Zi, Zj.
  destruct (Z.eqb_spec (len c) (len d)) as [L|L].
  - rewrite Ri, L, Rj. cbn [bind]. eexists. split; [reflexivity|]. destruct (list_eq_dec Z.eq_dec c d); split; congruence.
  - eexists. split; [reflexivity|]. split; [discriminate|]. intros ->. lia.
Qed.
End Ops4.
