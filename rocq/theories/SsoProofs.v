From Verif Require Import Base SsoModel SsoSpec.

(** Byte lists. *)
Lemma len_app {A} (a b : list A) : len (a ++ b) = len a + len b.
Proof. unfold len. rewrite app_length. lia. Qed.
Lemma len_nonneg {A} (a : list A) : 0 <= len a.
Proof. unfold len. lia. Qed.
Lemma len_cons {A} (x : A) l : len (x :: l) = 1 + len l.
Proof. unfold len. cbn [List.length]. lia. Qed.
Lemma len_repeat {A} (x : A) n : len (repeat x n) = Z.of_nat n.
Proof. unfold len. now rewrite repeat_length. Qed.
Lemma to_le_length n x : List.length (to_le n x) = n.
Proof. revert x. induction n as [|n IH]; intros x; cbn [to_le List.length]; auto. Qed.
Lemma to_le_bytes n x : Forall isbyte (to_le n x).
Proof. revert x. induction n as [|n IH]; intros x; cbn [to_le]; constructor; auto. unfold isbyte. apply Z.mod_pos_bound. lia. Qed.
Lemma of_le_app a b : of_le (a ++ b) = of_le a + 2 ^ (8 * len a) * of_le b.
Proof.
  induction a as [|x a IH]; [unfold len; cbn [app of_le List.length]; change (2 ^ (8 * Z.of_nat 0)) with 1; lia|].
  cbn [app of_le]. rewrite IH, len_cons. replace (8 * (1 + len a)) with (8 + 8 * len a) by lia. pose proof (len_nonneg a). rewrite Z.pow_add_r by lia. change (2 ^ 8) with 256. ring.
Qed.
Lemma of_le_range l : Forall isbyte l -> 0 <= of_le l < 2 ^ (8 * len l).
Proof.
  induction 1 as [|x l B F IH]; [unfold len; cbn; lia|]. cbn [of_le]. rewrite len_cons. replace (8 * (1 + len l)) with (8 + 8 * len l) by lia.
  pose proof (len_nonneg l). rewrite Z.pow_add_r by lia. change (2 ^ 8) with 256. unfold isbyte in B. lia.
Qed.
Lemma to_le_of_le l : Forall isbyte l -> to_le (List.length l) (of_le l) = l.
Proof.
  induction 1 as [|x l B F IH]; [reflexivity|]. cbn [List.length to_le of_le]. unfold isbyte in B.
  replace ((x + 256 * of_le l) mod 256) with x; [replace ((x + 256 * of_le l) / 256) with (of_le l)|].
  - now rewrite IH.
  - symmetry. rewrite Z.mul_comm. rewrite Z.div_add by lia. rewrite Z.div_small; lia.
  - symmetry. rewrite Z.mul_comm. rewrite Z.mod_add by lia. now rewrite Z.mod_small.
Qed.
Lemma of_le_to_le n x : 0 <= x < 2 ^ (8 * Z.of_nat n) -> of_le (to_le n x) = x.
Proof.
  revert x. induction n as [|n IH]; intros x H; [change (2 ^ (8 * Z.of_nat 0)) with 1 in H; cbn; lia|].
  cbn [to_le of_le]. rewrite IH; [pose proof (Z.div_mod x 256); lia|].
  replace (8 * Z.of_nat (S n)) with (8 + 8 * Z.of_nat n) in H by lia. rewrite Z.pow_add_r in H by lia. change (2 ^ 8) with 256 in H.
  split; [apply Z.div_pos; lia|apply Z.div_lt_upper_bound; lia].
Qed.
Lemma len_to_le n x : len (to_le n x) = Z.of_nat n.
Proof. unfold len. now rewrite to_le_length. Qed.
Lemma firstn_len {A} (a b : list A) n : n = List.length a -> firstn n (a ++ b) = a.
Proof. intros ->. rewrite firstn_app, firstn_all, Nat.sub_diag. cbn [firstn]. apply app_nil_r. Qed.
Lemma skipn_len {A} (a b : list A) n : n = List.length a -> skipn n (a ++ b) = b.
Proof. intros ->. rewrite skipn_app, skipn_all, Nat.sub_diag. reflexivity. Qed.
Lemma splice_at a x b d k : k = len a -> len d = len x -> splice (a ++ x ++ b) k d = Ok (a ++ d ++ b).
Proof.
  intros -> E. unfold splice. rewrite !len_app, E. pose proof (len_nonneg a). pose proof (len_nonneg x). pose proof (len_nonneg b).
  replace (_ && _) with true by (symmetry; rewrite andb_true_iff, !Z.leb_le; lia). f_equal. f_equal.
  - apply firstn_len. unfold len. lia.
  - f_equal. rewrite app_assoc. apply skipn_len. rewrite app_length. unfold len. lia.
Qed.
Lemma split3 {A} (l : list A) k n : 0 <= k -> 0 <= n -> k + n <= len l -> exists a x b, l = a ++ x ++ b /\ len a = k /\ len x = n.
Proof.
  intros Hk Hn H. exists (firstn (Z.to_nat k) l), (firstn (Z.to_nat n) (skipn (Z.to_nat k) l)), (skipn (Z.to_nat n) (skipn (Z.to_nat k) l)).
  rewrite !firstn_skipn. split; [auto|]. unfold len in *. rewrite !firstn_length, skipn_length. lia.
Qed.
Lemma Forall_repeat0 n : Forall isbyte (repeat 0 n).
Proof. apply Forall_forall. intros x I. apply repeat_spec in I. subst. unfold isbyte. lia. Qed.

(** Words of an object. *)
Lemma tail7 (l : list Z) n : List.length l = 15%nat -> skipn 8 (l ++ [n]) = skipn 8 l ++ [n].
Proof. intros E. rewrite skipn_app, E. reflexivity. Qed.
Lemma usize_inline l n : List.length l = 15%nat -> Forall isbyte l -> usize (l ++ [n]) = of_le (skipn 8 l) + 2 ^ 56 * n /\ 0 <= of_le (skipn 8 l) < 2 ^ 56.
Proof.
  intros E B. unfold usize. rewrite tail7 by auto. rewrite of_le_app. assert (L : len (skipn 8 l) = 7) by (unfold len; rewrite skipn_length; lia).
  rewrite L. change (8 * 7) with 56. cbn [of_le]. replace (n + 256 * 0) with n by lia. split; auto.
  assert (B' : Forall isbyte (skipn 8 l)) by (rewrite <- (firstn_skipn 8 l) in B; apply Forall_app in B; tauto).
  apply of_le_range in B'. rewrite L in B'. exact B'.
Qed.
Lemma signed_small x : 0 <= x < 2 ^ 63 -> to_signed 64 x = x.
Proof.
  intros H. unfold to_signed, wrap. rewrite Z.mod_small by lia. replace (x <? 2 ^ (64 - 1)) with true by lia. auto.
Qed.
Lemma signed_big x : 2 ^ 63 <= x < 2 ^ 64 -> to_signed 64 x = x - 2 ^ 64.
Proof. intros H. unfold to_signed, wrap. rewrite Z.mod_small by lia. replace (x <? 2 ^ (64 - 1)) with false by lia. auto. Qed.
Lemma inline_word l n : List.length l = 15%nat -> Forall isbyte l -> 0 <= n < 128 -> is_sso (l ++ [n]) = true /\ sso_size (l ++ [n]) = n.
Proof.
  intros E B R. destruct (usize_inline l n E B) as (U & X). split.
  - unfold is_sso, m_size. rewrite U, signed_small by lia. lia.
  - unfold sso_size. rewrite U, Z.add_comm, Z.mul_comm, Z.div_add_l by lia. rewrite Z.div_small by lia. lia.
Qed.
Definition hobj (a n : Z) : obj := to_le 8 a ++ to_le 8 (2 ^ 64 - 1 - n).
Lemma heap_word a n : 0 < a < 2 ^ 64 -> 0 <= n < 2 ^ 63 -> is_sso (hobj a n) = false /\ heap_size (hobj a n) = n /\ m_pointer (hobj a n) = a.
Proof.
  intros A N. unfold is_sso, heap_size, m_size, m_pointer, usize, hobj. rewrite skipn_len, firstn_len by now rewrite to_le_length.
  rewrite !of_le_to_le by (change (8 * Z.of_nat 8) with 64; lia). rewrite signed_big by lia. split; [lia|split; [|auto]]. unfold u64. replace (- (2 ^ 64 - 1 - n - 2 ^ 64) - 1) with n by lia. apply Z.mod_small. lia.
Qed.

(** Representation. *)
Definition owner (o : obj) : option Z := if is_sso o then None else Some (m_pointer o).
Section Inv.
Variable NP : Z.
Hypothesis HNP : NP = 0 \/ NP = 1.

Definition iobj (c : list Z) : obj := (c ++ repeat 0 (15 - List.length c)) ++ [len c].
Definition block (k : Z) (c t : list Z) : list Z := to_le 8 k ++ c ++ t.
Definition okblock (k : Z) (c t : list Z) : Prop :=
  len c + len t = k + NP /\ len c <= k < 2 ^ 63 /\ Forall isbyte t /\ (NP = 1 -> exists t', t = 0 :: t').
Inductive rep (h : Z -> option (list Z)) (c : list Z) : obj -> option Z -> Prop :=
| rep_inline : Forall isbyte c -> len c <= 15 - NP -> rep h c (iobj c) None
| rep_heap a k t : Forall isbyte c -> 0 < a < 2 ^ 64 -> h a = Some (block k c t) -> okblock k c t -> rep h c (hobj a (len c)) (Some a).

Lemma iobj_facts c : Forall isbyte c -> len c <= 15 -> is_sso (iobj c) = true /\ size (iobj c) = len c /\ owner (iobj c) = None /\ List.length (iobj c) = 16%nat.
Proof.
  intros B L. unfold len in L. assert (E : List.length (c ++ repeat 0 (15 - List.length c)) = 15%nat) by (rewrite app_length, repeat_length; lia).
  assert (B' : Forall isbyte (c ++ repeat 0 (15 - List.length c))) by (apply Forall_app; split; auto; apply Forall_repeat0).
  destruct (inline_word _ (len c) E B' ltac:(unfold len; lia)) as (S & Z). fold (iobj c) in S, Z. unfold size, owner. rewrite S. split; [auto|split; [exact Z|split; [auto|]]].
  unfold iobj. rewrite app_length, E. reflexivity.
Qed.
Lemma hobj_facts a n : 0 < a < 2 ^ 64 -> 0 <= n < 2 ^ 63 -> is_sso (hobj a n) = false /\ size (hobj a n) = n /\ owner (hobj a n) = Some a /\ m_pointer (hobj a n) = a.
Proof. intros A N. destruct (heap_word a n A N) as (S & Z & P). unfold size, owner. rewrite S, P. auto. Qed.
Lemma rep_owner h c o w : rep h c o w -> owner o = w.
Proof.
  intros R. inversion R as [B L|a k t B A H K]; subst.
  - apply iobj_facts; auto. lia.
  - apply hobj_facts; auto. destruct K as (_ & K & _). pose proof (len_nonneg c). lia.
Qed.

Definition Inv (s : st) (a : abs) : Prop :=
  (forall i, match vals s i, a i with None, None => True | Some o, Some c => rep (heap s) c o (owner o) | _, _ => False end) /\
  (forall ad b, heap s ad = Some b -> exists i o, vals s i = Some o /\ owner o = Some ad) /\
  (forall i j o o' ad, vals s i = Some o -> vals s j = Some o' -> owner o = Some ad -> owner o' = Some ad -> i = j).

Definition own (s : st) (i : nat) : option Z := match vals s i with Some o => owner o | None => None end.

Lemma inv_get s a i c : Inv s a -> a i = Some c -> exists o, vals s i = Some o /\ rep (heap s) c o (owner o).
Proof. intros (I & _) E. specialize (I i). rewrite E in I. destruct (vals s i) as [o|]; [eauto|contradiction]. Qed.
Lemma inv_none s a i : Inv s a -> a i = None -> vals s i = None.
Proof. intros (I & _) E. specialize (I i). rewrite E in I. destruct (vals s i) as [o|]; [contradiction|auto]. Qed.

Lemma rep_frame h h' c o w : rep h c o w -> (forall ad, w = Some ad -> h' ad = h ad) -> rep h' c o w.
Proof.
  intros R F. inversion R as [B L|a k t B A H K]; subst; [now constructor|]. econstructor; eauto. rewrite F; auto.
Qed.
Lemma inv_upd s a i o' c' s' a' : Inv s a -> (forall j, vals s' j = if Nat.eqb j i then Some o' else vals s j) ->
  rep (heap s') c' o' (owner o') ->
  (forall ad, owner o' <> Some ad -> own s i <> Some ad -> heap s' ad = heap s ad) ->
  (forall ad, own s i = Some ad -> owner o' <> Some ad -> heap s' ad = None) ->
  (forall ad, owner o' = Some ad -> own s i <> Some ad -> heap s ad = None) ->
  put a i (Some c') a' -> Inv s' a'.
Proof.
  intros (I1 & I2 & I3) V R F1 F2 F3 P.
  assert (OI : forall j o ad, j <> i -> vals s j = Some o -> owner o = Some ad -> own s i <> Some ad).
  { intros j o ad N Vj O Oi. unfold own in Oi. destruct (vals s i) as [oi|] eqn:Ei; [|discriminate]. apply N. symmetry. eapply I3; eauto. }
  assert (LIVE : forall j o ad, vals s j = Some o -> owner o = Some ad -> heap s ad <> None).
  { intros j o ad Vj O. specialize (I1 j). rewrite Vj in I1. destruct (a j) as [c|]; [|contradiction]. rewrite O in I1. inversion I1; subst. congruence. }
  assert (OO : forall j o ad, j <> i -> vals s j = Some o -> owner o = Some ad -> owner o' <> Some ad).
  { intros j o ad N Vj O O'. apply (LIVE j o ad Vj O). apply F3; auto. eapply OI; eauto. }
  split; [|split].
  - intros j. rewrite V, P. destruct (Nat.eqb_spec j i) as [->|N]; auto. specialize (I1 j).
    destruct (vals s j) as [o|] eqn:Vj; destruct (a j) as [c|]; auto. eapply rep_frame; eauto.
  - intros ad b H. destruct (option_map (fun x => x =? ad) (owner o')) as [[|]|] eqn:EO.
    + exists i, o'. rewrite V, Nat.eqb_refl. split; auto. destruct (owner o'); [|discriminate]. cbn in EO. injection EO as EO. f_equal. lia.
    + assert (NO : owner o' <> Some ad) by (destruct (owner o'); [cbn in EO; injection EO as EO; intros X; injection X as X; lia|discriminate]).
      destruct (own s i) as [x|] eqn:Eo; [destruct (Z.eq_dec x ad) as [->|Nx]; [rewrite F2 in H by auto; discriminate|]|].
      * rewrite F1 in H by congruence. destruct (I2 ad b H) as (j & o & Vj & Oj). exists j, o. split; auto. rewrite V. destruct (Nat.eqb_spec j i) as [->|]; auto; exfalso; unfold own in Eo; rewrite Vj in Eo; congruence.
      * rewrite F1 in H by congruence. destruct (I2 ad b H) as (j & o & Vj & Oj). exists j, o. split; auto. rewrite V. destruct (Nat.eqb_spec j i) as [->|]; auto; exfalso; unfold own in Eo; rewrite Vj in Eo; congruence.
    + assert (NO : owner o' <> Some ad) by (destruct (owner o'); [discriminate|congruence]).
      destruct (own s i) as [x|] eqn:Eo; [destruct (Z.eq_dec x ad) as [->|Nx]; [rewrite F2 in H by auto; discriminate|]|].
      * rewrite F1 in H by congruence. destruct (I2 ad b H) as (j & o & Vj & Oj). exists j, o. split; auto. rewrite V. destruct (Nat.eqb_spec j i) as [->|]; auto; exfalso; unfold own in Eo; rewrite Vj in Eo; congruence.
      * rewrite F1 in H by congruence. destruct (I2 ad b H) as (j & o & Vj & Oj). exists j, o. split; auto. rewrite V. destruct (Nat.eqb_spec j i) as [->|]; auto; exfalso; unfold own in Eo; rewrite Vj in Eo; congruence.
  - intros j k oj ok ad Vj Vk Oj Ok. rewrite V in Vj, Vk. destruct (Nat.eqb_spec j i) as [->|Nj]; destruct (Nat.eqb_spec k i) as [->|Nk]; auto.
    + injection Vj as <-. exfalso. eapply OO; eauto.
    + injection Vk as <-. exfalso. eapply OO; eauto.
    + eapply I3; eauto.
Qed.

(** Reading. *)
Lemma rd_from (l : list Z) n : 0 <= n <= len l -> (if (0 <=? n) && (n <=? len l) then Ok (firstn (Z.to_nat n) l) else UB) = Ok (firstn (Z.to_nat n) l).
Proof. intros H. replace (_ && _) with true; auto. symmetry. rewrite andb_true_iff, !Z.leb_le. lia. Qed.
Lemma rep_read s j c o : vals s j = Some o -> rep (heap s) c o (owner o) -> rd s (data_ptr j o) (len c) = Ok c /\ size o = len c.
Proof.
  intros V R. pose proof (len_nonneg c). unfold data_ptr. inversion R as [B L E O|a k t B A H' K E O]; subst.
  - destruct (iobj_facts c B ltac:(lia)) as (S & Z & _ & L16). rewrite S. split; auto. unfold rd. rewrite V.
    rewrite rd_from by (unfold len in *; lia). f_equal. unfold iobj. rewrite <- app_assoc. apply firstn_len. unfold len. lia.
  - destruct K as (K1 & K2 & K3 & K4). destruct (hobj_facts a (len c) A ltac:(lia)) as (S & Z & _ & M). rewrite S, M. split; auto. unfold rd. rewrite H'.
    unfold block. rewrite skipn_len by now rewrite to_le_length. rewrite rd_from by (rewrite len_app; pose proof (len_nonneg t); lia). f_equal. apply firstn_len. unfold len. lia.
Qed.
Lemma inv_read s a j c : Inv s a -> a j = Some c -> exists o, vals s j = Some o /\ rd s (data_ptr j o) (len c) = Ok c /\ size o = len c.
Proof. intros I E. destruct (inv_get s a j c I E) as (o & V & R). exists o. split; auto. now apply rep_read. Qed.
Lemma inv_contents s a : Inv s a -> forall j, contents s j = option_map Ok (a j).
Proof.
  intros I j. unfold contents. destruct (a j) as [c|] eqn:E.
  - destruct (inv_read s a j c I E) as (o & V & R & Z). now rewrite V, Z, R.
  - now rewrite (inv_none s a j I E).
Qed.
End Inv.
