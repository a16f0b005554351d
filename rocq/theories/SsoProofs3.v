From Verif Require Import Base SsoModel SsoSpec SsoProofs SsoProofs2.

Section Ops3.
Variable NP : Z.
Hypothesis HNP : NP = 0 \/ NP = 1.
Notation Inv := (Inv NP).
Notation rep := (rep NP).

Lemma inv_ext s a a' : (forall j, a' j = a j) -> Inv s a -> Inv s a'.
Proof. intros E (I1 & I2 & I3). split; [|split; auto]. intros j. rewrite E. apply I1. Qed.
Lemma upd_same (a : abs) i c : a i = Some c -> forall j, a j = upd a i (Some c) j.
Proof. intros E j. unfold upd. destruct (Nat.eqb_spec j i) as [->|]; auto. Qed.
Lemma cap_heap h o ad k c t : is_sso o = false -> m_pointer o = ad -> h ad = Some (block k c t) -> 0 <= k < 2 ^ 63 -> capacity NP h o = Ok k.
Proof.
  intros S M H K. unfold capacity, heap_capacity. rewrite S, M, H. unfold block. rewrite len_app, len_to_le. pose proof (len_nonneg (c ++ t)).
  replace (8 <=? _) with true by lia. rewrite firstn_len by now rewrite to_le_length. rewrite of_le_to_le; auto. change (8 * Z.of_nat 8) with 64. lia.
Qed.
Lemma wr_heap s i o ad h8 x y z k d : vals s i = Some o -> is_sso o = false -> m_pointer o = ad -> heap s ad = Some (h8 ++ x ++ y ++ z) -> len h8 = 8 -> len x = k -> len d = len y ->
  wr s i k d = Ok (mkst (vals s) (updz (heap s) ad (Some (h8 ++ x ++ d ++ z)))).
Proof.
  intros V S M H L X D. unfold wr. rewrite V, S, M, H. replace (h8 ++ x ++ y ++ z) with ((h8 ++ x) ++ y ++ z) by now rewrite <- app_assoc.
  rewrite splice_at; [|rewrite len_app; lia|auto]. cbn [bind]. now rewrite <- app_assoc.
Qed.

(** Replacing the contents of the buffer a value owns. *)
Lemma inv_rewrite s a i ad k c c' t' s' : Inv s a -> a i = Some c -> own s i = Some ad -> 0 < ad < 2 ^ 64 -> Forall isbyte c' -> okblock NP k c' t' ->
  (forall j, vals s' j = if Nat.eqb j i then Some (hobj ad (len c')) else vals s j) ->
  (forall x, heap s' x = if x =? ad then Some (block k c' t') else heap s x) -> Inv s' (upd a i (Some c')).
Proof.
  intros I E O A B K V H. pose proof (len_nonneg c'). assert (OW : owner (hobj ad (len c')) = Some ad) by (apply owner_hobj; auto; destruct K as (_ & K & _); lia).
  apply (inv_upd NP s a i (hobj ad (len c')) c' s'); auto.
  - rewrite OW. econstructor; eauto. rewrite H. now rewrite Z.eqb_refl.
  - intros x X _. rewrite H. destruct (Z.eqb_spec x ad) as [->|]; auto. congruence.
  - intros x X Y. congruence.
  - intros x X Y. congruence.
  - apply put_upd.
Qed.
(** Moving the contents to a fresh buffer. *)
Lemma inv_move s a i o ad k c c' t' s1 s' : Inv s a -> vals s i = Some o -> a i = Some c -> heap s ad = None -> 0 < ad < 2 ^ 64 -> Forall isbyte c' -> okblock NP k c' t' ->
  vals s1 = vals s -> (forall x, heap s1 x = if match own s i with Some y => y =? x | None => false end then None else updz (heap s) ad (Some (block k c' t')) x) ->
  (forall j, vals s' j = if Nat.eqb j i then Some (hobj ad (len c')) else vals s j) -> heap s' = heap s1 -> Inv s' (upd a i (Some c')).
Proof.
  intros I Vi E N A B K V1 H1 V H. pose proof (len_nonneg c'). assert (OW : owner (hobj ad (len c')) = Some ad) by (apply owner_hobj; auto; destruct K as (_ & K & _); lia).
  assert (NO : own s i <> Some ad).
  { unfold own. rewrite Vi. intros X. destruct I as (I1 & _). specialize (I1 i). rewrite Vi, E in I1. destruct (rep_cases NP HNP _ _ _ I1) as [(_ & O & _)|(b & k2 & t & _ & O & _ & _ & _ & H2 & _)]; congruence. }
  assert (HAD : heap s' ad = Some (block k c' t')).
  { rewrite H, H1. unfold updz. rewrite Z.eqb_refl. destruct (own s i) as [y|]; auto. destruct (Z.eqb_spec y ad); auto. congruence. }
  apply (inv_upd NP s a i (hobj ad (len c')) c' s'); auto.
  - rewrite OW. econstructor; eauto.
  - intros x X Y. rewrite H, H1. unfold updz. destruct (own s i) as [y|]; [destruct (Z.eqb_spec y x); [congruence|]|]; (destruct (Z.eqb_spec x ad); [congruence|auto]).
  - intros x X Y. rewrite H, H1, X, Z.eqb_refl. auto.
  - intros x X Y. congruence.
  - apply put_upd.
Qed.

(** Reading [size() + NulPadding] bytes. *)
Lemma read_nul s a i o c : Inv s a -> vals s i = Some o -> a i = Some c -> rd s (data_ptr i o) (size o + NP) = Ok (c ++ NUL NP) /\ size o = len c.
Proof.
  intros I V E. pose proof I as (I1 & _). specialize (I1 i). rewrite V, E in I1. destruct (rep_read NP HNP s i c o V I1) as (_ & Z). split; auto. rewrite Z. pose proof (len_nonneg c).
  unfold data_ptr. destruct (rep_cases NP HNP _ _ _ I1) as [(S & O & -> & L & B)|(ad & k & t & S & O & -> & M & A & H' & (K1 & K2 & K3 & K4) & B)]; rewrite S.
  - cbn [rd]. rewrite V. destruct (iobj_facts c B ltac:(lia)) as (_ & _ & _ & L16). rewrite rd_from by (unfold len in *; lia). f_equal. unfold iobj, NUL. rewrite <- app_assoc.
    destruct HNP as [E' | E']; rewrite E' in *.
    + cbn [Z.eqb]. rewrite app_nil_r. apply firstn_len. unfold len. lia.
    + change (1 =? 0) with false. cbn iota. replace (15 - List.length c)%nat with (Datatypes.S (14 - List.length c))%nat by (unfold len in L; lia). cbn [repeat].
      change ((0 :: repeat 0 (14 - List.length c)) ++ [len c]) with ([0] ++ repeat 0 (14 - List.length c) ++ [len c]). rewrite app_assoc. apply firstn_len. rewrite app_length. unfold len. cbn [List.length]. lia.
  - cbn [rd]. rewrite M, H'. unfold block. rewrite skipn_len by now rewrite to_le_length. rewrite rd_from by (rewrite len_app; lia). f_equal. unfold NUL.
    destruct HNP as [E' | E']; rewrite E' in *.
    + cbn [Z.eqb]. rewrite app_nil_r. apply firstn_len. unfold len. lia.
    + change (1 =? 0) with false. cbn iota. destruct (K4 eq_refl) as (t' & ->). change (0 :: t') with ([0] ++ t'). rewrite app_assoc. apply firstn_len. rewrite app_length. unfold len. cbn [List.length]. lia.
Qed.
Lemma inv_cap s a i o c : Inv s a -> vals s i = Some o -> a i = Some c -> exists k, capacity NP (heap s) o = Ok k /\ len c <= k < 2 ^ 63 /\ 0 <= k.
Proof.
  intros (I1 & _) V E. specialize (I1 i). rewrite V, E in I1. pose proof (len_nonneg c).
  destruct (rep_cases NP HNP _ _ _ I1) as [(S & O & -> & L & B)|(ad & k & t & S & O & Eo & M & A & H' & (K1 & K2 & K3 & K4) & B)].
  - unfold capacity. rewrite S. exists (sso_capacity NP). unfold sso_capacity. split; [auto|lia].
  - exists k. split; [|lia]. eapply cap_heap; eauto. lia.
Qed.

Lemma reserve_ok s a choice i c n : Inv s a -> a i = Some c -> 0 <= n < 2 ^ 63 ->
  (exists s' o' k', reserve NP s choice i n = Ok s' /\ Inv s' a /\ (forall j, j <> i -> vals s' j = vals s j) /\ vals s' i = Some o' /\ capacity NP (heap s') o' = Ok k' /\ n <= k' < 2 ^ 63 /\
     (is_sso o' = true -> vals s i = Some o' /\ n <= 15 - NP)) \/
  (reserve NP s choice i n = Throw "bad_alloc" /\ (~ offers s choice \/ 2 ^ 62 <= n)).
Proof.
  intros I E Hn. destruct (inv_get NP s a i c I E) as (o & V & R). destruct (inv_cap s a i o c I V E) as (k & EK & LK & K0). unfold reserve. rewrite V, EK. cbn [bind].
  destruct (Z.ltb_spec k n) as [L|L].
  2:{ left. exists s, o, k. split; [auto|split; [auto|split; [auto|split; [auto|split; [auto|split; [lia|]]]]]]. intros S. split; auto. unfold capacity in EK. rewrite S in EK. injection EK as <-. exact L. }
  destruct (alloc_spec NP HNP s choice n Hn) as [(ad & b0 & EA & A & N & LB & BB)|(EA & X)]; rewrite EA; cbn [bind]; [|right; auto]. left.
  destruct (read_nul s a i o c I V E) as (RD & SZ). pose proof (len_nonneg c).
  destruct (split3 b0 0 8) as (x1 & y1 & z1 & -> & L1 & L2); [lia|lia|lia|].
  assert (x1 = []) by (destruct x1; auto; rewrite len_cons in L1; pose proof (len_nonneg x1); lia). subst x1.
  rewrite splice_at; [|reflexivity|now rewrite len_to_le, L2]. cbn [bind app]. rewrite RD. cbn [bind]. rewrite !len_app in LB. change (len (@nil Z)) with 0 in LB.
  destruct (split3 z1 0 (len (c ++ NUL NP))) as (x2 & y2 & z2 & -> & L3 & L4); [lia|apply len_nonneg|rewrite len_app, (NUL_len NP HNP); lia|].
  assert (x2 = []) by (destruct x2; auto; rewrite len_cons in L3; pose proof (len_nonneg x2); lia). subst x2. cbn [app] in *.
  rewrite splice_at; [|now rewrite len_to_le|auto]. cbn [bind]. rewrite SZ.
  set (s1 := mkst (vals s) (updz (heap s) ad (Some (to_le 8 n ++ (c ++ NUL NP) ++ z2)))).
  assert (BK : okblock NP n c (NUL NP ++ z2)).
  { unfold okblock. rewrite len_app in LB. rewrite L4 in LB. rewrite len_app in *. rewrite (NUL_len NP HNP) in *. split; [lia|split; [lia|split]].
    - apply Forall_app. split; [apply NUL_bytes|]. apply Forall_app in BB as (_ & BB). apply Forall_app in BB. tauto.
    - intros E1. exists z2. unfold NUL. rewrite E1. reflexivity. }
  assert (EB : to_le 8 n ++ (c ++ NUL NP) ++ z2 = block n c (NUL NP ++ z2)) by (unfold block; now rewrite <- app_assoc).
  assert (D : exists s2, (if is_sso o then Ok s1 else del s1 (m_pointer o)) = Ok s2 /\ vals s2 = vals s /\
    (forall x, heap s2 x = if match own s i with Some y => y =? x | None => false end then None else updz (heap s) ad (Some (block n c (NUL NP ++ z2))) x)).
  { assert (OW : own s i = owner o) by (unfold own; now rewrite V). rewrite OW.
    destruct (rep_cases NP HNP _ _ _ R) as [(S & O & _)|(old & k2 & t & S & O & _ & M & _ & H2 & _)]; rewrite S, O.
    - exists s1. split; [auto|split; [auto|]]. intros x. unfold s1. cbn [heap]. now rewrite EB.
    - destruct (del_ok s1 (m_pointer o) (block k2 c t)) as (s2 & E1 & V1 & H1).
      + unfold s1. cbn [heap]. unfold updz. destruct (Z.eqb_spec (m_pointer o) ad); congruence.
      + exists s2. split; [auto|split; [auto|]]. intros x. rewrite H1, M. unfold updz at 1. rewrite (Z.eqb_sym x). destruct (old =? x); auto. unfold s1. cbn [heap]. now rewrite EB. }
  destruct D as (s2 & ED & V2 & H2). rewrite ED. cbn [bind]. rewrite hobj_set' by (auto; try lia; eapply inv_len; eauto).
  eexists. exists (hobj ad (len c)), n. split; [reflexivity|].
  destruct (hobj_facts ad (len c) A ltac:(lia)) as (HS & _ & _ & HM).
  assert (I' : Inv (set_val s2 i (Some (hobj ad (len c)))) (upd a i (Some c))).
  { assert (BC : Forall isbyte c) by (inversion R; auto). eapply (inv_move s a i o ad n c c (NUL NP ++ z2) s2); eauto. intros j. cbn [vals set_val]. unfold upd. rewrite V2. reflexivity. }
  split; [eapply inv_ext; [|exact I']; now apply upd_same|]. split; [|split; [|split; [|split; [lia|congruence]]]].
  - intros j Nj. cbn [vals set_val]. unfold upd. rewrite (eqb_false j i Nj), V2. auto.
  - cbn [vals set_val]. unfold upd. now rewrite Nat.eqb_refl.
  - eapply (cap_heap _ _ ad n c (NUL NP ++ z2)); auto. cbn [heap set_val]. rewrite H2. unfold updz. rewrite Z.eqb_refl.
    assert (NO : own s i <> Some ad).
    { unfold own. rewrite V. intros X. destruct (rep_cases NP HNP _ _ _ R) as [(_ & O & _)|(b & k2 & t & _ & O & _ & _ & _ & H2' & _)]; congruence. }
    destruct (own s i) as [y|]; auto. destruct (Z.eqb_spec y ad); auto. congruence.
Qed.

Lemma reserve_grow_ok s a choice i c n : Inv s a -> a i = Some c -> 0 <= n < 2 ^ 62 ->
  (exists s' o' k', reserve_grow NP s choice i n = Ok s' /\ Inv s' a /\ (forall j, j <> i -> vals s' j = vals s j) /\ vals s' i = Some o' /\ capacity NP (heap s') o' = Ok k' /\ n <= k' < 2 ^ 63 /\ is_sso o' = false) \/
  (reserve_grow NP s choice i n = Throw "bad_alloc" /\ (~ offers s choice \/ exists o k, vals s i = Some o /\ capacity NP (heap s) o = Ok k /\ 2 ^ 61 <= k)).
Proof.
  intros I E Hn. destruct (inv_get NP s a i c I E) as (o & V & R). destruct (inv_cap s a i o c I V E) as (k & EK & LK & K0). unfold reserve_grow. rewrite V, EK. cbn [bind].
  set (m := Z.max n (u64 (k * 3) / 2)). assert (U : 0 <= u64 (k * 3) < 2 ^ 64) by (unfold u64; apply Z.mod_pos_bound; lia).
  assert (U2 : 0 <= u64 (k * 3) / 2 < 2 ^ 63) by (split; [apply Z.div_pos; lia|apply Z.div_lt_upper_bound; lia]).
  destruct (reserve_ok s a choice i c m I E ltac:(lia)) as [(s' & o' & k' & ER & I' & VO & V' & C' & L' & S')|(ER & X)]; rewrite ER.
  - left. exists s', o', k'. split; [auto|split; [auto|split; [auto|split; [auto|split; [auto|split; [lia|]]]]]].
    destruct (is_sso o') eqn:S; auto. destruct (S' eq_refl) as (Vo & Lm). rewrite V in Vo. injection Vo as <-. unfold capacity in EK. rewrite S in EK. injection EK as EK.
    unfold sso_capacity in EK. unfold m in Lm. assert (X : u64 (k * 3) / 2 > 15 - NP) by (rewrite <- EK; destruct HNP as [-> | ->]; reflexivity). lia.
  - right. split; auto. destruct X as [X|X]; auto. right. exists o, k. split; [auto|split; [auto|]]. destruct (Z.leb_spec (2 ^ 61) k); auto. exfalso.
    assert (u64 (k * 3) = k * 3) by (unfold u64; apply Z.mod_small; lia). assert (u64 (k * 3) / 2 < 2 ^ 62) by (apply Z.div_lt_upper_bound; lia). lia.
Qed.

(** Changing the size within the capacity. *)
Lemma lor_word x y n : 0 <= x < 2 ^ 56 -> 0 <= y -> 0 <= n -> Z.lor (x + 2 ^ 56 * y) (n * 2 ^ 56) = x + 2 ^ 56 * Z.lor y n.
Proof.
  intros X Y N. assert (D : forall v, 0 <= v -> x + 2 ^ 56 * v = Z.lor x (Z.shiftl v 56)).
  { intros v V. rewrite Z.shiftl_mul_pow2 by lia. rewrite Z.lor_comm, lor_disjoint by lia. lia. }
  rewrite D by auto. rewrite <- Z.shiftl_mul_pow2 by lia. rewrite <- Z.lor_assoc, <- Z.shiftl_lor. symmetry. apply D. now apply Z.lor_nonneg.
Qed.
Lemma lor_range a b : 0 <= a <= 15 -> 0 <= b <= 15 -> a <= Z.lor a b /\ b <= Z.lor a b /\ Z.lor a b <= 15.
Proof.
  intros A B. assert (G : forall y x, 0 <= x -> 0 <= y -> x <= Z.lor x y).
  { intros y x X Y. assert (E : Z.lor x y = x + Z.ldiff y x).
    { rewrite <- (Z.lor_ldiff_and y x) at 1. rewrite Z.lor_comm. rewrite <- Z.lor_assoc. rewrite (Z.land_comm y x). replace (Z.lor (Z.land x y) x) with x.
      - rewrite Z.lor_comm. rewrite <- Z.lxor_lor; [rewrite <- Z.add_nocarry_lxor; auto|].
        + apply Z.bits_inj'. intros k K. rewrite Z.land_spec, Z.ldiff_spec, Z.bits_0. destruct (Z.testbit x k), (Z.testbit y k); auto.
        + apply Z.bits_inj'. intros k K. rewrite Z.land_spec, Z.ldiff_spec, Z.bits_0. destruct (Z.testbit x k), (Z.testbit y k); auto.
      - apply Z.bits_inj'. intros k K. rewrite Z.lor_spec, Z.land_spec. destruct (Z.testbit x k), (Z.testbit y k); auto. }
    assert (0 <= Z.ldiff y x) by (apply Z.ldiff_nonneg; auto). lia. }
  split; [apply G; lia|split; [rewrite Z.lor_comm; apply G; lia|]].
  assert (Z.lor a b < 2 ^ 4); [|lia]. assert (0 <= Z.lor a b) by (apply Z.lor_nonneg; lia). destruct (Z.eq_dec (Z.lor a b) 0) as [->|NZ]; [lia|].
  apply Z.log2_lt_pow2; [lia|]. rewrite Z.log2_lor by lia. assert (LA : forall x, 0 <= x <= 15 -> Z.log2 x < 4).
  { intros x X. apply Z.le_lt_trans with (Z.log2 15); [apply Z.log2_le_mono; lia|reflexivity]. }
  apply Z.max_lub_lt; auto.
Qed.
Lemma sso_or c n : Forall isbyte c -> len c <= 15 -> 0 <= n <= 15 ->
  set_m_size (iobj c) (Z.lor (usize (iobj c)) (u64 (n * 2 ^ 56))) = (c ++ repeat 0 (15 - List.length c)) ++ [Z.lor (len c) n].
Proof.
  intros B L N. unfold iobj. set (x := c ++ repeat 0 (15 - List.length c)). assert (LX : List.length x = 15%nat) by (unfold x; rewrite app_length, repeat_length; unfold len in L; lia).
  assert (BX : Forall isbyte x) by (unfold x; apply Forall_app; split; auto; apply Forall_repeat0).
  destruct (usize_inline x (len c) LX BX) as (U & R). rewrite U. pose proof (len_nonneg c). assert (E : u64 (n * 2 ^ 56) = n * 2 ^ 56) by (unfold u64; apply Z.mod_small; lia).
  rewrite E, lor_word by lia. destruct (lor_range (len c) n ltac:(lia) N) as (M1 & M2 & M3). set (m := Z.lor (len c) n) in *. unfold set_m_size. rewrite firstn_app. replace (8 - List.length x)%nat with 0%nat by lia. rewrite firstn_O, app_nil_r.
  assert (E2 : u64 (of_le (skipn 8 x) + 2 ^ 56 * m) = of_le (skipn 8 x ++ [m])).
  { unfold u64. rewrite Z.mod_small by lia. rewrite of_le_app. unfold len. rewrite skipn_length, LX. cbn [of_le]. change (8 * Z.of_nat (15 - 8)) with 56. lia. }
  rewrite E2. replace 8%nat with (List.length (skipn 8 x ++ [m])) at 2 by (rewrite app_length, skipn_length, LX; reflexivity).
  rewrite to_le_of_le; [now rewrite app_assoc, firstn_skipn|]. apply Forall_app. split; [|constructor; auto; unfold isbyte; lia].
  rewrite <- (firstn_skipn 8 x) in BX. apply Forall_app in BX. tauto.
Qed.
(** What the inline resize leaves: the size byte is the OR of both sizes. *)
Definition ored (c : list Z) (n : Z) : list Z := firstn (Z.to_nat n) (c ++ repeat 0 (15 - List.length c)) ++ repeat 0 (Z.to_nat (Z.lor (len c) n - n)).
Lemma set_size_inline s i c n : vals s i = Some (iobj c) -> Forall isbyte c -> len c <= 15 -> 0 <= n <= 15 ->
  set_size NP s i n = Ok (set_val s i (Some (iobj (ored c n)))) /\ len (ored c n) = Z.lor (len c) n /\ Forall isbyte (ored c n).
Proof.
  intros V B L N. pose proof (len_nonneg c). destruct (lor_range (len c) n ltac:(lia) N) as (M1 & M2 & M3). unfold set_size, ored. rewrite V.
  destruct (iobj_facts c B L) as (S & _). rewrite S, sso_or by auto.
  set (x := c ++ repeat 0 (15 - List.length c)). assert (LX : List.length x = 15%nat) by (unfold x; rewrite app_length, repeat_length; unfold len in *; lia).
  assert (LF : len (firstn (Z.to_nat n) x) = n) by (unfold len; rewrite firstn_length, LX; lia). set (m := Z.lor (len c) n) in *.
  assert (LO : len (firstn (Z.to_nat n) x ++ repeat 0 (Z.to_nat (m - n))) = m) by (rewrite len_app, LF, len_repeat; lia).
  split; [|split; auto].
  - assert (ZZ := zero_rest x (firstn (Z.to_nat n) x) _ m LX ltac:(lia) ltac:(f_equal; rewrite firstn_length, LX; lia) eq_refl). rewrite LF in ZZ. rewrite ZZ. cbn [bind]. f_equal. f_equal. f_equal.
    unfold iobj. rewrite LO. f_equal. rewrite <- app_assoc. f_equal. rewrite <- repeat_app. f_equal. rewrite app_length, repeat_length. rewrite firstn_length, LX. lia.
  - apply Forall_app. split; [|apply Forall_repeat0]. assert (BX : Forall isbyte x) by (unfold x; apply Forall_app; split; auto; apply Forall_repeat0).
    rewrite <- (firstn_skipn (Z.to_nat n) x) in BX. apply Forall_app in BX. tauto.
Qed.

Definition resized (c : list Z) (n : Z) (c' : list Z) : Prop := exists fill, c' = firstn (Z.to_nat n) c ++ fill /\ len c' = n /\ (len c >= n -> fill = []).
Lemma Forall_firstn {A} (P : A -> Prop) n l : Forall P l -> Forall P (firstn n l).
Proof. intros F. rewrite <- (firstn_skipn n l) in F. apply Forall_app in F. tauto. Qed.
Lemma resized_app c n t : Forall isbyte c -> Forall isbyte t -> 0 <= n <= len c + len t -> resized c n (firstn (Z.to_nat n) (c ++ t)) /\ Forall isbyte (firstn (Z.to_nat n) (c ++ t)).
Proof.
  intros B T N. split; [|apply Forall_firstn, Forall_app; auto]. exists (firstn (Z.to_nat n - List.length c) t). split; [apply firstn_app|]. split.
  - unfold len in *. rewrite firstn_length, app_length. lia.
  - unfold len. intros X. replace (Z.to_nat n - List.length c)%nat with 0%nat by lia. reflexivity.
Qed.

Lemma set_size_ok s a i o c k n : Inv s a -> a i = Some c -> vals s i = Some o -> capacity NP (heap s) o = Ok k -> 0 <= n <= k ->
  (is_sso o = true -> Z.lor (len c) n = n) ->
  exists s' c', set_size NP s i n = Ok s' /\ Inv s' (upd a i (Some c')) /\ resized c n c' /\ (forall j, j <> i -> vals s' j = vals s j).
Proof.
  intros I E V C N O. pose proof I as (I1 & _). specialize (I1 i). rewrite V, E in I1. unfold set_size. rewrite V. pose proof (len_nonneg c).
  destruct (rep_cases NP HNP _ _ _ I1) as [(S & OW & -> & L & B)|(ad & k2 & t & S & OW & Eo & M & A & H' & K & B)].
  - unfold capacity in C. rewrite S in *. injection C as <-. unfold sso_capacity in N.
    destruct (set_size_inline s i c n V B ltac:(lia) ltac:(lia)) as (ES & LS & BS). unfold set_size in ES. rewrite V, S in ES. rewrite ES. specialize (O eq_refl).
    eexists. exists (ored c n). split; [reflexivity|]. split; [|split].
    + apply (inv_put_inline NP HNP s a i); auto; [unfold own; now rewrite V|lia].
    + unfold ored. rewrite O, Z.sub_diag. change (Z.to_nat 0) with 0%nat. cbn [repeat]. rewrite app_nil_r. apply resized_app; auto; [apply Forall_repeat0|rewrite len_repeat; unfold len in *; lia].
    + intros j Nj. cbn [vals set_val]. unfold upd. now rewrite (eqb_false j i Nj).
  - destruct K as (K1 & K2 & K3 & K4). assert (k2 = k) by (assert (X := cap_heap (heap s) o ad k2 c t S M H' ltac:(lia)); congruence). subst k2.
    rewrite S. destruct (resized_app c n t B K3) as (RS & BS); [destruct HNP; lia|]. set (c' := firstn (Z.to_nat n) (c ++ t)) in *.
    assert (LC : len c' = n) by (destruct RS as (f & _ & X & _); exact X).
    assert (EO : set_m_size o (u64 (- n - 1)) = hobj ad n).
    { rewrite Eo. unfold hobj at 1. unfold set_m_size. rewrite firstn_len by now rewrite to_le_length. unfold hobj. f_equal. f_equal.
      assert (E2 : u64 (- n - 1) = 2 ^ 64 - 1 - n) by (unfold u64; replace (- n - 1) with (2 ^ 64 - 1 - n + (-1) * 18446744073709551616) by lia; rewrite Z.mod_add by lia; apply Z.mod_small; lia).
      rewrite E2. unfold u64. apply Z.mod_small. lia. }
    rewrite EO. destruct (hobj_facts ad n A ltac:(lia)) as (HS & _ & HO & HM).
    assert (ES : skipn (Z.to_nat n) (c ++ t) = firstn (Z.to_nat NP) (skipn (Z.to_nat n) (c ++ t)) ++ skipn (Z.to_nat NP) (skipn (Z.to_nat n) (c ++ t))) by now rewrite firstn_skipn.
    set (y := firstn (Z.to_nat NP) (skipn (Z.to_nat n) (c ++ t))) in *. set (z := skipn (Z.to_nat NP) (skipn (Z.to_nat n) (c ++ t))) in *.
    assert (LY : len y = NP) by (unfold y, len in *; rewrite firstn_length, skipn_length, app_length; lia).
    assert (EC : c ++ t = c' ++ y ++ z) by (rewrite <- ES; unfold c'; now rewrite firstn_skipn).
    rewrite (wr_heap _ i (hobj ad n) ad (to_le 8 k) c' y z n (NUL NP)); auto.
    + eexists. exists c'. split; [reflexivity|]. split; [|split; [exact RS|]].
      * apply (inv_rewrite s a i ad k c c' (NUL NP ++ z)); auto.
        -- unfold own; now rewrite V.
        -- assert (LL : len (c ++ t) = len (c' ++ y ++ z)) by congruence. rewrite !len_app in LL. unfold okblock. rewrite len_app, (NUL_len NP HNP). split; [lia|split; [lia|split]].
           ++ apply Forall_app. split; [apply NUL_bytes|]. assert (X : Forall isbyte (c ++ t)) by (apply Forall_app; auto). rewrite EC in X. apply Forall_app in X as (_ & X). apply Forall_app in X. tauto.
           ++ intros E1. exists z. unfold NUL. rewrite E1. reflexivity.
        -- intros j. cbn [vals set_val]. unfold upd. now rewrite LC.
      * intros j Nj. cbn [vals set_val]. unfold upd. now rewrite (eqb_false j i Nj).
    + cbn [vals set_val]. unfold upd. now rewrite Nat.eqb_refl.
    + cbn [heap set_val]. rewrite H'. unfold block. now rewrite EC.
    + now rewrite (NUL_len NP HNP), LY.
Qed.
End Ops3.
