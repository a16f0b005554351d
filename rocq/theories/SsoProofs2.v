From Verif Require Import Base SsoModel SsoSpec SsoProofs.

Section Ops.
Variable NP : Z.
Hypothesis HNP : NP = 0 \/ NP = 1.
Notation Inv := (Inv NP).
Notation rep := (rep NP).

Definition offers (s : st) (choice : choices) : Prop := match choice with Some (a, _) => 0 < a < 2 ^ 64 /\ heap s a = None | None => False end.
Lemma fresh_len g n : 0 <= n -> len (fresh g n) = n.
Proof. intros H. unfold fresh, len. rewrite map_length, seq_length. lia. Qed.
Lemma fresh_bytes g n : Forall isbyte (fresh g n).
Proof. apply Forall_forall. intros x I. apply in_map_iff in I as (k & <- & _). unfold isbyte. apply Z.mod_pos_bound. lia. Qed.
Lemma alloc_spec s choice n : 0 <= n < 2 ^ 63 ->
  (exists a b0, alloc NP s choice n = Ok (a, b0) /\ 0 < a < 2 ^ 64 /\ heap s a = None /\ len b0 = n + 8 + NP /\ Forall isbyte b0) \/
  (alloc NP s choice n = Throw "bad_alloc" /\ (~ offers s choice \/ 2 ^ 62 <= n)).
Proof.
  intros Hn. unfold alloc, offers. destruct choice as [(a, g)|]; [|right; tauto].
  assert (U : u64 (n + 8 + NP) = n + 8 + NP) by (unfold u64; apply Z.mod_small; lia). rewrite U.
  destruct (_ && _) eqn:C.
  - rewrite !andb_true_iff, !Z.ltb_lt in C. destruct (heap s a) eqn:H.
    + right. split; auto. left. intros (_ & X). congruence.
    + left. exists a, (fresh g (n + 8 + NP)). split; [auto|split; [lia|split; [auto|split; [apply fresh_len; lia|apply fresh_bytes]]]].
  - right. split; auto. rewrite !andb_false_iff, !Z.ltb_ge in C. destruct (Z.leb_spec (2 ^ 62) n); [right; auto|]. left. intros (X & _). lia.
Qed.
Lemma NUL_len : len (NUL NP) = NP.
Proof. unfold NUL. destruct HNP as [-> | ->]; reflexivity. Qed.
Lemma NUL_bytes : Forall isbyte (NUL NP).
Proof. unfold NUL. destruct (NP =? 0); repeat constructor; unfold isbyte; lia. Qed.
Lemma NUL_block d : len d < 2 ^ 62 -> okblock NP (len d) d (NUL NP).
Proof.
  intros L. unfold okblock. rewrite NUL_len. split; [auto|split; [lia|split; [apply NUL_bytes|]]]. intros ->. exists []. reflexivity.
Qed.
Lemma eqb_false i j : i <> j -> Nat.eqb i j = false.
Proof. apply Nat.eqb_neq. Qed.

Lemma to_le_shift n : 0 <= n < 256 -> to_le 8 (u64 (n * 2 ^ 56)) = repeat 0 7 ++ [n].
Proof.
  intros H. assert (E : u64 (n * 2 ^ 56) = of_le (repeat 0 7 ++ [n])).
  { rewrite of_le_app. unfold u64. rewrite Z.mod_small by lia. rewrite len_repeat. change (8 * Z.of_nat 7) with 56. change (of_le (repeat 0 7)) with 0. cbn [of_le]. lia. }
  rewrite E. apply (to_le_of_le (repeat 0 7 ++ [n])). apply Forall_app. split; [apply Forall_repeat0|]. constructor; auto.
Qed.

(** Setting an inline object: after overwriting the first [len d] bytes and
    zeroing up to byte 15. *)
Lemma zero_rest x d y n : List.length x = 15%nat -> len d <= 15 -> firstn (List.length d) x = d ->
  y = repeat 0 (Z.to_nat (15 - len d)) -> splice (x ++ [n]) (len d) y = Ok ((d ++ repeat 0 (15 - List.length d)) ++ [n]).
Proof.
  intros L D F ->. pose proof (len_nonneg d) as Hd0. assert (E : x ++ [n] = d ++ skipn (List.length d) x ++ [n]) by (rewrite app_assoc; f_equal; rewrite <- F at 1; now rewrite firstn_skipn).
  rewrite E. rewrite splice_at; [|auto|].
  - f_equal. rewrite app_assoc. f_equal. f_equal. f_equal. unfold len. lia.
  - rewrite len_repeat. unfold len in *. rewrite skipn_length. lia.
Qed.

Lemma sso_assign_ok s i o p d : vals s i = Some o -> List.length o = 16%nat -> len d <= 15 ->
  rd (set_val s i (Some (set_m_size o (len d * 2 ^ 56)))) p (len d) = Ok d ->
  exists s', sso_assign s i p (len d) = Ok s' /\ heap s' = heap s /\ forall j, vals s' j = if Nat.eqb j i then Some (iobj d) else vals s j.
Proof.
  intros V L D R. unfold sso_assign. rewrite V, R. cbn [bind]. unfold set_m_size. pose proof (len_nonneg d) as Hd0. rewrite to_le_shift by lia.
  set (x := firstn 8 o ++ repeat 0 7). replace (firstn 8 o ++ repeat 0 7 ++ [len d]) with (x ++ [len d]) by (unfold x; now rewrite app_assoc).
  assert (LX : List.length x = 15%nat) by (unfold x; rewrite app_length, firstn_length, L; reflexivity).
  assert (E : splice (x ++ [len d]) 0 d = Ok ((d ++ skipn (List.length d) x) ++ [len d])).
  { rewrite <- (firstn_skipn (List.length d) x) at 1. rewrite <- app_assoc. change (firstn (List.length d) x ++ ?z) with ([] ++ firstn (List.length d) x ++ z).
    rewrite splice_at; [cbn [app]; now rewrite <- app_assoc|reflexivity|]. unfold len in *. rewrite firstn_length. lia. }
  rewrite E. cbn [bind]. rewrite (zero_rest _ d _ (len d)); [| |auto|apply firstn_len; auto|reflexivity].
  2:{ rewrite app_length, skipn_length. unfold len in *. lia. }
  cbn [bind]. eexists. split; [reflexivity|]. split; [reflexivity|]. intros j. cbn [vals set_val]. unfold upd. destruct (Nat.eqb j i); reflexivity.
Qed.

Lemma hobj_set o a n : 0 < a < 2 ^ 64 -> 0 <= n < 2 ^ 63 -> set_m_size (set_m_pointer o a) (u64 (- n - 1)) = hobj a n.
Proof.
  intros A N. unfold set_m_size, set_m_pointer, hobj. rewrite firstn_len by now rewrite to_le_length.
  assert (E1 : u64 a = a) by (unfold u64; apply Z.mod_small; lia). rewrite E1.
  assert (E2 : u64 (- n - 1) = 2 ^ 64 - 1 - n) by (unfold u64; replace (- n - 1) with (2 ^ 64 - 1 - n + (-1) * 18446744073709551616) by lia; rewrite Z.mod_add by lia; apply Z.mod_small; lia).
  rewrite E2. unfold u64. rewrite Z.mod_small by lia. reflexivity.
Qed.
Lemma hobj_set' o a n : List.length o = 16%nat -> 0 < a < 2 ^ 64 -> 0 <= n < 2 ^ 63 -> set_m_pointer (set_m_size o (u64 (- n - 1))) a = hobj a n.
Proof.
  intros L A N. rewrite <- (hobj_set o a n) by auto. unfold set_m_size, set_m_pointer.
  rewrite (skipn_len (firstn 8 o)) by (rewrite firstn_length, L; reflexivity). rewrite firstn_len by now rewrite to_le_length. reflexivity.
Qed.

Lemma heap_assign_ok s choice i o p d : vals s i = Some o -> len d < 2 ^ 61 -> rd s p (len d) = Ok d ->
  (exists s' a, heap_assign NP s choice i p (len d) = Ok s' /\ 0 < a < 2 ^ 64 /\ heap s a = None /\
     heap s' = updz (heap s) a (Some (block (len d) d (NUL NP))) /\ forall j, vals s' j = if Nat.eqb j i then Some (hobj a (len d)) else vals s j) \/
  (heap_assign NP s choice i p (len d) = Throw "bad_alloc" /\ ~ offers s choice).
Proof.
  intros V D R. pose proof (len_nonneg d) as Hd0. unfold heap_assign. rewrite V. destruct (alloc_spec s choice (len d) ltac:(lia)) as [(a & b0 & E & A & H & L & B)|(E & X)].
  2:{ right. rewrite E. split; auto. destruct X as [X|X]; auto. lia. }
  left. rewrite E. cbn [bind]. rewrite R. cbn [bind]. destruct (split3 b0 0 8) as (x1 & y1 & z1 & -> & L1 & L2); [lia|lia|lia|].
  assert (x1 = []) by (destruct x1; auto; rewrite len_cons in L1; pose proof (len_nonneg x1); lia). subst x1.
  rewrite splice_at; [|reflexivity|now rewrite len_to_le, L2]. cbn [bind app]. rewrite !len_app in L. cbn [len List.length] in L. change (len (@nil Z)) with 0 in L.
  destruct (split3 z1 0 (len d)) as (x2 & y2 & z2 & -> & L3 & L4); [lia|lia|lia|].
  assert (x2 = []) by (destruct x2; auto; rewrite len_cons in L3; pose proof (len_nonneg x2); lia). subst x2. cbn [app].
  rewrite splice_at; [|now rewrite len_to_le|auto]. cbn [bind].
  replace (to_le 8 (len d) ++ d ++ z2) with ((to_le 8 (len d) ++ d) ++ z2 ++ []) by now rewrite app_nil_r, <- app_assoc.
  rewrite splice_at; [|rewrite len_app, len_to_le; reflexivity|rewrite NUL_len; rewrite !len_app in L; change (len (@nil Z)) with 0 in L; lia]. cbn [bind].
  eexists. exists a. split; [reflexivity|]. split; [auto|split; [auto|split]].
  - cbn [heap]. f_equal. unfold block. now rewrite app_nil_r, <- app_assoc.
  - intros j. cbn [vals]. unfold upd. destruct (Nat.eqb j i); auto. f_equal. apply hobj_set; auto. lia.
Qed.

Lemma put_upd (a : abs) i v : put a i v (upd a i v).
Proof. intros j. reflexivity. Qed.
Lemma own_rep s a i o c : Inv s a -> vals s i = Some o -> rep (heap s) c o (owner o) -> own s i = owner o.
Proof. intros _ V _. unfold own. now rewrite V. Qed.
Lemma owner_iobj d : Forall isbyte d -> len d <= 15 -> owner (iobj d) = None.
Proof. intros B L. now apply (iobj_facts d). Qed.
Lemma owner_hobj a n : 0 < a < 2 ^ 64 -> 0 <= n < 2 ^ 63 -> owner (hobj a n) = Some a.
Proof. intros A N. now apply (hobj_facts a n). Qed.

(** Inv after putting a fresh inline or heap object in a slot that owns nothing. *)
Lemma inv_put_inline s a i s' d : Inv s a -> own s i = None -> Forall isbyte d -> len d <= 15 - NP -> heap s' = heap s ->
  (forall j, vals s' j = if Nat.eqb j i then Some (iobj d) else vals s j) -> Inv s' (upd a i (Some d)).
Proof.
  intros I O B L H V. assert (OW : owner (iobj d) = None) by (apply owner_iobj; auto; lia).
  apply (inv_upd NP s a i (iobj d) d s'); auto.
  - rewrite OW. now constructor.
  - intros ad _ _. now rewrite H.
  - intros ad X. congruence.
  - intros ad X. congruence.
  - apply put_upd.
Qed.
Lemma inv_put_heap s a i s' ad k d t : Inv s a -> own s i = None -> Forall isbyte d -> 0 < ad < 2 ^ 64 -> heap s ad = None -> okblock NP k d t ->
  heap s' = updz (heap s) ad (Some (block k d t)) ->
  (forall j, vals s' j = if Nat.eqb j i then Some (hobj ad (len d)) else vals s j) -> Inv s' (upd a i (Some d)).
Proof.
  intros I O B A N K H V. pose proof (len_nonneg d) as Hd0. assert (OW : owner (hobj ad (len d)) = Some ad) by (apply owner_hobj; auto; destruct K as (_ & K & _); lia).
  apply (inv_upd NP s a i (hobj ad (len d)) d s'); auto.
  - rewrite OW. econstructor; eauto. rewrite H. unfold updz. now rewrite Z.eqb_refl.
  - intros x X _. rewrite H. unfold updz. destruct (Z.eqb_spec x ad) as [->|]; auto. congruence.
  - intros x X. congruence.
  - intros x X _. congruence.
  - apply put_upd.
Qed.

Lemma rd_set_val s i o p n : p <> Inl i -> rd (set_val s i o) p n = rd s p n.
Proof.
  intros N. destruct p as [d|j|a]; cbn [rd set_val vals heap]; auto. unfold upd. destruct (Nat.eqb_spec j i) as [->|]; auto. congruence.
Qed.
Lemma inv_len s a i o : Inv s a -> vals s i = Some o -> List.length o = 16%nat.
Proof.
  intros (I & _) V. specialize (I i). rewrite V in I. destruct (a i) as [c|]; [|contradiction]. inversion I as [B L E O|ad k t B A H' K E O]; subst.
  - apply (iobj_facts c); auto. lia.
  - unfold hobj. rewrite app_length, !to_le_length. reflexivity.
Qed.
Lemma rd_self_small s i o n x : vals s i = Some o -> List.length o = 16%nat -> 0 <= n <= 8 ->
  rd (set_val s i (Some (set_m_size o x))) (Inl i) n = rd s (Inl i) n.
Proof.
  intros V L H. cbn [rd set_val vals]. unfold upd. rewrite Nat.eqb_refl, V. unfold set_m_size.
  assert (L2 : len (firstn 8 o ++ to_le 8 (u64 x)) = 16) by (rewrite len_app, len_to_le; unfold len; rewrite firstn_length, L; reflexivity).
  assert (L3 : len o = 16) by (unfold len; lia). rewrite L2, L3. destruct (_ && _); auto. f_equal.
  rewrite firstn_app. rewrite firstn_length, L. replace (Z.to_nat n - Nat.min 8 16)%nat with 0%nat by (cbn; lia). rewrite firstn_O, app_nil_r.
  rewrite firstn_firstn. f_equal. lia.
Qed.

Definition result (s : st) (choice : choices) (r : outcome st) (Q : st -> Prop) : Prop :=
  (exists s', r = Ok s' /\ Q s') \/ (r = Throw "bad_alloc" /\ ~ offers s choice).

(** Construction. *)
Lemma construct_ok s a choice i p d : Inv s a -> a i = None -> Forall isbyte d -> len d < 2 ^ 61 -> rd s p (len d) = Ok d -> p <> Inl i ->
  result s choice (construct NP s choice i p (len d)) (fun s' => Inv s' (upd a i (Some d))).
Proof.
  intros I N B D R NP'. pose proof (len_nonneg d) as Hd0. unfold construct. set (s0 := set_val s i (Some blank)).
  assert (VN : vals s i = None) by now apply (inv_none NP s a).
  assert (ON : own s i = None) by (unfold own; now rewrite VN).
  assert (V0 : vals s0 i = Some blank) by (unfold s0, set_val, upd; cbn [vals]; now rewrite Nat.eqb_refl).
  assert (R0 : rd s0 p (len d) = Ok d) by (unfold s0; now rewrite rd_set_val).
  assert (VV : forall (f : obj) j, (if Nat.eqb j i then Some f else vals s0 j) = if Nat.eqb j i then Some f else vals s j).
  { intros f j. unfold s0, set_val, upd. cbn [vals]. destruct (Nat.eqb j i); auto. }
  unfold sso_capacity. destruct (Z.leb_spec (len d) (15 - NP)) as [L|L].
  - destruct (sso_assign_ok s0 i blank p d V0 eq_refl ltac:(lia)) as (s' & E & H' & V').
    { rewrite rd_set_val by auto. exact R0. }
    left. exists s'. split; auto. apply (inv_put_inline s a i s' d); auto. intros j. rewrite V'. apply VV.
  - destruct (heap_assign_ok s0 choice i blank p d V0 D R0) as [(s' & ad & E & A & N' & H' & V')|(E & X)].
    + left. exists s'. split; auto. apply (inv_put_heap s a i s' ad (len d) d (NUL NP)); auto; [apply NUL_block; lia|]. intros j. rewrite V'. apply VV.
    + right. split; auto.
Qed.

(** Deleting the buffer a value owns. *)
Lemma del_ok s ad b : heap s ad = Some b -> exists s', del s ad = Ok s' /\ vals s' = vals s /\ heap s' = updz (heap s) ad None.
Proof. intros H. unfold del. rewrite H. eexists. split; [reflexivity|split; reflexivity]. Qed.

Lemma rep_cases h c o : rep h c o (owner o) ->
  (is_sso o = true /\ owner o = None /\ o = iobj c /\ len c <= 15 - NP /\ Forall isbyte c) \/
  (exists a k t, is_sso o = false /\ owner o = Some a /\ o = hobj a (len c) /\ m_pointer o = a /\ 0 < a < 2 ^ 64 /\ h a = Some (block k c t) /\ okblock NP k c t /\ Forall isbyte c).
Proof.
  intros R. remember (owner o) as w eqn:EW. destruct R as [B L|a k t B A H K].
  - left. destruct (iobj_facts c B ltac:(lia)) as (S & _). auto.
  - right. exists a, k, t. destruct (hobj_facts a (len c) A) as (S & _ & _ & M); [destruct K as (_ & K & _); pose proof (len_nonneg c); lia|].
    split; [exact S|split; [reflexivity|split; [reflexivity|split; [exact M|auto]]]].
Qed.
Lemma inv_drop s a i o : Inv s a -> vals s i = Some o ->
  exists s1, (if is_sso o then Ok s else del s (m_pointer o)) = Ok s1 /\ vals s1 = vals s /\
    (forall ad, heap s1 ad = if match own s i with Some x => x =? ad | None => false end then None else heap s ad) /\ own s i = owner o.
Proof.
  intros I V. pose proof I as (I1 & _). specialize (I1 i). rewrite V in I1. destruct (a i) as [c|] eqn:E; [|contradiction].
  assert (OW : own s i = owner o) by (unfold own; now rewrite V). rewrite OW. destruct (rep_cases _ _ _ I1) as [(S & O & _)|(ad & k & t & S & O & _ & M & _ & H & _)]; rewrite S, O.
  - exists s. auto.
  - destruct (del_ok s (m_pointer o) (block k c t)) as (s1 & E1 & V1 & H1); [congruence|].
    exists s1. split; [auto|split; [auto|split; [|auto]]]. intros x. rewrite H1, M. unfold updz. rewrite (Z.eqb_sym x). destruct (ad =? x); auto.
Qed.
(** A value replaced by the blank one. *)
Lemma iobj_nil : iobj [] = blank.
Proof. reflexivity. Qed.
Lemma inv_blank s a i o s1 s' : Inv s a -> vals s i = Some o ->
  (forall ad, heap s1 ad = if match own s i with Some x => x =? ad | None => false end then None else heap s ad) -> heap s' = heap s1 ->
  (forall j, vals s' j = if Nat.eqb j i then Some blank else vals s j) -> Inv s' (upd a i (Some [])).
Proof.
  intros I V H1 H V'. assert (OB : owner blank = None) by reflexivity. apply (inv_upd NP s a i blank [] s'); auto.
  - rewrite OB, <- iobj_nil. constructor; [constructor|]. change (len (@nil Z)) with 0. lia.
  - intros ad _ X. rewrite H, H1. destruct (own s i) as [x|]; auto. destruct (Z.eqb_spec x ad); [congruence|auto].
  - intros ad X _. rewrite H, H1, X, Z.eqb_refl. auto.
  - intros ad X. congruence.
  - apply put_upd.
Qed.
Lemma clear_ok s a i c : Inv s a -> a i = Some c -> exists s', clear s i = Ok s' /\ Inv s' (upd a i (Some [])).
Proof.
  intros I E. destruct (inv_get NP s a i c I E) as (o & V & R). unfold clear. rewrite V. destruct (inv_drop s a i o I V) as (s1 & E1 & V1 & H1 & OW).
  rewrite E1. cbn [bind]. eexists. split; [reflexivity|]. eapply (inv_blank s a i o s1); eauto. intros j. cbn [vals set_val]. unfold upd. destruct (Nat.eqb j i); auto. now rewrite V1.
Qed.
Lemma destroy_ok s a i c : Inv s a -> a i = Some c -> exists s', destroy s i = Ok s' /\ Inv s' (upd a i None).
Proof.
  intros I E. destruct (clear_ok s a i c I E) as (s1 & E1 & I1). unfold clear in E1. unfold destroy. destruct (inv_get NP s a i c I E) as (o & V & R). rewrite V in *.
  assert (G : forall s2, Ok (set_val s2 i (Some blank)) = Ok s1 -> Inv (set_val s2 i None) (upd a i None)).
  { intros s2 X. injection X as X. subst s1. destruct I1 as (J1 & J2 & J3). split; [|split].
    - intros j. specialize (J1 j). cbn [vals heap set_val] in *. unfold upd in *. destruct (Nat.eqb_spec j i); auto.
    - intros ad b H. destruct (J2 ad b H) as (j & oj & Vj & Oj). exists j, oj. split; auto. cbn [vals set_val] in *. unfold upd in *.
      destruct (Nat.eqb_spec j i) as [->|]; auto. injection Vj as <-. discriminate Oj.
    - intros j k oj ok ad Vj Vk Oj Ok'. cbn [vals set_val] in *. unfold upd in *. destruct (Nat.eqb_spec j i) as [->|Nj]; [discriminate|]. destruct (Nat.eqb_spec k i) as [->|Nk]; [discriminate|].
      apply (J3 j k oj ok ad); auto; cbn [vals set_val]; unfold upd; rewrite ?(eqb_false j i Nj), ?(eqb_false k i Nk); auto. }
  destruct (is_sso o).
  - eexists. split; [reflexivity|]. apply G. exact E1.
  - destruct (del s (m_pointer o)) as [s2| | |]; try discriminate E1. cbn [bind] in *. eexists. split; [reflexivity|]. apply G. exact E1.
Qed.
Lemma move_ok s a i j c d : Inv s a -> a i = Some c -> a j = Some d -> exists s', move_assign s i j = Ok s' /\ Inv s' (upd (upd a i (Some d)) j (Some [])).
Proof.
  intros I Ei Ej. destruct (inv_get NP s a i c I Ei) as (o & V & R). unfold move_assign. rewrite V. destruct (inv_drop s a i o I V) as (s1 & E1 & V1 & H1 & OW).
  rewrite E1. cbn [bind]. destruct (inv_get NP s a j d I Ej) as (r & Vj & Rj). rewrite V1, Vj. eexists. split; [reflexivity|].
  destruct (Nat.eq_dec i j) as [->|Nij].
  - assert (X : Inv (set_val (set_val s1 j (Some r)) j (Some blank)) (upd a j (Some []))).
    { eapply (inv_blank s a j o s1); eauto. intros k. cbn [vals set_val]. unfold upd. destruct (Nat.eqb k j); auto. now rewrite V1. }
    destruct X as (J1 & J2 & J3). split; [|split; auto]. intros k. specialize (J1 k). cbn [vals set_val heap] in *. unfold upd in *. destruct (Nat.eqb k j); auto.
  - destruct I as (I1 & I2 & I3).
    assert (OJ : forall x, owner r = Some x -> own s i <> Some x).
    { intros x X Y. rewrite OW in Y. apply Nij. eapply I3; eauto. }
    split; [|split].
    + intros k. specialize (I1 k). cbn [vals set_val heap]. unfold upd. destruct (Nat.eqb_spec k j) as [->|Nk].
      * rewrite <- iobj_nil. constructor; [constructor|change (len (@nil Z)) with 0; lia].
      * destruct (Nat.eqb_spec k i) as [->|Nki].
        -- apply (rep_frame NP (heap s)); auto. intros ad X. rewrite H1. specialize (OJ ad X). destruct (own s i) as [y|]; auto. destruct (Z.eqb_spec y ad); [congruence|auto].
        -- rewrite V1. destruct (vals s k) as [ok|] eqn:Vk; destruct (a k) as [ck|]; auto. apply (rep_frame NP (heap s)); auto. intros ad X. rewrite H1.
           destruct (own s i) as [y|] eqn:OI; auto. destruct (Z.eqb_spec y ad) as [->|]; auto. exfalso. apply Nki. eapply I3; eauto; now rewrite <- OW.
    + intros ad b H. cbn [heap set_val] in H. rewrite H1 in H. destruct (own s i) as [y|] eqn:OI; [destruct (Z.eqb_spec y ad) as [->|Ny]; [discriminate|]|].
      * destruct (I2 ad b H) as (k & ok & Vk & Ok'). destruct (Nat.eq_dec k j) as [->|Nk].
        -- exists i, r. cbn [vals set_val]. unfold upd. rewrite (eqb_false i j), Nat.eqb_refl by auto. split; auto. congruence.
        -- exists k, ok. cbn [vals set_val]. unfold upd. rewrite (eqb_false k j) by auto. destruct (Nat.eqb_spec k i) as [->|]; [exfalso; congruence|]. now rewrite V1.
      * destruct (I2 ad b H) as (k & ok & Vk & Ok'). destruct (Nat.eq_dec k j) as [->|Nk].
        -- exists i, r. cbn [vals set_val]. unfold upd. rewrite (eqb_false i j), Nat.eqb_refl by auto. split; auto. congruence.
        -- exists k, ok. cbn [vals set_val]. unfold upd. rewrite (eqb_false k j) by auto. destruct (Nat.eqb_spec k i) as [->|]; [exfalso; congruence|]. now rewrite V1.
    + intros x y ox oy ad Vx Vy Ox Oy. cbn [vals set_val] in *. unfold upd in *. destruct (Nat.eqb_spec x j) as [->|Nx]; [injection Vx as <-; discriminate Ox|].
      destruct (Nat.eqb_spec y j) as [->|Ny]; [injection Vy as <-; discriminate Oy|]. rewrite V1 in *.
      destruct (Nat.eqb_spec x i) as [->|Nxi]; destruct (Nat.eqb_spec y i) as [->|Nyi]; auto.
      * injection Vx as <-. exfalso. apply Ny. eapply I3; eauto.
      * injection Vy as <-. exfalso. apply Nx. eapply I3; eauto.
      * eapply I3; eauto.
Qed.
End Ops.
