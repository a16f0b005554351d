From Verif Require Import Base ArenaModel ArenaSpec ArenaProofs.

Lemma u64_neg d : - 2 ^ 64 <= d < 0 -> u64 d = d + 2 ^ 64.
Proof. intros H. unfold u64. rewrite <- (Z.mod_add d 1) by lia. rewrite Z.mod_small; lia. Qed.

Section Steps.
Variables (data_size data_alignment : Z).
Hypothesis DS : 0 <= data_size.
Hypothesis DA : In data_alignment [1; 2; 4; 8; 16].
Notation Inv := (Inv data_alignment).

Lemma inv_mem s v m t : Inv s v -> Inv (mkar m (blocks s) (handles s) (mbegin s) (mcur s) (mend s) t) v.
Proof. intros I. exact I. Qed.
Lemma valid_within bl p n b : In b bl -> within (p, n) b -> valid bl p n = true.
Proof. intros I W. unfold valid. apply existsb_exists. exists b. split; auto. unfold within in W. cbn [fst snd] in W. rewrite andb_true_iff, !Z.leb_le. lia. Qed.
Lemma valid_inv bl p n : valid bl p n = true -> exists b, In b bl /\ within (p, n) b.
Proof. unfold valid. intros H. apply existsb_exists in H as (b & I & W). exists b. split; auto. rewrite andb_true_iff, !Z.leb_le in W. exact W. Qed.
Lemma memset_ok s p n : 0 <= n -> (0 < n -> exists b, In b (blocks s) /\ within (p, n) b) ->
  exists m, memset0 s p n = Ok (mkar m (blocks s) (handles s) (mbegin s) (mcur s) (mend s) (total s)) /\ forall x, m x = if inside x p n then 0 else mem s x.
Proof.
  intros N V. unfold memset0. destruct (Z.eqb_spec n 0) as [->|NZ].
  - exists (mem s). split; [destruct s; reflexivity|]. intros x. unfold inside. destruct (_ && _) eqn:C; auto. rewrite andb_true_iff in C. lia.
  - destruct (V ltac:(lia)) as (b & Ib & W). rewrite (valid_within _ _ _ b Ib W). eexists. split; [reflexivity|auto].
Qed.
Lemma memcpy_ok s d p n : 0 <= n -> (0 < n -> (exists b, In b (blocks s) /\ within (d, n) b) /\ (exists b, In b (blocks s) /\ within (p, n) b) /\ (d + n <= p \/ p + n <= d)) ->
  exists m, memcpy s d p n = Ok (mkar m (blocks s) (handles s) (mbegin s) (mcur s) (mend s) (total s)) /\ forall x, m x = if inside x d n then mem s (p + (x - d)) else mem s x.
Proof.
  intros N V. unfold memcpy. destruct (Z.eqb_spec n 0) as [->|NZ].
  - exists (mem s). split; [destruct s; reflexivity|]. intros x. unfold inside. destruct (_ && _) eqn:C; auto. rewrite andb_true_iff in C. lia.
  - destruct (V ltac:(lia)) as ((b & Ib & W) & (b2 & Ib2 & W2) & D). rewrite (valid_within _ _ _ b Ib W), (valid_within _ _ _ b2 Ib2 W2). replace (_ || _) with true by (symmetry; rewrite orb_true_iff, !Z.leb_le; lia).
    cbn [andb]. eexists. split; [reflexivity|auto].
Qed.

(** alloc of both kinds. *)
Lemma zero_alloc_ok s v ans c : Inv s v -> okcount data_size c ->
  (exists s' p, zero_alloc data_size data_alignment s ans c = Ok (s', Some p) /\ Inv s' (mkview ((p, c * data_size) :: given v) (Some (p, c * data_size)) (failed v)) /\
     Forall (disjoint (p, c * data_size)) (given v) /\ (forall r x, In r (given v) -> inr x r -> mem s' x = mem s x) /\ (forall x, inr x (p, c * data_size) -> mem s' x = 0)) \/
  (exists s', zero_alloc data_size data_alignment s ans c = Ok (s', None) /\ Inv s' (mkview (given v) (recent v) true) /\ mem s' = mem s).
Proof.
  intros I C. pose proof (alloc_raw_ok data_size data_alignment DS DA s v ans c I C) as R. unfold zero_alloc. destruct (alloc_raw _ _ s ans c) as [s1 [p|]].
  - left. destruct R as (J & D & M). pose proof J as (_ & _ & _ & _ & _ & J6 & _). inversion J6 as [|? ? (R0 & _ & _ & RB & _) _]; subst. cbn [fst snd] in *.
    destruct (memset_ok s1 p (c * data_size) R0 RB) as (m & E & Hm). rewrite E. cbn [bind]. eexists _, p. split; [reflexivity|]. split; [now apply inv_mem|split; [auto|split]].
    + intros r x Ir Xr. cbn [mem]. rewrite Hm. destruct (inside x p (c * data_size)) eqn:IX; [|eauto]. apply inside_iff in IX. exfalso. rewrite Forall_forall in D. exact (D r Ir x IX Xr).
    + intros x X. cbn [mem]. rewrite Hm. apply inside_iff in X. now rewrite X.
  - right. exists s1. split; auto.
Qed.
Lemma pod_alloc_ok s v ans c : Inv s v -> okcount data_size c ->
  (exists s' p, pod_alloc data_size data_alignment s ans c = Ok (s', Some p) /\ Inv s' (mkview ((p, c * data_size) :: given v) (Some (p, c * data_size)) (failed v)) /\
     Forall (disjoint (p, c * data_size)) (given v) /\ (forall r x, In r (given v) -> inr x r -> mem s' x = mem s x)) \/
  (exists s', pod_alloc data_size data_alignment s ans c = Ok (s', None) /\ Inv s' (mkview (given v) (recent v) true) /\ mem s' = mem s).
Proof.
  intros I C. pose proof (alloc_raw_ok data_size data_alignment DS DA s v ans c I C) as R. unfold pod_alloc. destruct (alloc_raw _ _ s ans c) as [s1 [p|]].
  - left. exists s1, p. split; auto.
  - right. exists s1. split; auto.
Qed.

(** Resize in place. *)
Lemma resize_place s v ans r g c : Inv s v -> recent v = Some r -> given v = r :: g -> okcount data_size c -> fst r + c * data_size <= mend s ->
  pod_resize data_size s ans (fst r) c = Ok (set_cur s (fst r + c * data_size), Some (fst r)) /\
  zero_resize data_size s ans (fst r) c = Ok (set_cur s (fst r + c * data_size), Some (fst r)) /\
  Inv (set_cur s (fst r + c * data_size)) (mkview ((fst r, c * data_size) :: g) (Some (fst r, c * data_size)) (failed v)) /\ Forall (disjoint (fst r, c * data_size)) g.
Proof.
  intros I RE GV (C0 & C1) L. unfold pod_resize, zero_resize. replace (fst r + c * data_size <=? mend s) with true by lia. split; [auto|split].
  - cbn [set_cur mcur]. replace (fst r + c * data_size >? fst r + c * data_size) with false by lia. reflexivity.
  - apply (inv_resize data_alignment s v r g); auto. apply Z.mul_nonneg_nonneg; lia.
Qed.
(** Facts about the latest region and a new chunk. *)
Lemma latest s v r : Inv s v -> recent v = Some r -> fst r + snd r = mcur s /\ mcur s <= mend s /\ 0 <= snd r /\ 0 <= fst r /\ mend s < 2 ^ 62 /\ (0 < snd r -> exists b, In b (blocks s) /\ within r b).
Proof.
  intros (I1 & I2 & I3 & I4 & I5 & I6 & I7 & I8) RE. destruct (I8 r RE) as ((g & G) & E & _). rewrite G in I6. inversion I6 as [|? ? (R0 & R1 & R2 & RB & _) _]; subst.
  pose proof (cur_nonneg s I3 I4) as (B1 & B2). split; [auto|split; [lia|split; [auto|split; [auto|split; [lia|auto]]]]].
Qed.
Lemma other_bytes s v a n r x : Inv s v -> 0 <= n -> Forall (fun b => apart a n (fst b) (snd b) = true) (blocks s) -> In r (given v) -> inr x r -> inside x a n = false.
Proof.
  intros (I1 & I2 & I3 & I4 & I5 & I6 & I7 & I8) N P5 Ir Xr. destruct (inside x a n) eqn:IX; auto. exfalso. apply inside_iff in IX.
  rewrite Forall_forall in I6, P5, I3. destruct (I6 r Ir) as (_ & _ & _ & RB & _). unfold inr in Xr. destruct (RB ltac:(lia)) as (b & Ib & W). destruct (I3 b Ib) as (_ & _ & Sb & _).
  destruct (apart_disjoint a n (fst b) (snd b) N Sb (P5 b Ib)) as (DD & _). apply (DD x IX). unfold inr, within in *. cbn [fst snd]. lia.
Qed.
Lemma zero_move s v ans r g c : Inv s v -> recent v = Some r -> given v = r :: g -> okcount data_size c -> mend s < fst r + c * data_size ->
  (exists s' p, zero_resize data_size s ans (fst r) c = Ok (s', Some p) /\ Inv s' (mkview ((p, c * data_size) :: g) (Some (p, c * data_size)) (failed v)) /\
     Forall (disjoint (p, c * data_size)) g /\ (forall q x, In q g -> inr x q -> mem s' x = mem s x) /\
     snd r <= c * data_size /\ (forall k, 0 <= k < snd r -> mem s' (p + k) = mem s (fst r + k)) /\ (forall k, snd r <= k < c * data_size -> mem s' (p + k) = 0)) \/
  (exists s', zero_resize data_size s ans (fst r) c = Ok (s', None) /\ Inv s' (mkview (given v) (recent v) true) /\ mem s' = mem s).
Proof.
  intros I RE GV (C0 & C1) L. destruct (latest s v r I RE) as (E & CM & R0 & R1 & MB & RB). unfold zero_resize. set (sz := c * data_size) in *.
  replace (fst r + sz <=? mend s) with false by lia. destruct (append_memory s ans _) as [s1 []] eqn:EA.
  2:{ right. apply append_fail in EA. subst s1. eexists. split; [reflexivity|]. split; [now apply inv_fail|reflexivity]. }
  left. destruct (append_ok _ _ _ _ EA) as (a & gg & P1 & P2 & P3 & P4 & P5 & ->). set (n := Z.max (total s) sz) in *. set (s1 := mkar _ _ _ _ _ _ _).
  assert (SZN : sz <= n) by (unfold n; lia). assert (OLD : mcur s - fst r = snd r) by lia. rewrite OLD.
  assert (U1 : u64 (snd r) = snd r) by (unfold u64; apply Z.mod_small; lia). assert (U2 : u64 (sz - snd r) = sz - snd r) by (unfold u64; apply Z.mod_small; lia). rewrite U1, U2.
  assert (INr : In r (given v)) by (rewrite GV; now left).
  assert (NB : In (a, n) (blocks s1)) by (unfold s1; cbn [blocks]; apply in_or_app; right; now left).
  destruct (memcpy_ok s1 (mbegin s1) (fst r) (snd r) R0) as (m2 & E2 & H2).
  { intros POS. split; [exists (a, n); split; auto; unfold within, s1; cbn [fst snd mbegin]; lia|]. destruct (RB POS) as (b & Ib & W). split.
    - exists b. split; [unfold s1; cbn [blocks]; apply in_or_app; now left|]. unfold within in *. cbn [fst snd]. lia.
    - pose proof I as (_ & _ & I3 & _). rewrite Forall_forall in I3, P5. specialize (P5 b Ib). destruct (I3 b Ib) as (_ & _ & Sb & _). unfold apart in P5. rewrite orb_true_iff, !Z.leb_le in P5. unfold within, s1 in *. cbn [mbegin]. lia. }
  rewrite E2. cbn [bind]. cbn [set_cur mbegin blocks handles mem mcur mend total] in *.
  match goal with |- context [memset0 ?S _ _] => set (s3 := S) end.
  destruct (memset_ok s3 (a + snd r) (sz - snd r)) as (m4 & E4 & H4); [lia|intros POS; exists (a, n); split; [exact NB|unfold within; cbn [fst snd]; lia]|].
  change (mbegin s1) with a. change (mbegin s1) with a in H2. rewrite E4. cbn [bind]. eexists _, a. split; [reflexivity|].
  rewrite GV in *. pose proof I as (_ & _ & _ & _ & _ & _ & I7 & _). rewrite GV in I7. inversion I7 as [|? ? D7 I7']; subst.
  assert (IG : incl g (given v)) by (rewrite GV; intros q Q; now right).
  destruct (inv_grow data_alignment DA s v (failed v) a n a g sz I ltac:(lia) P1 P2 P4 P5 eq_refl IG I7' m4 (total s + n - (mcur s - fst r))) as (J & D).
  split; [exact J|split; [exact D|]].
  assert (M1 : forall q x, In q (given v) -> inr x q -> mem s1 x = mem s x).
  { intros q x Iq X. unfold s1. cbn [mem]. now rewrite (other_bytes s v a n q x I P3 P5 Iq X). }
  split; [|split; [lia|split]].
  - intros q x Iq X. cbn [mem]. rewrite H4. unfold s3. cbn [mem set_cur]. rewrite H2. pose proof (other_bytes s v a n q x I P3 P5 (IG q Iq) X) as NI.
    assert (N1 : inside x (a + snd r) (sz - snd r) = false) by (apply not_true_iff_false; intros Y; apply inside_iff in Y; apply not_true_iff_false in NI; apply NI, inside_iff; unfold inr in *; cbn [fst snd] in *; lia).
    assert (N2 : inside x a (snd r) = false) by (apply not_true_iff_false; intros Y; apply inside_iff in Y; apply not_true_iff_false in NI; apply NI, inside_iff; unfold inr in *; cbn [fst snd] in *; lia).
    rewrite N1, N2. apply (M1 q); auto.
  - intros k K. cbn [mem]. rewrite H4. unfold s3. cbn [mem set_cur]. rewrite H2.
    assert (N1 : inside (a + k) (a + snd r) (sz - snd r) = false) by (unfold inside; apply andb_false_iff; lia).
    assert (N2 : inside (a + k) a (snd r) = true) by (unfold inside; apply andb_true_iff; lia). rewrite N1, N2. replace (fst r + (a + k - a)) with (fst r + k) by lia.
    apply (M1 r); auto; [now rewrite GV|unfold inr; lia].
  - intros k K. cbn [mem]. rewrite H4. assert (N1 : inside (a + k) (a + snd r) (sz - snd r) = true) by (unfold inside; apply andb_true_iff; lia). now rewrite N1.
Qed.
(** pod_memory_block::resize when the data must move. *)
Lemma pod_move s v ans r g c : Inv s v -> recent v = Some r -> given v = r :: g -> okcount data_size c -> mend s < fst r + c * data_size -> 0 < snd r ->
  match malloc (blocks s) ans (Z.max (total s) (c * data_size)) with
  | None => exists s', pod_resize data_size s ans (fst r) c = Ok (s', None) /\ Inv s' (mkview (given v) (recent v) true)
  | Some (a, _) => a <> mend s -> pod_resize data_size s ans (fst r) c = UB
  end.
Proof.
  intros I RE GV (C0 & C1) L POS. destruct (latest s v r I RE) as (E & CM & R0 & R1 & MB & RB). unfold pod_resize. set (sz := c * data_size) in *.
  replace (fst r + sz <=? mend s) with false by lia. unfold append_memory. destruct (malloc (blocks s) ans (Z.max (total s) sz)) as [(a, gg)|] eqn:M.
  2:{ eexists. split; [reflexivity|]. now apply inv_fail. }
  intros NA. destruct (malloc_some _ _ _ _ _ M) as (P1 & P2 & P3 & P4 & P5). set (n := Z.max (total s) sz) in *.
  cbn [mbegin mcur]. destruct (RB POS) as (b & Ib & W). unfold within in W.
  pose proof I as (_ & I2 & I3 & I4 & _ & _ & _ & I8). destruct (I8 r RE) as (_ & _ & BASE).
  assert (X : exists bl base k, blocks s = bl ++ [(base, k)] /\ mend s = base + k /\ base <= fst r).
  { destruct BASE as [Z|X]; auto. exfalso. lia. }
  destruct X as (bl & base & k & EB & EM & LB).
  assert (AP : a + Z.max n 1 <= base \/ base + Z.max k 1 <= a).
  { rewrite Forall_forall in P5. specialize (P5 (base, k)). rewrite EB in P5. specialize (P5 ltac:(apply in_or_app; right; now left)). unfold apart in P5. cbn [fst snd] in P5. rewrite orb_true_iff, !Z.leb_le in P5. exact P5. }
  assert (ALL : Forall okb (blocks s ++ [(a, n)])) by (apply Forall_app; split; auto; constructor; auto; unfold okb; cbn [fst snd]; lia).
  assert (UBB : valid (blocks s ++ [(a, n)]) (fst r) (u64 (a - fst r)) = false).
  { apply not_true_iff_false. intros V. apply valid_inv in V as (b2 & Ib2 & W2). unfold within in W2. cbn [fst snd] in W2. rewrite Forall_forall in ALL. destruct (ALL b2 Ib2) as (Q1 & Q2 & Q3 & Q4).
    destruct (Z.lt_ge_cases a (fst r)) as [LT|GE].
    - assert (U : u64 (a - fst r) = a - fst r + 2 ^ 64) by (apply u64_neg; lia). lia.
    - assert (U : u64 (a - fst r) = a - fst r) by (unfold u64; apply Z.mod_small; lia). rewrite U in W2.
      assert (AB : mend s < a) by lia. apply in_app_or in Ib2 as [Ib2|[<-|[]]].
      + assert (b2 = (base, k)).
        { rewrite EB in Ib2. apply in_app_or in Ib2 as [Ib2|[<-|[]]]; auto. exfalso. rewrite EB in I2. clear - I2 Ib2 W2 LB EM AB POS E CM. induction bl as [|c0 bl IH]; [contradiction|].
          cbn [app alone] in I2. destruct I2 as (F & I2). destruct Ib2 as [->|Ib2]; [|auto]. rewrite Forall_forall in F. specialize (F (base, k) ltac:(apply in_or_app; right; now left)). unfold apart in F. cbn [fst snd] in F. rewrite orb_true_iff, !Z.leb_le in F. lia. }
        subst b2. cbn [fst snd] in *. lia.
      + cbn [fst snd] in *. lia. }
  unfold memcpy. replace (u64 (a - fst r) =? 0) with false.
  2:{ symmetry. apply Z.eqb_neq. intros Z. assert (a = fst r); [|lia]. unfold u64 in Z. apply Z.mod_divide in Z; [|lia]. destruct Z as (q & Z). lia. }
  cbn [blocks]. rewrite UBB, andb_false_r. reflexivity.
Qed.

(** free. *)
Lemma free_all_prefix bl rest : free_all (bl ++ rest) (map fst bl) = Ok rest.
Proof. induction bl as [|b bl IH]; cbn [app map free_all]; auto. cbn [free_block]. rewrite Z.eqb_refl. cbn [bind]. exact IH. Qed.
Lemma destroy_ok s v : Inv s v -> destroy s = Ok [].
Proof. intros (I1 & _). unfold destroy. rewrite <- I1. rewrite <- (app_nil_r (blocks s)) at 1. apply free_all_prefix. Qed.
Lemma reset_ok s v : Inv s v -> failed v = false -> exists s', reset s = Ok s' /\ Inv s' (mkview [] None (failed v)) /\ (List.length (blocks s') <= 1)%nat /\ mem s' = mem s.
Proof.
  intros (I1 & I2 & I3 & I4 & I5 & I6 & I7 & I8) F. unfold reset. rewrite <- I1.
  assert (X : exists bl hs, (match rev (map fst (blocks s)) with h :: ((_ :: _) as t) => do bl <- free_all (blocks s) (rev t); Ok (bl, [h]) | _ => Ok (blocks s, map fst (blocks s)) end) = Ok (bl, hs) /\
     map fst bl = hs /\ alone bl /\ Forall okb bl /\ (List.length bl <= 1)%nat /\ (forall b x, blocks s = b ++ [x] -> bl = [x])).
  { destruct (rev (blocks s)) as [|x t] eqn:ER.
    - assert (blocks s = []) by (rewrite <- (rev_involutive (blocks s)), ER; reflexivity). rewrite H in *. exists [], []. cbn. repeat split; auto. intros b x X. symmetry in X. apply app_eq_nil in X as (_ & X). discriminate.
    - assert (EB : blocks s = rev t ++ [x]) by (rewrite <- (rev_involutive (blocks s)), ER; reflexivity). rewrite EB in *. rewrite <- map_rev, rev_app_distr, rev_involutive. cbn [rev app map].
      destruct t as [|y t].
      + cbn [map]. exists [x], [fst x]. cbn in *. split; [auto|split; [auto|split; [auto|split; [auto|split; [lia|]]]]]. intros b z E. change [x] with ([] ++ [x]) in E. apply app_inj_tail in E as (_ & ->). auto.
      + set (ys := y :: t) in *. assert (EM : rev (map fst ys) = map fst (rev ys)) by now rewrite map_rev. unfold ys at 1. cbn [map]. change (fst y :: map fst t) with (map fst ys). rewrite EM. rewrite free_all_prefix. cbn [bind].
        exists [x], [fst x]. split; [auto|split; [auto|]]. split; [cbn; auto|]. split; [apply Forall_app in I3; tauto|]. split; [cbn; lia|]. intros b z E. apply app_inj_tail in E as (_ & ->). auto. }
  destruct X as (bl & hs & E & X1 & X2 & X3 & X4 & X5). rewrite E. cbn [bind]. eexists. split; [reflexivity|]. split; [|split; [exact X4|reflexivity]].
  unfold ArenaProofs.Inv. cbn [blocks handles mbegin mcur mend given recent failed]. split; [auto|split; [auto|split; [auto|split]]].
  - unfold current in *. cbn [blocks mbegin mcur mend]. destruct I4 as [(A & B & C)|(bb & base & n & EB & M & R & Y)]; [left; auto|]. right. rewrite (X5 bb (base, n) EB). exists [], base, n.
    assert (BP : 0 < base /\ 0 <= n) by (rewrite EB in I3; apply Forall_app in I3 as (_ & I3); inversion I3 as [|? ? (Z1 & _ & Z3 & _) _]; subst; cbn [fst snd] in *; lia).
    assert (YB : mbegin s = base) by (destruct Y as [Y|Y]; auto; specialize (I5 F Y); lia). split; [reflexivity|split; [auto|split; [lia|auto]]].
  - split; [auto|split; [constructor|split; [constructor|discriminate]]].
Qed.
Lemma finalize_ok s v : Inv s v -> Inv (finalize s) (mkview (given v) None (failed v)).
Proof.
  intros (I1 & I2 & I3 & I4 & I5 & I6 & I7 & I8). unfold ArenaProofs.Inv, finalize. cbn [blocks handles mbegin mcur mend given recent failed].
  split; [auto|split; [auto|split; [auto|split; [left; auto|split; [auto|split; [|split; [auto|discriminate]]]]]]].
  eapply Forall_impl; [|exact I6]. intros r (R0 & R1 & R2 & RB & _). split; [auto|split; [auto|split; [auto|split; [auto|lia]]]].
Qed.
Lemma create_ok ans m n s : create ans m n = (s, true) -> Inv s (mkview [] None false).
Proof.
  unfold create. intros E. destruct (append_ok _ _ _ _ E) as (a & g & P1 & P2 & P3 & P4 & P5 & ->). cbn [blocks handles mem total app].
  unfold ArenaProofs.Inv. cbn [blocks handles mbegin mcur mend given recent failed map fst]. split; [auto|split; [cbn; auto|split; [repeat constructor; cbn [fst snd]; lia|split]]].
  - right. exists [], a, n. split; [auto|split; [auto|split; [cbn [mcur mend]; lia|auto]]].
  - split; [lia|split; [constructor|split; [constructor|discriminate]]].
Qed.

Lemma step_inv zero s v o s' v' : Inv s v -> legal zero data_size s v o -> step zero data_size data_alignment s v o s' v' -> Inv s' v'.
Proof.
  intros I L ST. inversion ST as [s0 v0 c ans s1 p E|s0 v0 c ans s1 E|s0 v0 c ans s1 p r g RE GV E|s0 v0 c ans s1 r RE E|s0 v0 x b|s0 v0|s0 v0 s1 E]; subst; cbn [legal] in L.
  - unfold alloc in E. destruct zero.
    + destruct (zero_alloc_ok s v ans c I L) as [(s2 & p2 & E2 & J & _)|(s2 & E2 & _)]; rewrite E2 in E; [|discriminate]. injection E as <- <-. exact J.
    + destruct (pod_alloc_ok s v ans c I L) as [(s2 & p2 & E2 & J & _)|(s2 & E2 & _)]; rewrite E2 in E; [|discriminate]. injection E as <- <-. exact J.
  - unfold alloc in E. destruct zero.
    + destruct (zero_alloc_ok s v ans c I L) as [(s2 & p2 & E2 & _)|(s2 & E2 & J & _)]; rewrite E2 in E; [discriminate|]. injection E as <-. exact J.
    + destruct (pod_alloc_ok s v ans c I L) as [(s2 & p2 & E2 & _)|(s2 & E2 & J & _)]; rewrite E2 in E; [discriminate|]. injection E as <-. exact J.
  - destruct L as (L & q & RQ & LP). rewrite RE in RQ. injection RQ as <-. destruct (Z.le_gt_cases (fst r + c * data_size) (mend s)) as [F|F].
    + destruct (resize_place s v ans r g c I RE GV L F) as (Ep & Ez & J & _). unfold resize in E. destruct zero; [rewrite Ez in E|rewrite Ep in E]; injection E as <- <-; exact J.
    + unfold resize in E. destruct zero; [|specialize (LP eq_refl); lia]. destruct (zero_move s v ans r g c I RE GV L F) as [(s2 & p2 & E2 & J & _)|(s2 & E2 & _)]; rewrite E2 in E; [|discriminate]. injection E as <- <-. exact J.
  - destruct L as (L & q & RQ & LP). rewrite RE in RQ. injection RQ as <-. pose proof I as (_ & _ & _ & _ & _ & _ & _ & I8). destruct (I8 r RE) as ((g & GV) & _). destruct (Z.le_gt_cases (fst r + c * data_size) (mend s)) as [F|F].
    + destruct (resize_place s v ans r g c I RE GV L F) as (Ep & Ez & J & _). unfold resize in E. destruct zero; [rewrite Ez in E|rewrite Ep in E]; discriminate.
    + unfold resize in E. destruct zero; [|specialize (LP eq_refl); lia]. destruct (zero_move s v ans r g c I RE GV L F) as [(s2 & p2 & E2 & _)|(s2 & E2 & J & _)]; rewrite E2 in E; [discriminate|]. injection E as <-. exact J.
  - now apply inv_mem.
  - now apply finalize_ok.
  - destruct (reset_ok s v I L) as (s2 & E2 & J & _). rewrite E2 in E. injection E as <-. exact J.
Qed.
Lemma reachable_inv zero s v : reachable zero data_size data_alignment s v -> Inv s v.
Proof.
  induction 1 as [ans m n s N E|s v o s' v' R IH L ST]; [eapply create_ok; eauto|]. eapply step_inv; eauto.
Qed.
End Steps.
