From Verif Require Import Base ArenaModel ArenaSpec.

Lemma apart_disjoint a n b m : 0 <= n -> 0 <= m -> apart a n b m = true -> disjoint (a, n) (b, m) /\ a <> b.
Proof.
  unfold apart, disjoint, inr. intros N M H. apply orb_true_iff in H. rewrite !Z.leb_le in H. cbn [fst snd]. split; [intros x; lia|lia].
Qed.
Lemma apart_sym a n b m : apart a n b m = apart b m a n.
Proof. unfold apart. apply orb_comm. Qed.
Lemma malloc_some bl ans n a g : malloc bl ans n = Some (a, g) -> 0 < a /\ a mod 16 = 0 /\ 0 <= n /\ a + n < 2 ^ 62 /\ Forall (fun b => apart a n (fst b) (snd b) = true) bl.
Proof.
  unfold malloc. destruct ans as [(a', g')|]; [|discriminate]. destruct (_ && _) eqn:C; [|discriminate]. intros X. injection X as <- <-.
  rewrite !andb_true_iff, forallb_forall in C. rewrite Forall_forall. destruct C as ((((C1 & C2) & C3) & C4) & C5). split; [lia|split; [lia|split; [lia|split; [lia|auto]]]].
Qed.

Section Inv.
Variables (data_size data_alignment : Z).
Hypothesis DS : 0 <= data_size.
Hypothesis DA : In data_alignment [1; 2; 4; 8; 16].

Lemma align_up_spec p : 0 <= p -> p <= align_up data_alignment p < p + data_alignment /\ align_up data_alignment p mod data_alignment = 0.
Proof.
  intros P. unfold align_up.
  assert (G : forall k, 0 <= k -> forall q, Z.land q (Z.lnot (2 ^ k - 1)) = q / 2 ^ k * 2 ^ k).
  { intros k K q. replace (2 ^ k - 1) with (Z.ones k) by (rewrite Z.ones_equiv; lia). rewrite <- Z.ldiff_land, Z.ldiff_ones_r by lia. rewrite Z.shiftl_mul_pow2, Z.shiftr_div_pow2 by lia. reflexivity. }
  assert (E : exists k, 0 <= k /\ data_alignment = 2 ^ k).
  { cbn [In] in DA. destruct DA as [<-|[<-|[<-|[<-|[<-|[]]]]]]; [exists 0|exists 1|exists 2|exists 3|exists 4]; split; try lia; reflexivity. }
  destruct E as (k & K & E). rewrite E. rewrite G by auto. assert (0 < 2 ^ k) by (apply Z.pow_pos_nonneg; lia).
  pose proof (Z.div_mod (p + 2 ^ k - 1) (2 ^ k) ltac:(lia)). pose proof (Z.mod_pos_bound (p + 2 ^ k - 1) (2 ^ k) ltac:(lia)). split; [lia|apply Z.mod_mul; lia].
Qed.
Lemma align16 a : a mod 16 = 0 -> a mod data_alignment = 0.
Proof.
  intros H. cbn [In] in DA. assert (X : exists m, 16 = m * data_alignment /\ data_alignment <> 0).
  { destruct DA as [<-|[<-|[<-|[<-|[<-|[]]]]]]; [exists 16|exists 8|exists 4|exists 2|exists 1]; lia. }
  destruct X as (m & E & NZ). apply Z.mod_divide in H; [|lia]. destruct H as (q & ->). rewrite E. apply Z.mod_divide; auto. exists (q * m). ring.
Qed.
Lemma align_zero : align_up data_alignment 0 = 0.
Proof. unfold align_up. cbn [In] in DA. destruct DA as [<-|[<-|[<-|[<-|[<-|[]]]]]]; reflexivity. Qed.

Fixpoint alone (bl : list (Z * Z)) : Prop := match bl with [] => True | b :: bl' => Forall (fun c => apart (fst b) (snd b) (fst c) (snd c) = true) bl' /\ alone bl' end.
Lemma alone_snoc bl b : alone bl -> Forall (fun c => apart (fst b) (snd b) (fst c) (snd c) = true) bl -> alone (bl ++ [b]).
Proof.
  induction bl as [|c bl IH]; cbn [alone app]; [intros; split; auto|]. intros (A & B) F. inversion F as [|? ? F1 F2]; subst. split; [|auto].
  apply Forall_app. split; auto. constructor; auto. now rewrite apart_sym.
Qed.
Definition okb (b : Z * Z) : Prop := 0 < fst b /\ fst b mod 16 = 0 /\ 0 <= snd b /\ fst b + snd b < 2 ^ 62.
(** The chunk being doled out: none, or the last block. *)
Definition current (s : arena) : Prop :=
  (mbegin s = 0 /\ mcur s = 0 /\ mend s = 0) \/
  (exists bl base n, blocks s = bl ++ [(base, n)] /\ mend s = base + n /\ base <= mcur s <= mend s /\ (mbegin s = base \/ mbegin s = 0)).
Definition Inv (s : arena) (v : view) : Prop :=
  map fst (blocks s) = handles s /\ alone (blocks s) /\ Forall okb (blocks s) /\ current s /\
  (failed v = false -> mbegin s = 0 -> mcur s = 0) /\
  Forall (fun r => 0 <= snd r /\ 0 <= fst r /\ fst r mod data_alignment = 0 /\ (0 < snd r -> exists b, In b (blocks s) /\ within r b) /\ (forall x, inr x r -> ~ mcur s <= x < mend s)) (given v) /\
  ForallOrdPairs disjoint (given v) /\
  (forall r, recent v = Some r -> (exists g, given v = r :: g) /\ fst r + snd r = mcur s /\ (mend s = 0 \/ exists bl base n, blocks s = bl ++ [(base, n)] /\ mend s = base + n /\ base <= fst r)).

(** append_memory from a state whose chunk may be abandoned. *)
Lemma append_ok s ans n s' : append_memory s ans n = (s', true) ->
  exists a g, 0 < a /\ a mod 16 = 0 /\ 0 <= n /\ a + n < 2 ^ 62 /\ Forall (fun b => apart a n (fst b) (snd b) = true) (blocks s) /\
    s' = mkar (fun x => if inside x a n then g x else mem s x) (blocks s ++ [(a, n)]) (handles s ++ [a]) a a (a + n) (total s + n).
Proof.
  unfold append_memory. destruct (malloc (blocks s) ans n) as [(a, g)|] eqn:M; [|discriminate]. intros X. injection X as <-. destruct (malloc_some _ _ _ _ _ M) as (A & B & C & D & E).
  exists a, g. auto 8.
Qed.
Lemma append_fail s ans n s' : append_memory s ans n = (s', false) -> s' = mkar (mem s) (blocks s) (handles s) 0 (mcur s) (mend s) (total s).
Proof. unfold append_memory. destruct (malloc (blocks s) ans n) as [(a, g)|]; [discriminate|]. intros X. now injection X as <-. Qed.

Lemma inside_iff x a n : inside x a n = true <-> inr x (a, n).
Proof. unfold inside, inr. cbn [fst snd]. rewrite andb_true_iff, Z.leb_le, Z.ltb_lt. tauto. Qed.

(** A region given from a new chunk. *)
Lemma inv_grow s v f a n p (held : list region) size : Inv s v -> 0 <= size <= n -> 0 < a -> a mod 16 = 0 -> a + n < 2 ^ 62 ->
  Forall (fun b => apart a n (fst b) (snd b) = true) (blocks s) -> p = a -> incl held (given v) -> ForallOrdPairs disjoint held ->
  forall m t, Inv (mkar m (blocks s ++ [(a, n)]) (handles s ++ [a]) a (a + size) (a + n) t) (mkview ((p, size) :: held) (Some (p, size)) f) /\
    Forall (fun r => disjoint (p, size) r) held.
Proof.
  intros (I1 & I2 & I3 & I4 & I5 & I6 & I7 & I8) SZ A A16 AN F -> IN FO m t.
  assert (NEW : Forall (fun r => disjoint (a, n) r) held).
  { rewrite Forall_forall in I6, F, I3 |- *. intros r Ir x X Y. specialize (I6 r (IN r Ir)). destruct I6 as (R0 & _ & _ & RB & _). unfold inr in *. cbn [fst snd] in *.
    destruct (RB ltac:(lia)) as (b & Ib & W). specialize (F b Ib). destruct (I3 b Ib) as (_ & _ & Sb & _). destruct (apart_disjoint a n (fst b) (snd b) ltac:(lia) Sb F) as (D & _).
    apply (D x); unfold inr, within in *; cbn [fst snd] in *; lia. }
  assert (NEW' : Forall (fun r => disjoint (a, size) r) held).
  { eapply Forall_impl; [|exact NEW]. intros r D x X. apply (D x). unfold inr in *. cbn [fst snd] in *. lia. }
  split; auto. unfold Inv. cbn [blocks handles mbegin mcur mend given recent failed].
  split; [rewrite map_app, I1; reflexivity|]. split; [now apply alone_snoc|]. split; [apply Forall_app; split; auto; constructor; auto; unfold okb; cbn [fst snd]; lia|].
  split; [right; exists (blocks s), a, n; split; [auto|split; [auto|split; [cbn [mcur mend]; lia|auto]]]|]. split; [intros; lia|]. split; [|split].
  - constructor.
    + cbn [fst snd]. split; [lia|split; [lia|split; [now apply align16|split]]].
      * intros _. exists (a, n). split; [apply in_or_app; right; now left|]. unfold within. cbn [fst snd]. lia.
      * intros x X. unfold inr in X. cbn [fst snd] in X. lia.
    + rewrite Forall_forall in I6, NEW |- *. intros r Ir. destruct (I6 r (IN r Ir)) as (R0 & R1 & R2 & RB & _). split; [auto|split; [auto|split; [auto|split]]].
      * intros P. destruct (RB P) as (b & Ib & W). exists b. split; auto. apply in_or_app. now left.
      * intros x X Y. apply (NEW r Ir x); auto. unfold inr. cbn [fst snd]. lia.
  - constructor; auto.
  - intros r X. injection X as <-. split; [eauto|]. cbn [fst snd]. split; auto. right. exists (blocks s), a, n. split; [auto|split; auto; lia].
Qed.
(** A failed growth. *)
Lemma inv_fail s v t : Inv s v -> Inv (mkar (mem s) (blocks s) (handles s) 0 (mcur s) (mend s) t) (mkview (given v) (recent v) true).
Proof.
  intros (I1 & I2 & I3 & I4 & I5 & I6 & I7 & I8). unfold Inv. cbn [blocks handles mbegin mcur mend given recent failed].
  split; [auto|split; [auto|split; [auto|split]]].
  - unfold current in *. cbn [blocks mbegin mcur mend]. destruct I4 as [(A & B & C)|(bl & base & n & E & M & R & _)]; [left; auto|right; exists bl, base, n; auto].
  - split; [discriminate|auto].
Qed.
Lemma cur_nonneg s : Forall okb (blocks s) -> current s -> 0 <= mcur s <= mend s /\ mend s < 2 ^ 62.
Proof.
  intros F [(A & B & C)|(bl & base & n & E & M & R & _)]; [lia|]. rewrite E in F. apply Forall_app in F as (_ & F). inversion F as [|? ? (X1 & X2 & X3 & X4) _]; subst. cbn [fst snd] in *. lia.
Qed.
(** A region given from the current chunk. *)
Lemma inv_in_place s v f b size (held : list region) : Inv s v -> 0 <= size -> mcur s <= b -> b + size <= mend s -> b mod data_alignment = 0 -> incl held (given v) -> ForallOrdPairs disjoint held -> (f = failed v \/ f = true) ->
  Inv (set_cur s (b + size)) (mkview ((b, size) :: held) (Some (b, size)) f) /\ Forall (fun r => disjoint (b, size) r) held.
Proof.
  intros (I1 & I2 & I3 & I4 & I5 & I6 & I7 & I8) SZ L U AL IN FO FF. pose proof (cur_nonneg s I3 I4) as (C1 & C2).
  assert (NEW : Forall (fun r => disjoint (b, size) r) held).
  { rewrite Forall_forall in I6 |- *. intros r Ir x X Y. destruct (I6 r (IN r Ir)) as (_ & _ & _ & _ & NF). apply (NF x Y). unfold inr in X. cbn [fst snd] in X. lia. }
  split; auto. unfold Inv, set_cur. cbn [blocks handles mbegin mcur mend given recent failed].
  split; [auto|split; [auto|split; [auto|split]]].
  { unfold current. cbn [blocks mbegin mcur mend]. destruct I4 as [(A & B & C)|(bl & base & n & E & M & R & Y)]; [left; lia|right; exists bl, base, n; split; [auto|split; [auto|split; [lia|auto]]]]. }
  split.
  { intros X Y. destruct FF as [-> | ->]; [|discriminate]. specialize (I5 X Y). unfold current in I4. destruct I4 as [(A & B & C)|(bl & base & n & E & M & R & _)]; [lia|].
    rewrite E in I3. apply Forall_app in I3 as (_ & I3). inversion I3 as [|? ? (X1 & _) _]; subst. cbn [fst] in X1. lia. }
  split; [|split].
  - constructor.
    + cbn [fst snd]. split; [lia|split; [lia|split; [auto|split]]].
      * intros P. destruct I4 as [(A & B & C)|(bl & base & n & E & M & R & _)]; [lia|]. exists (base, n). split; [rewrite E; apply in_or_app; right; now left|]. unfold within. cbn [fst snd]. lia.
      * intros x X. unfold inr in X. cbn [fst snd] in X. lia.
    + rewrite Forall_forall in I6 |- *. intros r Ir. destruct (I6 r (IN r Ir)) as (R0 & R1 & R2 & RB & NF). split; [auto|split; [auto|split; [auto|split; [auto|]]]]. intros x X Y. apply (NF x X). lia.
  - constructor; auto.
  - intros r X. injection X as <-. split; [eauto|]. cbn [fst snd]. split; auto. destruct I4 as [(A & B & C)|(bl & base & n & E & M & R & _)]; [left; auto|right]. exists bl, base, n. split; [auto|split; auto; lia].
Qed.
(** Resizing the latest region in place. *)
Lemma inv_resize s v r g size : Inv s v -> recent v = Some r -> given v = r :: g -> 0 <= size -> fst r + size <= mend s ->
  Inv (set_cur s (fst r + size)) (mkview ((fst r, size) :: g) (Some (fst r, size)) (failed v)) /\ Forall (fun q => disjoint (fst r, size) q) g.
Proof.
  intros (I1 & I2 & I3 & I4 & I5 & I6 & I7 & I8) RE GV SZ U. pose proof (cur_nonneg s I3 I4) as (C1 & C2). destruct (I8 r RE) as (_ & EN & BASE).
  rewrite GV in I6, I7. inversion I6 as [|? ? (R0 & R1 & R2 & RB & RF) I6']; subst. inversion I7 as [|? ? D7 I7']; subst.
  assert (NEW : Forall (fun q => disjoint (fst r, size) q) g).
  { rewrite Forall_forall in I6', D7 |- *. intros q Iq x X Y. destruct (I6' q Iq) as (_ & _ & _ & _ & NF). unfold inr in X. cbn [fst snd] in X.
    destruct (Z.lt_ge_cases x (mcur s)) as [L|L]; [apply (D7 q Iq x); auto; unfold inr; lia|apply (NF x Y); lia]. }
  split; auto. unfold Inv, set_cur. cbn [blocks handles mbegin mcur mend given recent failed].
  split; [auto|split; [auto|split; [auto|split]]].
  { unfold current. cbn [blocks mbegin mcur mend]. destruct I4 as [(A & B & C)|(bl & base & n & E & M & R & Y)].
    - left. split; [auto|split; [|auto]]. lia.
    - right; exists bl, base, n. split; [auto|split; [auto|split; [|auto]]]. destruct BASE as [Z|(bl' & base' & n' & E' & M' & L')].
      + rewrite E in I3. apply Forall_app in I3 as (_ & I3). inversion I3 as [|? ? (X1 & X2 & X3 & _) _]; subst. cbn [fst snd] in *. lia.
      + rewrite E in E'. apply app_inj_tail in E' as (_ & E'). injection E' as <- <-. lia. }
  split.
  { intros X Y. specialize (I5 X Y). destruct I4 as [(A & B & C)|(bl & base & n & E & M & R & _)]; [lia|]. rewrite E in I3. apply Forall_app in I3 as (_ & I3). inversion I3 as [|? ? (X1 & _) _]; subst. cbn [fst] in X1. lia. }
  split; [|split].
  - constructor.
    + cbn [fst snd]. split; [lia|split; [lia|split; [auto|split]]].
      * intros P. destruct I4 as [(A & B & C)|(bl & base & n & E & M & R & _)]; [lia|]. destruct BASE as [Z|(bl' & base' & n' & E' & M' & L')].
        -- rewrite E in I3. apply Forall_app in I3 as (_ & I3). inversion I3 as [|? ? (X1 & X2 & X3 & _) _]; subst. cbn [fst snd] in *. lia.
        -- exists (base', n'). split; [rewrite E'; apply in_or_app; right; now left|]. unfold within. cbn [fst snd]. lia.
      * intros x X. unfold inr in X. cbn [fst snd] in X. lia.
    + rewrite Forall_forall in I6', D7 |- *. intros q Iq. destruct (I6' q Iq) as (Q0 & Q1 & Q2 & QB & NF). split; [auto|split; [auto|split; [auto|split; [auto|]]]]. intros x X Y.
      destruct (Z.lt_ge_cases x (mcur s)) as [L|L]; [apply (D7 q Iq x); auto; unfold inr; lia|apply (NF x X); lia].
  - constructor; auto.
  - intros q X. injection X as <-. split; [eauto|]. cbn [fst snd]. split; auto.
Qed.

Lemma alloc_raw_ok s v ans c : Inv s v -> okcount data_size c ->
  match alloc_raw data_size data_alignment s ans c with
  | (s', Some p) => Inv s' (mkview ((p, c * data_size) :: given v) (Some (p, c * data_size)) (failed v)) /\ Forall (disjoint (p, c * data_size)) (given v) /\
      (forall r x, In r (given v) -> inr x r -> mem s' x = mem s x)
  | (s', None) => Inv s' (mkview (given v) (recent v) true) /\ mem s' = mem s
  end.
Proof.
  intros I (C0 & C1). pose proof I as (I1 & I2 & I3 & I4 & I5 & I6 & I7 & I8). pose proof (cur_nonneg s I3 I4) as (B1 & B2). unfold alloc_raw. set (sz := c * data_size) in *.
  assert (SZ : 0 <= sz) by (unfold sz; apply Z.mul_nonneg_nonneg; lia).
  pose proof (align_up_spec (mcur s) ltac:(lia)) as ((A1 & A2) & A3). rewrite Z.gtb_ltb. destruct (Z.ltb_spec (mend s) (align_up data_alignment (mcur s) + sz)) as [L|L].
  - destruct (append_memory _ ans _) as [s2 []] eqn:E.
    + destruct (append_ok _ _ _ _ E) as (a & g & P1 & P2 & P3 & P4 & P5 & ->). cbn [set_total blocks handles mem total mbegin set_cur mcur mend] in *.
      set (n := Z.max (total s - (mend s - mcur s)) sz) in *.
      destruct (inv_grow s v (failed v) a n a (given v) sz I ltac:(lia) P1 P2 P4 P5 eq_refl (incl_refl _) I7 (fun x => if inside x a n then g x else mem s x) (total s - (mend s - mcur s) + n)) as (J & D).
      split; [exact J|split; [exact D|]]. intros r x Ir Xr. destruct (inside x a n) eqn:IX; auto. exfalso. apply inside_iff in IX.
      rewrite Forall_forall in I6, P5, I3. destruct (I6 r Ir) as (_ & _ & _ & RB & _). unfold inr in Xr. destruct (RB ltac:(lia)) as (b & Ib & W). destruct (I3 b Ib) as (_ & _ & Sb & _).
      destruct (apart_disjoint a n (fst b) (snd b) P3 Sb (P5 b Ib)) as (DD & _). apply (DD x IX). unfold inr, within in *. cbn [fst snd]. lia.
    + apply append_fail in E. subst s2. cbn [set_total mem blocks handles mcur mend total]. split; auto. now apply inv_fail.
  - destruct (inv_in_place s v (failed v) (align_up data_alignment (mcur s)) sz (given v) I SZ A1 L A3 (incl_refl _) I7 ltac:(auto)) as (J & D). split; [exact J|split; [exact D|]]. auto.
Qed.
End Inv.
