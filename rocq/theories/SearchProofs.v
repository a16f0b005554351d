(** Proofs about searching, taking and ordering. *)
From Verif Require Import Base ParseIntModel StridedModel StridedSpec StridedProofs2 EncodingSpec SearchModel SearchSpec.
Open Scope Z_scope.

(** ** Strings *)
Definition bytes (s : list Z) : Prop := Forall (fun b => 0 <= b < 256) s.
Lemma schar_inj a b : 0 <= a < 256 -> 0 <= b < 256 -> schar a = schar b -> a = b.
Proof. unfold schar. intros A B. destruct (Z.ltb_spec a 128), (Z.ltb_spec b 128); lia. Qed.
Lemma lex_irrefl s : lex_compare s s = false.
Proof. induction s as [|a s IH]; [reflexivity|]. cbn. rewrite Z.ltb_irrefl. exact IH. Qed.
Lemma lex_iff s : forall t, bytes s -> bytes t -> (lex_compare s t = true <-> lexico schar s t).
Proof.
  induction s as [|a s IH]; intros [|b t] Bs Bt; cbn.
  - split; [discriminate|inversion 1].
  - split; [constructor|reflexivity].
  - split; [discriminate|inversion 1].
  - inversion Bs as [|? ? A Bs']; inversion Bt as [|? ? B Bt']; subst.
    destruct (Z.ltb_spec (schar a) (schar b)) as [L|L].
    + split; [intros _; apply lex_head; exact L|reflexivity].
    + destruct (Z.ltb_spec (schar b) (schar a)) as [L'|L'].
      * split; [discriminate|]. inversion 1; subst; lia.
      * assert (a = b) as -> by (apply schar_inj; [exact A|exact B|lia]).
        rewrite (IH t Bs' Bt'). split; [intros H; apply lex_tail; exact H|].
        inversion 1; subst; [lia|assumption].
Qed.
Lemma lex_trans r : forall s t, lex_compare r s = true -> lex_compare s t = true -> lex_compare r t = true.
Proof.
  induction r as [|a r IH]; intros [|b s] [|c t]; cbn; intros H1 H2; try discriminate; try reflexivity.
  destruct (Z.ltb_spec (schar a) (schar b)), (Z.ltb_spec (schar b) (schar a)),
    (Z.ltb_spec (schar b) (schar c)), (Z.ltb_spec (schar c) (schar b)); try discriminate; try lia;
  destruct (Z.ltb_spec (schar a) (schar c)), (Z.ltb_spec (schar c) (schar a)); try reflexivity; try lia.
  exact (IH s t H1 H2).
Qed.
Lemma lex_total s : forall t, bytes s -> bytes t -> lex_compare s t = false -> lex_compare t s = false -> s = t.
Proof.
  induction s as [|a s IH]; intros [|b t] Bs Bt; cbn; intros H1 H2; try discriminate; [reflexivity|].
  inversion Bs as [|? ? A Bs']; inversion Bt as [|? ? B Bt']; subst.
  destruct (Z.ltb_spec (schar a) (schar b)); [discriminate|].
  destruct (Z.ltb_spec (schar b) (schar a)); [discriminate|].
  assert (a = b) as -> by (apply schar_inj; [exact A|exact B|lia]).
  f_equal. apply IH; assumption.
Qed.
Lemma str_eq_iff s : forall t, str_eq s t = true <-> s = t.
Proof.
  unfold str_eq. induction s as [|a s IH]; intros [|b t]; cbn; try (split; [discriminate|discriminate]); [split; reflexivity|].
  specialize (IH t). rewrite !andb_true_iff in *. rewrite Z.eqb_eq. split.
  - intros (L & -> & M). f_equal. apply IH. split; assumption.
  - intros E. inversion E; subst. destruct IH as (_ & IH). destruct (IH eq_refl). repeat split; assumption.
Qed.

(** UTF-8 texts *)
Definition signed_key (cp : Z) : Z := if cp <? 128 then cp else cp - 0x110000.
Lemma utf8_range cp bs : utf8_of cp bs -> 0 <= cp < 0x110000.
Proof. inversion 1; subst; unfold scalar in *; lia. Qed.
Lemma signed_key_inj a b : 0 <= a < 0x110000 -> 0 <= b < 0x110000 -> signed_key a = signed_key b -> a = b.
Proof. unfold signed_key. destruct (Z.ltb_spec a 128), (Z.ltb_spec b 128); lia. Qed.
Lemma schar_lo a : a < 128 -> schar a = a.
Proof. unfold schar. intros. destruct (Z.ltb_spec a 128); [reflexivity|lia]. Qed.
Lemma schar_hi a : 128 <= a -> schar a = a - 256.
Proof. unfold schar. intros. destruct (Z.ltb_spec a 128); [lia|reflexivity]. Qed.
Ltac bcase :=
  repeat match goal with
         | |- context [schar ?a] => first [rewrite (schar_lo a) by lia|rewrite (schar_hi a) by lia]
         end;
  repeat (match goal with
          | |- context [?a <? ?b] => destruct (Z.ltb_spec a b)
          end; cbn [lex_compare app]; try reflexivity; try (exfalso; lia)).
Lemma utf8_key_lt c1 b1 c2 b2 r1 r2 : utf8_of c1 b1 -> utf8_of c2 b2 -> signed_key c1 < signed_key c2 ->
  lex_compare (b1 ++ r1) (b2 ++ r2) = true.
Proof.
  intros U1 U2. unfold signed_key.
  destruct (Z.ltb_spec c1 128), (Z.ltb_spec c2 128); intros L; inversion U1; inversion U2; subst; unfold scalar in *; try lia;
    cbn [app lex_compare]; bcase.
Qed.
Lemma utf8_key_lt_not c1 b1 c2 b2 r1 r2 : utf8_of c1 b1 -> utf8_of c2 b2 -> signed_key c1 < signed_key c2 ->
  lex_compare (b2 ++ r2) (b1 ++ r1) = false.
Proof.
  intros U1 U2 L. destruct (lex_compare (b2 ++ r2) (b1 ++ r1)) eqn:E; [|reflexivity].
  pose proof (lex_trans _ _ _ (utf8_key_lt _ _ _ _ r1 r2 U1 U2 L) E) as H. rewrite lex_irrefl in H. discriminate.
Qed.
Lemma utf8_same c b1 b2 : utf8_of c b1 -> utf8_of c b2 -> b1 = b2.
Proof.
  intros U1 U2. inversion U1; inversion U2; subst; unfold scalar in *; try lia; repeat f_equal; lia.
Qed.
Lemma lex_app b : forall s t, lex_compare (b ++ s) (b ++ t) = lex_compare s t.
Proof. induction b as [|a b IH]; intros s t; [reflexivity|]. cbn. rewrite Z.ltb_irrefl. apply IH. Qed.
Lemma utf8_cons c b : utf8_of c b -> exists x r, b = x :: r.
Proof. inversion 1; subst; eauto. Qed.
Lemma text_lex cps1 : forall s1 cps2 s2, text utf8_of cps1 s1 -> text utf8_of cps2 s2 ->
  (lex_compare s1 s2 = true <-> lexico signed_key cps1 cps2).
Proof.
  induction cps1 as [|c1 cps1 IH]; intros s1 cps2 s2 T1 T2; inversion T1 as [|? b1 ? r1 U1 T1']; subst;
    inversion T2 as [|c2 b2 cps2' r2 U2 T2']; subst.
  - split; [discriminate|inversion 1].
  - destruct (utf8_cons _ _ U2) as (x & r & ->). split; [constructor|reflexivity].
  - split; [|inversion 1]. destruct (b1 ++ r1); discriminate.
  - destruct (Z.lt_trichotomy (signed_key c1) (signed_key c2)) as [L|[E|L]].
    + rewrite (utf8_key_lt _ _ _ _ _ _ U1 U2 L). split; [intros _; apply lex_head; exact L|reflexivity].
    + apply signed_key_inj in E; [|eapply utf8_range; eassumption..]. subst c2.
      rewrite (utf8_same _ _ _ U2 U1). rewrite lex_app, (IH _ _ _ T1' T2').
      split; [intros H; apply lex_tail; exact H|]. inversion 1; subst; [lia|assumption].
    + rewrite (utf8_key_lt_not _ _ _ _ _ _ U2 U1 L). split; [discriminate|]. inversion 1; subst; lia.
Qed.

(** ** Binary search *)
Section BS.
  Variables (lt : Z -> Z -> bool) (m : mem) (src0 stride val v n : Z) (x : Z -> Z).
  Hypothesis N : s64 n.
  Hypothesis V : m val = Some v.
  Hypothesis X : forall i, 0 <= i < n -> m (src0 + i * stride) = Some (x i).

  Lemma bs_step fuel first last : 0 <= first -> first < last -> last <= n ->
    exists t, first <= t < last /\
    bsearch_loop lt m src0 stride val (S fuel) first last =
    if lt v (x t) then bsearch_loop lt m src0 stride val fuel first t
    else if lt (x t) v then bsearch_loop lt m src0 stride val fuel (t + 1) last else Ok t.
  Proof.
    intros F L LN. exists (first + (last - first) / 2).
    assert (D : 0 <= (last - first) / 2 < last - first) by (split; [apply Z.div_pos; lia|apply Z.div_lt_upper_bound; lia]).
    split; [lia|]. cbn [bsearch_loop]. destruct (Z.ltb_spec first last); [|lia].
    unfold s64 in *. unfold sub64. rewrite chk64_ok by (unfold s64; lia). cbn [bind].
    unfold div64. change (2 =? 0) with false. cbv iota.
    rewrite chk64_ok by (rewrite Z.quot_div_nonneg by lia; unfold s64; lia). cbn [bind].
    rewrite Z.quot_div_nonneg by lia.
    unfold add64. rewrite chk64_ok by (unfold s64; lia). cbn [bind].
    unfold ld. rewrite V, X by lia. cbn [bind].
    rewrite chk64_ok by (unfold s64; lia). reflexivity.
  Qed.
  Lemma bs_sound : forall fuel first last, 0 <= first -> last <= n -> last - first <= Z.of_nat fuel ->
    exists r, bsearch_loop lt m src0 stride val fuel first last = Ok r /\
      ((r = -1 /\ (weak_order lt -> in_order lt x n ->
                   (forall i, 0 <= i < first -> lt (x i) v = true) -> (forall i, last <= i < n -> lt v (x i) = true) ->
                   forall i, 0 <= i < n -> lt (x i) v = true \/ lt v (x i) = true)) \/
       (0 <= r < n /\ equivalent lt v (x r))).
  Proof.
    induction fuel as [|fuel IH]; intros first last F L FU.
    - exists (-1). cbn. destruct (Z.ltb_spec first last); [lia|]. split; [reflexivity|]. left. split; [reflexivity|].
      intros _ _ A B i I. destruct (Z.lt_ge_cases i first); [left; apply A; lia|right; apply B; lia].
    - destruct (Z.lt_ge_cases first last) as [FL|FL].
      2:{ exists (-1). cbn [bsearch_loop]. destruct (Z.ltb_spec first last); [lia|]. split; [reflexivity|]. left. split; [reflexivity|].
          intros _ _ A B i I. destruct (Z.lt_ge_cases i first); [left; apply A; lia|right; apply B; lia]. }
      destruct (bs_step fuel first last F FL L) as (t & T & ->).
      destruct (lt v (x t)) eqn:E1; [|destruct (lt (x t) v) eqn:E2].
      + destruct (IH first t) as (r & -> & H); [lia|lia|lia|]. exists r. split; [reflexivity|].
        destruct H as [(-> & C)|H]; [left|right; exact H]. split; [reflexivity|].
        intros W O A B. apply C; [exact W|exact O|exact A|].
        intros i I. destruct (Z.eq_dec i t) as [->|NE]; [exact E1|].
        destruct W as (_ & W). destruct (W v (x i) (x t) E1) as [?|Q]; [assumption|].
        rewrite (O t i) in Q by lia. discriminate.
      + destruct (IH (t + 1) last) as (r & -> & H); [lia|lia|lia|]. exists r. split; [reflexivity|].
        destruct H as [(-> & C)|H]; [left|right; exact H]. split; [reflexivity|].
        intros W O A B. apply C; [exact W|exact O| |exact B].
        intros i I. destruct (Z.eq_dec i t) as [->|NE]; [exact E2|].
        destruct W as (_ & W). destruct (W (x t) (x i) v E2) as [Q|?]; [|assumption].
        rewrite (O i t) in Q by lia. discriminate.
      + exists t. split; [reflexivity|]. right. split; [lia|]. split; assumption.
  Qed.
End BS.

(** ** Masked take *)
Section MT.
  Variables (kk : strided_t) (f : list Z -> outcome Z).
  Hypothesis K : applies f kk.
  Variables (src0 ss mask ms ds n : Z) (b x v : Z -> Z).

  Fixpoint sel (k : nat) (i : Z) : list Z :=
    match k with
    | O => []
    | S k => if b i =? 0 then sel k (i + 1) else v i :: sel k (i + 1)
    end.
  Definition run (r : nat) (i : Z) : list Z := map (fun j => v (i + Z.of_nat j)) (seq 0 r).
  Lemma sel_run r : forall k i, (forall j, i <= j < i + Z.of_nat r -> b j <> 0) -> sel (r + k) i = run r i ++ sel k (i + Z.of_nat r).
  Proof.
    induction r as [|r IH]; intros k i H.
    - rewrite Z.add_0_r. reflexivity.
    - unfold run. cbn [Nat.add sel seq map app]. destruct (Z.eqb_spec (b i) 0) as [E|E]; [exfalso; apply (H i); lia|].
      rewrite Z.add_0_r. f_equal. rewrite IH by (intros j Hj; apply H; lia). f_equal.
      + unfold run. rewrite <- seq_shift, map_map. apply map_ext. intros j. f_equal. lia.
      + f_equal. lia.
  Qed.
  Lemma sel_zeros z : forall k i, (forall j, i <= j < i + Z.of_nat z -> b j = 0) -> sel (z + k) i = sel k (i + Z.of_nat z).
  Proof.
    induction z as [|z IH]; intros k i H.
    - rewrite Z.add_0_r. reflexivity.
    - cbn [Nat.add sel]. rewrite (H i) by lia. cbn [Z.eqb]. rewrite IH by (intros j Hj; apply H; lia). f_equal. lia.
  Qed.
  Lemma run_false_spec m : forall fuel i k, i + Z.of_nat k = n -> (k <= fuel)%nat ->
    (forall j, i <= j < n -> m (elem mask ms j) = Some (b j)) ->
    exists z, (z <= k)%nat /\ (forall j, i <= j < i + Z.of_nat z -> b j = 0) /\ ((z < k)%nat -> b (i + Z.of_nat z) <> 0) /\
      run_false m (elem src0 ss i) ss (elem mask ms i) ms fuel i n =
      Ok (elem src0 ss (i + Z.of_nat z), elem mask ms (i + Z.of_nat z), i + Z.of_nat z).
  Proof.
    induction fuel as [|fuel IH]; intros i k E F M.
    - exists O. rewrite Z.add_0_r. repeat split; try lia. cbn. destruct (Z.ltb_spec i n); [lia|reflexivity].
    - destruct k as [|k].
      { exists O. rewrite Z.add_0_r. repeat split; try lia. cbn. destruct (Z.ltb_spec i n); [lia|reflexivity]. }
      cbn [run_false]. destruct (Z.ltb_spec i n); [|lia]. unfold ld. rewrite M by lia. cbn [bind].
      destruct (Z.eqb_spec (b i) 0) as [B|B].
      + destruct (IH (i + 1) k) as (z & Z1 & Z2 & Z3 & Z4); [lia|lia|intros; apply M; lia|].
        exists (S z). split; [lia|]. split.
        { intros j J. destruct (Z.eq_dec j i) as [->|]; [exact B|]. apply Z2. lia. }
        split. { intros L. replace (i + Z.of_nat (S z)) with (i + 1 + Z.of_nat z) by lia. apply Z3. lia. }
        replace (elem src0 ss i + ss) with (elem src0 ss (i + 1)) by (unfold elem; ring).
        replace (elem mask ms i + ms) with (elem mask ms (i + 1)) by (unfold elem; ring).
        rewrite Z4. replace (i + Z.of_nat (S z)) with (i + 1 + Z.of_nat z) by lia. reflexivity.
      + exists O. rewrite Z.add_0_r. repeat split; try lia; intros _; exact B.
  Qed.
  Lemma run_true_spec m : forall fuel i k, i + Z.of_nat k = n -> (k <= fuel)%nat ->
    (forall j, i <= j < n -> m (elem mask ms j) = Some (b j)) ->
    exists z, (z <= k)%nat /\ (forall j, i <= j < i + Z.of_nat z -> b j <> 0) /\ ((z < k)%nat -> b (i + Z.of_nat z) = 0) /\
      run_true m (elem mask ms i) ms fuel i n = Ok (elem mask ms (i + Z.of_nat z), i + Z.of_nat z).
  Proof.
    induction fuel as [|fuel IH]; intros i k E F M.
    - exists O. rewrite Z.add_0_r. repeat split; try lia. cbn. destruct (Z.ltb_spec i n); [lia|reflexivity].
    - destruct k as [|k].
      { exists O. rewrite Z.add_0_r. repeat split; try lia. cbn. destruct (Z.ltb_spec i n); [lia|reflexivity]. }
      cbn [run_true]. destruct (Z.ltb_spec i n); [|lia]. unfold ld. rewrite M by lia. cbn [bind].
      destruct (Z.eqb_spec (b i) 0) as [B|B].
      + exists O. rewrite Z.add_0_r. repeat split; try lia; intros _; exact B.
      + destruct (IH (i + 1) k) as (z & Z1 & Z2 & Z3 & Z4); [lia|lia|intros; apply M; lia|].
        exists (S z). split; [lia|]. split.
        { intros j J. destruct (Z.eq_dec j i) as [->|]; [exact B|]. apply Z2. lia. }
        split. { intros L. replace (i + Z.of_nat (S z)) with (i + 1 + Z.of_nat z) by lia. apply Z3. lia. }
        replace (elem mask ms i + ms) with (elem mask ms (i + 1)) by (unfold elem; ring).
        rewrite Z4. replace (i + Z.of_nat (S z)) with (i + 1 + Z.of_nat z) by lia. reflexivity.
  Qed.
  Lemma sel_length k : forall i, (List.length (sel k i) <= k)%nat.
  Proof. induction k as [|k IH]; intros i; cbn; [lia|]. destruct (b i =? 0); cbn; specialize (IH (i + 1)); lia. Qed.

  Lemma elem_inj base j1 j2 : ds <> 0 -> elem base ds j1 = elem base ds j2 -> j1 = j2.
  Proof. unfold elem. nia. Qed.
  Lemma nth_run r i (j : nat) : (j < r)%nat -> nth j (run r i) 0 = v (i + Z.of_nat j).
  Proof.
    intros J. unfold run. rewrite (nth_indep _ 0 (v (i + Z.of_nat O))) by (rewrite map_length, seq_length; exact J).
    rewrite (map_nth (fun j => v (i + Z.of_nat j))), seq_nth by exact J. reflexivity.
  Qed.
  Lemma run_length r i : List.length (run r i) = r.
  Proof. unfold run. rewrite map_length, seq_length. reflexivity. Qed.

  Lemma masked_spec : forall fuel k i m dst count, (k <= fuel)%nat -> 0 <= i -> i + Z.of_nat k = n ->
    valid m dst ds k -> distinct ds k ->
    (forall j, i <= j < n -> m (elem mask ms j) = Some (b j)) ->
    (forall j, i <= j < n -> m (elem src0 ss j) = Some (x j)) ->
    (forall j, i <= j < n -> b j <> 0 -> f [x j] = Ok (v j)) ->
    (forall a j, 0 <= a < Z.of_nat k -> i <= j < n -> elem dst ds a <> elem mask ms j /\ elem dst ds a <> elem src0 ss j) ->
    exists m', masked_loop kk m dst ds (elem src0 ss i) ss (elem mask ms i) ms fuel i n count = Ok (m', count + Z.of_nat (List.length (sel k i))) /\
      (forall j, (j < List.length (sel k i))%nat -> m' (elem dst ds (Z.of_nat j)) = Some (nth j (sel k i) 0)) /\
      (forall a, (forall j, 0 <= j < Z.of_nat (List.length (sel k i)) -> a <> elem dst ds j) -> m' a = m a).
  Proof.
    induction fuel as [|fuel IH]; intros k i m dst count F I0 E VA DI M X FX AP.
    { assert (k = O) as -> by lia. exists m. cbn. destruct (Z.ltb_spec i n); [lia|]. rewrite Z.add_0_r. repeat split; intros; lia. }
    destruct k as [|k0].
    { exists m. cbn. destruct (Z.ltb_spec i n); [lia|]. rewrite Z.add_0_r. repeat split; intros; lia. }
    remember (S k0) as k eqn:EK.
    cbn [masked_loop]. destruct (Z.ltb_spec i n); [|lia].
    destruct (run_false_spec m (Z.to_nat (n - i)) i k) as (z & Z1 & Z2 & Z3 & ->); [lia|lia|exact M|]. cbn [bind].
    set (i1 := i + Z.of_nat z) in *.
    destruct (run_true_spec m (Z.to_nat (n - i1)) i1 (k - z)) as (r & R1 & R2 & R3 & ->); [lia|lia|intros; apply M; lia|]. cbn [bind].
    set (i2 := i1 + Z.of_nat r) in *.
    assert (SEL : sel k i = run r i1 ++ sel (k - z - r) i2).
    { replace k with (z + (r + (k - z - r)))%nat at 1 by lia. rewrite sel_zeros by exact Z2. rewrite sel_run by exact R2. reflexivity. }
    destruct (Z.ltb_spec i1 i2) as [LT|GE].
    - replace (i2 - i1) with (Z.of_nat r) by lia. rewrite Nat2Z.id.
      assert (VR : valid m dst ds r) by (intros j J; apply VA; lia).
      assert (DR : distinct ds r) by (destruct DI; [left; assumption|right; lia]).
      assert (HX : holds m [elem src0 ss i1] [ss] r (fun j => [x (i1 + j)])).
      { split; [reflexivity|]. intros j J. cbn. f_equal. rewrite <- X by lia. f_equal. unfold elem. ring. }
      assert (APR : forall s t, In (s, t) (combine [elem src0 ss i1] [ss]) -> apart dst ds s t r).
      { intros s t [Q|[]]. inversion Q; subst s t. intros a j A J.
        replace (elem (elem src0 ss i1) ss j) with (elem src0 ss (i1 + j)) by (unfold elem; ring). apply AP; lia. }
      destruct (K m dst ds [elem src0 ss i1] [ss] r _ VR DR HX APR) as (K1 & _).
      destruct (K1 (fun j => v (i1 + j))) as (m1 & -> & S1 & S2). { intros j J. apply FX; [lia|]. apply R2. lia. }
      cbn [bind].
      replace (elem src0 ss i1 + Z.of_nat r * ss) with (elem src0 ss i2) by (unfold elem, i2; ring).
      assert (KEEP : forall a, (forall j, 0 <= j < Z.of_nat k -> a <> elem dst ds j) -> m1 a = m a).
      { intros a A. apply S2. intros j J. apply A. lia. }
      destruct (IH (k - z - r)%nat i2 m1 (dst + Z.of_nat r * ds) (count + Z.of_nat r)) as (m' & -> & R4 & R5).
      + lia.
      + lia.
      + lia.
      + intros j J. replace (elem (dst + Z.of_nat r * ds) ds j) with (elem dst ds (Z.of_nat r + j)) by (unfold elem; ring).
        destruct (Z.eq_dec ds 0) as [D0|D0].
        * destruct DI as [DI|DI]; [contradiction|]. lia.
        * rewrite S2; [apply VA; lia|]. intros j' J' Q. apply elem_inj in Q; [|exact D0]. lia.
      + destruct DI; [left; assumption|right; lia].
      + intros j J. rewrite KEEP; [apply M; lia|]. intros a A Q. destruct (AP a j) as (Q1 & _); [lia|lia|]. apply Q1. symmetry. exact Q.
      + intros j J. rewrite KEEP; [apply X; lia|]. intros a A Q. destruct (AP a j) as (_ & Q1); [lia|lia|]. apply Q1. symmetry. exact Q.
      + intros j J. apply FX. lia.
      + intros a j A J. replace (elem (dst + Z.of_nat r * ds) ds a) with (elem dst ds (Z.of_nat r + a)) by (unfold elem; ring). apply AP; lia.
      + exists m'. rewrite SEL, app_length, run_length. split; [f_equal; f_equal; lia|]. split.
        * intros j J. destruct (Nat.lt_ge_cases j r) as [JR|JR].
          -- rewrite app_nth1 by (rewrite run_length; exact JR). rewrite nth_run by exact JR.
             destruct (Z.eq_dec ds 0) as [D0|D0].
             ++ destruct DI as [DI|DI]; [contradiction|].
                rewrite R5; [apply S1; lia|]. intros j' J'. exfalso. pose proof (sel_length (k - z - r) i2). lia.
             ++ rewrite R5; [apply S1; lia|]. intros j' J' Q.
                replace (elem (dst + Z.of_nat r * ds) ds j') with (elem dst ds (Z.of_nat r + j')) in Q by (unfold elem; ring).
                apply elem_inj in Q; [|exact D0]. lia.
          -- rewrite app_nth2 by (rewrite run_length; exact JR). rewrite run_length.
             replace (elem dst ds (Z.of_nat j)) with (elem (dst + Z.of_nat r * ds) ds (Z.of_nat (j - r)))
               by (unfold elem; rewrite Nat2Z.inj_sub by exact JR; ring). apply R4. lia.
        * intros a A. rewrite R5.
          -- apply S2. intros j J. apply A. lia.
          -- intros j J Q. apply (A (Z.of_nat r + j)); [lia|]. rewrite Q. unfold elem. ring.
    - assert (r = O) by lia. subst r. assert (z = k) by (destruct (Nat.lt_ge_cases z k) as [ZK|ZK]; [|lia]; specialize (Z3 ZK); specialize (R3 ltac:(lia)); replace i2 with i1 in R3 by (unfold i2; lia); exact (False_ind _ (Z3 R3))).
      subst z. exists m. rewrite SEL. replace (k - k - 0)%nat with O by lia. cbn [run seq map app sel List.length].
      destruct fuel; cbn [masked_loop]; destruct (Z.ltb_spec i2 n); try lia; rewrite Z.add_0_r; repeat split; intros; cbn in *; lia.
  Qed.
End MT.
Lemma sel_selected b v k : forall i, sel b v k i = selected (map (fun j => negb (b (i + Z.of_nat j) =? 0)) (seq 0 k)) (map (fun j => v (i + Z.of_nat j)) (seq 0 k)).
Proof.
  induction k as [|k IH]; intros i; [reflexivity|]. cbn [sel seq map]. rewrite Z.add_0_r.
  rewrite <- seq_shift, !map_map. rewrite IH.
  assert (E1 : map (fun j => negb (b (i + Z.of_nat (S j)) =? 0)) (seq 0 k) = map (fun j => negb (b (i + 1 + Z.of_nat j) =? 0)) (seq 0 k)).
  { apply map_ext. intros j. do 3 f_equal. lia. }
  assert (E2 : map (fun j => v (i + Z.of_nat (S j))) (seq 0 k) = map (fun j => v (i + 1 + Z.of_nat j)) (seq 0 k)).
  { apply map_ext. intros j. f_equal. lia. }
  rewrite E1, E2. destruct (b i =? 0); reflexivity.
Qed.

(** ** Indexed take *)
Lemma apply_single_index_ok ix n i : s64 n -> designates ix n i -> apply_single_index ix n = Ok i.
Proof.
  unfold designates, apply_single_index, neg64, sub64, add64, s64. intros N (I & [->| ->]).
  - destruct (Z.leb_spec 0 i); [|lia]. destruct (Z.ltb_spec i n); [reflexivity|lia].
  - destruct (Z.leb_spec 0 (i - n)); [lia|]. rewrite chk64_ok by (unfold s64; lia). cbn [bind].
    destruct (Z.leb_spec (- n) (i - n)); [|lia]. rewrite chk64_ok by (unfold s64; lia). f_equal. lia.
Qed.
Lemma apply_single_index_bad ix n : 0 <= n -> s64 n -> (forall i, ~ designates ix n i) -> apply_single_index ix n = Throw "index_out_of_bounds".
Proof.
  unfold designates, apply_single_index, neg64, s64. intros N0 N H.
  destruct (Z.leb_spec 0 ix).
  - destruct (Z.ltb_spec ix n); [exfalso; apply (H ix); lia|reflexivity].
  - rewrite chk64_ok by (unfold s64; lia). cbn [bind].
    destruct (Z.leb_spec (- n) ix); [exfalso; apply (H (ix + n)); lia|reflexivity].
Qed.
