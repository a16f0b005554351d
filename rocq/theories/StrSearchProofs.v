From Verif Require Import Base StrSearchModel StrSearchSpec.

(** Indexing. *)
Definition get (l : list Z) (i : Z) : option Z := if i <? 0 then None else nth_error l (Z.to_nat i).
Lemma ld_get l i : ld l i = match get l i with Some c => Ok c | None => UB end.
Proof. unfold ld, get. destruct (i <? 0); auto. Qed.
Lemma get_in l i : 0 <= i < size l -> exists c, get l i = Some c.
Proof.
  unfold get, size. intros H. replace (i <? 0) with false by lia. destruct (nth_error l (Z.to_nat i)) eqn:E; eauto.
  apply nth_error_None in E. lia.
Qed.
Lemma get_lt l i c : get l i = Some c -> 0 <= i < size l.
Proof.
  unfold get, size. intros H. destruct (Z.ltb_spec i 0); [discriminate|]. assert (nth_error l (Z.to_nat i) <> None) as X by congruence.
  apply nth_error_Some in X. lia.
Qed.
Lemma ld_in l i : 0 <= i < size l -> exists c, ld l i = Ok c /\ get l i = Some c.
Proof. intros H. destruct (get_in l i H) as (c & E). exists c. rewrite ld_get, E. auto. Qed.
Lemma size_nonneg l : 0 <= size l.
Proof. unfold size. lia. Qed.
Lemma size_app a b : size (a ++ b) = size a + size b.
Proof. unfold size. rewrite app_length. lia. Qed.
Lemma get_app_r a b j : 0 <= j -> get (a ++ b) (size a + j) = get b j.
Proof.
  intros H. unfold get, size. replace (_ <? 0) with false by lia. replace (j <? 0) with false by lia.
  rewrite nth_error_app2 by lia. f_equal. lia.
Qed.
Lemma get_app_l a b j : j < size a -> get (a ++ b) j = get a j.
Proof. intros H. unfold get, size in *. destruct (Z.ltb_spec j 0); auto. rewrite nth_error_app1 by lia. auto. Qed.
Lemma get_cons c l j : 0 <= j -> get (c :: l) (j + 1) = get l j.
Proof. intros H. apply (get_app_r [c] l j) in H. cbn [app] in H. change (size [c]) with 1 in H. now rewrite Z.add_comm. Qed.
Lemma get0 c l : get (c :: l) 0 = Some c.
Proof. reflexivity. Qed.

Lemma prefix_of p : forall r, (forall j, 0 <= j < size p -> get r j = get p j) -> exists b, r = p ++ b.
Proof.
  induction p as [|x p IH]; intros r H; [exists r; reflexivity|].
  assert (H0 : get r 0 = Some x) by (rewrite H; [reflexivity|unfold size; cbn [List.length]; lia]).
  destruct r as [|y r]; [discriminate|]. rewrite get0 in H0. injection H0 as ->.
  destruct (IH r) as (b & ->); [|exists b; reflexivity]. intros j Hj. specialize (H (j + 1)). rewrite !get_cons in H by lia. apply H.
  unfold size in *. cbn [List.length]. lia.
Qed.

Lemma occurs_iff h p k : occurs_at h p k <-> 0 <= k /\ k + size p <= size h /\ forall j, 0 <= j < size p -> get h (k + j) = get p j.
Proof.
  split.
  - intros (a & b & -> & ->). split; [lia|split; [rewrite !size_app; unfold size; lia|]]. intros j Hj.
    change (Z.of_nat (List.length a)) with (size a). rewrite get_app_r by lia. apply get_app_l. lia.
  - intros (K & S & G). exists (firstn (Z.to_nat k) h).
    assert (L : List.length (firstn (Z.to_nat k) h) = Z.to_nat k) by (rewrite firstn_length; unfold size in *; lia).
    destruct (prefix_of p (skipn (Z.to_nat k) h)) as (b & E).
    + intros j Hj. rewrite <- G by auto. rewrite <- (firstn_skipn (Z.to_nat k) h) at 2.
      replace (k + j) with (size (firstn (Z.to_nat k) h) + j) by (unfold size; lia). now rewrite get_app_r by lia.
    + exists b. rewrite <- E, firstn_skipn. split; [auto|lia].
Qed.
Lemma occurs_range h p k : occurs_at h p k -> 0 <= k /\ k + size p <= size h.
Proof. rewrite occurs_iff. tauto. Qed.

(** Bloom filter. *)
Lemma bloom_has_bit mask ch : bloom_has mask ch = Z.testbit mask (Z.land ch 63).
Proof.
  unfold bloom_has. assert (K : 0 <= Z.land ch 63) by (apply Z.land_nonneg; right; lia). set (k := Z.land ch 63) in *. rewrite Z.shiftl_1_l.
  assert (E : Z.land mask (2 ^ k) = if Z.testbit mask k then 2 ^ k else 0).
  { apply Z.bits_inj'. intros i Hi. rewrite Z.land_spec, Z.pow2_bits_eqb by auto. destruct (Z.eqb_spec k i) as [->|N].
    - destruct (Z.testbit mask i) eqn:B; [rewrite Z.pow2_bits_true by auto; auto|now rewrite Z.bits_0].
    - rewrite andb_false_r. destruct (Z.testbit mask k); [rewrite Z.pow2_bits_eqb by auto; symmetry; now apply Z.eqb_neq|now rewrite Z.bits_0]. }
  rewrite E. destruct (Z.testbit mask k); auto. pose proof (Z.pow_pos_nonneg 2 k ltac:(lia) K). destruct (Z.eqb_spec (2 ^ k) 0); auto; lia.
Qed.
Lemma bloom_add_bit mask c ch : bloom_has (bloom_add mask c) ch = bloom_has mask ch || (Z.land c 63 =? Z.land ch 63).
Proof.
  rewrite !bloom_has_bit. unfold bloom_add. rewrite Z.lor_spec, Z.shiftl_1_l, Z.pow2_bits_eqb; auto. apply Z.land_nonneg. right; lia.
Qed.
Lemma bloom_add_same mask c : bloom_has (bloom_add mask c) c = true.
Proof. rewrite bloom_add_bit, Z.eqb_refl. apply orb_true_r. Qed.
Lemma bloom_add_keep mask c ch : bloom_has mask ch = true -> bloom_has (bloom_add mask c) ch = true.
Proof. intros H. now rewrite bloom_add_bit, H. Qed.

(** Delta table. *)
Definition covers (p : list Z) (mask lo hi : Z) : Prop := forall j c, lo <= j < hi -> get p j = Some c -> bloom_has mask c = true.
Lemma delta_spec p mlast l : get p mlast = Some l -> forall fuel i mask skip, 0 <= i <= mlast -> (Z.to_nat (mlast - i) <= fuel)%nat ->
  covers p mask 0 i -> 0 <= skip <= mlast - 1 -> Z.min (mlast - 1) (mlast - i) <= skip -> (forall j, mlast - 1 - skip < j < i -> get p j <> Some l) ->
  exists mask' skip', delta_loop fuel p mlast i mask skip = Ok (mask', skip') /\ covers p mask' 0 mlast /\ 0 <= skip' <= mlast - 1 /\
    (forall j, mlast - 1 - skip' < j < mlast -> get p j <> Some l) /\
    (i < mlast -> (skip' = 0 <-> mlast = 1 \/ get p (mlast - 1) = Some l)).
Proof.
  intros HL. pose proof (get_lt _ _ _ HL) as RL. induction fuel as [|fuel IH]; intros i mask skip Hi F C S M N.
  - assert (i = mlast) by lia. subst i. exists mask, skip. cbn [delta_loop]. replace (mlast <? mlast) with false by lia.
    split; [auto|split; [auto|split; [auto|split; [auto|lia]]]].
  - cbn [delta_loop]. destruct (Z.ltb_spec i mlast) as [L|L].
    2:{ assert (i = mlast) by lia. subst i. exists mask, skip. split; [auto|split; [auto|split; [auto|split; [auto|lia]]]]. }
    destruct (ld_in p i ltac:(lia)) as (c & E & G). rewrite E. cbn [bind]. rewrite (ld_get p mlast), HL. cbn [bind].
    set (skip1 := if c =? l then mlast - i - 1 else skip).
    assert (S1 : 0 <= skip1 <= mlast - 1) by (unfold skip1; destruct (c =? l); lia).
    assert (M1 : Z.min (mlast - 1) (mlast - (i + 1)) <= skip1) by (unfold skip1; destruct (c =? l); lia).
    assert (C1 : covers p (bloom_add mask c) 0 (i + 1)).
    { intros j d Hj Gd. destruct (Z.eq_dec j i) as [->|Nj]; [assert (d = c) by congruence; subst; apply bloom_add_same|].
      apply bloom_add_keep. apply (C j); auto. lia. }
    assert (N1 : forall j, mlast - 1 - skip1 < j < i + 1 -> get p j <> Some l).
    { intros j Hj. unfold skip1 in Hj. destruct (Z.eqb_spec c l) as [->|Ncl]; [lia|].
      destruct (Z.eq_dec j i) as [->|Nj]; [congruence|]. apply N. lia. }
    destruct (IH (i + 1) (bloom_add mask c) skip1 ltac:(lia) ltac:(lia) C1 S1 M1 N1) as (mask' & skip' & E' & C' & S' & N' & K).
    exists mask', skip'. split; [auto|split; [auto|split; [auto|split; [auto|]]]]. intros _.
    destruct (Z.eq_dec (i + 1) mlast) as [El|Nl]; [|apply K; lia].
    assert (E'' : delta_loop fuel p mlast (i + 1) (bloom_add mask c) skip1 = Ok (bloom_add mask c, skip1)).
    { destruct fuel; cbn [delta_loop]; (replace (i + 1 <? mlast) with false by lia); reflexivity. }
    rewrite E' in E''. injection E'' as -> ->. replace (mlast - 1) with i by lia. rewrite G. unfold skip1.
    destruct (Z.eqb_spec c l) as [->|Ncl].
    + split; [auto|lia].
    + split; [left; lia|]. intros [->|X]; [lia|congruence].
Qed.

Lemma cmp_spec h p i mlast : 0 <= i -> i + mlast <= size h -> mlast <= size p -> forall fuel j, 0 <= j <= mlast -> (Z.to_nat (mlast - j) <= fuel)%nat ->
  exists j', cmp_loop fuel h p i mlast j = Ok j' /\ j <= j' <= mlast /\ (forall x, j <= x < j' -> get h (i + x) = get p x) /\
    (j' < mlast -> get h (i + j') <> get p j').
Proof.
  intros Hi Hh Hp. induction fuel as [|fuel IH]; intros j Hj F.
  - assert (j = mlast) by lia. subst j. exists mlast. cbn [cmp_loop]. replace (mlast <? mlast) with false by lia.
    split; [auto|split; [lia|split; [intros; lia|lia]]].
  - cbn [cmp_loop]. destruct (Z.ltb_spec j mlast) as [L|L].
    2:{ exists j. split; [auto|split; [lia|split; [intros; lia|lia]]]. }
    destruct (ld_in h (i + j) ltac:(lia)) as (a & E & G). destruct (ld_in p j ltac:(lia)) as (b & E' & G'). rewrite E, E'. cbn [bind].
    destruct (Z.eqb_spec a b) as [->|N]; cbn [negb].
    + destruct (IH (j + 1) ltac:(lia) ltac:(lia)) as (j' & R & B & Q & D). exists j'. split; [auto|split; [lia|split; [|auto]]].
      intros x Hx. destruct (Z.eq_dec x j) as [->|]; [congruence|apply Q; lia].
    + exists j. split; [auto|split; [lia|split; [intros; lia|congruence]]].
Qed.

(** What a search reports: [path exact i ps] - from [i] on, the positions [ps];
    after a report at [k] the search goes on at some [i' >= k + size p], and if
    [exact] no occurrence is passed over. *)
Inductive path (h p : list Z) (exact : Prop) : Z -> list Z -> Prop :=
| path_end i : (forall k, i <= k -> ~ occurs_at h p k) -> path h p exact i []
| path_hit i k i' ps : i <= k -> occurs_at h p k -> (forall j, i <= j < k -> ~ occurs_at h p j) -> k + size p <= i' ->
    (exact -> forall j, k + size p <= j < i' -> ~ occurs_at h p j) -> path h p exact i' ps -> path h p exact i (k :: ps).
Fixpoint run {St} (ub : bool) (H : Z -> St -> outcome (St * bool)) (ps : list Z) (st : St) : outcome St :=
  match ps with
  | [] => if ub then UB else Ok st
  | k :: ps => do (st', stop) <- H k st; if (stop : bool) then Ok st' else run ub H ps st'
  end.

Lemma path_skip h p (X : Prop) i i' ps : i <= i' -> (forall j, i <= j < i' -> ~ occurs_at h p j) -> path h p X i' ps -> path h p X i ps.
Proof.
  intros L N P. inversion P as [? Q|? k i2 ps' L' O Q K E P']; subst.
  - constructor. intros k Hk. destruct (Z.ltb_spec k i'); [apply N; lia|apply Q; lia].
  - econstructor; eauto; [lia|]. intros j Hj. destruct (Z.ltb_spec j i'); [apply N; lia|apply Q; lia].
Qed.

Section Forward.
Variables (h p : list Z) (l mask skip : Z).
Let m := size p.
Let n := size h.
Let w := n - m.
Let mlast := m - 1.
Hypothesis Hm : 2 <= m.
Hypothesis Hw : 0 <= w.
Hypothesis Hl : get p mlast = Some l.
Hypothesis HC : covers p mask 0 m.
Hypothesis HS : 0 <= skip <= mlast - 1.
Hypothesis HN : forall j, mlast - 1 - skip < j < mlast -> get p j <> Some l.

Lemma advance_spec i sk : 0 <= i -> 0 <= sk -> (forall k, i < k <= i + sk -> ~ occurs_at h p k) ->
  exists i', advance h m w mask sk i = Ok i' /\ i <= i' /\ (forall k, i < k <= i' -> ~ occurs_at h p k).
Proof.
  intros Hi Hk N. unfold advance. destruct (Z.ltb_spec i w) as [L|L].
  - destruct (ld_in h (m - 1 + (i + 1)) ltac:(unfold n in *; lia)) as (c & E & G). rewrite E. cbn [bind].
    destruct (bloom_has mask c) eqn:B; cbn [negb]; [exists (i + sk); split; [auto|split; [lia|auto]]|].
    exists (i + m). split; [auto|split; [lia|]]. intros k Hk' O. apply occurs_iff in O as (_ & _ & O).
    specialize (O (i + m - k) ltac:(unfold m in *; lia)). replace (k + (i + m - k)) with (m - 1 + (i + 1)) in O by lia.
    rewrite G in O. symmetry in O. rewrite (HC (i + m - k) c) in B; [discriminate|unfold m in *; lia|auto].
  - exists (i + sk). split; [auto|split; [lia|auto]].
Qed.

Lemma search_path : forall i, 0 <= i -> exists ps, path h p (skip = 0) i ps /\
  forall St (H : Z -> St -> outcome (St * bool)) st fuel, (Z.to_nat (w + 1 - i) <= fuel)%nat -> search_loop H fuel h p m w mlast mask skip i st = run false H ps st.
Proof.
  assert (G : forall k i, 0 <= i -> (Z.to_nat (w + 1 - i) <= k)%nat -> exists ps, path h p (skip = 0) i ps /\
    forall St (H : Z -> St -> outcome (St * bool)) st fuel, (Z.to_nat (w + 1 - i) <= fuel)%nat -> search_loop H fuel h p m w mlast mask skip i st = run false H ps st).
  2:{ intros i Hi. eapply G; eauto. }
  induction k as [|k IH]; intros i Hi Lk.
  - exists []. split.
    + constructor. intros k Hk O. apply occurs_range in O. unfold w, n, m in *. lia.
    + intros St H st fuel F. destruct fuel; cbn [search_loop]; (replace (i <=? w) with false by lia); reflexivity.
  - destruct (Z.leb_spec i w) as [L|L].
    2:{ exists []. split.
      + constructor. intros x Hx O. apply occurs_range in O. unfold w, n, m in *. lia.
      + intros St H st fuel F. destruct fuel; cbn [search_loop]; (replace (i <=? w) with false by lia); reflexivity. }
    destruct (ld_in h (m - 1 + i) ltac:(unfold w, n in *; lia)) as (a & Ea & Ga).
    assert (El : ld p (m - 1) = Ok l) by (rewrite ld_get; change (m - 1) with mlast; now rewrite Hl).
    destruct (Z.eqb_spec a l) as [->|Nal].
    + destruct (cmp_spec h p i mlast Hi ltac:(unfold w, n, mlast in *; lia) ltac:(unfold mlast, m; lia) (List.length p) 0 ltac:(unfold mlast; lia) ltac:(unfold mlast, m, size; lia)) as (j & Ej & Bj & Qj & Dj).
      destruct (Z.eqb_spec j mlast) as [->|Nj].
      * assert (O : occurs_at h p i).
        { apply occurs_iff. split; [auto|split; [unfold w, n, m in *; lia|]]. intros x Hx.
          destruct (Z.eq_dec x mlast) as [->|Nx]; [|apply Qj; unfold mlast, m in *; lia]. rewrite Hl. replace (i + mlast) with (m - 1 + i) by (unfold mlast; lia). auto. }
        assert (Ex : exists i', advance h m w mask skip (i + mlast) = Ok i' /\ i + mlast <= i' /\ (skip = 0 -> forall k, i + mlast < k <= i' -> ~ occurs_at h p k)).
        { destruct (Z.eq_dec skip 0) as [Z0|NZ].
          - destruct (advance_spec (i + mlast) skip ltac:(unfold mlast; lia) ltac:(lia) ltac:(intros; lia)) as (i' & E & B & N). exists i'. auto.
          - unfold advance. destruct (Z.ltb_spec (i + mlast) w) as [L'|L'].
            + destruct (ld_in h (m - 1 + (i + mlast + 1)) ltac:(unfold w, n, mlast in *; lia)) as (c & E & Gc). rewrite E. cbn [bind].
              destruct (negb _); [exists (i + mlast + m)|exists (i + mlast + skip)]; (split; [auto|split; [lia|contradiction]]).
            + exists (i + mlast + skip). split; [auto|split; [lia|contradiction]]. }
        destruct Ex as (i' & E & B & N).
        destruct (IH (i' + 1) ltac:(unfold mlast in *; lia) ltac:(unfold mlast in *; lia)) as (ps & P & R).
        exists (i :: ps). split.
        -- apply path_hit with (i' + 1); auto; [lia|intros; lia|unfold mlast, m in *; lia|]. intros Z0 x Hx. apply N; auto. unfold mlast, m in *; lia.
        -- intros St H st fuel F. destruct fuel as [|fuel]; [lia|]. cbn [search_loop run]. replace (i <=? w) with true by lia. rewrite Ea, El. cbn [bind]. rewrite Z.eqb_refl.
           rewrite Ej. cbn [bind]. rewrite Z.eqb_refl. destruct (H i st) as [[st' stop]| | |]; cbn [bind]; auto. destruct stop; auto. rewrite E. cbn [bind]. apply R. unfold mlast in *; lia.
      * assert (NO : ~ occurs_at h p i).
        { intros O. apply occurs_iff in O as (_ & _ & O). apply Dj; [lia|]. apply O. unfold mlast, m in *; lia. }
        destruct (advance_spec i skip Hi ltac:(lia)) as (i' & E & B & N).
        { intros x Hx O. apply occurs_iff in O as (_ & _ & O). apply (HN (mlast - (x - i))); [lia|].
          rewrite <- O by (unfold mlast, m in *; lia). replace (x + (mlast - (x - i))) with (m - 1 + i) by (unfold mlast; lia). auto. }
        destruct (IH (i' + 1) ltac:(lia) ltac:(lia)) as (ps & P & R). exists ps. split.
        -- apply path_skip with (i' + 1); auto; [lia|]. intros x Hx. destruct (Z.eq_dec x i) as [->|]; auto. apply N. lia.
        -- intros St H st fuel F. destruct fuel as [|fuel]; [lia|]. cbn [search_loop]. replace (i <=? w) with true by lia. rewrite Ea, El. cbn [bind]. rewrite Z.eqb_refl.
           rewrite Ej. cbn [bind]. destruct (Z.eqb_spec j mlast); [congruence|]. rewrite E. cbn [bind]. apply R. lia.
    + assert (NO : ~ occurs_at h p i).
      { intros O. apply occurs_iff in O as (_ & _ & O). specialize (O mlast ltac:(unfold mlast, m in *; lia)). rewrite Hl in O.
        replace (i + mlast) with (m - 1 + i) in O by (unfold mlast; lia). congruence. }
      destruct (advance_spec i 0 Hi ltac:(lia) ltac:(intros; lia)) as (i' & E & B & N).
      destruct (IH (i' + 1) ltac:(lia) ltac:(lia)) as (ps & P & R). exists ps. split.
      * apply path_skip with (i' + 1); auto; [lia|]. intros x Hx. destruct (Z.eq_dec x i) as [->|]; auto. apply N. lia.
      * intros St H st fuel F. destruct fuel as [|fuel]; [lia|]. cbn [search_loop]. replace (i <=? w) with true by lia. rewrite Ea, El. cbn [bind]. destruct (Z.eqb_spec a l); [congruence|].
        rewrite E. cbn [bind]. apply R. lia.
Qed.
End Forward.

(** One-character needles. *)
Lemma occurs1 h c k : occurs_at h [c] k <-> get h k = Some c.
Proof.
  rewrite occurs_iff. change (size [c]) with 1. split.
  - intros (K & S & G). specialize (G 0 ltac:(lia)). now rewrite Z.add_0_r in G.
  - intros G. pose proof (get_lt _ _ _ G). split; [lia|split; [lia|]]. intros j Hj. assert (j = 0) by lia. subst j. now rewrite Z.add_0_r.
Qed.
Lemma naive_path h c : forall i, 0 <= i -> exists ps, path h [c] True i ps /\
  forall St (H : Z -> St -> outcome (St * bool)) st fuel, (Z.to_nat (size h - i) <= fuel)%nat -> naive_loop H fuel h c i st = run false H ps st.
Proof.
  assert (G : forall k i, 0 <= i -> (Z.to_nat (size h - i) <= k)%nat -> exists ps, path h [c] True i ps /\
    forall St (H : Z -> St -> outcome (St * bool)) st fuel, (Z.to_nat (size h - i) <= fuel)%nat -> naive_loop H fuel h c i st = run false H ps st).
  2:{ intros i Hi. eapply G; eauto. }
  assert (E0 : forall i, 0 <= i -> size h <= i -> exists ps, path h [c] True i ps /\
    forall St (H : Z -> St -> outcome (St * bool)) st fuel, (Z.to_nat (size h - i) <= fuel)%nat -> naive_loop H fuel h c i st = run false H ps st).
  { intros i Hi L. exists []. split.
    - constructor. intros k Hk O. apply occurs1, get_lt in O. lia.
    - intros St H st fuel F. destruct fuel; cbn [naive_loop]; (replace (i <? size h) with false by lia); reflexivity. }
  induction k as [|k IH]; intros i Hi Lk; [apply E0; lia|]. destruct (Z.ltb_spec i (size h)) as [L|L]; [|apply E0; lia].
  destruct (ld_in h i ltac:(lia)) as (a & Ea & Ga). destruct (IH (i + 1) ltac:(lia) ltac:(lia)) as (ps & P & R).
  destruct (Z.eqb_spec a c) as [->|N].
  - exists (i :: ps). split.
    + apply path_hit with (i + 1); auto; [lia|now apply occurs1|intros; lia|reflexivity|]. change (size [c]) with 1. intros; lia.
    + intros St H st fuel F. destruct fuel as [|fuel]; [lia|]. cbn [naive_loop run]. replace (i <? size h) with true by lia. rewrite Ea. cbn [bind]. rewrite Z.eqb_refl.
      destruct (H i st) as [[st' stop]| | |]; cbn [bind]; auto. destruct stop; auto. apply R. lia.
  - exists ps. split.
    + apply path_skip with (i + 1); auto; [lia|]. intros j Hj O. assert (j = i) by lia. subst j. apply occurs1 in O. congruence.
    + intros St H st fuel F. destruct fuel as [|fuel]; [lia|]. cbn [naive_loop]. replace (i <? size h) with true by lia. rewrite Ea. cbn [bind]. destruct (Z.eqb_spec a c); [congruence|]. apply R. lia.
Qed.

Lemma chr_at_spec h c : forall k, match chr_at h c k with
  | Some x => k <= x /\ get h (x - k) = Some c /\ forall j, 0 <= j < x - k -> get h j <> Some c
  | None => forall j, get h j <> Some c
  end.
Proof.
  induction h as [|a h IH]; intros k; cbn [chr_at].
  - intros j. unfold get. destruct (j <? 0); [discriminate|]. destruct (Z.to_nat j); discriminate.
  - destruct (Z.eqb_spec a c) as [->|N].
    + rewrite Z.sub_diag. split; [lia|split; [reflexivity|lia]].
    + specialize (IH (k + 1)). destruct (chr_at h c (k + 1)) as [x|].
      * destruct IH as (L & G & Q). split; [lia|split].
        -- replace (x - k) with (x - (k + 1) + 1) by lia. now rewrite get_cons by lia.
        -- intros j Hj. destruct (Z.eq_dec j 0) as [->|]; [rewrite get0; congruence|]. replace j with (j - 1 + 1) by lia. rewrite get_cons by lia. apply Q. lia.
      * intros j. destruct (Z.ltb_spec j 0); [unfold get; replace (j <? 0) with true by lia; discriminate|].
        destruct (Z.eq_dec j 0) as [->|]; [rewrite get0; congruence|]. replace j with (j - 1 + 1) by lia. rewrite get_cons by lia. apply IH.
Qed.
Lemma get_skipn h s j : 0 <= s -> 0 <= j -> s <= size h -> get (skipn (Z.to_nat s) h) j = get h (s + j).
Proof.
  intros Hs Hj L. rewrite <- (firstn_skipn (Z.to_nat s) h) at 2.
  replace (s + j) with (size (firstn (Z.to_nat s) h) + j); [now rewrite get_app_r by auto|].
  unfold size in *. rewrite firstn_length. lia.
Qed.

(** The flag of the memchr search: some match was reported and the last one is
    not at the end of the haystack. *)
Definition runs_over (h : list Z) (ps : list Z) : bool :=
  match ps with [] => false | _ => negb (last ps 0 =? size h - 1) end.
Lemma last_cons {A} (a : A) ps d : last (a :: ps) d = last ps a.
Proof. revert a d. induction ps as [|b ps IH]; intros a d; [reflexivity|]. change (last (a :: b :: ps) d) with (last (b :: ps) d). rewrite !IH. reflexivity. Qed.
Lemma chr_path h c : forall s, 0 <= s <= size h -> exists ps, path h [c] True s ps /\
  forall St (H : Z -> St -> outcome (St * bool)) st fuel, (Z.to_nat (size h - s) <= fuel)%nat ->
    chr_loop H fuel h c s st = run (if s =? 0 then runs_over h ps else negb (last ps (s - 1) =? size h - 1)) H ps st.
Proof.
  assert (G : forall k s, 0 <= s <= size h -> (Z.to_nat (size h - s) <= k)%nat -> exists ps, path h [c] True s ps /\
    forall St (H : Z -> St -> outcome (St * bool)) st fuel, (Z.to_nat (size h - s) <= fuel)%nat ->
    chr_loop H fuel h c s st = run (if s =? 0 then runs_over h ps else negb (last ps (s - 1) =? size h - 1)) H ps st).
  2:{ intros s Hs. eapply G; eauto. }
  { assert (E0 : forall s, 0 <= s -> s = size h -> exists ps, path h [c] True s ps /\
      forall St (H : Z -> St -> outcome (St * bool)) st fuel, (Z.to_nat (size h - s) <= fuel)%nat ->
      chr_loop H fuel h c s st = run (if s =? 0 then runs_over h ps else negb (last ps (s - 1) =? size h - 1)) H ps st).
    { intros s Hs L. exists []. split.
      - constructor. intros k Hk O. apply occurs1, get_lt in O. lia.
      - intros St H st fuel F. assert (B : (if s =? 0 then runs_over h [] else negb (last [] (s - 1) =? size h - 1)) = false).
        { destruct (s =? 0); auto. cbn [last]. replace (s - 1 =? size h - 1) with true by lia. auto. }
        rewrite B. destruct fuel; cbn [chr_loop]; (replace (s <? size h) with false by lia); reflexivity. }
    induction k as [|k IH]; intros s Hs Lk; [apply E0; lia|]. destruct (Z.ltb_spec s (size h)) as [L|L]; [|apply E0; lia].
    pose proof (chr_at_spec (skipn (Z.to_nat s) h) c s) as CS. destruct (chr_at (skipn (Z.to_nat s) h) c s) as [x|] eqn:EC.
    - destruct CS as (Lx & Gx & Qx). rewrite get_skipn in Gx by lia. replace (s + (x - s)) with x in Gx by lia. pose proof (get_lt _ _ _ Gx) as Rx.
      destruct (IH (x + 1) ltac:(lia) ltac:(lia)) as (ps & P & R). exists (x :: ps). split.
      + apply path_hit with (x + 1); auto; [now apply occurs1| |reflexivity|].
        * intros j Hj O. apply occurs1 in O. apply (Qx (j - s)); [lia|]. rewrite get_skipn by lia. now replace (s + (j - s)) with j by lia.
        * change (size [c]) with 1. intros; lia.
      + intros St H st fuel F. destruct fuel as [|fuel]; [lia|]. cbn [chr_loop]. replace (s <? size h) with true by lia. unfold memchr_n. rewrite EC. cbn [bind run].
        destruct (H x st) as [[st' stop]| | |]; cbn [bind]; auto. destruct stop; auto. rewrite R by lia. replace (x + 1 =? 0) with false by lia.
        replace (x + 1 - 1) with x by lia. f_equal. unfold runs_over. rewrite !last_cons. destruct (s =? 0); auto.
    - assert (NO : forall j, s <= j -> ~ occurs_at h [c] j).
      { intros j Hj O. apply occurs1 in O. apply (CS (j - s)). rewrite get_skipn by lia. now replace (s + (j - s)) with j by lia. }
      exists []. split; [now constructor|]. intros St H st fuel F. destruct fuel as [|fuel]; [lia|]. cbn [chr_loop]. replace (s <? size h) with true by lia. unfold memchr_n. rewrite EC.
      destruct (s =? 0) eqn:S0; cbn [bind run runs_over last]; auto. replace (s - 1 =? size h - 1) with false by lia. reflexivity. }
Qed.
(** The whole search. *)
Definition overruns (h p ps : list Z) : bool := (size p =? 1) && (10 <? size h) && runs_over h ps.

Lemma path_weaken h p (X Y : Prop) : (Y -> X) -> forall ps i, path h p X i ps -> path h p Y i ps.
Proof.
  intros XY. induction ps as [|k ps IH]; intros i P; inversion P as [? Q|? ? i2 ? L' O Q K E P']; subst; [now constructor|].
  apply path_hit with i2; auto.
Qed.
Lemma size_nil_iff l : size l = 0 <-> l = [].
Proof. unfold size. destruct l; cbn [List.length]; split; try congruence; try lia; auto. Qed.

Lemma steady_iff p l : 2 <= size p -> get p (size p - 1) = Some l -> (steady p <-> size p - 1 = 1 \/ get p (size p - 1 - 1) = Some l).
Proof.
  intros Hm HL. split.
  - intros [S|(a & x & ->)]; [left; unfold size in *; lia|]. right. rewrite size_app in *. change (size [x; x]) with 2 in *.
    replace (size a + 2 - 1) with (size a + 1) in HL by lia. replace (size a + 2 - 1 - 1) with (size a + 0) by lia. rewrite get_app_r in * by lia. exact HL.
  - intros [S|G]; [left; unfold size in *; lia|]. right.
    assert (E : p = firstn (Z.to_nat (size p - 2)) p ++ skipn (Z.to_nat (size p - 2)) p) by now rewrite firstn_skipn.
    assert (L1 : size (skipn (Z.to_nat (size p - 2)) p) = 2) by (unfold size in *; rewrite skipn_length; lia).
    assert (G0 : get (skipn (Z.to_nat (size p - 2)) p) 0 = Some l) by (rewrite get_skipn by lia; now replace (size p - 2 + 0) with (size p - 1 - 1) by lia).
    assert (G1 : get (skipn (Z.to_nat (size p - 2)) p) 1 = Some l) by (rewrite get_skipn by lia; now replace (size p - 2 + 1) with (size p - 1) by lia).
    exists (firstn (Z.to_nat (size p - 2)) p), l. rewrite E at 1. f_equal. revert L1 G0 G1. generalize (skipn (Z.to_nat (size p - 2)) p) as q.
    intros q. destruct q as [|a [|b [|c q]]]; unfold size; cbn [List.length]; try lia. intros _. rewrite get0. change (get [a; b] 1) with (Some b). congruence.
Qed.

Lemma no_room h p : size h < size p -> forall k, ~ occurs_at h p k.
Proof. intros L k O. apply occurs_range in O. lia. Qed.

Lemma delta_whole p : 2 <= size p -> exists (l mask skip : Z), get p (size p - 1) = Some l /\
  (forall St (H : Z -> St -> outcome (St * bool)) h st, size p <= size h -> string_search H h p st =
    search_loop H (S (List.length h)) h p (size p) (size h - size p) (size p - 1) mask skip 0 st) /\
  covers p mask 0 (size p) /\ 0 <= skip <= size p - 1 - 1 /\ (forall j, size p - 1 - 1 - skip < j < size p - 1 -> get p j <> Some l) /\ (skip = 0 <-> steady p).
Proof.
  intros Hm. destruct (get_in p (size p - 1) ltac:(lia)) as (l & HL).
  destruct (delta_spec p (size p - 1) l HL (List.length p) 0 0 (size p - 1 - 1)) as (mask & skip & E & C & S & N & K).
  - lia.
  - unfold size. lia.
  - intros j c Hj. lia.
  - lia.
  - lia.
  - intros j Hj. lia.
  - exists l, (bloom_add mask l), skip. split; [auto|split; [|split; [|split; [auto|split; [auto|]]]]].
    + intros St H h st L. unfold string_search. replace (size h - size p <? 0) with false by lia. replace (size p <=? 1) with false by lia.
      rewrite E. cbn [bind]. rewrite ld_get, HL. reflexivity.
    + intros j c Hj G. destruct (Z.eq_dec j (size p - 1)) as [->|]; [assert (c = l) by congruence; subst; apply bloom_add_same|].
      apply bloom_add_keep. apply (C j); auto. lia.
    + rewrite (K ltac:(lia)). symmetry. now apply steady_iff.
Qed.

Theorem string_search_path h p : 1 <= size p -> exists ps, path h p (steady p) 0 ps /\
  forall St (H : Z -> St -> outcome (St * bool)) st, string_search H h p st = run (overruns h p ps) H ps st.
Proof.
  intros Hm. destruct (Z.ltb_spec (size h) (size p)) as [L|L].
  { exists []. split.
    - constructor. intros k _. now apply no_room.
    - intros St H st. unfold string_search. replace (size h - size p <? 0) with true by lia. unfold overruns. cbn [runs_over]. rewrite andb_false_r. reflexivity. }
  destruct (Z.eq_dec (size p) 1) as [E1|N1].
  - destruct p as [|c [|? ?]]; [discriminate| |unfold size in E1; cbn [List.length] in E1; lia]. clear E1.
    assert (SS : forall St (H : Z -> St -> outcome (St * bool)) st, string_search H h [c] st = string_search_1char H h c st).
    { intros. unfold string_search. change (size [c]) with 1 in *. replace (size h - 1 <? 0) with false by lia. reflexivity. }
    unfold overruns, string_search_1char in *. change (size [c] =? 1) with true. cbn [andb].
    destruct (Z.leb_spec (size h) 10) as [B|B].
    + destruct (naive_path h c 0 ltac:(lia)) as (ps & P & R). exists ps. split; [eapply path_weaken; [|exact P]; auto|].
      intros St H st. rewrite SS. rewrite R by (unfold size; lia). replace (10 <? size h) with false by lia. reflexivity.
    + destruct (chr_path h c 0 ltac:(unfold size; lia)) as (ps & P & R). exists ps. split; [eapply path_weaken; [|exact P]; auto|].
      intros St H st. rewrite SS. rewrite R by (unfold size; lia). replace (10 <? size h) with true by lia. reflexivity.
  - destruct (delta_whole p ltac:(lia)) as (l & mask & skip & HL & SS & C & S & N & K).
    assert (Hm2 : 2 <= size p) by lia. assert (Hw2 : 0 <= size h - size p) by lia.
    destruct (search_path h p l mask skip Hm2 HL C S N 0 (Z.le_refl 0)) as (ps & P & R).
    exists ps. split; [eapply path_weaken; [|exact P]; tauto|]. intros St H st. rewrite SS by lia. rewrite R by (unfold size; lia).
    unfold overruns. replace (size p =? 1) with false by lia. reflexivity.
Qed.

(** The handlers. *)
Lemma overruns_nil h p : overruns h p [] = false.
Proof. unfold overruns. cbn [runs_over]. apply andb_false_r. Qed.
Lemma run_counter ub ps : forall c, run ub counter ps c = if ub then UB else Ok (c + Z.of_nat (List.length ps)).
Proof.
  induction ps as [|k ps IH]; intros c; cbn [run List.length]; [destruct ub; auto; f_equal; lia|].
  unfold counter at 1. cbn [bind]. rewrite IH. destruct ub; auto. f_equal. lia.
Qed.

Theorem find_spec h p : 1 <= size p -> exists r, string_find h p = Ok r /\
  ((r = -1 /\ forall k, ~ occurs_at h p k) \/ (occurs_at h p r /\ forall k, occurs_at h p k -> r <= k)).
Proof.
  intros Hm. destruct (string_search_path h p Hm) as (ps & P & R). unfold string_find. rewrite R.
  inversion P as [? Q|? k i2 ps' L' O Q K E P']; subst.
  - exists (-1). rewrite overruns_nil. split; [reflexivity|]. left. split; auto. intros k O. apply (Q k); auto. apply occurs_range in O. lia.
  - exists k. split; [reflexivity|]. right. split; auto. intros j Oj. destruct (Z.ltb_spec j k); [|lia].
    exfalso. apply (Q j); auto. apply occurs_range in Oj. lia.
Qed.
Theorem contains_spec h p : 1 <= size p -> exists b, string_contains h p = Ok b /\ (b = true <-> exists k, occurs_at h p k).
Proof.
  intros Hm. destruct (string_search_path h p Hm) as (ps & P & R). unfold string_contains. rewrite R.
  inversion P as [? Q|? k i2 ps' L' O Q K E P']; subst.
  - exists false. rewrite overruns_nil. split; [reflexivity|]. split; [discriminate|]. intros (k & O). exfalso. apply (Q k); auto. apply occurs_range in O. lia.
  - exists true. split; [reflexivity|]. split; eauto.
Qed.

(** Chunks. *)
Fixpoint chunks (h : list Z) (m last : Z) (ps : list Z) : list (list Z) :=
  match ps with
  | [] => [skipn (Z.to_nat last) h]
  | k :: ps => firstn (Z.to_nat (k - last)) (skipn (Z.to_nat last) h) :: chunks h m (k + m) ps
  end.
Lemma chunks_length h m : forall ps last, List.length (chunks h m last ps) = S (List.length ps).
Proof. induction ps as [|k ps IH]; intros last; cbn [chunks List.length]; auto. Qed.
Lemma skipn_add {A} (l : list A) a b : skipn a (skipn b l) = skipn (b + a) l.
Proof. revert l. induction b as [|b IH]; intros l; [reflexivity|]. destruct l; [now rewrite !skipn_nil|]. apply IH. Qed.
Lemma occurs_split h p k last : occurs_at h p k -> 0 <= last <= k ->
  skipn (Z.to_nat last) h = firstn (Z.to_nat (k - last)) (skipn (Z.to_nat last) h) ++ p ++ skipn (Z.to_nat (k + size p)) h.
Proof.
  intros (a & b & -> & ->) Hl.
  assert (E : skipn (Z.to_nat (Z.of_nat (List.length a) + size p)) (a ++ p ++ b) = b).
  { replace (Z.to_nat (Z.of_nat (List.length a) + size p)) with (List.length (a ++ p)) by (rewrite app_length; unfold size; lia).
    rewrite app_assoc. rewrite skipn_app, skipn_all, Nat.sub_diag. reflexivity. }
  rewrite E. rewrite skipn_app. replace (Z.to_nat last - List.length a)%nat with 0%nat by lia. cbn [skipn].
  rewrite firstn_app. rewrite firstn_all2 by (rewrite skipn_length; lia). rewrite skipn_length.
  replace (Z.to_nat (Z.of_nat (List.length a) - last) - (List.length a - Z.to_nat last))%nat with 0%nat by lia. cbn [firstn]. rewrite app_nil_r. reflexivity.
Qed.
Lemma join_cons p x ps : ps <> [] -> join p (x :: ps) = x ++ p ++ join p ps.
Proof. destruct ps; [congruence|reflexivity]. Qed.
Lemma chunks_nonnil h m last ps : chunks h m last ps <> [].
Proof. destruct ps; discriminate. Qed.
Lemma path_lb h p X i k ps : path h p X i (k :: ps) -> i <= k /\ occurs_at h p k /\ exists i', k + size p <= i' /\ path h p X i' ps.
Proof. intros P. inversion P as [|? ? i2 ? L' O Q K E P']; subst. eauto 6. Qed.
Lemma join_chunks h p X : forall ps i last, path h p X i ps -> 0 <= last <= i -> join p (chunks h (size p) last ps) = skipn (Z.to_nat last) h.
Proof.
  induction ps as [|k ps IH]; intros i last P L; [reflexivity|]. apply path_lb in P as (Lk & O & i' & Li & P).
  cbn [chunks]. rewrite join_cons by apply chunks_nonnil. pose proof (size_nonneg p). rewrite (IH i') by (auto; lia). symmetry. apply occurs_split; auto. lia.
Qed.
Lemma occurs_skipn h p i k : 0 <= i <= size h -> 0 <= k -> (occurs_at (skipn (Z.to_nat i) h) p k <-> occurs_at h p (i + k)).
Proof.
  intros Hi Hk. assert (LE : size (skipn (Z.to_nat i) h) = size h - i) by (unfold size in *; rewrite skipn_length; lia).
  rewrite !occurs_iff. split.
  - intros (A & B & G). split; [lia|split; [lia|]]. intros j Hj. rewrite <- G by auto. rewrite get_skipn by lia. f_equal. lia.
  - intros (A & B & G). split; [lia|split; [lia|]]. intros j Hj. rewrite <- G by auto. rewrite get_skipn by lia. f_equal. lia.
Qed.

Lemma exact_pieces h p (X : Prop) : X -> forall ps i, path h p X i ps -> 0 <= i <= size h -> pieces p (skipn (Z.to_nat i) h) (chunks h (size p) i ps).
Proof.
  intros HX. induction ps as [|k ps IH]; intros i P Hi; inversion P as [? Q|? ? i2 ? L' O Q K E P']; subst; cbn [chunks].
  - constructor. intros k Ok. pose proof (occurs_range _ _ _ Ok) as R. apply occurs_skipn in Ok; [|auto|lia]. apply (Q (i + k)); auto. lia.
  - rewrite (occurs_split h p k i O) at 1 by lia. pose proof (occurs_range _ _ _ O) as R. pose proof (size_nonneg p). constructor.
    + intros j Oj. rewrite <- (occurs_split h p k i O) in Oj by lia. pose proof (occurs_range _ _ _ Oj) as Rj. apply occurs_skipn in Oj; [|auto|lia].
      rewrite firstn_length, skipn_length. destruct (Z.ltb_spec (i + j) k); [|lia]. exfalso. apply (Q (i + j)); auto. lia.
    + apply IH; [|lia]. apply path_skip with i2; auto.
Qed.

Lemma pieces_counts p s ps : pieces p s ps -> counts p s (Z.of_nat (List.length ps) - 1).
Proof.
  induction 1 as [s N|a s ps F P IH]; cbn [List.length]; [now constructor|]. replace (Z.of_nat (S (List.length ps)) - 1) with (Z.of_nat (List.length ps) - 1 + 1) by lia. now constructor.
Qed.
Lemma pieces_nonnil p s ps : pieces p s ps -> ps <> [].
Proof. destruct 1; discriminate. Qed.
Lemma pieces_replaced p new s ps : pieces p s ps -> replaced p new s (join new ps).
Proof.
  induction 1 as [s N|a s ps F P IH]; [now constructor|]. rewrite join_cons by (eapply pieces_nonnil; eauto). now constructor.
Qed.
Lemma pieces_join p s ps : pieces p s ps -> join p ps = s.
Proof.
  induction 1 as [s N|a s ps F P IH]; [reflexivity|]. rewrite join_cons by (eapply pieces_nonnil; eauto). now rewrite IH.
Qed.
