From Verif Require Import Base StridedModel ElwiseModel ElwiseSpec ElwiseProofs ElwiseProofs2 ElwiseProofs3.
Open Scope Z_scope.

Definition elems (ro : mem) (ops : list operand) (zs : list Z) (i : Z) : list Z :=
  map (fun q => o_elem ro (fst q) (snd q) i) (combine ops zs).

Lemma shift_cons i p ps s ss : shift i (p :: ps) (s :: ss) = p + i * s :: shift i ps ss.
Proof. reflexivity. Qed.

Lemma into_ok ro m n ops zs : part_of ro m -> Forall2 (o_size ro) ops zs -> (forall z, In z zs -> z = 1 \/ z = n) ->
  exists ps ss, vf_into m n (map o_stride ops) (map o_off ops) (map o_fixed_size ops) (map o_var ops) (map o_ptr ops) = Ok (ps, ss) /\
    List.length ps = List.length ss /\ forall i, shift i ps ss = elems ro ops zs i.
Proof.
  intros Pm S. induction S as [|x z ops zs H S IH]; intros Z1; [exists [], []; auto|].
  destruct IH as (ps & ss & E & L & G); [intros y I; apply Z1; right; exact I|]. specialize (Z1 z (or_introl eq_refl)).
  destruct x as [p s o|p s k]; cbn [o_size] in H.
  - destruct H as (B & K). destruct (ro p) as [b|] eqn:Eb; [clear B|contradiction]. cbn [map o_stride o_off o_fixed_size o_var o_ptr vf_into].
    rewrite (ld_part _ _ _ _ Pm Eb), (ld_part _ _ _ _ Pm K). cbn [bind].
    exists (b + o :: ps), ((if z =? 1 then 0 else s) :: ss). split; [|split].
    + destruct (Z.eqb_spec z 1); [|destruct (Z.eqb_spec z n); [|lia]]; cbn [bind]; rewrite E; reflexivity.
    + cbn. rewrite L. reflexivity.
    + intros i. rewrite shift_cons, G. unfold elems. cbn [combine map fst snd o_elem]. rewrite Eb. f_equal. destruct (z =? 1); lia.
  - subst z. cbn [map o_stride o_off o_fixed_size o_var o_ptr vf_into].
    exists (p :: ps), ((if k =? 1 then 0 else s) :: ss). split; [|split].
    + destruct (Z.eqb_spec k 1); [|destruct (Z.eqb_spec k n); [|lia]]; cbn [bind]; rewrite E; reflexivity.
    + cbn. rewrite L. reflexivity.
    + intros i. rewrite shift_cons, G. unfold elems. cbn [combine map fst snd o_elem]. f_equal. destruct (k =? 1); lia.
Qed.
Lemma into_throw ro m n ops zs : part_of ro m -> Forall2 (o_size ro) ops zs -> (exists z, In z zs /\ z <> 1 /\ z <> n) ->
  vf_into m n (map o_stride ops) (map o_off ops) (map o_fixed_size ops) (map o_var ops) (map o_ptr ops) = Throw "broadcast_error".
Proof.
  intros Pm S. induction S as [|x z ops zs H S IH]; intros (y & I & Y1 & Y2); [contradiction|].
  destruct x as [p s o|p s k]; cbn [o_size] in H.
  - destruct H as (B & K). destruct (ro p) as [b|] eqn:Eb; [clear B|contradiction]. cbn [map o_stride o_off o_fixed_size o_var o_ptr vf_into].
    rewrite (ld_part _ _ _ _ Pm Eb), (ld_part _ _ _ _ Pm K). cbn [bind].
    destruct (Z.eqb_spec z 1); [|destruct (Z.eqb_spec z n); [|reflexivity]]; cbn [bind]; (destruct I as [->|I]; [congruence|]); rewrite IH by eauto; reflexivity.
  - subst z. cbn [map o_stride o_off o_fixed_size o_var o_ptr vf_into].
    destruct (Z.eqb_spec k 1); [|destruct (Z.eqb_spec k n); [|reflexivity]]; cbn [bind]; (destruct I as [->|I]; [congruence|]); rewrite IH by eauto; reflexivity.
Qed.

Lemma fresh_ok ro m ops zs : part_of ro m -> Forall2 (o_size ro) ops zs -> forall n0,
  (exists n ps ss, vf_fresh m n0 (map o_stride ops) (map o_off ops) (map o_fixed_size ops) (map o_var ops) (map o_ptr ops) = Ok (n, ps, ss) /\
    (forall z, In z zs -> z = 1 \/ z = n) /\ (n0 = 1 \/ n = n0) /\ (n = n0 \/ In n zs) /\
    List.length ps = List.length ss /\ forall i, shift i ps ss = elems ro ops zs i) \/
  (vf_fresh m n0 (map o_stride ops) (map o_off ops) (map o_fixed_size ops) (map o_var ops) (map o_ptr ops) = Throw "broadcast_error" /\
   forall n, (n0 = 1 \/ n = n0) -> ~ (forall z, In z zs -> z = 1 \/ z = n)).
Proof.
  intros Pm S. induction S as [|x z ops zs H S IH]; intros n0.
  { left. exists n0, [], []. repeat split; auto; try (intros; contradiction). }
  assert (ST : exists b s, (forall i, b + i * s = o_elem ro x z i) /\
    ((z = 1 /\ vf_fresh m n0 (map o_stride (x :: ops)) (map o_off (x :: ops)) (map o_fixed_size (x :: ops)) (map o_var (x :: ops)) (map o_ptr (x :: ops)) =
        bind (vf_fresh m n0 (map o_stride ops) (map o_off ops) (map o_fixed_size ops) (map o_var ops) (map o_ptr ops)) (fun r => match r with (n, ps, sts) => Ok (n, b :: ps, s :: sts) end)) \/
     (z <> 1 /\ (n0 = 1 \/ n0 = z) /\ vf_fresh m n0 (map o_stride (x :: ops)) (map o_off (x :: ops)) (map o_fixed_size (x :: ops)) (map o_var (x :: ops)) (map o_ptr (x :: ops)) =
        bind (vf_fresh m z (map o_stride ops) (map o_off ops) (map o_fixed_size ops) (map o_var ops) (map o_ptr ops)) (fun r => match r with (n, ps, sts) => Ok (n, b :: ps, s :: sts) end)) \/
     (z <> 1 /\ n0 <> 1 /\ n0 <> z /\ vf_fresh m n0 (map o_stride (x :: ops)) (map o_off (x :: ops)) (map o_fixed_size (x :: ops)) (map o_var (x :: ops)) (map o_ptr (x :: ops)) = Throw "broadcast_error"))).
  { destruct x as [p s o|p s k]; cbn [o_size] in H.
    - destruct H as (B & K). destruct (ro p) as [b|] eqn:Eb; [clear B|contradiction]. cbn [map o_stride o_off o_fixed_size o_var o_ptr vf_fresh].
      rewrite (ld_part _ _ _ _ Pm Eb), (ld_part _ _ _ _ Pm K). cbn [bind o_elem]. rewrite Eb.
      exists (b + o), (if z =? 1 then 0 else s). split; [intros i; destruct (z =? 1); lia|].
      destruct (Z.eqb_spec z 1) as [H1|H1]; [left; auto|right]. destruct (Z.eqb_spec n0 1) as [H2|H2]; [left; auto|].
      destruct (Z.eqb_spec z n0) as [H3|H3]; [left; subst n0; auto|right; auto].
    - subst z. cbn [map o_stride o_off o_fixed_size o_var o_ptr vf_fresh bind o_elem].
      exists p, (if k =? 1 then 0 else s). split; [intros i; destruct (k =? 1); lia|].
      destruct (Z.eqb_spec k 1) as [H1|H1]; [left; auto|right]. destruct (Z.eqb_spec k n0) as [H3|H3]; [left; subst n0; auto|].
      destruct (Z.eqb_spec n0 1) as [H2|H2]; [left; auto|right; auto]. }
  destruct ST as (b & s & EL & [(Z1 & ->)|[(Z1 & N1 & ->)|(Z1 & N1 & N2 & ->)]]).
  - destruct (IH n0) as [(n & ps & ss & E & A1 & A2 & A3 & A4 & A5)|(E & A)]; [left|right]; rewrite E; cbn [bind].
    + exists n, (b :: ps), (s :: ss). split; [reflexivity|]. split; [intros y [ <- |I]; [left; exact Z1|apply A1, I]|]. split; [exact A2|].
      split; [destruct A3; [left; assumption|right; right; assumption]|]. split; [cbn; rewrite A4; reflexivity|]. intros i. rewrite shift_cons, A5, EL. reflexivity.
    + split; [reflexivity|]. intros n Hn F. apply (A n Hn). intros y I. apply F. right. exact I.
  - destruct (IH z) as [(n & ps & ss & E & A1 & A2 & A3 & A4 & A5)|(E & A)]; [left|right]; rewrite E; cbn [bind].
    + assert (n = z) by tauto. subst n. exists z, (b :: ps), (s :: ss). split; [reflexivity|]. split; [intros y [ <- |I]; [right; reflexivity|apply A1, I]|].
      split; [destruct N1; [left|right]; auto|]. split; [right; left; reflexivity|]. split; [cbn; rewrite A4; reflexivity|]. intros i. rewrite shift_cons, A5, EL. reflexivity.
    + split; [reflexivity|]. intros n Hn F. assert (n = z) by (specialize (F z (or_introl eq_refl)); lia). subst n.
      apply (A z); [right; reflexivity|]. intros y I. apply F. right. exact I.
  - right. split; [reflexivity|]. intros n Hn F. specialize (F z (or_introl eq_refl)). lia.
Qed.

(** The inner loop. *)
Lemma var_loop f al ro m b ds ps ss ops zs n x : part_of ro m -> List.length ps = List.length ss -> (forall i, shift i ps ss = elems ro ops zs i) ->
  o_values ro ops zs n x -> (forall i, 0 <= i < n -> ro (b + i * ds) = None) ->
  base_strided (single f al KLeaf) m b (if n <=? 1 then 0 else ds) ps ss (Z.to_nat n) = stores f m (points [n] b [ds] (fun idx => x (hd 0 idx))).
Proof.
  intros Pm L G X D. rewrite points_cons.
  transitivity (base_strided (single f al KLeaf) m b ds ps ss (Z.to_nat n)).
  { destruct (Z.leb_spec n 1) as [N|N]; [|reflexivity]. assert (C : Z.to_nat n = 0%nat \/ Z.to_nat n = 1%nat) by lia. destruct C as [->| ->]; [reflexivity|].
    cbn [base_strided]. reflexivity. }
  rewrite <- (loop_stores ro f (single f al KLeaf) b ds ps ss (fun i => points [] (b + Z.of_nat i * ds) [] (fun idx => x (hd 0 (Z.of_nat i :: idx)))) (Z.to_nat n) L 0 m).
  - rewrite shift_0 by exact L. replace (b + Z.of_nat 0 * ds) with b by lia. reflexivity.
  - intros i m1 Hi P1. rewrite G. specialize (X (Z.of_nat i) ltac:(lia)). unfold points. cbn [indices map stores single at_ hd]. unfold leaf.
    assert (E : loads m1 (elems ro ops zs (Z.of_nat i)) = Ok (x (Z.of_nat i))).
    { revert X. unfold elems. generalize (x (Z.of_nat i)). generalize (combine ops zs). clear - P1. induction l as [|q l IH]; intros y Y; cbn [map] in *.
      - destruct y; [reflexivity|discriminate].
      - destruct y as [|v y]; [discriminate|]. injection Y as Y1 Y2. cbn [loads]. rewrite (ld_part _ _ _ _ P1 Y1). cbn [bind]. rewrite (IH y Y2). reflexivity. }
    rewrite E. cbn [bind]. destruct (f _); cbn [bind]; try reflexivity. destruct (st _ _ _); reflexivity.
  - intros i Hi. unfold points. cbn [indices map]. repeat constructor. cbn [fst at_]. apply D. lia.
  - exact Pm.
Qed.

Lemma in_single i n : In [i] (indices [n]) <-> 0 <= i < n.
Proof. rewrite in_indices_cons. cbn. intuition. Qed.

Definition KV blk ds doff ops := KVF blk ds doff (map o_stride ops) (map o_off ops) (map o_fixed_size ops) (map o_var ops) KLeaf.
Lemma var_allocated f al ro m blk ds doff ops zs dst b n x : part_of ro m -> Forall2 (o_size ro) ops zs ->
  m dst = Some b -> b <> 0 -> m (dst + 1) = Some n -> (forall z, In z zs -> z = 1 \/ z = n) ->
  o_values ro ops zs n x -> output_ok ro m (b + doff) [ds] [n] ->
  applied_nd f m (b + doff) [ds] [n] (fun idx => x (hd 0 idx)) (single f al (KV blk ds doff ops) m dst (map o_ptr ops)).
Proof.
  intros Pm S Eb B0 En Z1 X OO. cbn [KV single]. unfold ld at 1. rewrite Eb. cbn [bind]. destruct (Z.eqb_spec b 0); [contradiction|]. cbn [negb].
  unfold ld at 1. rewrite En. cbn [bind]. destruct (into_ok ro m n ops zs Pm S Z1) as (ps & ss & E & L & G). rewrite E. cbn [bind fst snd].
  change (leaf f) with (single f al KLeaf).
  rewrite (var_loop f al ro m (b + doff) ds ps ss ops zs n x Pm L G X); [apply (stores_applied f ro), OO|].
  intros i Hi. apply (proj1 (proj2 OO) [i]). apply in_single, Hi.
Qed.
Lemma var_allocated_throw f al ro m blk ds doff ops zs dst b n : part_of ro m -> Forall2 (o_size ro) ops zs ->
  m dst = Some b -> b <> 0 -> m (dst + 1) = Some n -> (exists z, In z zs /\ z <> 1 /\ z <> n) ->
  single f al (KV blk ds doff ops) m dst (map o_ptr ops) = Throw "broadcast_error".
Proof.
  intros Pm S Eb B0 En Z1. cbn [KV single]. unfold ld at 1. rewrite Eb. cbn [bind]. destruct (Z.eqb_spec b 0); [contradiction|]. cbn [negb].
  unfold ld at 1. rewrite En. cbn [bind]. rewrite (into_throw ro m n ops zs Pm S Z1). reflexivity.
Qed.
Lemma var_fresh f al ro m blk ds ops zs dst n m1 b x : part_of ro m -> Forall2 (o_size ro) ops zs ->
  m dst = Some 0 -> m (dst + 1) <> None -> ro dst = None -> ro (dst + 1) = None -> common_size zs n ->
  al m blk n = Ok (m1, b) -> part_of m m1 -> output_ok ro m1 b [ds] [n] ->
  (forall i, 0 <= i < n -> b + i * ds <> dst /\ b + i * ds <> dst + 1) -> o_values ro ops zs n x ->
  exists m2, m2 dst = Some b /\ m2 (dst + 1) = Some n /\ (forall a, a <> dst -> a <> dst + 1 -> m2 a = m1 a) /\
    applied_nd f m2 b [ds] [n] (fun idx => x (hd 0 idx)) (single f al (KV blk ds 0 ops) m dst (map o_ptr ops)).
Proof.
  intros Pm S E0 E1 R0 R1 (C1 & C2) EA PA OO DJ X. exists (upd (upd m1 dst b) (dst + 1) n).
  assert (P1 : part_of ro m1) by (intros a v Ea; apply PA, Pm, Ea).
  split; [unfold upd; rewrite Z.eqb_refl; destruct (Z.eqb_spec dst (dst + 1)); [lia|reflexivity]|]. split; [unfold upd; rewrite Z.eqb_refl; reflexivity|].
  split; [intros a A1 A2; unfold upd; destruct (Z.eqb_spec a (dst + 1)); [contradiction|]; destruct (Z.eqb_spec a dst); [contradiction|reflexivity]|].
  cbn [KV single]. unfold ld at 1. rewrite E0. cbn [bind Z.eqb negb].
  destruct (fresh_ok ro m ops zs Pm S 1) as [(n' & ps & ss & E & A1 & _ & A3 & L & G)|(E & A)].
  - assert (n' = n) as ->.
    { destruct (Z.eq_dec n' n) as [?|N]; [assumption|exfalso]. destruct A3 as [ -> |A3], C2 as [ -> |C2]; [congruence| | |].
      - destruct (A1 n C2); congruence.
      - destruct (C1 n' A3); congruence.
      - destruct (A1 n C2), (C1 n' A3); congruence. }
    rewrite E. cbn [bind]. rewrite EA. cbn [bind]. unfold st at 1. rewrite (PA _ _ E0). cbn [bind]. unfold st at 1.
    destruct (m (dst + 1)) as [w|] eqn:W; [|contradiction]. rewrite (PA _ _ W : m1 (dst + 1) = Some w) || idtac.
    assert (U : upd m1 dst b (dst + 1) = Some w) by (unfold upd; destruct (Z.eqb_spec (dst + 1) dst); [lia|apply PA, W]). rewrite U. cbn [bind].
    assert (P2 : part_of ro (upd (upd m1 dst b) (dst + 1) n)).
    { intros a v Ea. unfold upd. destruct (Z.eqb_spec a (dst + 1)); [congruence|]. destruct (Z.eqb_spec a dst); [congruence|]. apply P1, Ea. }
    change (leaf f) with (single f al KLeaf).
    rewrite (var_loop f al ro _ b ds ps ss ops zs n x P2 L G X).
    + apply (stores_applied f ro). destruct OO as (O1 & O2 & O3). split; [exact O1|]. split; [|exact O3]. intros idx I. destruct (O2 idx I) as (O4 & O5). split; [|exact O5].
      destruct idx as [|i [|? ?]]; try (apply indices_length in I; discriminate). apply in_single in I. cbn [at_] in *. unfold upd.
      destruct (_ =? _); [discriminate|]. destruct (_ =? _); [discriminate|exact O4].
    + intros i Hi. apply (proj1 (proj2 OO) [i]). apply in_single, Hi.
  - exfalso. apply (A n); [left; reflexivity|exact C1].
Qed.
Lemma var_fresh_throw f al ro m blk ds ops zs dst : part_of ro m -> Forall2 (o_size ro) ops zs ->
  m dst = Some 0 -> (forall n, ~ common_size zs n) -> single f al (KV blk ds 0 ops) m dst (map o_ptr ops) = Throw "broadcast_error".
Proof.
  intros Pm S E0 NC. cbn [KV single]. unfold ld at 1. rewrite E0. cbn [bind Z.eqb negb].
  destruct (fresh_ok ro m ops zs Pm S 1) as [(n' & ps & ss & E & A1 & _ & A3 & _)|(E & _)]; [|rewrite E; reflexivity].
  exfalso. apply (NC n'). split; [exact A1|exact A3].
Qed.

(** A fixed destination and a var operand of another size. *)
Lemma fv_throw f al ro m n ds ops zs c dst : part_of ro m -> Forall2 (o_size ro) ops zs ->
  (exists x z, In (x, z) (combine ops zs) /\ o_var x = true /\ z <> 1 /\ z <> n) ->
  single f al (KFV n ds (map o_stride ops) (map o_off ops) (map o_var ops) c) m dst (map o_ptr ops) = Throw "broadcast_error".
Proof.
  intros Pm S H. cbn [single].
  assert (E : fv_srcs m n (map o_stride ops) (map o_off ops) (map o_var ops) (map o_ptr ops) = Throw "broadcast_error"); [|rewrite E; reflexivity].
  induction S as [|x z ops zs Hx S IH]; [destruct H as (? & ? & [] & _)|]. destruct H as (y & w & I & Y & W1 & W2).
  cbn [map]. rewrite fv_srcs_cons. unfold src1. destruct x as [p s o|p s k]; cbn [o_var o_ptr o_stride o_off o_size] in *.
  - destruct Hx as (B & K). destruct (ro p) as [b|] eqn:Eb; [clear B|contradiction]. rewrite (ld_part _ _ _ _ Pm Eb), (ld_part _ _ _ _ Pm K). cbn [bind].
    destruct (Z.eqb_spec z 1); [|destruct (Z.eqb_spec z n); [|reflexivity]]; cbn [bind]; (destruct I as [[= <- <-]|I]; [congruence|]); rewrite (IH (ex_intro _ y (ex_intro _ w (conj I (conj Y (conj W1 W2)))))); reflexivity.
  - destruct I as [[= <- <-]|I]; [discriminate|]. cbn [bind]. rewrite (IH (ex_intro _ y (ex_intro _ w (conj I (conj Y (conj W1 W2)))))). reflexivity.
Qed.
