From Verif Require Import Base RefCountModel RefCountSpec RefCountProofs.
Open Scope nat_scope.

(** Pending increments are covered by the variables they are made for, and their
    source is one more reference. *)
Definition olist (x : option nat) : list nat := match x with Some v => [v] | None => [] end.
Definition target (p : op) : option nat := match p with Copy v _ | Assign v _ | AssignRaw v _ => Some v | _ => None end.
Definition tgt (o : nat) (x : option (op * list micro)) : option nat :=
  match x with Some (p, [MRetain q]) => if Nat.eqb q o then target p else None | _ => None end.
Lemma destr_zero k : Forall destr k -> (forall o, sumf (cp o) k = 0) /\ in_limbo k = None.
Proof.
  induction 1 as [|m k H F IH]; [split; reflexivity|]. destruct IH as (IH1 & IH2). split.
  - intros o. rewrite sumf_cons, IH1. destruct m; cbn in *; tauto.
  - destruct m; cbn in *; tauto.
Qed.
Lemma destr_app_limbo ds k : Forall destr ds -> in_limbo (ds ++ k) = in_limbo k.
Proof. induction 1 as [|m k' H F IH]; [reflexivity|]. destruct m; cbn [app in_limbo] in *; cbn in H; tauto. Qed.
Lemma first_limbo p : in_limbo [first_step p] = None.
Proof. destruct p; reflexivity. Qed.
Lemma pt_tgt s o p k : thread_ok s p k -> wt (cp o) (Some (p, k)) = List.length (olist (tgt o (Some (p, k)))).
Proof.
  intros H. inversion H; subst; cbn [wt].
  - destruct p; reflexivity.
  - destruct (destr_zero k H0) as (Z & _). rewrite Z. destruct k as [|[] [|]]; cbn [tgt olist List.length]; auto. inversion H0; subst. cbn in *. tauto.
  - destruct (destr_zero ds H0) as (Z & _). rewrite sumf_app, Z. destruct ds as [|[] [|]]; reflexivity.
  - destruct (destr_zero ds H0) as (Z & _). rewrite sumf_app, Z. destruct ds as [|[] [|]]; reflexivity.
  - destruct (destr_zero ds H0) as (Z & _). rewrite sumf_app, Z. destruct ds as [|[] [|]]; reflexivity.
  - rewrite sumf_cons, sumf_nil. cbn [cp points tgt]. destruct (Nat.eqb o0 o); [|reflexivity]. destruct H0 as [ -> |[ -> | -> ]]; reflexivity.
Qed.
Lemma flat_nodup {A} (g : A -> option nat) l : (forall i j a b v, i <> j -> nth_error l i = Some a -> nth_error l j = Some b -> g a = Some v -> g b <> Some v) ->
  NoDup (flat_map (fun a => olist (g a)) l).
Proof.
  induction l as [|a l IH]; intros H; [constructor|]. cbn [flat_map].
  assert (N : NoDup (flat_map (fun a => olist (g a)) l)). { apply IH. intros i j x y v D X Y. apply (H (S i) (S j) x y v); auto. }
  destruct (g a) as [v|] eqn:G; cbn [olist app]; [|exact N]. constructor; [|exact N]. intros F. apply in_flat_map in F as (b & B & F).
  apply In_nth_error in B as (j & B). destruct (g b) as [w|] eqn:G2; cbn [olist In] in F; [|tauto]. destruct F as [ -> |[]]. apply (H 0 (S j) a b v); auto.
Qed.
Lemma nodup_sum {A} (f : A -> nat) (z : A) : f z = 0 -> forall L l, NoDup L -> (forall v, In v L -> exists a, nth_error l v = Some a /\ 0 < f a) -> List.length L <= sumf f l.
Proof.
  intros Z. induction L as [|v L IH]; intros l N H; [cbn; lia|]. inversion N; subst. destruct (H v) as (a & E & P); [left; reflexivity|].
  assert (X : List.length L <= sumf f (upd l v z)).
  { apply IH; auto. intros w W. destruct (H w) as (b & B & Q); [right; auto|]. exists b. split; auto. rewrite upd_other; auto. intros ->. auto. }
  pose proof (sumf_upd f l v a z E). cbn [List.length]. lia.
Qed.
Lemma target_writes p v : target p = Some v -> In v (writes p).
Proof. destruct p; cbn; intros [= ->]; auto. Qed.
Lemma tgt_spec s i o x v : Inv s -> nth_error (thr s) i = Some x -> tgt o x = Some v ->
  exists p r, x = Some (p, [MRetain o]) /\ target p = Some v /\ In v (writes p) /\ reads p = [src_var r] /\ src_var r <> v /\ sread s r = Some (Some o) /\ (exists c, nth_error (vars s) v = Some c /\ owned c = true /\ ptr c = Some o).
Proof.
  intros I T G. destruct x as [(p, k)|]; [|discriminate]. destruct k as [|[q| | | | | | | | | | | | | |] [|]]; try discriminate. cbn [tgt] in G.
  destruct (Nat.eqb_spec q o) as [->|]; [|discriminate]. pose proof (I_thr s I i _ _ T) as K. inversion K as [p0 PR AL E1 E2|p0 k0 FD E1 E2|v0 r ds q0 FD D B SR E1 E2|v0 r ds q0 FD D B SR E1 E2|v0 x0 ds FD B1 B2 E1 E2|p0 v0 r o0 HP D SR GV E1 E2]; subst.
  - destruct p; discriminate.
  - inversion FD; subst. cbn in *. tauto.
  - exfalso. destruct ds as [|? [|]]; discriminate.
  - exfalso. destruct ds as [|? [|]]; discriminate.
  - exfalso. destruct ds as [|? [|]]; discriminate.
  - exists p, r. split; [reflexivity|]. split; [exact G|]. split; [apply target_writes; auto|].
    assert (V : v0 = v) by (destruct HP as [ -> |[ -> | -> ]]; injection G; auto). subst v0.
    split; [destruct HP as [ -> |[ -> | -> ]]; reflexivity|]. split; auto. split; auto.
    destruct (owned_own s i p [MRetain o] v I T) as (c & C & O); [apply in_or_app; left; apply target_writes; auto|discriminate|eapply getv_some; eauto|].
    exists c. rewrite (getv_nth _ _ _ C) in GV. auto.
Qed.
Lemma pt_length s o : Inv s -> PT s o = List.length (flat_map (fun x => olist (tgt o x)) (thr s)).
Proof.
  intros I. unfold PT. assert (G : forall l, (forall x, In x l -> exists i, nth_error (thr s) i = Some x) -> sumf (wt (cp o)) l = List.length (flat_map (fun x => olist (tgt o x)) l)).
  { induction l as [|x l IH]; intros H; [reflexivity|]. cbn [flat_map]. rewrite sumf_cons, app_length, IH by (intros; apply H; right; auto). f_equal.
    destruct (H x) as (i & T); [left; reflexivity|]. destruct x as [(p, k)|]; [|reflexivity]. eapply pt_tgt. eapply I_thr; eauto. }
  apply G. intros x X. apply In_nth_error in X. exact X.
Qed.
Lemma pending_covered s o : Inv s -> 0 < PT s o -> PT s o < RV s o + RF s o.
Proof.
  intros I P. rewrite (pt_length s o I) in *. set (L := flat_map (fun x => olist (tgt o x)) (thr s)) in *.
  assert (N : NoDup L).
  { apply flat_nodup. intros i j a b v D A B GA GB. destruct (tgt_spec s i o a v I A GA) as (p & r & -> & _ & W & _). destruct (tgt_spec s j o b v I B GB) as (p' & r' & -> & _ & W' & _).
    destruct (I_compat s I i j _ _ _ _ D A B) as (C & _). apply C in W. tauto. }
  assert (M : forall v, In v L -> exists i p r, nth_error (thr s) i = Some (Some (p, [MRetain o])) /\ In v (writes p) /\ reads p = [src_var r] /\ src_var r <> v /\ sread s r = Some (Some o) /\ (exists c, nth_error (vars s) v = Some c /\ owned c = true /\ ptr c = Some o)).
  { intros v V. apply in_flat_map in V as (x & X & V). apply In_nth_error in X as (i & X). destruct (tgt o x) as [w|] eqn:G; cbn [olist In] in V; [|tauto]. destruct V as [ -> |[]].
    destruct (tgt_spec s i o x v I X G) as (p & r & -> & _ & H). exists i, p, r. split; [exact X|exact H]. }
  assert (F : forall v, In v L -> exists a, nth_error (vars s) v = Some a /\ 0 < wv o a).
  { intros v V. destruct (M v V) as (i & p & r & _ & _ & _ & _ & _ & c & C & O & Q). exists c. split; auto. unfold wv. rewrite O, Q, points_same. lia. }
  destruct L as [|v0 L'] eqn:EL; [cbn in P; lia|]. destruct (M v0) as (i & p & r & T & W & R & D & S & c & C & O & Q); [left; reflexivity|].
  destruct (source_read s i p [MRetain o] r (Some o) I T) as (_ & SR); [rewrite R; left; reflexivity|discriminate|exact S|]. specialize (SR o eq_refl).
  pose proof (nodup_sum (wv o) {| ptr := None; owned := true |} eq_refl (v0 :: L') (vars s) N F) as LE. fold (RV s o) in LE.
  destruct r as [x|x j].
  - (* the source is a further variable *)
    cbn [sread src_var] in *. destruct (Nat.ltb_spec x (List.length (vars s))) as [B|B]; [|discriminate]. injection S as S.
    destruct (owned_own s i p [MRetain o] x I T) as (cx & CX & OX); [apply in_or_app; right; rewrite R; left; reflexivity|discriminate|exact B|].
    assert (NX : ~ In x (v0 :: L')).
    { intros X. destruct (M x X) as (i2 & p2 & r2 & T2 & W2 & R2 & D2 & _). destruct (Nat.eq_dec i2 i) as [->|NE].
      - rewrite T in T2. injection T2 as <-. rewrite R in R2. injection R2 as R2. congruence.
      - destruct (I_compat s I i i2 _ _ _ _ ltac:(auto) T T2) as (_ & C2). apply (C2 x); [rewrite R; left; reflexivity|exact W2]. }
    pose proof (nodup_sum (wv o) {| ptr := None; owned := true |} eq_refl (x :: v0 :: L') (vars s)) as LE2. fold (RV s o) in LE2.
    assert (LE3 : List.length (x :: v0 :: L') <= RV s o).
    { apply LE2; [constructor; auto|]. intros v [ <- |V]; [|apply F; auto]. exists cx. split; auto. unfold wv. rewrite OX. rewrite <- (getv_nth _ _ _ CX), S, points_same. lia. }
    cbn [List.length] in *. lia.
  - (* the source is a member *)
    assert (0 < RF s o).
    { cbn [sread src_var] in *. destruct (getv s x) as [o1|] eqn:G; [|discriminate]. destruct (nth_error (heap s) o1) as [b|] eqn:E; [|discriminate].
      destruct (owned_own s i p [MRetain o] x I T) as (cx & CX & OX); [apply in_or_app; right; rewrite R; left; reflexivity|discriminate|eapply getv_some; eauto|].
      rewrite (getv_nth _ _ _ CX) in G. pose proof (owned_refs s x cx o1 CX OX G). assert (A : is_alive s o1) by (apply refs_alive; auto; unfold refs; lia).
      destruct A as (b' & E' & A). rewrite E in E'. injection E' as <-. eapply field_refs_pos; eauto. eapply nth_error_In; eauto. }
    cbn [List.length] in *. lia.
Qed.
