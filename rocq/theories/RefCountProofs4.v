From Verif Require Import Base RefCountModel RefCountSpec RefCountProofs RefCountProofs2 RefCountProofs3.
Open Scope nat_scope.

Lemma retain_step s i p o : Inv s -> nth_error (thr s) i = Some (Some (p, [MRetain o])) ->
  exists h, exec_micro s (MRetain o) = Ok (vars s, h, []) /\ Inv (after s i (vars s) h p []).
Proof.
  intros I T. assert (W1 : 0 < PT s o). { unfold PT. pose proof (sumf_ge (wt (cp o)) (thr s) i _ T) as G. cbn [wt] in G. rewrite sumf_cons in G. cbn [cp] in G. rewrite points_same in G. lia. }
  assert (A0 : is_alive s o) by (apply refs_alive; auto; lia). pose proof A0 as (b & B & A). cbn [exec_micro]. unfold at_obj. rewrite B, A. cbn [bind fst snd].
  eexists. split; [reflexivity|]. set (b' := {| cnt := _; alive := _; fields := _; frees := _ |}).
  assert (E : extends (heap s) (upd (heap s) o b')).
  { split; intros q c H.
    - rewrite upd_get, B. destruct (Nat.eqb_spec q o) as [->|]; [exists b'; split; [reflexivity|rewrite B in H; injection H as <-; reflexivity]|eauto].
    - left. rewrite upd_get, B in H. destruct (Nat.eqb_spec q o) as [->|]; [injection H as <-; exists b; auto|eauto]. }
  eapply inv_build; eauto.
  - split; auto.
  - set (s' := after s i (vars s) (upd (heap s) o b') p []).
    assert (RF' : forall q, RF s' q = RF s q). { intros q. unfold RF, s'. cbn [after heap]. pose proof (sumf_upd (wf q) (heap s) o b b' B) as X. assert (Y : wf q b = sumf (points q) (fields b)) by (unfold wf; rewrite A; reflexivity). change (wf q b') with (sumf (points q) (fields b)) in X. lia. }
    assert (TH : forall f, sumf (wt f) (thr s') + f (MRetain o) = sumf (wt f) (thr s)). { intros f. pose proof (thr_sum s i p (MRetain o) [] [] f (vars s) (upd (heap s) o b') T) as X. cbn [app] in X. fold s' in X. rewrite sumf_nil in X. lia. }
    assert (R' : forall q, refs s' q = refs s q). { intros q. unfold refs, TR. rewrite RF'. specialize (TH (cr q)). cbn [cr] in TH. change (RV s' q) with (RV s q). lia. }
    assert (D' : forall q, DT s' q = DT s q). { intros q. unfold DT. specialize (TH (cd q)). cbn [cd] in TH. lia. }
    assert (P' : forall q, PT s' q + points q (Some o) = PT s q). { intros q. apply (TH (cp q)). }
    assert (AL : forall q, is_alive s' q <-> is_alive s q).
    { intros q. unfold is_alive, s'. cbn [after heap]. rewrite upd_get, B. destruct (Nat.eqb_spec q o) as [->|]; [|reflexivity]. split; intros _; [exists b; auto|exists b'; auto]. }
    assert (PN : forall q, q <> o -> points q (Some o) = 0) by (intros q N; cbn [points]; destruct (Nat.eqb_spec o q); congruence).
    split; [|split; [|split]].
    + intros q c C AC. rewrite R'. specialize (P' q). unfold s' in C. cbn [after heap] in C. rewrite upd_get, B in C. destruct (Nat.eqb_spec q o) as [->|N].
      * injection C as <-. pose proof (I_alive s I o b B A). rewrite points_same in P'. cbn [b' cnt]. lia.
      * pose proof (I_alive s I q c C AC). rewrite (PN q N) in P'. lia.
    + intros q N. rewrite AL in N. pose proof (I_dead s I q N) as X. specialize (P' q). rewrite R', D'. lia.
    + intros q Q. rewrite AL in Q. rewrite R', D'. apply (I_del s I q Q).
    + intros q c C. unfold s' in C. cbn [after heap] in C. rewrite upd_get, B in C. destruct (Nat.eqb_spec q o) as [->|N]; [injection C as <-; cbn [b' frees alive]; rewrite (I_frees s I o b B), A; reflexivity|apply (I_frees s I q); auto].
  - apply ok_destr. constructor.
  - intros v c W V O. exfalso. destruct (owned_own s i p [MRetain o] v I T) as (c' & V' & O'); [apply in_or_app; auto|discriminate|apply nth_error_Some; congruence|]. congruence.
Qed.
(** A pointer is stored in a variable that holds none, and counted next. *)
Lemma store_step s i p m v r q : Inv s -> nth_error (thr s) i = Some (Some (p, [m])) -> In v (writes p) -> (forall w, In w (writes p) -> w = v) ->
  p = Copy v r \/ p = Assign v r \/ p = AssignRaw v r -> src_var r <> v -> sread s r = Some q -> in_limbo [m] = None \/ in_limbo [m] = Some v ->
  (forall o, cr o m = 0 /\ cp o m = 0 /\ cd o m = 0) -> (exists c, nth_error (vars s) v = Some c /\ forall o, wv o c = 0) -> Inv (after s i (setv (vars s) v q) (heap s) p (retain q ++ [])).
Proof.
  intros I T W1 W2 HP D SR LM CM (c & C & WC). rewrite app_nil_r. assert (B : v < List.length (vars s)) by (apply nth_error_Some; congruence).
  destruct (source_read s i p [m] r q I T) as (_ & POS); auto; [destruct HP as [ -> |[ -> | -> ]]; left; reflexivity|destruct LM as [ -> | -> ]; congruence|].
  assert (K : keeps s p (setv (vars s) v q)). { split; [apply setv_length|]. intros w N. apply setv_other. intros ->. auto. }
  eapply inv_build; eauto; [apply extends_refl| | |].
  - apply counts_copy with (q := q); auto; [intros o E; specialize (POS o E); unfold refs; lia|]. intros o. specialize (CM o).
    pose proof (setv_sum (vars s) v c q o C) as SV. specialize (WC o).
    assert (TH : forall f, sumf (wt f) (thr (after s i (setv (vars s) v q) (heap s) p (retain q))) + f m = sumf (wt f) (thr s) + sumf f (retain q)).
    { intros f. pose proof (thr_sum s i p m [] (retain q) f (setv (vars s) v q) (heap s) T) as X. rewrite app_nil_r in X. exact X. }
    pose proof (TH (cr o)) as T1. pose proof (TH (cp o)) as T2. pose proof (TH (cd o)) as T3. rewrite retain_cr in T1. rewrite retain_cp in T2. rewrite retain_cd in T3.
    unfold refs, RV, RF, TR, PT, DT. cbn [after vars heap] in *. lia.
  - destruct q as [o|]; cbn [retain]; [|apply ok_destr; constructor]. eapply ok_retain with (v := v) (r := r); auto.
    + apply (sread_ext s); cbn [after vars heap]; auto; [|apply setv_length|apply extends_refl]. unfold getv. cbn [after vars]. rewrite setv_other; auto.
    + unfold getv. cbn [after vars]. rewrite setv_same by auto. reflexivity.
  - intros w c' W V O. apply W2 in W. subst w. rewrite setv_same in V by auto. injection V as <-. discriminate.
Qed.
(** A variable gives its reference up to a pending decrement. *)
Lemma drop_step s i p m v vs k0 : Inv s -> nth_error (thr s) i = Some (Some (p, [m])) -> In v (writes p) -> in_limbo [m] = None -> v < List.length (vars s) ->
  (forall o, cr o m = 0 /\ cp o m = 0 /\ cd o m = 0) -> (forall o, sumf (cr o) k0 = 0 /\ sumf (cp o) k0 = 0 /\ sumf (cd o) k0 = 0) ->
  (forall o c, nth_error (vars s) v = Some c -> sumf (wv o) vs + wv o c = sumf (wv o) (vars s)) -> keeps s p vs -> thread_ok (after s i vs (heap s) p ((release (getv s v) ++ k0) ++ [])) p (release (getv s v) ++ k0) ->
  (forall w c, In w (writes p) -> nth_error vs w = Some c -> owned c = false -> in_limbo k0 = Some w) -> Inv (after s i vs (heap s) p ((release (getv s v) ++ k0) ++ [])).
Proof.
  intros I T W LM B CM CK SV K TO OW. rewrite app_nil_r in *. destruct (owned_own s i p [m] v I T) as (c & C & O); [apply in_or_app; auto|congruence|auto|].
  assert (G : getv s v = ptr c) by (apply getv_nth; auto). eapply inv_build; eauto; [apply extends_refl| |].
  - apply counts_trade; auto. intros o. specialize (CM o). specialize (CK o). specialize (SV o c C).
    assert (TH : forall f, sumf (wt f) (thr (after s i vs (heap s) p (release (getv s v) ++ k0))) + f m = sumf (wt f) (thr s) + sumf f (release (getv s v)) + sumf f k0).
    { intros f. pose proof (thr_sum s i p m [] (release (getv s v) ++ k0) f vs (heap s) T) as X. rewrite app_nil_r, sumf_app in X. lia. }
    pose proof (TH (cr o)) as T1. pose proof (TH (cp o)) as T2. pose proof (TH (cd o)) as T3. rewrite release_cr in T1. rewrite release_cp in T2. rewrite release_cd in T3.
    assert (WC : wv o c = points o (getv s v)) by (unfold wv; rewrite O, G; reflexivity).
    unfold refs, RV, RF, TR, PT, DT. cbn [after vars heap] in *. lia.
  - intros w c' WW V U. destruct (getv s v); cbn [release app in_limbo]; eauto.
Qed.
(** Steps that move pointers between variables. *)
Lemma shuffle_step s i p m vs : Inv s -> nth_error (thr s) i = Some (Some (p, [m])) -> (forall o, cr o m = 0 /\ cp o m = 0 /\ cd o m = 0) ->
  (forall o, sumf (wv o) vs = sumf (wv o) (vars s)) -> keeps s p vs -> (forall w c, In w (writes p) -> nth_error vs w = Some c -> owned c = true) -> Inv (after s i vs (heap s) p ([] ++ [])).
Proof.
  intros I T CM SV K OW. cbn [app]. eapply inv_build; eauto; [apply extends_refl| |apply ok_destr; constructor|].
  - apply counts_trade; auto. intros o. specialize (CM o). specialize (SV o).
    assert (TH : forall f, sumf (wt f) (thr (after s i vs (heap s) p [])) + f m = sumf (wt f) (thr s)).
    { intros f. pose proof (thr_sum s i p m [] [] f vs (heap s) T) as X. cbn [app] in X. rewrite sumf_nil in X. lia. }
    pose proof (TH (cr o)) as T1. pose proof (TH (cp o)) as T2. pose proof (TH (cd o)) as T3.
    unfold refs, RV, RF, TR, PT, DT. cbn [after vars heap] in *. lia.
  - intros w c W V U. rewrite (OW w c W V) in U. discriminate.
Qed.
(** Construction. *)
Lemma clear_spec fs : forall l, NoDup fs -> (forall x, In x fs -> exists c, nth_error l x = Some c /\ owned c = true) ->
  let l' := fold_left (fun l x => setv l x None) fs l in
  List.length l' = List.length l /\ (forall v, ~ In v fs -> nth_error l' v = nth_error l v) /\ (forall v, In v fs -> nth_error l' v = Some {| ptr := None; owned := true |}) /\
  (forall o, sumf (wv o) l' + sumf (fun x => match nth_error l x with Some c => points o (ptr c) | None => 0 end) fs = sumf (wv o) l).
Proof.
  induction fs as [|x fs IH]; intros l N H; cbn [fold_left].
  - split; [reflexivity|split; [reflexivity|split; [intros v []|]]]. intros o. rewrite sumf_nil. lia.
  - inversion N; subst. destruct (H x) as (c & C & O); [left; reflexivity|]. assert (B : x < List.length l) by (apply nth_error_Some; congruence).
    destruct (IH (setv l x None)) as (A1 & A2 & A3 & A4); auto.
    { intros y Y. destruct (H y) as (d & D & P); [right; auto|]. exists d. rewrite setv_other; auto. intros ->. auto. }
    rewrite setv_length in A1. split; [exact A1|]. split; [|split].
    + intros v V. rewrite A2 by (intros W; apply V; right; auto). apply setv_other. intros ->. apply V. left; reflexivity.
    + intros v [ <- |V]; [|auto]. rewrite A2 by auto. apply setv_same; auto.
    + intros o. specialize (A4 o). pose proof (setv_sum l x c None o C) as S. cbn [points] in S. rewrite sumf_cons, C.
      rewrite (sumf_ext _ (fun x0 => match nth_error l x0 with Some c0 => points o (ptr c0) | None => 0 end)) in A4.
      * assert (wv o c = points o (ptr c)) by (unfold wv; rewrite O; reflexivity). lia.
      * intros y Y. rewrite setv_other; auto. intros ->. auto.
Qed.
Lemma fields_sum s o fs : sumf (points o) (map (getv s) fs) = sumf (fun x => match nth_error (vars s) x with Some c => points o (ptr c) | None => 0 end) fs.
Proof. induction fs as [|x fs IH]; [reflexivity|]. cbn [map]. rewrite !sumf_cons, IH. f_equal. unfold getv. destruct (nth_error (vars s) x); reflexivity. Qed.
Lemma new_step s i v fs : Inv s -> nth_error (thr s) i = Some (Some (New v fs, [MNew v fs])) -> pre s (New v fs) ->
  exists vs h, exec_micro s (MNew v fs) = Ok (vs, h, []) /\ Inv (after s i vs h (New v fs) ([] ++ [])).
Proof.
  intros I T ((NV & ND) & B). cbn [exec_micro]. eexists; eexists. split; [reflexivity|]. cbn [app].
  set (b' := {| cnt := 1; alive := true; fields := _; frees := 0 |}). set (n := List.length (heap s)).
  inversion ND as [|? ? NIN NF]; subst.
  assert (OW : forall x, In x (v :: fs) -> exists c, nth_error (vars s) x = Some c /\ owned c = true).
  { intros x X. eapply owned_own; eauto; [apply in_or_app; left; exact X|discriminate|]. apply B, in_or_app. left. exact X. }
  destruct (clear_spec fs (vars s) NF) as (L1 & L2 & L3 & L4); [intros x X; apply OW; right; auto|]. set (l' := fold_left _ _ _) in *. cbv zeta in *.
  destruct (OW v) as (c & C & O); [left; reflexivity|]. assert (BV : v < List.length (vars s)) by (apply nth_error_Some; congruence).
  assert (CN : ptr c = None) by (unfold null in NV; rewrite (getv_nth _ _ _ C) in NV; exact NV).
  assert (ND0 : ~ is_alive s n). { intros (b & E & _). assert (n < List.length (heap s)) by (apply nth_error_Some; congruence). unfold n in *. lia. }
  pose proof (I_dead s I n ND0) as Z0.
  assert (E : extends (heap s) (heap s ++ [b'])).
  { split; intros q d H.
    - exists d. split; auto. rewrite nth_error_app1; auto. apply nth_error_Some. congruence.
    - destruct (Nat.lt_ge_cases q n) as [Q|Q].
      + left. exists d. rewrite nth_error_app1 in H by auto. auto.
      + right. assert (q = n). { assert (q < List.length (heap s ++ [b'])) by (apply nth_error_Some; congruence). rewrite app_length in *. cbn in *. unfold n in *. lia. } subst q.
        rewrite nth_error_app2 in H by auto. unfold n in H. rewrite Nat.sub_diag in H. injection H as <-. cbn [b' fields]. intros o' F. apply in_map_iff in F as (x & G & X).
        destruct (OW x) as (cx & CX & OX); [right; auto|]. rewrite (getv_nth _ _ _ CX) in G. pose proof (owned_refs s x cx o' CX OX G) as P.
        assert (A : is_alive s o') by (apply refs_alive; auto; unfold refs; lia). destruct A as (d & D & _). unfold n. apply nth_error_Some. congruence. }
  eapply inv_build; eauto.
  - split; [rewrite setv_length; exact L1|]. intros w W. cbn [writes In] in W. rewrite setv_other by (intros ->; apply W; auto). apply L2. tauto.
  - set (s' := after s i (setv l' v (Some n)) (heap s ++ [b']) (New v fs) []).
    assert (TH : forall f, f (MNew v fs) = 0 -> sumf (wt f) (thr s') = sumf (wt f) (thr s)). { intros f F. pose proof (thr_sum s i (New v fs) (MNew v fs) [] [] f (setv l' v (Some n)) (heap s ++ [b']) T) as X. cbn [app] in X. fold s' in X. rewrite sumf_nil in X. lia. }
    assert (R' : forall q, refs s' q = refs s q + points q (Some n)).
    { intros q. unfold refs, TR. rewrite (TH (cr q)) by reflexivity. unfold RF, RV, s'. cbn [after heap vars]. rewrite sumf_app, sumf_cons, sumf_nil.
      change (wf q b') with (sumf (points q) (map (getv s) fs)). rewrite fields_sum. specialize (L4 q).
      assert (LV : nth_error l' v = Some c) by (rewrite L2; auto). pose proof (setv_sum l' v c (Some n) q LV) as S. assert (wv q c = 0) by (unfold wv; rewrite CN; destruct (owned c); reflexivity).
      unfold refs in *. cbn [points] in *. lia. }
    assert (P' : forall q, PT s' q = PT s q) by (intros q; apply (TH (cp q)); reflexivity).
    assert (D' : forall q, DT s' q = DT s q) by (intros q; apply (TH (cd q)); reflexivity).
    assert (HN : nth_error (heap s ++ [b']) n = Some b') by (rewrite nth_error_app2 by auto; unfold n; rewrite Nat.sub_diag; reflexivity).
    assert (AL : forall q, q <> n -> nth_error (heap s ++ [b']) q = nth_error (heap s) q).
    { intros q Q. destruct (Nat.lt_ge_cases q n); [apply nth_error_app1; auto|]. rewrite !(proj2 (nth_error_None _ _)); auto. rewrite app_length. cbn. unfold n in *. lia. }
    assert (PN : forall q, q <> n -> points q (Some n) = 0) by (intros q N; cbn [points]; destruct (Nat.eqb_spec n q); congruence).
    split; [|split; [|split]].
    + intros q d H A. rewrite P', R'. unfold s' in H. cbn [after heap] in H. destruct (Nat.eq_dec q n) as [->|N].
      * rewrite HN in H. injection H as <-. rewrite points_same. cbn [b' cnt]. lia.
      * rewrite AL in H by auto. rewrite (PN q N). pose proof (I_alive s I q d H A). lia.
    + intros q N. rewrite P', D', R'. destruct (Nat.eq_dec q n) as [->|NE]; [exfalso; apply N; exists b'; auto|]. rewrite (PN q NE).
      assert (X : ~ is_alive s q). { intros (d & Q & A). apply N. exists d. unfold s'. cbn [after heap]. rewrite AL; auto. } pose proof (I_dead s I q X). lia.
    + intros q A. rewrite D', R'. destruct (Nat.eq_dec q n) as [->|NE].
      * rewrite points_same. replace (refs s n + 1) with (S (refs s n)) by lia. cbn [Nat.eqb]. lia.
      * rewrite (PN q NE), Nat.add_0_r. apply (I_del s I). destruct A as (d & Q & A). exists d. unfold s' in Q. cbn [after heap] in Q. rewrite AL in Q; auto.
    + intros q d H. unfold s' in H. cbn [after heap] in H. destruct (Nat.eq_dec q n) as [->|NE]; [rewrite HN in H; injection H as <-; reflexivity|]. rewrite AL in H by auto. apply (I_frees s I q d H).
  - apply ok_destr. constructor.
  - intros w d W V U. cbn [writes In] in W. destruct (Nat.eq_dec w v) as [->|NE].
    + rewrite setv_same in V by (rewrite L1; auto). injection V as <-. discriminate.
    + destruct W as [W|W]; [congruence|]. rewrite setv_other in V by auto. rewrite L3 in V by auto. injection V as <-. discriminate.
Qed.
