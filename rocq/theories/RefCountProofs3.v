From Verif Require Import Base RefCountModel RefCountSpec RefCountProofs RefCountProofs2.
Open Scope nat_scope.

Definition after (s : state) (i : nat) (vs : list cell) (h : list obj) (p : op) (k : list micro) : state :=
  {| vars := vs; heap := h; thr := upd (thr s) i (Some (p, k)) |}.
(** What a step of an operation [p] leaves alone. *)
Definition keeps (s : state) (p : op) (vs : list cell) : Prop :=
  List.length vs = List.length (vars s) /\ forall v, ~ In v (writes p) -> nth_error vs v = nth_error (vars s) v.
Definition extends (h h' : list obj) : Prop :=
  (forall o b, nth_error h o = Some b -> exists b', nth_error h' o = Some b' /\ fields b' = fields b) /\
  (forall o b, nth_error h' o = Some b -> (exists b0, nth_error h o = Some b0 /\ fields b = fields b0) \/ forall o', In (Some o') (fields b) -> o' < o).
Lemma extends_refl h : extends h h.
Proof. split; intros o b E; [|left]; eauto. Qed.
Lemma compatible_sym p q : compatible p q -> compatible q p.
Proof. intros (A & B). split; intros v V; [split|]; intros W; [apply A in W; tauto|apply B in W; tauto|apply A in W; tauto]. Qed.

Lemma getv_keep s p vs h t v : keeps s p vs -> ~ In v (writes p) -> getv {| vars := vs; heap := h; thr := t |} v = getv s v.
Proof. intros (_ & K) N. unfold getv. cbn [vars]. rewrite K; auto. Qed.
Lemma sread_ext s s' r q : getv s' (src_var r) = getv s (src_var r) -> List.length (vars s') = List.length (vars s) -> extends (heap s) (heap s') -> sread s r = Some q -> sread s' r = Some q.
Proof.
  intros G L (E & _) H. destruct r as [x|x i]; cbn [sread src_var] in *; rewrite G, ?L; auto. destruct (getv s x) as [o|]; [|discriminate].
  destruct (nth_error (heap s) o) as [b|] eqn:B; [|discriminate]. destruct (E o b B) as (b' & -> & ->). exact H.
Qed.
Lemma source_sread s r : source_ok s r <-> exists q, sread s r = Some q.
Proof.
  destruct r as [x|x i]; cbn [source_ok sread].
  - destruct (Nat.ltb_spec x (List.length (vars s))); split; intros; eauto; try lia. destruct H0. discriminate.
  - split.
    + intros (o & b & -> & -> & L). destruct (nth_error (fields b) i) eqn:E; eauto. apply nth_error_None in E. lia.
    + intros (q & H). destruct (getv s x) as [o|]; [|discriminate]. destruct (nth_error (heap s) o) as [b|] eqn:B; [|discriminate]. exists o, b. repeat split; auto. apply nth_error_Some. congruence.
Qed.
Lemma pre_ext s s' p : (forall v, In v (writes p ++ reads p) -> getv s' v = getv s v) -> List.length (vars s') = List.length (vars s) -> extends (heap s) (heap s') -> pre s p -> pre s' p.
Proof.
  intros G L E (P & B). split; [|intros v V; rewrite L; auto].
  assert (SO : forall r, In (src_var r) (reads p) -> source_ok s r -> source_ok s' r).
  { intros r R S. apply source_sread in S as (q & S). apply source_sread. exists q. apply (sread_ext s s' r q); auto. apply G, in_or_app. auto. }
  destruct p; cbn [writes reads app In] in *; unfold null in *; auto.
  - destruct P. split; auto. rewrite G; auto.
  - destruct P as (P1 & P2 & P3). rewrite G; auto.
  - destruct P. rewrite G; auto.
  - rewrite G; auto.
Qed.
Lemma other_ok s s' p q l : thread_ok s q l -> compatible p q -> keeps s p (vars s') -> extends (heap s) (heap s') -> thread_ok s' q l.
Proof.
  intros T C K E. assert (L : List.length (vars s') = List.length (vars s)) by apply K.
  assert (G : forall v, In v (writes q ++ reads q) -> getv s' v = getv s v).
  { intros v V. unfold getv. destruct K as (_ & K). rewrite K; auto. apply compatible_sym in C as (C1 & C2). intros W. apply in_app_or in V as [V|V]; [apply C1 in V|apply C2 in V]; tauto. }
  assert (S : forall r x, In (src_var r) (reads q) -> sread s r = Some x -> sread s' r = Some x).
  { intros r x R. apply (sread_ext s s'); auto. apply G, in_or_app. auto. }
  assert (U : forall v, In v (writes q) -> (exists c, nth_error (vars s) v = Some c /\ owned c = false) -> exists c, nth_error (vars s') v = Some c /\ owned c = false).
  { intros v V (c & X & Y). exists c. split; auto. destruct K as (_ & K). rewrite K; auto. apply compatible_sym in C as (C1 & _). apply C1 in V. tauto. }
  inversion T as [p0 PR AL E1 E2|p0 k0 FD E1 E2|v0 r ds q0 FD D B SR E1 E2|v0 r ds q0 FD D B SR E1 E2|v0 x0 ds FD B1 B2 E1 E2|p0 v0 r o0 HP D SR GV E1 E2]; subst.
  - apply ok_first; auto. apply (pre_ext s s'); auto.
  - apply ok_destr; auto.
  - eapply ok_assign; eauto; [apply U; auto; left; reflexivity|]. apply S; eauto. left; reflexivity.
  - eapply ok_raw; eauto; [apply U; auto; left; reflexivity|]. apply S; eauto. left; reflexivity.
  - eapply ok_move; eauto; [apply U; auto; left; reflexivity|lia].
  - eapply ok_retain with (v := v0) (r := r); eauto.
    + apply S; auto. destruct HP as [ -> |[ -> | -> ]]; left; reflexivity.
    + rewrite G; auto. apply in_or_app. left. destruct HP as [ -> |[ -> | -> ]]; left; reflexivity.
Qed.
Definition counts (s : state) : Prop :=
  (forall o b, nth_error (heap s) o = Some b -> alive b = true -> (cnt b + Z.of_nat (PT s o) = Z.of_nat (refs s o))%Z) /\
  (forall o, ~ is_alive s o -> refs s o + PT s o + DT s o = 0) /\
  (forall o, is_alive s o -> DT s o = if Nat.eqb (refs s o) 0 then 1 else 0) /\
  (forall o b, nth_error (heap s) o = Some b -> frees b = if alive b then 0 else 1).
Lemma inv_counts s : Inv s -> counts s.
Proof. intros I. repeat split; apply I. Qed.
Lemma inv_build s i p m k vs h k' : Inv s -> nth_error (thr s) i = Some (Some (p, m :: k)) -> keeps s p vs -> extends (heap s) h ->
  counts (after s i vs h p k') -> thread_ok (after s i vs h p k') p k' ->
  (forall v c, In v (writes p) -> nth_error vs v = Some c -> owned c = false -> in_limbo k' = Some v) -> Inv (after s i vs h p k').
Proof.
  intros I T K E (C1 & C2 & C3 & C4) TO OW. assert (Ti : i < List.length (thr s)) by (apply nth_error_Some; congruence).
  constructor; auto.
  - intros j q l H. unfold after in H. cbn [thr] in H. destruct (Nat.eq_dec j i) as [->|N].
    + rewrite upd_same in H by auto. injection H as <- <-. exact TO.
    + rewrite upd_other in H by auto. eapply other_ok with (p := p); eauto; [eapply I_thr; eauto|]. eapply (I_compat s I i j); eauto.
  - intros a b q q' l l' N A B. unfold after in A, B. cbn [thr] in A, B. rewrite upd_get in A, B. rewrite T in A, B.
    destruct (Nat.eqb_spec a i) as [->|Na], (Nat.eqb_spec b i) as [->|Nb]; [congruence| | |eapply (I_compat s I a b); eauto].
    + injection A as <- <-. eapply (I_compat s I i b); eauto.
    + injection B as <- <-. eapply (I_compat s I a i); eauto.
  - intros v c V O. cbn [after vars] in V. destruct (in_dec Nat.eq_dec v (writes p)) as [W|W].
    + exists i, p, k'. split; [|split; [exact W|eauto]]. cbn [after thr]. apply upd_same; auto.
    + destruct K as (_ & K). rewrite K in V by auto. destruct (I_own s I v c V O) as (j & q & l & A & B & D). exists j, q, l. split; auto. cbn [after thr]. rewrite upd_other; auto. intros ->. rewrite T in A. injection A as <- <-. auto.
  - intros o b o' H F. cbn [after heap] in H. destruct E as (_ & E). destruct (E o b H) as [(b0 & B & Q)|Q]; [|auto]. rewrite Q in F. eapply (I_acyc s I); eauto.
Qed.
Lemma thr_sum s i p m k k' f vs h : nth_error (thr s) i = Some (Some (p, m :: k)) -> sumf (wt f) (thr (after s i vs h p (k' ++ k))) + f m = sumf (wt f) (thr s) + sumf f k'.
Proof.
  intros T. cbn [after thr]. pose proof (sumf_upd (wt f) (thr s) i _ (Some (p, k' ++ k)) T) as H. cbn [wt] in H. rewrite sumf_app, sumf_cons in H. lia.
Qed.
(** Steps that change only variables and the threads' lists. *)
Lemma alive_same s i vs p k o : is_alive (after s i vs (heap s) p k) o <-> is_alive s o.
Proof. reflexivity. Qed.
Lemma counts_copy s i vs p k q : Inv s -> (forall o, q = Some o -> 0 < refs s o) ->
  (forall o, refs (after s i vs (heap s) p k) o = refs s o + points o q /\ PT (after s i vs (heap s) p k) o = PT s o + points o q /\ DT (after s i vs (heap s) p k) o = DT s o) ->
  counts (after s i vs (heap s) p k).
Proof.
  intros I Q H. set (s' := after s i vs (heap s) p k) in *. split; [|split; [|split]].
  - intros o b B A. destruct (H o) as (-> & -> & _). pose proof (I_alive s I o b B A). lia.
  - intros o N. destruct (H o) as (-> & -> & ->). pose proof (I_dead s I o N) as D. destruct (points o q) eqn:P; [lia|]. assert (q = Some o) by (apply points_pos; lia). specialize (Q o H0). lia.
  - intros o A. destruct (H o) as (-> & _ & ->). rewrite (I_del s I o A). destruct (points o q) eqn:P; [rewrite Nat.add_0_r; reflexivity|]. assert (X : q = Some o) by (apply points_pos; lia). specialize (Q o X).
    destruct (Nat.eqb_spec (refs s o) 0), (Nat.eqb_spec (refs s o + S n) 0); lia.
  - apply (I_frees s I).
Qed.
Lemma counts_trade s i vs p k : Inv s ->
  (forall o, refs (after s i vs (heap s) p k) o = refs s o /\ PT (after s i vs (heap s) p k) o = PT s o /\ DT (after s i vs (heap s) p k) o = DT s o) ->
  counts (after s i vs (heap s) p k).
Proof.
  intros I H. apply counts_copy with (q := None); auto; [discriminate|]. intros o. destruct (H o) as (A & B & C). cbn [points]. lia.
Qed.
(** Variables. *)
Lemma setv_length l v p : List.length (setv l v p) = List.length l.
Proof. apply upd_length. Qed.
Lemma limbo_length l v : List.length (limbo l v) = List.length l.
Proof. unfold limbo. destruct (nth_error l v); [apply upd_length|reflexivity]. Qed.
Lemma setv_sum l v c p o : nth_error l v = Some c -> sumf (wv o) (setv l v p) + wv o c = sumf (wv o) l + points o p.
Proof. intros H. apply (sumf_upd (wv o) l v c {| ptr := p; owned := true |} H). Qed.
Lemma limbo_sum l v c o : nth_error l v = Some c -> sumf (wv o) (limbo l v) + wv o c = sumf (wv o) l.
Proof. intros H. unfold limbo. rewrite H. pose proof (sumf_upd (wv o) l v c {| ptr := ptr c; owned := false |} H) as X. change (wv o {| ptr := ptr c; owned := false |}) with 0 in X. lia. Qed.
Lemma setv_other l v p w : w <> v -> nth_error (setv l v p) w = nth_error l w.
Proof. apply upd_other. Qed.
Lemma setv_same l v p : v < List.length l -> nth_error (setv l v p) v = Some {| ptr := p; owned := true |}.
Proof. apply upd_same. Qed.
Lemma limbo_other l v w : w <> v -> nth_error (limbo l v) w = nth_error l w.
Proof. unfold limbo. destruct (nth_error l v); [apply upd_other|reflexivity]. Qed.
Lemma limbo_same l v c : nth_error l v = Some c -> nth_error (limbo l v) v = Some {| ptr := ptr c; owned := false |}.
Proof. intros H. unfold limbo. rewrite H. apply upd_same. apply nth_error_Some. congruence. Qed.
Lemma nth_lt {A} (l : list A) i : i < List.length l -> exists a, nth_error l i = Some a.
Proof. intros H. destruct (nth_error l i) eqn:E; eauto. apply nth_error_None in E. lia. Qed.

(** Decrement, deletion. *)
Lemma destr_step s i p m k : Inv s -> nth_error (thr s) i = Some (Some (p, m :: k)) -> destr m ->
  exists h ms, exec_micro s m = Ok (vars s, h, ms) /\ Forall destr ms /\ extends (heap s) h /\ counts (after s i (vars s) h p (ms ++ k)).
Proof.
  intros I T D. destruct m as [|o|o| | | | | | | | | | | |]; try contradiction; clear D; cbn [exec_micro].
  - (* release *)
    assert (W1 : 0 < TR s o). { unfold TR. pose proof (sumf_ge (wt (cr o)) (thr s) i _ T) as G. cbn [wt] in G. rewrite sumf_cons in G. cbn [cr] in G. rewrite points_same in G. lia. }
    assert (A : is_alive s o) by (apply refs_alive; auto; unfold refs; lia). destruct A as (b & B & A). unfold at_obj. rewrite B, A. cbn [bind fst snd].
    eexists; eexists. split; [reflexivity|]. set (ms := if (cnt b - 1 =? 0)%Z then [MDelete o] else []). set (b' := {| cnt := _; alive := _; fields := _; frees := _ |}).
    assert (O : o < List.length (heap s)) by (apply nth_error_Some; congruence).
    split; [unfold ms; destruct (_ =? _)%Z; repeat constructor|]. split.
    { split; intros q c H.
      - rewrite upd_get, B. destruct (Nat.eqb_spec q o) as [->|]; [exists b'; split; [reflexivity|rewrite B in H; injection H as <-; reflexivity]|eauto].
      - left. rewrite upd_get, B in H. destruct (Nat.eqb_spec q o) as [->|]; [injection H as <-; exists b; auto|eauto]. }
    set (s' := after s i (vars s) (upd (heap s) o b') p (ms ++ k)).
    assert (RF' : forall q, RF s' q = RF s q). { intros q. unfold RF, s'. cbn [after heap]. pose proof (sumf_upd (wf q) (heap s) o b b' B) as X. assert (Y : wf q b = sumf (points q) (fields b)) by (unfold wf; rewrite A; reflexivity). change (wf q b') with (sumf (points q) (fields b)) in X. lia. }
    assert (TR' : forall q, TR s' q + points q (Some o) = TR s q). { intros q. unfold TR. pose proof (thr_sum s i p (MRelease o) k ms (cr q) (vars s) (upd (heap s) o b') T) as X. fold s' in X. cbn [cr] in X. assert (sumf (cr q) ms = 0) by (unfold ms; destruct (_ =? _)%Z; reflexivity). lia. }
    assert (PT' : forall q, PT s' q = PT s q). { intros q. unfold PT. pose proof (thr_sum s i p (MRelease o) k ms (cp q) (vars s) (upd (heap s) o b') T) as X. fold s' in X. cbn [cp] in X. assert (sumf (cp q) ms = 0) by (unfold ms; destruct (_ =? _)%Z; reflexivity). lia. }
    assert (DT' : forall q, DT s' q = DT s q + if (cnt b - 1 =? 0)%Z then points q (Some o) else 0). { intros q. unfold DT. pose proof (thr_sum s i p (MRelease o) k ms (cd q) (vars s) (upd (heap s) o b') T) as X. fold s' in X. cbn [cd] in X. assert (sumf (cd q) ms = if (cnt b - 1 =? 0)%Z then points q (Some o) else 0) by (unfold ms; destruct (_ =? _)%Z; [rewrite sumf_cons, sumf_nil; cbn [cd]; lia|reflexivity]). lia. }
    assert (R' : forall q, refs s' q + points q (Some o) = refs s q). { intros q. unfold refs. rewrite RF'. specialize (TR' q). change (RV s' q) with (RV s q). lia. }
    assert (AL : forall q, is_alive s' q <-> is_alive s q).
    { intros q. unfold is_alive, s'. cbn [after heap]. rewrite upd_get, B. destruct (Nat.eqb_spec q o) as [->|]; [|reflexivity]. split; intros _; [exists b; auto|exists b'; auto]. }
    pose proof (I_alive s I o b B A) as IA.
    assert (KEY : 0 < PT s o -> PT s o < refs s' o). { intros P. pose proof (pending_covered s o I P) as X. unfold refs. rewrite RF'. change (RV s' o) with (RV s o). lia. }
    pose proof (R' o) as Ro. rewrite points_same in Ro.
    assert (PN : forall q, q <> o -> points q (Some o) = 0) by (intros q N; cbn [points]; destruct (Nat.eqb_spec o q); congruence).
    split; [|split; [|split]].
    + intros q c C AC. rewrite PT'. unfold s' in C. cbn [after heap] in C. rewrite upd_get, B in C. destruct (Nat.eqb_spec q o) as [->|N].
      * injection C as <-. cbn [b' cnt]. lia.
      * pose proof (I_alive s I q c C AC). specialize (R' q). rewrite (PN q N) in R'. lia.
    + intros q N. rewrite AL in N. pose proof (I_dead s I q N) as X. specialize (R' q). rewrite PT', DT'. assert (q <> o) by (intros ->; apply N; exists b; auto). rewrite (PN q H). destruct (_ =? _)%Z; lia.
    + intros q Q. rewrite AL in Q. rewrite DT', (I_del s I q Q). specialize (R' q). destruct (Nat.eq_dec q o) as [->|N].
      * rewrite points_same in *. destruct (Z.eqb_spec (cnt b - 1) 0) as [Z0|Z0], (Nat.eqb_spec (refs s o) 0), (Nat.eqb_spec (refs s' o) 0); lia.
      * rewrite (PN q N) in *. replace (refs s' q) with (refs s q) by lia. destruct (_ =? _)%Z; lia.
    + intros q c C. unfold s' in C. cbn [after heap] in C. rewrite upd_get, B in C. destruct (Nat.eqb_spec q o) as [->|N]; [injection C as <-; cbn [b' frees alive]; rewrite (I_frees s I o b B), A; reflexivity|apply (I_frees s I q); auto].
  - (* delete *)
    assert (W1 : 0 < DT s o). { unfold DT. pose proof (sumf_ge (wt (cd o)) (thr s) i _ T) as G. cbn [wt] in G. rewrite sumf_cons in G. cbn [cd] in G. rewrite points_same in G. lia. }
    assert (A0 : is_alive s o) by (apply refs_alive; auto; lia). pose proof A0 as (b & B & A). unfold at_obj. rewrite B, A. cbn [bind fst snd].
    eexists; eexists. split; [reflexivity|]. set (ms := flat_map release (fields b)). set (b' := {| cnt := _; alive := _; fields := _; frees := _ |}).
    pose proof (I_del s I o A0) as DEL. assert (R0 : refs s o = 0) by (destruct (Nat.eqb_spec (refs s o) 0); lia). rewrite R0 in DEL. cbn [Nat.eqb] in DEL.
    assert (P0 : PT s o = 0). { destruct (Nat.eq_dec (PT s o) 0); auto. pose proof (pending_covered s o I ltac:(lia)). unfold refs in R0. lia. }
    split; [unfold ms; clear; induction (fields b) as [|[q|] l IH]; cbn [flat_map release app]; [constructor|constructor; cbn; auto|exact IH]|]. split.
    { split; intros q c H.
      - rewrite upd_get, B. destruct (Nat.eqb_spec q o) as [->|]; [exists b'; split; [reflexivity|rewrite B in H; injection H as <-; reflexivity]|eauto].
      - left. rewrite upd_get, B in H. destruct (Nat.eqb_spec q o) as [->|]; [injection H as <-; exists b; auto|eauto]. }
    set (s' := after s i (vars s) (upd (heap s) o b') p (ms ++ k)).
    assert (RF' : forall q, RF s' q + sumf (points q) (fields b) = RF s q). { intros q. unfold RF, s'. cbn [after heap]. pose proof (sumf_upd (wf q) (heap s) o b b' B) as X. assert (Y : wf q b = sumf (points q) (fields b)) by (unfold wf; rewrite A; reflexivity). change (wf q b') with 0 in X. lia. }
    assert (TR' : forall q, TR s' q = TR s q + sumf (points q) (fields b)). { intros q. unfold TR. pose proof (thr_sum s i p (MDelete o) k ms (cr q) (vars s) (upd (heap s) o b') T) as X. fold s' in X. cbn [cr] in X. unfold ms in X. rewrite releases_cr in X. lia. }
    assert (PT' : forall q, PT s' q = PT s q). { intros q. unfold PT. pose proof (thr_sum s i p (MDelete o) k ms (cp q) (vars s) (upd (heap s) o b') T) as X. fold s' in X. cbn [cp] in X. unfold ms in X. rewrite releases_cp in X. lia. }
    assert (DT' : forall q, DT s' q + points q (Some o) = DT s q). { intros q. unfold DT. pose proof (thr_sum s i p (MDelete o) k ms (cd q) (vars s) (upd (heap s) o b') T) as X. fold s' in X. cbn [cd] in X. unfold ms in X. rewrite releases_cd in X. lia. }
    assert (R' : forall q, refs s' q = refs s q). { intros q. unfold refs. specialize (RF' q). specialize (TR' q). change (RV s' q) with (RV s q). lia. }
    assert (AL : forall q, is_alive s' q <-> is_alive s q /\ q <> o).
    { intros q. unfold is_alive, s'. cbn [after heap]. rewrite upd_get, B. destruct (Nat.eqb_spec q o) as [->|].
      - split; [intros (c & [= <-] & X); discriminate|intros (_ & X); congruence].
      - split; [intros X; split; auto|intros (X & _); auto]. }
    assert (PN : forall q, q <> o -> points q (Some o) = 0) by (intros q N; cbn [points]; destruct (Nat.eqb_spec o q); congruence).
    split; [|split; [|split]].
    + intros q c C AC. rewrite PT', R'. unfold s' in C. cbn [after heap] in C. rewrite upd_get, B in C. destruct (Nat.eqb_spec q o) as [->|N]; [injection C as <-; discriminate|]. apply (I_alive s I q c C AC).
    + intros q N. rewrite R', PT'. specialize (DT' q). destruct (Nat.eq_dec q o) as [->|NE]; [rewrite points_same in DT'; lia|]. pose proof (I_dead s I q) as X. rewrite AL in N. assert (~ is_alive s q) by tauto. specialize (X H). lia.
    + intros q Q. apply AL in Q as (Q & N). rewrite R', <- (I_del s I q Q). specialize (DT' q). rewrite (PN q N) in DT'. lia.
    + intros q c C. unfold s' in C. cbn [after heap] in C. rewrite upd_get, B in C. destruct (Nat.eqb_spec q o) as [->|N]; [injection C as <-; cbn [b' frees alive]; rewrite (I_frees s I o b B), A; reflexivity|apply (I_frees s I q); auto].
Qed.
