From Verif Require Import Base RefCountModel RefCountSpec RefCountProofs RefCountProofs2 RefCountProofs3 RefCountProofs4.
Open Scope nat_scope.

Lemma sread_same s s' r q : vars s' = vars s -> extends (heap s) (heap s') -> sread s r = Some q -> sread s' r = Some q.
Proof. intros V E H. apply (sread_ext s s'); auto; [unfold getv; rewrite V|rewrite V]; reflexivity. Qed.
Lemma destr_case s i p m k : Inv s -> nth_error (thr s) i = Some (Some (p, m :: k)) -> destr m -> (forall s' ms, vars s' = vars s -> extends (heap s) (heap s') -> Forall destr ms -> thread_ok s' p (ms ++ k)) ->
  exists vs h ms, exec_micro s m = Ok (vs, h, ms) /\ Inv (after s i vs h p (ms ++ k)).
Proof.
  intros I T D TO. destruct (destr_step s i p m k I T D) as (h & ms & E & F & X & C). exists (vars s), h, ms. split; [exact E|].
  eapply inv_build; eauto; [split; auto|].
  intros v c W V O. destruct (I_own s I v c V O) as (j & q & l & A & B & L). destruct (Nat.eq_dec j i) as [->|N].
  - rewrite T in A. injection A as <- <-. rewrite destr_app_limbo by auto. destruct m; cbn in D; try tauto; exact L.
  - exfalso. destruct (I_compat s I i j _ _ _ _ ltac:(auto) T A) as (CC & _). apply CC in W. tauto.
Qed.
Lemma cons_inj ds (m : micro) k x : m :: k = ds ++ [x] -> Forall destr ds -> (ds = [] /\ m = x /\ k = []) \/ (destr m /\ exists ds', Forall destr ds' /\ k = ds' ++ [x]).
Proof.
  intros E F. destruct ds as [|a ds]; cbn [app] in E.
  - left. injection E as -> ->. auto.
  - right. injection E as -> ->. inversion F; subst. eauto.
Qed.
Lemma no_count m : (match m with MRetain _ | MRelease _ | MDelete _ => False | _ => True end) -> forall o, cr o m = 0 /\ cp o m = 0 /\ cd o m = 0.
Proof. destruct m; cbn; tauto. Qed.
Lemma step_ok s i p m k : Inv s -> nth_error (thr s) i = Some (Some (p, m :: k)) ->
  exists vs h ms, exec_micro s m = Ok (vs, h, ms) /\ Inv (after s i vs h p (ms ++ k)).
Proof.
  intros I T. pose proof (I_thr s I i _ _ T) as TO.
  inversion TO as [p0 PR AL E1 E2|p0 k0 FD E1 E2|v r ds q FD D B SR E1 E2|v r ds q FD D B SR E1 E2|v x ds FD B1 B2 E1 E2|p0 v r o HP D SR GV E1 E2]; subst.
  - (* the first step of each operation *)
    assert (OWN : forall w, In w (writes p ++ reads p) -> exists c, nth_error (vars s) w = Some c /\ owned c = true).
    { intros w W. eapply owned_own; eauto; [rewrite first_limbo; discriminate|apply PR; auto]. }
    destruct p as [v fs|v r|v x|v r|v r|v x|v x|v|x]; cbn [first_step writes reads app In] in *.
    + destruct (new_step s i v fs I T PR) as (vs & h & E & J). exists vs, h, []. auto.
    + destruct PR as ((P1 & P2 & P3) & B). apply source_sread in P2 as (q & SR).
      destruct (source_read s i _ _ r q I T) as (RD & _); [left; reflexivity|discriminate|exact SR|].
      cbn [exec_micro]. rewrite RD. cbn [bind]. eexists; eexists; eexists. split; [reflexivity|].
      apply (store_step s i _ _ v r _ I T); auto; try (apply no_count; exact Logic.I); try (left; reflexivity); try (intros w [ <- |[]]; reflexivity).
      destruct (OWN v) as (c & C & O); auto. exists c. split; auto. intros o. unfold wv. unfold null in P1. rewrite (getv_nth _ _ _ C) in P1. rewrite P1. destruct (owned c); reflexivity.
    + destruct PR as ((P1 & P2) & B). destruct (OWN v) as (c & C & O); auto. destruct (OWN x) as (d & D & O2); auto.
      assert (CN : ptr c = None) by (unfold null in P1; rewrite (getv_nth _ _ _ C) in P1; exact P1).
      cbn [exec_micro]. eexists; eexists; eexists. split; [reflexivity|]. apply (shuffle_step s i _ _ _ I T); [apply no_count; exact Logic.I| | |].
      * intros o. assert (X : nth_error (setv (vars s) v (getv s x)) x = Some d) by (rewrite setv_other; auto).
        pose proof (setv_sum (vars s) v c (getv s x) o C) as S1. pose proof (setv_sum (setv (vars s) v (getv s x)) x d None o X) as S2. rewrite (getv_nth _ _ _ D) in *.
        assert (wv o c = 0) by (unfold wv; rewrite CN, O; reflexivity). assert (wv o d = points o (ptr d)) by (unfold wv; rewrite O2; reflexivity). cbn [points] in S2. lia.
      * split; [rewrite !setv_length; reflexivity|]. intros w W. cbn [writes In] in W. rewrite !setv_other; auto; intros ->; apply W; auto.
      * intros w e W V. cbn [writes In] in W. destruct (Nat.eq_dec w x) as [->|N].
        -- rewrite setv_same in V by (rewrite setv_length; apply nth_error_Some; congruence). injection V as <-. reflexivity.
        -- rewrite setv_other in V by auto. destruct W as [ <- |[ <- |[]]]; [|congruence]. rewrite setv_same in V by (apply nth_error_Some; congruence). injection V as <-. reflexivity.
    + destruct PR as (P1 & B). apply source_sread in P1 as (q & SR). destruct (OWN v) as (c & C & O); auto. assert (BV : v < List.length (vars s)) by (apply nth_error_Some; congruence).
      cbn [exec_micro]. eexists; eexists; eexists. split; [reflexivity|]. apply (drop_step s i _ _ v _ _ I T); [left; reflexivity|reflexivity|auto|apply no_count; exact Logic.I|intros; auto|intros o c0 C0; apply limbo_sum; auto| | |].
      * split; [apply limbo_length|]. intros w W. apply limbo_other. intros ->. apply W. left; reflexivity.
      * rewrite app_nil_r. eapply ok_assign with (q := q); auto.
        -- destruct (getv s v); repeat constructor.
        -- cbn [after vars]. eexists. split; [apply limbo_same; eauto|reflexivity].
        -- apply (sread_ext s); cbn [after vars heap]; auto; [|apply limbo_length|apply extends_refl]. unfold getv. cbn [after vars]. rewrite limbo_other; auto.
      * intros w c0 [ <- |[]] V U. reflexivity.
    + destruct PR as (P1 & B). apply source_sread in P1 as (q & SR). destruct (OWN v) as (c & C & O); auto. assert (BV : v < List.length (vars s)) by (apply nth_error_Some; congruence).
      destruct (source_read s i _ _ r q I T) as (RD & _); [left; reflexivity|discriminate|exact SR|].
      cbn [exec_micro]. rewrite RD. cbn [bind]. eexists; eexists; eexists. split; [reflexivity|]. apply (drop_step s i _ _ v _ _ I T); [left; reflexivity|reflexivity|auto|apply no_count; exact Logic.I|intros; auto|intros o c0 C0; apply limbo_sum; auto| | |].
      * split; [apply limbo_length|]. intros w W. apply limbo_other. intros ->. apply W. left; reflexivity.
      * rewrite app_nil_r. eapply ok_raw with (q := q); auto.
        -- destruct (getv s v); repeat constructor.
        -- cbn [after vars]. eexists. split; [apply limbo_same; eauto|reflexivity].
        -- apply (sread_ext s); cbn [after vars heap]; auto; [|apply limbo_length|apply extends_refl]. unfold getv. cbn [after vars]. rewrite limbo_other; auto.
      * intros w c0 [ <- |[]] V U. reflexivity.
    + destruct PR as (_ & B). destruct (OWN v) as (c & C & O); auto. destruct (OWN x) as (d & D & O2); auto. assert (BV : v < List.length (vars s)) by (apply nth_error_Some; congruence). assert (BX : x < List.length (vars s)) by (apply nth_error_Some; congruence).
      cbn [exec_micro]. eexists; eexists; eexists. split; [reflexivity|]. apply (drop_step s i _ _ v _ _ I T); [left; reflexivity|reflexivity|auto|apply no_count; exact Logic.I|intros; auto|intros o c0 C0; apply limbo_sum; auto| | |].
      * split; [apply limbo_length|]. intros w W. apply limbo_other. intros ->. apply W. left; reflexivity.
      * rewrite app_nil_r. eapply ok_move; cbn [after vars]; rewrite ?limbo_length; auto; [destruct (getv s v); repeat constructor|eexists; split; [apply limbo_same; eauto|reflexivity]].
      * intros w c0 W V U. cbn [in_limbo]. destruct (Nat.eq_dec w v) as [->|N]; [reflexivity|]. rewrite limbo_other in V by auto. destruct (OWN w) as (e & E & OE); [cbn [writes In] in W; tauto|]. congruence.
    + destruct PR as (_ & B). destruct (OWN v) as (c & C & O); auto. destruct (OWN x) as (d & D & O2); auto. assert (BV : v < List.length (vars s)) by (apply nth_error_Some; congruence). assert (BX : x < List.length (vars s)) by (apply nth_error_Some; congruence).
      cbn [exec_micro]. eexists; eexists; eexists. split; [reflexivity|]. apply (shuffle_step s i _ _ _ I T); [apply no_count; exact Logic.I| | |].
      * intros o. pose proof (setv_sum (vars s) v c (getv s x) o C) as S1. assert (WC : wv o c = points o (ptr c)) by (unfold wv; rewrite O; reflexivity). assert (WD : wv o d = points o (ptr d)) by (unfold wv; rewrite O2; reflexivity).
        destruct (Nat.eq_dec x v) as [->|N].
        -- pose proof (setv_sum (setv (vars s) v (getv s v)) v _ (getv s v) o (setv_same (vars s) v (getv s v) BV)) as S2. change (wv o {| ptr := getv s v; owned := true |}) with (points o (getv s v)) in S2. rewrite (getv_nth _ _ _ C) in *. lia.
        -- assert (X : nth_error (setv (vars s) v (getv s x)) x = Some d) by (rewrite setv_other; auto). pose proof (setv_sum (setv (vars s) v (getv s x)) x d (getv s v) o X) as S2. rewrite (getv_nth _ _ _ D), (getv_nth _ _ _ C) in *. lia.
      * split; [rewrite !setv_length; reflexivity|]. intros w W. cbn [writes In] in W. rewrite !setv_other; auto; intros ->; apply W; auto.
      * intros w e W V. cbn [writes In] in W. destruct (Nat.eq_dec w x) as [->|N].
        -- rewrite setv_same in V by (rewrite setv_length; auto). injection V as <-. reflexivity.
        -- rewrite setv_other in V by auto. destruct W as [ <- |[ <- |[]]]; [|congruence]. rewrite setv_same in V by auto. injection V as <-. reflexivity.
    + destruct PR as (_ & B). destruct (OWN v) as (c & C & O); auto. assert (BV : v < List.length (vars s)) by (apply nth_error_Some; congruence).
      cbn [exec_micro]. eexists; eexists; eexists. split; [reflexivity|]. rewrite <- (app_nil_r (release (getv s v))). apply (drop_step s i _ _ v _ _ I T); [left; reflexivity|reflexivity|auto|apply no_count; exact Logic.I|intros; auto| | | |].
      * intros o c0 C0. pose proof (setv_sum (vars s) v c0 None o C0) as X. cbn [points] in X. lia.
      * split; [apply setv_length|]. intros w W. apply setv_other. intros ->. apply W. left; reflexivity.
      * apply ok_destr. destruct (getv s v); repeat constructor.
      * intros w c0 [ <- |[]] V U. rewrite setv_same in V by auto. injection V as <-. discriminate.
    + destruct PR as (P1 & B). destruct (OWN x) as (d & D & O2); auto. destruct (getv s x) as [o|] eqn:G; [|congruence]. pose proof (getv_nth _ _ _ D) as G'. rewrite G in G'. symmetry in G'.
      pose proof (owned_refs s x d o D O2 G') as P. assert (A : is_alive s o) by (apply refs_alive; auto; unfold refs; lia). destruct A as (b & Bb & A).
      cbn [exec_micro]. rewrite G. unfold at_obj. rewrite Bb, A. cbn [bind fst snd]. eexists; eexists; eexists. split; [reflexivity|]. apply (shuffle_step s i _ _ _ I T); [apply no_count; exact Logic.I|reflexivity|split; auto|intros w c []].
  - inversion FD as [|? ? D1 FD']; subst. eapply destr_case; eauto. intros s' ms _ _ F. apply ok_destr. apply Forall_app. auto.
  - symmetry in E2. destruct (cons_inj ds m k _ E2 FD) as [( -> & -> & -> )|(DM & ds' & F' & -> )].
    + destruct (source_read s i _ _ r q I T) as (RD & _); [left; reflexivity|cbn [app in_limbo]; congruence|exact SR|].
      cbn [exec_micro]. rewrite RD. cbn [bind]. eexists; eexists; eexists. split; [reflexivity|].
      apply (store_step s i _ _ v r _ I T); auto; try (apply no_count; exact Logic.I); try (left; reflexivity); try (intros w [ <- |[]]; reflexivity).
      destruct B as (c & C & O). exists c. split; auto. intros o. unfold wv. rewrite O. reflexivity.
    + eapply destr_case; eauto. intros s' ms V X F. rewrite app_assoc. eapply ok_assign with (q := q); auto; [apply Forall_app; auto|rewrite V; auto|eapply sread_same; eauto].
  - symmetry in E2. destruct (cons_inj ds m k _ E2 FD) as [( -> & -> & -> )|(DM & ds' & F' & -> )].
    + cbn [exec_micro]. eexists; eexists; eexists. split; [reflexivity|].
      apply (store_step s i _ _ v r _ I T); auto; try (apply no_count; exact Logic.I); try (left; reflexivity); try (intros w [ <- |[]]; reflexivity).
      destruct B as (c & C & O). exists c. split; auto. intros o. unfold wv. rewrite O. reflexivity.
    + eapply destr_case; eauto. intros s' ms V X F. rewrite app_assoc. eapply ok_raw with (q := q); auto; [apply Forall_app; auto|rewrite V; auto|eapply sread_same; eauto].
  - symmetry in E2. destruct (cons_inj ds m k _ E2 FD) as [( -> & -> & -> )|(DM & ds' & F' & -> )].
    + cbn [exec_micro]. eexists; eexists; eexists. split; [reflexivity|]. destruct B1 as (c & C & O). assert (BV : v < List.length (vars s)) by (apply nth_error_Some; congruence).
      apply (shuffle_step s i _ _ _ I T); [apply no_count; exact Logic.I| | |].
      * intros o. pose proof (setv_sum (vars s) v c (getv s x) o C) as S1. assert (WC : wv o c = 0) by (unfold wv; rewrite O; reflexivity).
        destruct (Nat.eq_dec x v) as [->|N].
        -- pose proof (setv_sum (setv (vars s) v (getv s v)) v _ None o (setv_same (vars s) v (getv s v) BV)) as S2. change (wv o {| ptr := getv s v; owned := true |}) with (points o (getv s v)) in S2. cbn [points] in S2. lia.
        -- destruct (owned_own s i _ _ x I T) as (d & D & O2); [cbn; auto|cbn [in_limbo]; congruence|auto|].
           assert (X : nth_error (setv (vars s) v (getv s x)) x = Some d) by (rewrite setv_other; auto). pose proof (setv_sum (setv (vars s) v (getv s x)) x d None o X) as S2. rewrite (getv_nth _ _ _ D) in *. cbn [points] in S2.
           assert (WD : wv o d = points o (ptr d)) by (unfold wv; rewrite O2; reflexivity). lia.
      * split; [rewrite !setv_length; reflexivity|]. intros w W. cbn [writes In] in W. rewrite !setv_other; auto; intros ->; apply W; auto.
      * intros w e W V. cbn [writes In] in W. destruct (Nat.eq_dec w x) as [->|N].
        -- rewrite setv_same in V by (rewrite setv_length; auto). injection V as <-. reflexivity.
        -- rewrite setv_other in V by auto. destruct W as [ <- |[ <- |[]]]; [|congruence]. rewrite setv_same in V by auto. injection V as <-. reflexivity.
    + eapply destr_case; eauto. intros s' ms V X F. rewrite app_assoc. eapply ok_move; auto; [apply Forall_app; auto|rewrite V; auto|rewrite V; auto].
  - destruct (retain_step s i p o I T) as (h & E & J). exists (vars s), h, []. auto.
Qed.

Lemma inv_initial n t : Inv (initial n t).
Proof.
  assert (RP : forall A (f : A -> nat) a k, f a = 0 -> sumf f (repeat a k) = 0) by (intros A f a k F; induction k; cbn [repeat]; rewrite ?sumf_cons; auto; lia).
  assert (R0 : forall o, refs (initial n t) o = 0) by (intros o; unfold refs, RV, RF, TR; cbn [initial vars heap thr]; rewrite !RP, sumf_nil; reflexivity).
  assert (NT : forall i x, nth_error (thr (initial n t)) i = Some x -> x = None) by (intros i x H; apply nth_error_In in H; cbn [initial thr] in H; apply repeat_spec in H; auto).
  constructor.
  - intros o b H. cbn in H. destruct o; discriminate.
  - intros o _. rewrite R0. unfold PT, DT. cbn [initial thr]. rewrite !RP; reflexivity.
  - intros o (b & H & _). cbn in H. destruct o; discriminate.
  - intros o b H. cbn in H. destruct o; discriminate.
  - intros i p k H. apply NT in H. discriminate.
  - intros i j p q k l _ H. apply NT in H. discriminate.
  - intros v c H O. apply nth_error_In in H. cbn [initial vars] in H. apply repeat_spec in H. subst c. discriminate.
  - intros o b o' H. cbn in H. destruct o; discriminate.
Qed.
Lemma first_count p f : (forall m, f m <> 0 -> match m with MRetain _ | MRelease _ | MDelete _ => True | _ => False end) -> sumf f [first_step p] = 0.
Proof. intros F. rewrite sumf_cons, sumf_nil. specialize (F (first_step p)). destruct (f (first_step p)); auto. exfalso. destruct p; cbn in F; apply F; discriminate. Qed.
Lemma inv_start s i p : Inv s -> nth_error (thr s) i = Some None -> pre s p -> alias_free p -> (forall j q k, nth_error (thr s) j = Some (Some (q, k)) -> compatible p q) -> Inv (start s i p).
Proof.
  intros I T P A C. assert (Ti : i < List.length (thr s)) by (apply nth_error_Some; congruence).
  assert (TH : forall f, (forall m, f m <> 0 -> match m with MRetain _ | MRelease _ | MDelete _ => True | _ => False end) -> sumf (wt f) (thr (start s i p)) = sumf (wt f) (thr s)).
  { intros f F. unfold start. cbn [thr]. pose proof (sumf_upd (wt f) (thr s) i None (Some (p, [first_step p])) T) as X. cbn [wt] in X. rewrite (first_count p f F) in X. lia. }
  assert (R' : forall o, refs (start s i p) o = refs s o). { intros o. unfold refs, TR. rewrite TH; [reflexivity|]. intros []; cbn; tauto. }
  assert (P' : forall o, PT (start s i p) o = PT s o). { intros o. apply TH. intros []; cbn; tauto. }
  assert (D' : forall o, DT (start s i p) o = DT s o). { intros o. apply TH. intros []; cbn; tauto. }
  assert (SAME : forall q k, thread_ok s q k -> thread_ok (start s i p) q k).
  { intros q k H. inversion H; subst; [apply ok_first|apply ok_destr|eapply ok_assign|eapply ok_raw|eapply ok_move|eapply ok_retain]; eauto. }
  constructor.
  - intros o b H AL. rewrite P', R'. apply (I_alive s I o b H AL).
  - intros o H. rewrite P', R', D'. apply (I_dead s I o H).
  - intros o H. rewrite R', D'. apply (I_del s I o H).
  - apply (I_frees s I).
  - intros j q k H. unfold start in H. cbn [thr] in H. rewrite upd_get, T in H. destruct (Nat.eqb_spec j i) as [->|N]; apply SAME; [injection H as <- <-; apply ok_first; auto|eapply I_thr; eauto].
  - intros a b q q' k l N H1 H2. unfold start in H1, H2. cbn [thr] in H1, H2. rewrite upd_get, T in H1, H2.
    destruct (Nat.eqb_spec a i) as [->|Na], (Nat.eqb_spec b i) as [->|Nb]; [congruence| | |eapply (I_compat s I a b); eauto].
    + injection H1 as <- <-. eauto.
    + injection H2 as <- <-. apply compatible_sym. eauto.
  - intros v c V O. destruct (I_own s I v c V O) as (j & q & k & X & Y & Z). exists j, q, k. split; auto. unfold start. cbn [thr]. rewrite upd_other; auto. intros ->. congruence.
  - apply (I_acyc s I).
Qed.
Lemma inv_end s i p : Inv s -> nth_error (thr s) i = Some (Some (p, [])) -> Inv {| vars := vars s; heap := heap s; thr := upd (thr s) i None |}.
Proof.
  intros I T. set (s' := {| vars := _; heap := _; thr := _ |}). assert (Ti : i < List.length (thr s)) by (apply nth_error_Some; congruence).
  assert (TH : forall f, sumf (wt f) (thr s') = sumf (wt f) (thr s)).
  { intros f. unfold s'. cbn [thr]. pose proof (sumf_upd (wt f) (thr s) i _ None T) as X. cbn [wt] in X. rewrite sumf_nil in X. lia. }
  assert (R' : forall o, refs s' o = refs s o). { intros o. unfold refs, TR. rewrite TH. reflexivity. }
  assert (P' : forall o, PT s' o = PT s o) by (intros o; apply TH). assert (D' : forall o, DT s' o = DT s o) by (intros o; apply TH).
  assert (SAME : forall q k, thread_ok s q k -> thread_ok s' q k).
  { intros q k H. inversion H; subst; [apply ok_first|apply ok_destr|eapply ok_assign|eapply ok_raw|eapply ok_move|eapply ok_retain]; eauto. }
  constructor.
  - intros o b H AL. rewrite P', R'. apply (I_alive s I o b H AL).
  - intros o H. rewrite P', R', D'. apply (I_dead s I o H).
  - intros o H. rewrite R', D'. apply (I_del s I o H).
  - apply (I_frees s I).
  - intros j q k H. unfold s' in H. cbn [thr] in H. rewrite upd_get, T in H. destruct (Nat.eqb_spec j i) as [->|N]; [discriminate|apply SAME; eapply I_thr; eauto].
  - intros a b q q' k l N H1 H2. unfold s' in H1, H2. cbn [thr] in H1, H2. rewrite upd_get, T in H1, H2.
    destruct (Nat.eqb_spec a i) as [->|Na], (Nat.eqb_spec b i) as [->|Nb]; try discriminate. eapply (I_compat s I a b); eauto.
  - intros v c V O. destruct (I_own s I v c V O) as (j & q & k & X & Y & Z). exists j, q, k. split; auto. unfold s'. cbn [thr]. rewrite upd_other; auto. intros ->. rewrite T in X. injection X as <- <-. discriminate.
  - apply (I_acyc s I).
Qed.
Lemma exec_ok s i x : Inv s -> nth_error (thr s) i = Some (Some x) -> exists s', exec s i = Ok s' /\ Inv s'.
Proof.
  intros I T. unfold exec. rewrite T. destruct x as (p, [|m k]).
  - eexists. split; [reflexivity|]. eapply inv_end; eauto.
  - destruct (step_ok s i p m k I T) as (vs & h & ms & E & J). rewrite E. cbn [bind fst snd]. eexists. split; [reflexivity|exact J].
Qed.
Lemma reachable_inv n t s : reachable n t s -> Inv s.
Proof.
  induction 1 as [|s i p R IH T P A C|s i s' R IH E].
  - apply inv_initial.
  - apply inv_start; auto.
  - destruct (nth_error (thr s) i) as [[x|]|] eqn:T.
    + destruct (exec_ok s i x IH T) as (s1 & E1 & J). congruence.
    + unfold exec in E. rewrite T in E. discriminate.
    + unfold exec in E. rewrite T in E. discriminate.
Qed.
