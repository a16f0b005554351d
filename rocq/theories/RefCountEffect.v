From Verif Require Import Base RefCountModel RefCountSpec RefCountProofs RefCountProofs2 RefCountProofs3 RefCountProofs4 RefCountProofs5.
Open Scope nat_scope.

Definition mwrites (m : micro) : list nat :=
  match m with
  | MNew v fs => v :: fs | MCopy v _ | MAssign1 v _ | MAssign2 v _ | MRaw1 v _ | MRaw2 v _ | MMoveA1 v _ | MDestroy v => [v]
  | MMoveC v x | MMoveA2 v x | MSwap v x => [v; x] | _ => []
  end.
Definition gv (l : list cell) (v : nat) : option nat := match nth_error l v with Some c => ptr c | None => None end.
Lemma gv_other l v p w : w <> v -> gv (setv l v p) w = gv l w.
Proof. intros N. unfold gv. rewrite setv_other; auto. Qed.
Lemma gv_same l v p : v < List.length l -> gv (setv l v p) v = p.
Proof. intros N. unfold gv. rewrite setv_same; auto. Qed.
Lemma gv_limbo l v w : gv (limbo l v) w = gv l w.
Proof.
  unfold gv, limbo. destruct (nth_error l v) as [c|] eqn:E; [|reflexivity]. destruct (Nat.eq_dec w v) as [->|N]; [|rewrite upd_other; auto].
  rewrite upd_same by (apply nth_error_Some; congruence). rewrite E. reflexivity.
Qed.
Lemma gv_clear fs : forall l w, gv (fold_left (fun l x => setv l x None) fs l) w = if in_dec Nat.eq_dec w fs then None else gv l w.
Proof.
  induction fs as [|x fs IH]; intros l w; [reflexivity|]. cbn [fold_left]. rewrite IH. destruct (in_dec Nat.eq_dec w fs) as [A|A], (in_dec Nat.eq_dec w (x :: fs)) as [B|B]; auto.
  - exfalso. apply B. right; auto.
  - destruct B as [ -> |B]; [|tauto]. unfold gv, setv. rewrite upd_get, Nat.eqb_refl. destruct (nth_error l w); reflexivity.
  - apply gv_other. intros ->. apply B. left; reflexivity.
Qed.
Lemma clear_length fs : forall l, List.length (fold_left (fun l x => setv l x None) fs l) = List.length l.
Proof. induction fs as [|x fs IH]; intros l; [reflexivity|]. cbn [fold_left]. rewrite IH. apply setv_length. Qed.
Definition hext (h h' : list obj) : Prop := forall o b, nth_error h o = Some b -> exists b', nth_error h' o = Some b' /\ fields b' = fields b.
Lemma hext_refl h : hext h h.
Proof. intros o b H. eauto. Qed.
Lemma hext_trans h1 h2 h3 : hext h1 h2 -> hext h2 h3 -> hext h1 h3.
Proof. intros A B o b H. destruct (A o b H) as (b1 & H1 & E1). destruct (B o b1 H1) as (b2 & H2 & E2). exists b2. split; congruence. Qed.
Lemma hext_upd h o b b' : nth_error h o = Some b -> fields b' = fields b -> hext h (upd h o b').
Proof. intros H F o1 b1 H1. rewrite upd_get, H. destruct (Nat.eqb_spec o1 o) as [->|N]; [|eauto]. exists b'. split; congruence. Qed.

Lemma micro_frame s m vs h ms : exec_micro s m = Ok (vs, h, ms) ->
  List.length vs = List.length (vars s) /\ (forall w, ~ In w (mwrites m) -> gv vs w = gv (vars s) w) /\ hext (heap s) h.
Proof.
  assert (AO : forall o f r, at_obj (heap s) o f = Ok r -> exists b, nth_error (heap s) o = Some b /\ f b = r).
  { unfold at_obj. intros o f r H. destruct (nth_error (heap s) o) as [b|]; [|discriminate]. destruct (alive b); [|discriminate]. injection H as H. eauto. }
  destruct m as [o|o|o|v fs|v r|v x|v r|v r|v r|v q|v x|v x|v x|v|x]; cbn [exec_micro mwrites]; intros H.
  1-3: match type of H with context [at_obj ?h ?o ?f] => destruct (at_obj h o f) as [r| | |] eqn:A; try discriminate; apply AO in A as (b & B & A) end;
       subst r; cbn [bind fst snd] in H; injection H as <- <- <-; (split; [reflexivity|split; [auto|]]); eapply hext_upd; eauto.
  - injection H as <- <- <-. split; [rewrite setv_length; apply clear_length|]. split.
    + intros w W. rewrite gv_other by (intros ->; apply W; left; reflexivity). rewrite gv_clear. destruct (in_dec Nat.eq_dec w fs) as [X|X]; [|reflexivity]. exfalso. apply W. right; auto.
    + intros o b O. exists b. split; auto. rewrite nth_error_app1; auto. apply nth_error_Some. congruence.
  - destruct (read s r); try discriminate. injection H as <- <- <-. rewrite setv_length. split; [reflexivity|split; [|apply hext_refl]]. intros w W. apply gv_other. intros ->. apply W. left; reflexivity.
  - injection H as <- <- <-. rewrite !setv_length. split; [reflexivity|split; [|apply hext_refl]]. intros w W. cbn [In] in W. rewrite !gv_other; auto.
  - injection H as <- <- <-. rewrite limbo_length. split; [reflexivity|split; [|apply hext_refl]]. intros w W. apply gv_limbo.
  - destruct (read s r); try discriminate. injection H as <- <- <-. rewrite setv_length. split; [reflexivity|split; [|apply hext_refl]]. intros w W. apply gv_other. intros ->. apply W. left; reflexivity.
  - destruct (read s r); try discriminate. injection H as <- <- <-. rewrite limbo_length. split; [reflexivity|split; [|apply hext_refl]]. intros w W. apply gv_limbo.
  - injection H as <- <- <-. rewrite setv_length. split; [reflexivity|split; [|apply hext_refl]]. intros w W. apply gv_other. intros ->. apply W. left; reflexivity.
  - injection H as <- <- <-. rewrite limbo_length. split; [reflexivity|split; [|apply hext_refl]]. intros w W. apply gv_limbo.
  - injection H as <- <- <-. rewrite !setv_length. split; [reflexivity|split; [|apply hext_refl]]. intros w W. cbn [In] in W. rewrite !gv_other; auto.
  - injection H as <- <- <-. rewrite !setv_length. split; [reflexivity|split; [|apply hext_refl]]. intros w W. cbn [In] in W. rewrite !gv_other; auto.
  - injection H as <- <- <-. rewrite setv_length. split; [reflexivity|split; [|apply hext_refl]]. intros w W. apply gv_other. intros ->. apply W. left; reflexivity.
  - destruct (getv s x) as [o|]; [|discriminate]. destruct (at_obj (heap s) o _) as [r| | |] eqn:A; try discriminate. apply AO in A as (b & B & A). subst r. cbn [bind fst snd] in H. injection H as <- <- <-. split; [reflexivity|split; [auto|apply hext_refl]].
Qed.
Lemma thread_writes s q m k : thread_ok s q (m :: k) -> forall w, In w (mwrites m) -> In w (writes q).
Proof.
  intros TO. inversion TO as [p0 PR AL E1 E2|p0 k0 FD E1 E2|v r ds q0 FD D B SR E1 E2|v r ds q0 FD D B SR E1 E2|v x ds FD B1 B2 E1 E2|p0 v r o HP D SR GV E1 E2]; subst.
  - intros w W. destruct q; cbn [first_step mwrites writes] in *; try exact W. destruct W as [ <- |[]]. left; reflexivity.
  - inversion FD as [|? ? DM]; subst. destruct m; cbn in DM |- *; tauto.
  - destruct (cons_inj _ _ _ _ (eq_sym E2) FD) as [(-> & -> & ->)|(DM & _)]; [intros w W; exact W|]. destruct m; cbn in DM |- *; tauto.
  - destruct (cons_inj _ _ _ _ (eq_sym E2) FD) as [(-> & -> & ->)|(DM & _)]; [intros w W; exact W|]. destruct m; cbn in DM |- *; tauto.
  - destruct (cons_inj _ _ _ _ (eq_sym E2) FD) as [(-> & -> & ->)|(DM & _)]; [intros w W; exact W|]. destruct m; cbn in DM |- *; tauto.
  - intros w [].
Qed.

(** The stages of an operation that was started at [s0]. *)
Definition names (p : op) : list nat := writes p ++ reads p.
Definition same (s0 s : state) (p : op) : Prop := forall w, In w (names p) -> getv s w = getv s0 w.
Definition neutral (m : micro) : Prop := match m with MRetain _ | MRelease _ | MDelete _ => True | _ => False end.
Inductive stage (s0 : state) (p : op) (s : state) : list micro -> Prop :=
| st_first : same s0 s p -> stage s0 p s [first_step p]
| st_assign v r ds : p = Assign v r -> same s0 s p -> Forall neutral ds -> stage s0 p s (ds ++ [MAssign2 v r])
| st_raw v r q ds : p = AssignRaw v r -> same s0 s p -> source_value s0 r q -> Forall neutral ds -> stage s0 p s (ds ++ [MRaw2 v q])
| st_move v x ds : p = MoveA v x -> same s0 s p -> Forall neutral ds -> stage s0 p s (ds ++ [MMoveA2 v x])
| st_done k : effect s0 p s -> Forall neutral k -> stage s0 p s k.

Lemma source_value_ext s0 s r q : getv s (src_var r) = getv s0 (src_var r) -> hext (heap s0) (heap s) -> source_ok s0 r -> source_value s r q -> source_value s0 r q.
Proof.
  destruct r as [x|x i]; cbn [src_var source_value source_ok]; intros G E SO; [congruence|]. intros (o & b & O & B & F). destruct SO as (o' & b' & O' & B' & _). rewrite G in O.
  rewrite O' in O. injection O as <-. exists o', b'. split; auto. split; auto. destruct (E o' b' B') as (b2 & B2 & F2). rewrite B in B2. injection B2 as <-. congruence.
Qed.
Lemma read_value s r q : read s r = Ok q -> source_value s r q.
Proof.
  destruct r as [x|x i]; cbn [read source_value]; intros H; [injection H; auto|]. destruct (getv s x) as [o|]; [|discriminate]. destruct (nth_error (heap s) o) as [b|] eqn:B; [|discriminate].
  destruct (alive b); [|discriminate]. destruct (nth_error (fields b) i) as [f|] eqn:F; [|discriminate]. injection H as <-. exists o, b. auto.
Qed.
(** Others do not change what an operation names. *)
Lemma stage_frame s0 p s s' k : stage s0 p s k -> (forall w, In w (names p) -> getv s' w = getv s w) -> hext (heap s) (heap s') -> stage s0 p s' k.
Proof.
  intros ST G E. assert (SM : same s0 s p -> same s0 s' p) by (intros H w W; rewrite G; auto).
  inversion ST as [S|v r ds P S F|v r q ds P S V F|v x ds P S F|k0 EF F]; subst.
  - apply st_first; auto.
  - apply st_assign; auto.
  - eapply st_raw; eauto.
  - apply st_move; auto.
  - apply st_done; auto. unfold names in G. destruct p as [v fs|v r|v x|v r|v r|v x|v x|v|x]; cbn [effect writes reads app In] in *.
    + destruct EF as (o & b & O & H0 & H1 & FF & N). destruct (E o b H1) as (b' & B' & FB). exists o, b'. rewrite G by auto. repeat split; auto; [congruence|]. intros x X. rewrite G; auto. right. apply in_or_app; auto.
    + rewrite !G by auto. exact EF.
    + rewrite !G by auto. exact EF.
    + rewrite !G by auto. exact EF.
    + rewrite !G by auto. exact EF.
    + rewrite !G by auto. exact EF.
    + rewrite !G by auto. exact EF.
    + rewrite !G by auto. exact EF.
    + rewrite !G by auto. exact EF.
Qed.
Lemma cons_app_n ds (m : micro) k x : m :: k = ds ++ [x] -> Forall neutral ds -> (ds = [] /\ m = x /\ k = []) \/ (neutral m /\ exists ds', Forall neutral ds' /\ k = ds' ++ [x]).
Proof. intros E F. destruct ds as [|a ds]; cbn [app] in E; [left|right]; injection E as -> ->; auto. inversion F; subst. eauto. Qed.
Lemma neutral_step s m vs h ms : neutral m -> exec_micro s m = Ok (vs, h, ms) -> vs = vars s /\ Forall neutral ms.
Proof.
  destruct m as [o|o|o|v fs|v r|v x|v r|v r|v r|v q|v x|v x|v x|v|x]; cbn [neutral]; try tauto; intros _; cbn [exec_micro]; unfold at_obj; destruct (nth_error (heap s) o) as [b|]; try discriminate; destruct (alive b); try discriminate;
    cbn [bind fst snd]; intros H; injection H as <- <- <-; split; auto.
  - destruct (_ =? _)%Z; repeat constructor.
  - apply Forall_forall. intros m M. apply in_flat_map in M as (q & Q & M). destruct q; cbn in M; [|tauto]. destruct M as [ <- |[]]. exact Logic.I.
Qed.
Lemma release_neutral p : Forall neutral (release p).
Proof. destruct p; repeat constructor. Qed.
Lemma retain_neutral p : Forall neutral (retain p).
Proof. destruct p; repeat constructor. Qed.
Lemma stage_own s0 p s m k vs h ms t : pre s0 p -> alias_free p -> hext (heap s0) (heap s) -> List.length (vars s) = List.length (vars s0) -> List.length (heap s0) <= List.length (heap s) -> stage s0 p s (m :: k) -> exec_micro s m = Ok (vs, h, ms) ->
  stage s0 p {| vars := vs; heap := h; thr := t |} (ms ++ k).
Proof.
  intros PR AL HE LV LH ST EX. destruct PR as (P1 & P2). destruct (micro_frame _ _ _ _ _ EX) as (LV' & FR & HE').
  assert (GS : forall w, getv {| vars := vs; heap := h; thr := t |} w = gv vs w) by reflexivity.
  assert (GS0 : forall w, getv s w = gv (vars s) w) by reflexivity.
  assert (SAME : same s0 s p -> vs = vars s -> same s0 {| vars := vs; heap := h; thr := t |} p) by (intros S -> w W; rewrite <- S by auto; reflexivity).
  assert (LIM : forall v, same s0 s p -> vs = limbo (vars s) v -> same s0 {| vars := vs; heap := h; thr := t |} p) by (intros v S -> w W; rewrite GS, gv_limbo, <- S by auto; reflexivity).
  assert (STORE : forall v r q, (p = Copy v r \/ p = Assign v r \/ p = AssignRaw v r) -> same s0 s p -> source_value s0 r q -> vs = setv (vars s) v q -> effect s0 p {| vars := vs; heap := h; thr := t |}).
  { intros v r q HP S V ->. assert (N : src_var r <> v) by (destruct HP as [ -> |[ -> | -> ]]; cbn [alias_free] in *; tauto).
    assert (IV : v < List.length (vars s)). { rewrite LV. apply P2. destruct HP as [ -> |[ -> | -> ]]; left; reflexivity. }
    assert (IR : In (src_var r) (names p)) by (destruct HP as [ -> |[ -> | -> ]]; right; left; reflexivity).
    assert (G1 : source_value s0 r (getv {| vars := setv (vars s) v q; heap := h; thr := t |} v)) by (rewrite GS, gv_same; auto).
    assert (G2 : getv {| vars := setv (vars s) v q; heap := h; thr := t |} (src_var r) = getv s0 (src_var r)) by (rewrite GS, gv_other, <- GS0; auto).
    destruct HP as [ -> |[ -> | -> ]]; cbn [effect]; auto. }
  inversion ST as [S E|v r ds P S F E|v r q ds P S V F E|v x ds P S F E|k0 EF F E]; subst.
  - destruct p as [v fs|v r|v x|v r|v r|v x|v x|v|x]; cbn [first_step exec_micro] in EX; unfold names in *; cbn [writes reads app In] in P2.
    + injection EX as <- <- <-. apply st_done; [|constructor]. destruct P1 as (NV & ND). inversion ND as [|? ? NI NF]; subst. cbn [effect].
      eexists; eexists. rewrite GS, gv_same by (rewrite clear_length, LV; apply P2; left; reflexivity). split; [reflexivity|]. split; [apply nth_error_None; auto|]. cbn [heap]. split; [rewrite nth_error_app2, Nat.sub_diag by lia; reflexivity|]. split.
      * cbn [fields]. apply map_ext_in. intros x X. apply S. right. apply in_or_app. auto.
      * intros x X. rewrite GS, gv_other by (intros ->; tauto). rewrite gv_clear. destruct (in_dec Nat.eq_dec x fs); tauto.
    + destruct (read s r) as [q| | |] eqn:RD; try discriminate. injection EX as <- <- <-. rewrite app_nil_r. apply st_done; [|apply retain_neutral].
      apply (STORE v r q); auto. apply (source_value_ext s0 s); auto; [apply S; right; left; reflexivity|tauto|apply read_value; auto].
    + injection EX as <- <- <-. apply st_done; [|constructor]. cbn [effect]. destruct P1 as (NV & N). rewrite !GS. rewrite gv_other, gv_same by (rewrite ?LV; auto). rewrite gv_same by (rewrite setv_length, LV; auto). split; [apply S; cbn; auto|reflexivity].
    + injection EX as <- <- <-. rewrite app_nil_r. eapply st_assign; eauto. apply release_neutral.
    + destruct (read s r) as [q| | |] eqn:RD; try discriminate. injection EX as <- <- <-. rewrite app_nil_r. eapply st_raw; eauto; [|apply release_neutral].
      apply (source_value_ext s0 s); auto; [apply S; right; left; reflexivity|apply read_value; auto].
    + injection EX as <- <- <-. rewrite app_nil_r. eapply st_move; eauto. apply release_neutral.
    + injection EX as <- <- <-. apply st_done; [|constructor]. cbn [effect]. rewrite !GS. rewrite (gv_same _ x) by (rewrite setv_length, LV; auto).
      destruct (Nat.eq_dec v x) as [ -> |N].
      * rewrite gv_same by (rewrite setv_length, LV; auto). split; apply S; cbn; auto.
      * rewrite gv_other, gv_same by (rewrite ?LV; auto). split; apply S; cbn; auto.
    + injection EX as <- <- <-. apply st_done; [|rewrite app_nil_r; apply release_neutral]. cbn [effect]. rewrite GS. apply gv_same. rewrite LV; auto.
    + destruct (getv s x) as [o|] eqn:G; [|discriminate]. unfold at_obj in EX. destruct (nth_error (heap s) o) as [b|]; [|discriminate]. destruct (alive b); [|discriminate]. cbn [bind fst snd] in EX. injection EX as <- <- <-. apply st_done; [|constructor].
      cbn [effect]. change (getv s x = getv s0 x). apply S. cbn; auto.
  - destruct (cons_app_n _ _ _ _ (eq_sym E) F) as [(-> & -> & ->)|(NM & ds' & F' & ->)].
    + cbn [exec_micro] in EX. destruct (read s r) as [q| | |] eqn:RD; try discriminate. injection EX as <- <- <-. rewrite app_nil_r. apply st_done; [|apply retain_neutral].
      apply (STORE v r q); auto. apply (source_value_ext s0 s); auto; [apply S; right; left; reflexivity|apply read_value; auto].
    + destruct (neutral_step _ _ _ _ _ NM EX) as (-> & FM). rewrite app_assoc. apply st_assign; auto. apply Forall_app; auto.
  - destruct (cons_app_n _ _ _ _ (eq_sym E) F) as [(-> & -> & ->)|(NM & ds' & F' & ->)].
    + cbn [exec_micro] in EX. injection EX as <- <- <-. rewrite app_nil_r. apply st_done; [|apply retain_neutral]. apply (STORE v r q); auto.
    + destruct (neutral_step _ _ _ _ _ NM EX) as (-> & FM). rewrite app_assoc. eapply st_raw; eauto. apply Forall_app; auto.
  - destruct (cons_app_n _ _ _ _ (eq_sym E) F) as [(-> & -> & ->)|(NM & ds' & F' & ->)].
    + cbn [exec_micro] in EX. injection EX as <- <- <-. apply st_done; [|constructor]. cbn [effect]. cbn [writes reads app In] in P2. rewrite !GS. split.
      * intros N. rewrite gv_other, gv_same by (rewrite ?LV; auto). apply S. cbn; auto.
      * apply gv_same. rewrite setv_length, LV. auto.
    + destruct (neutral_step _ _ _ _ _ NM EX) as (-> & FM). rewrite app_assoc. apply st_move; auto. apply Forall_app; auto.
  - inversion F as [|? ? NM F']; subst. destruct (neutral_step _ _ _ _ _ NM EX) as (-> & FM).
    apply (stage_frame s0 p s); auto. apply st_done; auto. apply Forall_app; auto.
Qed.

Definition busy (s0 : state) (i : nat) (p : op) (s : state) : Prop :=
  hext (heap s0) (heap s) /\ List.length (heap s0) <= List.length (heap s) /\ List.length (vars s) = List.length (vars s0) /\
  ((exists k, nth_error (thr s) i = Some (Some (p, k)) /\ stage s0 p s k) \/ (nth_error (thr s) i = Some None /\ effect s0 p s)).
Lemma hext_length h h' : hext h h' -> List.length h <= List.length h'.
Proof.
  intros H. destruct (List.length h) as [|n] eqn:E; [lia|]. destruct (nth_lt h n) as (b & B); [lia|]. destruct (H n b B) as (b' & B' & _).
  assert (n < List.length h') by (apply nth_error_Some; congruence). lia.
Qed.
Lemma during_busy n t s0 i p s : reachable n t s0 -> nth_error (thr s0) i = Some None -> pre s0 p -> alias_free p ->
  (forall j q k, nth_error (thr s0) j = Some (Some (q, k)) -> compatible p q) -> during i (start s0 i p) s -> reachable n t s /\ busy s0 i p s.
Proof.
  intros R T PR AL CO D. remember (start s0 i p) as s1 eqn:E1. induction D as [s|s s1 j s2 D IH NB EX|s s1 j q D IH NB TJ PQ AQ CQ]; subst.
  - split; [apply reach_start; auto|]. split; [apply hext_refl|]. split; [auto|]. split; [reflexivity|]. left. exists [first_step p]. split.
    + cbn [start thr]. apply upd_same. apply nth_error_Some. congruence.
    + apply st_first. intros w W. reflexivity.
  - destruct IH as (R1 & HE & LH & LV & [(k & TI & ST)|(TI & _)]); auto; [|congruence]. split; [eapply reach_exec; eauto|]. pose proof (reachable_inv n t s1 R1) as I.
    destruct (nth_error (thr s1) j) as [[(q, [|m l])|]|] eqn:TJ; unfold exec in EX; rewrite TJ in EX; try discriminate.
    + injection EX as <-. unfold busy. cbn [heap vars thr]. split; [auto|]. split; [auto|]. split; [auto|]. destruct (Nat.eq_dec j i) as [ -> |N].
      * rewrite TI in TJ. injection TJ as -> ->. right. split; [apply upd_same, nth_error_Some; congruence|].
        inversion ST as [S E|v r ds P S F E|v r q0 ds P S V F E|v x ds P S F E|k0 EF F E]; subst; try (destruct ds; discriminate). exact EF.
      * left. exists k. split; [rewrite upd_other by auto; exact TI|]. apply (stage_frame s0 p s1); [exact ST|intros w W; reflexivity|apply hext_refl].
    + destruct (exec_micro s1 m) as [((vs, h), ms)| | |] eqn:EM; try discriminate. cbn [bind fst snd] in EX. injection EX as <-.
      destruct (micro_frame _ _ _ _ _ EM) as (LV' & FR & HE'). unfold busy. cbn [heap vars thr].
      split; [eapply hext_trans; eauto|]. split; [apply hext_length in HE'; lia|]. split; [congruence|]. left. destruct (Nat.eq_dec j i) as [ -> |N].
      * rewrite TI in TJ. injection TJ as -> ->. exists (ms ++ l). split; [apply upd_same, nth_error_Some; congruence|]. eapply stage_own; eauto.
      * exists k. split; [rewrite upd_other by auto; exact TI|]. apply (stage_frame s0 p s1); auto. intros w W. change (gv vs w = gv (vars s1) w). apply FR. intros MW.
        pose proof (thread_writes _ _ _ _ (I_thr s1 I j _ _ TJ) w MW) as WQ. destruct (I_compat s1 I j i _ _ _ _ N TJ TI) as (C1 & C2). apply C1 in WQ. unfold names in W. apply in_app_or in W. tauto.
  - destruct IH as (R1 & HE & LH & LV & [(k & TI & ST)|(TI & _)]); auto; [|congruence]. split; [apply reach_start; auto|]. unfold busy. cbn [start heap vars thr]. split; [auto|]. split; [auto|]. split; [auto|].
    left. exists k. split; [rewrite upd_other; auto; congruence|]. apply (stage_frame s0 p s1); [exact ST|intros w W; reflexivity|apply hext_refl].
Qed.
