From Verif Require Import Base StridedModel ElwiseModel ElwiseSpec.
Open Scope Z_scope.

Definition elt (nd : nat) (a : list Z) : list Z := if (List.length a <? nd)%nat then a else tl a.
Definition nonneg (a : list Z) : Prop := Forall (fun n => 0 <= n) a.

Lemma fixed_length a : List.length (fixed a) = List.length a.
Proof. apply map_length. Qed.
Lemma arg_elt_fixed nd a : arg_elt nd (fixed a) = fixed (elt nd a).
Proof. unfold arg_elt, arg_lead, elt. rewrite fixed_length. destruct (_ <? _)%nat; [reflexivity|]. destruct a; reflexivity. Qed.
Lemma map_arg_elt nd args : map (arg_elt nd) (map fixed args) = map fixed (map (elt nd) args).
Proof. rewrite !map_map. apply map_ext. apply arg_elt_fixed. Qed.
Lemma elt_length nd a : (List.length a <= S nd)%nat -> (List.length (elt (S nd) a) <= nd)%nat.
Proof. unfold elt. intros L. destruct (Nat.ltb_spec (List.length a) (S nd)); [lia|]. destruct a; cbn in *; lia. Qed.
Lemma elt_nonneg nd a : nonneg a -> nonneg (elt nd a).
Proof. unfold elt. intros N. destruct (_ <? _)%nat; [exact N|]. destruct N; [constructor|assumption]. Qed.
Lemma elt_rev nd a k n : nth_error (rev (elt nd a)) k = Some n -> nth_error (rev a) k = Some n.
Proof.
  unfold elt. destruct (_ <? _)%nat; [auto|]. destruct a as [|x a]; [auto|]. cbn [tl rev]. intros E.
  rewrite nth_error_app1; [exact E|]. apply nth_error_Some. congruence.
Qed.

Lemma broadcasts_rev shape a k x : broadcasts shape a -> nth_error (rev a) k = Some x ->
  exists d, nth_error (rev shape) k = Some d /\ (x = 1 \/ x = d).
Proof.
  intros (lead & al & -> & F) E. rewrite rev_app_distr.
  assert (G : forall a al k, Forall2 (fun s d : Z => s = 1 \/ s = d) a al -> nth_error (rev a) k = Some x -> exists d, nth_error (rev al) k = Some d /\ (x = 1 \/ x = d)).
  { clear. induction a as [|y a IH]; intros al k F E; inversion F; subst; [destruct k; discriminate|].
    cbn [rev] in *. assert (L := Forall2_length H3).
    destruct (Nat.lt_ge_cases k (List.length (rev a))) as [Lk|Lk].
    - rewrite nth_error_app1 in E by lia. rewrite nth_error_app1 by (rewrite rev_length in *; lia). eapply IH; eassumption.
    - rewrite nth_error_app2 in E by lia. rewrite nth_error_app2 by (rewrite rev_length in *; lia). rewrite rev_length in *.
      rewrite <- L in *. destruct (k - List.length a)%nat as [|q]; cbn in *; [|destruct q; discriminate].
      injection E as <-. eauto. }
  destruct (G a al k F E) as (d & Ed & Hd). exists d. split; [|exact Hd].
  rewrite nth_error_app1; [exact Ed|]. apply nth_error_Some. congruence.
Qed.
Lemma broadcasts_tl shape k a : broadcasts shape (k :: a) -> broadcasts shape a.
Proof.
  intros (lead & al & -> & F). inversion F; subst. exists (lead ++ [y]), l'. rewrite <- app_assoc. split; [reflexivity|assumption].
Qed.
Lemma broadcasts_elt nd shape a : broadcasts shape a -> broadcasts shape (elt nd a).
Proof. unfold elt. intros B. destruct (_ <? _)%nat; [exact B|]. destruct a; [exact B|]. eapply broadcasts_tl; eassumption. Qed.
Lemma broadcasts_length shape a : broadcasts shape a -> (List.length a <= List.length shape)%nat.
Proof. intros (lead & al & -> & F). rewrite app_length, (Forall2_length F). lia. Qed.
Lemma broadcasts_lead n shape a : broadcasts shape a -> broadcasts (n :: shape) a.
Proof. intros (lead & al & -> & F). exists (n :: lead), al. auto. Qed.
Lemma broadcasts_unlead n shape a : (List.length a <= List.length shape)%nat -> broadcasts (n :: shape) a -> broadcasts shape a.
Proof.
  intros L (lead & al & E & F). destruct lead as [|x lead].
  - cbn in E. subst al. apply Forall2_length in F. cbn in F. lia.
  - injection E as -> ->. exists lead, al. auto.
Qed.
Lemma broadcasts_cons n shape k a : List.length a = List.length shape ->
  (broadcasts (n :: shape) (k :: a) <-> (k = 1 \/ k = n) /\ broadcasts shape a).
Proof.
  intros L. split.
  - intros (lead & al & E & F). destruct lead as [|x lead].
    + cbn in E. subst al. inversion F; subst. split; [assumption|]. exists [], shape. auto.
    + exfalso. apply (f_equal (@List.length Z)) in E. apply Forall2_length in F. cbn in *. rewrite app_length in E. lia.
  - intros (K & lead & al & E & F). exists [], (n :: shape). split; [reflexivity|].
    assert (LL : lead = []).
    { apply (f_equal (@List.length Z)) in E. rewrite app_length, <- (Forall2_length F) in E. destruct lead; [reflexivity|cbn in E; lia]. }
    subst lead. cbn in E. subst al. constructor; assumption.
Qed.
(** One level at a time. *)
Lemma broadcasts_step n shape a : (List.length a <= S (List.length shape))%nat ->
  (broadcasts (n :: shape) a <->
   broadcasts shape (elt (S (List.length shape)) a) /\
   (List.length a = S (List.length shape) -> exists k, nth_error a 0 = Some k /\ (k = 1 \/ k = n))).
Proof.
  intros L. unfold elt. destruct (Nat.ltb_spec (List.length a) (S (List.length shape))).
  - split.
    + intros B. split; [apply (broadcasts_unlead n); [lia|exact B]|intros ?; lia].
    + intros (B & _). apply broadcasts_lead, B.
  - destruct a as [|k a]; [cbn in *; lia|]. cbn in L, H. cbn [tl nth_error]. rewrite broadcasts_cons by lia.
    split; [intros (K & B); split; [exact B|intros _; eauto]|]. intros (B & K). destruct (K ltac:(cbn; lia)) as (k' & [= <-] & ?). auto.
Qed.

(** entry_ndim *)
Lemma fold_max_spec (l : list ty) : forall n0,
  let r := fold_left (fun n t => if (n <? List.length t)%nat then List.length t else n) l n0 in
  (n0 <= r)%nat /\ Forall (fun t => (List.length t <= r)%nat) l /\ (r = n0 \/ exists t, In t l /\ List.length t = r).
Proof.
  induction l as [|t l IH]; cbn [fold_left]; intros n0; [repeat split; auto|].
  specialize (IH (if (n0 <? List.length t)%nat then List.length t else n0)). cbn zeta in IH.
  destruct IH as (A & B & C). destruct (Nat.ltb_spec n0 (List.length t)).
  - split; [lia|]. split; [constructor; [lia|exact B]|]. destruct C as [C|(x & I & C)]; right; [exists t; split; [left; reflexivity|auto]|exists x; split; [right; exact I|exact C]].
  - split; [lia|]. split; [constructor; [lia|exact B]|]. destruct C as [C|(x & I & C)]; [left; exact C|right; exists x; split; [right; exact I|exact C]].
Qed.

(** The nodes do not depend on the checks. *)
Fixpoint gnodes (ignore : bool) (nd : nat) (dst : option ty) (args : list ty) : list node :=
  match nd with
  | O => []
  | S nd' => Node (classify ignore dst args) ignore (map (arg_bc nd) args) (map is_var args)
               :: gnodes ignore nd' (res_elt ignore dst) (map (arg_elt nd) args)
  end.
Lemma resolve_nodes ig nd : forall dst args nodes rt, resolve ig nd dst args = Ok (nodes, rt) -> nodes = gnodes ig nd dst args.
Proof.
  induction nd as [|nd IH]; intros dst args nodes rt E.
  - injection E as <- <-. reflexivity.
  - cbn [resolve] in E. destruct (_ && _); [discriminate|].
    destruct (resolve ig nd _ _) as [[ns t]| | |] eqn:R; try discriminate. cbn [bind fst snd] in E.
    injection E as <- _. cbn [gnodes]. f_equal. eapply IH, R.
Qed.

Lemma arg_size_fixed nd a : List.length a = S nd -> arg_size (S nd) (fixed a) = hd 1 a.
Proof. intros L. unfold arg_size, arg_lead. rewrite fixed_length, L, Nat.ltb_irrefl. destruct a; [discriminate|reflexivity]. Qed.
Lemma arg_bc_fixed nd a : (List.length a <= S nd)%nat -> arg_bc (S nd) (fixed a) = negb (List.length a =? S nd)%nat || (hd 1 a =? 1).
Proof.
  intros L. unfold arg_bc. unfold arg_lead. rewrite fixed_length. destruct (Nat.ltb_spec (List.length a) (S nd)); destruct (Nat.eqb_spec (List.length a) (S nd)); try lia; try reflexivity.
  rewrite arg_size_fixed by assumption. reflexivity.
Qed.
Lemma hd_nonneg a : nonneg a -> 0 <= hd 1 a.
Proof. destruct 1; cbn; lia. Qed.
Lemma clash_fixed nd r a : (List.length a <= S nd)%nat -> nonneg a -> r <> -1 ->
  (size_clash (S nd) r (fixed a) = true <-> List.length a = S nd /\ hd 1 a <> 1 /\ r <> hd 1 a).
Proof.
  intros L N R. unfold size_clash. rewrite arg_bc_fixed by assumption. pose proof (hd_nonneg a N).
  destruct (Nat.eqb_spec (List.length a) (S nd)) as [E|E]; cbn [negb orb andb].
  - rewrite arg_size_fixed by assumption. rewrite !andb_true_iff, !negb_true_iff, !Z.eqb_neq. intuition lia.
  - split; [discriminate|]. intuition lia.
Qed.
Lemma first_size_spec nd args : Forall (fun a => (List.length a <= S nd)%nat) args -> Forall nonneg args ->
  let r := first_size (S nd) (map fixed args) in
  0 <= r /\ (r <> 1 -> exists a, In a args /\ List.length a = S nd /\ hd 1 a = r) /\
  (r = 1 -> forall a, In a args -> List.length a = S nd -> hd 1 a = 1).
Proof.
  induction args as [|a args IH]; intros L N; [cbn; repeat split; intros; lia || contradiction|].
  inversion L; inversion N; subst. cbn [map first_size]. specialize (IH H2 H6). cbn zeta in *.
  rewrite arg_bc_fixed by assumption. pose proof (hd_nonneg a H5).
  destruct (Nat.eqb_spec (List.length a) (S nd)) as [E|E]; cbn [negb orb andb].
  - rewrite arg_size_fixed by assumption. destruct (Z.eqb_spec (hd 1 a) 1) as [O|O]; cbn [negb andb].
    + destruct IH as (A & B & C). split; [exact A|]. split.
      * intros D. destruct (B D) as (x & I & P). exists x. split; [right; exact I|exact P].
      * intros D x [ <- |I] Lx; [exact O|apply C; assumption].
    + destruct (Z.eqb_spec (hd 1 a) (-1)); [lia|]. cbn [negb andb]. split; [lia|]. split; [intros _; exists a; repeat split; auto; left; reflexivity|contradiction].
  - destruct IH as (A & B & C). split; [exact A|]. split.
    + intros D. destruct (B D) as (x & I & P). exists x. split; [right; exact I|exact P].
    + intros D x [ <- |I] Lx; [contradiction|apply C; assumption].
Qed.

Lemma strided_fixed args : forallb (fun t => negb (is_var t)) (map fixed args) = true.
Proof. apply forallb_forall. intros t I. apply in_map_iff in I. destruct I as (a & <- & _). destruct a; reflexivity. Qed.
Lemma hd_rev a nd : List.length a = S nd -> nth_error (rev a) nd = Some (hd 1 a).
Proof. destruct a as [|x a]; [discriminate|]. cbn [rev hd List.length]. intros [= L]. rewrite nth_error_app2; rewrite rev_length, L; [|lia]. rewrite Nat.sub_diag. reflexivity. Qed.
Lemma Forall_elt (P : list Z -> Prop) (Q : list Z -> Prop) nd args : (forall a, P a -> Q (elt nd a)) -> Forall P args -> Forall Q (map (elt nd) args).
Proof. intros H F. apply Forall_map. eapply Forall_impl; [|exact F]. exact H. Qed.
Lemma nth_error_0_hd (a : list Z) k : nth_error a 0 = Some k -> hd 1 a = k.
Proof. destruct a; cbn; [discriminate|]. intros [= ->]. reflexivity. Qed.

Lemma resolve_none nd : forall args, Forall (fun a => (List.length a <= nd)%nat) args -> Forall nonneg args ->
  (exists nodes shape, resolve false nd None (map fixed args) = Ok (nodes, fixed shape) /\ List.length shape = nd /\ nonneg shape /\
     Forall (broadcasts shape) args /\
     (forall k n, nth_error (rev shape) k = Some n -> n <> 1 -> exists a, In a args /\ nth_error (rev a) k = Some n)) \/
  (resolve false nd None (map fixed args) = Throw "broadcast error 1" /\ forall shape, ~ Forall (broadcasts shape) args).
Proof.
  induction nd as [|nd IH]; intros args L N.
  - left. exists [], []. repeat split; try constructor.
    + eapply Forall_impl; [|exact L]. intros a La. destruct a; [|cbn in La; lia]. exists [], []. split; [reflexivity|constructor].
    + intros k n E. destruct k; discriminate.
  - cbn [resolve]. set (r := res_size false (S nd) None (map fixed args)).
    assert (Er : r = first_size (S nd) (map fixed args)) by reflexivity.
    pose proof (first_size_spec nd args L N) as FS. cbn zeta in FS. rewrite <- Er in FS. clearbody r. destruct FS as (R0 & R1 & R2).
    destruct (negb false && existsb (size_clash (S nd) r) (map fixed args)) eqn:C.
    + right. split; [reflexivity|]. intros shape B. cbn [negb andb] in C. apply existsb_exists in C. destruct C as (t & I & C).
      apply in_map_iff in I. destruct I as (a & <- & I). rewrite Forall_forall in *.
      apply clash_fixed in C; [|apply L, I|apply N, I|lia]. destruct C as (La & Ha & Ra).
      destruct (Z.eq_dec r 1) as [O|O]; [rewrite (R2 O a I La) in Ha; congruence|].
      destruct (R1 O) as (b & Ib & Lb & Hb).
      destruct (broadcasts_rev shape a nd (hd 1 a) (B a I) (hd_rev _ _ La)) as (d & Ed & [?|Da]); [congruence|].
      destruct (broadcasts_rev shape b nd (hd 1 b) (B b Ib) (hd_rev _ _ Lb)) as (d' & Ed' & [?|Db]); congruence.
    + cbn [negb andb] in C. rewrite map_arg_elt. change (res_elt false None) with (@None ty).
      destruct (IH (map (elt (S nd)) args)) as [(nodes & shape & E & Ls & Ns & B & K)|(E & B)].
      * eapply Forall_elt; [|exact L]. intros a La. apply elt_length, La.
      * eapply Forall_elt; [|exact N]. apply elt_nonneg.
      * left. rewrite E. cbn [bind fst snd]. eexists _, (r :: shape). split; [|split; [|split; [|split]]].
        -- unfold classify. rewrite strided_fixed. reflexivity.
        -- cbn. lia.
        -- constructor; [lia|exact Ns].
        -- rewrite Forall_map in B. rewrite Forall_forall in *. intros a I. apply broadcasts_step; [rewrite Ls; apply L, I|]. rewrite Ls. split; [apply B, I|].
           intros La. exists (hd 1 a). split; [destruct a; [discriminate|reflexivity]|].
           destruct (Z.eq_dec (hd 1 a) 1); [auto|right]. destruct (Z.eq_dec r (hd 1 a)); [auto|]. exfalso.
           assert (T : size_clash (S nd) r (fixed a) = true) by (apply clash_fixed; [apply L, I|apply N, I|lia|auto]).
           assert (F : existsb (size_clash (S nd) r) (map fixed args) = true) by (apply existsb_exists; exists (fixed a); split; [apply in_map, I|exact T]). congruence.
        -- intros k n Ek Hn. cbn [rev] in Ek. destruct (Nat.lt_ge_cases k nd) as [Lk|Lk].
           ++ rewrite nth_error_app1 in Ek by (rewrite rev_length; lia). destruct (K k n Ek Hn) as (a' & I & Ea).
              apply in_map_iff in I. destruct I as (a & <- & I). exists a. split; [exact I|]. eapply elt_rev, Ea.
           ++ rewrite nth_error_app2 in Ek by (rewrite rev_length; lia). rewrite rev_length, Ls in Ek.
              destruct (k - nd)%nat as [|q] eqn:Q; [|destruct q; discriminate]. injection Ek as Ek. assert (k = nd) by lia. subst k.
              destruct (R1 ltac:(lia)) as (b & Ib & Lb & Hb). exists b. split; [exact Ib|]. rewrite (hd_rev _ _ Lb). congruence.
      * right. rewrite E. split; [reflexivity|]. intros shape F. apply (B shape). eapply Forall_elt; [|exact F]. intros a Ba. apply broadcasts_elt, Ba.
Qed.

Lemma resolve_some nd : forall d args, List.length d = nd -> nonneg d -> Forall (fun a => (List.length a <= nd)%nat) args -> Forall nonneg args ->
  (exists nodes, resolve false nd (Some (fixed d)) (map fixed args) = Ok (nodes, fixed d) /\ Forall (broadcasts d) args) \/
  (resolve false nd (Some (fixed d)) (map fixed args) = Throw "broadcast error 1" /\ ~ Forall (broadcasts d) args).
Proof.
  induction nd as [|nd IH]; intros d args Ld Nd L N.
  - left. exists []. destruct d; [|discriminate]. split; [reflexivity|].
    eapply Forall_impl; [|exact L]. intros a La. destruct a; [|cbn in La; lia]. exists [], []. split; [reflexivity|constructor].
  - destruct d as [|n d]; [discriminate|]. injection Ld as Ld. inversion Nd; subst x l. cbn [resolve].
    change (res_size false (S nd) (Some (fixed (n :: d))) (map fixed args)) with n.
    destruct (negb false && existsb (size_clash (S nd) n) (map fixed args)) eqn:C.
    + right. split; [reflexivity|]. intros B. cbn [negb andb] in C. apply existsb_exists in C. destruct C as (t & I & C).
      apply in_map_iff in I. destruct I as (a & <- & I). rewrite Forall_forall in *.
      apply clash_fixed in C; [|apply L, I|apply N, I|lia]. destruct C as (La & Ha & Ra).
      destruct (proj1 (broadcasts_step n d a ltac:(rewrite Ld, La; reflexivity)) (B a I)) as (_ & K). destruct (K ltac:(lia)) as (k & E & K').
      apply nth_error_0_hd in E. lia.
    + cbn [negb andb] in C. rewrite map_arg_elt. change (res_elt false (Some (fixed (n :: d)))) with (Some (fixed d)).
      destruct (IH d (map (elt (S nd)) args) Ld H2) as [(nodes & E & B)|(E & B)].
      * eapply Forall_elt; [|exact L]. intros a La. apply elt_length, La.
      * eapply Forall_elt; [|exact N]. apply elt_nonneg.
      * left. rewrite E. cbn [bind fst snd]. eexists. split.
        -- unfold classify. rewrite strided_fixed. reflexivity.
        -- rewrite Forall_map in B. rewrite Forall_forall in *. intros a I. apply broadcasts_step; [rewrite Ld; apply L, I|]. rewrite Ld. split; [apply B, I|].
           intros La. exists (hd 1 a). split; [destruct a; [discriminate|reflexivity]|].
           destruct (Z.eq_dec (hd 1 a) 1); [auto|right]. destruct (Z.eq_dec n (hd 1 a)); [auto|]. exfalso.
           assert (T : size_clash (S nd) n (fixed a) = true) by (apply clash_fixed; [apply L, I|apply N, I|lia|auto]).
           assert (F : existsb (size_clash (S nd) n) (map fixed args) = true) by (apply existsb_exists; exists (fixed a); split; [apply in_map, I|exact T]). congruence.
      * right. rewrite E. split; [reflexivity|]. intros F. apply B. rewrite Forall_forall in *. intros a' I. apply in_map_iff in I. destruct I as (a & <- & I).
        rewrite <- Ld. apply (proj1 (broadcasts_step n d a ltac:(rewrite Ld; apply L, I)) (F a I)).
Qed.

(** C72 *)
Lemma resolve_variadic args : Forall nonneg args ->
  (exists nodes shape, elwise_resolve false None (map fixed args) = Ok (nodes, fixed shape) /\ nonneg shape /\ common_shape args shape) \/
  (elwise_resolve false None (map fixed args) = Throw "broadcast error 1" /\ forall shape, ~ Forall (broadcasts shape) args).
Proof.
  intros N. unfold elwise_resolve, entry_ndim. cbn [bind].
  set (nd := fold_left _ _ _). pose proof (fold_max_spec (map fixed args) 0) as M. cbn zeta in M. fold nd in M. clearbody nd. destruct M as (_ & L & W).
  rewrite Forall_map in L. assert (L' : Forall (fun a => (List.length a <= nd)%nat) args) by (eapply Forall_impl; [|exact L]; intros a; unfold fixed; rewrite map_length; auto).
  destruct (resolve_none nd args L' N) as [(nodes & shape & E & Ls & Ns & B & K)|P]; [left|right; exact P].
  exists nodes, shape. split; [exact E|]. split; [exact Ns|]. split; [|split; assumption].
  destruct W as [-> |(t & I & Lt)]; [left; destruct shape; [reflexivity|discriminate]|right].
  apply in_map_iff in I. destruct I as (a & <- & I). rewrite fixed_length in Lt. exists a. split; [exact I|lia].
Qed.
Lemma resolve_given d args : nonneg d -> Forall nonneg args ->
  (exists nodes, elwise_resolve false (Some (fixed d)) (map fixed args) = Ok (nodes, fixed d) /\ Forall (broadcasts d) args) \/
  (exists e, elwise_resolve false (Some (fixed d)) (map fixed args) = Throw e /\ ~ Forall (broadcasts d) args).
Proof.
  intros Nd N. unfold elwise_resolve, entry_ndim.
  set (nd := fold_left _ _ _). pose proof (fold_max_spec (map fixed args) 0) as M. cbn zeta in M. fold nd in M. clearbody nd. destruct M as (_ & L & W).
  rewrite Forall_map in L. assert (L' : Forall (fun a => (List.length a <= nd)%nat) args) by (eapply Forall_impl; [|exact L]; intros a; unfold fixed; rewrite map_length; auto).
  change (List.length (fixed d)) with (List.length (map DF d)). rewrite map_length. destruct (Nat.ltb_spec nd (List.length d)) as [H|H]; [|destruct (Nat.ltb_spec (List.length d) nd) as [G|G]].
  - cbn [bind]. destruct (resolve_some (List.length d) d args eq_refl Nd) as [P|(E & B)]; [|exact N|left; exact P|right; eauto].
    eapply Forall_impl; [|exact L']. intros a La; cbv beta in La; lia.
  - right. exists "broadcast_error"%string. split; [reflexivity|]. intros B. destruct W as [ -> |(t & I & Lt)]; [lia|].
    apply in_map_iff in I. destruct I as (a & <- & I). rewrite fixed_length in Lt. rewrite Forall_forall in B. pose proof (broadcasts_length d a (B a I)). lia.
  - assert (nd = List.length d) by lia. subst nd. cbn [bind].
    destruct (resolve_some (List.length d) d args eq_refl Nd L' N) as [P|(E & B)]; [left; exact P|right; eauto].
Qed.
