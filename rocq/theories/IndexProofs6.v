(** The size of the result's arrmeta, and what the type stage rejects. *)
From Verif Require Import Base LinearIndexModel LinearIndexSpec LinearIndexProofs LayoutModel LayoutSpec LayoutProofs LayoutProofs2 LayoutProofs5 IndexModel IndexSpec IndexProofs IndexProofs2 IndexProofs3 IndexProofs4 IndexProofs5.
Open Scope Z_scope.

Definition zsum (l : list Z) : Z := fold_right Z.add 0 l.
Lemma zsum_app l k : zsum (l ++ k) = zsum l + zsum k.
Proof. unfold zsum. induction l as [|x l IH]; cbn; lia. Qed.
Lemma zsum_incl (g : nat -> Z) ks : (forall k, 0 <= g k) -> NoDup ks -> forall s, incl ks s -> zsum (map g ks) <= zsum (map g s).
Proof.
  intros P. induction 1 as [|k ks N ND IH]; intros s I.
  - cbn. clear I. induction s as [|x s IHs]; cbn; [lia|]. specialize (P x). unfold zsum in *. lia.
  - destruct (in_split k s) as (s1 & s2 & ->); [apply I; left; reflexivity|]. assert (I2 : incl ks (s1 ++ s2)).
    { intros x X. specialize (I x (or_intror X)). apply in_app_iff in I. apply in_app_iff. destruct I as [I|[->|I]]; auto. contradiction. }
    specialize (IH _ I2). rewrite map_app, zsum_app in *. cbn [map zsum fold_right]. unfold zsum in *. cbn. lia.
Qed.
Lemma msum_zsum l : msum l = zsum (map (fun k => tmeta (nth k l (Builtin 0 1))) (seq 0 (List.length l))).
Proof. rewrite <- (nth_seq_id l (Builtin 0 1)) at 1. rewrite <- (map_map (fun i => nth i l (Builtin 0 1)) tmeta). generalize (map (fun i => nth i l (Builtin 0 1)) (seq 0 (List.length l))). clear. induction l as [|f l IH]; cbn; [reflexivity|]. rewrite IH. reflexivity. Qed.
Lemma index_size idx : Forall idx64 idx -> forall t lead rt, dims64 t -> index_type idx t lead = Ok rt -> tmeta rt <= tmeta t.
Proof.
  induction 1 as [|r idx I FA IH]; [intros t lead rt D E; injection E as <-; lia|]. induction t as [s0 al|s0 al de|e IHe|e IHe|e IHe|n e IHe|l _] using lt_ind'; intros lead rt D E; try discriminate; cbn [index_type dims64 tmeta] in *.
  - pose proof (tmeta_pos e). destruct (r_step r =? 0); [destruct lead|destruct (is_nop r); [|discriminate]].
    + apply IH in E; auto. lia.
    + apply bind_ok in E as (e' & E & R). injection R as <-. apply IH in E; auto. cbn [tmeta]. lia.
    + apply bind_ok in E as (e' & E & R). injection R as <-. apply IH in E; auto. cbn [tmeta]. lia.
  - apply bind_ok in E as (e' & E & R). injection R as <-. apply IHe in E; auto. cbn [tmeta]. lia.
  - destruct D as (N & D). apply bind_ok in E as (s & Es & E). destruct (o_remove s); [apply IH in E; auto; lia|]. apply bind_ok in E as (e' & E & R). injection R as <-. apply IH in E; auto. cbn [tmeta]. lia.
  - destruct D as (N & D). change (tmeta rt <= tmeta (Tuple l)). rewrite tmeta_tuple, msum_zsum. set (g := fun k => tmeta (nth k l (Builtin 0 1))). assert (P : forall k, 0 <= g k) by (intros k; apply tmeta_pos).
    apply bind_ok in E as (s & Es & E). assert (N0 : 0 <= Z.of_nat (List.length l) < 2 ^ 63) by lia. destruct (Z.eqb_spec (r_step r) 0) as [R|R].
    + destruct (sli_index r _ s N0 I R Es) as (Rm & A). rewrite Rm in E. assert (L : (Z.to_nat (o_start s) < List.length l)%nat) by (destruct A; lia). apply IH in E; [|apply (dims64_in l _ D), nth_In; exact L].
      assert (X : zsum (map g [Z.to_nat (o_start s)]) <= zsum (map g (seq 0 (List.length l)))) by (apply zsum_incl; auto; [constructor; [intros []|constructor]|intros x [<-|[]]; apply in_seq; lia]). cbn [map] in X. unfold zsum at 1 in X. cbn [fold_right] in X. unfold g at 1 in X. lia.
    + destruct (sli_slice r _ s N0 I R Es) as (Rm & SZ & IN & BD). rewrite Rm in E. apply bind_ok in E as (rl & Ee & E). injection E as <-. apply seq_out_ok in Ee. rewrite tmeta_tuple.
      assert (Ln : List.length rl = Z.to_nat (o_size s)) by (rewrite <- (Forall2_length Ee), map_length, seq_length; reflexivity).
      set (h := fun i => Z.to_nat (o_start s + Z.of_nat i * o_stride s)) in *.
      assert (B : forall i, In i (seq 0 (Z.to_nat (o_size s))) -> (h i < List.length l)%nat) by (intros i Hi; apply in_seq in Hi; specialize (BD (Z.of_nat i) ltac:(lia)); unfold h; lia).
      assert (M : msum rl <= zsum (map g (map h (seq 0 (Z.to_nat (o_size s)))))).
      { clear Ln. revert rl Ee B. generalize (seq 0 (Z.to_nat (o_size s))) as q. induction q as [|i q IHq]; intros rl Ee B; cbn [map] in *; inversion Ee as [|? y ? ys E1 E2]; subst; cbn [msum]; [unfold zsum; cbn; lia|]. apply IH in E1; [|apply (dims64_in l _ D), nth_In, B; left; reflexivity].
        specialize (IHq ys E2 (fun k K => B k (or_intror K))). unfold zsum in *. cbn [fold_right]. change (g (h i)) with (tmeta (nth (h i) l (Builtin 0 1))). unfold h at 1. lia. }
      assert (ND : NoDup (map h (seq 0 (Z.to_nat (o_size s))))).
      { destruct (Z.eq_dec (o_stride s) 0) as [Z0|Z0].
        - assert (S1 : o_size s < 2).
          { destruct (Z.lt_ge_cases (o_size s) 2) as [X|X]; [exact X|exfalso]. assert (X0 : in_slice r (Z.of_nat (List.length l)) 0 (o_start s)) by (apply IN; lia). assert (X1 : in_slice r (Z.of_nat (List.length l)) 1 (o_start s)) by (apply IN; lia). unfold in_slice in X0, X1. lia. }
          destruct (Z.to_nat (o_size s)) as [|[|q]] eqn:Q; [constructor|constructor; [intros []|constructor]|lia].
        - assert (X : forall q, (forall i, In i q -> In i (seq 0 (Z.to_nat (o_size s)))) -> NoDup q -> NoDup (map h q)); [|apply X; [auto|apply seq_NoDup]].
          induction q as [|i q IHq]; intros S ND; [constructor|]. inversion ND as [|? ? NI ND']; subst. cbn [map]. constructor; [|apply IHq; auto; intros k K; apply S; right; exact K].
          intros X. apply in_map_iff in X as (k & X & K). assert (i = k); [|subst; contradiction]. pose proof (S i (or_introl eq_refl)) as S1. pose proof (S k (or_intror K)) as S2. apply in_seq in S1, S2. pose proof (BD (Z.of_nat i) ltac:(lia)) as B1. pose proof (BD (Z.of_nat k) ltac:(lia)) as B2. unfold h in X. assert (X2 : Z.of_nat i * o_stride s = Z.of_nat k * o_stride s) by lia. apply Z.mul_reg_r in X2; lia. }
      pose proof (zsum_incl g _ P ND (seq 0 (List.length l))) as Q. assert (IC : incl (map h (seq 0 (Z.to_nat (o_size s)))) (seq 0 (List.length l))) by (intros x X; apply in_map_iff in X as (i & <- & X); apply in_seq; specialize (B i X); lia). specialize (Q IC).
      assert (Len : (List.length rl <= List.length l)%nat). { rewrite Ln. apply NoDup_incl_length in IC; auto. rewrite map_length, !seq_length in IC. exact IC. } lia.
Qed.

Lemma sli_ub_case r n : apply_single_linear_index r n <> NoFuel.
Proof.
  unfold apply_single_linear_index, single_index, pos_range, neg_range, pos_start, pos_end, neg_start, neg_end, idx_oob, rng_oob, add64, sub64, neg64, div64, chk64. intros H.
  repeat match type of H with context [if ?b then _ else _] => destruct b; cbn [bind] in H; try discriminate end.
Qed.
(** Rejections of the type stage. *)
Definition wild (idx : list irange) : Prop := exists r n, In r idx /\ 0 <= n < 2 ^ 63 /\ apply_single_linear_index r n = UB.
Lemma wild_cons r idx : wild idx -> wild (r :: idx).
Proof. intros (r' & n & I & H). exists r', n. split; [right; exact I|exact H]. Qed.
Lemma seq_out_throw {A} (l : list (outcome A)) z : seq_out l = Throw z -> In (Throw z) l.
Proof. induction l as [|y l IH]; cbn; [discriminate|]. destruct y; cbn; try discriminate; [|intros E; left; congruence]. destruct (seq_out l); cbn; try discriminate. intros E. right. apply IH. congruence. Qed.
Lemma seq_out_ub {A} (l : list (outcome A)) : seq_out l = UB -> In UB l.
Proof. induction l as [|y l IH]; cbn; [discriminate|]. destruct y; cbn; try discriminate; [|auto]. destruct (seq_out l); cbn; try discriminate. intros E. right. apply IH. reflexivity. Qed.
Lemma seq_out_nofuel {A} (l : list (outcome A)) : seq_out l = NoFuel -> In NoFuel l.
Proof. induction l as [|y l IH]; cbn; [discriminate|]. destruct y; cbn; try discriminate; [|auto]. destruct (seq_out l); cbn; try discriminate. intros E. right. apply IH. reflexivity. Qed.
Lemma type_ub idx : forall t lead, dims64 t -> (index_type idx t lead = UB -> wild idx) /\ index_type idx t lead <> NoFuel.
Proof.
  induction idx as [|r idx IH]; [intros t lead D; split; discriminate|]. induction t as [s0 al|s0 al de|e IHe|e IHe|e IHe|n e IHe|l _] using lt_ind'; intros lead D; try (split; discriminate); cbn [index_type dims64] in *.
  - destruct (IH e lead D) as (A1 & A2). destruct (IH e false D) as (B1 & B2). destruct (r_step r =? 0).
    + destruct lead; [split; [intros H; apply wild_cons; auto|exact A2]|]. destruct (index_type idx e false); cbn; split; try discriminate; try congruence. intros _. apply wild_cons; auto.
    + destruct (is_nop r); [|split; discriminate]. destruct (index_type idx e false); cbn; split; try discriminate; try congruence. intros _. apply wild_cons; auto.
  - assert (Q : (index_type (r :: idx) e lead = UB -> wild (r :: idx)) /\ index_type (r :: idx) e lead <> NoFuel) by exact (IHe lead D). destruct Q as (A1 & A2). change ((bind (index_type (r :: idx) e lead) (fun e' => Ok (Pointer e')) = UB -> wild (r :: idx)) /\ bind (index_type (r :: idx) e lead) (fun e' => Ok (Pointer e')) <> NoFuel). destruct (index_type (r :: idx) e lead); cbn [bind]; split; try discriminate; try congruence; auto.
  - destruct D as (N & D). pose proof (sli_ub_case r n) as NF. destruct (apply_single_linear_index r n) as [s| | |] eqn:Es; cbn [bind]; try (split; discriminate); try congruence.
    + destruct (IH e lead D) as (A1 & A2). destruct (IH e false D) as (B1 & B2). destruct (o_remove s); [split; [intros H; apply wild_cons; auto|exact A2]|]. destruct (index_type idx e false); cbn; split; try discriminate; try congruence. intros _. apply wild_cons; auto.
    + split; [|discriminate]. intros _. exists r, n. split; [left; reflexivity|auto].
  - destruct D as (N & D). pose proof (sli_ub_case r (Z.of_nat (List.length l))) as NF. destruct (apply_single_linear_index r _) as [s| | |] eqn:Es; cbn [bind]; try (split; discriminate); try congruence.
    + assert (Q : forall k lead, (index_type idx (nth k l (Builtin 0 1)) lead = UB -> wild idx) /\ index_type idx (nth k l (Builtin 0 1)) lead <> NoFuel).
      { intros k ld. destruct (Nat.lt_ge_cases k (List.length l)); [apply IH, (dims64_in l _ D), nth_In; auto|]. rewrite nth_overflow by auto. destruct idx; split; discriminate. }
      destruct (o_remove s); [destruct (Q (Z.to_nat (o_start s)) lead); split; [intros HU; apply wild_cons; auto|auto]|].
      destruct (seq_out _) as [rl| | |] eqn:So; cbn [bind]; try (split; discriminate).
      * split; [|discriminate]. intros _. apply seq_out_ub in So. apply in_map_iff in So as (i & E & _). destruct (Q (Z.to_nat (o_start s + Z.of_nat i * o_stride s)) false). apply wild_cons; auto.
      * exfalso. apply seq_out_nofuel in So. apply in_map_iff in So as (i & E & _). destruct (Q (Z.to_nat (o_start s + Z.of_nat i * o_stride s)) false). contradiction.
    + split; [|discriminate]. intros _. exists r, (Z.of_nat (List.length l)). split; [left; reflexivity|split; [lia|auto]].
Qed.
Definition OOB : string := "index_out_of_bounds".
Lemma sli_slice_no_oob r n : r_step r <> 0 -> apply_single_linear_index r n <> Throw OOB.
Proof.
  intros R. unfold OOB, apply_single_linear_index, pos_range, neg_range, pos_start, pos_end, neg_start, neg_end, rng_oob, add64, sub64, neg64, div64, chk64. destruct (Z.eqb_spec (r_step r) 0); [contradiction|]. intros H.
  repeat match type of H with context [if ?b then _ else _] => destruct b; cbn [bind] in H; try discriminate end.
Qed.
Lemma full_no_oob idx : Forall full idx -> forall t lead, index_type idx t lead <> Throw OOB.
Proof.
  induction 1 as [|r idx F FA IH]; [discriminate|]. assert (R : r_step r <> 0) by (destruct F as (_ & _ & ->); lia). apply nop_full in F. induction t as [s0 al|s0 al de|e IHe|e IHe|e IHe|n e IHe|l _] using lt_ind'; intros lead; try discriminate; cbn [index_type].
  - destruct (Z.eqb_spec (r_step r) 0); [contradiction|]. rewrite F. pose proof (IH e false). destruct (index_type idx e false); cbn; congruence.
  - match goal with |- bind ?x _ <> _ => change x with (index_type (r :: idx) e lead) end. pose proof (IHe lead). destruct (index_type (r :: idx) e lead); cbn [bind]; congruence.
  - pose proof (sli_slice_no_oob r n R). destruct (apply_single_linear_index r n) as [s| | |]; cbn [bind]; try congruence. pose proof (IH e false). pose proof (IH e lead). destruct (o_remove s); [auto|]. destruct (index_type idx e false); cbn; congruence.
  - pose proof (sli_slice_no_oob r (Z.of_nat (List.length l)) R). destruct (apply_single_linear_index r _) as [s| | |]; cbn [bind]; try congruence. destruct (o_remove s); [apply IH|]. destruct (seq_out _) as [|z| |] eqn:So; cbn; try congruence. intros E. injection E as ->. apply seq_out_throw in So. apply in_map_iff in So as (i & E & _). eapply IH. exact E.
Qed.
Lemma type_oob idx m dm : Forall idx64 idx -> forall t lead a d, dims64 t -> supported idx t lead -> index_type idx t lead = Throw OOB -> forall p' p, ~ selects m dm t a d idx p' p.
Proof.
  induction 1 as [|r idx I FA IH]; [discriminate|]. induction t as [s0 al|s0 al de|e IHe|e IHe|e IHe|n e IHe|l _] using lt_ind'; intros lead a d D S E p' p Sel; try discriminate.
  - cbn [index_type supported dims64] in *. assert (X : exists ld, supported idx e ld /\ index_type idx e ld = Throw OOB).
    { destruct (Z.eqb_spec (r_step r) 0).
      - destruct S as (-> & S). eauto.
      - destruct (is_nop r); [|discriminate]. exists false. split; [exact S|]. destruct (index_type idx e false); cbn in E; congruence. }
    destruct X as (ld & S' & E'). inversion Sel as [|? ? ? ? ? n0 i0 e0 b0 c0 ? q D0 R0 A0 I0 S0|? ? ? ? ? n0 j i e0 b c q' q D0 R0 A0 I0 S0]; subst; cbn [item] in I0; destruct (_ && _); try discriminate; injection I0 as <- <- <-; eapply IH; eauto.
  - change (bind (index_type (r :: idx) e lead) (fun e' => Ok (Pointer e')) = Throw OOB) in E. change (supported (r :: idx) e false) in S. change (dims64 e) in D.
    assert (L : index_type (r :: idx) e lead = index_type (r :: idx) e false) by (destruct lead; [apply lead_type; auto|reflexivity]). rewrite L in E.
    assert (E' : index_type (r :: idx) e false = Throw OOB) by (destruct (index_type (r :: idx) e false); cbn [bind] in E; congruence).
    apply (IHe false (a + 16) (dm d + m (a + 8)) D S E' p' p). inversion Sel as [|? ? ? ? ? n0 i0 e0 b0 c0 ? q D0 R0 A0 I0 S0|? ? ? ? ? n0 j i e0 b c q' q D0 R0 A0 I0 S0]; subst; [eapply sel_index; eauto|eapply sel_slice; eauto].
  - cbn [index_type supported dims64] in *. destruct D as (N & D). destruct (apply_single_linear_index r n) as [s|z| |] eqn:Es; cbn [bind] in E; try discriminate.
    + assert (X : exists ld, supported idx e ld /\ index_type idx e ld = Throw OOB).
      { destruct (Z.eqb_spec (r_step r) 0) as [R|R].
        - destruct (sli_index r n s N I R Es) as (Rm & _). rewrite Rm in E. eauto.
        - destruct (sli_slice r n s N I R Es) as (Rm & _). rewrite Rm in E. exists false. split; [exact S|]. destruct (index_type idx e false); cbn in E; congruence. }
      destruct X as (ld & S' & E'). inversion Sel as [|? ? ? ? ? n0 i0 e0 b0 c0 ? q D0 R0 A0 I0 S0|? ? ? ? ? n0 j i e0 b c q' q D0 R0 A0 I0 S0]; subst; cbn [item] in I0; destruct (_ && _); try discriminate; injection I0 as <- <- <-; eapply IH; eauto.
    + destruct (Z.eqb_spec (r_step r) 0) as [R|R]; [|exfalso; eapply (sli_slice_no_oob r n R); congruence].
      inversion Sel as [|? ? ? ? ? n0 i0 e0 b0 c0 ? q D0 R0 A0 I0 S0|]; subst; [|contradiction]. cbn [dim_of] in D0. injection D0 as <-. destruct (sli_index_ok r _ _ N I R A0) as (s1 & E1 & _). congruence.
  - cbn [index_type supported dims64] in *. destruct D as (N & D). assert (N0 : 0 <= Z.of_nat (List.length l) < 2 ^ 63) by lia. destruct (Z.eqb_spec (r_step r) 0) as [R|R].
    + inversion Sel as [|? ? ? ? ? n0 i0 e0 b0 c0 ? q D0 R0 A0 I0 S0|]; subst; [|contradiction]. cbn [dim_of] in D0. injection D0 as <-. destruct (sli_index_ok r _ _ N0 I R A0) as (s & Es & Rm & <-). rewrite Es in E. cbn [bind] in E. rewrite Rm in E.
      cbn [item] in I0. destruct (Z.leb_spec 0 (o_start s)); [|discriminate]. destruct (nth_error l (Z.to_nat (o_start s))) as [f|] eqn:Nf; [|discriminate]. destruct (nth_error (arrmeta_offsets l) _); [|discriminate]. injection I0 as <- <- <-. rewrite (nth_error_nth _ _ _ Nf) in E.
      eapply (IH f lead); eauto. apply (dims64_in l); auto. eapply nth_error_In; eauto.
    + destruct S as (FU & S). destruct (apply_single_linear_index r _) as [s|z| |] eqn:Es; cbn [bind] in E; try discriminate; [|eapply (sli_slice_no_oob r _ R); rewrite Es; congruence].
      destruct (sli_slice r _ s N0 I R Es) as (Rm & _). rewrite Rm in E. destruct (seq_out _) as [|z| |] eqn:So; cbn in E; try discriminate. injection E as ->. apply seq_out_throw in So. apply in_map_iff in So as (i & E & _). eapply (full_no_oob idx FU); exact E.
Qed.
