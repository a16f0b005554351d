(* Proofs about broadcasting shapes and exact comparison. *)
From Verif Require Import Base ShapeToolsModel IterModel IterSpec IterProofs.
Local Open Scope Z_scope.

(* ---- extents ---- *)

Lemma extent_app pre suf k :
  extent (pre ++ suf) k = if (k <? List.length suf)%nat then extent suf k else extent pre (k - List.length suf).
Proof.
  unfold extent; rewrite rev_app_distr.
  destruct (Nat.ltb_spec k (List.length suf)).
  - apply app_nth1; rewrite rev_length; assumption.
  - rewrite app_nth2 by (rewrite rev_length; assumption); rewrite rev_length; reflexivity.
Qed.

Lemma extent_in l k : (k < List.length l)%nat -> extent l k = nth (List.length l - Datatypes.S k) l 1.
Proof. intros H; unfold extent; apply rev_nth; exact H. Qed.

Lemma extent_out l k : (List.length l <= k)%nat -> extent l k = 1.
Proof. intros H; unfold extent; apply nth_overflow; rewrite rev_length; exact H. Qed.

Lemma extent_ext l m : List.length l = List.length m -> (forall k, extent l k = extent m k) -> l = m.
Proof.
  intros HL H; rewrite <- (rev_involutive l), <- (rev_involutive m); f_equal.
  apply (nth_ext _ _ 1 1); [ rewrite !rev_length; exact HL | intros k _; apply H ].
Qed.

(* ---- a loop over the dimensions of one operand, right aligned ---- *)
Section Zip.
  Variable f : Z -> Z -> outcome Z.
  Hypothesis f_one : forall n, f n 1 = Ok n.
  Hypothesis f_ok : forall n m, (exists r, f n m = Ok r) \/ f n m = Throw "broadcast_error".
  Variable g : list Z -> list Z -> outcome (list Z).
  Hypothesis g_nil : forall l, g l [] = Ok l.
  Hypothesis g_nil' : forall l, g [] l = Ok [].
  Hypothesis g_cons : forall n l m ms, g (n :: l) (m :: ms) = (do r <- f n m; do rs <- g l ms; Ok (r :: rs)).

  Lemma zip_spec l m :
    List.length l = List.length m ->
    match g l m with
    | Ok r => List.length r = List.length l /\
              forall k, (k < List.length l)%nat -> f (extent l k) (extent m k) = Ok (extent r k)
    | Throw e => e = "broadcast_error"%string /\
                 exists k, (k < List.length l)%nat /\ f (extent l k) (extent m k) = Throw "broadcast_error"
    | _ => False
    end.
  Proof.
    revert m; induction l as [ | n l IH ]; intros [ | x m ] HL; try discriminate HL.
    - rewrite g_nil; split; [ reflexivity | intros k Hk; cbn in Hk; lia ].
    - injection HL as HL; rewrite g_cons.
      pose proof (IH m HL) as H.
      destruct (f_ok n x) as [ (r & E) | E ]; rewrite E; cbn [bind].
      + destruct (g l m) as [ rs | e | | ]; cbn [bind]; try exact H.
        * destruct H as (HR & HK); split; [ cbn; f_equal; exact HR | ].
          intros k Hk; cbn [List.length] in Hk.
          rewrite (extent_app [n] l), (extent_app [x] m), (extent_app [r] rs).
          rewrite <- HL, HR.
          destruct (Nat.ltb_spec k (List.length l)); [ apply HK; assumption | ].
          replace (k - List.length l)%nat with O by lia; exact E.
        * destruct H as (-> & k & Hk & HE); split; [ reflexivity | exists k ].
          split; [ cbn; lia | ].
          rewrite (extent_app [n] l), (extent_app [x] m), <- HL.
          destruct (Nat.ltb_spec k (List.length l)); [ exact HE | lia ].
      + split; [ reflexivity | exists (List.length l) ].
        split; [ cbn; lia | ].
        rewrite (extent_app [n] l), (extent_app [x] m), <- HL.
        destruct (Nat.ltb_spec (List.length l) (List.length l)); [ lia | ].
        rewrite Nat.sub_diag; exact E.
  Qed.

  Lemma align_spec shape sizes :
    (List.length sizes <= List.length shape)%nat ->
    let d := (List.length shape - List.length sizes)%nat in
    match (do r <- g (skipn d shape) sizes; Ok (firstn d shape ++ r)) with
    | Ok r => List.length r = List.length shape /\
              forall k, f (extent shape k) (extent sizes k) = Ok (extent r k)
    | Throw e => e = "broadcast_error"%string /\
                 exists k, (k < List.length sizes)%nat /\ f (extent shape k) (extent sizes k) = Throw "broadcast_error"
    | _ => False
    end.
  Proof.
    intros HL d.
    assert (Ls : List.length (skipn d shape) = List.length sizes) by (rewrite skipn_length; unfold d; lia).
    assert (Lf : List.length (firstn d shape) = d) by (rewrite firstn_length; unfold d; lia).
    pose proof (zip_spec (skipn d shape) sizes Ls) as H.
    assert (HX : forall k, extent shape k = if (k <? List.length sizes)%nat then extent (skipn d shape) k
                                           else extent (firstn d shape) (k - List.length sizes)).
    { intros k; rewrite <- (firstn_skipn d shape) at 1; rewrite extent_app, Ls; reflexivity. }
    destruct (g (skipn d shape) sizes) as [ r | e | | ]; cbn [bind]; try exact H.
    - destruct H as (HR & HK); split; [ rewrite app_length, HR, Ls, Lf; unfold d; lia | ].
      intros k; rewrite HX, extent_app, HR, Ls.
      destruct (Nat.ltb_spec k (List.length sizes)) as [ B | B ].
      + apply HK; rewrite Ls; exact B.
      + rewrite (extent_out sizes k B); apply f_one.
    - destruct H as (-> & k & Hk & HE); split; [ reflexivity | exists k ].
      rewrite Ls in Hk; split; [ exact Hk | ].
      rewrite HX; destruct (Nat.ltb_spec k (List.length sizes)); [ exact HE | lia ].
  Qed.
End Zip.

(* ---- broadcast_input_shapes on known extents ---- *)
Lemma bc_step_one n : bc_step n 1 = Ok n.
Proof.
  unfold bc_step; destruct (Z.eqb_spec n 1); [ subst; reflexivity | ].
  cbn [Z.ltb Z.eqb negb andb Z.compare Pos.compare Pos.compare_cont].
  destruct (Z.leb_spec 0 n); cbn; [ reflexivity | ].
  destruct (Z.eqb_spec n (-1)); cbn; [ subst; reflexivity | reflexivity ].
Qed.

Lemma bc_step_ok n m : (exists r, bc_step n m = Ok r) \/ bc_step n m = Throw "broadcast_error".
Proof.
  unfold bc_step.
  repeat match goal with |- context [ if ?b then _ else _ ] => destruct b end; try (right; reflexivity);
    left; eexists; reflexivity.
Qed.

Lemma bc_operand_spec shape sizes :
  (List.length sizes <= List.length shape)%nat ->
  match bc_operand shape sizes with
  | Ok r => List.length r = List.length shape /\
            forall k, bc_step (extent shape k) (extent sizes k) = Ok (extent r k)
  | Throw e => e = "broadcast_error"%string /\
               exists k, (k < List.length sizes)%nat /\ bc_step (extent shape k) (extent sizes k) = Throw "broadcast_error"
  | _ => False
  end.
Proof.
  intros L; apply (align_spec bc_step bc_step_one bc_step_ok bc_dims); [ | | | exact L ].
  - intros [ | ? ? ]; reflexivity.
  - reflexivity.
  - reflexivity.
Qed.

Lemma common_extent_step es n m r :
  0 <= n -> 0 <= m -> common_extent es n -> bc_step n m = Ok r -> 0 <= r /\ common_extent (es ++ [m]) r.
Proof.
  intros Hn Hm (HI & HF) H; unfold bc_step in H.
  assert (W : Forall (fun x => x = 1 \/ x = n) (es ++ [m]) -> common_extent (es ++ [m]) n).
  { intros F; split; [ | exact F ]. destruct HI as [ HI | HI ]; [ left; apply in_or_app; left; exact HI | right; exact HI ]. }
  destruct (Z.eqb_spec n 1) as [ -> | N1 ].
  - injection H as <-; split; [ exact Hm | split ].
    + left; apply in_or_app; right; left; reflexivity.
    + apply Forall_app; split; [ | constructor; [ right; reflexivity | constructor ] ].
      eapply Forall_impl; [ | exact HF ]; cbn; intros a [ ? | ? ]; left; assumption.
  - destruct (Z.ltb_spec m 0); [ lia | ].
    destruct (Z.leb_spec 0 n); [ | lia ].
    destruct (Z.eqb_spec m 1) as [ -> | M1 ]; cbn [negb andb] in H.
    + injection H as <-; split; [ exact Hn | apply W ].
      apply Forall_app; split; [ exact HF | repeat constructor ].
    + destruct (Z.eqb_spec n m) as [ -> | NM ]; cbn [negb] in H; [ | discriminate H ].
      injection H as <-; split; [ exact Hn | apply W ].
      apply Forall_app; split; [ exact HF | constructor; [ right; reflexivity | constructor ] ].
Qed.

Lemma common_extent_throw es n m rest r :
  0 <= n -> 0 <= m -> common_extent es n -> bc_step n m = Throw "broadcast_error" ->
  ~ common_extent (es ++ m :: rest) r.
Proof.
  intros Hn Hm (HI & HF) H (_ & HG); unfold bc_step in H.
  destruct (Z.eqb_spec n 1) as [ -> | N1 ]; [ discriminate H | ].
  destruct (Z.ltb_spec m 0); [ lia | ].
  destruct (Z.leb_spec 0 n); [ | lia ].
  destruct (Z.eqb_spec m 1) as [ -> | M1 ]; cbn [negb andb] in H; [ discriminate H | ].
  destruct (Z.eqb_spec n m) as [ -> | NM ]; cbn [negb] in H; [ discriminate H | ].
  rewrite Forall_forall in HG.
  destruct HI as [ HI | HI ]; [ | lia ].
  pose proof (HG n (in_or_app _ _ _ (or_introl HI))) as G1.
  pose proof (HG m (in_elt m es rest)) as G2.
  lia.
Qed.

Lemma common_extent_unique es n m : common_extent es n -> common_extent es m -> n = m.
Proof.
  intros (HI & HF) (HJ & HG); rewrite Forall_forall in HF, HG.
  destruct HI as [ HI | -> ]; [ specialize (HG _ HI) | ];
    (destruct HJ as [ HJ | -> ]; [ specialize (HF _ HJ) | ]); lia.
Qed.

Definition nonneg (s : list Z) : Prop := Forall (fun n => 0 <= n) s.

Lemma extent_nonneg s k : nonneg s -> 0 <= extent s k.
Proof.
  intros H; destruct (Nat.lt_ge_cases k (List.length s)) as [ L | L ].
  - rewrite extent_in by exact L.
    unfold nonneg in H; rewrite Forall_forall in H; apply H, nth_In; lia.
  - rewrite extent_out by exact L; lia.
Qed.

Lemma bc_operands_spec shapes : forall shape done,
  Forall nonneg shapes ->
  Forall (fun s => (List.length s <= List.length shape)%nat) shapes ->
  (forall k, 0 <= extent shape k) ->
  (forall k, common_extent (map (fun s => extent s k) done) (extent shape k)) ->
  match bc_operands shape shapes with
  | Ok r => List.length r = List.length shape /\
            forall k, common_extent (map (fun s => extent s k) (done ++ shapes)) (extent r k)
  | Throw e => e = "broadcast_error"%string /\
               exists k, forall n, ~ common_extent (map (fun s => extent s k) (done ++ shapes)) n
  | _ => False
  end.
Proof.
  induction shapes as [ | s shapes IH ]; intros shape done HN HL HP HC; cbn [bc_operands].
  - rewrite app_nil_r; split; [ reflexivity | exact HC ].
  - inversion HN as [ | ? ? Hs HN' ]; inversion HL as [ | ? ? Ls HL' ]; subst.
    pose proof (bc_operand_spec shape s Ls) as H.
    destruct (bc_operand shape s) as [ r | e | | ]; cbn [bind]; try contradiction.
    + destruct H as (HR & HK).
      assert (HX : forall k, 0 <= extent r k /\ common_extent (map (fun t => extent t k) (done ++ [s])) (extent r k)).
      { intros k; rewrite map_app; cbn [map].
        apply (common_extent_step _ (extent shape k) (extent s k)); [ apply HP | apply extent_nonneg; exact Hs | apply HC | apply HK ]. }
      specialize (IH r (done ++ [s]) HN').
      rewrite HR in IH.
      specialize (IH HL' (fun k => proj1 (HX k)) (fun k => proj2 (HX k))).
      rewrite <- app_assoc in IH; exact IH.
    + destruct H as (-> & k & Hk & HE); split; [ reflexivity | exists k; intros n ].
      rewrite map_app; cbn [map].
      apply (common_extent_throw _ (extent shape k)); [ apply HP | apply extent_nonneg; exact Hs | apply HC | exact HE ].
Qed.

Lemma fold_max_spec shapes : forall u,
  let m := fold_left (fun u (s : list Z) => Nat.max u (List.length s)) shapes u in
  (u <= m)%nat /\ Forall (fun s => (List.length s <= m)%nat) shapes /\
  (m = u \/ exists s, In s shapes /\ List.length s = m).
Proof.
  induction shapes as [ | s shapes IH ]; intros u; cbn [fold_left].
  - split; [ lia | split; [ constructor | left; reflexivity ] ].
  - destruct (IH (Nat.max u (List.length s))) as (H1 & H2 & H3).
    split; [ lia | split; [ constructor; [ lia | exact H2 ] | ] ].
    destruct H3 as [ H3 | (t & Ht & E) ].
    + destruct (Nat.max_spec u (List.length s)) as [ (_ & E) | (_ & E) ].
      * right; exists s; split; [ left; reflexivity | lia ].
      * left; lia.
    + right; exists t; split; [ right; exact Ht | exact E ].
Qed.

Lemma extent_ones n k : extent (repeat 1 n) k = 1.
Proof.
  unfold extent; rewrite rev_repeat.
  destruct (Nat.lt_ge_cases k n) as [ L | L ].
  - apply nth_repeat.
  - apply nth_overflow; rewrite repeat_length; exact L.
Qed.

Theorem broadcast_input_shapes_spec shapes :
  Forall nonneg shapes ->
  (forall r, broadcast_input_shapes shapes = Ok r <-> broadcasts_to shapes r) /\
  ((exists r, broadcast_input_shapes shapes = Ok r) \/
   broadcast_input_shapes shapes = Throw "broadcast_error" /\ forall r, ~ broadcasts_to shapes r).
Proof.
  intros HN; unfold broadcast_input_shapes.
  set (u := fold_left (fun u (s : list Z) => Nat.max u (List.length s)) shapes O).
  destruct (fold_max_spec shapes O) as (_ & HL & HM); fold u in HL, HM.
  pose proof (bc_operands_spec shapes (repeat 1 u) [] HN) as H.
  rewrite repeat_length in H.
  specialize (H HL).
  assert (P1 : forall k, 0 <= extent (repeat 1 u) k) by (intros k; rewrite extent_ones; lia).
  assert (P2 : forall k, common_extent (map (fun s => extent s k) []) (extent (repeat 1 u) k)).
  { intros k; rewrite extent_ones; split; [ right; reflexivity | constructor ]. }
  specialize (H P1 P2); cbn [app] in H.
  assert (LEN : forall r, broadcasts_to shapes r -> List.length r = u).
  { intros r (B1 & (s & Hs & Es) & _).
    rewrite Forall_forall in B1, HL.
    assert (List.length r <= u)%nat by (destruct Hs as [ Hs | -> ]; [ rewrite <- Es; apply HL; exact Hs | cbn in Es; lia ]).
    destruct HM as [ HM | (t & Ht & Et) ]; [ lia | specialize (B1 t Ht); lia ]. }
  destruct (bc_operands (repeat 1 u) shapes) as [ r | e | | ]; try contradiction.
  - destruct H as (HR & HK).
    assert (B : broadcasts_to shapes r).
    { split; [ rewrite HR; exact HL | split; [ | exact HK ] ].
      destruct HM as [ HM | (t & Ht & Et) ].
      - exists []; split; [ right; reflexivity | cbn; lia ].
      - exists t; split; [ left; exact Ht | lia ]. }
    split; [ | left; exists r; reflexivity ].
    intros q; split; [ intros E; injection E as <-; exact B | ].
    intros Q; f_equal; apply extent_ext; [ rewrite HR; symmetry; apply LEN; exact Q | ].
    intros k; eapply common_extent_unique; [ apply HK | apply Q ].
  - destruct H as (-> & k & HE).
    assert (NB : forall r, ~ broadcasts_to shapes r) by (intros r (_ & _ & B); exact (HE _ (B k))).
    split; [ | right; split; [ reflexivity | exact NB ] ].
    intros r; split; [ discriminate | intros Q; exfalso; exact (NB r Q) ].
Qed.

Lemma broadcasts_nonneg shapes r : Forall nonneg shapes -> broadcasts_to shapes r -> nonneg r.
Proof.
  intros HN (_ & _ & HK); apply Forall_forall; intros x Hx.
  apply In_nth with (d := 1) in Hx as (i & Hi & E).
  specialize (HK (List.length r - Datatypes.S i)%nat).
  rewrite extent_in in HK by lia.
  replace (List.length r - Datatypes.S (List.length r - Datatypes.S i))%nat with i in HK by lia.
  rewrite E in HK; destruct HK as ([ HI | -> ] & _); [ | lia ].
  apply in_map_iff in HI as (s & <- & Hs).
  rewrite Forall_forall in HN; apply extent_nonneg, HN; exact Hs.
Qed.

(* ---- incremental_broadcast ---- *)
Definition ib_step (o n : Z) : outcome Z :=
  if negb (n =? 1) then
    if n =? -1 then Ok (if o =? 1 then -1 else o)
    else if (o =? 1) || (o =? -1) then Ok n
    else if negb (n =? o) then Throw "broadcast_error" else Ok o
  else Ok o.

Lemma ib_step_ok n m : (exists r, ib_step n m = Ok r) \/ ib_step n m = Throw "broadcast_error".
Proof.
  unfold ib_step.
  repeat match goal with |- context [ negb ?b ] => destruct b; cbn [negb] end;
  repeat match goal with |- context [ if ?b then _ else _ ] => destruct b end; try (right; reflexivity);
    left; eexists; reflexivity.
Qed.

Lemma incremental_broadcast_spec out shape :
  match incremental_broadcast out shape with
  | Ok r => (List.length shape <= List.length out)%nat /\ List.length r = List.length out /\
            forall k, ib_step (extent out k) (extent shape k) = Ok (extent r k)
  | Throw e => e = "broadcast_error"%string /\
               ((List.length out < List.length shape)%nat \/
                exists k, ib_step (extent out k) (extent shape k) = Throw "broadcast_error")
  | _ => False
  end.
Proof.
  unfold incremental_broadcast.
  destruct (Nat.ltb_spec (List.length out) (List.length shape)) as [ L | L ];
    [ split; [ reflexivity | left; exact L ] | ].
  pose proof (align_spec ib_step (fun n => eq_refl) ib_step_ok ib_dims) as H.
  assert (G1 : forall l, ib_dims l [] = Ok l) by (intros [ | ? ? ]; reflexivity).
  assert (G2 : forall n l m ms, ib_dims (n :: l) (m :: ms) = (do r <- ib_step n m; do rs <- ib_dims l ms; Ok (r :: rs)))
    by reflexivity.
  specialize (H G1 (fun _ => eq_refl) G2 out shape L).
  cbv zeta in H.
  destruct (do r <- ib_dims (skipn (List.length out - List.length shape) out) shape; Ok (firstn (List.length out - List.length shape) out ++ r)) as [ r | e | | ]; try exact H.
  - split; [ exact L | exact H ].
  - destruct H as (-> & k & _ & E); split; [ reflexivity | right; exists k; exact E ].
Qed.

Lemma merged_step es n m r :
  merged_extent es n -> ib_step n m = Ok r -> merged_extent (es ++ [m]) r.
Proof.
  intros (HF & HI & HA) H; unfold ib_step in H.
  assert (KEEP : m = 1 \/ m = -1 \/ m = n -> (n = 1 -> m = 1) -> merged_extent (es ++ [m]) n).
  { intros Hm H1; split; [ apply Forall_app; split; [ exact HF | constructor; [ exact Hm | constructor ] ] | split ].
    - intros N; apply in_or_app; left; apply HI; exact N.
    - intros N; apply Forall_app; split; [ apply HA; exact N | constructor; [ apply H1; exact N | constructor ] ]. }
  assert (NEW : n = 1 \/ n = -1 -> m <> 1 -> (m = -1 -> n = 1) -> merged_extent (es ++ [m]) m).
  { intros Hn M H1; split; [ | split ].
    - apply Forall_app; split; [ | constructor; [ right; right; reflexivity | constructor ] ].
      eapply Forall_impl; [ | exact HF ]; cbn; intros a; lia.
    - intros _; apply in_or_app; right; left; reflexivity.
    - intros C; contradiction. }
  destruct (Z.eqb_spec m 1) as [ -> | M ]; cbn [negb] in H.
  { injection H as <-; apply KEEP; [ left; reflexivity | reflexivity ]. }
  destruct (Z.eqb_spec m (-1)) as [ -> | M' ].
  { destruct (Z.eqb_spec n 1) as [ -> | N ]; injection H as <-.
    - apply NEW; lia.
    - apply KEEP; [ lia | lia ]. }
  destruct (Z.eqb_spec n 1) as [ -> | N ]; cbn [orb] in H.
  { injection H as <-; apply NEW; lia. }
  destruct (Z.eqb_spec n (-1)) as [ -> | N' ].
  { injection H as <-; apply NEW; lia. }
  destruct (Z.eqb_spec m n) as [ -> | MN ]; cbn [negb] in H; [ | discriminate H ].
  injection H as <-; apply KEEP; [ lia | lia ].
Qed.

Lemma merged_throw es n m rest r :
  merged_extent es n -> ib_step n m = Throw "broadcast_error" -> ~ merged_extent (es ++ m :: rest) r.
Proof.
  intros (HF & HI & HA) H (HG & _); unfold ib_step in H.
  destruct (Z.eqb_spec m 1); cbn [negb] in H; [ discriminate H | ].
  destruct (Z.eqb_spec m (-1)); [ discriminate H | ].
  destruct (Z.eqb_spec n 1); cbn [orb] in H; [ discriminate H | ].
  destruct (Z.eqb_spec n (-1)); [ discriminate H | ].
  destruct (Z.eqb_spec m n); cbn [negb] in H; [ discriminate H | ].
  rewrite Forall_forall in HG.
  pose proof (HG n (in_or_app _ _ _ (or_introl (HI ltac:(assumption))))) as G1.
  pose proof (HG m (in_elt m es rest)) as G2.
  lia.
Qed.

Lemma merged_unique es n m : merged_extent es n -> merged_extent es m -> n = m.
Proof.
  intros (HF & HI & HA) (HG & HJ & HB).
  rewrite Forall_forall in HF, HG.
  destruct (Z.eq_dec n 1) as [ -> | N ].
  - destruct (Z.eq_dec m 1) as [ -> | M ]; [ reflexivity | exfalso ].
    specialize (HJ M); specialize (HA eq_refl); rewrite Forall_forall in HA; specialize (HA _ HJ); lia.
  - specialize (HI N).
    destruct (Z.eq_dec m 1) as [ -> | M ].
    + specialize (HB eq_refl); rewrite Forall_forall in HB; specialize (HB _ HI); lia.
    + specialize (HJ M); specialize (HF _ HJ); specialize (HG _ HI); lia.
Qed.

(* folding operand after operand, as the users of the function do *)
Fixpoint incremental_all (out : list Z) (shapes : list (list Z)) : outcome (list Z) :=
  match shapes with
  | [] => Ok out
  | s :: rest => do out' <- incremental_broadcast out s; incremental_all out' rest
  end.

Lemma incremental_all_spec shapes : forall out done,
  (forall k, merged_extent (map (fun s => extent s k) done) (extent out k)) ->
  match incremental_all out shapes with
  | Ok r => Forall (fun s => (List.length s <= List.length out)%nat) shapes /\ List.length r = List.length out /\
            forall k, merged_extent (map (fun s => extent s k) (done ++ shapes)) (extent r k)
  | Throw e => e = "broadcast_error"%string /\
               (~ Forall (fun s => (List.length s <= List.length out)%nat) shapes \/
                exists k, forall n, ~ merged_extent (map (fun s => extent s k) (done ++ shapes)) n)
  | _ => False
  end.
Proof.
  induction shapes as [ | s shapes IH ]; intros out done HC; cbn [incremental_all].
  - rewrite app_nil_r; repeat split; [ constructor | apply HC | apply HC | apply HC ].
  - pose proof (incremental_broadcast_spec out s) as H.
    destruct (incremental_broadcast out s) as [ r | e | | ]; cbn [bind]; try contradiction.
    + destruct H as (HL & HR & HK).
      specialize (IH r (done ++ [s])).
      rewrite <- app_assoc in IH; cbn [app] in IH; rewrite HR in IH.
      assert (P : forall k, merged_extent (map (fun s => extent s k) (done ++ [s])) (extent r k)).
      { intros k; rewrite map_app; cbn [map]; eapply merged_step; [ apply HC | apply HK ]. }
      specialize (IH P).
      destruct (incremental_all r shapes) as [ q | e | | ]; try exact IH.
      * destruct IH as (I1 & I2 & I3); split; [ constructor; assumption | split; [ exact I2 | exact I3 ] ].
      * destruct IH as (-> & [ I | I ]); (split; [ reflexivity | ]); [ left | right; exact I ].
        intros F; inversion F; contradiction.
    + destruct H as (-> & [ L | (k & E) ]); (split; [ reflexivity | ]).
      * left; intros F; inversion F; lia.
      * right; exists k; intros n; rewrite map_app; cbn [map].
        eapply merged_throw; [ apply HC | exact E ].
Qed.

(* ---- broadcast_to_shape ---- *)
Lemma bts_spec dst src strides :
  List.length dst = List.length src -> List.length strides = List.length src ->
  match bts_dims dst src strides with
  | Ok r => sc_loop dst src = true /\ List.length r = List.length src /\
            forall idx, List.length idx = List.length src -> dot idx r = dot (squeeze src idx) strides
  | Throw e => e = "broadcast_error"%string /\ sc_loop dst src = false
  | _ => False
  end.
Proof.
  revert src strides; induction dst as [ | d dst IH ]; intros [ | n src ] [ | s strides ] H1 H2;
    try discriminate H1; try discriminate H2.
  - cbn; split; [ reflexivity | split; [ reflexivity | ] ]. intros [ | ? ? ] ?; reflexivity.
  - injection H1 as H1; injection H2 as H2; specialize (IH src strides H1 H2).
    cbn [bts_dims sc_loop].
    destruct (Z.eqb_spec n 1) as [ -> | N ]; cbn [negb andb].
    + destruct (bts_dims dst src strides) as [ r | e | | ]; cbn [bind]; try exact IH.
      destruct IH as (A & B & C); split; [ exact A | split; [ cbn; f_equal; exact B | ] ].
      intros [ | i idx ] Hi; [ discriminate Hi | ]; injection Hi as Hi.
      cbn [dot squeeze]; rewrite (C idx Hi); cbn; lia.
    + destruct (Z.eqb_spec n d) as [ -> | D ]; cbn [negb].
      * destruct (bts_dims dst src strides) as [ r | e | | ]; cbn [bind]; try exact IH.
        destruct IH as (A & B & C); split; [ exact A | split; [ cbn; f_equal; exact B | ] ].
        intros [ | i idx ] Hi; [ discriminate Hi | ]; injection Hi as Hi.
        cbn [dot squeeze]; rewrite (C idx Hi); rewrite (proj2 (Z.eqb_neq _ _) N); cbn [dot]; lia.
      * split; reflexivity.
Qed.

Lemma dot_zeros_app d idx r : (d <= List.length idx)%nat -> dot idx (zeros d ++ r) = dot (skipn d idx) r.
Proof.
  revert idx; induction d as [ | d IH ]; intros idx H; [ reflexivity | ].
  destruct idx as [ | i idx ]; [ cbn in H; lia | ].
  unfold zeros; cbn [repeat app dot skipn]; fold (zeros d); rewrite IH by (cbn in H; lia); lia.
Qed.

Theorem broadcast_to_shape_spec dst src strides :
  List.length strides = List.length src ->
  match broadcast_to_shape dst src strides with
  | Ok r => shape_can_broadcast dst src = true /\ List.length r = List.length dst /\
            forall base idx, List.length idx = List.length dst ->
              address base r idx = address base strides (bindex src idx)
  | Throw e => e = "broadcast_error"%string /\ shape_can_broadcast dst src = false
  | _ => False
  end.
Proof.
  intros HS; unfold broadcast_to_shape, shape_can_broadcast.
  destruct (Nat.ltb_spec (List.length dst) (List.length src)) as [ L | L ];
    (destruct (Nat.leb_spec (List.length src) (List.length dst)) as [ L' | L' ]; [ | ]); try lia; [ split; reflexivity | ].
  assert (Ld : List.length (skipn (List.length dst - List.length src) dst) = List.length src) by (rewrite skipn_length; lia).
  pose proof (bts_spec _ src strides Ld HS) as H.
  destruct (bts_dims (skipn (List.length dst - List.length src) dst) src strides) as [ r | e | | ]; cbn [bind]; try exact H.
  destruct H as (A & B & C); split; [ exact A | split ].
  - rewrite app_length, B; unfold zeros; rewrite repeat_length; lia.
  - intros base idx Hi; unfold address, bindex, right_align; f_equal.
    rewrite dot_zeros_app by lia.
    rewrite Hi; apply C; rewrite skipn_length; lia.
Qed.

(* ---- equals_exact ---- *)

(* the shape and the addresses of the elements of an array *)
Definition real_shape (a : arr) : list Z :=
  match op_dims (a_op a) with DV :: ds => a_vsize a :: shape_of ds | ds => shape_of ds end.
Definition elem_addr (a : arr) (idx : list Z) : Z :=
  match op_dims (a_op a) with
  | DV :: ds => address (a_vbegin a) (a_vstride a :: strides_of ds) idx
  | ds => address (op_base (a_op a)) (strides_of ds) idx
  end.

Lemma list_eqb_refl l : list_eqb l l = true.
Proof. induction l as [ | x l IH ]; [ reflexivity | cbn; rewrite Z.eqb_refl, IH; reflexivity ]. Qed.
Lemma list_eqb_eq l m : list_eqb l m = true -> l = m.
Proof.
  revert m; induction l as [ | x l IH ]; intros [ | y m ] H; try discriminate H; [ reflexivity | ].
  cbn in H; apply andb_true_iff in H as (H1 & H2); f_equal; [ apply Z.eqb_eq; exact H1 | apply IH; exact H2 ].
Qed.

Lemma dims_eqb_shape xs ys : dims_eqb xs ys = true -> shape_of xs = shape_of ys.
Proof.
  revert ys; induction xs as [ | x xs IH ]; intros [ | y ys ] H; try discriminate H; [ reflexivity | ].
  cbn in H; apply andb_true_iff in H as (H1 & H2); cbn; f_equal; [ | apply IH; exact H2 ].
  destruct x, y; cbn in *; try discriminate H1; [ apply Z.eqb_eq; exact H1 | reflexivity ].
Qed.
Lemma dims_eqb_len xs ys : dims_eqb xs ys = true -> List.length xs = List.length ys.
Proof. intros H; apply dims_eqb_shape in H; unfold shape_of in H; rewrite <- (map_length dsize xs), H, map_length; reflexivity. Qed.

Lemma bis_same sh : nonneg sh -> broadcast_input_shapes [sh; sh] = Ok sh.
Proof.
  intros H; apply (proj1 (broadcast_input_shapes_spec [sh; sh] ltac:(repeat constructor; exact H))).
  split; [ repeat constructor | split ].
  - exists sh; split; [ left; left; reflexivity | reflexivity ].
  - intros k; split; [ left; left; reflexivity | repeat constructor; right; reflexivity ].
Qed.

Lemma right_align_full idx n : List.length idx = n -> right_align idx n = idx.
Proof. intros H; unfold right_align; rewrite H, Nat.sub_diag; reflexivity. Qed.

Section Eq.
  Variable neb : Z -> Z -> bool.
  Let ne x y : outcome bool := Ok (neb x y).

  Lemma compare_spec (L : list (list Z)) (fa fb : list Z -> Z) :
    compare ne (map (fun idx => (idx, [fa idx; fb idx])) L)
    = Ok (forallb (fun idx => negb (neb (fa idx) (fb idx))) L).
  Proof.
    induction L as [ | idx L IH ]; [ reflexivity | ].
    cbn [map compare nth ne bind forallb].
    destruct (neb (fa idx) (fb idx)); cbn; [ reflexivity | exact IH ].
  Qed.

  Lemma equals_dims_spec fuel a b :
    let sh := shape_of (op_dims (a_op a)) in
    fixed_dims (op_dims (a_op a)) -> fixed_dims (op_dims (a_op b)) ->
    op_dims (a_op a) <> [] ->
    shape_of (op_dims (a_op b)) = sh -> a_shape a = sh -> a_shape b = sh ->
    (forall k, s64 (product (firstn k sh))) -> (Z.to_nat (product sh) <= fuel)%nat ->
    equals_dims ne fuel a b =
    Ok (forallb (fun idx => negb (neb (address (op_base (a_op a)) (strides_of (op_dims (a_op a))) idx)
                                      (address (op_base (a_op b)) (strides_of (op_dims (a_op b))) idx)))
          (row_major sh)).
  Proof.
    intros sh FA FB NE ES SA SB HS Hfuel; unfold equals_dims.
    assert (HN : nonneg sh) by (apply shape_of_nonneg; exact FA).
    assert (La : List.length (op_dims (a_op a)) = List.length sh) by (unfold sh, shape_of; rewrite map_length; reflexivity).
    assert (Lb : List.length (op_dims (a_op b)) = List.length sh) by (rewrite <- ES; unfold shape_of; rewrite map_length; reflexivity).
    assert (BODY : (if negb (list_eqb (a_shape a) (a_shape b)) then Ok false
      else match init02 (a_op a) (a_op b) with
           | Ok it => do vs <- visits fuel it; compare ne vs
           | Throw m => if String.eqb m "broadcast_error" then Ok false else Throw m
           | UB => UB
           | NoFuel => NoFuel
           end) =
      Ok (forallb (fun idx => negb (neb (address (op_base (a_op a)) (strides_of (op_dims (a_op a))) idx)
                                      (address (op_base (a_op b)) (strides_of (op_dims (a_op b))) idx)))
          (row_major sh))).
    { rewrite SA, SB, list_eqb_refl; cbn [negb].
      assert (EB : broadcast_input_shapes [shape_of (op_dims (a_op a)); shape_of (op_dims (a_op b))] = Ok sh)
        by (rewrite ES; apply bis_same; exact HN).
      assert (Hk : (0 < List.length sh)%nat) by (rewrite <- La; destruct (op_dims (a_op a)); [ contradiction | cbn; lia ]).
      assert (EI : exists it, init02 (a_op a) (a_op b) = Ok it).
      { unfold init02; rewrite EB; cbn [bind].
        destruct (bcursor_ok (List.length sh) (a_op a) FA ltac:(lia) Hk) as (ca & Ea & _).
        { intros E; contradiction. }
        destruct (bcursor_ok (List.length sh) (a_op b) FB ltac:(lia) Hk) as (cb & Eb & _).
        { intros E; rewrite E in Lb; cbn in Lb; lia. }
        destruct (List.length sh) as [ | k ] eqn:Ek; [ lia | ].
        rewrite Ea, Eb; cbn [bind]; rewrite (itersize_ok sh HS); cbn [bind]; eexists; reflexivity. }
      destruct EI as (it & EI); rewrite EI.
      destruct (init02_visits (a_op a) (a_op b) it fuel sh FA FB EB HN ltac:(lia) ltac:(lia) EI Hfuel) as (_ & V).
      rewrite V; cbn [bind].
      rewrite La, Lb.
      rewrite <- (compare_spec (row_major sh)
                (fun idx => address (op_base (a_op a)) (strides_of (op_dims (a_op a))) idx)
                (fun idx => address (op_base (a_op b)) (strides_of (op_dims (a_op b))) idx)).
      f_equal; apply map_ext_in; intros idx Hidx.
      rewrite right_align_full by (apply row_major_len; exact Hidx); reflexivity. }
    destruct (op_dims (a_op a)) as [ | [ n s | ] [ | d ds ] ] eqn:ED; try exact BODY.
    all: destruct n as [ | p | p ]; try exact BODY.
    unfold sh; rewrite ?ED; reflexivity.
  Qed.
End Eq.
