(** A reduction kernel carries out a list of events; the events on one cell. *)
From Coq Require Import FinFun.
From Verif Require Import Base StridedModel ReduceModel ReduceSpec.
Open Scope Z_scope.

(** ** Ranges *)
Lemma range_S n : range (S n) = 0 :: map (Z.add 1) (range n).
Proof. unfold range. cbn [seq map]. f_equal. rewrite <- seq_shift, !map_map. apply map_ext. intros. lia. Qed.
Lemma in_range_iff i n : In i (range n) <-> 0 <= i < Z.of_nat n.
Proof.
  unfold range. rewrite in_map_iff. split.
  - intros (k & <- & H). apply in_seq in H. lia.
  - intros H. exists (Z.to_nat i). rewrite in_seq. lia.
Qed.
Lemma range_nodup n : NoDup (range n).
Proof. unfold range. apply FinFun.Injective_map_NoDup; [intros x y; lia|apply seq_NoDup]. Qed.
Lemma flat_map_map {A B C} (f : B -> list C) (g : A -> B) l : flat_map f (map g l) = flat_map (fun x => f (g x)) l.
Proof. induction l as [|a l IH]; [reflexivity|]. cbn. rewrite IH. reflexivity. Qed.
Lemma map_flat_map {A B C} (g : B -> C) (f : A -> list B) l : map g (flat_map f l) = flat_map (fun x => map g (f x)) l.
Proof. induction l as [|a l IH]; [reflexivity|]. cbn. rewrite map_app, IH. reflexivity. Qed.
Lemma filter_flat_map {A B} (p : B -> bool) (f : A -> list B) l : filter p (flat_map f l) = flat_map (fun x => filter p (f x)) l.
Proof. induction l as [|a l IH]; [reflexivity|]. cbn. rewrite filter_app, IH. reflexivity. Qed.
Lemma flat_map_ext_in {A B} (f g : A -> list B) l : (forall x, In x l -> f x = g x) -> flat_map f l = flat_map g l.
Proof. induction l as [|a l IH]; intros H; [reflexivity|]. cbn. rewrite H by (left; reflexivity). f_equal. apply IH. intros. apply H. right. assumption. Qed.
Lemma flat_map_nil {A B} (f : A -> list B) l : (forall x, In x l -> f x = []) -> flat_map f l = [].
Proof. induction l as [|a l IH]; intros H; [reflexivity|]. cbn. rewrite H by (left; reflexivity). apply IH. intros. apply H. right. assumption. Qed.
Lemma flat_map_one {A B} (f : A -> list B) k l : NoDup l -> In k l -> (forall x, In x l -> x <> k -> f x = []) -> flat_map f l = f k.
Proof.
  induction l as [|a l IH]; intros N I H; [contradiction|]. inversion N as [|? ? N1 N2]; subst. cbn.
  destruct I as [->|I].
  - rewrite flat_map_nil; [apply app_nil_r|]. intros x X. apply H; [right; exact X|]. intros ->. contradiction.
  - rewrite H; [|left; reflexivity|intros ->; contradiction]. apply IH; [exact N2|exact I|]. intros x X. apply H. right. exact X.
Qed.
Lemma filter_none {A} (p : A -> bool) l : (forall x, In x l -> p x = false) -> filter p l = [].
Proof. induction l as [|a l IH]; intros H; [reflexivity|]. cbn. rewrite H by (left; reflexivity). apply IH. intros. apply H. right. assumption. Qed.
Lemma filter_every {A} (p : A -> bool) l : (forall x, In x l -> p x = true) -> filter p l = l.
Proof. induction l as [|a l IH]; intros H; [reflexivity|]. cbn. rewrite H by (left; reflexivity). f_equal. apply IH. intros. apply H. right. assumption. Qed.
Lemma map_as_flat {A B} (f : A -> B) l : map f l = flat_map (fun x => [f x]) l.
Proof. induction l as [|a l IH]; [reflexivity|]. cbn. rewrite IH. reflexivity. Qed.

(** ** Events *)
Inductive ev := Init (a : Z) | Acc (a s : Z).
Definition target (e : ev) : Z := match e with Init a => a | Acc a _ => a end.

Section Run.
  Variables (op : Z -> Z -> outcome Z) (ident : Z).
  Definition exec (e : ev) (m : mem) : outcome mem :=
    match e with Init a => st m a ident | Acc a s => acc_single op m a s end.
  Fixpoint run (es : list ev) (m : mem) : outcome mem :=
    match es with [] => Ok m | e :: r => do m <- exec e m; run r m end.
  Lemma run_app e1 : forall e2 m, run (e1 ++ e2) m = bind (run e1 m) (run e2).
  Proof.
    induction e1 as [|e e1 IH]; intros e2 m; [reflexivity|]. cbn. destruct (exec e m); cbn; try reflexivity. apply IH.
  Qed.
  Lemma loop_run (body : mem -> Z -> Z -> outcome mem) (f : Z -> Z -> list ev) :
    (forall m dst src, body m dst src = run (f dst src) m) ->
    forall c m dst D src S, loop body m dst D src S c = run (flat_map (fun i => f (dst + i * D) (src + i * S)) (range c)) m.
  Proof.
    intros B. induction c as [|c IH]; intros m dst D src S; [reflexivity|].
    rewrite range_S. cbn [loop flat_map]. rewrite run_app, B.
    replace (dst + 0 * D) with dst by ring. replace (src + 0 * S) with src by ring.
    destruct (run (f dst src) m); cbn; try reflexivity. rewrite IH, flat_map_map. f_equal.
    apply flat_map_ext. intros i. f_equal; ring.
  Qed.
  Lemma acc_loop m dst D src S c : acc_strided op m dst D src S c = loop (acc_single op) m dst D src S c.
  Proof. revert m dst src. induction c as [|c IH]; intros m dst src; [reflexivity|]. cbn. destruct (acc_single op m dst src); cbn; auto. Qed.
  Lemma acc_run m dst D src S c : acc_strided op m dst D src S c = run (map (fun i => Acc (dst + i * D) (src + i * S)) (range c)) m.
  Proof.
    rewrite acc_loop, (loop_run _ (fun d s => [Acc d s])); [rewrite map_as_flat; reflexivity|].
    intros m' d s. cbn. destruct (acc_single op m' d s); reflexivity.
  Qed.
  Lemma init_run m dst D c : init_strided ident m dst D c = run (map (fun i => Init (dst + i * D)) (range c)) m.
  Proof.
    revert m dst. induction c as [|c IH]; intros m dst; [reflexivity|]. rewrite range_S. cbn [map run exec init_strided].
    replace (dst + 0 * D) with dst by ring. destruct (st m dst ident); cbn; try reflexivity.
    rewrite IH, map_map. f_equal. apply map_ext. intros i. f_equal. ring.
  Qed.

  (** A dimension: reduced or kept, its size, the strides of source and destination. *)
  Definition dim : Type := bool * nat * Z * Z.
  Fixpoint foll (l : list dim) (dst src : Z) : list ev :=
    match l with
    | [] => [Acc dst src]
    | (r, n, s, d) :: l => flat_map (fun i => foll l (dst + i * (if r : bool then 0 else d)) (src + i * s)) (range n)
    end.
  Fixpoint first (l : list dim) (dst src : Z) : list ev :=
    match l with
    | [] => []
    | [(true, n, s, _)] => Init dst :: map (fun i => Acc dst (src + i * s)) (range n)
    | [(false, n, s, d)] => map (fun i => Init (dst + i * d)) (range n) ++ map (fun i => Acc (dst + i * d) (src + i * s)) (range n)
    | (true, n, s, _) :: l => first l dst src ++ flat_map (fun i => foll l dst (src + i * s)) (tl (range n))
    | (false, n, s, d) :: l => flat_map (fun i => first l (dst + i * d) (src + i * s)) (range n)
    end.
  Definition inner_kept (l : list dim) : Prop := match l with [(false, _, _, _)] => True | _ => False end.
  Fixpoint wf (l : list dim) : Prop :=
    match l with
    | [] => False
    | [_] => True
    | (true, n, _, _) :: l => (1 <= n)%nat /\ wf l
    | (false, n, _, d) :: l => (d <> 0 \/ n = 1%nat /\ ~ inner_kept l) /\ wf l
    end.
  Definition represents (k : rk) (l : list dim) : Prop :=
    (forall m dst src, single_first k m dst src = run (first l dst src) m) /\
    (forall m dst D src S c, strided_followup k m dst D src S c = run (flat_map (fun i => foll l (dst + i * D) (src + i * S)) (range c)) m) /\
    (forall m dst D src S c, D <> 0 \/ c = 1%nat /\ ~ inner_kept l ->
       strided_first k m dst D src S c = run (flat_map (fun i => first l (dst + i * D) (src + i * S)) (range c)) m).

  Lemma rep_inner_reduce n s d : represents (inner_reduce op ident n s) [(true, n, s, d)].
  Proof.
    assert (A : forall m dst src, acc_strided op m dst 0 src s n = run (foll [(true, n, s, d)] dst src) m).
    { intros m dst src. rewrite acc_run. reflexivity. }
    assert (F : forall m dst src, bind (st m dst ident) (fun m => acc_strided op m dst 0 src s n) = run (first [(true, n, s, d)] dst src) m).
    { intros. cbn [first run exec]. destruct (st m dst ident) as [m'| | |]; cbn [bind]; try reflexivity. rewrite acc_run. f_equal.
      apply map_ext. intros i. f_equal. ring. }
    unfold represents, inner_reduce. cbn [single_first strided_first strided_followup]. split; [|split].
    - exact F.
    - intros. apply loop_run. exact A.
    - intros m dst D src S c H. destruct (Z.eqb_spec D 0) as [->|ND].
      + destruct H as [H|(-> & _)]; [contradiction|]. cbn [range seq map flat_map]. rewrite app_nil_r.
        replace (dst + Z.of_nat 0 * 0) with dst by lia. replace (src + Z.of_nat 0 * S) with src by lia.
        rewrite <- F. destruct (st m dst ident) as [m'| | |]; cbn [bind]; try reflexivity.
        destruct (acc_strided op m' dst 0 src s n); reflexivity.
      + apply loop_run. exact F.
  Qed.
  Lemma rep_inner_keep n s d : represents (inner_keep op ident n d s) [(false, n, s, d)].
  Proof.
    assert (A : forall m dst src, acc_strided op m dst d src s n = run (foll [(false, n, s, d)] dst src) m).
    { intros m dst src. rewrite acc_run. reflexivity. }
    assert (F : forall m dst src, bind (init_strided ident m dst d n) (fun m => acc_strided op m dst d src s n) = run (first [(false, n, s, d)] dst src) m).
    { intros. cbn [first]. rewrite run_app, init_run. destruct (run _ m) as [m'| | |]; cbn [bind]; try reflexivity. apply acc_run. }
    unfold represents, inner_keep. cbn [single_first strided_first strided_followup]. split; [|split].
    - exact F.
    - intros. apply loop_run. exact A.
    - intros m dst D src S c H. destruct (Z.eqb_spec D 0) as [->|ND].
      + destruct H as [H|(_ & H)]; [contradiction|]. exfalso. apply H. exact I.
      + apply loop_run. exact F.
  Qed.
  Lemma first_reduce n s d l dst src : l <> [] -> first ((true, n, s, d) :: l) dst src = first l dst src ++ flat_map (fun i => foll l dst (src + i * s)) (tl (range n)).
  Proof. destruct l; [contradiction|reflexivity]. Qed.
  Lemma first_keep n s d l dst src : l <> [] -> first ((false, n, s, d) :: l) dst src = flat_map (fun i => first l (dst + i * d) (src + i * s)) (range n).
  Proof. destruct l; [contradiction|reflexivity]. Qed.
  Lemma wf_ne l : wf l -> l <> [].
  Proof. destruct l; [contradiction|discriminate]. Qed.
  Lemma not_inner_kept a l : l <> [] -> ~ inner_kept (a :: l).
  Proof. destruct a as (((r & ?) & ?) & ?). destruct l; [contradiction|]. intros _. cbn. destruct r; exact (fun H => H). Qed.

  Lemma rep_outer_reduce n s d k l : (1 <= n)%nat -> l <> [] -> represents k l -> represents (outer_reduce n s k) ((true, n, s, d) :: l).
  Proof.
    intros N L (K1 & K2 & K3).
    assert (A : forall m dst src, strided_followup k m dst 0 src s n = run (foll ((true, n, s, d) :: l) dst src) m).
    { intros. rewrite K2. reflexivity. }
    assert (F : forall m dst src, bind (single_first k m dst src) (fun m => if (1 <? n)%nat then strided_followup k m dst 0 (src + s) s (n - 1) else Ok m)
                = run (first ((true, n, s, d) :: l) dst src) m).
    { intros. rewrite first_reduce by exact L. rewrite run_app, K1. destruct (run _ m) as [m'| | |]; cbn [bind]; try reflexivity.
      destruct n as [|n]; [lia|]. rewrite range_S. cbn [tl]. destruct (Nat.ltb_spec 1 (S n)) as [LT|GE].
      - rewrite K2. replace (S n - 1)%nat with n by lia. rewrite flat_map_map. f_equal. apply flat_map_ext. intros i. f_equal; ring.
      - assert (n = O) as -> by lia. reflexivity. }
    unfold represents, outer_reduce. cbn [single_first strided_first strided_followup]. split; [|split].
    - exact F.
    - intros. apply loop_run. exact A.
    - intros m dst D src S c H. destruct (Z.eqb_spec D 0) as [->|ND].
      + destruct H as [H|(-> & _)]; [contradiction|]. cbn [range seq map flat_map]. rewrite app_nil_r.
        replace (dst + Z.of_nat 0 * 0) with dst by lia. replace (src + Z.of_nat 0 * S) with src by lia.
        rewrite <- F. destruct (bind (single_first k m dst src) _); reflexivity.
      + apply loop_run. exact F.
  Qed.
  Lemma rep_outer_keep n s d k l : d <> 0 \/ n = 1%nat /\ ~ inner_kept l -> l <> [] -> represents k l -> represents (outer_keep n d s k) ((false, n, s, d) :: l).
  Proof.
    intros N L (K1 & K2 & K3).
    assert (A : forall m dst src, strided_followup k m dst d src s n = run (foll ((false, n, s, d) :: l) dst src) m).
    { intros. rewrite K2. reflexivity. }
    assert (F : forall m dst src, strided_first k m dst d src s n = run (first ((false, n, s, d) :: l) dst src) m).
    { intros. rewrite first_keep by exact L. apply K3. exact N. }
    unfold represents, outer_keep. cbn [single_first strided_first strided_followup]. split; [|split].
    - exact F.
    - intros. apply loop_run. exact A.
    - intros m dst D src S c H. destruct (Z.eqb_spec D 0) as [->|ND].
      + destruct H as [H|(-> & _)]; [contradiction|]. cbn [range seq map flat_map]. rewrite app_nil_r.
        replace (dst + Z.of_nat 0 * 0) with dst by lia. replace (src + Z.of_nat 0 * S) with src by lia.
        rewrite <- F. destruct (strided_first k m dst d src s n); reflexivity.
      + apply loop_run. exact F.
  Qed.

  (** The strides build gives to the dimensions. *)
  Fixpoint label (keepdims : bool) (axes : list axis) (dm : list Z) : list dim :=
    match axes with
    | [] => []
    | a :: r => (a_reduce a, a_size a, a_stride a, hd 0 dm) :: label keepdims r (if keepdims then tl dm else dm)
    end.
  Fixpoint enough (keepdims : bool) (axes : list axis) (dm : list Z) : Prop :=
    match axes with
    | [] => True
    | a :: r => (a_reduce a = true \/ dm <> []) /\ enough keepdims r (if keepdims then tl dm else dm)
    end.
  Lemma stride_at_hd dm : dm <> [] -> stride_at dm = Ok (hd 0 dm).
  Proof. destruct dm; [contradiction|reflexivity]. Qed.
  Lemma build_represents keep axes : forall dm, axes <> [] -> enough keep axes dm -> wf (label keep axes dm) ->
    exists k, build op ident keep axes dm = Ok k /\ represents k (label keep axes dm).
  Proof.
    induction axes as [|a axes IH]; intros dm NE EN W; [contradiction|].
    destruct axes as [|b axes].
    - cbn [build label]. destruct EN as (EN & _). destruct (a_reduce a).
      + eexists. split; [reflexivity|]. apply rep_inner_reduce.
      + destruct EN as [EN|EN]; [discriminate|]. rewrite (stride_at_hd _ EN). eexists. split; [reflexivity|]. apply rep_inner_keep.
    - destruct EN as (E1 & E2). set (dm' := if keep then tl dm else dm) in *.
      change (label keep (a :: b :: axes) dm) with ((a_reduce a, a_size a, a_stride a, hd 0 dm) :: label keep (b :: axes) dm') in *.
      assert (W' : wf (label keep (b :: axes) dm') /\ (if a_reduce a then (1 <= a_size a)%nat else hd 0 dm <> 0 \/ a_size a = 1%nat /\ ~ inner_kept (label keep (b :: axes) dm'))).
      { cbn [label] in W |- *. cbn [wf] in W. destruct (a_reduce a); destruct W; split; assumption. }
      destruct W' as (W1 & W2).
      destruct (IH dm' ltac:(discriminate) E2 W1) as (k & B & R).
      change (build op ident keep (a :: b :: axes) dm) with
        (bind (build op ident keep (b :: axes) dm') (fun child => if a_reduce a then Ok (outer_reduce (a_size a) (a_stride a) child)
           else bind (stride_at dm) (fun d => Ok (outer_keep (a_size a) d (a_stride a) child)))).
      rewrite B. cbn [bind]. destruct (a_reduce a).
      + eexists. split; [reflexivity|]. apply rep_outer_reduce; [exact W2|discriminate|exact R].
      + destruct E1 as [E1|E1]; [discriminate|]. rewrite (stride_at_hd _ E1). eexists. split; [reflexivity|].
        apply rep_outer_keep; [exact W2|discriminate|exact R].
  Qed.

  (** ** What happens to one cell *)
  Fixpoint pc (val : Z -> Z) (a : Z) (es : list ev) (v : Z) : outcome Z :=
    match es with
    | [] => Ok v
    | Init b :: r => if b =? a then pc val a r ident else pc val a r v
    | Acc b s :: r => if b =? a then do v <- op v (val s); pc val a r v else pc val a r v
    end.
  Lemma pc_filter val a es : forall v, pc val a es v = pc val a (filter (fun e => target e =? a) es) v.
  Proof.
    induction es as [|[b|b s] es IH]; intros v; [reflexivity| |]; cbn [filter target pc].
    - destruct (b =? a) eqn:E; cbn [pc]; [rewrite E|]; apply IH.
    - destruct (b =? a) eqn:E; cbn [pc]; [rewrite E|apply IH]. destruct (op v (val s)); cbn; try reflexivity. apply IH.
  Qed.
  Lemma pc_accs val a ss : forall v, pc val a (map (Acc a) ss) v = ofold op v (map val ss).
  Proof.
    induction ss as [|s ss IH]; intros v; [reflexivity|]. cbn. rewrite Z.eqb_refl. destruct (op v (val s)); cbn; try reflexivity. apply IH.
  Qed.
  Definition reads (e : ev) : list Z := match e with Init _ => [] | Acc _ s => [s] end.
  Lemma run_pc val : forall es m (w : Z -> Z),
    (forall e, In e es -> m (target e) <> None) ->
    (forall e s, In e es -> In s (reads e) -> m s = Some (val s) /\ forall e', In e' es -> target e' <> s) ->
    (forall a v, (exists e, In e es /\ target e = a) -> m a = Some v -> pc val a es v = Ok (w a)) ->
    exists m', run es m = Ok m' /\
      (forall a, (exists e, In e es /\ target e = a) -> m' a = Some (w a)) /\
      (forall a, (forall e, In e es -> target e <> a) -> m' a = m a).
  Proof.
    induction es as [|e es IH]; intros m w T R P.
    - exists m. split; [reflexivity|]. split; [intros a (e & [] & _)|reflexivity].
    - assert (T0 := T e (or_introl eq_refl)). destruct (m (target e)) as [v0|] eqn:M0; [|contradiction].
      assert (STEP : exists v1, exec e m = Ok (upd m (target e) v1) /\ pc val (target e) (e :: es) v0 = pc val (target e) es v1).
      { destruct e as [b|b s]; cbn [exec target] in *.
        - exists ident. unfold st. rewrite M0. split; [reflexivity|]. cbn. rewrite Z.eqb_refl. reflexivity.
        - destruct (R (Acc b s) s) as (RS & RT); [left; reflexivity|left; reflexivity|].
          assert (P0 := P b v0 (ex_intro _ (Acc b s) (conj (or_introl eq_refl) eq_refl)) M0).
          cbn [pc] in P0 |- *. rewrite Z.eqb_refl in P0 |- *. destruct (op v0 (val s)) as [v1| | |] eqn:O; cbn [bind] in P0; try discriminate P0.
          exists v1. cbn [bind]. split; [|reflexivity]. unfold acc_single, ld. rewrite M0. cbn [bind]. rewrite RS. cbn [bind]. rewrite O. cbn [bind].
          unfold st. rewrite M0. reflexivity. }
      destruct STEP as (v1 & E1 & E2).
      destruct (IH (upd m (target e) v1) (fun a => if (a =? target e) && negb (existsb (fun e' => target e' =? a) es) then v1 else w a)) as (m' & RUN & H1 & H2).
      + intros e' I'. unfold upd. destruct (target e' =? target e); [discriminate|]. apply T. right. exact I'.
      + intros e' s I' RS. destruct (R e' s (or_intror I') RS) as (Q1 & Q2). split.
        * unfold upd. destruct (Z.eqb_spec s (target e)) as [->|]; [exfalso; exact (Q2 e (or_introl eq_refl) eq_refl)|exact Q1].
        * intros e'' I''. apply Q2. right. exact I''.
      + intros a v (e' & I' & EA) MV.
        assert (EX : existsb (fun e' => target e' =? a) es = true).
        { apply existsb_exists. exists e'. split; [exact I'|]. apply Z.eqb_eq. exact EA. }
        rewrite EX, andb_false_r. unfold upd in MV. destruct (Z.eqb_spec a (target e)) as [->|NE].
        * inversion MV; subst v. rewrite <- E2. apply P; [exists e'; split; [right; exact I'|exact EA]|exact M0].
        * rewrite <- (P a v); [|exists e'; split; [right; exact I'|exact EA]|exact MV].
          destruct e as [b|b s]; cbn [pc target] in *; destruct (Z.eqb_spec b a) as [->|]; try contradiction; reflexivity.
      + exists m'. cbn [run]. rewrite E1. cbn [bind]. split; [exact RUN|]. split.
        * intros a (e' & I' & EA).
          destruct (existsb (fun e' => target e' =? a) es) eqn:EX.
          -- apply existsb_exists in EX. destruct EX as (e'' & I'' & EE). apply Z.eqb_eq in EE.
             rewrite H1 by (exists e''; split; assumption).
             assert (existsb (fun e' => target e' =? a) es = true) as -> by (apply existsb_exists; exists e''; split; [exact I''|apply Z.eqb_eq; exact EE]).
             rewrite andb_false_r. reflexivity.
          -- assert (NO : forall e'', In e'' es -> target e'' <> a).
             { intros e'' I'' Q. assert (existsb (fun e' => target e' =? a) es = true) by (apply existsb_exists; exists e''; split; [exact I''|apply Z.eqb_eq; exact Q]). congruence. }
             destruct I' as [->|I']; [|exfalso; exact (NO e' I' EA)]. subst a.
             rewrite H2 by exact NO. unfold upd. rewrite Z.eqb_refl.
             assert (Q := P (target e') v0 (ex_intro _ e' (conj (or_introl eq_refl) eq_refl)) M0).
             rewrite E2 in Q. rewrite pc_filter, filter_none in Q; [inversion Q; reflexivity|].
             intros e'' I''. apply Z.eqb_neq. apply NO. exact I''.
        * intros a NO. rewrite H2 by (intros e' I'; apply NO; right; exact I').
          unfold upd. destruct (Z.eqb_spec a (target e)) as [->|]; [|reflexivity]. exfalso. exact (NO e (or_introl eq_refl) eq_refl).
  Qed.
End Run.

(** ** The events on the cell of a kept index *)
Fixpoint kept_in (l : list dim) (o : list Z) : Prop :=
  match l, o with
  | [], [] => True
  | (true, _, _, _) :: r, o => kept_in r o
  | (false, n, _, _) :: r, k :: o => 0 <= k < Z.of_nat n /\ kept_in r o
  | _, _ => False
  end.
Fixpoint off (l : list dim) (o : list Z) : Z :=
  match l, o with
  | (true, _, _, _) :: r, o => off r o
  | (false, _, _, d) :: r, k :: o => k * d + off r o
  | _, _ => 0
  end.
Fixpoint srcs (l : list dim) (o : list Z) (src : Z) : list Z :=
  match l, o with
  | [], _ => [src]
  | (true, n, s, _) :: r, o => flat_map (fun i => srcs r o (src + i * s)) (range n)
  | (false, _, s, _) :: r, k :: o => srcs r o (src + k * s)
  | (false, _, _, _) :: _, [] => []
  end.
Definition inj (l : list dim) : Prop := forall o o', kept_in l o -> kept_in l o' -> off l o = off l o' -> o = o'.
Lemma inj_reduce n s d l : inj ((true, n, s, d) :: l) -> inj l.
Proof. intros H o o' K K' E. apply H; assumption. Qed.
Lemma inj_keep n s d l k : 0 <= k < Z.of_nat n -> inj ((false, n, s, d) :: l) -> inj l.
Proof.
  intros K H o o' K1 K2 E. assert (Q : k :: o = k :: o'); [|inversion Q; reflexivity].
  apply H; cbn; [split; assumption..|lia].
Qed.
Lemma foll_target l : forall dst src e, In e (foll l dst src) -> exists o, kept_in l o /\ target e = dst + off l o.
Proof.
  induction l as [|(((r & n) & s) & d) l IH]; intros dst src e I.
  - cbn in I. destruct I as [<-|[]]. exists []. split; [exact Logic.I|cbn; lia].
  - cbn [foll] in I. apply in_flat_map in I. destruct I as (i & RI & I). apply in_range_iff in RI.
    destruct (IH _ _ _ I) as (o & KO & E). destruct r.
    + exists o. split; [exact KO|]. cbn [off]. rewrite E. ring.
    + exists (i :: o). split; [split; assumption|]. cbn [off]. rewrite E. ring.
Qed.
Lemma first_target l : forall dst src e, In e (first l dst src) -> exists o, kept_in l o /\ target e = dst + off l o.
Proof.
  induction l as [|(((r & n) & s) & d) l IH]; intros dst src e I; [contradiction|].
  destruct l as [|b l].
  - cbn in I. destruct r.
    + exists []. split; [exact Logic.I|]. cbn. destruct I as [<-|I]; [cbn; lia|]. apply in_map_iff in I. destruct I as (i & <- & _). cbn. lia.
    + apply in_app_or in I. destruct I as [I|I]; apply in_map_iff in I; destruct I as (i & <- & RI); apply in_range_iff in RI;
        exists [i]; (split; [split; [exact RI|exact Logic.I]|cbn; ring]).
  - destruct r.
    + rewrite first_reduce in I by discriminate. apply in_app_or in I. destruct I as [I|I].
      * destruct (IH _ _ _ I) as (o & KO & E). exists o. split; [exact KO|exact E].
      * apply in_flat_map in I. destruct I as (i & RI & I). destruct (foll_target _ _ _ _ I) as (o & KO & E). exists o. split; [exact KO|exact E].
    + rewrite first_keep in I by discriminate. apply in_flat_map in I. destruct I as (i & RI & I). apply in_range_iff in RI.
      destruct (IH _ _ _ I) as (o & KO & E). exists (i :: o). split; [split; assumption|]. cbn [off]. rewrite E. cbn [off]. ring.
Qed.
Lemma on_other (l : list dim) n s d i k o dst e (f : list ev) : inj ((false, n, s, d) :: l) -> 0 <= i < Z.of_nat n -> kept_in ((false, n, s, d) :: l) (k :: o) -> i <> k ->
  (exists o', kept_in l o' /\ target e = dst + i * d + off l o') -> target e <> dst + off ((false, n, s, d) :: l) (k :: o).
Proof.
  intros J I K NE (o' & KO & E) Q. cbn [off] in Q. assert (C : i :: o' = k :: o); [|inversion C; contradiction].
  apply J; [split; assumption|exact K|]. cbn [off]. lia.
Qed.
Lemma proj_foll l : forall dst src o, inj l -> kept_in l o ->
  filter (fun e => target e =? dst + off l o) (foll l dst src) = map (Acc (dst + off l o)) (srcs l o src).
Proof.
  induction l as [|(((r & n) & s) & d) l IH]; intros dst src o J K.
  - destruct o; [|contradiction]. cbn. rewrite Z.add_0_r, Z.eqb_refl. reflexivity.
  - cbn [foll]. rewrite filter_flat_map. destruct r.
    + cbn [off srcs]. rewrite map_flat_map. apply flat_map_ext. intros i. replace (dst + i * 0) with dst by ring.
      apply IH; [exact (inj_reduce _ _ _ _ J)|exact K].
    + destruct o as [|k o]; [contradiction|]. assert (KK := K). destruct K as (K1 & K2).
      rewrite (flat_map_one _ k); [|apply range_nodup|apply in_range_iff; exact K1|].
      * cbn [off srcs]. replace (dst + (k * d + off l o)) with (dst + k * d + off l o) by ring.
        apply IH; [exact (inj_keep _ _ _ _ k K1 J)|exact K2].
      * intros i RI NE. apply in_range_iff in RI. apply filter_none. intros e I. apply Z.eqb_neq.
        apply (on_other l n s d i k o dst e [] J RI KK NE). destruct (foll_target _ _ _ _ I) as (o' & KO & E). exists o'. split; [exact KO|exact E].
Qed.
Lemma proj_first l : forall dst src o, l <> [] -> inj l -> wf l -> kept_in l o ->
  filter (fun e => target e =? dst + off l o) (first l dst src) = Init (dst + off l o) :: map (Acc (dst + off l o)) (srcs l o src).
Proof.
  induction l as [|(((r & n) & s) & d) l IH]; intros dst src o NE J W K; [contradiction|].
  destruct l as [|b l].
  - destruct r.
    + destruct o; [|contradiction]. cbn [first off srcs]. rewrite Z.add_0_r. rewrite filter_every.
      * f_equal. rewrite map_flat_map. cbn [map]. apply map_as_flat.
      * intros e [<-|I]; [apply Z.eqb_refl|]. apply in_map_iff in I. destruct I as (i & <- & _). apply Z.eqb_refl.
    + destruct o as [|k [|? ?]]; [contradiction| |destruct K as (_ & [])].
      assert (KK := K). destruct K as (K1 & _). cbn [first]. rewrite filter_app.
      set (a := dst + off [(false, n, s, d)] [k]).
      assert (G : forall g : Z -> ev, (forall i, target (g i) = dst + i * d) -> filter (fun e => target e =? a) (map g (range n)) = [g k]).
      { intros g G. rewrite map_as_flat, filter_flat_map. rewrite (flat_map_one _ k); [|apply range_nodup|apply in_range_iff; exact K1|].
        - cbn [filter]. rewrite G. unfold a. cbn [off]. replace (dst + (k * d + 0)) with (dst + k * d) by ring. rewrite Z.eqb_refl. reflexivity.
        - intros i RI NEI. apply in_range_iff in RI. cbn [filter].
          destruct (Z.eqb_spec (target (g i)) a) as [E|]; [exfalso|reflexivity].
          apply (on_other [] n s d i k [] dst (g i) [] J RI KK NEI); [|exact E]. exists []. split; [exact I|rewrite G; cbn; ring]. }
      rewrite !G by (intros; reflexivity). unfold a. cbn [off srcs map app]. replace (dst + (k * d + 0)) with (dst + k * d) by ring. reflexivity.
  - destruct r.
    + rewrite first_reduce by discriminate. rewrite filter_app. cbn [wf] in W. destruct W as (WN & W).
      change (off ((true, n, s, d) :: b :: l) o) with (off (b :: l) o).
      rewrite IH; [|discriminate|exact (inj_reduce _ _ _ _ J)|exact W|exact K].
      change (srcs ((true, n, s, d) :: b :: l) o src) with (flat_map (fun i => srcs (b :: l) o (src + i * s)) (range n)).
      destruct n as [|n]; [lia|]. rewrite range_S. cbn [tl flat_map]. rewrite map_app. cbn [app]. f_equal. f_equal.
      * replace (src + 0 * s) with src by ring. reflexivity.
      * rewrite filter_flat_map, map_flat_map. apply flat_map_ext. intros i. apply proj_foll; [exact (inj_reduce _ _ _ _ J)|exact K].
    + rewrite first_keep by discriminate. rewrite filter_flat_map. cbn [wf] in W. destruct W as (WN & W).
      destruct o as [|k o]; [contradiction|]. assert (KK := K). destruct K as (K1 & K2).
      rewrite (flat_map_one _ k); [|apply range_nodup|apply in_range_iff; exact K1|].
      * change (off ((false, n, s, d) :: b :: l) (k :: o)) with (k * d + off (b :: l) o).
        change (srcs ((false, n, s, d) :: b :: l) (k :: o) src) with (srcs (b :: l) o (src + k * s)).
        replace (dst + (k * d + off (b :: l) o)) with (dst + k * d + off (b :: l) o) by ring.
        apply IH; [discriminate|exact (inj_keep _ _ _ _ k K1 J)|exact W|exact K2].
      * intros i RI NEI. apply in_range_iff in RI. apply filter_none. intros e I. apply Z.eqb_neq.
        apply (on_other (b :: l) n s d i k o dst e [] J RI KK NEI). destruct (first_target _ _ _ _ I) as (o' & KO & E). exists o'. split; [exact KO|exact E].
Qed.
