(** Lemmas for C152-C154. *)
From Verif Require Import Base NestModel NestSpec.
Open Scope Z_scope.

(** ** Shapes *)
Lemma loop_cases : forall f r, (forall y, In y r -> (exists s, f y = Ok s) \/ f y = UB) -> forall res,
  ((exists s, shape_loop f r res = Ok s) /\ (forall y, In y r -> exists s, f y = Ok s)) \/
  (shape_loop f r res = UB /\ exists y, In y r /\ f y = UB).
Proof.
  intros f r. induction r as [|y r IH]; intros H res; cbn [shape_loop].
  - left. split; [exists res; reflexivity|intros ? []].
  - destruct (H y (or_introl eq_refl)) as [(s & E)|E]; rewrite E; cbn [bind].
    + destruct (IH (fun z I => H z (or_intror I)) (merge res s)) as [(A & B)|(A & z & I & B)].
      * left. split; [exact A|]. intros z [<-|I]; [exists s; exact E|exact (B z I)].
      * right. split; [exact A|]. exists z. split; [right; exact I|exact B].
    + right. split; [reflexivity|]. exists y. split; [left; reflexivity|exact E].
Qed.
Lemma shape_node : forall d l, shape (S (S d)) (Node l) =
  match l with [] => UB | y :: r => do s <- shape (S d) y; do s <- shape_loop (shape (S d)) r s; Ok (len l :: s) end.
Proof. reflexivity. Qed.
Lemma shape_total : forall d x, is_depth d x -> (exists s, shape d x = Ok s) \/ shape d x = UB.
Proof.
  induction d as [|d IH]; intros x H; [left; exists []; destruct x; reflexivity|].
  destruct H as (l & -> & F). destruct d as [|d]; [left; eexists; reflexivity|]. rewrite shape_node. destruct l as [|y r]; [right; reflexivity|].
  inversion F as [|? ? Fy Fr]; subst. destruct (IH y Fy) as [(s & E)|E]; rewrite E; cbn [bind]; [|right; reflexivity].
  destruct (loop_cases (shape (S d)) r ltac:(intros z I; apply IH; exact (proj1 (Forall_forall _ _) Fr z I)) s) as [((q & Q) & _)|(Q & _)]; rewrite Q; cbn [bind].
  - left. eexists; reflexivity.
  - right. reflexivity.
Qed.
Lemma nonempty_node : forall d l, nonempty (S (S d)) (Node l) <-> l <> [] /\ forall y, In y l -> nonempty (S d) y.
Proof.
  intros d l. split.
  - intros H. split.
    + intros ->. apply (H 0%nat ltac:(lia)). left. reflexivity.
    + intros y I i L Z. apply (H (S i) ltac:(lia)). cbn [level]. apply in_flat_map. exists y. auto.
  - intros (N & H) i L Z. destruct i as [|i]; cbn [level] in Z.
    + destruct Z as [Z|[]]. destruct l; [congruence|cbn in Z; lia].
    + apply in_flat_map in Z as (y & I & Z). exact (H y I i ltac:(lia) Z).
Qed.
Lemma shape_ok_iff : forall d x, is_depth d x -> ((exists s, shape d x = Ok s) <-> nonempty d x).
Proof.
  induction d as [|d IH]; intros x H.
  - split; [intros _ i L; lia|intros _; exists []; destruct x; reflexivity].
  - destruct H as (l & -> & F). destruct d as [|d].
    + split; [intros _ i L; lia|intros _; eexists; reflexivity].
    + rewrite nonempty_node. pose proof (proj1 (Forall_forall _ _) F) as FF. rewrite shape_node. destruct l as [|y r].
      * split; [intros (s & E); discriminate|intros (N & _); congruence].
      * destruct (loop_cases (shape (S d)) r ltac:(intros z I; apply shape_total; apply FF; right; exact I)) with (res := @nil Z) as [(_ & B)|(_ & z & I & B)].
        -- split.
           ++ intros (s & E). split; [discriminate|]. intros z [<-|I].
              ** apply IH; [apply FF; left; reflexivity|]. destruct (shape (S d) y); cbn [bind] in E; try discriminate. eexists; reflexivity.
              ** apply IH; [apply FF; right; exact I|]. exact (B z I).
           ++ intros (_ & N). assert (G : exists s, shape (S d) y = Ok s) by (apply IH; [apply FF; left; reflexivity|apply N; left; reflexivity]).
              destruct G as (s & E). rewrite E. cbn [bind].
              destruct (loop_cases (shape (S d)) r ltac:(intros z I; left; exact (B z I)) s) as [((q & Q) & _)|(_ & z & I & Q)].
              ** rewrite Q. eexists; reflexivity.
              ** destruct (B z I) as (q & Q'). congruence.
        -- split.
           ++ intros (s & E). exfalso. destruct (shape (S d) y) as [q| | |]; cbn [bind] in E; try discriminate.
              destruct (loop_cases (shape (S d)) r ltac:(intros w W; apply shape_total; apply FF; right; exact W) q) as [(_ & C)|(Q & _)].
              ** destruct (C z I) as (u & U). congruence.
              ** rewrite Q in E. discriminate.
           ++ intros (_ & N). exfalso. assert (G : exists s, shape (S d) z = Ok s) by (apply IH; [apply FF; right; exact I|apply N; right; exact I]).
              destruct G as (u & U). congruence.
Qed.

(** ** The dimensions *)
Lemma level_nonneg : forall i x a, In a (level i x) -> 0 <= a.
Proof.
  induction i as [|i IH]; intros x a H; destruct x as [v|l]; cbn [level] in H; try contradiction.
  - destruct H as [<-|[]]. lia.
  - apply in_flat_map in H as (y & _ & H). exact (IH y a H).
Qed.
Lemma dim_of_merge : forall l1 l2 a b, Forall (Z.le 0) l1 -> Forall (Z.le 0) l2 -> dim_of l1 a -> dim_of l2 b -> dim_of (l1 ++ l2) (if a =? b then a else -1).
Proof.
  intros l1 l2 a b P1 P2 [(N1 & G1 & E1)|(-> & c & d & C & D & CD)] [(N2 & G2 & E2)|(-> & c2 & d2 & C2 & D2 & CD2)].
  - destruct (Z.eqb_spec a b) as [->|NE].
    + left. split; [intros Q; apply app_eq_nil in Q as (Q & _); contradiction|]. split; [exact G1|]. apply Forall_app. auto.
    + right. split; [reflexivity|]. destruct l1 as [|x l1]; [congruence|]. destruct l2 as [|y l2]; [congruence|]. inversion E1; inversion E2; subst.
      exists x, y. split; [left; reflexivity|]. split; [apply in_or_app; right; left; reflexivity|exact NE].
  - right. split; [destruct (Z.eqb_spec a (-1)); lia|]. exists c2, d2. split; [apply in_or_app; auto|]. split; [apply in_or_app; auto|exact CD2].
  - right. split; [destruct (Z.eqb_spec (-1) b); lia|]. exists c, d. split; [apply in_or_app; auto|]. split; [apply in_or_app; auto|exact CD].
  - right. split; [reflexivity|]. exists c, d. split; [apply in_or_app; auto|]. split; [apply in_or_app; auto|exact CD].
Qed.
(** [summary s f]: the shape [s] has the dimension of [f i] at [i]. *)
Definition summary (s : list Z) (d : nat) (f : nat -> list Z) : Prop :=
  List.length s = d /\ forall i, (i < d)%nat -> dim_of (f i) (nth i s 0).
Lemma merge_length : forall a b, List.length a = List.length b -> List.length (merge a b) = List.length a.
Proof. induction a as [|x a IH]; intros [|y b] H; cbn in *; try lia. rewrite IH; lia. Qed.
Lemma merge_nth : forall a b i, List.length a = List.length b -> (i < List.length a)%nat ->
  nth i (merge a b) 0 = if nth i a 0 =? nth i b 0 then nth i a 0 else -1.
Proof.
  induction a as [|x a IH]; intros [|y b] i H L; cbn [List.length] in *; try lia.
  destruct i; cbn [merge nth]; [reflexivity|]. apply IH; lia.
Qed.
Lemma summary_merge : forall d s1 s2 f g, (forall i, Forall (Z.le 0) (f i)) -> (forall i, Forall (Z.le 0) (g i)) ->
  summary s1 d f -> summary s2 d g -> summary (merge s1 s2) d (fun i => f i ++ g i).
Proof.
  intros d s1 s2 f g P1 P2 (L1 & D1) (L2 & D2). split; [rewrite merge_length; lia|].
  intros i L. rewrite merge_nth by lia. apply dim_of_merge; auto.
Qed.
Lemma loop_summary : forall d r res s f, (forall i, Forall (Z.le 0) (f i)) ->
  (forall y s, In y r -> shape d y = Ok s -> summary s d (fun i => level i y)) -> summary res d f ->
  shape_loop (shape d) r res = Ok s -> summary s d (fun i => f i ++ flat_map (level i) r).
Proof.
  intros d r. induction r as [|y r IH]; intros res s f P HY HR E; cbn [shape_loop] in E.
  - injection E as <-. destruct HR as (A & B). split; [exact A|]. intros i L. cbn [flat_map]. rewrite app_nil_r. exact (B i L).
  - destruct (shape d y) as [q| | |] eqn:Q; cbn [bind] in E; try discriminate.
    assert (PY : forall i, Forall (Z.le 0) (level i y)) by (intros i; apply Forall_forall; intros a; apply level_nonneg).
    pose proof (IH (merge res q) s (fun i => f i ++ level i y) ltac:(intros i; apply Forall_app; auto) (fun z t I => HY z t (or_intror I))
      (summary_merge d res q f _ P PY HR (HY y q (or_introl eq_refl) Q)) E) as (A & B).
    split; [exact A|]. intros i L. cbn [flat_map]. rewrite app_assoc. exact (B i L).
Qed.
Lemma shape_summary : forall d x s, is_depth d x -> shape d x = Ok s -> summary s d (fun i => level i x).
Proof.
  induction d as [|d IH]; intros x s H E.
  - destruct x; injection E as <-; (split; [reflexivity|intros i L; lia]).
  - destruct H as (l & -> & F). destruct d as [|d].
    + injection E as <-. split; [reflexivity|]. intros i L. assert (i = 0)%nat by lia. subst i. cbn [level nth]. left. split; [discriminate|]. split; [unfold len; lia|].
      constructor; [reflexivity|constructor].
    + rewrite shape_node in E. destruct l as [|y r]; [discriminate|]. inversion F as [|? ? Fy Fr]; subst.
      destruct (shape (S d) y) as [q| | |] eqn:Q; cbn [bind] in E; try discriminate.
      destruct (shape_loop (shape (S d)) r q) as [q2| | |] eqn:Q2; cbn [bind] in E; try discriminate. injection E as <-.
      pose proof (loop_summary (S d) r q q2 (fun i => level i y) ltac:(intros i; apply Forall_forall; intros a; apply level_nonneg)
        (fun z t I Z => IH z t (proj1 (Forall_forall _ _) Fr z I) Z) (IH y q Fy Q) Q2) as (A & B).
      split; [cbn [List.length]; lia|]. intros [|i] L.
      * cbn [level nth]. left. split; [discriminate|]. split; [unfold len; lia|]. constructor; [reflexivity|constructor].
      * cbn [level nth flat_map]. apply B. lia.
Qed.
Lemma from_shape_dims : forall s, dims s (from_shape s).
Proof.
  induction s as [|n s IH]; [exact I|]. cbn [from_shape]. destruct (Z.eqb_spec n (-1)) as [->|N]; cbn [dims]; auto.
Qed.

(** ** Values of a type *)
Fixpoint shaped (t : ty) (x : nest) : Prop :=
  match t with
  | Elem => exists v, x = Leaf v
  | Fixed n t => exists l, x = Node l /\ len l = n /\ Forall (shaped t) l
  | Var t => exists l, x = Node l /\ Forall (shaped t) l
  end.
Lemma shaped_merge : forall s1 s2, List.length s1 = List.length s2 -> forall x,
  shaped (from_shape s1) x \/ shaped (from_shape s2) x -> shaped (from_shape (merge s1 s2)) x.
Proof.
  induction s1 as [|a s1 IH]; intros [|b s2] L x H; try discriminate L.
  - destruct H; assumption.
  - injection L as L. cbn [merge from_shape] in *.
    assert (G : (shaped (if a =? -1 then Var (from_shape s1) else Fixed a (from_shape s1)) x -> exists l, x = Node l /\ (a = -1 \/ len l = a) /\ Forall (shaped (from_shape s1)) l) /\
                (shaped (if b =? -1 then Var (from_shape s2) else Fixed b (from_shape s2)) x -> exists l, x = Node l /\ (b = -1 \/ len l = b) /\ Forall (shaped (from_shape s2)) l)).
    { split; [destruct (Z.eqb_spec a (-1))|destruct (Z.eqb_spec b (-1))]; cbn [shaped].
      1, 3: intros (l & ? & ?); exists l; auto.
      all: intros (l & ? & ? & ?); exists l; auto. }
    destruct G as (G1 & G2).
    assert (R : exists l, x = Node l /\ (a = -1 \/ a <> b \/ len l = a) /\ Forall (shaped (from_shape (merge s1 s2))) l).
    { destruct H as [H|H]; [apply G1 in H as (l & -> & D & F)|apply G2 in H as (l & -> & D & F)]; exists l; (split; [reflexivity|]; split; [|]).
      - destruct D; auto.
      - eapply Forall_impl; [|exact F]. intros y Y. apply IH; auto.
      - destruct (Z.eq_dec a b); [subst b; destruct D; auto|auto].
      - eapply Forall_impl; [|exact F]. intros y Y. apply IH; auto. }
    destruct R as (l & -> & D & F). destruct (Z.eqb_spec a b) as [->|NE].
    + destruct (Z.eqb_spec b (-1)); cbn [shaped]; exists l; [auto|]. split; [reflexivity|]. split; [|exact F]. destruct D as [D|[D|D]]; [contradiction|congruence|exact D].
    + cbn [Z.eqb Pos.eqb shaped]. exists l. auto.
Qed.
Lemma shape_length : forall d x s, is_depth d x -> shape d x = Ok s -> List.length s = d.
Proof. intros d x s H E. exact (proj1 (shape_summary d x s H E)). Qed.
Lemma loop_shaped : forall d r res s, (forall y, In y r -> is_depth d y) -> (forall y q, In y r -> shape d y = Ok q -> shaped (from_shape q) y) -> List.length res = d ->
  shape_loop (shape d) r res = Ok s -> List.length s = d /\ (forall x, shaped (from_shape res) x -> shaped (from_shape s) x) /\ Forall (shaped (from_shape s)) r.
Proof.
  intros d r. induction r as [|y r IH]; intros res s HD HY L E; cbn [shape_loop] in E.
  - injection E as <-. split; [exact L|]. split; [auto|constructor].
  - destruct (shape d y) as [q| | |] eqn:Q; cbn [bind] in E; try discriminate.
    pose proof (shape_length d y q (HD y (or_introl eq_refl)) Q) as LQ.
    destruct (IH (merge res q) s (fun z I => HD z (or_intror I)) (fun z t I => HY z t (or_intror I)) ltac:(rewrite merge_length; lia) E) as (A & B & C).
    split; [exact A|]. split.
    + intros x X. apply B. apply shaped_merge; [lia|]. left. exact X.
    + constructor; [|exact C]. apply B. apply shaped_merge; [lia|]. right. apply HY; [left; reflexivity|exact Q].
Qed.
Lemma shape_shaped : forall d x s, is_depth d x -> shape d x = Ok s -> shaped (from_shape s) x.
Proof.
  induction d as [|d IH]; intros x s H E.
  - destruct H as (v & ->). injection E as <-. exists v. reflexivity.
  - destruct H as (l & -> & F). assert (G : len l <> -1) by (unfold len; lia). destruct d as [|d].
    + injection E as <-. cbn [from_shape]. destruct (Z.eqb_spec (len l) (-1)); [contradiction|]. cbn [shaped]. exists l. split; [reflexivity|]. split; [reflexivity|exact F].
    + rewrite shape_node in E. destruct l as [|y r]; [discriminate|]. inversion F as [|? ? Fy Fr]; subst.
      destruct (shape (S d) y) as [q| | |] eqn:Q; cbn [bind] in E; try discriminate.
      destruct (shape_loop (shape (S d)) r q) as [q2| | |] eqn:Q2; cbn [bind] in E; try discriminate. injection E as <-.
      pose proof (proj1 (Forall_forall _ _) Fr) as FR.
      destruct (loop_shaped (S d) r q q2 FR (fun z t I Z => IH z t (FR z I) Z) (shape_length _ _ _ Fy Q) Q2) as (_ & B & C).
      cbn [from_shape]. destruct (Z.eqb_spec (len (y :: r)) (-1)); [contradiction|]. cbn [shaped]. exists (y :: r). split; [reflexivity|]. split; [reflexivity|].
      constructor; [apply B; exact (IH y q Fy Q)|exact C].
Qed.

(** ** Storing *)
Section Store.
Variable es : Z.
Hypothesis Hes : 0 < es.
Notation size := (data_size es).

Fixpoint stored (t : ty) (m : mem) (b : nat) (off : Z) (x : nest) : Prop :=
  match t with
  | Elem => exists v, x = Leaf v /\ cells m b off = Some (Val v)
  | Fixed n t => exists l, x = Node l /\ len l = n /\ forall i y, nth_error l i = Some y -> stored t m b (off + Z.of_nat i * size t) y
  | Var t => exists l b', x = Node l /\ cells m b off = Some (Ref b' (len l)) /\ (b < b' < List.length (sizes m))%nat /\
      forall i y, nth_error l i = Some y -> stored t m b' (Z.of_nat i * size t) y
  end.
Fixpoint kern_for (t : ty) (k : kern) : Prop :=
  match t, k with
  | Elem, KElem => True
  | Fixed n t, KFixed n' stride c => n' = n /\ stride = size t /\ kern_for t c
  | Var t, KVar c => t = Elem /\ kern_for t c
  | _, _ => False
  end.
(** Types whose fixed sizes are no less than zero. *)
Fixpoint sized (t : ty) : Prop := match t with Elem => True | Fixed n t => 0 <= n /\ sized t | Var t => sized t end.
Lemma size_nonneg : forall (t : ty), sized t -> 0 <= size t.
Proof. induction t as [|n t IH|t IH]; cbn [data_size sized]; intros H; [lia| |lia]. destruct H as (H & S). specialize (IH S). nia. Qed.
Lemma nth_lt : forall (l : list nest) i y, nth_error l i = Some y -> Z.of_nat i < len l.
Proof. intros l i y H. assert (Q : nth_error l i <> None) by congruence. apply nth_error_Some in Q. unfold len. lia. Qed.
Lemma stored_frame : forall t m m' b off x, sized t -> stored t m b off x -> (List.length (sizes m) <= List.length (sizes m'))%nat ->
  (forall o, off <= o < off + size t -> cells m' b o = cells m b o) ->
  (forall b' o, (b < b' < List.length (sizes m))%nat -> cells m' b' o = cells m b' o) -> stored t m' b off x.
Proof.
  induction t as [|n t IH|t IH]; intros m m' b off x SZ H L F G; cbn [stored sized] in *.
  - destruct H as (v & E & C). exists v. split; [exact E|]. rewrite F; [exact C|cbn [data_size]; lia].
  - destruct H as (l & E & N & H). destruct SZ as (Z0 & ZS). exists l. split; [exact E|]. split; [exact N|]. intros i y I. apply (IH m m' b); auto.
    intros o O. pose proof (nth_lt l i y I). pose proof (size_nonneg t ZS). apply F. cbn [data_size].
    assert (Z.of_nat i * size t + size t <= n * size t) by nia. assert (0 <= Z.of_nat i * size t) by nia. lia.
  - destruct H as (l & b' & E & C & B & H). exists l, b'. split; [exact E|]. split; [rewrite F; [exact C|cbn [data_size]; lia]|]. split; [lia|].
    intros i y I. refine (IH m m' b' _ y SZ (H i y I) L _ _).
    + intros o _. apply G. exact B.
    + intros b2 o B2. apply G. lia.
Qed.
End Store.

(** ** What the kernels write *)
Definition eff (m m' : mem) (b : nat) (off sz : Z) : Prop :=
  (List.length (sizes m) <= List.length (sizes m'))%nat /\
  (forall i, (i < List.length (sizes m))%nat -> nth_error (sizes m') i = nth_error (sizes m) i) /\
  (forall b' o, (b' < List.length (sizes m))%nat -> ~ (b' = b /\ off <= o < off + sz) -> cells m' b' o = cells m b' o).
Lemma eff_trans : forall m1 m2 m3 b off sz sz', 0 <= sz -> 0 <= sz' -> eff m1 m2 b off sz -> eff m2 m3 b (off + sz) sz' -> eff m1 m3 b off (sz + sz').
Proof.
  intros m1 m2 m3 b off sz sz' Z1 Z2 (L1 & S1 & C1) (L2 & S2 & C2). split; [lia|]. split.
  - intros i I. rewrite S2 by lia. apply S1. exact I.
  - intros b' o B N. rewrite C2; [apply C1; [exact B|]|lia|]; intros (A & R); apply N; (split; [exact A|lia]).
Qed.
Lemma write_ok : forall es m b off c n, nth_error (sizes m) b = Some n -> 0 <= off -> off + width es c <= n ->
  exists m', write es m b off c = Ok m' /\ sizes m' = sizes m /\ cells m' b off = Some c /\
             forall b' o, ~ (b' = b /\ o = off) -> cells m' b' o = cells m b' o.
Proof.
  intros es m b off c n N O W. unfold write. rewrite N. rewrite (proj2 (Z.leb_le 0 off) O), (proj2 (Z.leb_le _ _) W). cbn [andb].
  eexists. split; [reflexivity|]. cbn [sizes cells]. split; [reflexivity|]. split.
  - rewrite Nat.eqb_refl, Z.eqb_refl. reflexivity.
  - intros b' o Q. destruct (Nat.eqb_spec b' b) as [->|NB]; [|reflexivity]. destruct (Z.eqb_spec o off) as [->|NO]; [|reflexivity].
    exfalso. apply Q. auto.
Qed.
Lemma len_cons : forall (x : nest) l, len (x :: l) = 1 + len l.
Proof. intros x l. unfold len. cbn [List.length]. lia. Qed.
Lemma len_nonneg : forall l : list nest, 0 <= len l.
Proof. intros l. unfold len. lia. Qed.

Section Kernels.
Variable es : Z.
Hypothesis Hes : 0 < es.
Notation size := (data_size es).

Definition single_fine (t : ty) (k : kern) : Prop := forall m b off x n, shaped t x ->
  nth_error (sizes m) b = Some n -> 0 <= off -> off + size t <= n ->
  exists m', single es k m b off x = Ok m' /\ stored es t m' b off x /\ eff m m' b off (size t).
Lemma contig_ok : forall t k, sized t -> single_fine t k -> (forall x, shaped t x -> advance es k x = size t) ->
  forall l m b off n, Forall (shaped t) l -> nth_error (sizes m) b = Some n -> 0 <= off -> off + len l * size t <= n ->
  exists m', contiguous (single es k) (advance es k) (List.length l) l m b off = Ok m' /\
             (forall i y, nth_error l i = Some y -> stored es t m' b (off + Z.of_nat i * size t) y) /\ eff m m' b off (len l * size t).
Proof.
  intros t k SZ FN AD l. pose proof (size_nonneg es Hes t SZ) as P. induction l as [|x l IH]; intros m b off n F N O R; cbn [contiguous List.length].
  - exists m. split; [reflexivity|]. split; [intros [|i] y I; discriminate I|]. split; [lia|]. split; [reflexivity|]. reflexivity.
  - rewrite len_cons in *. pose proof (len_nonneg l) as LN. inversion F as [|? ? Fx Fl]; subst.
    assert (0 <= len l * size t) by nia.
    assert (BL : (b < List.length (sizes m))%nat) by (apply nth_error_Some; congruence).
    destruct (FN m b off x n Fx N O ltac:(lia)) as (m1 & E1 & S1 & F1). rewrite E1. cbn [bind]. rewrite (AD x Fx).
    pose proof F1 as (L1 & Z1 & C1).
    destruct (IH m1 b (off + size t) n Fl ltac:(rewrite Z1 by lia; exact N) ltac:(lia) ltac:(lia)) as (m2 & E2 & S2 & F2).
    exists m2. split; [exact E2|]. split.
    + intros [|i] y I; cbn [nth_error] in I.
      * injection I as <-. replace (off + Z.of_nat 0 * size t) with off by lia. destruct F2 as (L2 & Z2 & C2).
        refine (stored_frame es Hes t m1 m2 b off x SZ S1 L2 _ _).
        -- intros o Ho. apply C2; [lia|]. lia.
        -- intros b' o B. apply C2; [lia|]. lia.
      * replace (off + Z.of_nat (S i) * size t) with (off + size t + Z.of_nat i * size t) by lia. exact (S2 i y I).
    + replace ((1 + len l) * size t) with (size t + len l * size t) by lia. exact (eff_trans m m1 m2 b off (size t) (len l * size t) P H F1 F2).
Qed.
Lemma advance_shaped : forall t k x, kern_for es t k -> shaped t x -> advance es k x = size t.
Proof.
  intros t k x K S. destruct t as [|n t|t], k as [|n' st c|c]; cbn [kern_for] in K; try contradiction; cbn [shaped] in S.
  - reflexivity.
  - destruct S as (l & -> & N & _). destruct K as (_ & -> & _). cbn [advance data_size]. rewrite N. reflexivity.
  - reflexivity.
Qed.
Lemma single_ok : forall t k, sized t -> kern_for es t k -> single_fine t k.
Proof.
  induction t as [|n t IH|t IH]; intros k SZ K m b off x sz S N O R; destruct k as [|n' st c|c]; cbn [kern_for] in K; try contradiction; cbn [shaped sized] in *.
  - destruct S as (v & ->). cbn [single data_size stored] in *. destruct (write_ok es m b off (Val v) sz N O R) as (m' & E & SE & C & FR).
    exists m'. split; [exact E|]. split; [exists v; auto|]. unfold eff. rewrite SE. split; [lia|]. split; [reflexivity|].
    intros b' o _ Q. apply FR. intros (-> & ->). apply Q. lia.
  - destruct S as (l & -> & L & F). destruct K as (-> & -> & K). destruct SZ as (_ & SZ). cbn [single data_size stored] in *.
    replace (Z.to_nat n) with (List.length l) by (unfold len in L; lia).
    destruct (contig_ok t c SZ (IH c SZ K) (fun x => advance_shaped t c x K) l m b off sz F N O ltac:(rewrite L; exact R)) as (m' & E & ST & EF).
    exists m'. split; [exact E|]. rewrite L in EF. split; [exists l; auto|exact EF].
  - destruct S as (l & -> & F). destruct K as (-> & K). cbn [single data_size stored] in *. unfold alloc. set (b' := List.length (sizes m)).
    assert (BL : (b < b')%nat) by (apply nth_error_Some; congruence).
    pose proof (len_nonneg l) as LN.
    destruct (write_ok es (Mem (sizes m ++ [len l * es]) (cells m)) b off (Ref b' (len l)) sz) as (m1 & E1 & SE1 & C1 & FR1); cbn [sizes width]; [rewrite nth_error_app1 by exact BL; exact N|exact O|exact R|].
    rewrite E1. cbn [bind]. cbn [sizes cells] in *.
    destruct (contig_ok Elem c I (IH c I K) (fun x => advance_shaped Elem c x K) l m1 b' 0 (len l * es) F) as (m2 & E2 & ST & (L2 & Z2 & C2)).
    { rewrite SE1. rewrite nth_error_app2 by (unfold b'; lia). unfold b'. rewrite Nat.sub_diag. reflexivity. }
    { lia. } { cbn [data_size]. lia. }
    assert (LS : List.length (sizes m1) = S b') by (rewrite SE1, app_length; cbn [List.length]; unfold b'; lia).
    exists m2. split; [exact E2|]. split.
    + exists l, b'. split; [reflexivity|]. split; [rewrite C2; [exact C1|lia|lia]|]. split; [lia|].
      intros i y H. exact (ST i y H).
    + split; [fold b'; lia|]. split.
      * intros i H. rewrite Z2 by lia. rewrite SE1. apply nth_error_app1. exact H.
      * intros b2 o H Q. fold b' in H. rewrite C2 by lia. apply FR1. intros (-> & ->). apply Q. lia.
Qed.

(** ** Reading *)
Lemma stored_reads : forall t m b off x path, stored es t m b off x ->
  match value_at x path with Some v => read es t m b off path = Ok v | None => exists e, read es t m b off path = Throw e end.
Proof.
  induction t as [|n t IH|t IH]; intros m b off x path H; cbn [stored] in H.
  - destruct H as (v & -> & C). destruct path as [|i path]; cbn [value_at read]; [rewrite C; reflexivity|eexists; reflexivity].
  - destruct H as (l & -> & L & H). destruct path as [|i path]; cbn [value_at read]; [eexists; reflexivity|].
    destruct (nth_error l i) as [y|] eqn:I.
    + pose proof (nth_lt l i y I). destruct (Z.ltb_spec (Z.of_nat i) n); [|lia]. apply IH. exact (H i y I).
    + apply nth_error_None in I. destruct (Z.ltb_spec (Z.of_nat i) n); [unfold len in L; lia|]. eexists; reflexivity.
  - destruct H as (l & b' & -> & C & _ & H). destruct path as [|i path]; cbn [value_at read]; [eexists; reflexivity|]. rewrite C.
    destruct (nth_error l i) as [y|] eqn:I.
    + pose proof (nth_lt l i y I). destruct (Z.ltb_spec (Z.of_nat i) (len l)); [|lia]. apply IH. exact (H i y I).
    + apply nth_error_None in I. destruct (Z.ltb_spec (Z.of_nat i) (len l)); [unfold len in *; lia|]. eexists; reflexivity.
Qed.

(** ** The kernel of a type *)
Definition good (kd : kind) (s : list Z) : Prop :=
  forall i, (i < List.length s)%nat -> (S i < List.length s)%nat \/ kd = Vec -> nth i s 0 <> -1.
Lemma mk_kernel_cases : forall kd s,
  (good kd s -> exists k, mk_kernel es kd (List.length s) (from_shape s) = Ok k /\ kern_for es (from_shape s) k) /\
  (~ good kd s -> mk_kernel es kd (List.length s) (from_shape s) = UB).
Proof.
  intros kd s. induction s as [|n s (IH1 & IH2)].
  - split; [intros _; exists KElem; split; reflexivity|]. intros H. exfalso. apply H. intros i I. cbn in I. lia.
  - assert (GS : good kd (n :: s) <-> (n = -1 -> kd = IList /\ s = []) /\ good kd s).
    { split.
      - intros G. split.
        + intros ->. destruct s as [|q s]; [|exfalso; apply (G 0%nat); [cbn; lia|left; cbn; lia|reflexivity]].
          destruct kd; [exfalso; apply (G 0%nat); [cbn; lia|right; reflexivity|reflexivity]|auto].
        + intros i I D. apply (G (S i)); [cbn; lia|]. destruct D as [D|D]; [left; cbn; lia|right; exact D].
      - intros (A & G) [|i] I D; cbn [nth].
        + intros E. destruct (A E) as (-> & ->). destruct D as [D|D]; [cbn in D; lia|discriminate].
        + apply G; [cbn in I; lia|]. destruct D as [D|D]; [left; cbn in D; lia|right; exact D]. }
    cbn [from_shape List.length]. destruct (Z.eqb_spec n (-1)) as [E|E]; cbn [mk_kernel].
    + destruct kd; [split; [intros G; destruct (proj1 (proj1 GS G) E); discriminate|reflexivity]|].
      destruct s as [|q s].
      * cbn [from_shape List.length mk_kernel bind]. split; [intros _; exists (KVar KElem); repeat split|].
        intros G. exfalso. apply G. apply GS. split; [auto|]. intros i I. cbn in I. lia.
      * cbn [List.length]. split; [intros G; destruct (proj1 (proj1 GS G) E); discriminate|reflexivity].
    + split.
      * intros G. destruct (IH1 (proj2 (proj1 GS G))) as (k & K & KF). rewrite K. cbn [bind]. exists (KFixed n (size (from_shape s)) k). split; [reflexivity|].
        cbn [kern_for]. auto.
      * intros G. rewrite IH2; [reflexivity|]. intros G'. apply G. apply GS. split; [intros; contradiction|exact G'].
Qed.
Lemma sized_shape : forall s, (forall n, In n s -> -1 <= n) -> sized (from_shape s).
Proof.
  induction s as [|n s IH]; intros H; [exact I|]. cbn [from_shape]. specialize (IH (fun z Q => H z (or_intror Q))). pose proof (H n (or_introl eq_refl)).
  destruct (Z.eqb_spec n (-1)); cbn [sized]; [exact IH|]. split; [lia|exact IH].
Qed.
End Kernels.
Lemma dim_of_even : forall i x n, dim_of (level i x) n -> (n <> -1 <-> even i x).
Proof.
  intros i x n [(N & P & F)|(-> & a & b & A & B & AB)].
  - split; [|lia]. intros _ a b A B. rewrite Forall_forall in F. rewrite <- (F a A), <- (F b B). reflexivity.
  - split; [congruence|]. intros E. exfalso. apply AB. exact (E a b A B).
Qed.
Lemma summary_bound : forall s d x, summary s d (fun i => level i x) -> forall n, In n s -> -1 <= n.
Proof.
  intros s d x (L & D) n H. destruct (In_nth s n 0 H) as (i & I & <-). specialize (D i ltac:(lia)).
  destruct D as [(_ & P & _)|(-> & _)]; lia.
Qed.
