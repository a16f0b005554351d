From Verif Require Import Base RefCountModel RefCountSpec.
Open Scope nat_scope.

(** Lists. *)
Lemma upd_length {A} (l : list A) i x : List.length (upd l i x) = List.length l.
Proof. revert i. induction l; intros [|i]; cbn [upd List.length]; auto. Qed.
Lemma upd_get {A} (l : list A) i x j : nth_error (upd l i x) j = if Nat.eqb j i then match nth_error l i with Some _ => Some x | None => None end else nth_error l j.
Proof.
  revert i j. induction l as [|a l IH]; intros [|i] [|j]; cbn [upd nth_error Nat.eqb]; auto.
  - destruct (Nat.eqb j i); reflexivity.
Qed.
Lemma upd_same {A} (l : list A) i x : i < List.length l -> nth_error (upd l i x) i = Some x.
Proof. intros H. rewrite upd_get, Nat.eqb_refl. destruct (nth_error l i) eqn:E; auto. apply nth_error_None in E. lia. Qed.
Lemma upd_other {A} (l : list A) i x j : j <> i -> nth_error (upd l i x) j = nth_error l j.
Proof. intros H. rewrite upd_get. destruct (Nat.eqb_spec j i); congruence. Qed.
Definition sumf {A} (f : A -> nat) (l : list A) : nat := sum (map f l).
Lemma sumf_nil {A} (f : A -> nat) : sumf f [] = 0.
Proof. reflexivity. Qed.
Lemma sumf_cons {A} (f : A -> nat) a l : sumf f (a :: l) = f a + sumf f l.
Proof. reflexivity. Qed.
Lemma sumf_app {A} (f : A -> nat) l1 l2 : sumf f (l1 ++ l2) = sumf f l1 + sumf f l2.
Proof. induction l1; cbn [app]; rewrite ?sumf_nil, ?sumf_cons; lia. Qed.
Lemma sumf_upd {A} (f : A -> nat) l i a x : nth_error l i = Some a -> sumf f (upd l i x) + f a = sumf f l + f x.
Proof.
  revert i. induction l as [|b l IH]; intros [|i] H; try discriminate; cbn [upd nth_error] in *; rewrite !sumf_cons.
  - injection H as ->. lia.
  - specialize (IH _ H). lia.
Qed.
Lemma sumf_ge {A} (f : A -> nat) l i a : nth_error l i = Some a -> f a <= sumf f l.
Proof. revert i. induction l as [|b l IH]; intros [|i] H; try discriminate; cbn [nth_error] in *; rewrite sumf_cons; [injection H as ->|specialize (IH _ H)]; lia. Qed.
Lemma sumf_pos {A} (f : A -> nat) l : 0 < sumf f l -> exists i a, nth_error l i = Some a /\ 0 < f a.
Proof.
  induction l as [|b l IH]; rewrite ?sumf_nil, ?sumf_cons; intros H; [lia|]. destruct (f b) eqn:E.
  - destruct IH as (i & a & I & P); [lia|]. exists (S i), a. auto.
  - exists 0, b. split; [reflexivity|lia].
Qed.
Lemma sumf_ext {A} (f g : A -> nat) l : (forall a, In a l -> f a = g a) -> sumf f l = sumf g l.
Proof. induction l as [|a l IH]; intros H; [reflexivity|]. rewrite !sumf_cons. rewrite (H a) by (left; reflexivity). rewrite IH; auto. intros; apply H; right; auto. Qed.

(** Weights. *)
Definition wv (o : nat) (c : cell) : nat := if owned c then points o (ptr c) else 0.
Definition wf (o : nat) (b : obj) : nat := if alive b then sumf (points o) (fields b) else 0.
Definition cr (o : nat) (m : micro) : nat := match m with MRelease q => points o (Some q) | _ => 0 end.
Definition cp (o : nat) (m : micro) : nat := match m with MRetain q => points o (Some q) | _ => 0 end.
Definition cd (o : nat) (m : micro) : nat := match m with MDelete q => points o (Some q) | _ => 0 end.
Definition wt (f : micro -> nat) (x : option (op * list micro)) : nat := match x with Some (_, k) => sumf f k | None => 0 end.
Definition RV (s : state) (o : nat) : nat := sumf (wv o) (vars s).
Definition RF (s : state) (o : nat) : nat := sumf (wf o) (heap s).
Definition TR (s : state) (o : nat) : nat := sumf (wt (cr o)) (thr s).
Definition PT (s : state) (o : nat) : nat := sumf (wt (cp o)) (thr s).
Definition DT (s : state) (o : nat) : nat := sumf (wt (cd o)) (thr s).
Definition refs (s : state) (o : nat) : nat := RV s o + RF s o + TR s o.

Lemma points_eq o p : points o p = if match p with Some q => Nat.eqb q o | None => false end then 1 else 0.
Proof. destruct p; reflexivity. Qed.
Lemma points_pos o p : 0 < points o p <-> p = Some o.
Proof. destruct p as [q|]; cbn [points]; [destruct (Nat.eqb_spec q o)|]; split; intros; try lia; congruence. Qed.
Lemma points_same o : points o (Some o) = 1.
Proof. cbn. rewrite Nat.eqb_refl. reflexivity. Qed.
Lemma release_cr o p : sumf (cr o) (release p) = points o p.
Proof. destruct p as [q|]; [|reflexivity]. cbn [release]. rewrite sumf_cons, sumf_nil. cbn [cr]. lia. Qed.
Lemma release_cp o p : sumf (cp o) (release p) = 0.
Proof. destruct p; reflexivity. Qed.
Lemma release_cd o p : sumf (cd o) (release p) = 0.
Proof. destruct p; reflexivity. Qed.
Lemma retain_cp o p : sumf (cp o) (retain p) = points o p.
Proof. destruct p as [q|]; [|reflexivity]. cbn [retain]. rewrite sumf_cons, sumf_nil. cbn [cp]. lia. Qed.
Lemma retain_cr o p : sumf (cr o) (retain p) = 0.
Proof. destruct p; reflexivity. Qed.
Lemma retain_cd o p : sumf (cd o) (retain p) = 0.
Proof. destruct p; reflexivity. Qed.
Lemma releases_cr o l : sumf (cr o) (flat_map release l) = sumf (points o) l.
Proof. induction l as [|p l IH]; [reflexivity|]. cbn [flat_map]. rewrite sumf_app, release_cr, sumf_cons, IH. reflexivity. Qed.
Lemma releases_cp o l : sumf (cp o) (flat_map release l) = 0.
Proof. induction l as [|p l IH]; [reflexivity|]. cbn [flat_map]. rewrite sumf_app, release_cp, IH. reflexivity. Qed.
Lemma releases_cd o l : sumf (cd o) (flat_map release l) = 0.
Proof. induction l as [|p l IH]; [reflexivity|]. cbn [flat_map]. rewrite sumf_app, release_cd, IH. reflexivity. Qed.

(** The threads. *)
Definition destr (m : micro) : Prop := match m with MRelease _ | MDelete _ => True | _ => False end.
(** Reading a source without looking at whether the object is alive. *)
Definition sread (s : state) (r : source) : option (option nat) :=
  match r with
  | SVar x => if Nat.ltb x (List.length (vars s)) then Some (getv s x) else None
  | SField x i => match getv s x with Some o => match nth_error (heap s) o with Some b => nth_error (fields b) i | None => None end | None => None end
  end.
Inductive thread_ok (s : state) : op -> list micro -> Prop :=
| ok_first p : pre s p -> alias_free p -> thread_ok s p [first_step p]
| ok_destr p k : Forall destr k -> thread_ok s p k
| ok_assign v r ds q : Forall destr ds -> src_var r <> v -> (exists c, nth_error (vars s) v = Some c /\ owned c = false) -> sread s r = Some q -> thread_ok s (Assign v r) (ds ++ [MAssign2 v r])
| ok_raw v r ds q : Forall destr ds -> src_var r <> v -> (exists c, nth_error (vars s) v = Some c /\ owned c = false) -> sread s r = Some q -> thread_ok s (AssignRaw v r) (ds ++ [MRaw2 v q])
| ok_move v x ds : Forall destr ds -> (exists c, nth_error (vars s) v = Some c /\ owned c = false) -> x < List.length (vars s) -> thread_ok s (MoveA v x) (ds ++ [MMoveA2 v x])
| ok_retain p v r o : p = Copy v r \/ p = Assign v r \/ p = AssignRaw v r -> src_var r <> v -> sread s r = Some (Some o) -> getv s v = Some o -> thread_ok s p [MRetain o].
(** The variable whose assignment is under way. *)
Fixpoint in_limbo (k : list micro) : option nat :=
  match k with
  | [] => None
  | MAssign2 v _ :: _ | MRaw2 v _ :: _ | MMoveA2 v _ :: _ => Some v
  | _ :: k => in_limbo k
  end.
Record Inv (s : state) : Prop := {
  I_alive : forall o b, nth_error (heap s) o = Some b -> alive b = true -> (cnt b + Z.of_nat (PT s o) = Z.of_nat (refs s o))%Z;
  I_dead : forall o, ~ is_alive s o -> refs s o + PT s o + DT s o = 0;
  I_del : forall o, is_alive s o -> DT s o = if Nat.eqb (refs s o) 0 then 1 else 0;
  I_frees : forall o b, nth_error (heap s) o = Some b -> frees b = if alive b then 0 else 1;
  I_thr : forall i p k, nth_error (thr s) i = Some (Some (p, k)) -> thread_ok s p k;
  I_compat : forall i j p q k l, i <> j -> nth_error (thr s) i = Some (Some (p, k)) -> nth_error (thr s) j = Some (Some (q, l)) -> compatible p q;
  I_own : forall v c, nth_error (vars s) v = Some c -> owned c = false -> exists i p k, nth_error (thr s) i = Some (Some (p, k)) /\ In v (writes p) /\ in_limbo k = Some v;
  I_acyc : forall o b o', nth_error (heap s) o = Some b -> In (Some o') (fields b) -> o' < o }.

Lemma alive_dec s o : is_alive s o \/ ~ is_alive s o.
Proof.
  unfold is_alive. destruct (nth_error (heap s) o) as [b|]; [destruct (alive b) eqn:E|].
  - left. eauto.
  - right. intros (x & X & Y). congruence.
  - right. intros (x & X & Y). congruence.
Qed.
Lemma refs_alive s o : Inv s -> 0 < refs s o + PT s o + DT s o -> is_alive s o.
Proof. intros I H. destruct (alive_dec s o) as [A|A]; auto. pose proof (I_dead s I o A). lia. Qed.

Lemma getv_nth s v c : nth_error (vars s) v = Some c -> getv s v = ptr c.
Proof. intros H. unfold getv. rewrite H. reflexivity. Qed.
Lemma getv_some s v o : getv s v = Some o -> v < List.length (vars s).
Proof. unfold getv. intros H. apply nth_error_Some. destruct (nth_error (vars s) v); congruence. Qed.

(** A variable a thread reads or writes is owned, unless it is the one in limbo. *)
Lemma owned_own s i p k v : Inv s -> nth_error (thr s) i = Some (Some (p, k)) -> In v (writes p ++ reads p) -> in_limbo k <> Some v -> v < List.length (vars s) ->
  exists c, nth_error (vars s) v = Some c /\ owned c = true.
Proof.
  intros I T V L B. destruct (nth_error (vars s) v) as [c|] eqn:E; [|apply nth_error_None in E; lia]. exists c. split; [reflexivity|].
  destruct (owned c) eqn:O; [reflexivity|]. exfalso. destruct (I_own s I v c E O) as (j & q & l & T' & W & Q).
  destruct (Nat.eq_dec j i) as [->|N]; [congruence|]. destruct (I_compat s I i j p q k l ltac:(auto) T T') as (C1 & C2). apply in_app_or in V as [V|V].
  - apply C1 in V. tauto.
  - apply C2 in V. tauto.
Qed.
Lemma owned_refs s v c o : nth_error (vars s) v = Some c -> owned c = true -> ptr c = Some o -> 0 < RV s o.
Proof. intros E O P. unfold RV. pose proof (sumf_ge (wv o) (vars s) v c E) as G. unfold wv in G at 1. rewrite O, P, points_same in G. lia. Qed.
Lemma field_refs_pos s o b o' : nth_error (heap s) o = Some b -> alive b = true -> In (Some o') (fields b) -> 0 < RF s o'.
Proof.
  intros E A F. unfold RF. pose proof (sumf_ge (wf o') (heap s) o b E) as G. unfold wf in G at 1. rewrite A in G. 
  apply In_nth_error in F as (i & F). pose proof (sumf_ge (points o') (fields b) i _ F) as G2. rewrite points_same in G2. lia.
Qed.
(** A source a thread may read: it can, and what it finds is counted. *)
Lemma source_read s i p k r q : Inv s -> nth_error (thr s) i = Some (Some (p, k)) -> In (src_var r) (reads p) -> in_limbo k <> Some (src_var r) -> sread s r = Some q ->
  read s r = Ok q /\ forall o, q = Some o -> 0 < RV s o + RF s o.
Proof.
  intros I T R L S. destruct r as [x|x j]; cbn [sread read src_var] in *.
  - destruct (Nat.ltb_spec x (List.length (vars s))) as [B|B]; [|discriminate]. injection S as <-. split; [reflexivity|]. intros o E.
    destruct (owned_own s i p k x I T) as (c & C & O); auto; [apply in_or_app; auto|]. rewrite (getv_nth _ _ _ C) in E. pose proof (owned_refs s x c o C O E). lia.
  - destruct (getv s x) as [o|] eqn:G; [|discriminate]. destruct (nth_error (heap s) o) as [b|] eqn:E; [|discriminate].
    destruct (owned_own s i p k x I T) as (c & C & O); auto; [apply in_or_app; auto|eapply getv_some; eauto|]. rewrite (getv_nth _ _ _ C) in G. pose proof (owned_refs s x c o C O G) as P.
    assert (A : is_alive s o) by (apply refs_alive; auto; unfold refs; lia). destruct A as (b' & E' & A). rewrite E in E'. injection E' as <-. rewrite A, S. split; [reflexivity|].
    intros o' ->. assert (0 < RF s o') by (eapply field_refs_pos; eauto; eapply nth_error_In; eauto). lia.
Qed.
