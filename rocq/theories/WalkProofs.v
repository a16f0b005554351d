(** Lemmas for C155, C156. *)
From Verif Require Import Base NestModel NestSpec WalkModel WalkSpec.
Open Scope Z_scope.

Lemma elems_pos : forall dims, Forall (Z.le 1) dims -> 1 <= elems dims.
Proof. induction 1 as [|n r H F IH]; cbn [elems]; nia. Qed.
(** The iterator at the element [k] of an array at [a]. *)
Fixpoint at_k (dims : list Z) (a k : Z) : levels :=
  match dims with
  | [] => []
  | n :: r => (a + k / elems r * elems r, a + n * elems r) :: at_k r (a + k / elems r * elems r) (k mod elems r)
  end.
Lemma begin_at : forall dims a, Forall (Z.le 1) dims -> a_begin dims a = at_k dims a 0.
Proof.
  induction dims as [|n r IH]; intros a F; [reflexivity|]. inversion F as [|? ? F1 F2]; subst. pose proof (elems_pos r F2).
  cbn [a_begin at_k]. rewrite Z.div_small, Z.mod_small by lia. rewrite Z.mul_0_l, Z.add_0_r. rewrite (IH a F2). reflexivity.
Qed.
(** After the last element: the innermost levels are at the beginning of the array
    that would come next. *)
Definition past (dims : list Z) (a : Z) : levels :=
  match dims with [] => [] | n :: r => (a + n * elems r, a + n * elems r) :: at_k r (a + n * elems r) 0 end.
Lemma incr_node : forall n n' r' c e inner, a_incr (n :: n' :: r') ((c, e) :: inner) =
  match a_incr (n' :: r') inner with
  | (ci, ei) :: inner' =>
      if ci =? ei then (c + elems (n' :: r'), e) :: (c + elems (n' :: r'), c + elems (n' :: r') + n' * elems r') :: inner'
      else (c, e) :: (ci, ei) :: inner'
  | [] => []
  end.
Proof. reflexivity. Qed.
Lemma div_next : forall k s, 0 < s -> 0 <= k -> k mod s + 1 < s -> (k + 1) / s = k / s /\ (k + 1) mod s = k mod s + 1.
Proof.
  intros k s S K H. pose proof (Z.div_mod k s ltac:(lia)). pose proof (Z.mod_pos_bound k s S).
  assert (Q : (k + 1) / s = k / s) by (symmetry; apply (Z.div_unique (k + 1) s (k / s) (k mod s + 1)); lia).
  split; [exact Q|]. symmetry. apply (Z.mod_unique (k + 1) s (k / s) (k mod s + 1)); lia.
Qed.
Lemma div_wrap : forall k s, 0 < s -> 0 <= k -> k mod s + 1 = s -> (k + 1) / s = k / s + 1 /\ (k + 1) mod s = 0.
Proof.
  intros k s S K H. pose proof (Z.div_mod k s ltac:(lia)).
  split; symmetry; [apply (Z.div_unique (k + 1) s (k / s + 1) 0); lia|apply (Z.mod_unique (k + 1) s (k / s + 1) 0); lia].
Qed.
Lemma incr_at : forall dims a k, dims <> [] -> Forall (Z.le 1) dims -> 0 <= k < elems dims ->
  a_incr dims (at_k dims a k) = if k + 1 <? elems dims then at_k dims a (k + 1) else past dims a.
Proof.
  induction dims as [|n r IH]; intros a k N F K; [congruence|]. inversion F as [|? ? F1 F2]; subst. destruct r as [|n' r'].
  - cbn [at_k a_incr past elems] in *. rewrite !Z.div_1_r, !Z.mul_1_r in *. destruct (Z.ltb_spec (k + 1) n); [f_equal; f_equal; lia|]. f_equal. f_equal; lia.
  - pose proof (elems_pos _ F2) as P. set (r := n' :: r') in *. cbn [elems] in K. set (s := elems r) in *.
    pose proof (Z.mod_pos_bound k s ltac:(lia)) as MB. pose proof (Z.div_mod k s ltac:(lia)) as DM. pose proof (Z.div_pos k s ltac:(lia) ltac:(lia)) as DP.
    cbn [at_k]. fold s. unfold r. rewrite incr_node. fold r. fold s.
    rewrite (IH (a + k / s * s) (k mod s) ltac:(discriminate) F2 MB). fold s.
    assert (SP : forall b, at_k r b 0 = (b, b + n' * elems r') :: at_k r' b 0).
    { intros b. unfold r. cbn [at_k]. inversion F2; subst. pose proof (elems_pos r' ltac:(assumption)). rewrite Z.div_small, Z.mod_small by lia.
      rewrite Z.mul_0_l, Z.add_0_r. reflexivity. }
    assert (SE : s = n' * elems r') by reflexivity.
    destruct (Z.ltb_spec (k mod s + 1) s) as [LT|GE].
    + destruct (div_next k s ltac:(lia) ltac:(lia) LT) as (D1 & D2).
      assert (KN : k / s * s + s <= n * s). { assert (k / s < n) by (apply Z.div_lt_upper_bound; lia). nia. }
      cbn [elems]. fold s. destruct (Z.ltb_spec (k + 1) (n * s)); [|lia]. cbn [at_k]. fold s. rewrite D1, D2.
      unfold r at 1. cbn [at_k]. set (q := (k mod s + 1) / elems r').
      inversion F2 as [|? ? G1 G2]; subst. pose proof (elems_pos r' G2) as P'.
      assert (QB : q < n') by (apply Z.div_lt_upper_bound; lia).
      destruct (Z.eqb_spec (a + k / s * s + q * elems r') (a + k / s * s + n' * elems r')) as [E|E]; [nia|]. reflexivity.
    + assert (ME : k mod s + 1 = s) by lia. destruct (div_wrap k s ltac:(lia) ltac:(lia) ME) as (D1 & D2).
      unfold past. unfold r at 1. rewrite Z.eqb_refl. rewrite <- SE.
      cbn [elems]. fold s. destruct (Z.ltb_spec (k + 1) (n * s)) as [L2|G2].
      * cbn [at_k]. fold s. rewrite D1, D2, SP, <- SE. replace ((k / s + 1) * s) with (k / s * s + s) by lia. rewrite !Z.add_assoc. reflexivity.
      * assert (KE : k / s * s + s = n * s) by lia. replace (a + k / s * s + s) with (a + n * s) by lia. rewrite SP, <- SE. reflexivity.
Qed.
Lemma eq_past : forall dims a, Forall (Z.le 1) dims -> a_eq (at_k dims a 0) (a_end dims (a - elems dims)) = true.
Proof.
  induction dims as [|n r IH]; intros a F; [reflexivity|]. inversion F as [|? ? F1 F2]; subst. pose proof (elems_pos r F2).
  cbn [at_k a_end elems a_eq]. rewrite Z.div_small, Z.mod_small by lia. rewrite Z.mul_0_l, Z.add_0_r.
  replace (a - n * elems r + n * elems r) with a by lia. rewrite Z.eqb_refl. apply IH. exact F2.
Qed.
Lemma past_eq : forall dims a, Forall (Z.le 1) dims -> a_eq (past dims a) (a_end dims a) = true.
Proof.
  intros [|n r] a F; [reflexivity|]. inversion F as [|? ? F1 F2]; subst. cbn [past a_end a_eq]. rewrite Z.eqb_refl. apply eq_past. exact F2.
Qed.
Lemma last_deref : forall mem dims a k, dims <> [] -> Forall (Z.le 1) dims -> 0 <= k < elems dims -> 0 <= a ->
  a_deref mem (at_k dims a k) = match nth_error mem (Z.to_nat (a + k)) with Some v => Ok v | None => UB end.
Proof.
  intros mem. induction dims as [|n r IH]; intros a k N F K A; [congruence|]. inversion F as [|? ? F1 F2]; subst. pose proof (elems_pos r F2) as P.
  destruct r as [|n' r'].
  - cbn [at_k a_deref elems]. rewrite Z.div_1_r, Z.mul_1_r. destruct (Z.ltb_spec (a + k) 0); [lia|reflexivity].
  - set (r := n' :: r') in *. cbn [elems] in K. pose proof (Z.mod_pos_bound k (elems r) ltac:(lia)) as MB. pose proof (Z.div_mod k (elems r) ltac:(lia)) as DM.
    pose proof (Z.div_pos k (elems r) ltac:(lia) ltac:(lia)) as DP.
    cbn [at_k]. assert (Q : a_deref mem ((a + k / elems r * elems r, a + n * elems r) :: at_k r (a + k / elems r * elems r) (k mod elems r)) =
      a_deref mem (at_k r (a + k / elems r * elems r) (k mod elems r))) by reflexivity.
    rewrite Q. rewrite (IH _ _ ltac:(discriminate) F2 MB) by nia. replace (a + k / elems r * elems r + k mod elems r) with (a + k) by lia. reflexivity.
Qed.
Lemma not_end : forall dims a k, dims <> [] -> Forall (Z.le 1) dims -> 0 <= k < elems dims -> a_eq (at_k dims a k) (a_end dims a) = false.
Proof.
  intros [|n r] a k N F K; [congruence|]. inversion F as [|? ? F1 F2]; subst. pose proof (elems_pos r F2) as P. cbn [elems] in K.
  cbn [at_k a_end a_eq]. assert (k / elems r < n) by (apply Z.div_lt_upper_bound; lia).
  destruct (Z.eqb_spec (a + k / elems r * elems r) (a + n * elems r)); [nia|reflexivity].
Qed.
Lemma loop_at : forall dims pre l post, dims <> [] -> Forall (Z.le 1) dims -> elems dims = len l ->
  forall l2 l1 fuel, l = l1 ++ l2 -> l2 <> [] -> (List.length l2 < fuel)%nat ->
  a_loop fuel dims (pre ++ l ++ post) (at_k dims (len pre) (len l1)) (a_end dims (len pre)) l1 = Ok l.
Proof.
  intros dims pre l post N F E. induction l2 as [|v l2 IH]; intros l1 fuel EL NE FU; [congruence|]. destruct fuel as [|fuel]; [cbn in FU; lia|].
  assert (LL : len l = len l1 + 1 + len l2) by (rewrite EL; unfold len; rewrite app_length; cbn [List.length]; lia).
  assert (P1 : 0 <= len l1) by (unfold len; lia). assert (P2 : 0 <= len l2) by (unfold len; lia). assert (P3 : 0 <= len pre) by (unfold len; lia).
  cbn [a_loop]. rewrite not_end by (auto; lia). rewrite last_deref by (auto; lia).
  replace (Z.to_nat (len pre + len l1)) with (List.length pre + List.length l1)%nat by (unfold len; lia).
  rewrite nth_error_app2 by lia. replace (List.length pre + List.length l1 - List.length pre)%nat with (List.length l1) by lia.
  assert (NT : nth_error (l ++ post) (List.length l1) = Some v).
  { rewrite EL, <- app_assoc. rewrite nth_error_app2 by lia. rewrite Nat.sub_diag. reflexivity. }
  rewrite NT. cbn [bind]. rewrite incr_at by (auto; lia). rewrite E. destruct l2 as [|w l2].
  - destruct (Z.ltb_spec (len l1 + 1) (len l)) as [L|L]; [unfold len in *; cbn in *; lia|].
    destruct fuel as [|fuel]; [cbn in FU; lia|]. cbn [a_loop]. rewrite past_eq by exact F. rewrite EL. reflexivity.
  - destruct (Z.ltb_spec (len l1 + 1) (len l)) as [L|L]; [|unfold len in *; cbn [List.length] in *; lia].
    specialize (IH (l1 ++ [v]) fuel). replace (len (l1 ++ [v])) with (len l1 + 1) in IH by (unfold len; rewrite app_length; cbn [List.length]; lia).
    apply IH; [rewrite EL, <- app_assoc; reflexivity|discriminate|cbn [List.length] in *; lia].
Qed.
Lemma array_leaves : forall dims x, is_array dims x -> Forall (Z.le 1) dims /\ len (leaves x) = elems dims.
Proof.
  induction dims as [|n r IH]; intros x H; cbn [is_array] in H.
  - destruct H as (v & ->). split; [constructor|reflexivity].
  - destruct H as (l & -> & L & P & F). destruct l as [|y l]; [cbn in L; lia|].
    assert (FR : Forall (Z.le 1) r) by (inversion F; subst; apply (IH y); assumption).
    split; [constructor; [exact P|exact FR]|]. cbn [elems]. rewrite <- L. cbn [leaves]. clear L P.
    induction F as [|z q Z0 Q IHQ]; [unfold len; cbn; lia|]. cbn [flat_map]. destruct (IH z Z0) as (_ & LZ).
    unfold len in *. rewrite app_length. cbn [List.length]. lia.
Qed.

(** ** Vectors *)
Lemma v_incr_node : forall l i q inner, v_incr ((l, i) :: q :: inner) =
  do inner' <- v_incr (q :: inner);
  match inner' with
  | (li, ii) :: rest =>
      if (ii =? List.length li)%nat then
        match nth_error l (S i) with
        | Some (Node l') => Ok ((l, S i) :: (l', 0%nat) :: rest)
        | _ => UB
        end
      else Ok ((l, i) :: inner')
  | [] => UB
  end.
Proof. reflexivity. Qed.
(** With two levels or more the outermost index is always that of an element. *)
Definition inside (l : list nest) (it : vlevels) : Prop :=
  exists i q inner, it = (l, i) :: q :: inner /\ (i < List.length l)%nat.
Lemma incr_inside : forall l it it', inside l it -> v_incr it = Ok it' -> inside l it'.
Proof.
  intros l it it' (i & q & inner & -> & L) E. rewrite v_incr_node in E. destruct (v_incr (q :: inner)) as [[|(li, ii) rest]| | |]; cbn [bind] in E; try discriminate.
  destruct (ii =? List.length li)%nat.
  - destruct (nth_error l (S i)) as [[v|l']|] eqn:N; try discriminate. injection E as <-. exists (S i), (l', 0%nat), rest. split; [reflexivity|].
    apply nth_error_Some. congruence.
  - injection E as <-. exists i, (li, ii), rest. auto.
Qed.
Lemma loop_never : forall l fuel it last out r, inside l it -> (exists e, last = (l, List.length l) :: e) -> v_loop fuel it last out <> Ok r.
Proof.
  intros l. induction fuel as [|fuel IH]; intros it last out r I L; [discriminate|]. cbn [v_loop].
  destruct (I) as (i & q & inner & -> & LT). destruct L as (e & ->). cbn [v_eq]. destruct (Nat.eqb_spec i (List.length l)); [lia|]. cbn [andb].
  destruct (v_deref ((l, i) :: q :: inner)); cbn [bind]; try discriminate.
  destruct (v_incr ((l, i) :: q :: inner)) as [it'| | |] eqn:V; cbn [bind]; try discriminate.
  apply IH; [exact (incr_inside l _ it' I V)|exists e; reflexivity].
Qed.
Lemma v_begin_node : forall n l, v_begin (S (S n)) (Node l) = match l with y :: _ => do i <- v_begin (S n) y; Ok ((l, 0%nat) :: i) | [] => UB end.
Proof. reflexivity. Qed.
Lemma v_end_node : forall n l, v_end (S (S n)) (Node l) =
  match nth_error l (List.length l - 1) with Some y => do i <- v_end (S n) y; Ok ((l, List.length l) :: i) | None => UB end.
Proof. reflexivity. Qed.
Lemma v_begin_some : forall n x it, v_begin n x = Ok it -> exists q r, it = q :: r.
Proof.
  intros [|n] [v|l] it E; try discriminate. destruct n as [|n]; [injection E as <-; eexists; eexists; reflexivity|].
  rewrite v_begin_node in E. destruct l as [|y l]; [discriminate|]. destruct (v_begin (S n) y); cbn [bind] in E; try discriminate.
  injection E as <-. eexists; eexists; reflexivity.
Qed.
(** One level. *)
Lemma loop_one : forall l2 l1 out fuel, (List.length l2 < fuel)%nat ->
  v_loop fuel [(map Leaf (l1 ++ l2), List.length l1)] [(map Leaf (l1 ++ l2), List.length (l1 ++ l2))] out = Ok (out ++ l2).
Proof.
  induction l2 as [|v l2 IH]; intros l1 out fuel F; (destruct fuel as [|fuel]; [lia|]); cbn [v_loop v_eq].
  - rewrite !app_nil_r, Nat.eqb_refl. reflexivity.
  - rewrite app_length at 1. cbn [List.length]. destruct (Nat.eqb_spec (List.length l1) (List.length l1 + S (List.length l2))); [lia|]. cbn [andb v_deref].
    rewrite nth_error_map, nth_error_app2 by lia. rewrite Nat.sub_diag. cbn [nth_error option_map bind v_incr].
    rewrite map_length, app_length. cbn [List.length]. destruct (Nat.ltb_spec (List.length l1) (List.length l1 + S (List.length l2))); [|lia]. cbn [bind].
    specialize (IH (l1 ++ [v]) (out ++ [v]) fuel ltac:(cbn [List.length] in F; lia)). rewrite <- !app_assoc in IH. cbn [app] in IH.
    rewrite !app_length in IH. cbn [List.length] in IH. replace (List.length l1 + 1)%nat with (S (List.length l1)) in IH by lia. exact IH.
Qed.
(** Two levels. *)
Definition row (r : list Z) : nest := Node (map Leaf r).
Lemma leaves_row : forall r, leaves (row r) = r.
Proof. intros r. unfold row. cbn [leaves]. induction r as [|v r IH]; [reflexivity|]. cbn [map flat_map leaves app]. rewrite IH. reflexivity. Qed.
Lemma leaves_rows : forall rows, leaves (Node (map row rows)) = List.concat rows.
Proof. intros rows. cbn [leaves]. induction rows as [|r rows IH]; [reflexivity|]. cbn [map flat_map List.concat]. rewrite leaves_row, IH. reflexivity. Qed.
Lemma depth1_row : forall x, is_depth 1 x -> exists r, x = row r.
Proof.
  intros x (l & -> & F). assert (G : exists r, l = map Leaf r).
  { induction F as [|y l (v & ->) F (r & ->)]; [exists []; reflexivity|]. exists (v :: r). reflexivity. }
  destruct G as (r & ->). exists r. reflexivity.
Qed.
Lemma depth2_rows : forall x, is_depth 2 x -> exists rows, x = Node (map row rows).
Proof.
  intros x (l & -> & F). assert (G : exists rows, l = map row rows).
  { induction F as [|y l Y F (rows & ->)]; [exists []; reflexivity|]. destruct (depth1_row y Y) as (r & ->). exists (r :: rows). reflexivity. }
  destruct G as (rows & ->). exists rows. reflexivity.
Qed.
Lemma nth_mid : forall {A : Type} (a b : list A) x, nth_error (a ++ x :: b) (List.length a) = Some x.
Proof. intros A a b x. rewrite nth_error_app2 by lia. rewrite Nat.sub_diag. reflexivity. Qed.
Lemma step_two : forall r1 p v q r2, v_incr [(map row (r1 ++ (p ++ v :: q) :: r2), List.length r1); (map Leaf (p ++ v :: q), List.length p)] =
  match q with
  | _ :: _ => Ok [(map row (r1 ++ (p ++ v :: q) :: r2), List.length r1); (map Leaf (p ++ v :: q), S (List.length p))]
  | [] => match r2 with
          | [] => UB
          | r :: _ => Ok [(map row (r1 ++ (p ++ v :: q) :: r2), S (List.length r1)); (map Leaf r, 0%nat)]
          end
  end.
Proof.
  intros r1 p v q r2. rewrite v_incr_node. cbn [v_incr]. rewrite map_length, app_length. cbn [List.length].
  destruct (Nat.ltb_spec (List.length p) (List.length p + S (List.length q))); [|lia]. cbn [bind]. rewrite map_length, app_length. cbn [List.length].
  destruct q as [|w q]; cbn [List.length].
  - destruct (Nat.eqb_spec (S (List.length p)) (List.length p + 1)); [|lia]. rewrite nth_error_map. destruct r2 as [|r r2].
    + rewrite (proj2 (nth_error_None _ _)); [reflexivity|]. rewrite app_length. cbn. lia.
    + replace (S (List.length r1)) with (List.length (r1 ++ [p ++ [v]])) at 1 by (rewrite app_length; cbn; lia).
      replace (r1 ++ (p ++ [v]) :: r :: r2) with ((r1 ++ [p ++ [v]]) ++ r :: r2) at 1 by (rewrite <- app_assoc; reflexivity).
      rewrite nth_mid. reflexivity.
  - destruct (Nat.eqb_spec (S (List.length p)) (List.length p + S (S (List.length q)))); [lia|]. reflexivity.
Qed.
Lemma nth_two : forall rows, rows <> [] -> Forall (fun r => r <> []) rows -> forall k, (k < List.length (List.concat rows))%nat ->
  exists r1 p v q r2, rows = r1 ++ (p ++ v :: q) :: r2 /\ k = (List.length (List.concat r1) + List.length p)%nat /\
    v_nth k 2 (Node (map row rows)) = Ok [(map row rows, List.length r1); (map Leaf (p ++ v :: q), List.length p)].
Proof.
  intros rows NE F. induction k as [|k IH]; intros K.
  - destruct rows as [|r rows]; [congruence|]. inversion F as [|? ? F1 F2]; subst. destruct r as [|v q]; [congruence|].
    exists [], [], v, q, rows. split; [reflexivity|]. split; reflexivity.
  - destruct (IH ltac:(lia)) as (r1 & p & v & q & r2 & E & KE & N). pose proof (step_two r1 p v q r2) as ST. rewrite <- E in ST.
    change (v_nth (S k) 2 (Node (map row rows))) with (bind (v_nth k 2 (Node (map row rows))) v_incr). rewrite N. cbn [bind]. rewrite ST. clear ST.
    destruct q as [|w q].
    + destruct r2 as [|r r2].
      * exfalso. rewrite E in K. rewrite concat_app, app_length in K. cbn [List.concat] in K. rewrite app_nil_r, app_length in K. cbn [List.length] in K. lia.
      * assert (R : r <> []). { rewrite E in F. apply Forall_app in F as (_ & F). inversion F as [|? ? _ F2]; subst. inversion F2; assumption. }
        destruct r as [|w q]; [congruence|]. exists (r1 ++ [p ++ [v]]), [], w, q, r2. split; [rewrite E, <- app_assoc; reflexivity|]. split.
        -- rewrite concat_app, app_length. cbn [List.concat]. rewrite app_nil_r, app_length. cbn [List.length]. lia.
        -- rewrite app_length. cbn [List.length]. rewrite Nat.add_1_r. reflexivity.
    + exists r1, (p ++ [v]), w, q, r2. rewrite <- app_assoc. cbn [app]. split; [exact E|]. split.
      * rewrite app_length. cbn [List.length]. lia.
      * rewrite app_length. cbn [List.length]. rewrite Nat.add_1_r. reflexivity.
Qed.
Lemma deref_two : forall l i p v q, v_deref [(l, i); (map Leaf (p ++ v :: q), List.length p)] = Ok v.
Proof. intros l i p v q. cbn [v_deref]. rewrite nth_error_map, nth_mid. reflexivity. Qed.
Lemma last_two : forall rows, rows <> [] -> Forall (fun r => r <> []) rows -> v_nth (List.length (List.concat rows)) 2 (Node (map row rows)) = UB.
Proof.
  intros rows NE F. assert (P : (0 < List.length (List.concat rows))%nat).
  { destruct rows as [|r rows]; [congruence|]. inversion F as [|? ? F1 F2]; subst. destruct r; [congruence|]. cbn. lia. }
  destruct (List.length (List.concat rows)) as [|n] eqn:L; [lia|]. destruct (nth_two rows NE F n ltac:(lia)) as (r1 & p & v & q & r2 & E & KE & N).
  pose proof (step_two r1 p v q r2) as ST. rewrite <- E in ST.
  change (v_nth (S n) 2 (Node (map row rows))) with (bind (v_nth n 2 (Node (map row rows))) v_incr). rewrite N. cbn [bind]. rewrite ST. clear ST.
  rewrite E in L. rewrite concat_app, app_length in L. cbn [List.concat] in L. rewrite !app_length in L. cbn [List.length] in L.
  destruct q as [|w q]; [|cbn [List.length] in L; lia]. destruct r2 as [|r r2]; [reflexivity|]. exfalso.
  rewrite E in F. apply Forall_app in F as (_ & F). inversion F as [|? ? _ F2]; subst. inversion F2 as [|? ? R _]; subst.
  destruct r; [congruence|]. cbn in L. rewrite app_length in L. lia.
Qed.
