From Verif Require Import Base CallModel CallSpec.
Local Open Scope string_scope.
Local Open Scope list_scope.

Section Slots.
Context {P A : Type}.
Implicit Types (kwds : list (@kwd P)) (kw : list (string * A)) (slots : list (@slot A)).

Lemma index_some kwds n k : kwd_index kwds n = Some k -> exists kd, nth_error kwds k = Some kd /\ k_name kd = n.
Proof.
  revert k; induction kwds as [ | d kwds IH ]; intros k; cbn [kwd_index]; [ discriminate | ].
  destruct (String.eqb_spec (k_name d) n) as [ E | E ].
  - intros X; injection X as <-; exists d; auto.
  - destruct (kwd_index kwds n) as [ j | ]; cbn [option_map]; [ | discriminate ].
    intros X; injection X as <-; destruct (IH j eq_refl) as (kd & K & N); exists kd; auto.
Qed.

Lemma index_nth kwds : NoDup (map k_name kwds) -> forall k kd, nth_error kwds k = Some kd -> kwd_index kwds (k_name kd) = Some k.
Proof.
  induction kwds as [ | d kwds IH ]; intros ND k kd E; [ destruct k; discriminate | ].
  cbn [map] in ND; inversion ND as [ | ? ? NI ND' ]; subst; cbn [kwd_index].
  destruct k as [ | k ]; cbn [nth_error] in E.
  - injection E as ->; rewrite String.eqb_refl; reflexivity.
  - destruct (String.eqb_spec (k_name d) (k_name kd)) as [ X | X ].
    + destruct NI; rewrite X; apply nth_error_In in E; apply in_map; auto.
    + rewrite (IH ND' k kd E); reflexivity.
Qed.

Lemma index_none kwds n : kwd_index kwds n = None <-> ~ In n (map k_name kwds).
Proof.
  induction kwds as [ | d kwds IH ]; cbn [kwd_index map In]; [ tauto | ].
  destruct (String.eqb_spec (k_name d) n) as [ E | E ].
  - split; [ discriminate | intros X; destruct X; auto ].
  - destruct (kwd_index kwds n); cbn [option_map]; split; try discriminate.
      * intros X; destruct IH as (_ & IH); discriminate IH; tauto.
      * intros _ [ X | X ]; [ auto | apply (proj1 IH eq_refl X) ].
      * auto.
Qed.

Lemma set_length i s slots : List.length (set_slot i s slots) = List.length slots.
Proof. revert i; induction slots; intros [ | i ]; cbn [set_slot List.length]; auto. Qed.

Lemma set_nth i s slots k : (i < List.length slots)%nat ->
  nth_error (set_slot i s slots) k = if (k =? i)%nat then Some s else nth_error slots k.
Proof.
  revert i k; induction slots as [ | x l IH ]; intros i k H; cbn [List.length] in H; [ lia | ].
  destruct i as [ | i ]; cbn [set_slot]; destruct k as [ | k ]; cbn [nth_error Nat.eqb]; auto.
  apply IH; lia.
Qed.

Definition is_empty (s : @slot A) : bool := match s with Empty => true | _ => false end.
Definition empties (l : list (@slot A)) : nat := List.length (filter is_empty l).
Definition specials kwds kw : nat :=
  List.length (filter (fun p => match kwd_index kwds (fst p) with None => true | _ => false end) kw).

Lemma set_empties i a slots : nth_error slots i = Some Empty -> forall n, (i < n)%nat ->
  S (empties (firstn n (set_slot i (Given a) slots))) = empties (firstn n slots).
Proof.
  unfold empties; revert i; induction slots as [ | x l IH ]; intros [ | i ] E n H; cbn [nth_error] in E; try discriminate;
    (destruct n; [ lia | ]); cbn [set_slot firstn filter].
  - injection E as ->; reflexivity.
  - specialize (IH i E n ltac:(lia)); destruct (is_empty x); cbn [List.length]; lia.
Qed.

(* what a keyword slot holds after binding *)
Definition slot_after kwds kw slots (k : nat) : option slot :=
  match nth_error slots k with
  | Some Empty =>
      match nth_error kwds k with
      | Some kd => match passed (k_name kd) kw with Some a => Some (Given a) | None => Some Empty end
      | None => Some Empty
      end
  | x => x
  end.

Lemma fill_ok kwds : forall slots, 
  List.length (fst (fill kwds slots)) = List.length slots /\
  (forall k, nth_error (fst (fill kwds slots)) k =
     match nth_error slots k, nth_error kwds k with
     | Some Empty, Some kd => Some (if k_opt kd then NA else Empty)
     | x, _ => x
     end) /\
  (empties (firstn (List.length kwds) (fst (fill kwds slots))) + snd (fill kwds slots) =
   empties (firstn (List.length kwds) slots))%nat.
Proof.
  induction kwds as [ | kd kwds IH ]; intros slots.
  - cbn; repeat split; auto; intros k; destruct (nth_error slots k) as [ [ | | ] | ]; auto; destruct k; auto.
  - destruct slots as [ | s slots ]; cbn [fill].
    { repeat split; auto; intros k; destruct k; auto. }
    destruct (IH slots) as (L & N & C); unfold empties in *; cbn [List.length firstn].
    destruct s; [ destruct (k_opt kd) eqn:O | | ]; cbn [fst snd filter is_empty List.length]; repeat split; try lia;
      intros [ | k ]; cbn [nth_error]; try rewrite O; auto.
Qed.

End Slots.

Section Proofs.
Context {P T V A : Type}.
Variable matches : P -> T -> V -> option V.
Variables (type_of value_type_of : A -> T) (as_type : A -> option T).
Implicit Types (kwds : list (@kwd P)) (kw : list (string * A)) (slots : list (@slot A)).

Lemma bind_ok kwds : NoDup (map k_name kwds) -> forall kw slots d v slots' d' v',
  bind_kwds matches type_of value_type_of as_type kwds kw slots d v = Ok (slots', d', v') ->
  List.length slots' = List.length slots /\
  (forall k, nth_error slots' k = slot_after kwds kw slots k) /\
  (forall n a, In (n, a) kw ->
     (exists k, kwd_index kwds n = Some k /\ nth_error slots k = Some Empty) \/
     (kwd_index kwds n = None /\ (n = "dst_tp" \/ n = "dst"))) /\
  (empties (firstn (List.length kwds) slots') + List.length kw =
   empties (firstn (List.length kwds) slots) + specials kwds kw)%nat.
Proof.
  intros ND; induction kw as [ | (name, a) kw IH ]; intros slots d v slots' d' v'; cbn [bind_kwds].
  - intros E; injection E as <- <- <-; repeat split; auto.
    + intros k; unfold slot_after; cbn [passed].
      destruct (nth_error slots k) as [ [ | | ] | ]; auto; destruct (nth_error kwds k); auto.
    + intros n a [].
  - unfold specials; cbn [filter fst]; destruct (kwd_index kwds name) as [ k | ] eqn:EI.
    + destruct (nth_error slots k) as [ s | ] eqn:ES; [ | discriminate ].
      destruct s; [ | destruct (nth_error kwds k); discriminate | destruct (nth_error kwds k); discriminate ].
      destruct (nth_error kwds k) as [ kd | ] eqn:EK; [ | discriminate ].
      destruct (matches (k_pat kd) (value_type_of a) v) as [ v1 | ]; [ | discriminate ].
      intros E; apply IH in E; destruct E as (L & N & I & C).
      assert (KL : (k < List.length slots)%nat) by (apply nth_error_Some; congruence).
      assert (KN : k_name kd = name) by (destruct (index_some _ _ _ EI) as (kd' & K' & N'); congruence).
      split; [ rewrite L, set_length; auto | split; [ | split ] ].
      * intros j; rewrite N; unfold slot_after; rewrite set_nth by auto; cbn [passed].
        destruct (Nat.eqb_spec j k) as [ -> | NE ].
        -- rewrite ES, EK, KN, String.eqb_refl; reflexivity.
        -- destruct (nth_error slots j) as [ [ | | ] | ]; auto.
           destruct (nth_error kwds j) as [ kj | ] eqn:EJ; auto.
           destruct (String.eqb_spec name (k_name kj)) as [ X | X ]; auto.
           apply (index_nth kwds ND) in EJ; congruence.
      * intros n b [ X | X ]; [ injection X as <- <-; left; exists k; auto | ].
        destruct (I n b X) as [ (j & J1 & J2) | J ]; [ left | right; auto ].
        rewrite set_nth in J2 by auto; destruct (Nat.eqb_spec j k); [ discriminate | exists j; auto ].
      * pose proof (set_empties k a slots ES (List.length kwds)) as SE.
        assert (KK : (k < List.length kwds)%nat) by (apply nth_error_Some; congruence).
        specialize (SE KK); cbn [List.length] in *; unfold specials in C; lia.
    + assert (G : forall d0, name = "dst_tp" \/ name = "dst" ->
        bind_kwds matches type_of value_type_of as_type kwds kw slots d0 v = Ok (slots', d', v') -> 
        List.length slots' = List.length slots /\
        (forall k, nth_error slots' k = slot_after kwds ((name, a) :: kw) slots k) /\
        (forall n b, In (n, b) ((name, a) :: kw) ->
          (exists k, kwd_index kwds n = Some k /\ nth_error slots k = Some Empty) \/
          (kwd_index kwds n = None /\ (n = "dst_tp" \/ n = "dst"))) /\
        (empties (firstn (List.length kwds) slots') + S (List.length kw) =
         empties (firstn (List.length kwds) slots) + S (specials kwds kw))%nat).
      { intros d0 NM E; apply IH in E; destruct E as (L & N & I & C).
        split; [ auto | split; [ | split; [ | lia ] ] ].
        - intros j; rewrite N; unfold slot_after; cbn [passed].
          destruct (nth_error slots j) as [ [ | | ] | ]; auto.
          destruct (nth_error kwds j) as [ kj | ] eqn:EJ; auto.
          destruct (String.eqb_spec name (k_name kj)) as [ X | X ]; auto.
          apply (index_nth kwds ND) in EJ; congruence.
        - intros n b [ X | X ]; [ injection X as <- <-; right; auto | eauto ]. }
      cbn [List.length]; change (List.length (filter _ kw)) with (specials kwds kw).
      destruct (String.eqb_spec name "dst_tp") as [ X | X ].
      * destruct (as_type a); [ | discriminate ]; apply G; auto.
      * destruct (String.eqb_spec name "dst") as [ Y | Y ]; [ | discriminate ]; apply G; auto.
Qed.

Lemma args_ok pats : forall args v v', check_args matches type_of pats args v = Ok v' ->
  (List.length pats <= List.length args)%nat /\
  forall i p a, nth_error pats i = Some p -> nth_error args i = Some a -> exists v1 v2, matches p (type_of a) v1 = Some v2.
Proof.
  induction pats as [ | p pats IH ]; intros args v v'; cbn [check_args].
  - intros _; split; [ cbn; lia | intros [ | i ]; discriminate ].
  - destruct args as [ | a args ]; [ discriminate | ]; destruct (matches p (type_of a) v) as [ v1 | ] eqn:E; [ | discriminate ].
    intros X; apply IH in X; destruct X as (L & H); split; [ cbn; lia | ].
    intros [ | i ] q b; cbn [nth_error]; [ intros Q B; injection Q as <-; injection B as <-; eauto | apply H ].
Qed.

Lemma kwds_typed kwds : forall kw slots d v slots' d' v',
  bind_kwds matches type_of value_type_of as_type kwds kw slots d v = Ok (slots', d', v') ->
  forall n a k kd, In (n, a) kw -> kwd_index kwds n = Some k -> nth_error kwds k = Some kd ->
  exists v1 v2, matches (k_pat kd) (value_type_of a) v1 = Some v2.
Proof.
  induction kw as [ | (name, a) kw IH ]; intros slots d v slots' d' v'; cbn [bind_kwds]; [ intros _ n a k kd [] | ].
  destruct (kwd_index kwds name) as [ k | ] eqn:EI.
  - destruct (nth_error slots k) as [ [ | | ] | ]; try discriminate; destruct (nth_error kwds k) as [ kd | ] eqn:EK; try discriminate.
    destruct (matches (k_pat kd) (value_type_of a) v) as [ v1 | ] eqn:EM; [ | discriminate ].
    intros E n b j kj [ X | X ] J K; [ | eapply IH; eauto ].
    injection X as <- <-; rewrite EI in J; injection J as <-; rewrite EK in K; injection K as <-; eauto.
  - destruct (name =? "dst_tp"); [ destruct (as_type a); [ | discriminate ] | destruct (name =? "dst"); [ | discriminate ] ];
      intros E n b j kj [ X | X ] J K; try (injection X as <- <-; congruence); eapply IH; eauto.
Qed.

(* completeness *)
Fixpoint match_args (pats : list P) (args : list A) (v : V) : option V :=
  match pats, args with
  | p :: pats', a :: args' => match matches p (type_of a) v with Some v' => match_args pats' args' v' | None => None end
  | [], _ => Some v
  | _, _ => None
  end.
Fixpoint match_kwds kwds kw (v : V) : option V :=
  match kw with
  | [] => Some v
  | (n, a) :: kw' =>
      match kwd_index kwds n with
      | Some k =>
          match nth_error kwds k with
          | Some kd => match matches (k_pat kd) (value_type_of a) v with Some v' => match_kwds kwds kw' v' | None => None end
          | None => None
          end
      | None => match_kwds kwds kw' v
      end
  end.

Lemma check_args_match pats : forall args v v', match_args pats args v = Some v' -> check_args matches type_of pats args v = Ok v'.
Proof.
  induction pats as [ | p pats IH ]; intros [ | a args ] v v'; cbn [match_args check_args]; try discriminate; try (intros X; injection X as <-; auto; fail).
  destruct (matches p (type_of a) v); [ apply IH | discriminate ].
Qed.
Lemma check_args_inv pats : forall args v v', check_args matches type_of pats args v = Ok v' -> match_args pats args v = Some v'.
Proof.
  induction pats as [ | p pats IH ]; intros [ | a args ] v v'; cbn [match_args check_args]; try discriminate; try (intros X; injection X as <-; auto; fail).
  destruct (matches p (type_of a) v); [ apply IH | discriminate ].
Qed.

(* the destination that is asked for: the last of the special keywords *)
Fixpoint asked kwds kw (d : @dest T A) : @dest T A :=
  match kw with
  | [] => d
  | (n, a) :: kw' =>
      match kwd_index kwds n with
      | Some _ => asked kwds kw' d
      | None =>
          if n =? "dst_tp" then match as_type a with Some t => asked kwds kw' (Dst t None) | None => asked kwds kw' d end
          else asked kwds kw' (Dst (type_of a) (Some a))
      end
  end.

Lemma bind_complete kwds : NoDup (map k_name kwds) -> forall kw slots d v v',
  (forall n a, In (n, a) kw ->
     (exists k, kwd_index kwds n = Some k /\ nth_error slots k = Some Empty) \/
     (kwd_index kwds n = None /\ (n = "dst_tp" /\ as_type a <> None \/ n = "dst"))) ->
  NoDup (filter (fun n => match kwd_index kwds n with Some _ => true | None => false end) (map fst kw)) ->
  match_kwds kwds kw v = Some v' ->
  exists slots', bind_kwds matches type_of value_type_of as_type kwds kw slots d v = Ok (slots', asked kwds kw d, v').
Proof.
  intros ND; induction kw as [ | (name, a) kw IH ]; intros slots d v v' H N M; cbn [bind_kwds match_kwds asked] in *.
  - injection M as <-; eauto.
  - cbn [map filter fst] in N; destruct (H name a (or_introl eq_refl)) as [ (k & K & E) | (K & E) ]; rewrite K in *.
    + rewrite E; destruct (index_some _ _ _ K) as (kd & KD & KN); rewrite KD in *.
      destruct (matches (k_pat kd) (value_type_of a) v) as [ v1 | ]; [ | discriminate ].
      inversion N as [ | ? ? NI N' ]; subst.
      apply IH; auto; intros n b B; destruct (H n b (or_intror B)) as [ (j & J & EJ) | R ]; [ left | right; auto ].
      exists j; split; auto; rewrite set_nth by (apply nth_error_Some; congruence).
      destruct (Nat.eqb_spec j k) as [ -> | ]; auto; destruct NI; apply filter_In.
      destruct (index_some _ _ _ J) as (kd' & KD' & KN'); assert (n = k_name kd) by congruence; subst n.
      split; [ rewrite <- H0; apply (in_map fst _ (_, b) B) | rewrite K; auto ].
    + destruct (String.eqb_spec name "dst_tp") as [ -> | X ].
      * destruct E as [ (_ & E) | E ]; [ | discriminate ].
        destruct (as_type a); [ | congruence ]; apply IH; auto; intros; apply H; right; auto.
      * destruct E as [ (E & _) | -> ]; [ congruence | ]; cbn [String.eqb]; apply IH; auto; intros; apply H; right; auto.
Qed.

(* what was bound in the end, and each keyword once *)
Lemma bind_inv kwds : NoDup (map k_name kwds) -> forall kw slots d v slots' d' v',
  bind_kwds matches type_of value_type_of as_type kwds kw slots d v = Ok (slots', d', v') ->
  match_kwds kwds kw v = Some v' /\ d' = asked kwds kw d /\
  NoDup (filter (fun n => match kwd_index kwds n with Some _ => true | None => false end) (map fst kw)) /\
  (forall a, In ("dst_tp", a) kw -> kwd_index kwds "dst_tp" = None -> as_type a <> None).
Proof.
  intros ND; induction kw as [ | (name, a) kw IH ]; intros slots d v slots' d' v'; cbn [bind_kwds match_kwds asked map filter fst].
  - intros E; injection E as <- <- <-; repeat split; auto; constructor.
  - destruct (kwd_index kwds name) as [ k | ] eqn:K.
    + destruct (nth_error slots k) as [ [ | | ] | ] eqn:ES; try discriminate; destruct (nth_error kwds k) as [ kd | ] eqn:EK; try discriminate.
      destruct (matches (k_pat kd) (value_type_of a) v) as [ v1 | ]; [ | discriminate ].
      intros E; destruct (IH _ _ _ _ _ _ E) as (M & D & N & T0); repeat split; auto.
      * constructor; auto; intros I; apply filter_In in I; destruct I as (I & _).
        apply in_map_iff in I; destruct I as ((n, b) & X & I); cbn [fst] in X; subst n.
        destruct (bind_ok kwds ND _ _ _ _ _ _ _ E) as (_ & _ & H & _).
        destruct (H name b I) as [ (j & J & EJ) | (J & _) ]; [ | congruence ].
        assert (j = k) by congruence; subst j.
        rewrite set_nth, Nat.eqb_refl in EJ by (apply nth_error_Some; congruence); discriminate.
      * intros b [ X | X ] Q; [ injection X as -> _; congruence | eauto ].
    + destruct (String.eqb_spec name "dst_tp") as [ -> | X ].
      * destruct (as_type a) eqn:AT; [ | discriminate ].
        intros E; destruct (IH _ _ _ _ _ _ E) as (M & D & N & T0); repeat split; auto.
        intros b [ Y | Y ] Q; [ injection Y as <-; congruence | eauto ].
      * destruct (String.eqb_spec name "dst") as [ -> | Y ]; [ | discriminate ].
        intros E; destruct (IH _ _ _ _ _ _ E) as (M & D & N & T0); repeat split; auto.
        intros b [ Z1 | Z1 ] Q; [ congruence | eauto ].
Qed.
End Proofs.
