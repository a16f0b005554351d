(** Basic facts about types, variables and dimension fragments. *)
From Verif Require Import Base TypesModel MatchModel MatchSpec.
Local Open Scope string_scope.
Local Open Scope Z_scope.

Section TyInd.
  Variable P : ty -> Prop.
  Hypothesis HB : forall b, P (TBuiltin b).
  Hypothesis HL : forall l, P (TLeaf l).
  Hypothesis HF : forall n e, P e -> P (TFixedDim n e).
  Hypothesis HV : forall e, P e -> P (TVarDim e).
  Hypothesis HP : forall e, P e -> P (TPointer e).
  Hypothesis HO : forall e, P e -> P (TOption e).
  Hypothesis HT : forall l v, Forall P l -> P (TTuple l v).
  Hypothesis HS : forall n l v, Forall P l -> P (TStruct n l v).
  Hypothesis HC : forall r p k, P r -> P p -> P k -> P (TCallable r p k).
  Hypothesis HA : P TAny.
  Hypothesis HSc : P TScalar.
  Hypothesis HK : forall k, P (TKind k).
  Hypothesis HFK : forall e, P e -> P (TFixedDimKind e).
  Hypothesis HDK : forall e, P e -> P (TDimKind e).
  Hypothesis HTv : forall s, P (TTypevar s).
  Hypothesis HTd : forall s e, P e -> P (TTypevarDim s e).
  Hypothesis HE : forall s e, P e -> P (TEllipsis s e).
  Hypothesis HPw : forall b s e, P b -> P e -> P (TPow b s e).
  Hypothesis HDf : forall l, P (TDimFragment l).
  Fixpoint ty_ind' (t : ty) : P t :=
    let go := fix go (l : list ty) : Forall P l :=
                match l with [] => Forall_nil P | x :: l' => Forall_cons x (ty_ind' x) (go l') end in
    match t with
    | TBuiltin b => HB b
    | TLeaf l => HL l
    | TFixedDim n e => HF n e (ty_ind' e)
    | TVarDim e => HV e (ty_ind' e)
    | TPointer e => HP e (ty_ind' e)
    | TOption e => HO e (ty_ind' e)
    | TTuple l v => HT l v (go l)
    | TStruct n l v => HS n l v (go l)
    | TCallable r p k => HC r p k (ty_ind' r) (ty_ind' p) (ty_ind' k)
    | TAny => HA
    | TScalar => HSc
    | TKind k => HK k
    | TFixedDimKind e => HFK e (ty_ind' e)
    | TDimKind e => HDK e (ty_ind' e)
    | TTypevar s => HTv s
    | TTypevarDim s e => HTd s e (ty_ind' e)
    | TEllipsis s e => HE s e (ty_ind' e)
    | TPow b s e => HPw b s e (ty_ind' b) (ty_ind' e)
    | TDimFragment l => HDf l
    end.
End TyInd.

(** ** Equality *)
Lemma leaf_eqb_eq a b : leaf_eqb a b = true <-> a = b.
Proof.
  destruct a, b; cbn [leaf_eqb]; rewrite ?andb_true_iff, ?Z.eqb_eq; split; intros H; try discriminate; auto;
    try (destruct H; subst; reflexivity); try (subst; reflexivity); injection H; auto.
Qed.
Lemma skind_id_inj a b : skind_id a = skind_id b -> a = b.
Proof. destruct a, b; cbn; intros H; try reflexivity; discriminate. Qed.
Lemma list_eqb_eq {A} (f : A -> A -> bool) : (forall x y, f x y = true <-> x = y) -> forall l m, list_eqb f l m = true <-> l = m.
Proof.
  intros Hf. induction l as [|x l IH]; destruct m as [|y m]; cbn [list_eqb]; split; intros H; try discriminate; auto.
  - apply andb_true_iff in H as [H1 H2]. apply Hf in H1. apply IH in H2. congruence.
  - injection H as -> ->. apply andb_true_iff. split; [apply Hf | apply IH]; reflexivity.
Qed.
Lemma ty_eqb_eq a : forall b, ty_eqb a b = true <-> a = b.
Proof.
  assert (L : forall l, Forall (fun a => forall b, ty_eqb a b = true <-> a = b) l ->
     forall m, (fix go (l m : list ty) : bool :=
              match l, m with
              | [], [] => true
              | x :: l', y :: m' => ty_eqb x y && go l' m'
              | _, _ => false
              end) l m = true <-> l = m).
  { induction 1 as [|x l Hx Hl IH]; destruct m as [|y m]; cbn; split; intros H; try discriminate; auto.
    - apply andb_true_iff in H as [H1 H2]. apply Hx in H1. apply IH in H2. congruence.
    - injection H as -> ->. apply andb_true_iff. split; [apply Hx | apply IH]; reflexivity. }
  induction a using ty_ind'; intros b'; destruct b'; cbn; split; intros H'; try discriminate; auto;
    rewrite ?andb_true_iff, ?Z.eqb_eq, ?String.eqb_eq, ?Bool.eqb_true_iff in *.
  all: try (apply builtin_eqb_eq in H'; congruence).
  all: try (injection H' as Hq; subst; apply builtin_eqb_eq; reflexivity).
  all: try (apply leaf_eqb_eq in H'; congruence).
  all: try (injection H' as ->; apply leaf_eqb_eq; reflexivity).
  all: try (apply skind_id_inj in H'; congruence).
  all: try (injection H' as ->; reflexivity).
  all: try (apply and_comm in H'; destruct H' as [H' Hq]; subst; apply IHa in H'; congruence).
  all: try (injection H' as Hq Hq'; subst; split; [reflexivity | apply IHa; reflexivity]).
  all: try (apply IHa in H'; congruence).
  all: try (injection H' as ->; apply IHa; reflexivity).
  - destruct H' as [H' ->]. apply (L l) in H'; [congruence | assumption].
  - injection H' as -> ->. split; [apply (L _ H); reflexivity | reflexivity].
  - destruct H' as [[H' Hn] ->]. apply (L l) in H'; [| assumption]. apply (list_eqb_eq _ String.eqb_eq) in Hn. congruence.
  - injection H' as -> -> ->. repeat split; [apply (L _ H); reflexivity | apply (list_eqb_eq _ String.eqb_eq); reflexivity].
  - destruct H' as [[H1 H2] H3]. apply IHa1 in H1. apply IHa2 in H2. apply IHa3 in H3. congruence.
  - injection H' as -> -> ->. repeat split; [apply IHa1 | apply IHa2 | apply IHa3]; reflexivity.
  - congruence.
  - destruct H' as [[H1 ->] H3]. apply IHa1 in H1. apply IHa2 in H3. congruence.
  - injection H' as -> -> ->. repeat split; [apply IHa1 | apply IHa2]; reflexivity.
  - apply (list_eqb_eq _ Z.eqb_eq) in H'. congruence.
  - injection H' as ->. apply (list_eqb_eq _ Z.eqb_eq). reflexivity.
Qed.
Lemma ty_eqb_refl a : ty_eqb a a = true.
Proof. apply ty_eqb_eq. reflexivity. Qed.

(** ** Dimensions *)
Lemma ndim_nonneg t : 0 <= ndim t.
Proof. induction t using ty_ind'; cbn [ndim]; lia. Qed.
Definition is_dim (t : ty) : bool := match t with TFixedDim _ _ | TVarDim _ => true | _ => false end.
Lemma concrete_cases c : concrete c = true -> plain_options c = true ->
  (exists d f, c = put1 d f /\ ndim c = 1 + ndim f /\ concrete f = true /\ plain_options f = true /\ (match d with DFixed n => 0 <= n | DVar => True end)) \/
  (ndim c = 0 /\ is_dim c = false).
Proof.
  intros H P. destruct c; cbn in H; try discriminate; try (right; split; reflexivity).
  - left. apply andb_true_iff in H as [H1 H2]. exists (DFixed n), c. cbn in *. repeat split; auto. apply Z.leb_le; auto.
  - left. exists DVar, c. cbn in *. auto.
  - right. cbn in *. apply andb_true_iff in P as [P1 P2]. split; [apply Z.eqb_eq; auto | reflexivity].
Qed.
Lemma concrete_not_variadic c : concrete c = true -> variadic_flag c = false.
Proof.
  induction c using ty_ind'; cbn; intros H0; try discriminate; auto.
  - apply andb_true_iff in H0 as [_ H0]. auto.
  - apply andb_true_iff in H0 as [H0 _]. auto.
Qed.
Lemma concrete_not_symbolic c : concrete c = true -> symbolic c = false.
Proof.
  assert (L : forall l, Forall (fun c => concrete c = true -> symbolic c = false) l -> forallb concrete l = true -> existsb symbolic l = false).
  { induction 1 as [|x l Hx Hl IH]; cbn; intros H; auto. apply andb_true_iff in H as [H1 H2]. rewrite Hx, IH; auto. }
  induction c using ty_ind'; cbn; intros H0; try discriminate; auto.
  - apply andb_true_iff in H0 as [_ H0]. auto.
  - apply andb_true_iff in H0 as [H0 _]. auto.
  - apply andb_true_iff in H0 as [H1 H2]. destruct v; [discriminate|]. cbn. auto.
  - apply andb_true_iff in H0 as [H1 H2]. apply andb_true_iff in H1 as [H1 _]. destruct v; [discriminate|]. cbn. auto.
Qed.
Lemma concrete_not_any c : concrete c = true -> match c with TAny => true | _ => false end = false.
Proof. destruct c; cbn; intros; try discriminate; auto. Qed.
Lemma type_at_dim_0 t : type_at_dim t 0 = Ok t.
Proof. destruct t; reflexivity. Qed.
Lemma type_at_dim_put1 d f i : 0 < i -> type_at_dim (put1 d f) i = type_at_dim f (i - 1).
Proof. intros H. destruct d; cbn [put1 type_at_dim]; destruct (Z.eqb_spec i 0); try lia; reflexivity. Qed.
Lemma type_at_dim_put ds f : type_at_dim (put ds f) (Z.of_nat (List.length ds)) = Ok f.
Proof.
  induction ds as [|d ds IH]; cbn [put fold_right List.length].
  - apply type_at_dim_0.
  - rewrite type_at_dim_put1 by lia. replace (Z.of_nat (S (List.length ds)) - 1) with (Z.of_nat (List.length ds)) by lia. exact IH.
Qed.
Lemma ndim_put ds f : ndim (put ds f) = Z.of_nat (List.length ds) + ndim f.
Proof. induction ds as [|d ds IH]; cbn [put fold_right List.length]; [lia|]. fold (put ds f). destruct d; cbn [put1 ndim]; lia. Qed.
Definition dim_ok (d : dim) : Prop := match d with DFixed n => 0 <= n | DVar => True end.
Lemma split_dims n : forall c, concrete c = true -> plain_options c = true -> Z.of_nat n <= ndim c ->
  exists ds f, c = put ds f /\ List.length ds = n /\ concrete f = true /\ plain_options f = true /\ Forall dim_ok ds.
Proof.
  induction n as [|n IH]; intros c Hc Hp Hn.
  - exists [], c. repeat split; auto.
  - destruct (concrete_cases c Hc Hp) as [[d [f [-> [Hd [H1 [H2 H3]]]]]] | [H0 _]]; [| lia].
    destruct (IH f H1 H2 ltac:(lia)) as [ds [g [-> [Hl [Hg [Hg2 Hds]]]]]].
    exists (d :: ds), g. repeat split; cbn [List.length]; auto.
Qed.
Lemma concrete_put ds f : concrete (put ds f) = true -> concrete f = true /\ Forall dim_ok ds.
Proof.
  induction ds as [|d ds IH]; cbn [put fold_right]; [auto | fold (put ds f); intros H].
  destruct d; cbn in H.
  - apply andb_true_iff in H as [H1 H2]. apply IH in H2 as [H2 H3]. split; auto. constructor; auto. cbn. apply Z.leb_le; auto.
  - apply IH in H as [H2 H3]. split; auto. constructor; cbn; auto.
Qed.
Lemma plain_put ds f : plain_options (put ds f) = true -> plain_options f = true.
Proof. induction ds as [|d ds IH]; cbn [put fold_right]; [auto | fold (put ds f); intros H]. destruct d; cbn in H; auto. Qed.

(** ** Variables *)
Lemma find_upd vs s t s' : is_null t = false -> find (upd vs s t) s' = if String.eqb s s' then Some t else find vs s'.
Proof. intros H. unfold find, upd. cbn [find_raw]. destruct (String.eqb s s'); [rewrite H|]; reflexivity. Qed.
Lemma find_raw_of vs s t : find vs s = Some t -> find_raw vs s = Some t.
Proof. unfold find. destruct (find_raw vs s); [|discriminate]. destruct (is_null t0); congruence. Qed.
Lemma concrete_not_null c : concrete c = true -> is_null c = false.
Proof. destruct c; cbn; intros H; auto. destruct b; auto; discriminate. Qed.

(** ** Tags *)
Definition tag_of (d : dim) : Z := match d with DFixed n => n | DVar => -1 end.
Lemma dim_of_tag_of d : dim_ok d -> dim_of_tag (tag_of d) = d.
Proof. destruct d; cbn; intros H; unfold dim_of_tag; [destruct (Z.eqb_spec n (-1)); [lia|reflexivity] | reflexivity]. Qed.
Lemma dims_of_tags_of ds : Forall dim_ok ds -> map dim_of_tag (map tag_of ds) = ds.
Proof. induction 1; cbn; [reflexivity|]. rewrite dim_of_tag_of by auto. f_equal. auto. Qed.
Lemma tags_ge ds : Forall dim_ok ds -> forallb (fun g => -1 <=? g) (map tag_of ds) = true.
Proof. induction 1; cbn; auto. rewrite IHForall, andb_true_r. apply Z.leb_le. destruct x; cbn in *; lia. Qed.
Lemma tags_from_put ds f : tags_from (List.length ds) (put ds f) = Ok (map tag_of ds, f).
Proof.
  induction ds as [|d ds IH]; [reflexivity|]. cbn [List.length put fold_right]. fold (put ds f).
  destruct d; cbn [put1 tags_from]; rewrite IH; reflexivity.
Qed.
Lemma apply_frag_put l t : forallb (fun g => -1 <=? g) l = true -> apply_frag l t = put (map dim_of_tag l) t.
Proof.
  induction l as [|g l IH]; cbn [apply_frag map put fold_right forallb]; intros H; [reflexivity|].
  apply andb_true_iff in H as [H1 H2]. apply Z.leb_le in H1. rewrite (IH H2). fold (put (map dim_of_tag l) t). generalize (put (map dim_of_tag l) t). intros u. unfold dim_of_tag.
  destruct (Z.eqb_spec g (-1)); [reflexivity|]. destruct (Z.eqb_spec g (-2)); [lia|]. reflexivity.
Qed.

(** ** Broadcasting *)
Lemma dim_le_refl d : dim_le d d.
Proof. left. reflexivity. Qed.
Lemma dim_le_trans a b c : dim_le a b -> dim_le b c -> dim_le a c.
Proof. intros [-> | H1] H2; auto. right. exact H1. Qed.
Lemma Forall2_dim_refl l : Forall2 dim_le l l.
Proof. induction l; constructor; auto using dim_le_refl. Qed.
Lemma Forall2_dim_trans a b c : Forall2 dim_le a b -> Forall2 dim_le b c -> Forall2 dim_le a c.
Proof. intros H. revert c. induction H; intros c Hc; inversion Hc; subst; constructor; eauto using dim_le_trans. Qed.
Lemma bc_refl l : broadcasts_to l l.
Proof. exists [], l. split; [reflexivity|apply Forall2_dim_refl]. Qed.
Lemma Forall2_app_split {A B} (R : A -> B -> Prop) l : forall m1 m2, Forall2 R l (m1 ++ m2) ->
  exists l1 l2, l = (l1 ++ l2)%list /\ Forall2 R l1 m1 /\ Forall2 R l2 m2.
Proof. intros m1 m2 H. apply Forall2_app_inv_r in H as [l1 [l2 [H1 [H2 ->]]]]. eauto. Qed.
Lemma bc_trans a b c : broadcasts_to a b -> broadcasts_to b c -> broadcasts_to a c.
Proof.
  intros [p1 [t1 [-> H1]]] [p2 [t2 [-> H2]]].
  apply Forall2_app_inv_l in H2 as [u1 [u2 [H3 [H4 ->]]]].
  exists (p2 ++ u1)%list, u2. split; [rewrite app_assoc; reflexivity|]. eapply Forall2_dim_trans; eauto.
Qed.
Lemma bc_app pre l m : broadcasts_to l m -> broadcasts_to l (pre ++ m).
Proof. intros [p [t [-> H]]]. exists (pre ++ p)%list, t. split; [rewrite app_assoc; reflexivity|auto]. Qed.
Lemma bc_nil l : broadcasts_to [] l.
Proof. exists l, []. split; [rewrite app_nil_r; reflexivity | constructor]. Qed.

(** bc_tags on a concrete candidate: every entry it leaves readable lies above
    both the old entry and the candidate's dimension. *)
Lemma all_written_cons o l r : all_written (o :: l) = Ok r -> exists x r', o = Some x /\ all_written l = Ok r' /\ r = x :: r'.
Proof. cbn. destruct o; [|discriminate]. destruct (all_written l); cbn; try discriminate. intros H. injection H as <-. eauto. Qed.
Lemma bind_ok {A B} (x : outcome A) (f : A -> outcome B) r : bind x f = Ok r -> exists a, x = Ok a /\ f a = Ok r.
Proof. destruct x; cbn; try discriminate. eauto. Qed.
Lemma bc_tags_ok ds : forall f tags out r w, List.length tags = List.length ds ->
  Forall dim_ok ds -> forallb (fun g => -1 <=? g) tags = true ->
  Forall2 (fun o g => o = None \/ o = Some g) out tags ->
  bc_tags (put ds f) tags out = Ok (Some r) -> all_written r = Ok w ->
  Forall2 dim_le ds (map dim_of_tag w) /\ Forall2 dim_le (map dim_of_tag tags) (map dim_of_tag w) /\ forallb (fun g => -1 <=? g) w = true.
Proof.
  induction ds as [|d ds IH]; intros f tags out r w Hl Hd Ht Ho Hb Hw.
  - destruct tags; [|discriminate]. inversion Ho; subst. cbn in Hb. injection Hb as <-. cbn in Hw. injection Hw as <-. cbn. auto.
  - destruct tags as [|g tags]; [discriminate|]. inversion Ho as [|o g0 out' tags0 Ho1 Ho2]; subst.
    inversion Hd as [|d0 ds0 Hd1 Hd2]; subst. cbn [forallb] in Ht. apply andb_true_iff in Ht as [Hg Ht]. apply Z.leb_le in Hg.
    assert (Hl' : List.length tags = List.length ds) by (cbn in Hl; lia). clear Hl.
    assert (K : forall o', (do r <- bc_tags (put ds f) tags out'; Ok (match r with Some l => Some (o' :: l) | None => None end)) = Ok (Some r) ->
       (forall x, o' = Some x -> dim_le d (dim_of_tag x) /\ dim_le (dim_of_tag g) (dim_of_tag x) /\ -1 <= x) ->
       Forall2 dim_le (d :: ds) (map dim_of_tag w) /\ Forall2 dim_le (map dim_of_tag (g :: tags)) (map dim_of_tag w) /\ forallb (fun g => -1 <=? g) w = true).
    { intros o' H Hx. apply bind_ok in H as [rr [H1 H2]]. destruct rr as [l|]; [|discriminate]. injection H2 as <-.
      apply all_written_cons in Hw as [x [r' [-> [Hw ->]]]].
      destruct (IH f tags out' l r' Hl' Hd2 Ht Ho2 H1 Hw) as [A [B C]].
      destruct (Hx x eq_refl) as [D [E F]]. cbn [map forallb]. repeat split; try (constructor; auto).
      rewrite C, andb_true_r. apply Z.leb_le; auto. }
    cbn [put fold_right] in Hb. fold (put ds f) in Hb. destruct d as [n|]; cbn [put1 bc_tags] in Hb.
    + destruct ((g <? 0) || (g =? 1)) eqn:Eg.
      * apply (K (Some n)); auto. intros x Hx. injection Hx as <-. cbn in Hd1.
        assert (Hn : dim_of_tag n = DFixed n) by (unfold dim_of_tag; destruct (Z.eqb_spec n (-1)); [lia|reflexivity]).
        rewrite Hn. split; [left; reflexivity|]. split; [|lia]. unfold dim_of_tag.
        apply orb_true_iff in Eg as [Eg|Eg].
        -- apply Z.ltb_lt in Eg. replace g with (-1) by lia. right. right. reflexivity.
        -- apply Z.eqb_eq in Eg. subst g. right. left. reflexivity.
      * apply orb_false_iff in Eg as [Eg1 Eg2]. apply Z.ltb_ge in Eg1.
        destruct (negb (g =? n) && negb (n =? 1)) eqn:En; [discriminate|].
        apply (K o); auto. intros x Hx. destruct Ho1 as [Ho1|Ho1]; [congruence|]. rewrite Ho1 in Hx. injection Hx as <-.
        split; [|split; [apply dim_le_refl | lia]].
        apply andb_false_iff in En as [En|En]; apply negb_false_iff, Z.eqb_eq in En; subst.
        -- unfold dim_of_tag. destruct (Z.eqb_spec n (-1)); [lia|]. apply dim_le_refl.
        -- right. left. reflexivity.
    + apply (K o); auto. intros x Hx. destruct Ho1 as [Ho1|Ho1]; [congruence|]. rewrite Ho1 in Hx. injection Hx as <-.
      split; [right; right; reflexivity | split; [apply dim_le_refl | lia]].
Qed.
