From Verif Require Import Base TypesModel RegistryModel RegistrySpec.

Definition heads (r : registry) : list (string * Z) := map (fun e => (name e, base_id e)) (infos r).

Lemma set_nth_length l i e : (i < List.length l)%nat -> List.length (set_nth l i e) = List.length l.
Proof. intros H. unfold set_nth. rewrite !app_length, firstn_length, skipn_length. cbn. lia. Qed.
Lemma set_nth_get l i e j : (i < List.length l)%nat -> nth_error (set_nth l i e) j = if Nat.eqb j i then Some e else nth_error l j.
Proof.
  intros H. unfold set_nth. assert (F : List.length (firstn i l) = i) by (rewrite firstn_length; lia).
  destruct (Nat.eqb_spec j i) as [->|N].
  - rewrite nth_error_app2 by lia. rewrite F, Nat.sub_diag. reflexivity.
  - destruct (Nat.lt_ge_cases j i).
    + rewrite nth_error_app1 by lia. rewrite <- (firstn_skipn i l) at 2. rewrite nth_error_app1 by lia. reflexivity.
    + rewrite nth_error_app2 by lia. rewrite F. replace (j - i)%nat with (S (j - S i))%nat by lia. cbn [nth_error app].
      rewrite <- (firstn_skipn (S i) l) at 2. rewrite nth_error_app2; rewrite firstn_length; [|lia]. f_equal. lia.
Qed.
Lemma set_nth_heads l i e ii : nth_error l i = Some ii -> name e = name ii -> base_id e = base_id ii ->
  map (fun x => (name x, base_id x)) (set_nth l i e) = map (fun x => (name x, base_id x)) l.
Proof.
  intros H N B. assert (L : (i < List.length l)%nat) by (apply nth_error_Some; congruence).
  unfold set_nth. rewrite <- (firstn_skipn i l) at 3. rewrite !map_app. f_equal. cbn [map app]. rewrite N, B.
  rewrite <- (firstn_skipn i l) in H. rewrite nth_error_app2 in H by (rewrite firstn_length; lia).
  rewrite firstn_length in H. replace (i - Nat.min i (List.length l))%nat with 0%nat in H by lia.
  assert (S : skipn (S i) l = tl (skipn i l)). { clear. revert l. induction i; intros [|x l]; cbn [skipn tl]; auto. apply IHi. }
  rewrite S. destruct (skipn i l); [discriminate|]. injection H as ->. reflexivity.
Qed.
Lemma register_spec r id s c p :
  let '(r', o) := register_known r id s c p in
  (r' = r /\ (exists m, o = Throw m)) \/
  (0 <= id < Z.of_nat (List.length (infos r)) /\ construction r id = Some (None, None, None) /\ gen r' = gen r /\ cap r' = cap r /\ heads r' = heads r /\
   construction r' id = Some (s, c, match c with Some _ => match p with Some q => Some q | None => Some default_parse end | None => None end) /\
   (forall j, j <> id -> 0 <= j -> construction r' j = construction r j) /\
   o = match c, p with None, Some _ => Throw "runtime_error" | _, _ => Ok tt end).
Proof.
  unfold register_known. destruct ((id <? 0) || (id >=? Z.of_nat (List.length (infos r)))) eqn:R; [left; eauto|].
  apply orb_false_iff in R as (R1 & R2). assert (R : 0 <= id < Z.of_nat (List.length (infos r))) by lia. clear R1 R2.
  destruct (nth_error (infos r) (Z.to_nat id)) as [ii|] eqn:E.
  2: { apply nth_error_None in E. lia. }
  destruct (is_some (singleton ii) || is_some (construct ii) || is_some (parse_args ii)) eqn:S; [left; eauto|].
  apply orb_false_iff in S as (S & S3). apply orb_false_iff in S as (S1 & S2).
  assert (C0 : construction r id = Some (None, None, None)).
  { unfold construction. rewrite E. destruct (singleton ii), (construct ii), (parse_args ii); try discriminate. reflexivity. }
  assert (P3 : parse_args ii = None) by (destruct (parse_args ii); try discriminate; reflexivity).
  assert (L : (Z.to_nat id < List.length (infos r))%nat) by lia.
  assert (G : forall e, name e = name ii -> base_id e = base_id ii ->
    heads {| infos := set_nth (infos r) (Z.to_nat id) e; cap := cap r; gen := gen r |} = heads r /\
    construction {| infos := set_nth (infos r) (Z.to_nat id) e; cap := cap r; gen := gen r |} id = Some (singleton e, construct e, parse_args e) /\
    (forall j, j <> id -> 0 <= j -> construction {| infos := set_nth (infos r) (Z.to_nat id) e; cap := cap r; gen := gen r |} j = construction r j)).
  { intros e N B. split; [|split].
    - unfold heads. cbn [infos]. eapply set_nth_heads; eauto.
    - unfold construction. cbn [infos]. rewrite set_nth_get by auto. rewrite Nat.eqb_refl. reflexivity.
    - intros j NE J. unfold construction. cbn [infos]. rewrite set_nth_get by auto. destruct (Nat.eqb_spec (Z.to_nat j) (Z.to_nat id)); [lia|reflexivity]. }
  destruct c as [f|]; [|destruct p as [q|]]; right; (split; [exact R|split; [exact C0|split; [reflexivity|split; [reflexivity|]]]]).
  - specialize (G {| name := name ii; base_id := base_id ii; singleton := s; construct := Some f; parse_args := match p with Some q => Some q | None => Some default_parse end |} eq_refl eq_refl).
    destruct G as (G1 & G2 & G3). split; [exact G1|split; [exact G2|split; [exact G3|]]]. destruct p; reflexivity.
  - specialize (G {| name := name ii; base_id := base_id ii; singleton := s; construct := None; parse_args := parse_args ii |} eq_refl eq_refl).
    destruct G as (G1 & G2 & G3). split; [exact G1|split; [|split; [exact G3|reflexivity]]]. rewrite G2. cbn [singleton construct parse_args]. rewrite P3. reflexivity.
  - specialize (G {| name := name ii; base_id := base_id ii; singleton := s; construct := None; parse_args := parse_args ii |} eq_refl eq_refl).
    destruct G as (G1 & G2 & G3). split; [exact G1|split; [|split; [exact G3|reflexivity]]]. rewrite G2. cbn [singleton construct parse_args]. rewrite P3. reflexivity.
Qed.
Lemma new_infos r n b : infos (fst (new_id r n b)) = infos r ++ [{| name := n; base_id := b; singleton := None; construct := None; parse_args := None |}] /\ snd (new_id r n b) = Z.of_nat (List.length (infos r)).
Proof. unfold new_id. destruct (Nat.ltb _ _); split; reflexivity. Qed.
Lemma heads_length r : List.length (heads r) = List.length (infos r).
Proof. unfold heads. apply map_length. Qed.
Lemma step_heads r c : heads (fst (step r c)) = heads r ++ registered [c].
Proof.
  destruct c as [n b|n|id s c p]; cbn [step registered].
  - pose proof (new_infos r n b) as (N & _). destruct (new_id r n b) as (r', i). cbn [fst] in *. unfold heads. rewrite N, map_app. reflexivity.
  - destruct (lookup_id_by_name r n). cbn [fst]. symmetry. apply app_nil_r.
  - pose proof (register_spec r id s c p) as R. destruct (register_known r id s c p) as (r', o). cbn [fst]. rewrite app_nil_r. destruct R as [(-> & _)|(_ & _ & _ & _ & H & _)]; auto.
Qed.
Lemma run_cons r c h : run r (c :: h) = (fst (run (fst (step r c)) h), snd (step r c) :: snd (run (fst (step r c)) h)).
Proof. cbn [run]. destruct (step r c) as (r', a). cbn [fst snd]. destruct (run r' h). reflexivity. Qed.
Lemma registered_cons c h : registered (c :: h) = registered [c] ++ registered h.
Proof. destruct c; reflexivity. Qed.
Lemma run_heads h : forall r, heads (fst (run r h)) = heads r ++ registered h.
Proof.
  induction h as [|c h IH]; intros r; [cbn; symmetry; apply app_nil_r|]. rewrite run_cons. cbn [fst]. rewrite IH, step_heads, <- app_assoc, <- registered_cons. reflexivity.
Qed.
Lemma run_initial h : heads (fst (run initial h)) = known h.
Proof. rewrite run_heads. reflexivity. Qed.
Lemma run_app r h1 h2 : run r (h1 ++ h2) = (fst (run (fst (run r h1)) h2), snd (run r h1) ++ snd (run (fst (run r h1)) h2)).
Proof.
  revert r. induction h1 as [|c h1 IH]; intros r; [cbn; destruct (run r h2); reflexivity|].
  cbn [app]. rewrite !run_cons. cbn [fst snd app]. rewrite IH. reflexivity.
Qed.
Lemma run_issued h : forall r, issued (snd (run r h)) = map Z.of_nat (seq (List.length (infos r)) (List.length (registered h))).
Proof.
  induction h as [|c h IH]; intros r; [reflexivity|]. rewrite run_cons. cbn [snd]. 
  assert (E : forall l, issued (snd (step r c) :: l) = issued [snd (step r c)] ++ issued l) by (intros l; destruct (snd (step r c)); reflexivity).
  rewrite E, IH. rewrite registered_cons, app_length, seq_app, map_app. f_equal.
  - destruct c as [n b|n|id s c p]; cbn [step registered].
    + pose proof (new_infos r n b) as (_ & N). destruct (new_id r n b) as (r', i). cbn [snd] in *. rewrite N. reflexivity.
    + destruct (lookup_id_by_name r n); reflexivity.
    + destruct (register_known r id s c p); reflexivity.
  - rewrite <- (heads_length (fst (step r c))), step_heads, app_length, heads_length. reflexivity.
Qed.
Lemma find_name_spec l n : forall k, match find_name l k n with
  | Some i => (k <= i)%nat /\ (exists b, nth_error (map (fun e => (name e, base_id e)) l) (i - k) = Some (n, b)) /\ forall j b, (j < i - k)%nat -> nth_error (map (fun e => (name e, base_id e)) l) j <> Some (n, b)
  | None => forall j b, nth_error (map (fun e => (name e, base_id e)) l) j <> Some (n, b)
  end.
Proof.
  induction l as [|e l IH]; intros k; cbn [find_name map].
  - intros [|j] b; discriminate.
  - destruct (String.eqb_spec (name e) n) as [<-|N].
    + split; [lia|]. rewrite Nat.sub_diag. split; [eexists; reflexivity|]. intros; lia.
    + specialize (IH (S k)). destruct (find_name l (S k) n) as [i|].
      * destruct IH as (A & (b & B) & C). split; [lia|]. replace (i - k)%nat with (S (i - S k))%nat by lia. split; [exists b; exact B|].
        intros [|j] b' J; cbn [nth_error]; [congruence|]. apply C. lia.
      * intros [|j] b; cbn [nth_error]; [congruence|]. apply IH.
Qed.
Lemma lookup_spec r n : match lookup_id_by_name r n with
  | (i, Some p) => exists k, i = Z.of_nat k /\ p = (gen r, k) /\ least_id (heads r) n k
  | (i, None) => i = 0 /\ unknown (heads r) n
  end.
Proof.
  unfold lookup_id_by_name. pose proof (find_name_spec (infos r) n 0) as F. destruct (find_name (infos r) 0 n) as [i|].
  - exists i. destruct F as (_ & F). rewrite Nat.sub_0_r in F. split; [reflexivity|split; [reflexivity|exact F]].
  - split; [reflexivity|exact F].
Qed.
(** Once an id has a construction, nothing changes it. *)
Lemma step_construction r c id x : 0 <= id -> construction r id = Some x -> x <> (None, None, None) -> construction (fst (step r c)) id = Some x.
Proof.
  intros I C N. destruct c as [n b|n|i s c p]; cbn [step].
  - pose proof (new_infos r n b) as (E & _). destruct (new_id r n b) as (r', k). cbn [fst] in *. unfold construction in *. rewrite E.
    rewrite nth_error_app1; [exact C|]. apply nth_error_Some. intros Z. rewrite Z in C. discriminate.
  - destruct (lookup_id_by_name r n). exact C.
  - pose proof (register_spec r i s c p) as R. destruct (register_known r i s c p) as (r', o). cbn [fst].
    destruct R as [(-> & _)|(_ & C0 & _ & _ & _ & _ & R & _)]; [exact C|]. rewrite R; auto. intros <-. rewrite C0 in C. congruence.
Qed.
Lemma run_construction h : forall r id x, 0 <= id -> construction r id = Some x -> x <> (None, None, None) -> construction (fst (run r h)) id = Some x.
Proof. induction h as [|c h IH]; intros r id x I C N; [exact C|]. rewrite run_cons. cbn [fst]. apply IH; auto. apply step_construction; auto. Qed.

Lemma initial_rooted_prefix r : forall k, (forall i e, nth_error (infos r) i = Some e -> (0 < i)%nat -> 0 <= base_id e < Z.of_nat i) -> (k < List.length (infos r))%nat -> rooted r (Z.of_nat k).
Proof.
  intros k H. induction k as [k IH] using lt_wf_ind. intros L. destruct k as [|k]; [constructor|].
  destruct (nth_error (infos r) (S k)) as [e|] eqn:E; [|apply nth_error_None in E; lia].
  pose proof (H _ _ E ltac:(lia)) as B. econstructor 2 with (b := base_id e); [lia| |].
  - unfold get_base_id. rewrite Nat2Z.id, E. destruct (Z.ltb_spec (Z.of_nat (S k)) 0); [lia|reflexivity].
  - replace (base_id e) with (Z.of_nat (Z.to_nat (base_id e))) by lia. apply IH; lia.
Qed.
Definition bases_ok (l : list (string * Z)) : Prop := forall i n b, nth_error l i = Some (n, b) -> (0 < i)%nat -> 0 <= b < Z.of_nat i.
Lemma registered_bases h : forall l, bases_ok l -> (0 < List.length l)%nat -> bases_valid (Z.of_nat (List.length l)) h -> bases_ok (l ++ registered h).
Proof.
  induction h as [|c h IH]; intros l L P V; [cbn [registered]; rewrite app_nil_r; auto|].
  destruct c as [n b|n|id s c p]; cbn [registered bases_valid] in *; [|apply IH; auto|apply IH; auto].
  destruct V as (V1 & V2). replace (l ++ (n, b) :: registered h) with ((l ++ [(n, b)]) ++ registered h) by (rewrite <- app_assoc; reflexivity).
  apply IH.
  - intros i m b' E I. destruct (Nat.lt_ge_cases i (List.length l)) as [J|J].
    + rewrite nth_error_app1 in E by auto. eapply L; eauto.
    + assert (i = List.length l) by (assert (i < List.length (l ++ [(n, b)]))%nat by (apply nth_error_Some; congruence); rewrite app_length in *; cbn in *; lia). subst i.
      rewrite nth_error_app2, Nat.sub_diag in E by auto. injection E as -> ->. exact V1.
  - rewrite app_length. lia.
  - rewrite app_length. cbn. replace (Z.of_nat (List.length l + 1)) with (Z.of_nat (List.length l) + 1) by lia. exact V2.
Qed.
Definition bases_okb (l : list (string * Z)) : bool :=
  forallb (fun i => match nth_error l i with Some (_, b) => (0 <=? b) && (b <? Z.of_nat i) | None => true end) (seq 1 (List.length l)).
Lemma bases_okb_ok l : bases_okb l = true -> bases_ok l.
Proof.
  intros H i n b E I. unfold bases_okb in H. rewrite forallb_forall in H. specialize (H i). rewrite E in H.
  assert (L : (i < List.length l)%nat) by (apply nth_error_Some; congruence). specialize (H ltac:(apply in_seq; lia)). lia.
Qed.
Lemma predefined_bases : bases_ok predefined.
Proof. apply bases_okb_ok. vm_compute. reflexivity. Qed.
