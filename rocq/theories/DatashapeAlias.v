(** Aliases (C93). *)
From Verif Require Import Base ParseIntModel ScanModel ScanSpec ScanProofs EncodingModel EscapeModel EscapeSpec TypesModel DatashapeModel DatashapeSpec DatashapeProofs DatashapeRead DatashapeTotal.
Open Scope Z_scope.

(** * Aliases *)
Lemma mem_name_iff n l : mem_name n l = true <-> In n l.
Proof.
  induction l as [|m l IH]; cbn [mem_name In]; [split; [discriminate|tauto]|]. rewrite orb_true_iff, list_eqb_iff, IH. tauto.
Qed.
Lemma assoc_some {A} (l : list (string * A)) n : In n (map (fun kv => codes (fst kv)) l) -> exists v, assoc l n = Some v.
Proof.
  induction l as [|(k, v) l IH]; cbn [map fst In assoc]; [tauto|]. intros [E|I].
  - exists v. rewrite (proj2 (list_eqb_iff (lit k) n)); auto.
  - destruct (list_eqb (lit k) n); eauto.
Qed.
(** The two lists of names agree (both are closed). *)
Lemma taken_names : forallb (fun n => existsb (fun m => list_eqb m n) (map (fun kv => codes (fst kv)) registry))
    (filter (fun n => negb (existsb (fun m => list_eqb m n) (map codes redefinable))) (map codes known_names)) = true /\
  forallb (fun n => existsb (fun m => list_eqb m n) (map codes known_names) && negb (existsb (fun m => list_eqb m n) (map codes redefinable)))
    (map (fun kv => codes (fst kv)) registry) = true.
Proof. split; vm_compute; reflexivity. Qed.
Lemma existsb_in n l : existsb (fun m => list_eqb m n) l = true <-> In n l.
Proof.
  rewrite existsb_exists. split.
  - intros (m & I & E). apply list_eqb_iff in E. now subst.
  - intros I. exists n. split; auto. now apply list_eqb_iff.
Qed.
Lemma taken_iff n : taken n <-> In n (map (fun kv => codes (fst kv)) registry).
Proof.
  destruct taken_names as (A & B). rewrite forallb_forall in A, B. split.
  - intros (I & N). apply existsb_in. apply A. apply filter_In. split; auto. rewrite negb_true_iff. destruct (existsb _ _) eqn:E; auto. apply existsb_in in E. contradiction.
  - intros I. apply B in I. apply andb_true_iff in I as (I & N). split; [now apply existsb_in|]. intros X. apply existsb_in in X. rewrite X in N. discriminate.
Qed.
Lemma taken_lookup n : taken n -> exists e, lookup_id_by_name n = Some e.
Proof. intros T. apply taken_iff in T. now apply assoc_some. Qed.
Lemma not_taken_lookup n : ~ taken n -> lookup_id_by_name n = None.
Proof. intros T. apply assoc_skip. rewrite <- taken_iff. exact T. Qed.
Lemma alias_read st n t s g w g1 g2 rest : gap g -> w <> [] -> Forall space_c w -> name n -> gap g1 -> gap g2 -> spelled t s -> ends rest ->
  parse_stmt st (g ++ codes "type" ++ w ++ n ++ g1 ++ codes "=" ++ g2 ++ s ++ rest) =
  match lookup_id_by_name n with Some _ => perror | None => if mem_name n st then perror else Ok (Some (t, n :: st, rest)) end.
Proof.
  intros G Wn W N G1 G2 S E. set (tail := g1 ++ codes "=" ++ g2 ++ s ++ rest). unfold parse_stmt.
  assert (X : strip (g ++ codes "type" ++ w ++ n ++ tail) = codes "type" ++ w ++ n ++ tail). { rewrite strip_gap by auto. lits. cbn [app]. apply strip_cons. solid. }
  rewrite tok_strip, X. change (lit "type") with (codes "type"). rewrite (proj2 (starts_with_iff (codes "type") _ (w ++ n ++ tail))) by reflexivity. cbn [bind].
  rewrite (proj2 (proj1 (skip_required_iff _) (n ++ tail))).
  2: { exists w. split; auto. split; auto. split; auto. destruct N as (c & m & -> & C & _). cbn [app]. rewrite next_cons. unfold space_c, letter in *. lia. }
  rewrite (proj2 (parse_name_iff (n ++ tail) n tail)). 2: { split; auto. split; auto. unfold tail. lits. cbn [app]. apply sep_gap; auto. apply sep_cons. notname. }
  cbn [bind]. unfold tail. rewrite require_read by first [assumption | exists 61, []; split; [reflexivity|solid]]. cbn [bind]. unfold need, ds_parse.
  rewrite (parse_read _ t s g2 rest) by (auto; rewrite !app_length; lia). reflexivity.
Qed.
Lemma scripts_read st t s : script st t s -> exists t' st' r, parse_stmt st s = Ok (Some (t', st', r)) /\ forall f, (List.length r < f)%nat -> stmts f st' t' r = Ok t.
Proof.
  induction 1 as [st t s g g' G S K N|st n t s g w g1 g2 g' G Wn W Nn G1 G2 S K T I|st n t s g w g1 g2 u rest G Wn W Nn G1 G2 S E T I Sc IH].
  - destruct (stmt_read st t s g g' S G K N) as (r & -> & R). exists t, st, r. split; auto. intros f L. destruct f; [lia|]. now apply stmts_nothing.
  - rewrite (alias_read st n t s g w g1 g2 g') by (auto; now apply ends_nothing). rewrite not_taken_lookup by auto. destruct (mem_name n st) eqn:M; [apply mem_name_iff in M; contradiction|].
    exists t, (n :: st), g'. split; auto. intros f L. destruct f; [lia|]. now apply stmts_nothing.
  - rewrite (alias_read st n t s g w g1 g2 rest) by auto. rewrite not_taken_lookup by auto. destruct (mem_name n st) eqn:M; [apply mem_name_iff in M; contradiction|].
    exists t, (n :: st), rest. split; auto. intros f L. destruct f; [lia|]. cbn [stmts]. destruct IH as (t' & st' & r & P & Q).
    pose proof (stmt_fine rest (n :: st) rest (suf_refl rest)) as F. rewrite P in F. cbn in F. apply ssuf_len in F. rewrite P. cbn [bind]. apply Q. lia.
Qed.
Theorem script_read t s : script [] t s -> type_from_datashape s = Ok t.
Proof.
  intros H. destruct (scripts_read [] t s H) as (t' & st & r & P & Q). unfold type_from_datashape, parse_top. rewrite P. cbn [bind]. apply Q. lia.
Qed.
