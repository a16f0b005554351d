(** Histories of a dispatcher. *)
From Coq Require Import Relations.Relation_Operators Relations.Operators_Properties Sorting.Permutation.
From Verif Require Import Base DispatchModel DispatchSpec DispatchProofs DispatchProofs2.

Section History.
Context {type : Type} (matches : type -> type -> bool) {T : Type} (sig : T -> list type) (N : nat).
Hypothesis SIG : forall t, List.length (sig t) = N.

(** [built reg ch]: a dispatcher whose registered overloads are [reg] (in order
    of registration) after a constructor and any number of inserts, all of which
    returned; copies share the value. *)
Inductive built : list T -> @children T -> Prop :=
| built_new ts ch : ts <> [] -> construct matches sig ts = (ch, Ok tt) -> built ts ch
| built_insert reg ch ts ch' : built reg ch -> insert matches sig ch ts = (ch', Ok tt) -> built (reg ++ ts) ch'.

Lemma built_sorted reg ch : built reg ch -> exists ts, ch = map Some ts /\ Permutation ts reg /\ sorted matches sig ts /\ reg <> [].
Proof.
  induction 1 as [ts ch NE E|reg ch ts ch' B (ts0 & -> & P & S & NE) E].
  - unfold construct in E. pose proof (assign_ok matches sig N SIG ts [] ltac:(destruct ts; [congruence|cbn [List.length]; lia])) as H. rewrite E in H. destruct H as ((ts' & -> & P & S) & _). eauto 6.
  - unfold insert in E. rewrite <- map_app in E.
    pose proof (assign_ok matches sig N SIG (ts0 ++ ts) (map Some ts0) ltac:(rewrite app_length, (Permutation_length P); destruct reg; [congruence|cbn [List.length]; lia])) as H.
    rewrite E in H. destruct H as ((ts' & -> & P' & S') & _). exists ts'. split; auto. split; [|split; [auto|destruct reg; [congruence|discriminate]]]. rewrite P'. now apply Permutation_app_tail.
Qed.

Lemma call_ok ts tps : List.length tps = N -> sorted matches sig ts ->
  match call matches sig (map Some ts) tps with
  | Ok t => In t ts /\ accepts matches (sig t) tps /\ forall u, In u ts -> accepts matches (sig u) tps -> ~ more_specific matches (sig u) (sig t)
  | Throw e => e = "out_of_range"%string /\ forall u, In u ts -> ~ accepts matches (sig u) tps
  | _ => False
  end.
Proof.
  intros LT. induction ts as [|t ts IH]; intros S; cbn [map call]; [split; auto|].
  pose proof (supercedes_iff matches tps (sig t) ltac:(rewrite SIG; auto)) as A.
  assert (S' : sorted matches sig ts). { intros l1 u l2 -> w. apply (S (t :: l1) u l2). reflexivity. }
  destruct (supercedes matches tps (sig t)).
  - split; [now left|]. split; [now apply A|]. intros u [<-|I] _; [intros (X & Y); tauto|]. now apply (S [] t ts eq_refl).
  - specialize (IH S'). assert (NA : ~ accepts matches (sig t) tps) by (rewrite <- A; discriminate). destruct (call matches sig (map Some ts) tps); auto.
    + destruct IH as (I & AC & U). split; [now right|]. split; auto. intros u [<-|I']; [tauto|auto].
    + destruct IH as (-> & U). split; auto. intros u [<-|I']; auto.
Qed.

Lemma call_app ts r tps : List.length tps = N -> call matches sig (map Some ts ++ r) tps =
  match call matches sig (map Some ts) tps with Throw _ => call matches sig r tps | x => x end.
Proof. intros L. induction ts as [|t ts IH]; cbn [map call app]; auto. destruct (supercedes matches tps (sig t)); auto. Qed.

Lemma two_of_perm (l : list T) u v : (two_of l u v \/ two_of l v u) <-> exists r, Permutation l (u :: v :: r).
Proof.
  split.
  - intros [(l1 & l2 & l3 & ->)|(l1 & l2 & l3 & ->)]; exists (l1 ++ l2 ++ l3).
    + rewrite <- Permutation_middle. constructor. rewrite !app_assoc. symmetry. apply Permutation_middle.
    + rewrite <- Permutation_middle, perm_swap. constructor. rewrite !app_assoc. symmetry. now rewrite <- Permutation_middle.
  - intros (r & P). assert (IU : In u l) by (rewrite P; now left). apply in_split in IU as (l1 & l2 & ->).
    apply Permutation_sym, Permutation_cons_app_inv in P. assert (IV : In v (l1 ++ l2)) by (rewrite <- P; now left).
    apply in_app_or in IV as [I|I]; apply in_split in I as (m1 & m2 & ->); [right|left].
    + exists m1, m2, l2. now rewrite <- app_assoc.
    + exists l1, m1, m2. reflexivity.
Qed.
Lemma unresolved_sym (ts : list T) u v : unresolved matches sig ts u v -> unresolved matches sig ts v u.
Proof.
  intros (A & B & C & D). split; [|split; [auto|split; [auto|]]].
  - clear - A. unfold comparable in *. induction A; constructor; tauto.
  - intros (w & I & X & Y). apply D. eauto.
Qed.
Lemma unresolved_perm ts ts' : Permutation ts ts' -> (exists u v, two_of ts u v /\ unresolved matches sig ts u v) -> exists u v, two_of ts' u v /\ unresolved matches sig ts' u v.
Proof.
  intros P (u & v & W & U).
  assert (U' : unresolved matches sig ts' u v). { destruct U as (A & B & C & D). split; [auto|split; [auto|split; [auto|]]]. intros (w & I & X & Y). apply D. exists w. split; auto. now rewrite P. }
  destruct (proj1 (two_of_perm ts u v) (or_introl W)) as (r & R). destruct (proj2 (two_of_perm ts' u v)) as [W'|W'].
  - exists r. now rewrite <- P.
  - eauto.
  - exists v, u. split; auto. now apply unresolved_sym.
Qed.

(** With a transitive [match], the graph has no cycle. *)
Lemma no_cycle ts : (forall a b c, matches a b = true -> matches b c = true -> matches a c = true) -> forall i, ~ clos_trans nat (e_at matches sig ts) i i.
Proof.
  intros TR.
  assert (AT : forall a b c, accepts matches a b -> accepts matches b c -> accepts matches a c).
  { unfold accepts. intros a b c H. revert c. induction H as [|x y l l' XY H IH]; intros c H'; inversion H' as [|? z ? l'' YZ H'']; subst; constructor; [apply (TR x y z); auto|auto]. }
  assert (X : forall i j, clos_trans nat (e_at matches sig ts) i j -> e_at matches sig ts i j).
  { intros i j C. induction C as [i j C|i j k _ (u & v & A & B & E) _ (v' & w & B' & D & E')]; auto.
    unfold at_ in *. rewrite B in B'. injection B' as <-. exists u, w. split; auto. split; auto.
    apply edge_iff in E, E'; try apply (same_len sig N SIG). apply edge_iff; [apply (same_len sig N SIG)|].
    destruct E as (E1 & E2), E' as (E3 & E4). split; [eauto|]. intros H. apply E2. eauto. }
  intros i C. apply X in C as (u & v & A & B & E). unfold at_ in *. rewrite A in B. injection B as <-. apply edge_iff in E; auto. destruct E. tauto.
Qed.
End History.
