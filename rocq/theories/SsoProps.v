(** C27, C28, C52: string and bytes values. *)
From Verif Require Import Base SsoModel SsoSpec SsoProofs SsoProofs2 SsoProofs3 SsoProofs4 SsoProofs5.

(** C27: after any history every value has bytes to read back, ... *)
Theorem C27_readable : forall NP, NP = 0 \/ NP = 1 -> forall s, reachable NP s -> exists a, describes s a.
Proof. intros NP H s R. destruct (reachable_inv NP H s R) as (a & I). exists a. now apply (inv_describes NP H). Qed.
Print Assumptions C27_readable.
(** ... and every further operation does to them what it does to sequences, or
    throws when memory runs out and then changes nothing.  Missing: the uses
    excluded by [avoids], where the code is wrong (below). *)
Theorem C27_values_partial : forall NP, NP = 0 \/ NP = 1 -> forall s a o choice, reachable NP s -> describes s a -> legal a o -> avoids NP (inline s) a o ->
  (exists s' a', step NP s o choice = Ok s' /\ describes s' a' /\ spec_step a o a') \/
  (step NP s o choice = Throw "bad_alloc" /\ ~ memory_left NP s choice).
Proof.
  intros NP H s a o choice R D L A. destruct (reachable_inv NP H s R) as (b & I). pose proof (describes_inv NP H s a b I D) as I'.
  destruct (step_ok NP H s a o choice I' L A) as [(s' & a' & E & I2 & S)|(E & X)].
  - left. exists s', a'. split; [auto|split; [now apply (inv_describes NP H)|auto]].
  - right. split; auto. intros M. now apply (not_exhausted NP s choice M).
Qed.
Print Assumptions C27_values_partial.
(** operator== compares the bytes. *)
Theorem C27_equal : forall NP, NP = 0 \/ NP = 1 -> forall s a i j c d, reachable NP s -> describes s a -> a i = Some c -> a j = Some d ->
  exists b, equal s i j = Ok b /\ (b = true <-> c = d).
Proof.
  intros NP H s a i j c d R D Ei Ej. destruct (reachable_inv NP H s R) as (b & I). apply (equal_ok NP H s a); auto. apply (describes_inv NP H s a b); auto.
Qed.
Print Assumptions C27_equal.
(** resize of an inline value ORs the new size into the old one: the size is
    wrong unless the new size contains the bits of the old. *)
Theorem C27_resize_refuted : forall NP, NP = 0 \/ NP = 1 -> forall s a i c n choice, reachable NP s -> describes s a -> a i = Some c -> inline s i -> 0 <= n <= 15 - NP ->
  exists s' o', step NP s (OResize i n) choice = Ok s' /\ vals s' i = Some o' /\ size o' = Z.lor (Z.of_nat (List.length c)) n.
Proof.
  intros NP H s a i c n choice R D E Y N. destruct (reachable_inv NP H s R) as (b & I). pose proof (describes_inv NP H s a b I D) as I'.
  pose proof Y as (o & V & S). destruct (resize_inline NP H s a i c n choice I' E Y N) as (s' & E' & V' & LO & _). exists s', (iobj (ored c n)). split; [auto|split; [auto|]].
  pose proof I' as (I1 & _). specialize (I1 i). rewrite V, E in I1. destruct (rep_cases NP H _ _ _ I1) as [(_ & OW & Eo & LC & B)|(? & ? & ? & S' & _)]; [|congruence].
  assert (V2 : vals s i = Some (iobj c)) by congruence. destruct (set_size_inline NP H s i c n V2 B ltac:(lia) ltac:(lia)) as (_ & _ & BO).
  pose proof (len_nonneg c) as LN. destruct (lor_range (len c) n ltac:(lia) ltac:(lia)) as (_ & _ & M).
  destruct (iobj_facts (ored c n) BO ltac:(lia)) as (_ & Z & _). rewrite Z. exact LO.
Qed.
Print Assumptions C27_resize_refuted.
(** Assigning an inline value of more than eight bytes to itself zeroes the bytes
    after the eighth. *)
Theorem C27_self_assign_refuted : forall NP, NP = 0 \/ NP = 1 -> forall s a i c choice, reachable NP s -> describes s a -> a i = Some c -> inline s i -> (8 < List.length c)%nat ->
  exists s', step NP s (OAssignVal i i) choice = Ok s' /\ contents s' i = Some (Ok (firstn 8 c ++ repeat 0 (List.length c - 8))).
Proof.
  intros NP H s a i c choice R D E Y N. destruct (reachable_inv NP H s R) as (b & I). pose proof (describes_inv NP H s a b I D) as I'.
  destruct (self_assign NP H s a i c choice I' E Y N) as (s' & E' & I2). exists s'. split; auto. rewrite (inv_contents NP H s' _ I2), upd_at. reflexivity.
Qed.
Print Assumptions C27_self_assign_refuted.

Definition run1 (NP : Z) (ops : list op) : outcome st :=
  fold_left (fun r oc => do s <- r; step NP s (fst oc) (Some (1000 + 64 * Z.of_nat (snd oc), fun _ => 0))) (combine ops (seq 0 (List.length ops))) (Ok (mkst (fun _ => None) (fun _ => None))).
Definition show (NP : Z) (ops : list op) (i : nat) : outcome (option (outcome (list Z))) := do s <- run1 NP ops; Ok (contents s i).
(** Appending a value to itself: a heap value reads the deleted buffer; an inline
    one appends the bytes of its new pointer. *)
Theorem C27_self_append_refuted : show 1 [OBytes 0 (repeat 97 20); OAppendVal 0 0] 0%nat = UB /\
  show 1 [OBytes 0 [97; 98]; OAppendVal 0 0] 0%nat = Ok (Some (Ok [97; 98; 40; 4])).
Proof. split; vm_compute; reflexivity. Qed.
Print Assumptions C27_self_append_refuted.
Example C27_case :
  show 1 [OBytes 0 [97; 98; 99]; OCopy 1 0; OAppend 0 (repeat 100 20); OAppendVal 1 0; OMove 0 1; OClear 1; OResize 0 4; OWrite 0 1 [1]; OPlus 2 0 0] 2%nat = Ok (Some (Ok [97; 1; 99; 97; 97; 1; 99; 97])) /\
  show 1 [OBytes 0 [97; 98; 99]; OResize 0 4] 0%nat = Ok (Some (Ok [97; 98; 99; 0; 0; 0; 0])) /\
  show 0 [OBytes 0 (map Z.of_nat (seq 1 12)); OAssignVal 0 0] 0%nat = Ok (Some (Ok [1; 2; 3; 4; 5; 6; 7; 8; 0; 0; 0; 0])).
Proof. split; [|split]; vm_compute; reflexivity. Qed.
(** The hypotheses are met by any history that starts like this. *)
Example C27_reach : exists s, reachable 1 s /\ describes s (fun i => if Nat.eqb i 0 then Some [97; 98; 99] else None) /\ legal (fun i => if Nat.eqb i 0 then Some [97; 98; 99] else None) (OAppend 0 [100]) /\ inline s 0.
Proof.
  destruct (step 1 (mkst (fun _ => None) (fun _ => None)) (OBytes 0 [97; 98; 99]) None) as [s| | |] eqn:E; try (vm_compute in E; discriminate). exists s.
  assert (R : reachable 1 s).
  { eapply (reach_step 1 _ (fun _ => None) (OBytes 0 [97; 98; 99]) None); [constructor|intros i; reflexivity| |exact Logic.I|exact E]. cbn. split; auto. split; [|lia]. repeat constructor; unfold isbyte; lia. }
  split; auto. split; [|split].
  - vm_compute in E. injection E as <-. intros [|i]; reflexivity.
  - cbn. split; [discriminate|]. split; [|lia]. split; [|lia]. repeat constructor; unfold isbyte; lia.
  - vm_compute in E. injection E as <-. eexists. split; reflexivity.
Qed.

(** C28: after any history each buffer has exactly one owner, each value fits in
    its storage and the byte after it is 0 when NUL padded; nothing is left when
    no value is.  Missing: the two uses excluded by [storage_ok]. *)
Theorem C28_storage_partial : forall NP, NP = 0 \/ NP = 1 -> forall s, reachable NP s ->
  (forall ad b, heap s ad = Some b -> exists i, (exists o, vals s i = Some o /\ is_sso o = false /\ m_pointer o = ad) /\
     forall j o, vals s j = Some o -> is_sso o = false -> m_pointer o = ad -> j = i) /\
  (forall i o, vals s i = Some o -> exists k c, capacity NP (heap s) o = Ok k /\ size o <= k /\ Z.of_nat (List.length c) = size o /\
     rd s (data_ptr i o) (size o + NP) = Ok (c ++ if NP =? 0 then [] else [0]) /\
     (is_sso o = false -> exists b, heap s (m_pointer o) = Some b /\ Z.of_nat (List.length b) = 8 + k + NP)) /\
  ((forall i, vals s i = None) -> forall ad, heap s ad = None).
Proof.
  intros NP H s R. destruct (reachable_inv NP H s R) as (a & I). pose proof I as (I1 & I2 & I3).
  assert (OWN : forall o ad, is_sso o = false -> m_pointer o = ad -> owner o = Some ad) by (intros o ad X Y; unfold owner; now rewrite X, Y).
  split; [|split].
  - intros ad b Hb. destruct (I2 ad b Hb) as (i & o & V & O). exists i. split.
    + exists o. unfold owner in O. destruct (is_sso o); [discriminate|]. injection O as O. auto.
    + intros j oj Vj Sj Mj. apply (I3 j i oj o ad); auto.
  - intros i o V. specialize (I1 i). rewrite V in I1. destruct (a i) as [c|] eqn:E; [|contradiction]. destruct (read_nul NP H s a i o c I V E) as (RD & SZ).
    destruct (inv_cap NP H s a i o c I V E) as (k & EK & LK & _). exists k, c. split; [auto|split; [lia|split; [now rewrite SZ|split; [exact RD|]]]].
    intros S. destruct (rep_cases NP H _ _ _ I1) as [(S' & _)|(ad & k2 & t & _ & O & Eo & M & A & Hh & (K1 & K2 & K3 & K4) & B)]; [congruence|].
    exists (block k2 c t). rewrite M. split; auto. pose proof (len_nonneg c). rewrite (cap_heap NP (heap s) o ad k2 c t S M Hh ltac:(lia)) in EK. injection EK as ->.
    assert (X : len (block k c t) = 8 + k + NP) by (unfold block; rewrite !len_app, len_to_le; lia). exact X.
  - intros N ad. destruct (heap s ad) as [b|] eqn:Hb; auto. destruct (I2 ad b Hb) as (i & o & V & _). rewrite N in V. discriminate.
Qed.
Print Assumptions C28_storage_partial.
(** No operation of such a history is undefined behaviour (a wild or out of bounds
    access, a double delete). *)
Theorem C28_defined_partial : forall NP, NP = 0 \/ NP = 1 -> forall s a o choice, reachable NP s -> describes s a -> legal a o -> storage_ok NP (inline s) a o ->
  (exists s', step NP s o choice = Ok s') \/ (step NP s o choice = Throw "bad_alloc" /\ ~ memory_left NP s choice).
Proof.
  intros NP H s a o choice R D L A. destruct (reachable_inv NP H s R) as (b & I).
  destruct (step_safe NP H s a o choice (describes_inv NP H s a b I D) L A) as [(s' & a' & E & _)|(E & X)]; [left; eauto|right].
  split; auto. intros M. now apply (not_exhausted NP s choice M).
Qed.
Print Assumptions C28_defined_partial.
(** A string of 14 bytes resized to 1 has size 15, beyond its capacity, and no
    NUL after it. *)
Theorem C28_resize_refuted : exists s o, run1 1 [OBytes 0 (repeat 97 14); OResize 0 1] = Ok s /\ vals s 0%nat = Some o /\ capacity 1 (heap s) o = Ok 14 /\ size o = 15.
Proof. eexists _, _. split; [vm_compute; reflexivity|]. split; [vm_compute; reflexivity|]. split; vm_compute; reflexivity. Qed.
Print Assumptions C28_resize_refuted.

(** C52: the comparison operators of strings: < is a strict total order of the
    byte sequences (bytes compared as signed chars), and the others follow. *)
Theorem C52_order : forall NP, NP = 0 \/ NP = 1 -> forall s a i j c d, reachable NP s -> describes s a -> a i = Some c -> a j = Some d ->
  exists lt gt, less s i j = Ok lt /\ greater s i j = Ok gt /\ less_eq s i j = Ok (negb gt) /\ greater_eq s i j = Ok (negb lt) /\
    (lt = true <-> lexico (fun x y => to_signed 8 x < to_signed 8 y) c d) /\ (gt = true <-> lexico (fun x y => to_signed 8 x < to_signed 8 y) d c) /\
    ((lt = true /\ gt = false /\ c <> d) \/ (lt = false /\ gt = true /\ c <> d) \/ (lt = false /\ gt = false /\ c = d)).
Proof.
  intros NP H s a i j c d R D Ei Ej. destruct (reachable_inv NP H s R) as (b & I). pose proof (describes_inv NP H s a b I D) as I'.
  assert (Bc : Forall isbyte c) by (destruct (inv_get NP s a i c I' Ei) as (x & _ & R'); inversion R'; auto).
  assert (Bd : Forall isbyte d) by (destruct (inv_get NP s a j d I' Ej) as (x & _ & R'); inversion R'; auto).
  assert (Ri : range s i = Ok c) by (specialize (D i); rewrite Ei in D; unfold contents in D; unfold range; destruct (vals s i); cbn in D; congruence).
  assert (Rj : range s j = Ok d) by (specialize (D j); rewrite Ej in D; unfold contents in D; unfold range; destruct (vals s j); cbn in D; congruence).
  exists (lex_less c d), (lex_less d c). unfold less, greater, less_eq, greater_eq. rewrite Ri, Rj. cbn [bind]. split; [auto|split; [auto|split; [auto|split; [auto|]]]].
  pose proof (lex_iff c d Bc Bd) as X. pose proof (lex_iff d c Bd Bc) as Y. split; [exact X|split; [exact Y|]].
  assert (IR : forall x, ~ slt x x) by (intros x; unfold slt; lia). assert (TR : forall x y z, slt x y -> slt y z -> slt x z) by (intros x y z; unfold slt; lia).
  destruct (lex_less c d) eqn:E1; destruct (lex_less d c) eqn:E2.
  - exfalso. apply (lexico_irrefl slt c IR). eapply lexico_trans; [exact TR|apply X; auto|apply Y; auto].
  - left. split; [auto|split; auto]. intros <-. apply (lexico_irrefl slt c IR). now apply X.
  - right; left. split; [auto|split; auto]. intros <-. apply (lexico_irrefl slt c IR). now apply Y.
  - right; right. split; [auto|split; auto]. destruct (lexico_total slt c d) as [Z|[Z|Z]]; auto.
    + intros x y Xc Yd. rewrite Forall_forall in Bc, Bd. unfold slt. destruct (Z.lt_total (to_signed 8 x) (to_signed 8 y)) as [Q|[Q|Q]]; auto. right; left. apply signed8_inj; auto.
    + apply X in Z. discriminate.
    + apply Y in Z. discriminate.
Qed.
Print Assumptions C52_order.
Theorem C52_transitive : forall a b c, lexico (fun x y => to_signed 8 x < to_signed 8 y) a b -> lexico (fun x y => to_signed 8 x < to_signed 8 y) b c -> lexico (fun x y => to_signed 8 x < to_signed 8 y) a c.
Proof. intros a b c. apply (lexico_trans slt). intros x y z; unfold slt; lia. Qed.
Print Assumptions C52_transitive.
(** On ASCII text it is the byte (and code point) order; ... *)
Theorem C52_ascii_partial : forall NP, NP = 0 \/ NP = 1 -> forall s a i j c d, reachable NP s -> describes s a -> a i = Some c -> a j = Some d ->
  Forall (fun x => x < 128) c -> Forall (fun x => x < 128) d -> exists lt, less s i j = Ok lt /\ (lt = true <-> lexico Z.lt c d).
Proof.
  intros NP H s a i j c d R D Ei Ej Ac Ad. destruct (C52_order NP H s a i j c d R D Ei Ej) as (lt & gt & E & _ & _ & _ & X & _). exists lt. split; auto. rewrite X.
  destruct (reachable_inv NP H s R) as (b & I). pose proof (describes_inv NP H s a b I D) as I'.
  assert (Bc : Forall isbyte c) by (destruct (inv_get NP s a i c I' Ei) as (x & _ & R'); inversion R'; auto).
  assert (Bd : Forall isbyte d) by (destruct (inv_get NP s a j d I' Ej) as (x & _ & R'); inversion R'; auto).
  rewrite Forall_forall in Ac, Ad, Bc, Bd.
  split; apply lexico_ext; intros x y Xc Yd; rewrite (signed8 x), (signed8 y) by auto; specialize (Ac x Xc); specialize (Ad y Yd); replace (x <? 128) with true by lia; replace (y <? 128) with true by lia; auto.
Qed.
Print Assumptions C52_ascii_partial.
(** ... on other text it is not: e-acute sorts before a. *)
Theorem C52_code_point_refuted : (do s <- run1 1 [OBytes 0 [97]; OBytes 1 [195; 169]]; less s 1 0) = Ok true.
Proof. vm_compute. reflexivity. Qed.
Print Assumptions C52_code_point_refuted.
