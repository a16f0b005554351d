(** C59: indexing an array gives a view of exactly what was selected. *)
From Verif Require Import Base LinearIndexModel LinearIndexSpec LayoutModel LayoutSpec LayoutProofs LayoutProofs2 IndexModel IndexSpec IndexProofs IndexProofs3 IndexProofs4 IndexProofs5 IndexProofs6.
Open Scope Z_scope.

(** At [out] there is room for the arrmeta, which is never larger than that of the array. *)
Theorem C59_indexing_partial dm idx t a data out emb lead m :
  good_data dm -> Forall idx64 idx -> dims64 t -> tmeta t < 2 ^ 64 -> disjoint out (tmeta t) a (tmeta t) -> supported idx t lead ->
  match at_array dm idx t a data out emb lead m with
  | Ok (rt, m', d') => same_outside m m' out (tmeta rt) /\ tmeta rt <= tmeta t /\ view_of idx m dm t a data m' rt out d'
  | Throw e => e = "index_out_of_bounds"%string -> forall p' p, ~ selects m dm t a data idx p' p
  | UB => exists r n, In r idx /\ 0 <= n < 2 ^ 63 /\ apply_single_linear_index r n = UB
  | NoFuel => False
  end.
Proof.
  intros GD I D B DJ S. change (2 ^ 64) with W in B. unfold at_array. destruct (type_ub idx t lead D) as (U & NF). destruct (index_type idx t lead) as [rt|z| |] eqn:E; cbn [bind]; try contradiction; [|intros ->; eapply type_oob; eauto|exact (U eq_refl)].
  pose proof (index_size idx I t lead rt D E) as Sz. pose proof (tmeta_pos rt). set (ld := if lead then Some data else None). assert (L : is_some ld = lead) by (unfold ld; destruct lead; reflexivity).
  assert (H1 : result_ok idx m dm t a rt out ld (index_meta dm idx t a rt out emb ld m)).
  { destruct (is_builtin t) eqn:Bt.
    - destruct (builtin_type _ _ _ _ Bt E) as (-> & ->). pose proof (call_ok [] dm (good_nil dm) t a t out emb m ld D B B DJ ltac:(rewrite L; exact S) ltac:(rewrite L; exact E)) as C. unfold call in C. rewrite Bt in C. destruct t; try discriminate. exact C.
    - apply (all_good dm idx GD I); auto; [lia|unfold disjoint in *; lia|rewrite L; exact S|rewrite L; exact E]. }
  destruct (index_meta dm idx t a rt out emb ld m) as [((m', o), l)|z| |]; cbn in H1; try contradiction; cbn [bind fst snd].
  - destruct H1 as (O & V). split; [exact O|]. split; [exact Sz|]. unfold ld in V. destruct lead.
    + destruct V as (d' & -> & V). exact V.
    + destruct V as (-> & V). apply V.
  - destruct H1 as (-> & d0 & Ed & V). intros _. unfold ld in Ed. destruct lead; [injection Ed as <-; exact V|discriminate].
Qed.
(** A concrete case: a 4 by 3 array of int32 at address 100 with strides 12 and 4, reversed and then
    indexed. *)
Definition m_grid : mem := st (st (st (st (fun _ => 0) 0 4) 8 12) 16 3) 24 4.
Definition t_grid : lt := FixedDim 4 (FixedDim 3 (Builtin 4 4)).
Definition rev_all : irange := mk_irange SLICE_BEGIN SLICE_END (-1).
Example C59_example : exists m' , at_array (fun _ => 0) [rev_all; mk_irange 1 1 0] t_grid 0 100 1000 7 true m_grid = Ok (FixedDim 4 (Builtin 4 4), m', 140) /\ m' 1000 = 4 /\ m' 1008 = -12 /\
  selects m_grid (fun _ => 0) t_grid 0 100 [rev_all; mk_irange 1 1 0] [0] [3; 1] /\ supported [rev_all; mk_irange 1 1 0] t_grid true /\
  value m' (fun _ => 0) (FixedDim 4 (Builtin 4 4)) 1000 140 [0] = Some (Builtin 4 4, 140) /\ value m_grid (fun _ => 0) t_grid 0 100 [3; 1] = Some (Builtin 4 4, 140).
Proof.
  eexists. split; [reflexivity|]. split; [reflexivity|]. split; [reflexivity|]. split; [|split; [|split; reflexivity]].
  - eapply sel_slice; [reflexivity|discriminate| |reflexivity|].
    + split; [lia|]. right. split; [reflexivity|]. split; reflexivity.
    + eapply sel_index; [reflexivity|reflexivity| |reflexivity|constructor]. split; [reflexivity|lia].
  - cbn. auto.
Qed.

(** Slicing a tuple and then indexing its fields loses the second index: the view shows
    element 0 of each field instead of element 1 (and with one more dimension, the
    arrmeta of the fields is not written at all). *)
Definition t_pair : lt := Tuple [FixedDim 3 (Builtin 4 4); FixedDim 3 (Builtin 4 4)].
Definition m_pair : mem := st (st (st (st (st (st (fun _ => 0) 0 0) 8 12) 16 3) 24 4) 32 3) 40 4.
Theorem C59_tuple_slice_refuted : exists m', at_array (fun _ => 0) [mk_irange 0 2 1; mk_irange 1 1 0] t_pair 0 100 1000 7 true m_pair = Ok (Tuple [Builtin 4 4; Builtin 4 4], m', 100) /\
  selects m_pair (fun _ => 0) t_pair 0 100 [mk_irange 0 2 1; mk_irange 1 1 0] [0] [0; 1] /\ value m_pair (fun _ => 0) t_pair 0 100 [0; 1] = Some (Builtin 4 4, 104) /\
  value m' (fun _ => 0) (Tuple [Builtin 4 4; Builtin 4 4]) 1000 100 [0] = Some (Builtin 4 4, 100).
Proof.
  eexists. split; [reflexivity|]. split; [|split; reflexivity]. eapply sel_slice; [reflexivity|discriminate| |reflexivity|].
  - split; [lia|]. left. split; [reflexivity|]. split; reflexivity.
  - eapply sel_index; [reflexivity|reflexivity| |reflexivity|constructor]. split; [reflexivity|lia].
Qed.
(** A 2 by var array of int32 indexed with [:, k]: the position k is neither checked nor
    counted from the end, so that -1 refers to the four bytes before each row, and
    5 to what follows a row of one element. *)
Definition t_ragged : lt := FixedDim 2 (VarDim (Builtin 4 4)).
Definition m_ragged : mem := st (st (st (st (fun _ => 0) 0 2) 8 16) 16 77) 24 4.
Definition d_ragged : mem := st (st (st (st (fun _ => 0) 100 5000) 108 1) 116 6000) 124 3.
Definition all_ : irange := mk_irange SLICE_BEGIN SLICE_END 1.
Theorem C59_ragged_refuted : good_data d_ragged /\
  (exists m', at_array d_ragged [all_; mk_irange (-1) (-1) 0] t_ragged 0 100 1000 7 true m_ragged = Ok (FixedDim 2 (Pointer (Builtin 4 4)), m', 100) /\
     selects m_ragged d_ragged t_ragged 0 100 [all_; mk_irange (-1) (-1) 0] [1] [1; 2] /\ value m_ragged d_ragged t_ragged 0 100 [1; 2] = Some (Builtin 4 4, 6008) /\
     value m' d_ragged (FixedDim 2 (Pointer (Builtin 4 4))) 1000 100 [1] = Some (Builtin 4 4, 5996)) /\
  (exists m', at_array d_ragged [all_; mk_irange 5 5 0] t_ragged 0 100 1000 7 true m_ragged = Ok (FixedDim 2 (Pointer (Builtin 4 4)), m', 100) /\
     (forall p' p, ~ selects m_ragged d_ragged t_ragged 0 100 [all_; mk_irange 5 5 0] p' p) /\ value m' d_ragged (FixedDim 2 (Pointer (Builtin 4 4))) 1000 100 [0] = Some (Builtin 4 4, 5020)).
Proof.
  split; [intros x; unfold d_ragged, st; repeat match goal with |- context [if ?b then _ else _] => destruct b end; lia|]. split; eexists; (split; [reflexivity|]).
  - split; [|split; reflexivity]. eapply sel_slice; [reflexivity|discriminate|split; [lia|left; repeat split; reflexivity]|reflexivity|]. eapply sel_index; [reflexivity|reflexivity|split; [reflexivity|cbn; lia]|reflexivity|constructor].
  - split; [|reflexivity]. intros p' p H. inversion H as [|? ? ? ? ? ? ? ? ? ? ? ? ? R0|? ? ? ? ? n0 j i e b c q' q D0 R0 A0 I0 S0]; subst; [discriminate|]. cbn [item t_ragged] in I0. destruct ((0 <=? i) && (i <? 2)) eqn:Bi; [|discriminate]. injection I0 as <- <- <-.
    inversion S0 as [|? ? ? ? ? n1 i1 e1 b1 c1 ? q1 D1 R1 A1 I1 S1|? ? ? ? ? ? ? ? ? ? ? ? ? ? R1]; subst; [|contradiction R1; reflexivity]. cbn [dim_of] in D1. injection D1 as <-. destruct A1 as (-> & A1). assert (i = 0 \/ i = 1) as [->| ->] by lia; cbn in A1; lia.
Qed.
(** A pointer to a ragged array, indexed with one number: the type says that the
    result is a pointer to an element, but the words of another pointer are
    written after the end of its arrmeta (16 bytes). *)
Theorem C59_pointer_refuted : exists m' d', at_array d_ragged [mk_irange 0 0 0] (Pointer (VarDim (Builtin 4 4))) 0 100 1000 7 true (st (st (fun _ => 0) 16 77) 24 4) = Ok (Pointer (Builtin 4 4), m', d') /\
  tmeta (Pointer (Builtin 4 4)) = 16 /\ ~ same_outside (st (st (fun _ => 0) 16 77) 24 4) m' 1000 16.
Proof.
  eexists. eexists. split; [reflexivity|]. split; [reflexivity|]. intros H. specialize (H 1016 ltac:(lia)). discriminate.
Qed.
Print Assumptions C59_indexing_partial.
