(** C69-C71: kernels applied along a dimension. *)
From Verif Require Import Base StridedModel StridedSpec StridedProofs StridedProofs2 StridedProofs3 StridedProofs4 StridedProofs5 StridedProofs6.
Open Scope Z_scope.

(** C69: the generic strided loop, a chained pair of kernels with a temporary
    buffer, and assignment from an option to a value apply the element function
    to each element, for every count, placement, stride and chunk size. *)
Theorem C69_strided : forall f, applies f (base_strided (leaf f)).
Proof. exact base_strided_applies. Qed.
Print Assumptions C69_strided.
Theorem C69_strided_writes : forall f, writes_only_output (base_strided (leaf f)).
Proof. exact base_strided_frame. Qed.
Print Assumptions C69_strided_writes.
Theorem C69_compose : forall f g first second K buf bs junk m dst ds src ss n x,
  applies (on1 f) first -> applies (on1 g) second -> (1 <= K)%nat -> distinct bs K ->
  (forall i, 0 <= i < Z.of_nat K -> m (elem buf bs i) = None) ->
  valid m dst ds n -> distinct ds n -> holds m [src] [ss] n x -> apart dst ds src ss n ->
  applied (on1 (fun x => do y <- f x; g y)) m dst ds n x (compose_strided K first second buf bs junk m dst ds [src] [ss] n).
Proof. exact compose_strided_applied. Qed.
Print Assumptions C69_compose.
Theorem C69_option_to_value : forall na g is_na assign K mis junk m dst ds src ss n x,
  applies (on1 (na_flag na)) is_na -> applies (on1 g) assign -> (1 <= K)%nat ->
  (forall i, 0 <= i < Z.of_nat K -> m (mis + i) = None) ->
  valid m dst ds n -> distinct ds n -> holds m [src] [ss] n x -> apart dst ds src ss n ->
  applied (on1 (fun x => if na x then Throw "overflow_error" else g x)) m dst ds n x
    (o2v_strided K is_na assign mis junk m dst ds [src] [ss] n).
Proof. intros. apply o2v_strided_applied; assumption. Qed.
Print Assumptions C69_option_to_value.

(** C70: a kernel whose arguments need conversion.  Up to one chunk it computes
    the function of the converted arguments ... *)
Theorem C70_convert_partial : forall f child K bufs m dst ds srcs ss n x v,
  applies f child -> (n <= K)%nat -> List.length bufs = List.length srcs -> buffers_ok K m bufs ->
  valid m dst ds n -> distinct ds n -> holds m srcs ss n x ->
  (forall s t, In (s, t) (combine srcs ss) -> apart dst ds s t n) ->
  (forall s t i, In (s, t) (combine srcs ss) -> 0 <= i < Z.of_nat n -> ~ buf_cell K bufs (elem s t i)) ->
  (forall i, 0 <= i < Z.of_nat n -> ~ buf_cell K bufs (elem dst ds i)) ->
  (forall i, 0 <= i < Z.of_nat n -> convert_single f bufs (x i) = Ok (v i)) ->
  exists m', convert_strided K child bufs m dst ds srcs ss n = Ok m' /\
    (forall i, 0 <= i < Z.of_nat n -> m' (elem dst ds i) = Some (v i)) /\
    (forall a, ~ buf_cell K bufs a -> (forall i, 0 <= i < Z.of_nat n -> a <> elem dst ds i) -> m' a = m a).
Proof. exact convert_small. Qed.
Print Assumptions C70_convert_partial.
(** ... but from the second chunk on nothing is ever written, whatever the
    child, the arguments and the count. *)
Theorem C70_rest_unwritten_refuted : forall child K bufs m dst ds srcs ss n m' j,
  writes_only_output child -> ds <> 0 -> Z.of_nat K <= j < Z.of_nat n -> ~ buf_cell K bufs (elem dst ds j) ->
  convert_strided K child bufs m dst ds srcs ss n = Ok m' -> m' (elem dst ds j) = m (elem dst ds j).
Proof.
  intros child K bufs m dst ds srcs ss n m' j W D Hj NB E. apply (convert_frame _ _ _ _ _ _ _ _ _ W _ _ _ _ E); [exact NB|].
  intros i Hi Ea. unfold elem in Ea. nia.
Qed.
Print Assumptions C70_rest_unwritten_refuted.

(** C71: option to option.  Right up to one chunk, and for a stride of 0. *)
Theorem C71_option_partial : forall na g is_na assign nav K mis junk m dst ds src ss n x,
  applies (on1 (na_flag na)) is_na -> applies (on1 g) assign -> (1 <= K)%nat -> (n <= K)%nat \/ ss = 0 ->
  (forall i, 0 <= i < Z.of_nat K -> m (mis + i) = None) ->
  valid m dst ds n -> distinct ds n -> holds m [src] [ss] n x -> apart dst ds src ss n ->
  applied (on1 (fun x => if na x then Ok nav else g x)) m dst ds n x
    (o2o_strided K is_na assign nav mis junk m dst ds [src] [ss] n).
Proof.
  intros na g is_na assign nav K mis junk m dst ds src ss n x HN HG K1 [L| ->] Fr V D Hx A.
  - apply o2o_small; assumption.
  - apply o2o_stride0; assumption.
Qed.
Print Assumptions C71_option_partial.
(** Beyond it: undefined behaviour if the first chunk ends in an available
    value, and otherwise the first chunk again. *)
Theorem C71_moved_refuted : forall na g is_na assign nav K mis junk m dst ds src ss n x,
  applies (on1 (na_flag na)) is_na -> applies (on1 g) assign -> (1 <= K < n)%nat -> ss <> 0 ->
  (forall i, 0 <= i < Z.of_nat K -> m (mis + i) = None) ->
  valid m dst ds n -> distinct ds n -> holds m [src] [ss] n x -> apart dst ds src ss n ->
  (forall i, 0 <= i < Z.of_nat K -> exists y v, x i = [y] /\ (if na y then Ok nav else g y) = Ok v) ->
  (forall y, x (Z.of_nat K - 1) = [y] -> na y = false) ->
  o2o_strided K is_na assign nav mis junk m dst ds [src] [ss] n = UB.
Proof.
  intros na g is_na assign nav K mis junk m dst ds src ss n x HN HG L S0 Fr V D Hx A Hv Hl.
  apply (o2o_moved na g is_na assign nav K mis HN HG junk m dst ds src ss n x); auto.
  - eapply holds_mono; [|exact Hx]. lia.
  - intros i j Hi Hj. apply A; lia.
  - intros i Hi. destruct (Hv i Hi) as (y & v & -> & E). exists v. exact E.
  - destruct (Hv (Z.of_nat K - 1) ltac:(lia)) as (y & v & E & _). rewrite E. cbn. rewrite (Hl y E). reflexivity.
Qed.
Print Assumptions C71_moved_refuted.
Theorem C71_reread_refuted : forall na g is_na assign nav K mis junk m dst ds src ss n x,
  applies (on1 (na_flag na)) is_na -> applies (on1 g) assign -> (1 <= K)%nat ->
  (forall i, 0 <= i < Z.of_nat K -> m (mis + i) = None) ->
  valid m dst ds n -> distinct ds n -> holds m [src] [ss] n x -> apart dst ds src ss n ->
  (forall i y, 0 <= i < Z.of_nat K -> x i = [y] -> na y = true) ->
  exists m', o2o_strided K is_na assign nav mis junk m dst ds [src] [ss] n = Ok m' /\ stored m m' dst ds n (fun _ => nav).
Proof.
  intros na g is_na assign nav K mis junk m dst ds src ss n x HN HG K1 Fr V D Hx A Hna.
  apply (o2o_const na g is_na assign nav K mis HN HG nav junk m dst ds src ss n x); auto.
  - eapply holds_mono; [|exact Hx]. lia.
  - intros i j Hi Hj. apply A; lia.
  - intros i Hi. destruct (holds1 _ _ _ _ _ Hx i ltac:(lia)) as (y & E & _). unfold on1, o2o_single. rewrite E, (Hna i y) by (lia || exact E). reflexivity.
  - right. intros i Hi. destruct (holds1 _ _ _ _ _ Hx i ltac:(lia)) as (y & E & _). rewrite E. cbn. rewrite (Hna i y) by (lia || exact E). reflexivity.
Qed.
Print Assumptions C71_reread_refuted.

(** Instances: cells 0..9 hold their address, cells 100..109 hold 0; a chunk has
    two elements; -1 is the missing value. *)
Definition m0 : mem := fun a => if (0 <=? a) && (a <? 10) then Some a else if (100 <=? a) && (a <? 110) then Some 0 else None.
Definition show (o : outcome mem) (l : list Z) : outcome (list (option Z)) := do m <- o; Ok (map m l).
Definition dbl (x : Z) : outcome Z := Ok (2 * x).
Definition inc (x : Z) : outcome Z := if x =? 9 then Throw "bad" else Ok (x + 1).
Example C69_case :
  show (compose_strided 2 (leafs dbl) (leafs inc) 1000 4 (fun _ => 0) m0 104 (-1) [0] [2] 5) [99; 100; 101; 102; 103; 104; 1000] =
    Ok [None; Some 17; Some 13; Some 9; Some 5; Some 1; None] /\
  show (o2v_strided 2 (leafs (na_flag (Z.eqb 6))) (leafs inc) 1000 (fun _ => 7) m0 100 1 [0] [1] 6%nat) [100; 105] = Ok [Some 1; Some 6] /\
  o2v_strided 2 (leafs (na_flag (Z.eqb 6))) (leafs inc) 1000 (fun _ => 7) m0 100 1 [0] [1] 7%nat = Throw "overflow_error" /\
  compose_strided 2 (leafs Ok) (leafs inc) 1000 4 (fun _ => 0) m0 100 1 [0] [1] 10 = Throw "bad".
Proof. repeat split; reflexivity. Qed.
Example C69_case_hyp : valid m0 104 (-1) 5 /\ distinct (-1) 5 /\ holds m0 [0] [2] 5 (fun i => [2 * i]) /\ apart 104 (-1) 0 2 5 /\
  (forall i, 0 <= i < Z.of_nat 2 -> m0 (elem 1000 4 i) = None).
Proof.
  split; [|split; [|split; [|split]]].
  - intros i Hi. unfold m0, elem. assert (C : i = 0 \/ i = 1 \/ i = 2 \/ i = 3 \/ i = 4) by lia. destruct C as [->|[->|[->|[->| ->]]]]; discriminate.
  - left. lia.
  - split; [reflexivity|]. intros i Hi. assert (C : i = 0 \/ i = 1 \/ i = 2 \/ i = 3 \/ i = 4) by lia. destruct C as [->|[->|[->|[->| ->]]]]; reflexivity.
  - intros i j Hi Hj. unfold elem. lia.
  - intros i Hi. assert (C : i = 0 \/ i = 1) by lia. destruct C as [->| ->]; reflexivity.
Qed.
(** Three elements through a two element buffer: the third is never written. *)
Definition m1 : mem := fun a => if (200 <=? a) && (a <? 202) then Some 0 else m0 a.
Definition add2 (xs : list Z) : outcome Z := match xs with [x; y] => Ok (x + y) | _ => UB end.
Definition cb : list (option cbuf) := [Some (CB 200 1 dbl); None].
Example C70_case :
  show (convert_strided 2 (base_strided (leaf add2)) cb m1 100 1 [0; 5] [1; 1] 2%nat) [100; 101; 102] = Ok [Some 5; Some 8; Some 0] /\
  show (convert_strided 2 (base_strided (leaf add2)) cb m1 100 1 [0; 5] [1; 1] 3%nat) [100; 101; 102] = Ok [Some 7; Some 8; Some 0] /\
  convert_single add2 cb [2; 7] = Ok 11 /\ buffers_ok 2 m1 cb.
Proof.
  split; [reflexivity|]. split; [reflexivity|]. split; [reflexivity|]. cbn.
  split; [|split; [left; lia|split; [|exact I]]].
  - intros i Hi. assert (C : i = 0 \/ i = 1) by lia. destruct C as [->| ->]; discriminate.
  - intros i Hi (b & j & [E|[]] & _). discriminate.
Qed.
Example C71_case :
  let na x := Z.even x in
  show (o2o_strided 4 (leafs (na_flag na)) (leafs dbl) (-1) 1000 (fun _ => 0) m0 100 1 [0] [1] 4%nat) [100; 101; 102; 103; 104] =
    Ok [Some (-1); Some 2; Some (-1); Some 6; Some 0] /\
  o2o_strided 2 (leafs (na_flag na)) (leafs dbl) (-1) 1000 (fun _ => 0) m0 100 1 [0] [1] 4%nat = UB /\
  show (o2o_strided 1 (leafs (na_flag na)) (leafs dbl) (-1) 1000 (fun _ => 0) m0 100 1 [0] [1] 3%nat) [100; 101; 102] =
    Ok [Some (-1); Some (-1); Some (-1)].
Proof. repeat split; reflexivity. Qed.
