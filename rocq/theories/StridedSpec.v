(** What it means to apply a function along a dimension.  Only the memory and
    the outcomes are taken from the model. *)
From Verif Require Import Base StridedModel.
Open Scope Z_scope.

(** Element [i] of an operand at [base] with stride [s] is at [base + i * s]. *)
Definition elem (base s i : Z) : Z := base + i * s.
(** All [n] elements of the operand are allocated. *)
Definition valid (m : mem) (base s : Z) (n : nat) : Prop :=
  forall i, 0 <= i < Z.of_nat n -> m (elem base s i) <> None.
(** The elements of an output are different cells. *)
Definition distinct (s : Z) (n : nat) : Prop := s <> 0 \/ (n <= 1)%nat.
(** Two operands share no cell. *)
Definition apart (b1 s1 b2 s2 : Z) (n : nat) : Prop :=
  forall i j, 0 <= i < Z.of_nat n -> 0 <= j < Z.of_nat n -> elem b1 s1 i <> elem b2 s2 j.
(** [x i] is the tuple of the i-th elements of the sources. *)
Definition holds (m : mem) (srcs ss : list Z) (n : nat) (x : Z -> list Z) : Prop :=
  List.length srcs = List.length ss /\
  forall i, 0 <= i < Z.of_nat n -> map (fun p => m (elem (fst p) (snd p) i)) (combine srcs ss) = map Some (x i).

(** The memory after storing [v i] in element [i] of the output, and nothing else. *)
Definition stored (m m' : mem) (dst ds : Z) (n : nat) (v : Z -> Z) : Prop :=
  (forall i, 0 <= i < Z.of_nat n -> m' (elem dst ds i) = Some (v i)) /\
  (forall a, (forall i, 0 <= i < Z.of_nat n -> a <> elem dst ds i) -> m' a = m a).

(** Applying [f] to every tuple [x i]: if [f] returns for all of them, the
    results are stored; if it throws for some, one of these exceptions is thrown. *)
Definition applied (f : list Z -> outcome Z) (m : mem) (dst ds : Z) (n : nat) (x : Z -> list Z) (o : outcome mem) : Prop :=
  (forall v, (forall i, 0 <= i < Z.of_nat n -> f (x i) = Ok (v i)) -> exists m', o = Ok m' /\ stored m m' dst ds n v) /\
  ((forall i, 0 <= i < Z.of_nat n -> (exists v, f (x i) = Ok v) \/ (exists e, f (x i) = Throw e)) ->
   (exists i e, 0 <= i < Z.of_nat n /\ f (x i) = Throw e) ->
   exists i e, 0 <= i < Z.of_nat n /\ f (x i) = Throw e /\ o = Throw e).

(** A strided kernel that applies [f] to [n] elements, for every placement of
    the operands where the output overlaps no source. *)
Definition applies (f : list Z -> outcome Z) (k : strided_t) : Prop :=
  forall m dst ds srcs ss n x,
    valid m dst ds n -> distinct ds n -> holds m srcs ss n x ->
    (forall s t, In (s, t) (combine srcs ss) -> apart dst ds s t n) ->
    applied f m dst ds n x (k m dst ds srcs ss n).

(** A function of one source. *)
Definition on1 (f : Z -> outcome Z) (xs : list Z) : outcome Z :=
  match xs with v :: _ => f v | [] => UB end.

(** The cells of the conversion buffers, each of [K] elements. *)
Definition buf_cell (K : nat) (bufs : list (option cbuf)) (a : Z) : Prop :=
  exists b i, In (Some b) bufs /\ 0 <= i < Z.of_nat K /\ a = elem (cb_addr b) (cb_stride b) i.
(** The buffers are allocated, their elements are different cells, and they are
    apart from each other. *)
Fixpoint buffers_ok (K : nat) (m : mem) (bufs : list (option cbuf)) : Prop :=
  match bufs with
  | [] => True
  | None :: r => buffers_ok K m r
  | Some b :: r =>
      valid m (cb_addr b) (cb_stride b) K /\ distinct (cb_stride b) K /\
      (forall i, 0 <= i < Z.of_nat K -> ~ buf_cell K r (elem (cb_addr b) (cb_stride b) i)) /\
      buffers_ok K m r
  end.
(** A kernel that writes nothing but its output. *)
Definition writes_only_output (k : strided_t) : Prop :=
  forall m dst ds srcs ss n m', k m dst ds srcs ss n = Ok m' ->
    forall a, (forall i, 0 <= i < Z.of_nat n -> a <> elem dst ds i) -> m' a = m a.
