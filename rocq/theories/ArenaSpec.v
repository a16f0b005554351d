(** Specification for C29-C31: what a user of an arena relies on. *)
From Coq Require Import List ZArith.
From Verif Require Import Base ArenaModel.
Import ListNotations.
Open Scope Z_scope.

(** A region of memory and its bytes. *)
Definition region := (Z * Z)%type.
Definition inr (x : Z) (r : region) : Prop := fst r <= x < fst r + snd r.
Definition disjoint (r q : region) : Prop := forall x, inr x r -> ~ inr x q.
Definition within (r q : region) : Prop := fst q <= fst r /\ fst r + snd r <= fst q + snd q.

Section Arena.
Variables (zero : bool) (data_size data_alignment : Z).
(** The two kinds of arena. *)
Definition alloc := if zero then zero_alloc data_size data_alignment else pod_alloc data_size data_alignment.
Definition resize := if zero then zero_resize data_size else pod_resize data_size.

(** The operations of a history.  The user writes only to memory it was given and
    resizes only its most recent allocation. *)
Inductive op := OAlloc (count : Z) | OResize (count : Z) | OWrite (x v : Z) | OFinalize | OReset.
(** The user's view: regions it holds, the latest allocation first; whether the
    latest can be resized; whether an allocation ever failed. *)
Record view := mkview { given : list region; recent : option region; failed : bool }.
Definition okcount (c : Z) : Prop := 0 <= c /\ c * data_size < 2 ^ 60.
(** pod_memory_block::resize is only usable in place (C30). *)
Definition legal (s : arena) (v : view) (o : op) : Prop :=
  match o with
  | OAlloc c => okcount c
  | OResize c => okcount c /\ exists r, recent v = Some r /\ (zero = false -> fst r + c * data_size <= mend s)
  | OWrite x _ => exists r, In r (given v) /\ inr x r
  | OFinalize => True
  | OReset => failed v = false
  end.
(** A history: how arena and view change together. *)
Inductive step : arena -> view -> op -> arena -> view -> Prop :=
| st_alloc s v c ans s' p : alloc s ans c = Ok (s', Some p) -> step s v (OAlloc c) s' (mkview ((p, c * data_size) :: given v) (Some (p, c * data_size)) (failed v))
| st_alloc_fail s v c ans s' : alloc s ans c = Ok (s', None) -> step s v (OAlloc c) s' (mkview (given v) (recent v) true)
| st_resize s v c ans s' p r g : recent v = Some r -> given v = r :: g -> resize s ans (fst r) c = Ok (s', Some p) ->
    step s v (OResize c) s' (mkview ((p, c * data_size) :: g) (Some (p, c * data_size)) (failed v))
| st_resize_fail s v c ans s' r : recent v = Some r -> resize s ans (fst r) c = Ok (s', None) -> step s v (OResize c) s' (mkview (given v) (recent v) true)
| st_write s v x b : step s v (OWrite x b) (mkar (fun y => if y =? x then b else mem s y) (blocks s) (handles s) (mbegin s) (mcur s) (mend s) (total s)) v
| st_finalize s v : step s v OFinalize (finalize s) (mkview (given v) None (failed v))
| st_reset s v s' : reset s = Ok s' -> step s v OReset s' (mkview [] None (failed v)).
Inductive reachable : arena -> view -> Prop :=
| reach_create ans m n s : 0 <= n < 2 ^ 60 -> create ans m n = (s, true) -> reachable s (mkview [] None false)
| reach_step s v o s' v' : reachable s v -> legal s v o -> step s v o s' v' -> reachable s' v'.
End Arena.
