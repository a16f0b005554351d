(* What a program may do with vectors and what it must then see: every vector is
   a list of elements of its own. Nothing here comes from the model but the
   names of the operations and of the events. *)
From Verif Require Import Base ShortVecModel.
Local Open Scope Z_scope.

(* The vectors that exist; an element is None until it is written. *)
Definition vectors := nat -> option (list (option Z)).
Definition with_ (v : vectors) (i : nat) (x : option (list (option Z))) : vectors :=
  fun j => if Nat.eqb j i then x else v j.
Definition replace {A} (l : list A) (k : nat) (x : A) : list A :=
  (firstn k l ++ match skipn k l with [] => [] | _ :: t => x :: t end)%list.

(* A vector of n elements is asked for: it can be refused only when there is no
   memory and more elements are asked for than fit in the object. *)
Definition granted (N n : nat) (ok : bool) : bool := (n <=? N)%nat || ok.

Definition make (N : nat) (v : vectors) (i n : nat) (ok : bool) (l : list (option Z)) : option (vectors * event) :=
  match v i with
  | Some _ => None
  | None => if granted N n ok then Some (with_ v i (Some (firstn n l)), Done) else Some (v, Thrown)
  end.
(* A refused init is not legal here (see C130). *)
Definition remake (N : nat) (v : vectors) (i n : nat) (ok : bool) (l : list (option Z)) : option (vectors * event) :=
  match v i with
  | None => None
  | Some _ => if granted N n ok then Some (with_ v i (Some (firstn n l)), Done) else None
  end.
Definition unwritten (n : nat) : list (option Z) := repeat None n.
Definition known (l : list Z) : list (option Z) := map Some l.

(* Legal operations and their effects; None for an illegal one. A vector that was
   moved from has no elements. *)
Definition allowed (N : nat) (v : vectors) (o : op) : option (vectors * event) :=
  match o with
  | Ctor i => make N v i 0 true []
  | CtorSize i n ok => make N v i n ok (unwritten n)
  | CtorCopy i n j ok =>
      match v j with
      | Some l => if (n <=? List.length l)%nat then make N v i n ok l else None
      | None => None
      end
  | CtorData i n l ok => if (n <=? List.length l)%nat then make N v i n ok (known l) else None
  | Init i n ok => remake N v i n ok (unwritten n)
  | InitData i n l ok => if (n <=? List.length l)%nat then remake N v i n ok (known l) else None
  | InitFrom i n j ok =>
      match v j with
      | Some l => if negb (Nat.eqb i j) && (n <=? List.length l)%nat then remake N v i n ok l else None
      | None => None
      end
  | MoveCtor i j =>
      match v i, v j with
      | None, Some l => Some (with_ (with_ v i (Some l)) j (Some []), Done)
      | _, _ => None
      end
  | MoveAssign i j =>
      match v i, v j with
      | Some _, Some l =>
          if Nat.eqb i j then Some (v, Done)
          else Some (with_ (with_ v i (Some l)) j (Some []), Done)
      | _, _ => None
      end
  | Swap i j =>
      match v i, v j with
      | Some l, Some m => Some (with_ (with_ v i (Some m)) j (Some l), Done)
      | _, _ => None
      end
  | Set_ i k x =>
      match v i with
      | Some l => if (k <? List.length l)%nat then Some (with_ v i (Some (replace l k (Some x))), Done) else None
      | None => None
      end
  | Get i k =>
      match v i with
      | Some l => match nth_error l k with Some (Some x) => Some (v, Val x) | _ => None end
      | None => None
      end
  | Dtor i => match v i with Some _ => Some (with_ v i None, Done) | None => None end
  end.
Fixpoint history (N : nat) (ops : list op) (v : vectors) {struct ops} : option (vectors * list event) :=
  match ops with
  | [] => Some (v, [])
  | o :: ops' =>
      match allowed N v o with
      | Some (v1, e) =>
          match history N ops' v1 with Some (v2, es) => Some (v2, e :: es) | None => None end
      | None => None
      end
  end.
Definition none : vectors := fun _ => None.

(* The operations that ask for more elements than fit, and get them. *)
Definition big (N : nat) (o : op) : bool :=
  match o with
  | CtorSize _ n ok | CtorCopy _ n _ ok | CtorData _ n _ ok | Init _ n ok | InitData _ n _ ok | InitFrom _ n _ ok =>
      negb (n <=? N)%nat && ok
  | _ => false
  end.

(* ---- multi_shortvector: M rows of n elements each *)
Definition grid := nat -> nat -> option Z.
(* None: before the first init. An init makes all elements unwritten. *)
Definition mallowed (M : nat) (g : option (Z * grid)) (o : mop) : option (option (Z * grid) * event) :=
  match o, g with
  | MInit n ok, _ =>
      if (0 <=? n) && ok then Some (Some (n, fun _ _ => None), Done) else None
  | MSet i j x, Some (n, f) =>
      if (i <? M)%nat && (Z.of_nat j <? n)
      then Some (Some (n, fun a b => if Nat.eqb a i && Nat.eqb b j then Some x else f a b), Done) else None
  | MGet i j, Some (n, f) =>
      if (i <? M)%nat && (Z.of_nat j <? n) then
        match f i j with Some x => Some (g, Val x) | None => None end
      else None
  | _, None => None
  end.
Fixpoint mhistory (M : nat) (ops : list mop) (g : option (Z * grid)) {struct ops} : option (list event) :=
  match ops with
  | [] => Some []
  | o :: ops' =>
      match mallowed M g o with
      | Some (g1, e) => match mhistory M ops' g1 with Some es => Some (e :: es) | None => None end
      | None => None
      end
  end.
(* the sizes asked for, in order *)
Fixpoint sizes (ops : list mop) : list Z :=
  match ops with
  | [] => []
  | MInit n _ :: ops' => n :: sizes ops'
  | _ :: ops' => sizes ops'
  end.
(* once too large for the object, always too large *)
Definition never_back (N : nat) (ns : list Z) : Prop :=
  forall i j n m, (i < j)%nat -> nth_error ns i = Some n -> nth_error ns j = Some m ->
    Z.of_nat N < n -> Z.of_nat N < m.
