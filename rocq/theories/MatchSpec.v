(** What matching and substitution are for, without reference to how they are done. *)
From Verif Require Import Base TypesModel MatchModel.
Local Open Scope string_scope.
Local Open Scope Z_scope.

(** ** Types of arrays that can exist: no symbolic part anywhere, sizes not
    negative, as many field names as fields, no option of an option. *)
Fixpoint concrete (c : ty) : bool :=
  match c with
  | TBuiltin b => negb (builtin_eqb b uninitialized)
  | TLeaf _ => true
  | TFixedDim n e => (0 <=? n) && concrete e
  | TVarDim e | TPointer e => concrete e
  | TOption t => concrete t && match t with TOption _ => false | _ => true end
  | TTuple l v => negb v && forallb concrete l
  | TStruct names l v => negb v && (List.length names =? List.length l)%nat && forallb concrete l
  | TCallable r (TTuple l v) (TStruct names m w) =>
      concrete r && (negb v && forallb concrete l) && (negb w && (List.length names =? List.length m)%nat && forallb concrete m)
  | _ => false
  end.
(** No option of an array, such as ?(3 * int32), anywhere. *)
Fixpoint plain_options (c : ty) : bool :=
  match c with
  | TOption t => plain_options t && (ndim t =? 0)
  | TFixedDim _ e | TVarDim e | TPointer e => plain_options e
  | TTuple l _ | TStruct _ l _ => forallb plain_options l
  | TCallable r p k => plain_options r && plain_options p && plain_options k
  | _ => true
  end.

(** ** Dimensions. *)
Inductive dim := DFixed (n : Z) | DVar.
Definition put1 (d : dim) (t : ty) : ty := match d with DFixed n => TFixedDim n t | DVar => TVarDim t end.
Definition put (ds : list dim) (t : ty) : ty := fold_right put1 t ds.
(** Broadcasting: a dimension of size one, or of variable size, may stand where
    another size is expected; missing leading dimensions are allowed. *)
Definition dim_le (d f : dim) : Prop := d = f \/ d = DFixed 1 \/ d = DVar.
Definition broadcasts_to (ds fs : list dim) : Prop :=
  exists pre tail, fs = (pre ++ tail)%list /\ Forall2 dim_le ds tail.

(** ** What a type variable may stand for. *)
Inductive binding := BType (t : ty) | BDim (d : dim) | BFrag (ds : list dim).
Definition assignment := string -> option binding.

(** The kinds, by the hierarchy of type ids (src/dynd/type_registry.cpp:34-97). *)
Definition in_kind (k : skind) (c : ty) : Prop :=
  match k with
  | KBool => c = TBuiltin bool_
  | KInt => exists b, c = TBuiltin b /\ In b [int8; int16; int32; int64; int128]
  | KUInt => exists b, c = TBuiltin b /\ In b [uint8; uint16; uint32; uint64; uint128]
  | KFloat => exists b, c = TBuiltin b /\ In b [float16; float32; float64; float128]
  | KComplex => exists b, c = TBuiltin b /\ In b [complex_float32; complex_float64]
  | KBytes => (exists a, c = TLeaf (LBytes a)) \/ (exists n a, c = TLeaf (LFixedBytes n a))
  | KFixedBytes => exists n a, c = TLeaf (LFixedBytes n a)
  | KString => c = TLeaf LString \/ (exists n e, c = TLeaf (LFixedString n e)) \/ (exists e, c = TLeaf (LChar e))
  | KFixedString => exists n e, c = TLeaf (LFixedString n e)
  end.

(** [inst R g p c]: the type [c] is an instance of the pattern [p] when its
    variables stand for what [g] says.  [R] relates the dimensions [c] has in
    place of a named ellipsis to the ones [g] gives for the name. *)
Fixpoint inst (R : list dim -> list dim -> Prop) (g : assignment) (p c : ty) {struct p} : Prop :=
  let fields (more : bool) := fix fields (ps cs : list ty) : Prop :=
     match ps, cs with
     | [], [] => True
     | [], _ :: _ => more = true
     | p :: ps', c :: cs' => inst R g p c /\ fields ps' cs'
     | _ :: _, [] => False
     end in
  match p with
  | TBuiltin b => c = TBuiltin b
  | TLeaf l => c = TLeaf l
  | TFixedDim n e => exists f, c = TFixedDim n f /\ inst R g e f
  | TVarDim e => exists f, c = TVarDim f /\ inst R g e f
  | TPointer t => exists f, c = TPointer f /\ inst R g t f
  | TOption t => exists f, c = TOption f /\ inst R g t f
  | TTuple ps v => exists cs, c = TTuple cs false /\ fields v ps cs
  | TStruct names ps v =>
      exists cnames cs, c = TStruct cnames cs false /\ fields v ps cs /\ (exists more, cnames = (names ++ more)%list)
  | TCallable r ps k =>
      exists r' ps' k', c = TCallable r' ps' k' /\ inst R g r r' /\ inst R g ps ps' /\ inst R g k k'
  | TAny => True
  | TScalar => ndim c = 0
  | TKind k => in_kind k c
  | TFixedDimKind e => exists n f, c = TFixedDim n f /\ inst R g e f
  | TDimKind e => exists d f, c = put1 d f /\ inst R g e f
  | TTypevar s => g s = Some (BType c) /\ ndim c = 0
  | TTypevarDim s e => exists d f, g s = Some (BDim d) /\ c = put1 d f /\ inst R g e f
  | TEllipsis s e =>
      exists ds f, c = put ds f /\ inst R g e f /\ (s <> "" -> exists fs, g s = Some (BFrag fs) /\ R ds fs)
  | TPow base s e =>
      exists ds f, c = put ds f /\ inst R g e f /\ g s = Some (BDim (DFixed (Z.of_nat (List.length ds)))) /\
        (ds <> [] ->
         match base with
         | TFixedDimKind _ => Forall (fun d => exists n, d = DFixed n) ds
         | TFixedDim k _ => Forall (fun d => d = DFixed k) ds
         | TVarDim _ => Forall (fun d => d = DVar) ds
         | TTypevarDim b _ => exists d, g b = Some (BDim d) /\ Forall (fun d' => d' = d) ds
         | _ => False
         end)
  | TDimFragment _ => False
  end.

(** ** Reading the variables a match leaves behind. *)
Definition dim_of_tag (g : Z) : dim := if g =? -1 then DVar else DFixed g.
Definition entry (t : ty) : binding :=
  match t with
  | TDimFragment l => BFrag (map dim_of_tag l)
  | TFixedDim n _ => BDim (DFixed n)
  | TVarDim _ => BDim DVar
  | _ => BType t
  end.
Definition meaning (vs : env) : assignment := fun s => option_map entry (find vs s).
(** Variables a caller may start from: concrete types and fragments of concrete dimensions. *)
Definition entry_ok (t : ty) : bool :=
  match t with
  | TDimFragment l => forallb (fun g => -1 <=? g) l
  | _ => concrete t && plain_options t
  end.
Definition vars_ok (vs : env) : Prop := forall s t, find vs s = Some t -> entry_ok t = true.
(** A later binding of a variable keeps what an earlier one said. *)
Definition refines (b b' : binding) : Prop :=
  match b, b' with
  | BFrag ds, BFrag fs => broadcasts_to ds fs
  | _, _ => b = b'
  end.

(** ** The names a pattern uses. *)
Fixpoint names (p : ty) : list string :=
  match p with
  | TFixedDim _ e | TVarDim e | TPointer e | TOption e | TFixedDimKind e | TDimKind e => names e
  | TTuple l _ | TStruct _ l _ => flat_map names l
  | TCallable r ps k => (names r ++ names ps ++ names k)%list
  | TTypevar s => [s]
  | TTypevarDim s e => s :: names e
  | TEllipsis s e => if String.eqb s "" then names e else s :: names e
  | TPow base s e => s :: (match base with TTypevarDim b _ => [b] | _ => [] end ++ names e)%list
  | _ => []
  end.
Fixpoint ellipsis_names (p : ty) : list string :=
  match p with
  | TFixedDim _ e | TVarDim e | TPointer e | TOption e | TFixedDimKind e | TDimKind e | TTypevarDim _ e | TPow _ _ e => ellipsis_names e
  | TTuple l _ | TStruct _ l _ => flat_map ellipsis_names l
  | TCallable r ps k => (ellipsis_names r ++ ellipsis_names ps ++ ellipsis_names k)%list
  | TEllipsis s e => if String.eqb s "" then ellipsis_names e else s :: ellipsis_names e
  | _ => []
  end.
(** The number of dimensions of every instance is known from the pattern alone. *)
Fixpoint rigid (p : ty) : bool :=
  match p with
  | TAny | TEllipsis _ _ | TPow _ _ _ | TDimFragment _ => false
  | TFixedDim _ e | TVarDim e | TOption e | TFixedDimKind e | TDimKind e | TTypevarDim _ e => rigid e
  | _ => true
  end.
(** The patterns whose matches are what they claim: below a [Dim] there are no
    variables, a power of var or of a variable is followed by a known number of
    dimensions, and struct patterns have as many names as fields. *)
Fixpoint sound_pattern (p : ty) : bool :=
  match p with
  | TFixedDim _ e | TVarDim e | TPointer e | TOption e | TFixedDimKind e | TTypevarDim _ e | TEllipsis _ e => sound_pattern e
  | TDimKind e => sound_pattern e && match names e with [] => true | _ => false end
  | TTuple l _ => forallb sound_pattern l
  | TStruct ns l _ => (List.length ns =? List.length l)%nat && forallb sound_pattern l
  | TCallable r ps k => sound_pattern r && sound_pattern ps && sound_pattern k
  | TPow base _ e =>
      sound_pattern e && match base with
                         | TFixedDimKind _ | TFixedDim _ _ => true
                         | TVarDim _ | TTypevarDim _ _ => rigid e
                         | _ => false
                         end
  | TDimFragment _ => false
  | _ => true
  end.
(** The patterns every instance of which is recognised. *)
Fixpoint complete_pattern (p : ty) : bool :=
  match p with
  | TFixedDim _ e | TVarDim e | TPointer e | TOption e | TFixedDimKind e | TTypevarDim _ e => complete_pattern e
  | TDimKind e => complete_pattern e && match names e with [] => true | _ => false end
  | TTuple l _ => forallb complete_pattern l
  | TStruct ns l _ => (List.length ns =? List.length l)%nat && forallb complete_pattern l
  | TCallable r ps k => complete_pattern r && complete_pattern ps && complete_pattern k
  | TEllipsis _ e => complete_pattern e && rigid e
  | TPow base _ e => complete_pattern e && rigid e && match base with TFixedDimKind _ | TFixedDim _ _ | TVarDim _ | TTypevarDim _ _ => true | _ => false end
  | TKind KBytes | TKind KString => false
  | TDimFragment _ => false
  | _ => true
  end.
(** The patterns substitution can rebuild. *)
Fixpoint substitutable (p : ty) : bool :=
  let covered p := symbolic p || match names p with [] => true | _ => false end in
  match p with
  | TBuiltin _ | TLeaf _ => true
  | TFixedDim _ e | TVarDim e | TPointer e | TOption e => substitutable e && covered e
  | TTuple l v => negb v && forallb substitutable l && covered p
  | TStruct ns l v => negb v && (List.length ns =? List.length l)%nat && forallb substitutable l && covered p
  | TCallable r ps k =>
      substitutable r && substitutable ps && match ps with TTuple _ _ => true | _ => false end &&
      match k with TStruct [] [] false => true | _ => false end
  | TTypevar _ => true
  | TTypevarDim _ e => substitutable e
  | TEllipsis s e => substitutable e && negb (String.eqb s "")
  | TPow base _ e => substitutable e && match base with TFixedDim _ _ | TVarDim _ | TTypevarDim _ _ => true | _ => false end
  | _ => false
  end.

(** [wider c c']: the same type, except that some dimensions of [c] have been
    broadcast to those of [c']. *)
Inductive wider : ty -> ty -> Prop :=
| wider_same t : wider t t
| wider_dims ds fs t t' : broadcasts_to ds fs -> wider t t' -> wider (put ds t) (put fs t')
| wider_pointer t t' : wider t t' -> wider (TPointer t) (TPointer t')
| wider_option t t' : wider t t' -> wider (TOption t) (TOption t')
| wider_tuple l l' : Forall2 wider l l' -> wider (TTuple l false) (TTuple l' false)
| wider_struct ns l l' : Forall2 wider l l' -> wider (TStruct ns l false) (TStruct ns l' false)
| wider_callable r r' l l' k : wider r r' -> Forall2 wider l l' -> wider (TCallable r (TTuple l false) k) (TCallable r' (TTuple l' false) k).
(** The names used as exponents. *)
Fixpoint exponents (p : ty) : list string :=
  match p with
  | TFixedDim _ e | TVarDim e | TPointer e | TOption e | TFixedDimKind e | TDimKind e | TTypevarDim _ e | TEllipsis _ e => exponents e
  | TTuple l _ | TStruct _ l _ => flat_map exponents l
  | TPow _ s e => s :: exponents e
  | _ => []
  end.
(** Patterns without kinds, variadic parts, unnamed ellipses or callables. *)
Fixpoint plain_pattern (p : ty) : bool :=
  match p with
  | TBuiltin _ | TLeaf _ | TAny | TScalar | TTypevar _ => true
  | TFixedDim _ e | TVarDim e | TPointer e | TFixedDimKind e | TTypevarDim _ e => plain_pattern e
  | TOption e => plain_pattern e && match e with TOption _ => false | _ => true end
  | TTuple l v | TStruct _ l v => negb v && forallb plain_pattern l
  | TEllipsis s e => negb (String.eqb s "") && plain_pattern e
  | TPow b _ e => match b with TFixedDim _ (TBuiltin void) | TVarDim (TBuiltin void) | TFixedDimKind (TBuiltin void) | TTypevarDim _ (TBuiltin void) => true | _ => false end && plain_pattern e
  | _ => false
  end.
