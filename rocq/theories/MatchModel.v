(** Pattern matching of types (ndt::type::match) and substitution of type
    variables (ndt::substitute).

    Not modelled: the memory (CUDA) types and constructed type variables, the
    expression types, categorical types.  A type's number of dimensions is an
    unbounded integer here (a uint8_t in the code). *)
From Verif Require Import Base TypesModel.
Local Open Scope string_scope.
Local Open Scope Z_scope.

(** Scalar types that are not builtin: bytes[align], fixed_bytes[n,align],
    string, fixed_string[n,encoding], char[encoding]; [LOther] stands for the
    remaining ones that use the default match (type, array, ...), which all sit
    directly below Scalar in the table src/dynd/type_registry.cpp:34-97. *)
Inductive leaf := LBytes (align : Z) | LFixedBytes (n align : Z) | LString | LFixedString (n enc : Z) | LChar (enc : Z) | LOther (n : Z).
(** The symbolic kinds Bool, Int, UInt, Float, Complex, Bytes, FixedBytes,
    String, FixedString, include/dynd/types/*_kind_type.hpp. *)
Inductive skind := KBool | KInt | KUInt | KFloat | KComplex | KBytes | KFixedBytes | KString | KFixedString.
Inductive ty :=
| TBuiltin (b : builtin)
| TLeaf (l : leaf)
| TFixedDim (n : Z) (e : ty)
| TVarDim (e : ty)
| TPointer (t : ty)
| TOption (t : ty)
| TTuple (fields : list ty) (variadic : bool)
| TStruct (names : list string) (fields : list ty) (variadic : bool)
| TCallable (ret pos kwd : ty)
| TAny
| TScalar
| TKind (k : skind)
| TFixedDimKind (e : ty)
| TDimKind (e : ty)
| TTypevar (name : string)
| TTypevarDim (name : string) (e : ty)
| TEllipsis (name : string) (e : ty)
| TPow (base : ty) (exponent : string) (e : ty)
| TDimFragment (tagged : list Z).

(** type::is_null / the null type is the builtin id 0, include/dynd/type.hpp:153. *)
Definition is_null (t : ty) : bool := match t with TBuiltin uninitialized => true | _ => false end.

(** get_ndim: include/dynd/types/base_dim_type.hpp:26-31 (1 + element),
    option_type.hpp:78-82 (the value's), pointer_type.hpp:38-42 (0),
    dim_fragment_type.hpp:34 and dim_fragment_type.cpp:80, base_type (0). *)
Fixpoint ndim (t : ty) : Z :=
  match t with
  | TFixedDim _ e | TVarDim e | TFixedDimKind e | TDimKind e | TTypevarDim _ e | TEllipsis _ e | TPow _ _ e => 1 + ndim e
  | TOption t => ndim t
  | TDimFragment l => Z.of_nat (List.length l)
  | _ => 0
  end.
(** The flag type_flag_variadic: any_kind_type.hpp:16, ellipsis_dim_type.hpp:22,
    inherited by fixed_dim_type.hpp:35, var_dim_type.hpp:38,
    fixed_dim_kind_type.hpp:156, dim_kind_type.cpp:16, option_type.hpp:80,
    pointer_type.hpp:40; not by tuples and structs (type_id.hpp:168-172). *)
Fixpoint variadic_flag (t : ty) : bool :=
  match t with
  | TAny | TEllipsis _ _ => true
  | TFixedDim _ e | TVarDim e | TFixedDimKind e | TDimKind e | TOption e | TPointer e => variadic_flag e
  | _ => false
  end.
(** The flag type_flag_symbolic, set by every pattern constructor and inherited
    by the places named above and by tuple_type.hpp:98,117 and
    struct_type.hpp:53,73; a callable is never symbolic (callable_type.hpp:50-52). *)
Fixpoint symbolic (t : ty) : bool :=
  match t with
  | TBuiltin _ | TLeaf _ | TCallable _ _ _ => false
  | TFixedDim _ e | TVarDim e | TPointer e | TOption e => symbolic e
  | TTuple l v => v || existsb symbolic l
  | TStruct _ l v => v || existsb symbolic l
  | _ => true
  end.
(** base_type::is_scalar, include/dynd/types/base_type.hpp:164. *)
Definition is_scalar (t : ty) : bool := (ndim t =? 0) && negb (variadic_flag t).

(** get_type_at_dimension(NULL, i): fixed_dim_type.cpp:159, var_dim_type.cpp:218,
    fixed_dim_kind_type.cpp:58, dim_kind_type.cpp:37, typevar_dim_type.cpp:56,
    ellipsis_dim_type.cpp:58, option_type.cpp:127, pointer_type.cpp:112,
    any_kind_type.cpp:30, base_type.cpp:89 (everything else, the dimension power
    and the dimension fragment included). *)
Fixpoint type_at_dim (t : ty) (i : Z) : outcome ty :=
  if i =? 0 then Ok t
  else match t with
       | TFixedDim _ e | TVarDim e | TFixedDimKind e | TDimKind e | TTypevarDim _ e => type_at_dim e (i - 1)
       | TEllipsis _ e => if i <=? ndim e then type_at_dim e (i - 1) else type_at_dim e (ndim e)
       | TOption e => type_at_dim e i
       | TPointer e => do r <- type_at_dim e i; Ok (TPointer r)
       | TAny => Ok TAny
       | _ => Throw "too_many_indices"
       end.

(** type::operator==, include/dynd/type.hpp:147-149, and the operator== of each
    class; all compare the parts.  The alignment that tuples and structs compare
    as well is a function of the field types. *)
Definition leaf_eqb (a b : leaf) : bool :=
  match a, b with
  | LBytes x, LBytes y => x =? y
  | LFixedBytes x u, LFixedBytes y v => (x =? y) && (u =? v)
  | LString, LString => true
  | LFixedString x u, LFixedString y v => (x =? y) && (u =? v)
  | LChar x, LChar y => x =? y
  | LOther x, LOther y => x =? y
  | _, _ => false
  end.
Definition skind_id (k : skind) : Z :=
  match k with KBool => 0 | KInt => 1 | KUInt => 2 | KFloat => 3 | KComplex => 4 | KBytes => 5 | KFixedBytes => 6 | KString => 7 | KFixedString => 8 end.
Fixpoint list_eqb {A} (eqb : A -> A -> bool) (l m : list A) : bool :=
  match l, m with
  | [], [] => true
  | x :: l', y :: m' => eqb x y && list_eqb eqb l' m'
  | _, _ => false
  end.
Fixpoint ty_eqb (a b : ty) {struct a} : bool :=
  let go := fix go (l m : list ty) : bool :=
              match l, m with
              | [], [] => true
              | x :: l', y :: m' => ty_eqb x y && go l' m'
              | _, _ => false
              end in
  match a, b with
  | TBuiltin x, TBuiltin y => builtin_eqb x y
  | TLeaf x, TLeaf y => leaf_eqb x y
  | TFixedDim n e, TFixedDim m f => (n =? m) && ty_eqb e f
  | TVarDim e, TVarDim f | TPointer e, TPointer f | TOption e, TOption f => ty_eqb e f
  | TTuple l v, TTuple m w => go l m && Bool.eqb v w
  | TStruct n l v, TStruct n' m w => go l m && list_eqb String.eqb n n' && Bool.eqb v w
  | TCallable r p k, TCallable r' p' k' => ty_eqb r r' && ty_eqb p p' && ty_eqb k k'
  | TAny, TAny | TScalar, TScalar => true
  | TKind k, TKind k' => skind_id k =? skind_id k'
  | TFixedDimKind e, TFixedDimKind f | TDimKind e, TDimKind f => ty_eqb e f
  | TTypevar n, TTypevar m => String.eqb n m
  | TTypevarDim n e, TTypevarDim m f | TEllipsis n e, TEllipsis m f => String.eqb n m && ty_eqb e f
  | TPow c n e, TPow d m f => ty_eqb c d && String.eqb n m && ty_eqb e f
  | TDimFragment l, TDimFragment m => list_eqb Z.eqb l m
  | _, _ => false
  end.

(** std::map<std::string, type>.  tp_vars[name] creates a null entry for an
    absent name, which every caller below fills or leaves when it fails, so an
    absent name and a null entry are the same here. *)
Definition env := list (string * ty).
Fixpoint find_raw (vs : env) (s : string) : option ty :=
  match vs with
  | [] => None
  | (k, t) :: vs' => if String.eqb k s then Some t else find_raw vs' s
  end.
Definition find (vs : env) (s : string) : option ty :=
  match find_raw vs s with
  | Some t => if is_null t then None else Some t
  | None => None
  end.
Definition upd (vs : env) (s : string) (t : ty) : env := (s, t) :: vs.

(** get_id, up to equality of ids. *)
Definition same_id (a b : ty) : bool :=
  match a, b with
  | TBuiltin x, TBuiltin y => builtin_eqb x y
  | TLeaf x, TLeaf y =>
      match x, y with
      | LBytes _, LBytes _ | LFixedBytes _ _, LFixedBytes _ _ | LString, LString
      | LFixedString _ _, LFixedString _ _ | LChar _, LChar _ => true
      | LOther n, LOther m => n =? m
      | _, _ => false
      end
  | TFixedDim _ _, TFixedDim _ _ | TVarDim _, TVarDim _ | TPointer _, TPointer _ | TOption _, TOption _
  | TTuple _ _, TTuple _ _ | TStruct _ _ _, TStruct _ _ _ | TCallable _ _ _, TCallable _ _ _
  | TAny, TAny | TScalar, TScalar | TFixedDimKind _, TFixedDimKind _ | TDimKind _, TDimKind _
  | TTypevar _, TTypevar _ | TTypevarDim _ _, TTypevarDim _ _ | TEllipsis _ _, TEllipsis _ _
  | TPow _ _ _, TPow _ _ _ | TDimFragment _, TDimFragment _ => true
  | TKind k, TKind k' => skind_id k =? skind_id k'
  | _, _ => false
  end.

(** The match functions of the kinds: bool_kind_type.hpp:17, int_kind_type.cpp:11,
    uint_, float_, complex_kind_type (base id of the candidate),
    bytes_kind_type.hpp:17 (base id bytes_kind, type_registry.cpp:64-66),
    string_kind_type.hpp:17, fixed_string_kind_type.cpp:96,
    fixed_bytes_kind_type.cpp:90 (the ids themselves). *)
Definition kind_match (k : skind) (c : ty) : bool :=
  let base b := match c with TBuiltin x => match base_kind x, b with
                                           | bool_kind, bool_kind | int_kind, int_kind | uint_kind, uint_kind
                                           | float_kind, float_kind | complex_kind, complex_kind => true
                                           | _, _ => false
                                           end
                           | _ => false end in
  match k with
  | KBool => base bool_kind
  | KInt => base int_kind
  | KUInt => base uint_kind
  | KFloat => base float_kind
  | KComplex => base complex_kind
  | KBytes => match c with TLeaf (LBytes _) | TKind KFixedBytes => true | _ => false end
  | KFixedBytes => match c with TLeaf (LFixedBytes _ _) | TKind KFixedBytes => true | _ => false end
  | KString => match c with TLeaf LString | TLeaf (LFixedString _ _) | TKind KFixedString | TKind KString => true | _ => false end
  | KFixedString => match c with TLeaf (LFixedString _ _) | TKind KFixedString => true | _ => false end
  end.

(** get_tagged_dims_from_type, src/dynd/types/dim_fragment_type.cpp:14-36. *)
Fixpoint tags_from (n : nat) (t : ty) : outcome (list Z * ty) :=
  match n with
  | O => Ok ([], t)
  | S n' =>
      let next tag e := do r <- tags_from n' e; Ok (tag :: fst r, snd r) in
      match t with
      | TFixedDimKind e => next (-2) e
      | TFixedDim k e => next k e
      | TVarDim e => next (-1) e
      | _ => Throw "type_error"
      end
  end.
(** broadcast_tagged_dims_from_type, dim_fragment_type.cpp:38-69.  [out] is the
    destination buffer, [None] an entry not yet written; the result is [None]
    when the function returns false. *)
Fixpoint bc_tags (t : ty) (tags : list Z) (out : list (option Z)) {struct tags} : outcome (option (list (option Z))) :=
  match tags with
  | [] => Ok (Some out)
  | g :: tags' =>
      match out with
      | [] => UB
      | o :: out' =>
          let next e o' := do r <- bc_tags e tags' out'; Ok (match r with Some l => Some (o' :: l) | None => None end) in
          match t with
          | TFixedDimKind e => next e (if g <? 0 then Some (-2) else o)
          | TFixedDim k e =>
              if (g <? 0) || (g =? 1) then next e (Some k)
              else if negb (g =? k) && negb (k =? 1) then Ok None
              else next e o
          | TVarDim e => next e o
          | _ => Throw "type_error"
          end
      end
  end.
(** make_dim_fragment(ndim, shape) copies the buffer; an entry nobody wrote is
    an indeterminate value (shortvector.hpp:55-58 does not initialise it). *)
Fixpoint all_written (l : list (option Z)) : outcome (list Z) :=
  match l with
  | [] => Ok []
  | Some x :: l' => do r <- all_written l'; Ok (x :: r)
  | None :: _ => UB
  end.
Definition finish_bc (pre : list Z) (r : option (list (option Z))) : outcome (option (list Z)) :=
  match r with
  | None => Ok None
  | Some l => do w <- all_written l; Ok (Some (pre ++ w)%list)
  end.
(** dim_fragment_type::broadcast_with_type, dim_fragment_type.cpp:83-115; [None]
    is the null type it returns on a broadcasting error. *)
Definition broadcast_with_type (mine : list Z) (n : nat) (tp : ty) : outcome (option (list Z)) :=
  let m := List.length mine in
  if (n =? 0)%nat then Ok (Some mine)
  else if (m <? n)%nat then
    do d <- tags_from (n - m) tp;
    do r <- bc_tags (snd d) mine (repeat None m);
    finish_bc (fst d) r
  else if (n <? m)%nat then
    do r <- bc_tags tp (skipn (m - n) mine) (repeat None n);
    finish_bc (firstn (m - n) mine) r
  else
    do r <- bc_tags tp mine (map Some mine);
    finish_bc [] r.
(** dim_fragment_type::apply_to_dtype, dim_fragment_type.cpp:117-138. *)
Fixpoint apply_frag (l : list Z) (t : ty) : ty :=
  match l with
  | [] => t
  | g :: l' => let t' := apply_frag l' t in
               if g =? -1 then TVarDim t' else if g =? -2 then TFixedDimKind t' else TFixedDim g t'
  end.

(** The three loops of pow_dimsym_type::match, src/dynd/types/pow_dimsym_type.cpp:189-223. *)
Fixpoint strip_fixed_kind (n : nat) (t : ty) : option ty :=
  match n with
  | O => Some t
  | S n' => match t with TFixedDimKind e | TFixedDim _ e => strip_fixed_kind n' e | _ => None end
  end.
Fixpoint strip_fixed (k : Z) (n : nat) (t : ty) : option ty :=
  match n with
  | O => Some t
  | S n' => match t with TFixedDim j e => if j =? k then strip_fixed k n' e else None | _ => None end
  end.
Fixpoint strip_var (n : nat) (t : ty) : option ty :=
  match n with
  | O => Some t
  | S n' => match t with TVarDim e => strip_var n' e | _ => strip_var n' t end
  end.
Definition strip_base (base : ty) (n : nat) (t : ty) : option ty :=
  match base with
  | TFixedDimKind _ => strip_fixed_kind n t
  | TFixedDim k _ => strip_fixed k n t
  | TVarDim _ => strip_var n t
  | _ => None
  end.
(** The exponent lookup of pow_dimsym_type::match, pow_dimsym_type.cpp:123-141 and
    149-165: the variables afterwards, or [None] when the match fails. *)
Definition bind_exponent (vs : env) (s : string) (e : Z) : option env :=
  match find vs s with
  | None => Some (upd vs s (TFixedDim e (TBuiltin void)))
  | Some (TFixedDim k _) => if k =? e then Some vs else None
  | Some _ => None
  end.
(** The base of a dimension power, pow_dimsym_type.cpp:171-186. *)
Definition resolve_base (vs : env) (base c : ty) : option (ty * env) :=
  match base with
  | TTypevarDim b _ =>
      match find vs b with
      | None => Some (c, upd vs b c)
      | Some t => if (0 <? ndim t) && negb (match t with TDimFragment _ => true | _ => false end) then Some (t, vs) else None
      end
  | _ => Some (base, vs)
  end.
(** The first half of the two branches of ellipsis_dim_type::match,
    src/dynd/types/ellipsis_dim_type.cpp:99-117 and 124-147. *)
Definition bind_empty (vs : env) (s : string) : option env :=
  if String.eqb s "" then Some vs
  else match find vs s with
       | None => Some (upd vs s (TDimFragment []))
       | Some (TDimFragment _) => Some vs
       | Some _ => None
       end.
Definition bind_dims (vs : env) (s : string) (n : nat) (c : ty) : outcome (option env) :=
  if String.eqb s "" then Ok (Some vs)
  else match find vs s with
       | None => if ndim c <? Z.of_nat n then Throw "type_error"
                 else do d <- tags_from n c; Ok (Some (upd vs s (TDimFragment (fst d))))
       | Some (TDimFragment l) =>
           do r <- broadcast_with_type l n c;
           Ok (match r with Some l' => Some (upd vs s (TDimFragment l')) | None => None end)
       | Some _ => Ok None
       end.

(** The virtual match functions: base_type.cpp:197 (equality),
    base_dim_type.cpp:21, fixed_dim_type.cpp:511, option_type.cpp:200,
    pointer_type.cpp:228, tuple_type.cpp:390, struct_type.cpp:290,
    callable_type.cpp:187, any_kind_type.hpp:37, scalar_kind_type.cpp:16,
    fixed_dim_kind_type.cpp:154, dim_kind_type.cpp:19, typevar_type.cpp:76,
    typevar_dim_type.cpp:91, ellipsis_dim_type.cpp:91, pow_dimsym_type.cpp:99.
    The result is the returned bool with the variables as they are afterwards.
    type::match (src/dynd/type.cpp:213) returns true at once when both types are
    the same object; for candidates without symbolic parts that changes nothing
    (match_same in MatchProofs6.v), and it is left out here. *)
Fixpoint match_ (p c : ty) (vs : env) {struct p} : outcome (bool * env) :=
  let go := fix go (ps cs : list ty) (vs : env) : outcome (bool * env) :=
              match ps with
              | [] => Ok (true, vs)
              | p :: ps' =>
                  match cs with
                  | [] => UB
                  | c :: cs' => do r <- match_ p c vs; if fst r then go ps' cs' (snd r) else Ok (false, snd r)
                  end
              end in
  match p with
  | TBuiltin b => Ok (match c with TBuiltin b' => builtin_eqb b b' | _ => false end, vs)
  | TLeaf l => Ok (match c with TLeaf l' => leaf_eqb l l' | _ => false end, vs)
  | TFixedDim n e =>
      match c with
      | TFixedDim m f => if n =? m then match_ e f vs else Ok (false, vs)
      | _ => Ok (false, vs)
      end
  | TVarDim e => match c with TVarDim f => match_ e f vs | _ => Ok (false, vs) end
  | TPointer t => match c with TPointer u => match_ t u vs | _ => Ok (false, vs) end
  | TOption t => match c with TOption u => match_ t u vs | _ => Ok (false, vs) end
  | TTuple ps v =>
      match c with
      | TTuple cs w =>
          if ((List.length ps =? List.length cs)%nat && negb w) || ((List.length ps <=? List.length cs)%nat && v)
          then go ps cs vs else Ok (false, vs)
      | _ => Ok (false, vs)
      end
  | TStruct names ps v =>
      match c with
      | TStruct cnames cs w =>
          if ((List.length ps =? List.length cs)%nat && negb w) || ((List.length ps <=? List.length cs)%nat && v)
          then if list_eqb String.eqb names (firstn (List.length names) cnames) then go ps cs vs else Ok (false, vs)
          else Ok (false, vs)
      | _ => Ok (false, vs)
      end
  | TCallable r ps k =>
      match c with
      | TCallable r' ps' k' =>
          do x <- match_ r r' vs;
          if fst x then
            do y <- match_ ps ps' (snd x);
            if fst y then match_ k k' (snd y) else Ok (false, snd y)
          else Ok (false, snd x)
      | _ => Ok (false, vs)
      end
  | TAny => Ok (true, vs)
  | TScalar => Ok (is_scalar c, vs)
  | TKind k => Ok (kind_match k c, vs)
  | TFixedDimKind e =>
      match c with
      | TFixedDimKind f | TFixedDim _ f => match_ e f vs
      | _ => Ok (false, vs)
      end
  | TDimKind e =>
      if 0 <? ndim c then
        do c' <- type_at_dim c 1;
        do r <- match_ e c' [];
        Ok (fst r, vs)
      else Ok (false, vs)
  | TTypevar s =>
      if (0 <? ndim c) || match c with TAny => true | _ => false end then Ok (false, vs)
      else match find vs s with
           | None => Ok (true, upd vs s c)
           | Some t => Ok (ty_eqb c t, vs)
           end
  | TTypevarDim s e =>
      if is_scalar c then Ok (false, vs)
      else match find vs s with
           | None => do c' <- type_at_dim c 1; match_ e c' (upd vs s c)
           | Some t =>
               if same_id c t
               then if match c, t with TFixedDim n _, TFixedDim m _ => n =? m | _, _ => true end
                    then do c' <- type_at_dim c 1; match_ e c' vs
                    else Ok (false, vs)
               else Ok (false, vs)
           end
  | TEllipsis s e =>
      match c with
      | TAny => Ok (true, vs)
      | _ =>
          if ndim c =? 0 then
            match bind_empty vs s with Some vs' => match_ e c vs' | None => Ok (false, vs) end
          else
            match c with
            | TEllipsis _ f => match_ e f vs
            | _ =>
                if ndim e <=? ndim c then
                  let n := Z.to_nat (ndim c - (1 + ndim e) + 1) in
                  do b <- bind_dims vs s n c;
                  match b with
                  | Some vs' => do c' <- type_at_dim c (Z.of_nat n); match_ e c' vs'
                  | None => Ok (false, vs)
                  end
                else Ok (false, vs)
            end
      end
  | TPow base s e =>
      let rest vs :=
        let x := ndim c - ndim e in
        match bind_exponent vs s x with
        | None => Ok (false, vs)
        | Some vs1 =>
            if x =? 0 then match_ e c vs1
            else if x <? 0 then Ok (false, vs1)
            else match resolve_base vs1 base c with
                 | None => Ok (false, vs1)
                 | Some (b, vs2) =>
                     match strip_base b (Z.to_nat x) c with
                     | Some c' => match_ e c' vs2
                     | None => Ok (false, vs2)
                     end
                 end
        end in
      match c with
      | TPow cb cs ce =>
          do r <- match_ base cb vs;
          if fst r then
            do r2 <- match_ e ce (snd r);
            match find (snd r2) cs with
            | None => Ok (true, upd (snd r2) cs (TTypevarDim cs (TBuiltin void)))
            | Some t => Ok (match t with TTypevarDim n _ => String.eqb n cs | _ => false end, snd r2)
            end
          else rest (snd r)
      | _ =>
          if ndim c =? 0 then
            if ndim e =? 0 then
              match bind_exponent vs s 0 with
              | Some vs1 => match_ e c vs1
              | None => Ok (false, vs)
              end
            else Ok (false, vs)
          else rest vs
      end
  | TDimFragment _ => Ok (match c with TDimFragment _ => true | _ => false end, vs)
  end.
(** The loop over fields of tuple_type::match and struct_type::match. *)
Definition match_fields := fix go (ps cs : list ty) (vs : env) : outcome (bool * env) :=
  match ps with
  | [] => Ok (true, vs)
  | p :: ps' =>
      match cs with
      | [] => UB
      | c :: cs' => do r <- match_ p c vs; if fst r then go ps' cs' (snd r) else Ok (false, snd r)
      end
  end.

(** make_type<option_type>, include/dynd/types/option_type.hpp:83-87. *)
Definition make_option (t : ty) : outcome ty :=
  match t with TOption _ => Throw "type_error" | _ => Ok (TOption t) end.
Fixpoint rep {A} (n : nat) (f : A -> A) (x : A) : A := match n with O => x | S n' => f (rep n' f x) end.
(** The last switch of the pow_dimsym case, src/dynd/types/substitute_typevars.cpp:278-322. *)
Definition apply_pow (concrete : bool) (base : ty) (n : nat) (t : ty) : outcome ty :=
  match base with
  | TFixedDimKind _ => if concrete then Throw "invalid_argument" else Ok (rep n TFixedDimKind t)
  | TFixedDim k _ => Ok (rep n (TFixedDim k) t)
  | TVarDim _ => Ok (rep n TVarDim t)
  | TTypevarDim s _ => Ok (rep n (TTypevarDim s) t)
  | _ => Throw "invalid_argument"
  end.
(** The constructor of pow_dimsym_type checks its base, include/dynd/types/pow_dimsym_type.hpp:23-31. *)
Definition make_pow (base : ty) (s : string) (e : ty) : outcome ty :=
  match base with
  | TFixedDim _ (TBuiltin void) | TVarDim (TBuiltin void) | TFixedDimKind (TBuiltin void)
  | TDimKind (TBuiltin void) | TTypevarDim _ (TBuiltin void) | TEllipsis _ (TBuiltin void) => Ok (TPow base s e)
  | _ => Throw "type_error"
  end.
(** ndt::substitute, include/dynd/types/substitute_typevars.hpp:26-37, and
    internal_substitute, src/dynd/types/substitute_typevars.cpp:116-392.  The
    generic path (lines 380-389) exists for callables only
    (callable_type.cpp:224-272): with keyword parameters it builds its arguments
    in a shadowed variable and then dereferences a null buffer. *)
Fixpoint subst (concrete : bool) (vs : env) (p : ty) {struct p} : outcome ty :=
  let go := fix go (ps : list ty) : outcome (list ty) :=
              match ps with
              | [] => Ok []
              | p :: ps' => do x <- subst concrete vs p; do r <- go ps'; Ok (x :: r)
              end in
  if negb (symbolic p) && match p with TCallable _ _ _ => false | _ => true end then Ok p
  else
  match p with
  | TPointer t => do x <- subst concrete vs t; Ok (TPointer x)
  | TFixedDimKind e =>
      if concrete then Throw "invalid_argument" else do x <- subst concrete vs e; Ok (TFixedDimKind x)
  | TFixedDim n e => do x <- subst concrete vs e; Ok (TFixedDim n x)
  | TVarDim e => do x <- subst concrete vs e; Ok (TVarDim x)
  | TStruct names ps _ => do l <- go ps; Ok (TStruct names l false)
  | TTuple ps _ => do l <- go ps; Ok (TTuple l false)
  | TOption t => do x <- subst concrete vs t; make_option x
  | TTypevar s =>
      match find_raw vs s with
      | Some t =>
          if negb (ndim t =? 0) then Throw "invalid_argument"
          else if negb concrete || negb (symbolic t) then Ok t else Throw "invalid_argument"
      | None => if concrete then Throw "invalid_argument" else Ok p
      end
  | TTypevarDim s e =>
      match find_raw vs s with
      | Some t =>
          if ndim t =? 0 then Throw "invalid_argument"
          else if negb concrete || negb (symbolic t) then
            match t with
            | TFixedDimKind _ => do x <- subst concrete vs e; Ok (TFixedDimKind x)
            | TFixedDim n _ => do x <- subst concrete vs e; Ok (TFixedDim n x)
            | TVarDim _ => do x <- subst concrete vs e; Ok (TVarDim x)
            | _ => Throw "invalid_argument"
            end
          else Throw "invalid_argument"
      | None => if concrete then Throw "invalid_argument" else do x <- subst concrete vs e; Ok (TTypevarDim s x)
      end
  | TPow base s e =>
      do ex <- match find_raw vs s with
               | None => Ok (-1, s)
               | Some (TFixedDim k _) => Ok (k, s)
               | Some (TTypevarDim s' _) => if concrete then Throw "invalid_argument" else Ok (-1, s')
               | Some _ => Throw "invalid_argument"
               end;
      if fst ex =? 0 then subst concrete vs e
      else
        do b <- match base with
                | TTypevarDim s' _ =>
                    match find_raw vs s' with
                    | None => if concrete then Throw "invalid_argument" else Ok base
                    | Some t => if (0 <? ndim t) && negb (match t with TDimFragment _ => true | _ => false end)
                                then Ok t else Throw "invalid_argument"
                    end
                | _ => Ok base
                end;
        do x <- subst concrete vs e;
        if fst ex <? 0 then make_pow b (snd ex) x
        else apply_pow concrete b (Z.to_nat (fst ex)) x
  | TEllipsis s e =>
      if String.eqb s "" then Throw "invalid_argument"
      else match find_raw vs s with
           | Some (TDimFragment l) => do x <- subst concrete vs e; Ok (apply_frag l x)
           | Some _ => Throw "invalid_argument"
           | None => if concrete then Throw "invalid_argument" else do x <- subst concrete vs e; Ok (TEllipsis s x)
           end
  | TAny | TScalar => if concrete then Throw "invalid_argument" else Ok p
  | TBuiltin _ => Ok p
  | TCallable r ps k =>
      match k with
      | TStruct _ [] _ =>
          do r' <- subst concrete vs r;
          do ps' <- subst concrete vs ps;
          match ps' with
          | TTuple _ v => Ok (TCallable r' ps' (TStruct [] [] v))
          | _ => Throw "invalid_argument"
          end
      | _ => UB
      end
  | TLeaf _ | TKind _ | TDimKind _ | TDimFragment _ => Throw "runtime_error"
  end.
