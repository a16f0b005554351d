(* nd::callable::call: binding positional and keyword arguments. *)
From Verif Require Import Base.
Local Open Scope string_scope.

Section Call.
(* P: types in the declaration of a callable, T: types of arrays, V: the type
   variables bound so far, A: arrays. matches is ndt::type::match (modelled in
   MatchModel.v); type_of: get_type, value_type_of: get_type().value_type();
   as_type: value.as<ndt::type>() with nd::empty of it, None when either throws. *)
Context {P T V A : Type}.
Variable matches : P -> T -> V -> option V.
Variables (type_of value_type_of : A -> T) (as_type : A -> option T).

(* callable_type.hpp:28-55: a keyword has a name, a type, and may be optional;
   k_pat is the type without option. *)
Record kwd := Kwd { k_name : string; k_pat : P; k_opt : bool }.
Record sig := Sig { s_variadic : bool; s_args : list P; s_kwd_variadic : bool; s_kwds : list kwd; s_ret : P }.

(* an entry of the array of keyword values; NA: made by assign_na *)
Inductive slot := Empty | Given (a : A) | NA.
(* the destination that was asked for: its type, and the array itself if passed *)
Inductive dest := NoDst | Dst (t : T) (a : option A).
Record bound := Bound { b_args : list A; b_slots : list slot; b_nkwd : nat; b_vars : V; b_dst : dest }.

(* callable.cpp:59-74: check_arg, in the loops of callable.cpp:91-105 *)
Fixpoint check_args (pats : list P) (args : list A) (v : V) : outcome V :=
  match pats, args with
  | p :: pats', a :: args' =>
      match matches p (type_of a) v with
      | Some v' => check_args pats' args' v'
      | None => Throw "positional argument does not match"
      end
  | [], _ => Ok v
  | _ :: _, [] => UB
  end.

(* struct_type.cpp:28-35: get_field_index *)
Fixpoint kwd_index (kwds : list kwd) (name : string) : option nat :=
  match kwds with
  | [] => None
  | k :: kwds' => if k_name k =? name then Some 0%nat else option_map S (kwd_index kwds' name)
  end.

Fixpoint set_slot (i : nat) (s : slot) (l : list slot) : list slot :=
  match l, i with
  | [], _ => []
  | _ :: l', O => s :: l'
  | x :: l', S i' => x :: set_slot i' s l'
  end.

(* callable.cpp:118-151 with is_special_kwd (callable.hpp:25-36) *)
Fixpoint bind_kwds (kwds : list kwd) (kw : list (string * A)) (slots : list slot) (d : dest) (v : V)
  : outcome (list slot * dest * V) :=
  match kw with
  | [] => Ok (slots, d, v)
  | (name, a) :: kw' =>
      match kwd_index kwds name with
      | None =>
          if name =? "dst_tp" then
            match as_type a with
            | Some t => bind_kwds kwds kw' slots (Dst t None) v
            | None => Throw "dst_tp"
            end
          else if name =? "dst" then bind_kwds kwds kw' slots (Dst (type_of a) (Some a)) v
          else Throw "unexpected keyword"
      | Some k =>
          match nth_error slots k, nth_error kwds k with
          | Some Empty, Some kd =>
              match matches (k_pat kd) (value_type_of a) v with
              | Some v' => bind_kwds kwds kw' (set_slot k (Given a) slots) d v'
              | None => Throw "keyword does not match"
              end
          | Some _, Some _ => Throw "keyword passed more than once"
          | _, _ => UB
          end
      end
  end.

(* callable.cpp:164-173: optional keywords that were not passed; the number that
   is filled in *)
Fixpoint fill (kwds : list kwd) (slots : list slot) : list slot * nat :=
  match kwds, slots with
  | k :: kwds', s :: slots' =>
      let r := fill kwds' slots' in
      match s with
      | Empty => if k_opt k then (NA :: fst r, S (snd r)) else (s :: fst r, snd r)
      | _ => (s :: fst r, snd r)
      end
  | _, _ => (slots, 0%nat)
  end.

(* callable.cpp:76-193: call, up to the call of the implementation with what was
   bound *)
Definition call (s : sig) (v0 : V) (pos : list A) (kw : list (string * A)) : outcome bound :=
  let narg := List.length (s_args s) in
  if negb (s_variadic s) && (List.length pos <? narg)%nat then Throw "positional arguments expected"
  else
    let room := repeat Empty (List.length pos + List.length (s_kwds s)) in
    do start <-
      (if s_variadic s then Ok (v0, pos, [])
       else
         do v <- check_args (s_args s) pos v0;
         if negb (s_kwd_variadic s) && (List.length (s_kwds s) <? List.length pos - narg)%nat
         then Throw "too many extra positional arguments"
         else Ok (v, firstn narg pos, skipn narg pos));
    match start with
    | (v, args, extra) =>
        let slots := (map Given extra ++ skipn (List.length extra) room)%list in
        do r <- bind_kwds (s_kwds s) kw slots NoDst v;
        match r with
        | (slots, d, v) =>
            do v <-
              match d with
              | NoDst => Ok v
              | Dst t _ =>
                  match matches (s_ret s) t v with
                  | Some v' => Ok v'
                  | None => Throw "dst does not match"
                  end
              end;
            let f := fill (s_kwds s) slots in
            let nkwd := (List.length extra + List.length kw + snd f)%nat in
            if (nkwd <? List.length (s_kwds s))%nat then Throw "keyword parameters not provided"
            else Ok (Bound args (fst f) nkwd v d)
        end
    end.
End Call.
