(** Specification vocabulary for types. *)
From Coq Require Import String List NArith ZArith Bool.
From Verif Require Import Base Peg Names SimpleExt Out Types.
Import ListNotations.

(** Keywords of parametrized types that take type parameters. *)
Definition type_keywords : list (list N) := [L "list"; L "map"; L "struct"].

(** A declared type name the text format can carry: an identifier that does not
    begin with the name of a built-in type. *)
Definition type_name_ok (n : list N) : bool :=
  is_identifier n && negb (existsb (fun t => starts_with t n) simple_names).

(** Letter case aside, the name of a parametrized built-in type. *)
Definition is_type_keyword (n : list N) : bool :=
  existsb (fun k => streqb (map to_lower n) k) type_keywords.

(** The types the text format can carry, given the table of declarations: no
    variation, no map, struct, decimal, length or compound interval; precision
    between 0 and 12; user-defined types declared under a usable name, with type
    parameters only. *)
Fixpoint type_ok (e : exts) (t : ptype) : bool :=
  match t with
  | TSimple _ _ v => (v =? 0)%N
  | TPrec _ p _ v => in_range 0 12 p && (v =? 0)%N
  | TIntervalDay (Some p) _ v => in_range 0 12 p && (v =? 0)%N
  | TList (Some t) _ v => type_ok e t && (v =? 0)%N
  | TUser r ps _ v =>
      match decl_get e KType r with
      | Some (_, n) =>
          type_name_ok n
          && match ps with [] => true | _ => negb (is_type_keyword n) end
          && forallb (fun p => match p with PType t => type_ok e t | _ => false end) ps
          && (Z.of_N r <=? u32_max)%Z && (v =? 0)%N
      | None => false
      end
  | _ => false
  end.

(** No nullability is left unspecified. *)
Definition null_given (n : nullability) : bool :=
  match n with NUnspecified => false | _ => true end.
Fixpoint nulls_given (t : ptype) : bool :=
  match t with
  | TSimple _ n _ | TPrec _ _ n _ | TIntervalDay _ n _ => null_given n
  | TList (Some t) n _ => null_given n && nulls_given t
  | TUser _ ps n _ =>
      null_given n && forallb (fun p => match p with PType t => nulls_given t | _ => false end) ps
  | _ => false
  end.

(** Characters that would be taken as a continuation of a type. *)
Definition type_stop (c : N) : bool :=
  is_idchar c || (c =? 35)%N || (c =? 64)%N || (c =? 63)%N || (c =? c_unspec)%N || (c =? 60)%N
  || (c =? 33)%N.

(** Every declared type is usable. *)
Definition types_usable (e : exts) : Prop :=
  forall a u n, decl_get e KType a = Some (u, n) ->
    type_name_ok n = true /\ is_type_keyword n = false /\ (Z.of_N a <= u32_max)%Z.

(** Every precision occurring in a type. *)
Fixpoint precisions (t : ptype) : list Z :=
  match t with
  | TPrec _ p _ _ => [p]
  | TIntervalDay (Some p) _ _ => [p]
  | TIntervalCompound p _ _ => [p]
  | TStruct ts _ _ => concat (map precisions ts)
  | TList (Some t) _ _ => precisions t
  | TMap a b _ _ =>
      match a with Some t => precisions t | None => [] end
      ++ match b with Some t => precisions t | None => [] end
  | TUser _ ps _ _ => concat (map (fun p => match p with PType t => precisions t | _ => [] end) ps)
  | _ => []
  end.
