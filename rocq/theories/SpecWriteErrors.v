(** Which errors a plan is reported for: what is wrong with the parts that are written. *)
From Coq Require Import String List NArith ZArith Bool.
From Verif Require Import Base Names SimpleExt Out Types Literals Exprs ExprEq ExtArgs Registry SpecRegistry Rels SpecRels
  SpecAddenda Plan Structural SpecLits SpecVisible SpecNotation SpecFormat SpecWriteCrash.
Import ListNotations.
Local Open Scope string_scope.
Local Open Scope list_scope.
Local Open Scope nat_scope.

(** ** Types *)

(** The nullability and the variation of a type; a user-defined type given by its
    anchor alone has none. *)
Definition type_marks (t : ptype) : option (nullability * N) :=
  match t with
  | TSimple _ n v | TPrec _ _ n v | TIntervalDay _ n v | TIntervalCompound _ n v | TLen _ _ n v | TDecimal _ _ n v
  | TStruct _ n v | TList _ n v | TMap _ _ n v | TUser _ _ n v => Some (n, v)
  | TUserRef _ | TFunc | TAlias | TNone => None
  end.
(** Its parts, [None] for one that is missing. *)
Definition type_parts (t : ptype) : list (option ptype) :=
  match t with
  | TStruct ts _ _ => map Some ts
  | TList t _ _ => [t]
  | TMap a b _ _ => [a; b]
  | TUser _ ps _ _ => concat (map (fun p => match p with PType t => [Some t] | PNone => [None] | _ => [] end) ps)
  | _ => []
  end.
Definition type_anchor (t : ptype) : option N :=
  match t with TUser r _ _ _ | TUserRef r => Some r | _ => None end.

(** [undeclared e k a er]: nothing of kind [k] is declared with anchor [a]. *)
Definition undeclared (e : exts) (k : kind) (a : N) (er : ferr) : Prop :=
  decl_get e k a = None /\ er = FLookup (MissingAnchor k a).

Inductive type_error (e : exts) (er : ferr) : ptype -> Prop :=
| te_nullability t v : type_marks t = Some (NUnspecified, v) -> er = FPlan FInvalid "Nullability" -> type_error e er t
| te_variation t n v : type_marks t = Some (n, v) -> v <> 0%N -> undeclared e KTypeVariation v er -> type_error e er t
| te_user t r : type_anchor t = Some r -> undeclared e KType r er -> type_error e er t
| te_missing t : In None (type_parts t) -> er = FPlan FInvalid "Parameter" -> type_error e er t
| te_part t t' : In (Some t') (type_parts t) -> type_error e er t' -> type_error e er t
| te_func : er = FPlan FUnimplemented "FuncType" -> type_error e er TFunc
| te_alias : er = FPlan FUnimplemented "AliasType" -> type_error e er TAlias
| te_none : er = FPlan FInvalid "Kind" -> type_error e er TNone.
(** A type that may be missing. *)
Definition type_error_in (e : exts) (missing : string) (er : ferr) (t : option ptype) : Prop :=
  match t with Some t => type_error e er t | None => er = FPlan FInvalid missing end.

(** ** Literals and expressions *)

Section Exprs.
  Context `{U : Unicode} `{F : Floats}.
  Variables (op : options) (e : exts).

  (** A value without a notation (C56), such as a time beyond the day, is an error,
      except that a date without one is a crash. *)
  Definition literal_error (er : ferr) (l : literal) : Prop :=
    match l_type l with
    | None => er = FPlan FInvalid "Literal"
    | Some (LOther _) => er = FPlan FUnimplemented "LiteralType"
    | Some (LNull t) => type_error e er t
    | Some (LDate _) => False
    | Some v => er = FPlan FInvalid "LiteralType" /\ ~ exists s, value_text op v s
    end.
  Definition reference_error (er : ferr) (f : field_ref) : Prop :=
    match fr_root f, fr_ref f with
    | RootRef, RefDirect (SegField _ _) => False
    | RootRef, RefDirect SegNone => er = FPlan FInvalid "ReferenceSegment"
    | RootRef, RefDirect SegOther => er = FPlan FUnimplemented "ReferenceSegment"
    | RootRef, RefMasked => er = FPlan FUnimplemented "FieldReference"
    | RootRef, RefNone | RootNone, _ => er = FPlan FInvalid "FieldReference"
    | _, _ => er = FPlan FUnimplemented "FieldReference"
    end.

  Inductive expr_error (er : ferr) : pexpr -> Prop :=
  | xe_literal l : literal_error er l -> expr_error er (ELit l)
  | xe_reference f : reference_error er f -> expr_error er (ESel f)
  | xe_call r args opts t : call_error er r args t -> expr_error er (EFunc r args opts t)
  | xe_if ifs els x : In x (els :: map fst ifs ++ map snd ifs) -> part_error er x -> expr_error er (EIf ifs els)
  | xe_cast b x t : part_error er x -> expr_error er (ECast b x t)
  | xe_cast_type b x t : type_error_in e "Type" er t -> expr_error er (ECast b x t)
  | xe_cast_behavior b x t : ~ In b [0; 1; 2]%Z -> er = FPlan FInvalid "Cast" -> expr_error er (ECast b x t)
  | xe_other v : er = FPlan FUnimplemented "RexType" -> expr_error er (EOther v)
  | xe_none : er = FPlan FInvalid "RexType" -> expr_error er ENone
  (** An expression that may be missing. *)
  with part_error (er : ferr) : option pexpr -> Prop :=
  | pe_some x : expr_error er x -> part_error er (Some x)
  | pe_none : er = FPlan FInvalid "Expression" -> part_error er None
  (** A call of function [r]. *)
  with call_error (er : ferr) : N -> list parg -> option ptype -> Prop :=
  | ce_function r args t : undeclared e KFunction r er -> call_error er r args t
  | ce_value r args t x : In (AValue x) args -> expr_error er x -> call_error er r args t
  | ce_type r args t x : In (AType x) args -> type_error e er x -> call_error er r args t
  | ce_missing r args t : In ANone args -> er = FPlan FInvalid "ArgType" -> call_error er r args t
  | ce_output r args t : type_error_in e "OutputType" er t -> call_error er r args t.

  (** ** What handlers make of messages *)

  Inductive value_error (er : ferr) : xvalue -> Prop :=
  | ve_error s : er = FExtension "error" -> value_error er (XError s)
  | ve_expr x : expr_error er x -> value_error er (XExpr x)
  | ve_tuple vs v : In v vs -> value_error er v -> value_error er (XTuple vs).
  Definition column_error (er : ferr) (c : xcolumn) : Prop :=
    match c with XNamed _ t => type_error e er t | XColExpr x => expr_error er x end.
  Definition args_error (er : ferr) (a : xargs) : Prop :=
    (exists v, In v (xa_positional a ++ map snd (xa_named a)) /\ value_error er v) \/
    (exists c, In c (xa_columns a) /\ column_error er c).

  Variable reg : registry.

  (** No handler is registered for the message, or its handler refuses it. *)
  Definition undecodable (t : xtype) (d : any) (widths : list nat) : Prop :=
    (forall a, ~ message reg t d widths (Ok a)) /\ (forall s, ~ message reg t d widths (Panic s)).

  (** An addendum that has columns is an error as a whole. *)
  Inductive addendum_error (er : ferr) (t : xtype) : option any -> Prop :=
  | ae_absent : er = FExtension "error" -> addendum_error er t None
  | ae_undecodable d : undecodable t d [] -> er = FExtension "error" -> addendum_error er t (Some d)
  | ae_columns d a : message reg t d [] (Ok a) -> xa_columns a <> [] -> er = FPlan FInvalid "addendum" -> addendum_error er t (Some d)
  | ae_args d a : message reg t d [] (Ok a) -> xa_columns a = [] -> args_error er a -> addendum_error er t (Some d).
  Inductive extension_error (er : ferr) : option any -> list nat -> Prop :=
  | ee_absent ws : er = FPlan FInvalid "extension" -> extension_error er None ws
  | ee_undecodable d ws : undecodable XtRelation d ws -> er = FPlan FInvalid "extension" -> extension_error er (Some d) ws
  | ee_args d ws a : message reg XtRelation d ws (Ok a) -> args_error er a -> extension_error er (Some d) ws.

  (** ** Relations *)

  (** The number of columns before any choice. *)
  Definition direct_width (r : prel) : nat :=
    match r with
    | RRead r =>
        match rd_schema r with
        | Some s => max (length (ns_names s)) (match ns_struct s with Some (ts, _, _) => length ts | None => 0 end)
        | None => 1
        end
    | RFilter _ i _ _ | RSort _ i _ _ | RFetch _ i _ _ _ => input_width reg i
    | RProject _ i xs _ => input_width reg i + length xs
    | RAggregate _ _ xs gs ms _ => length (keys xs gs) + length (functions ms)
    | RJoin _ l r _ _ t _ => joined t (input_width reg l) (input_width reg r)
    | RCross _ l r _ => input_width reg l + input_width reg r
    | RSet _ l _ _ => list_sum (map (written_width reg) l) / length l
    | _ => 0
    end.
  Definition is_named (r : prel) : Prop :=
    match r with RRead r => match rd_type r with ReadNamed _ => True | _ => False end | _ => False end.
  Definition is_extension (r : prel) : Prop :=
    match r with RExtLeaf _ _ | RExtSingle _ _ _ | RExtMulti _ _ _ => True | _ => False end.

  (** A number that stands for none of the names. *)
  Definition unnamed (l : list (Z * string)) (z : Z) : Prop := forall n, ~ In (z, n) l.
  Definition number_error (er : ferr) (l : list (Z * string)) (z : Z) (unspecified unknown : string) : Prop :=
    unnamed l z /\ (z = 0%Z /\ er = FPlan FInvalid unspecified \/ z <> 0%Z /\ er = FPlan FInvalid unknown).

  (** The names and types a table lists for column [j]. *)
  Definition column_name (s : named_struct) (j : nat) : option (list N) := nth_error (ns_names s) j.
  Definition column_type (s : named_struct) (j : nat) : option ptype :=
    nth_error (match ns_struct s with Some (ts, _, _) => ts | None => [] end) j.

  (** Errors of a relation itself, apart from messages. *)
  Inductive rel_error (er : ferr) : prel -> Prop :=
  | re_expr x r : expr_written reg op x r -> expr_error er x -> rel_error er r
  | re_measure c i xs gs ms a j f : nth_error (functions ms) j = Some f ->
      column_written op (RAggregate c i xs gs ms a) (length (keys xs gs) + j) ->
      call_error er (af_ref f) (af_args f) (af_out f) -> rel_error er (RAggregate c i xs gs ms a)
  | re_emit r m k : ~ is_named r -> ~ is_extension r -> op_show_emit op = false -> rel_emit r = Some (EmEmit m) -> In k m ->
      ~ (0 <= k < Z.of_nat (direct_width r))%Z -> er = FPlan FInvalid "Emitted" -> rel_error er r
  | re_no_schema r : rd_schema r = None -> is_named (RRead r) \/ column_written op (RRead r) 0 ->
      er = FPlan FUnimplemented "ReadRel" -> rel_error er (RRead r)
  | re_field r s j : rd_schema r = Some s -> j < direct_width (RRead r) -> is_named (RRead r) \/ column_written op (RRead r) j ->
      column_name s j = None /\ er = FPlan FInvalid "Name" \/ type_error_in e "Type" er (column_type s j) ->
      rel_error er (RRead r)
  | re_read r : rd_type r = ReadOther \/ rd_type r = ReadNone -> er = FPlan FUnimplemented "ReadRel" -> rel_error er (RRead r)
  | re_filter c i a : er = FPlan FUnimplemented "FilterRel" -> rel_error er (RFilter c i None a)
  | re_group c i xs gs ms a g k : old_groups xs gs = false -> In g gs -> In k (gr_refs g) -> length xs <= N.to_nat k ->
      er = FPlan FInvalid "AggregateRel" -> rel_error er (RAggregate c i xs gs ms a)
  | re_sort c i ss s a : In s ss -> sf_expr s = None -> er = FPlan FUnimplemented "SortField" -> rel_error er (RSort c i ss a)
  | re_direction c i ss s a : In s ss -> (forall z, sf_kind s = Some (SkDirection z) -> unnamed sort_directions z) ->
      er = FPlan FInvalid "SortKind" -> rel_error er (RSort c i ss a)
  | re_join c l r p t a : er = FPlan FUnimplemented "JoinRel" -> rel_error er (RJoin c l r None p t a)
  | re_join_type c l r x p t a : number_error er join_types t "JoinType" "JoinRel" -> rel_error er (RJoin c l r x p t a)
  | re_set c l o a : number_error er set_ops o "SetOp" "SetRel" -> rel_error er (RSet c l o a)
  | re_other v : er = FPlan FUnimplemented "Rel" -> rel_error er (ROther v)
  | re_none : er = FPlan FUnimplemented "Rel" -> rel_error er RNone.

  (** Errors of the messages of a relation. *)
  Inductive message_error (er : ferr) : prel -> Prop :=
  | me_enhancement d r : In d (rel_enhancement r) -> addendum_error er XtEnhancement (Some d) -> message_error er r
  | me_optimization d r : In d (rel_optimizations r) -> addendum_error er XtOptimization (Some d) -> message_error er r
  | me_table r d : rd_type r = ReadExtension d -> addendum_error er XtTable d -> message_error er (RRead r)
  | me_leaf c d : extension_error er d [] -> message_error er (RExtLeaf c d)
  | me_single c d i : extension_error er d (map (written_width reg) (opt_list i)) -> message_error er (RExtSingle c d i)
  | me_multi c d l : extension_error er d (map (written_width reg) l) -> message_error er (RExtMulti c d l).

  Inductive write_error (er : ferr) : prel -> Prop :=
  | we_rel r : rel_error er r -> write_error er r
  | we_message r : message_error er r -> write_error er r
  | we_input i r : rel_input i r -> write_error er i -> write_error er r.
End Exprs.

(** ** Plans *)

(** The errors of a plan: those of loading its declarations, those of its relations,
    and the absence of a relation. *)
Definition plan_error `{Unicode} `{Floats} (reg : registry) (op : options) (p : pplan) (er : ferr) : Prop :=
  let (e, refused) := from_extensions (pl_urns _ p) (pl_decls _ p) in
  (exists x, In x refused /\ er = FInsert x) \/
  (In PRNone (pl_rels _ p) /\ er = FPlan FInvalid "PlanRelType") \/
  (exists r, (In (PRel r) (pl_rels _ p) \/ exists ns, In (PRoot ns (Some r)) (pl_rels _ p)) /\ write_error op e reg er r).
