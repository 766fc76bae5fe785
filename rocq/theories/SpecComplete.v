(** Plans with nothing missing. *)
From Coq Require Import String List NArith ZArith Bool.
From Verif Require Import Base Names SimpleExt Out Types Literals Exprs ExtArgs Registry Rels SpecRels Structural Plan SpecLits.
Import ListNotations.
Local Open Scope string_scope.
Local Open Scope list_scope.

(** ** Types, literals, expressions *)

Definition declared (e : exts) (k : kind) (a : N) : bool :=
  match decl_get e k a with Some _ => true | None => false end.

(** The kind of every part is given and is one of those with a notation; user-defined types
    and variations are declared.  [u] says whether nullabilities may be unspecified. *)
Definition settled (u : bool) (n : nullability) : bool := match n with NUnspecified => u | _ => true end.
Fixpoint type_complete (u : bool) (e : exts) (t : ptype) : bool :=
  let var n v := settled u n && ((v =? 0)%N || declared e KTypeVariation v) in
  match t with
  | TSimple _ n v | TPrec _ _ n v | TIntervalDay _ n v | TIntervalCompound _ n v | TLen _ _ n v | TDecimal _ _ n v => var n v
  | TStruct ts n v => forallb (type_complete u e) ts && var n v
  | TList (Some t) n v => type_complete u e t && var n v
  | TMap (Some a) (Some b) n v => type_complete u e a && type_complete u e b && var n v
  | TUser r ps n v =>
      declared e KType r
      && forallb (fun p => match p with PType t => type_complete u e t | PNone => false | _ => true end) ps && var n v
  | TUserRef r => declared e KType r
  | _ => false
  end.

Definition literal_complete `{Floats} (u : bool) (e : exts) (l : literal) : bool :=
  match l_type l with
  | Some (LNull t) => type_complete u e t
  | Some (LOther _) | None => false
  | Some _ => true
  end.

Section Complete.
  Context {F : Floats}.
  Variables (u : bool) (e : exts).

  Definition opt_b {A} (f : A -> bool) (o : option A) : bool := match o with Some a => f a | None => false end.

  (** References are to fields of the record at hand, functions are declared, and every
      argument, branch and type is given. *)
  Fixpoint expr_complete (x : pexpr) : bool :=
    match x with
    | ELit l => literal_complete u e l
    | ESel (mk_fieldref (RefDirect (SegField _ _)) RootRef) => true
    | EFunc r args _ t => declared e KFunction r && forallb arg_complete args && opt_b (type_complete u e) t
    | EIf ifs els =>
        forallb (fun c : option pexpr * option pexpr =>
                   match fst c, snd c with Some a, Some b => expr_complete a && expr_complete b | _, _ => false end) ifs
        && match els with Some y => expr_complete y | None => false end
    | ECast b i t =>
        ((b =? 0) || (b =? 1) || (b =? 2))%Z && match i with Some y => expr_complete y | None => false end
        && opt_b (type_complete u e) t
    | _ => false
    end
  with arg_complete (a : parg) : bool :=
    match a with
    | AType t => type_complete u e t
    | AValue x => expr_complete x
    | AEnum _ => true
    | ANone => false
    end.
  Definition measure_complete (m : measure) : bool :=
    match ms_fn m with
    | Some a => declared e KFunction (af_ref a) && forallb arg_complete (af_args a) && opt_b (type_complete u e) (af_out a)
    | None => false
    end.

  (** ** Relations *)

  Notation X := (fun x => expr_complete x = true).
  Definition given {A} (P : A -> Prop) (o : option A) : Prop := match o with Some a => P a | None => False end.
  Definition if_given {A} (P : A -> Prop) (o : option A) : Prop := match o with Some a => P a | None => True end.
  Definition is_given {A} (o : option A) : Prop := o <> None.

  (** [D t d]: the message [d] may stand where an extension of kind [t] does. *)
  Variable D : xtype -> any -> Prop.

  Definition addenda_complete (a : option advext) : Prop :=
    if_given (fun a => if_given (D XtEnhancement) (ae_enhancement a) /\ Forall (D XtOptimization) (ae_optimizations a)) a.
  (** Every column has a name and a type. *)
  Definition schema_complete (s : named_struct) : Prop :=
    given (fun t : list ptype * N * nullability =>
             length (ns_names s) = length (fst (fst t)) /\ Forall (fun t => type_complete u e t = true) (fst (fst t))) (ns_struct s).
  Definition named_number (l : list (Z * string)) (z : Z) : Prop := exists n, In (z, n) l.
  Definition bound_complete (m : option fetch_mode) : Prop :=
    if_given (fun m => match m with FmExpr x => X x | FmInt _ => True end) m.

  Definition rel_complete (r : prel) : Prop :=
    match r with
    | RRead r =>
        given schema_complete (rd_schema r) /\ if_given X (rd_filter r) /\ addenda_complete (rd_adv r) /\
        match rd_type r with
        | ReadNamed _ => True
        | ReadVirtual rows => Forall (Forall X) rows
        | ReadExtension d => given (D XtTable) d
        | _ => False
        end
    | RFilter _ i x a => is_given i /\ given X x /\ addenda_complete a
    | RProject _ i xs a => is_given i /\ Forall X xs /\ addenda_complete a
    | RAggregate _ i xs gs ms a =>
        is_given i /\ Forall X xs /\ Forall (fun m => measure_complete m = true) ms /\ addenda_complete a /\
        Forall (fun g => gr_exprs g = [] /\ Forall (fun n => (N.to_nat n < length xs)%nat) (gr_refs g)) gs
    | RSort _ i ss a =>
        is_given i /\ addenda_complete a /\
        Forall (fun s => given X (sf_expr s) /\
                  given (fun k => match k with SkDirection d => named_number sort_directions d | _ => False end) (sf_kind s)) ss
    | RFetch _ i n o a => is_given i /\ bound_complete n /\ bound_complete o /\ addenda_complete a
    | RJoin _ l r x p t a =>
        is_given l /\ is_given r /\ given X x /\ if_given X p /\ named_number join_types t /\ addenda_complete a
    | RSet _ l o a => (2 <= length l)%nat /\ named_number set_ops o /\ addenda_complete a
    | RCross _ l r a => is_given l /\ is_given r /\ addenda_complete a
    | RExtLeaf _ d => given (D XtRelation) d
    | RExtSingle _ d i => given (D XtRelation) d /\ is_given i
    | RExtMulti _ d _ => given (D XtRelation) d
    | ROther _ | RNone => False
    end.

  Definition rels_complete (l : list plan_rel) : Prop :=
    (forall q, In q l -> plan_inputs q <> []) /\ forall r, in_plan_rels r l -> rel_complete r.
End Complete.

(** ** Plans *)

Section Plans.
  Context `{U : Unicode} `{F : Floats}.

  (** The declarations can be loaded without complaint, and nothing is missing. *)
  Definition plan_complete (u : bool) (D : xtype -> any -> Prop) (p : pplan) : Prop :=
    snd (from_extensions (pl_urns _ p) (pl_decls _ p)) = [] /\
    rels_complete u (fst (from_extensions (pl_urns _ p) (pl_decls _ p))) D (pl_rels _ p).

  (** A message that a handler of the registry made of arguments. *)
  Definition made_by (reg : registry) (t : xtype) (d : any) : Prop :=
    exists name args, parse_with_type reg t name args = Ok d.

  (** ** Complaints *)

  Definition no_nullability : ferr := FPlan FInvalid "Nullability".
  Definition no_column : ferr := FPlan FInvalid "Emitted".

  (** What is said of a message: the complaints about the arguments that a handler makes of
      it, about columns where there can be none, or that there are no arguments. *)
  Definition detail_complaints (reg : registry) (op : options) (e : exts) (t : xtype) (d : any) (widths : list nat) : list ferr :=
    match decode_with_type reg t d widths with
    | Ok (_, a) =>
        match t, xa_columns a with
        | XtRelation, _ | _, [] => o_errs (xargs_out op e a)
        | _, _ => [FPlan FInvalid "addendum"]
        end
    | Err _ => [match t with XtRelation => FPlan FInvalid "extension" | _ => FExtension "error" end]
    | Panic _ => []
    end.

  (** The number of columns that a relation has before a choice is made among them. *)
  Definition columns_listed (reg : registry) (op : options) (e : exts) (r : prel) : nat :=
    match view_of reg op e r with View h _ => length (hd_cols h) end.

  (** What may be said of a complete plan. *)
  Definition complaint (reg : registry) (op : options) (u : bool) (D : xtype -> any -> Prop) (p : pplan) (er : ferr) : Prop :=
    (er = bad_literal /\ exists l, in_plan l p /\ In er (o_errs (literal_out op (fst (from_extensions (pl_urns _ p) (pl_decls _ p))) l))) \/
    (er = no_nullability /\ u = true) \/
    (er = no_column /\ op_show_emit op = false /\
       exists r m i, in_plan_rels r (pl_rels _ p) /\ rel_emit r = Some (EmEmit m) /\ In i m /\
         ~ (0 <= i < Z.of_nat (columns_listed reg op (fst (from_extensions (pl_urns _ p) (pl_decls _ p))) r))%Z) \/
    exists t d widths, D t d /\
      In er (detail_complaints reg op (fst (from_extensions (pl_urns _ p) (pl_decls _ p))) t d widths).
End Plans.
