(** Extension handlers and their registry (src/extensions/registry.rs,
    src/extensions/args.rs). *)
From Coq Require Import String List NArith ZArith Bool.
From Verif Require Import Base SimpleExt Out Types Literals Exprs ExtArgs.
Import ListNotations.

(** [Any], src/extensions/any.rs l.8-11. *)
Record any := mk_any { any_url : list N; any_value : list N }.

(** [ExtensionType], src/extensions/registry.rs l.98-107. *)
Inductive xtype := XtRelation | XtTable | XtEnhancement | XtOptimization.
Definition xtype_eqb (a b : xtype) : bool :=
  match a, b with
  | XtRelation, XtRelation | XtTable, XtTable
  | XtEnhancement, XtEnhancement | XtOptimization, XtOptimization => true
  | _, _ => false
  end.

(** ** Reading arguments *)

(** A handler's [from_args] as the sequence of its calls on [ArgsAccess]
    (src/extensions/args.rs l.207-340): what it does next may depend on what it
    was given.  Handlers that do not return are not modelled. *)
Inductive prog (X : Type) :=
| PReturn (x : res xerror X)
| PPositional (k : list xvalue -> prog X)
| PColumns (k : list xcolumn -> prog X)
| PNamed (name : list N) (k : option xvalue -> prog X).
Arguments PReturn {X} x.
Arguments PPositional {X} k.
Arguments PColumns {X} k.
Arguments PNamed {X} name k.

(** [ArgsAccess], l.207-211, without the arguments themselves. *)
Record access := mk_access { ac_handled : list (list N); ac_positional : bool }.
Definition access_new : access := mk_access [] false.

(** [ArgsAccess::positional], [output_columns] and [get_named_arg], l.222-251. *)
Fixpoint run_prog {X} (p : prog X) (a : xargs) (s : access) : res xerror X * access :=
  match p with
  | PReturn x => (x, s)
  | PPositional k => run_prog (k (xa_positional a)) a (mk_access (ac_handled s) true)
  | PColumns k => run_prog (k (xa_columns a)) a s
  | PNamed n k =>
      let v := imap_get n (xa_named a) in
      run_prog (k v) a
        (match v with
         | Some _ => mk_access (n :: ac_handled s) (ac_positional s)
         | None => s
         end)
  end.

(** [ArgsAccess::finish], l.310-336. *)
Definition access_finish (a : xargs) (s : access) : res xerror unit :=
  if negb (ac_positional s) && negb (Nat.eqb (length (xa_positional a)) 0)
  then Err (XInvalidArgument "Unhandled positional arguments")
  else
    match filter (fun k => negb (existsb (streqb k) (ac_handled s))) (map fst (xa_named a)) with
    | [] => Ok tt
    | _ => Err (XInvalidArgument "Unknown named arguments")
    end.

(** [ExtensionArgs::parse], l.716-724. *)
Definition args_parse {X} (p : prog X) (a : xargs) : res xerror X :=
  let (r, s) := run_prog p a access_new in
  let? v := r in
  let? _ := access_finish a s in
  Ok v.

(** [TryFrom<&ExtensionValue>] for [i64], [f64], [bool], [String], [EnumValue],
    [TupleValue], [Reference] and [Expr], l.556-668. *)
Definition as_i64 (v : xvalue) : res xerror Z :=
  match v with XInteger z => Ok z | _ => Err XInvalidType end.
Definition as_f64 (v : xvalue) : res xerror N :=
  match v with XFloat f => Ok f | _ => Err XInvalidType end.
Definition as_bool (v : xvalue) : res xerror bool :=
  match v with XBoolean b => Ok b | _ => Err XInvalidType end.
Definition as_string (v : xvalue) : res xerror (list N) :=
  match v with XString s => Ok s | _ => Err XInvalidType end.
Definition as_enum (v : xvalue) : res xerror (list N) :=
  match v with XEnum s => Ok s | _ => Err XInvalidType end.
Definition as_tuple (v : xvalue) : res xerror (list xvalue) :=
  match v with XTuple l => Ok l | _ => Err XInvalidType end.
(** [Expr::as_direct_reference], l.87-105. *)
Definition as_reference (v : xvalue) : res xerror Z :=
  match v with
  | XExpr (ESel (mk_fieldref (RefDirect (SegField i None)) _)) => Ok i
  | _ => Err XInvalidType
  end.
Definition as_expr (v : xvalue) : res xerror pexpr :=
  match v with
  | XExpr x => Ok x
  | XInteger z => Ok (ELit (mk_lit (Some (LI64 z)) false 0))
  | XFloat f => Ok (ELit (mk_lit (Some (LFp64 f)) false 0))
  | XString s => Ok (ELit (mk_lit (Some (LString s)) false 0))
  | XBoolean b => Ok (ELit (mk_lit (Some (LBool b)) false 0))
  | _ => Err XInvalidType
  end.

(** [ArgsAccess::get_named], l.255-268, and [expect_named], l.299-308, as parts
    of a handler. *)
Definition get_named {A X} (conv : xvalue -> res xerror A) (n : list N) (k : option A -> prog X) : prog X :=
  PNamed n (fun v =>
    match v with
    | None => k None
    | Some v =>
        match conv v with
        | Ok a => k (Some a)
        | Err e => PReturn (Err (XNamedConversion n e))
        | Panic p => PReturn (Panic p)
        end
    end).
Definition expect_named {A X} (conv : xvalue -> res xerror A) (n : list N) (k : A -> prog X) : prog X :=
  get_named conv n (fun v =>
    match v with
    | Some a => k a
    | None => PReturn (Err (XMissingArgument n))
    end).
(** [ArgsAccess::get_named_tuple], l.276-294. *)
Definition get_named_tuple {A X} (conv : xvalue -> res xerror A) (n : list N)
  (k : option (list A) -> prog X) : prog X :=
  get_named (fun v => let? l := as_tuple v in rlist conv l) n k.

(** ** Handlers *)

(** A type implementing [Explainable] and [AnyConvertible] (l.228-244, 340-362);
    its functions are taken to be deterministic.  The context of [to_args] is the
    list of emitted column counts of the relation's inputs. *)
Record extension := mk_extension {
  xe_type : Type;
  xe_name : list N;
  xe_url : list N;
  xe_from_args : prog xe_type;
  xe_to_args : xe_type -> list nat -> res xerror xargs;
  xe_to_any : xe_type -> res xerror any;
  xe_from_any : any -> res xerror xe_type
}.

(** [ExtensionAdapter], l.397-413. *)
Definition parse_detail (h : extension) (a : xargs) : res xerror any :=
  let? v := args_parse (xe_from_args h) a in xe_to_any h v.
Definition textify_detail (h : extension) (d : any) (ctx : list nat) : res xerror xargs :=
  let? v := xe_from_any h d in xe_to_args h v ctx.

(** ** Registry *)

(** [ExtensionRegistry], l.420-432: the two hash maps as lists of entries with
    distinct keys; descriptors are not modelled here. *)
Definition rkey : Type := xtype * list N.
Definition rkey_eqb (a b : rkey) : bool := xtype_eqb (fst a) (fst b) && streqb (snd a) (snd b).
Record registry := mk_registry {
  rg_handlers : list (rkey * extension);
  rg_urls : list (rkey * list N)
}.
Definition registry_new : registry := mk_registry [] [].

(** [HashMap::get] and [HashMap::insert]. *)
Fixpoint hget {V} (k : rkey) (m : list (rkey * V)) : option V :=
  match m with
  | [] => None
  | (k', v) :: r => if rkey_eqb k k' then Some v else hget k r
  end.
Fixpoint hput {V} (k : rkey) (v : V) (m : list (rkey * V)) : list (rkey * V) :=
  match m with
  | [] => [(k, v)]
  | (k', v') :: r => if rkey_eqb k k' then (k', v) :: r else (k', v') :: hput k v r
  end.

(** [RegistrationError], l.148-161. *)
Inductive reg_error :=
| RDuplicateName (t : xtype) (name : list N)
| RConflictingUrl (url : list N) (t : xtype) (existing : list N).

(** [ExtensionRegistry::register], l.461-494: the outcome and the registry
    afterwards. *)
Definition register (t : xtype) (h : extension) (r : registry) : res reg_error unit * registry :=
  let key := (t, xe_name h) in
  match hget key (rg_handlers r) with
  | Some _ => (Err (RDuplicateName t (xe_name h)), r)
  | None =>
      let ukey := (t, xe_url h) in
      let store := (Ok tt, mk_registry (hput key h (rg_handlers r)) (hput ukey (xe_name h) (rg_urls r))) in
      match hget ukey (rg_urls r) with
      | Some existing =>
          if streqb existing (xe_name h) then store
          else (Err (RConflictingUrl (xe_url h) t existing), r)
      | None => store
      end
  end.

(** [parse_with_type], l.592-606. *)
Definition parse_with_type (r : registry) (t : xtype) (name : list N) (a : xargs) : res xerror any :=
  match hget (t, name) (rg_handlers r) with
  | Some h => parse_detail h a
  | None => Err (XNotFound name)
  end.

(** [decode_with_type_and_context], l.673-700. *)
Definition decode_with_type (r : registry) (t : xtype) (d : any) (ctx : list nat)
  : res xerror (list N * xargs) :=
  match hget (t, any_url d) (rg_urls r) with
  | None => Err (XNotFound (any_url d))
  | Some name =>
      match hget (t, name) (rg_handlers r) with
      | None => Err (XNotFound name)
      | Some h => let? a := textify_detail h d ctx in Ok (name, a)
      end
  end.

(** [has_extension], l.721-723. *)
Definition has_extension (r : registry) (t : xtype) (name : list N) : bool :=
  match hget (t, name) (rg_handlers r) with Some _ => true | None => false end.

(** ** Schemas and columns *)

(** [NamedStruct] with its [Struct]: types, type variation and nullability. *)
Record named_struct := mk_named_struct {
  ns_names : list (list N);
  ns_struct : option (list ptype * N * nullability)
}.

(** [ExtensionProtoConvert] between columns and [NamedStruct], l.281-333. *)
Fixpoint columns_names (l : list xcolumn) : res xerror (list (list N) * list ptype) :=
  match l with
  | [] => Ok ([], [])
  | XNamed n t :: r => let? p := columns_names r in Ok (n :: fst p, t :: snd p)
  | XColExpr _ :: _ => Err (XInvalidArgument "Expected named column")
  end.
Definition columns_to_struct (l : list xcolumn) : res xerror named_struct :=
  let? p := columns_names l in Ok (mk_named_struct (fst p) (Some (snd p, 0%N, NRequired))).
Definition struct_to_columns (s : named_struct) : res xerror (list xcolumn) :=
  let types := match ns_struct s with Some (t, _, _) => t | None => [] end in
  if Nat.eqb (length (ns_names s)) (length types)
  then Ok (map (fun p => XNamed (fst p) (snd p)) (combine (ns_names s) types))
  else Err (XInvalidArgument "NamedStruct has a different number of names and types").
