(** Arguments of extension relations and addenda: values, writing, grammar,
    reading (src/extensions/args.rs, src/textify/extensions.rs,
    src/parser/extensions.rs). *)
From Coq Require Import String List NArith ZArith Bool.
From Verif Require Import Base Peg Names SimpleExt Out Anchors Types Calendar Literals Exprs.
Import ListNotations.
Open Scope peg_scope.

(** ** Values *)

(** [ExtensionError], src/extensions/registry.rs l.164-221; [XNotFound] and the
    argument names are kept, other contents dropped. *)
Inductive xerror :=
| XNotFound (name : list N)
| XMissingArgument (name : list N)
| XNamedConversion (name : list N) (source : xerror)
| XInvalidType
| XInvalidArgument (message : string)
| XUrlMismatch
| XDecodeFailed
| XEncodeFailed
| XMissingDetail
| XCustom (message : list N).

(** [ExtensionValue], src/extensions/args.rs l.386-415. *)
Inductive xvalue :=
| XString (s : list N)
| XInteger (z : Z)
| XFloat (f : N)
| XBoolean (b : bool)
| XNull
| XError (e : xerror)
| XExpr (x : pexpr)
| XEnum (s : list N)
| XTuple (l : list xvalue).

(** [ExtensionColumn], l.689-701. *)
Inductive xcolumn :=
| XNamed (name : list N) (t : ptype)
| XColExpr (x : pexpr).

(** [ExtensionArgs], l.189-196.  The [IndexMap] of named arguments is the list of
    its entries in insertion order; its keys are distinct. *)
Record xargs := mk_xargs {
  xa_positional : list xvalue;
  xa_named : list (list N * xvalue);
  xa_columns : list xcolumn
}.
Definition xargs_default : xargs := mk_xargs [] [] [].

(** [IndexMap::insert]: an existing key keeps its place and takes the new value. *)
Fixpoint imap_insert {V} (k : list N) (v : V) (m : list (list N * V)) : list (list N * V) :=
  match m with
  | [] => [(k, v)]
  | (k', v') :: r => if streqb k k' then (k', v) :: r else (k', v') :: imap_insert k v r
  end.
(** [IndexMap::get]. *)
Fixpoint imap_get {V} (k : list N) (m : list (list N * V)) : option V :=
  match m with
  | [] => None
  | (k', v) :: r => if streqb k k' then Some v else imap_get k r
  end.

(** ** Writing *)

Section Write.
  Context `{U : Unicode} `{F : Floats}.

  Definition show_bool (b : bool) : list N := if b then L "true" else L "false".

  (** [ExtensionValue::textify] and [TupleValue::textify],
      src/textify/extensions.rs l.15-52. *)
  Fixpoint xvalue_out (op : options) (e : exts) (v : xvalue) : out :=
    match v with
    | XString s => txt (show_string s)
    | XInteger z => txt (show_Z z)
    | XFloat f => txt (show64 f)
    | XBoolean b => txt (show_bool b)
    | XNull => txt (L "null")
    | XError _ => ofail (FExtension "error")
    | XExpr x => expr_out op e x
    | XEnum s => txt (L "&" ++ s)
    | XTuple l =>
        txt (L "(")
        +++ osep (L ", ") (map (xvalue_out op e) l)
        +++ txt (match l with [_] => L "," | _ => [] end)
        +++ txt (L ")")
    end.

  (** [ExtensionColumn::textify], l.64-77. *)
  Definition xcolumn_out (op : options) (e : exts) (c : xcolumn) : out :=
    match c with
    | XNamed n t => txt (show_name n ++ L ":") +++ type_out op e t
    | XColExpr x => expr_out op e x
    end.

  Definition xnamed_out (op : options) (e : exts) (p : list N * xvalue) : out :=
    txt (fst p ++ L "=") +++ xvalue_out op e (snd p).

  (** [ExtensionArgs::textify], l.79-117: the part before the output columns. *)
  Definition xarglist_out (op : options) (e : exts) (a : xargs) : out :=
    match xa_positional a, xa_named a with
    | [], [] => txt (L "_")
    | _, _ => osep (L ", ") (map (xvalue_out op e) (xa_positional a) ++ map (xnamed_out op e) (xa_named a))
    end.
  Definition xargs_out (op : options) (e : exts) (a : xargs) : out :=
    xarglist_out op e a
    +++ match xa_columns a with
        | [] => onil
        | l => txt (L " => ") +++ osep (L ", ") (map (xcolumn_out op e) l)
        end.
End Write.

(** ** Grammar (src/parser/expression_grammar.pest) *)

(** [empty], l.334. *)
Definition g_empty : peg unit := ptok (L "_").

(** [enum_value], l.178, as the identifier after the ampersand. *)
Definition g_enum_value : peg (list N) := ptok (L "&") ;;; g_identifier.

(** [parameter_literal], l.387. *)
Definition g_parameter_literal : peg litc := v <- g_litval ;; pnot (ptok (L ":")) ;;; pret v.

(** [extension_argument], l.401. *)
Inductive xacst :=
| VEnum (s : list N)
| VLit (c : litc)
| VRef (s : list N)
| VExpr (c : ecst)
| VTuple (l : list xacst).

Definition comma_sp : peg unit := sp ;;; ptok (L ",") ;;; sp.

(** [tuple], l.391-400. *)
Definition g_tuple (arg : peg xacst) : peg (list xacst) :=
  (ptok (L "(") ;;; sp ;;; ptok (L ")") ;;; pret [])
  <|> (ptok (L "(") ;;; sp ;;; a <- arg ;; sp ;;; ptok (L ",") ;;; sp ;;; ptok (L ")") ;;; pret [a])
  <|> (ptok (L "(") ;;; sp ;;; a <- arg ;; l <- pplus (comma_sp ;;; arg) ;;
       popt (sp ;;; ptok (L ",")) ;;; sp ;;; ptok (L ")") ;;; pret (a :: l)).

Definition xarg_F (arg : peg xacst) : peg xacst :=
  pmap VEnum g_enum_value
  <|> pmap VLit g_parameter_literal
  <|> pmap VRef g_reference
  <|> pmap VExpr g_expr
  <|> pmap VTuple (g_tuple arg).
Definition g_xarg : peg xacst := prun xarg_F.

(** [extension_named_argument], l.405. *)
Definition g_xnamed : peg (nm * xacst) :=
  n <- g_name ;; sp ;;; ptok (L "=") ;;; sp ;;; v <- g_xarg ;; pret (n, v).

(** [extension_args], [extension_arguments] and [extension_named_arguments], l.379-381 and
    l.404: positional and named arguments. *)
Definition xargsc : Type := list xacst * list (nm * xacst).
Definition g_xargs : peg xargsc :=
  pmap (fun _ => ([], [])) g_empty
  <|> (p <- psep1 comma_sp g_xarg ;; n <- popt (comma_sp ;;; psep1 comma_sp g_xnamed) ;;
       pret (p, match n with Some l => l | None => [] end))
  <|> pmap (fun l => ([], l)) (psep1 comma_sp g_xnamed)
  <|> pret ([], []).

(** [named_column], l.233. *)
Definition colc : Type := nm * tcst.
Definition g_named_column : peg colc := n <- g_name ;; ptok (L ":") ;;; t <- g_type ;; pret (n, t).
(** [extension_column] and [extension_columns], l.408-409. *)
Inductive xcolc := KNamed (c : colc) | KRef (s : list N) | KExpr (c : ecst).
Definition g_xcolumn : peg xcolc :=
  pmap KNamed g_named_column <|> pmap KRef g_reference <|> pmap KExpr g_expr.
Definition g_xcolumns : peg (list xcolc) := psep0 comma_sp g_xcolumn.

(** ** Reading *)

Section Read.
  Context `{F : Floats}.

  (** The [parameter_literal] case of [ExtensionValue::parse_pair],
      src/parser/extensions.rs l.297-315. *)
  Definition lower_parameter (c : litc) : pres xvalue :=
    match c with
    | CStr s => rmap XString (unescape_string c_sq s)
    | CInt s => rmap XInteger (unwrap "extension integer is not an i64" (parse_i64 s))
    | CFloat s => Ok (XFloat (read64 s))
    | CBool s => Ok (XBoolean (streqb s (L "true")))
    | CNull => Ok XNull
    end.

  (** [ExtensionValue::parse_pair], l.278-329. *)
  Fixpoint lower_xarg (e : exts) (c : xacst) : pres xvalue :=
    match c with
    | VEnum s => Ok (XEnum s)
    | VRef s => rmap (fun i => XExpr (ESel (field_reference i))) (field_index s)
    | VLit c => lower_parameter c
    | VTuple l => rmap XTuple (rlist (lower_xarg e) l)
    | VExpr c => rmap XExpr (lower_expr e c)
    end.

  (** [ExtensionColumn::parse_pair], l.341-371. *)
  Definition lower_xcolumn (e : exts) (c : xcolc) : pres xcolumn :=
    match c with
    | KNamed (n, t) =>
        let? n := lower_name n in
        let? t := lower_type e t in
        Ok (XNamed n t)
    | KRef s => rmap (fun i => XColExpr (ESel (field_reference i))) (field_index s)
    | KExpr c => rmap XColExpr (lower_expr e c)
    end.

  Definition lower_xnamed (e : exts) (p : nm * xacst) : pres (list N * xvalue) :=
    let? n := lower_name (fst p) in
    let? v := lower_xarg e (snd p) in
    Ok (n, v).

  (** [extension_args_rule_parsing], l.577-606. *)
  Definition lower_xargs (e : exts) (c : xargsc) : pres xargs :=
    let? p := rlist (lower_xarg e) (fst c) in
    let? n := rlist (lower_xnamed e) (snd c) in
    Ok (mk_xargs p (fold_left (fun m kv => imap_insert (fst kv) (snd kv) m) n []) []).
End Read.
