(** Expressions: proto values, writing, grammar, reading. *)
From Coq Require Import String List NArith ZArith Bool.
From Verif Require Import Base Peg Names SimpleExt Out Anchors Types Calendar Literals.
Import ListNotations.
Open Scope peg_scope.

(** ** Proto expressions *)

(** [ReferenceSegment]; map keys and list elements are [SegOther]. *)
Inductive segment :=
| SegField (field : Z) (child : option segment)
| SegOther
| SegNone.
(** [FieldReference]: [RootType] and [ReferenceType]; the contents of expression
    and outer roots and of masked references are dropped. *)
Inductive root_type := RootRef | RootExpr | RootOuter | RootLambda | RootNone.
Inductive ref_type := RefDirect (s : segment) | RefMasked | RefNone.
Record field_ref := mk_fieldref { fr_ref : ref_type; fr_root : root_type }.

(** [FunctionOption]. *)
Record fn_option := mk_fnopt { fo_name : list N; fo_prefs : list (list N) }.

(** [Expression], [RexType], [FunctionArgument], [ArgType].  [EOther] stands for
    the variants the formatter does not implement, by name; [ENone] for an absent
    [rex_type], [ANone] for an absent [arg_type]. *)
Inductive pexpr :=
| ELit (l : literal)
| ESel (f : field_ref)
| EFunc (ref : N) (args : list parg) (opts : list fn_option) (out : option ptype)
| EIf (ifs : list (option pexpr * option pexpr)) (els : option pexpr)
| ECast (behavior : Z) (input : option pexpr) (t : option ptype)
| EOther (variant : string)
| ENone
with parg :=
| AType (t : ptype)
| AValue (e : pexpr)
| AEnum (s : list N)
| ANone.

(** [AggregateFunction]: the fields not listed ([sorts], deprecated [args]) are
    dropped. *)
Record aggfn := mk_aggfn {
  af_ref : N; af_args : list parg; af_opts : list fn_option; af_out : option ptype;
  af_invocation : Z; af_phase : Z
}.

(** ** Writing *)

(** [Reference::fmt], src/textify/expressions.rs l.492-496. *)
Definition ref_text (i : Z) : list N := L "$" ++ show_Z i.

(** [FieldReference::textify], l.528-632. *)
Definition fieldref_out (f : field_ref) : out :=
  match fr_root f with
  | RootRef =>
      match fr_ref f with
      | RefDirect (SegField i _) => txt (ref_text i)
      | RefDirect SegNone => ofail (FPlan FInvalid "ReferenceSegment")
      | RefDirect SegOther => ofail (FPlan FUnimplemented "ReferenceSegment")
      | RefMasked => ofail (FPlan FUnimplemented "FieldReference")
      | RefNone => ofail (FPlan FInvalid "FieldReference")
      end
  | RootNone => ofail (FPlan FInvalid "FieldReference")
  | _ => ofail (FPlan FUnimplemented "FieldReference")
  end.

(** [FunctionOption::textify], l.706-725; the arrow is U+21D2. *)
Definition fnopt_out (o : fn_option) : out :=
  txt (fo_name o ++ [8658%N] ++ L "[" ++ join (L ", ") (fo_prefs o) ++ L "]").

(** [OutputType::textify], src/textify/types.rs l.235-248. *)
Definition output_type_out (op : options) (e : exts) (t : option ptype) : out :=
  match t with
  | Some t => txt (L ":") +++ type_out op e t
  | None => ofail (FPlan FInvalid "OutputType")
  end.

(** [FunctionInvocation::textify], src/textify/expressions.rs l.668-688, over arguments already written. *)
Definition invocation_out (op : options) (e : exts) (ref : N) (args : list out) (opts : list fn_option) : out :=
  ref_out op e KFunction ref +++ txt (L "(") +++ osep (L ", ") args
  +++ txt (match args, opts with
           | [], _ | _, [] => []
           | _, _ => L ", "
           end)
  +++ osep (L ", ") (map fnopt_out opts) +++ txt (L ")").

(** [FailureBehavior] as written by [Cast::textify], l.758-770. *)
Definition behavior_out (b : Z) : out :=
  if (b =? 0)%Z then onil else if (b =? 1)%Z then txt (L "?") else if (b =? 2)%Z then txt (L "!")
  else ofail (FPlan FInvalid "Cast").

Section Write.
  Context `{U : Unicode} `{F : Floats}.

  (** [Expression::textify] and [RexType::textify], l.797-912; [ScalarFunction],
      l.690-704; [FunctionArgument] and [ArgType], l.727-749; [Cast], l.751-775;
      [IfThen], l.777-795. *)
  Fixpoint expr_out (op : options) (e : exts) (x : pexpr) : out :=
    match x with
    | ELit l => literal_out op e l
    | ESel f => fieldref_out f
    | EFunc r args opts t =>
        invocation_out op e r (map (arg_out op e) args) opts +++ output_type_out op e t
    | EIf ifs els =>
        txt (L "if_then(")
        +++ fold_right oapp onil
              (map (fun c : option pexpr * option pexpr =>
                      match fst c with Some y => expr_out op e y | None => ofail (FPlan FInvalid "Expression") end
                      +++ txt (L " -> ")
                      +++ match snd c with Some y => expr_out op e y | None => ofail (FPlan FInvalid "Expression") end
                      +++ txt (L ", ")) ifs)
        +++ txt (L "_ -> ")
        +++ match els with Some y => expr_out op e y | None => ofail (FPlan FInvalid "Expression") end
        +++ txt (L ")")
    | ECast b i t =>
        txt (L "(")
        +++ match i with Some y => expr_out op e y | None => ofail (FPlan FInvalid "Expression") end
        +++ txt (L ")::") +++ behavior_out b +++ oexpect "Type" (type_out op e) t
    | EOther _ => ofail (FPlan FUnimplemented "RexType")
    | ENone => ofail (FPlan FInvalid "RexType")
    end
  with arg_out (op : options) (e : exts) (a : parg) : out :=
    match a with
    | AType t => type_out op e t
    | AValue x => expr_out op e x
    | AEnum s => txt (L "&" ++ show_name s)
    | ANone => ofail (FPlan FInvalid "ArgType")
    end.

  (** [AggregateFunction::textify], l.914-928. *)
  Definition aggfn_out (op : options) (e : exts) (a : aggfn) : out :=
    invocation_out op e (af_ref a) (map (arg_out op e) (af_args a)) (af_opts a)
    +++ output_type_out op e (af_out a).
End Write.

(** ** Grammar *)

(** Concrete syntax of [expression], grammar l.193. *)
Inductive ecst :=
| XIf (ifs : list (ecst * ecst)) (els : ecst)
| XCast (x : ecst) (behavior : option N) (t : tcst)
| XCall (f : fref_c) (args : list ecst) (t : tcst)
| XRef (s : list N)
| XLit (c : litc * option tcst).

(** [reference], grammar l.56. *)
Definition g_reference : peg (list N) := ptok (L "$") ;;; g_integer.

(** [argument_list], grammar l.151. *)
Definition g_argument_list (ex : peg ecst) : peg (list ecst) :=
  ptok (L "(") ;;; l <- psep0 (sp ;;; ptok (L ",") ;;; sp) ex ;; ptok (L ")") ;;; pret l.

(** [function_call], grammar l.164-166. *)
Definition callc : Type := fref_c * list ecst * tcst.
Definition g_function_call (ex : peg ecst) : peg callc :=
  f <- g_function_reference ;; sp ;;; a <- g_argument_list ex ;; ptok (L ":") ;;; sp ;;;
  t <- g_type ;; pret (f, a, t).

(** [if_clause], grammar l.168-170. *)
Definition g_if_clause (ex : peg ecst) : peg (ecst * ecst) :=
  c <- ex ;; sp ;;; ptok (L "->") ;;; sp ;;; t <- ex ;; pret (c, t).

(** [if_then], grammar l.173-175. *)
Definition g_if_then (ex : peg ecst) : peg ecst :=
  ptok (L "if_then(") ;;; sp ;;;
  l <- pplus (c <- g_if_clause ex ;; sp ;;; ptok (L ",") ;;; sp ;;; pret c) ;;
  sp ;;; ptok (L "_") ;;; sp ;;; ptok (L "->") ;;; sp ;;;
  y <- ex ;; ptok (L ")") ;;; pret (XIf l y).

(** [cast_expression], grammar l.181-188. *)
Definition g_behavior : peg N :=
  pmap (fun _ => 63%N) (ptok (L "?")) <|> pmap (fun _ => 33%N) (ptok (L "!")).
Definition g_cast (ex : peg ecst) : peg ecst :=
  ptok (L "(") ;;; sp ;;; x <- ex ;; sp ;;; ptok (L ")") ;;; sp ;;; ptok (L "::") ;;; sp ;;;
  b <- popt g_behavior ;; sp ;;; t <- g_type ;; pret (XCast x b t).

(** [expression], grammar l.193. *)
Definition expr_F (ex : peg ecst) : peg ecst :=
  g_if_then ex
  <|> g_cast ex
  <|> pmap (fun c : callc => let '(f, a, t) := c in XCall f a t) (g_function_call ex)
  <|> pmap XRef g_reference
  <|> pmap XLit g_literal.
Definition g_expr : peg ecst := prun expr_F.

(** ** Reading *)

(** [FieldIndex::parse_pair], src/parser/expressions.rs l.65-70. *)
Definition field_index (s : list N) : pres Z := unwrap "field index is not an i32" (parse_i32 s).
(** [FieldIndex::to_field_reference], l.39-53. *)
Definition field_reference (i : Z) : field_ref := mk_fieldref (RefDirect (SegField i None)) RootRef.

(** The failure behaviour of [Cast::parse_pair], l.883-893. *)
Definition behavior_value (b : option N) : Z :=
  match b with
  | None => 0
  | Some c => if (c =? 63)%N then 1 else 2
  end.

(** The loop over if clauses of [IfThen::parse_pair], l.998-1001: the expression
    after [else] is still pending, so an error panics when the iterator is dropped. *)
Definition clauses_loop {A B} (f : A -> pres B) : list A -> pres (list B) :=
  fix go (l : list A) : pres (list B) :=
    match l with
    | [] => Ok []
    | x :: r => let? y := guard_drop (f x) in let? ys := go r in Ok (y :: ys)
    end.

Section Read.
  Context `{F : Floats}.

  (** [FunctionReference::parse_pair], l.750-770, and [resolve], l.775-787. *)
  Definition fref_values (f : fref_c) : pres (option N) :=
    let? a := anchor_value (fr_anchor f) in
    let? _ := anchor_value (fr_urn f) in
    Ok a.

  (** [Expression::parse_pair], l.906-950; [ScalarFunction], l.818-860; [FunctionArguments],
      l.794-816; [Cast], l.862-904; [IfClause], l.953-981; [IfThen], l.983-1014. *)
  Fixpoint lower_expr (e : exts) (c : ecst) : pres pexpr :=
    match c with
    | XLit c => rmap ELit (lower_literal e c)
    | XRef s => rmap (fun i => ESel (field_reference i)) (field_index s)
    | XCall f args t =>
        let? a := fref_values f in
        let? args := rlist (fun x => rmap AValue (lower_expr e x)) args in
        let? t := lower_type e t in
        let? r := get_and_validate_anchor e KFunction a (fr_name f) in
        Ok (EFunc r args [] (Some t))
    | XCast x b t =>
        let? y := lower_expr e x in
        let? t := lower_type e t in
        Ok (ECast (behavior_value b) (Some y) (Some t))
    | XIf ifs els =>
        let? l := clauses_loop (fun p : ecst * ecst =>
                                  let? a := lower_expr e (fst p) in
                                  let? b := lower_expr e (snd p) in
                                  Ok (Some a, Some b)) ifs in
        let? y := lower_expr e els in
        Ok (EIf l (Some y))
    end.

  (** [ScalarFunction::parse_pair] and [Measure::parse_pair], l.1054-1092, on a
      [function_call]. *)
  Definition lower_measure (e : exts) (c : callc) : pres aggfn :=
    let '(f, args, t) := c in
    let? a := fref_values f in
    let? args := rlist (fun x => rmap AValue (lower_expr e x)) args in
    let? t := lower_type e t in
    let? r := get_and_validate_anchor e KFunction a (fr_name f) in
    Ok (mk_aggfn r args [] (Some t) 0 0).
End Read.
