(** Formatter output: text, reported errors, error tokens and panics. *)
From Coq Require Import String List NArith ZArith Bool.
From Verif Require Import Base SimpleExt.
Import ListNotations.

(** [Visibility], src/textify/foundation.rs l.17-25. *)
Inductive visibility := VNever | VRequired | VAlways.

(** [OutputOptions], src/textify/foundation.rs l.28-59: the fields the formatter
    reads ([show_extension_urns], [show_simple_extensions], [read_types] and
    [nullability] are never consulted). *)
Record options := mk_options {
  op_anchors : visibility;
  op_literal_types : visibility;
  op_show_emit : bool;
  op_binaries : bool;
  op_indent : list N;
  op_vt_threshold : N
}.
(** [OutputOptions::default], l.61-76. *)
Definition opts_default : options := mk_options VRequired VRequired false false (L "  ") 3.
(** [OutputOptions::verbose], l.81-95. *)
Definition opts_verbose : options := mk_options VAlways VAlways false true (L "  ") 3.

(** [FormatError], l.276-293: [FPlan] carries [PlanError::message] and its
    [FormatErrorType]; descriptions are not modelled. *)
Inductive fkind := FInvalid | FUnimplemented | FInternal.
Inductive ferr :=
| FInsert (e : insert_error)
| FLookup (m : missing_ref)
| FExtension (what : string)
| FPlan (k : fkind) (message : string).

Definition kind_name (k : kind) : string :=
  match k with
  | KFunction => "function"
  | KType => "type"
  | KTypeVariation => "type_variation"
  end.

(** [FormatError::message], l.295-313. *)
Definition ferr_message (e : ferr) : string :=
  match e with
  | FLookup (MissingUrn _) => "uri"
  | FLookup (MissingAnchor k _) => kind_name k
  | FLookup (MissingName k _) => kind_name k
  | FLookup (Mismatched k _ _) => kind_name k
  | FLookup (DuplicateName k _) => kind_name k
  | FExtension _ => "extension"
  | FPlan _ m => m
  | FInsert MissingMappingType => "extension"
  | FInsert (DuplicateUrnAnchor _ _ _) => "uri"
  | FInsert (DuplicateAnchor _ _ _ _) => "extension"
  | FInsert (InsMissingUrn _ _ _ _) => "uri"
  | FInsert (DuplicateAndMissingUrn _ _ _ _ _) => "uri"
  | FInsert (InvalidName _ _) => "extension"
  end.

(** What a [textify] call does: the text it writes, the errors it pushes, the
    error tokens among what it wrote, and the panics it runs into (the text
    written after a panic is of no consequence).  The errors are listed in the
    order of the places they concern; the order in which they are pushed is not
    modelled.  Rust pushes some of them earlier: those of the missing parts of a
    cast or of a clause of a conditional before those of the parts that are there
    (src/textify/expressions.rs l.751-795), those of unsupported relations before
    those of the relations around them (src/textify/rels.rs l.592-608). *)
Record out := mk_out {
  o_text : list N;
  o_errs : list ferr;
  o_toks : list string;
  o_panics : list string
}.
Definition onil : out := mk_out [] [] [] [].
Definition oapp (a b : out) : out :=
  mk_out (o_text a ++ o_text b) (o_errs a ++ o_errs b) (o_toks a ++ o_toks b)
         (o_panics a ++ o_panics b).
(** [write!] of plain text. *)
Definition txt (s : list N) : out := mk_out s [] [] [].
(** [Scope::push_error], l.464-466. *)
Definition opush (e : ferr) : out := mk_out [] [e] [] [].
(** The error token of [ErrorToken]'s [Display], l.392-396. *)
Definition token_text (m : string) : list N := L "!{" ++ L m ++ L "}".
(** [Scope::failure] (l.471-476), with the returned token written out. *)
Definition ofail (e : ferr) : out :=
  mk_out (token_text (ferr_message e)) [e] [ferr_message e] [].
Definition opanic (p : string) : out := mk_out [] [] [] [p].

Declare Scope out_scope.
Delimit Scope out_scope with out.
Infix "+++" := oapp (at level 60, right associativity) : out_scope.
Open Scope out_scope.

(** [Scope::expect] (l.478-492): [name] is [T::name()]. *)
Definition oexpect {A} (name : string) (f : A -> out) (o : option A) : out :=
  match o with
  | Some a => f a
  | None => ofail (FPlan FInvalid name)
  end.

(** [Scope::separated], l.508-519 and l.547-559. *)
Fixpoint osep (sep : list N) (l : list out) : out :=
  match l with
  | [] => onil
  | [x] => x
  | x :: r => x +++ txt sep +++ osep sep r
  end.

(** ** Errors of the line parsers *)

(** [MessageParseError], src/parser/common.rs l.18-81.  [PSyntax] is a grammar
    rejection; the message text and span are not modelled. *)
Inductive perr :=
| PSyntax (message : string)
| PInvalid (message : string)
| PLookup (message : string) (m : missing_ref).

Notation pres A := (res perr A).

Definition lift_missing {A} (message : string) (x : res missing_ref A) : pres A :=
  match x with
  | Ok a => Ok a
  | Err m => Err (PLookup message m)
  | Panic p => Panic p
  end.
