(** The lines of the extension section (src/parser/extensions.rs l.26-263). *)
From Coq Require Import String List NArith ZArith Bool.
From Verif Require Import Base Peg Names SimpleExt Out Anchors.
Import ListNotations.
Open Scope peg_scope.

(** ** Grammar *)

(** [urn], grammar l.205. *)
Definition g_urn : peg (list N) := pwhile1 (fun c => negb (c =? c_sp)%N).

(** [extension_urn_declaration], grammar l.207: the anchor's and the URN's text. *)
Definition g_urn_declaration : peg (list N * list N) :=
  a <- g_urn_anchor ;; ptok (L ":") ;;; sp ;;; u <- g_urn ;; pret (a, u).

(** [simple_extension_name], grammar l.214, as text. *)
Definition g_simple_extension_name : peg (list N) :=
  m <- popt (ptok (L "u!")) ;; n <- g_function_signature ;;
  pret (match m with Some _ => L "u!" ++ n | None => n end).

(** [simple_extension], grammar l.215. *)
Definition g_simple_extension : peg (list N * list N * list N) :=
  a <- g_anchor ;; sp ;;; u <- g_urn_anchor ;; sp ;;; ptok (L ":") ;;; sp ;;;
  n <- g_simple_extension_name ;; pret (a, u, n).

(** ** Reading *)

(** [URNExtensionDeclaration::parse_str] and [parse_pair], l.193-216 and
    src/parser/common.rs l.170-177: unread text is an assertion failure. *)
Definition parse_urn_declaration (s : list N) : pres urn_decl :=
  match g_urn_declaration s with
  | None => Err (PSyntax "URNExtensionDeclaration")
  | Some ((a, u), []) => rmap (fun a => mk_urn a u) (unwrap "anchor is not a u32" (parse_u32 a))
  | Some (_, _ :: _) => Panic "assertion failed: pairs.as_str() == s"
  end.

(** [SimpleExtensionDeclaration::parse_from_kind], l.218-263. *)
Definition parse_declaration (k : kind) (s : list N) : pres ext_decl :=
  match g_simple_extension s with
  | None => Err (PSyntax "SimpleExtensionDeclaration")
  | Some ((a, u, n), []) =>
      let? a := unwrap "anchor is not a u32" (parse_u32 a) in
      let? u := unwrap "anchor is not a u32" (parse_u32 u) in
      if negb (kind_eqb k KType) && starts_with (L "u!") n
      then Err (PInvalid "simple_extension_name")
      else if negb (kind_eqb k KFunction) && contains_char c_colon n
      then Err (PInvalid "simple_extension_name")
      else Ok (mk_decl k u a n)
  | Some (_, _ :: _) => Panic "assertion failed: pairs.as_str() == s"
  end.

(** [ExpectedExtensionLine], l.41-51, the parser's state. *)
Inductive ext_state := XExtensions | XUrns | XDecls (k : kind).

(** [ExtensionParseError], l.27-34. *)
Inductive ext_error :=
| XUnexpectedLine (s : ext_state)
| XInsert (e : insert_error)
| XMessage (e : perr).

(** [ExtensionParser], l.72-76. *)
Record ext_parser := mk_xp { xp_state : ext_state; xp_exts : exts }.
Definition xp_default : ext_parser := mk_xp XExtensions exts_empty.

Definition lift_message {A} (x : pres A) : res ext_error A :=
  match x with
  | Ok a => Ok a
  | Err e => Err (XMessage e)
  | Panic p => Panic p
  end.
Definition lift_insert (p : exts * option insert_error) : res ext_error exts :=
  match p with
  | (e, None) => Ok e
  | (_, Some er) => Err (XInsert er)
  end.

(** [parse_subsection], l.106-128. *)
Definition parse_subsection (x : ext_parser) (indent : nat) (s : list N) : res ext_error ext_parser :=
  match indent with
  | O =>
      if streqb s hdr_urns then Ok (mk_xp XUrns (xp_exts x))
      else if streqb s (hdr_kind KFunction) then Ok (mk_xp (XDecls KFunction) (xp_exts x))
      else if streqb s (hdr_kind KType) then Ok (mk_xp (XDecls KType) (xp_exts x))
      else if streqb s (hdr_kind KTypeVariation) then Ok (mk_xp (XDecls KTypeVariation) (xp_exts x))
      else Err (XUnexpectedLine (xp_state x))
  | _ => Err (XUnexpectedLine (xp_state x))
  end.

(** [ExtensionParser::parse_line], l.88-104, with [parse_extension_urns],
    l.130-141, and [parse_declarations], l.143-162. *)
Definition ext_parse_line (x : ext_parser) (il : nat * list N) : res ext_error ext_parser :=
  let (indent, s) := il in
  match s with
  | [] => Ok (mk_xp XExtensions (xp_exts x))
  | _ =>
      match xp_state x, indent with
      | XExtensions, _ => parse_subsection x indent s
      | XUrns, O => parse_subsection x indent s
      | XUrns, 1 =>
          let? u := lift_message (parse_urn_declaration s) in
          let? e := lift_insert (add_extension_urn (xp_exts x) (u_urn u) (u_anchor u)) in
          Ok (mk_xp XUrns e)
      | XUrns, _ => Err (XUnexpectedLine (xp_state x))
      | XDecls k, O => parse_subsection x indent s
      | XDecls k, 1 =>
          let? d := lift_message (parse_declaration k s) in
          let? e := lift_insert (add_extension (xp_exts x) k (d_urn d) (d_anchor d) (d_name d)) in
          Ok (mk_xp (XDecls k) e)
      | XDecls k, _ => Err (XUnexpectedLine (xp_state x))
      end
  end.
