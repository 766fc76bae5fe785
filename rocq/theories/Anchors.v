(** Writing references to simple extensions, and resolving them. *)
From Coq Require Import String List NArith ZArith Bool.
From Verif Require Import Base Peg Names SimpleExt Out.
Import ListNotations.
Open Scope peg_scope.

(** ** Writing *)

(** [NamedAnchor], src/textify/types.rs l.126-138; [na_out] is the error part of
    [lookup] when the name is missing. *)
Record named_anchor := mk_na {
  na_name : option (list N);
  na_fail : out;
  na_anchor : N;
  na_unique : bool;
  na_base_unique : bool
}.

(** [NamedAnchor::lookup], src/textify/types.rs l.143-183. *)
Definition na_lookup (e : exts) (k : kind) (anchor : N) : named_anchor :=
  match k with
  | KFunction =>
      match lookup_function e anchor with
      | Ok r => mk_na (Some (rf_name r)) onil anchor (rf_unique r) (rf_base_unique r)
      | Err m => mk_na None (ofail (FLookup m)) anchor false false
      | Panic p => mk_na None (opanic p) anchor false false
      end
  | _ =>
      match find_by_anchor e k anchor with
      | Ok (_, n) =>
          match is_name_unique e k anchor n with
          | Ok u => mk_na (Some n) onil anchor u true
          | Err m => mk_na (Some n) (opush (FLookup m)) anchor false true
          | Panic p => mk_na (Some n) (opanic p) anchor false true
          end
      | Err m => mk_na None (ofail (FLookup m)) anchor false false
      | Panic p => mk_na None (opanic p) anchor false false
      end
  end.

(** [Anchor::textify], src/textify/types.rs l.109-124. *)
Definition anchor_out (op : options) (anchor : N) (required : bool) : out :=
  match op_anchors op with
  | VNever => onil
  | VRequired => if required then txt (L "#" ++ show_N anchor) else onil
  | VAlways => txt (L "#" ++ show_N anchor)
  end.

(** [NamedAnchor::textify], src/textify/types.rs l.191-222. *)
Definition na_out (op : options) (na : named_anchor) : out :=
  let show_signature :=
    match op_anchors op with
    | VAlways => true
    | VRequired => negb (na_base_unique na)
    | VNever => false
    end in
  let name_part :=
    match na_name na with
    | Some n => na_fail na +++ txt (if show_signature then n else cn_base n)
    | None => na_fail na
    end in
  let needs_anchor :=
    negb (na_unique na)
    || match na_name na with
       | Some n => if contains_char c_colon n then false else negb (na_base_unique na)
       | None => false
       end in
  name_part +++ anchor_out op (na_anchor na) needs_anchor.

(** A reference to extension [anchor] of kind [k]: [NamedAnchor::lookup] then
    [textify]. *)
Definition ref_out (op : options) (e : exts) (k : kind) (anchor : N) : out :=
  na_out op (na_lookup e k anchor).

(** ** Grammar *)

(** [short_arg_name], [short_arg_type], [argument_signature]; grammar l.40-48. *)
Definition g_short_arg_name : peg (list N) :=
  c <- pchar is_alpha ;; r <- pwhile is_alnum ;; pret (c :: r).
Definition g_short_arg_type : peg (list N) :=
  (ptok (L "u!") ;;; n <- g_short_arg_name ;; pret (L "u!" ++ n)) <|> g_short_arg_name.
Definition g_argument_signature : peg (list N) :=
  a <- g_short_arg_type ;;
  l <- pstar (ptok (L "_") ;;; g_short_arg_type) ;;
  pret (a ++ concat (map (fun x => L "_" ++ x) l)).

(** [(":" ~ argument_signature?)?], as text. *)
Definition g_signature_suffix : peg (list N) :=
  o <- popt (ptok (L ":") ;;; popt g_argument_signature) ;;
  pret (match o with
        | Some (Some a) => L ":" ++ a
        | Some None => L ":"
        | None => []
        end).

(** [function_signature], grammar l.52. *)
Definition g_function_signature : peg (list N) :=
  i <- g_identifier ;; x <- g_signature_suffix ;; pret (i ++ x).

(** [anchor] and [urn_anchor], grammar l.61-62. *)
Definition g_anchor : peg (list N) := ptok (L "#") ;;; sp ;;; g_integer.
Definition g_urn_anchor : peg (list N) := ptok (L "@") ;;; sp ;;; g_integer.

(** [function_reference], grammar l.157. *)
Record fref_c := mk_fref { fr_name : list N; fr_anchor : option (list N); fr_urn : option (list N) }.
Definition g_function_reference : peg fref_c :=
  n <- g_function_signature ;; sp ;;;
  a <- popt g_anchor ;; sp ;;;
  u <- popt g_urn_anchor ;;
  pret (mk_fref n a u).

(** ** Resolving *)

(** [get_and_validate_anchor], src/parser/types.rs l.17-58. *)
Definition get_and_validate_anchor (e : exts) (k : kind) (anchor : option N) (name : list N) : pres N :=
  match k with
  | KFunction => rmap rf_anchor (lift_missing (kind_name k) (resolve_function e name anchor))
  | _ =>
      match anchor with
      | Some a =>
          let? un := lift_missing (kind_name k) (find_by_anchor e k a) in
          if streqb (snd un) name || streqb (cn_base (snd un)) name then Ok a
          else Err (PLookup (kind_name k) (Mismatched k name a))
      | None => lift_missing (kind_name k) (find_by_name e k name)
      end
  end.

(** An anchor pair's value: [as_str().parse::<u32>().unwrap()]
    (src/parser/expressions.rs l.755-765, src/parser/types.rs l.315-325). *)
Definition anchor_value (o : option (list N)) : pres (option N) :=
  match o with
  | None => Ok None
  | Some s => rmap Some (unwrap "anchor is not a u32" (parse_u32 s))
  end.
