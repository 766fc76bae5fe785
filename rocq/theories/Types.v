(** Substrait types: proto values, writing, grammar, reading. *)
From Coq Require Import String List NArith ZArith Bool.
From Verif Require Import Base Peg Names SimpleExt Out Anchors.
Import ListNotations.
Open Scope peg_scope.

(** ** Proto types *)

(** [proto::type::Nullability].  The field is an open [i32] in the proto; any
    unknown value is read by the accessor as [Unspecified], and this model
    identifies the two. *)
Inductive nullability := NUnspecified | NNullable | NRequired.

(** Kinds without parameters. *)
Inductive skind :=
| SBool | SI8 | SI16 | SI32 | SI64 | SFp32 | SFp64 | SString | SBinary | STimestamp
| SDate | STime | SIntervalYear | STimestampTz | SUuid.
(** Kinds with a precision. *)
Inductive preck := PkTime | PkTimestamp | PkTimestampTz.
(** Kinds with a length. *)
Inductive lenk := LkFixedChar | LkVarchar | LkFixedBinary.

(** [proto::Type] with its [Kind]: [var] is the type variation reference, [TNone]
    a type whose [kind] is absent.  The contents of function types and aliases
    are dropped: the formatter never looks at them. *)
Inductive ptype :=
| TSimple (k : skind) (n : nullability) (var : N)
| TPrec (k : preck) (prec : Z) (n : nullability) (var : N)
| TIntervalDay (prec : option Z) (n : nullability) (var : N)
| TIntervalCompound (prec : Z) (n : nullability) (var : N)
| TLen (k : lenk) (len : Z) (n : nullability) (var : N)
| TDecimal (prec scale : Z) (n : nullability) (var : N)
| TStruct (ts : list ptype) (n : nullability) (var : N)
| TList (t : option ptype) (n : nullability) (var : N)
| TMap (key value : option ptype) (n : nullability) (var : N)
| TUser (ref : N) (params : list pparam) (n : nullability) (var : N)
| TUserRef (ref : N)
| TFunc
| TAlias
| TNone
with pparam :=
| PBool (b : bool)
| PType (t : ptype)
| PEnum (s : list N)
| PInt (z : Z)
| PStr (s : list N)
| PNull
| PNone.

(** ** Writing *)

(** The character written for an unspecified nullability, src/textify/types.rs l.13. *)
Definition c_unspec : N := 8265%N.

(** [Nullability::textify], src/textify/types.rs l.20-35. *)
Definition null_out (n : nullability) : out :=
  match n with
  | NUnspecified => opush (FPlan FInvalid "Nullability") +++ txt [c_unspec]
  | NNullable => txt (L "?")
  | NRequired => onil
  end.

(** [TypeVariation::textify], src/textify/types.rs l.257-270. *)
Definition var_out (op : options) (e : exts) (var : N) : out :=
  if (var =? 0)%N then onil
  else txt (L "[") +++ ref_out op e KTypeVariation var +++ txt (L "]").

(** [Parameters::textify], src/textify/types.rs l.340-361, over parameters
    already written. *)
Definition params_out (l : list out) : out :=
  match l with
  | [] => onil
  | _ => txt (L "<") +++ osep (L ", ") l +++ txt (L ">")
  end.

(** The names used by [Kind::textify], src/textify/types.rs l.403-509. *)
Definition skind_name (k : skind) : list N :=
  match k with
  | SBool => L "boolean" | SI8 => L "i8" | SI16 => L "i16" | SI32 => L "i32" | SI64 => L "i64"
  | SFp32 => L "fp32" | SFp64 => L "fp64" | SString => L "string" | SBinary => L "binary"
  | STimestamp => L "timestamp" | SDate => L "date" | STime => L "time"
  | SIntervalYear => L "interval_year" | STimestampTz => L "timestamp_tz" | SUuid => L "uuid"
  end.
Definition preck_name (k : preck) : list N :=
  match k with
  | PkTime => L "precisiontime"
  | PkTimestamp => L "precisiontimestamp"
  | PkTimestampTz => L "precisiontimestamptz"
  end.
Definition lenk_name (k : lenk) : list N :=
  match k with
  | LkFixedChar => L "fixedchar"
  | LkVarchar => L "varchar"
  | LkFixedBinary => L "fixedbinary"
  end.

(** [textify_type], src/textify/types.rs l.277-293. *)
Definition textify_type (op : options) (e : exts) (name : list N) (n : nullability) (var : N)
  (params : list out) : out :=
  txt name +++ null_out n +++ var_out op e var +++ params_out params.

(** [UserDefined::textify], src/textify/types.rs l.364-390. *)
Definition user_out (op : options) (e : exts) (ref : N) (n : nullability) (var : N)
  (params : list out) : out :=
  ref_out op e KType ref +++ null_out n +++ var_out op e var +++ params_out params.

Definition missing_param : out := ofail (FPlan FInvalid "Parameter").

(** [Type::textify] and [Kind::textify], src/textify/types.rs l.393-602; [Parameter::textify],
    l.308-327. *)
Fixpoint type_out (op : options) (e : exts) (t : ptype) : out :=
  match t with
  | TSimple k n v => textify_type op e (skind_name k) n v []
  | TPrec k p n v => textify_type op e (preck_name k) n v [txt (show_Z p)]
  | TIntervalDay p n v =>
      textify_type op e (L "interval_day") n v
        [txt (show_Z (match p with Some p => p | None => 6%Z end))]
  | TIntervalCompound p n v => textify_type op e (L "interval_compound") n v [txt (show_Z p)]
  | TLen k l n v => textify_type op e (lenk_name k) n v [txt (show_Z l)]
  | TDecimal p s n v => textify_type op e (L "decimal") n v [txt (show_Z p); txt (show_Z s)]
  | TStruct ts n v => textify_type op e (L "struct") n v (map (type_out op e) ts)
  | TList t n v =>
      textify_type op e (L "list") n v
        [match t with Some t => type_out op e t | None => missing_param end]
  | TMap a b n v =>
      textify_type op e (L "map") n v
        [match a with Some t => type_out op e t | None => missing_param end;
         match b with Some t => type_out op e t | None => missing_param end]
  | TUser r ps n v => user_out op e r n v (map (param_out op e) ps)
  | TUserRef r => user_out op e r NRequired 0 []
  | TFunc => ofail (FPlan FUnimplemented "FuncType")
  | TAlias => ofail (FPlan FUnimplemented "AliasType")
  | TNone => ofail (FPlan FInvalid "Kind")
  end
with param_out (op : options) (e : exts) (p : pparam) : out :=
  match p with
  | PBool true => txt (L "true")
  | PBool false => txt (L "false")
  | PType t => type_out op e t
  | PEnum s => txt s
  | PInt z => txt (show_Z z)
  | PStr s => txt s
  | PNull => txt (L "null")
  | PNone => missing_param
  end.

(** ** Grammar *)

(** Concrete syntax of [type] (grammar l.79-147) and [parameter] (l.64). *)
Inductive tcst :=
| CSimple (name : list N) (n : nullability)
| CList (n : nullability) (t : tcst)
| CMap (n : nullability) (k v : tcst)
| CStruct (n : nullability) (ps : list pcst)
| CPrec (k : preck) (n : nullability) (p : list N)
| CIntervalDay (n : nullability) (p : list N)
| CUser (name : list N) (anchor urn : option (list N)) (n : nullability) (ps : option (list pcst))
with pcst :=
| CPType (t : tcst)
| CPInt (s : list N)
| CPName (n : nm).

(** [nullability], grammar l.77, with [Nullability::parse_pair], src/parser/types.rs l.69-77. *)
Definition g_null_suffix : peg nullability :=
  (pmap (fun _ => NNullable) (ptok (L "?")))
  <|> (pmap (fun _ => NUnspecified) (ptok [c_unspec]))
  <|> pret NRequired.

(** [simple_type_name], grammar l.81-101. *)
Definition simple_names : list (list N) :=
  [L "boolean"; L "i8"; L "i16"; L "i32"; L "i64"; L "u8"; L "u16"; L "u32"; L "u64"; L "fp32";
   L "fp64"; L "string"; L "binary"; L "timestamp_tz"; L "timestamp"; L "date"; L "time";
   L "interval_year"; L "uuid"].

(** [simple_type], grammar l.105. *)
Definition g_simple_type : peg tcst :=
  s <- ptoks simple_names ;; n <- g_null_suffix ;; pret (CSimple s n).

(** A keyword, nullability and ["<"]. *)
Definition g_kw (kw : list N) : peg nullability :=
  ptok_ci kw ;;; n <- g_null_suffix ;; ptok (L "<") ;;; pret n.

(** [precision_timestamp_tz_type] and the like, grammar l.124-131. *)
Definition g_kw_int (kw : list N) (f : nullability -> list N -> tcst) : peg tcst :=
  n <- g_kw kw ;; i <- g_integer ;; ptok (L ">") ;;; pret (f n i).

(** [parameter] and [parameters], grammar l.64-74. *)
Definition g_parameter (ty : peg tcst) : peg pcst :=
  pmap CPType ty <|> pmap CPInt g_integer <|> pmap CPName g_name.
Definition g_parameters (ty : peg tcst) : peg (list pcst) :=
  ptok (L "<") ;;; l <- psep0 (ptok (L ",") ;;; sp) (g_parameter ty) ;; ptok (L ">") ;;; pret l.

(** [compound_type], grammar l.114-135. *)
Definition g_compound_type (ty : peg tcst) : peg tcst :=
  (n <- g_kw (L "list") ;; t <- ty ;; ptok (L ">") ;;; pret (CList n t))
  <|> (n <- g_kw (L "map") ;; k <- ty ;; ptok (L ",") ;;; sp ;;; v <- ty ;; ptok (L ">") ;;;
       pret (CMap n k v))
  <|> (ptok_ci (L "struct") ;;; n <- g_null_suffix ;; ps <- g_parameters ty ;; pret (CStruct n ps))
  <|> g_kw_int (L "precisiontimestamptz") (CPrec PkTimestampTz)
  <|> g_kw_int (L "precisiontimestamp") (CPrec PkTimestamp)
  <|> g_kw_int (L "precisiontime") (CPrec PkTime)
  <|> g_kw_int (L "interval_day") CIntervalDay.

(** [user_defined_type], grammar l.142-144; the marker [u!] has no pair. *)
Definition g_user_type (ty : peg tcst) : peg tcst :=
  popt (ptok (L "u!")) ;;;
  i <- g_identifier ;;
  a <- popt g_anchor ;; u <- popt g_urn_anchor ;;
  n <- g_null_suffix ;;
  ps <- popt (g_parameters ty) ;;
  pret (CUser i a u n ps).

(** [type], grammar l.147. *)
Definition type_F (ty : peg tcst) : peg tcst :=
  g_simple_type <|> g_compound_type ty <|> g_user_type ty.
Definition g_type : peg tcst := prun type_F.

(** ** Reading *)

(** [parse_simple_type], src/parser/types.rs l.106-180: the unsigned names exist
    in the grammar only. *)
Definition simple_kind (s : list N) : option skind :=
  find (fun k => streqb (skind_name k) s)
    [SBool; SI64; SI32; SI16; SI8; SFp32; SFp64; SString; SBinary; STimestamp; STimestampTz;
     SDate; STime; SIntervalYear; SUuid].

(** [parse_precision], src/parser/types.rs l.205-221. *)
Definition parse_precision (s : list N) : pres Z :=
  match parse_i32 s with
  | Some p => if in_range 0 12 p then Ok p else Err (PInvalid "precision out of range")
  | None => Err (PInvalid "precision out of range")
  end.

(** The loop of [parse_parameters], src/parser/types.rs l.290-302: an error with
    parameters still pending panics when the iterator is dropped. *)
Definition params_loop {A B} (f : A -> pres B) : list A -> pres (list B) :=
  fix go (l : list A) : pres (list B) :=
    match l with
    | [] => Ok []
    | x :: r =>
        let? y := match r with [] => f x | _ => guard_drop (f x) end in
        let? ys := go r in
        Ok (y :: ys)
    end.

(** [Type::parse_pair] and the functions below it, src/parser/types.rs l.80-366. *)
Fixpoint lower_type (e : exts) (c : tcst) : pres ptype :=
  match c with
  | CSimple s n =>
      match simple_kind s with
      | Some k => Ok (TSimple k n 0)
      | None => Panic "type exists in parser but not implemented in code"
      end
  | CList n t => rmap (fun t => TList (Some t) n 0) (lower_type e t)
  | CMap _ _ _ => Panic "not implemented: map_type"
  | CStruct _ _ => Panic "not implemented: struct_type"
  | CPrec k n p => rmap (fun p => TPrec k p n 0) (parse_precision p)
  | CIntervalDay n p => rmap (fun p => TIntervalDay (Some p) n 0) (parse_precision p)
  | CUser name a u n ps =>
      let? anchor := anchor_value a in
      let? _ := anchor_value u in
      let? params := match ps with Some l => params_loop (lower_param e) l | None => Ok [] end in
      let? r := get_and_validate_anchor e KType anchor name in
      Ok (TUser r params n 0)
  end
with lower_param (e : exts) (c : pcst) : pres pparam :=
  match c with
  | CPType t => rmap PType (lower_type e t)
  | CPInt _ => Panic "not implemented: integer"
  | CPName _ => Panic "not implemented: name"
  end.
