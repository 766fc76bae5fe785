(** What the parts of a plan text mean: for every form of the concrete syntax the
    messages it stands for, as relations, without the functions that read it. *)
From Coq Require Import String List NArith ZArith Bool.
From Verif Require Import Base Names SimpleExt Anchors Types Calendar SpecLiterals Literals Exprs ExtArgs Registry Rels
  RelGrammar Tree SpecRegistry SpecRels SpecAggregate.
Import ListNotations.
Local Open Scope string_scope.
Local Open Scope list_scope.
Local Open Scope nat_scope.

(** ** Characters, numbers, names *)

(** The characters with the Unicode property White_Space. *)
Definition white_space : list N :=
  [9; 10; 11; 12; 13; 32; 133; 160; 5760; 8192; 8193; 8194; 8195; 8196; 8197; 8198; 8199; 8200; 8201; 8202;
   8232; 8233; 8239; 8287; 12288]%N.
Definition white (s : list N) : Prop := Forall (fun c => In c white_space) s.

Definition digit (c : N) : Prop := (48 <= c <= 57)%N.
Definition digits (s : list N) : Prop := s <> [] /\ Forall digit s.
Definition decimal (s : list N) : Z := fold_left (fun a c => 10 * a + (Z.of_N c - 48))%Z s 0%Z.
(** A number with an optional sign (the grammar has no plus sign). *)
Inductive number : list N -> Z -> Prop :=
| nb_plain s : digits s -> number s (decimal s)
| nb_minus s : digits s -> number (45%N :: s) (- decimal s)
| nb_plus s : digits s -> number (43%N :: s) (decimal s).
Definition i32 (z : Z) : Prop := (- 2 ^ 31 <= z < 2 ^ 31)%Z.
Definition i64 (z : Z) : Prop := (- 2 ^ 63 <= z < 2 ^ 63)%Z.
(** The number of 32 bits that agrees with a number modulo 2^32. *)
Definition same_bits (z w : Z) : Prop := i32 w /\ exists k, z = (w + k * 2 ^ 32)%Z.

(** An anchor, if there is one: a natural number of 32 bits. *)
Inductive anchor_means : option (list N) -> option N -> Prop :=
| am_none : anchor_means None None
| am_some s n : number s (Z.of_N n) -> hd 0%N s <> 45%N -> (Z.of_N n < 2 ^ 32)%Z -> anchor_means (Some s) (Some n).

(** What follows the opening quote: escapes, other characters and the closing
    quote (which the grammar requires). *)
Inductive unquoted (q : N) : list N -> list N -> Prop :=
| uq_end : unquoted q [q] []
| uq_open : unquoted q [] []
| uq_newline s x : unquoted q s x -> unquoted q (92 :: 110 :: s)%N (10%N :: x)
| uq_tab s x : unquoted q s x -> unquoted q (92 :: 116 :: s)%N (9%N :: x)
| uq_return s x : unquoted q s x -> unquoted q (92 :: 114 :: s)%N (13%N :: x)
| uq_escape c s x : ~ In c [110; 116; 114]%N -> unquoted q s x -> unquoted q (92%N :: c :: s) (c :: x)
| uq_char c s x : c <> q -> c <> 92%N -> unquoted q s x -> unquoted q (c :: s) (c :: x).
Definition string_means (s x : list N) : Prop := exists r, s = 39%N :: r /\ unquoted 39 r x.
Inductive name_means : nm -> list N -> Prop :=
| nm_ident s : name_means (NIdent s) s
| nm_quoted s x : unquoted 34 s x -> name_means (NQuoted (34%N :: s)) x.

(** ** References to declarations *)

(** The part of a declared name before its first colon. *)
Definition base_name (n b : list N) : Prop :=
  (n = b /\ ~ In 58%N n) \/ exists sig, n = b ++ 58%N :: sig /\ ~ In 58%N b.
(** A function can be called by its whole name, and by its base name. *)
Definition called (n name : list N) : Prop :=
  (In 58%N name /\ n = name) \/ (~ In 58%N name /\ base_name n name).

(** The declaration with the given anchor, whose name must fit; without an anchor
    the only declaration that fits. *)
Inductive function_means (e : exts) : option N -> list N -> N -> Prop :=
| fm_anchor a name u n : decl_get e KFunction a = Some (u, n) -> called n name -> function_means e (Some a) name a
| fm_only a name u n : decl_get e KFunction a = Some (u, n) -> called n name ->
    (forall a' u' n', decl_get e KFunction a' = Some (u', n') -> called n' name -> a' = a) ->
    function_means e None name a.
Inductive user_type_means (e : exts) : option N -> list N -> N -> Prop :=
| um_anchor a name u n : decl_get e KType a = Some (u, n) -> n = name \/ base_name n name -> user_type_means e (Some a) name a
| um_only a name u : decl_get e KType a = Some (u, name) ->
    (forall a' u', decl_get e KType a' = Some (u', name) -> a' = a) -> user_type_means e None name a.

(** ** Types *)

Definition type_words : list (string * skind) :=
  [("boolean", SBool); ("i8", SI8); ("i16", SI16); ("i32", SI32); ("i64", SI64); ("fp32", SFp32); ("fp64", SFp64);
   ("string", SString); ("binary", SBinary); ("timestamp", STimestamp); ("timestamp_tz", STimestampTz);
   ("date", SDate); ("time", STime); ("interval_year", SIntervalYear); ("uuid", SUuid)].

(** Types of which the reader knows the messages; the maps, structures and
    parameters the grammar also has mean nothing. *)
Inductive type_means (e : exts) : tcst -> ptype -> Prop :=
| tm_simple w k n : In (w, k) type_words -> type_means e (CSimple (L w) n) (TSimple k n 0)
| tm_list n c t : type_means e c t -> type_means e (CList n c) (TList (Some t) n 0)
| tm_prec k n s p : number s p -> (0 <= p <= 12)%Z -> type_means e (CPrec k n s) (TPrec k p n 0)
| tm_interval n s p : number s p -> (0 <= p <= 12)%Z -> type_means e (CIntervalDay n s) (TIntervalDay (Some p) n 0)
| tm_user name a a' u u' n r : anchor_means a a' -> anchor_means u u' -> user_type_means e a' name r ->
    type_means e (CUser name a u n None) (TUser r [] n 0)
| tm_user_of name a a' u u' n cs ps r : anchor_means a a' -> anchor_means u u' -> user_type_means e a' name r ->
    Forall2 (param_means e) cs ps -> type_means e (CUser name a u n (Some cs)) (TUser r ps n 0)
with param_means (e : exts) : pcst -> pparam -> Prop :=
| pm_type c t : type_means e c t -> param_means e (CPType c) (PType t).

(** ** Dates and times *)

(** [day_number d n]: the [n]th day from 1970-01-01. *)
Definition on_calendar (d : date) : Prop :=
  (1 <= d_month d <= 12 /\ 1 <= d_day d <= month_length (d_year d) (d_month d))%Z.
Inductive day_number : date -> Z -> Prop :=
| dn_epoch : day_number (mk_date 1970 1 1) 0
| dn_next d n : day_number d n -> day_number (next_date d) (n + 1)
| dn_previous d n : on_calendar d -> day_number (next_date d) n -> day_number d (n - 1).

(** Years without a sign have at most four digits; months, days, hours, minutes and
    seconds at most two. *)
Inductive year_text : list N -> Z -> Prop :=
| yt_plain s : digits s -> length s <= 4 -> year_text s (decimal s)
| yt_plus s : digits s -> year_text (43%N :: s) (decimal s)
| yt_minus s : digits s -> year_text (45%N :: s) (- decimal s).
Definition short (s : list N) (z : Z) : Prop := digits s /\ length s <= 2 /\ z = decimal s.

(** White space may stand before each number. *)
Inductive date_text (sep : N) : list N -> date -> Prop :=
| dt_date w ys w' ms w'' ds y m d :
    white w -> year_text ys y -> white w' -> short ms m -> white w'' -> short ds d ->
    on_calendar (mk_date y m d) -> (-262143 <= y <= 262142)%Z ->
    date_text sep (w ++ ys ++ sep :: w' ++ ms ++ sep :: w'' ++ ds) (mk_date y m d).

(** A fraction of a second in nanoseconds: nine digits count. *)
Inductive fraction : list N -> Z -> Prop :=
| fr_none : fraction [] 0
| fr_some s : digits s -> fraction (46%N :: s) (decimal (firstn 9 (s ++ repeat 48%N 9))).
(** A time of day in nanoseconds; the second 60 is one more than 59. *)
Inductive time_text : list N -> Z -> Prop :=
| ct_clock w hs w' ms w'' ss fs h m s f :
    white w -> short hs h -> white w' -> short ms m -> white w'' -> short ss s -> fraction fs f ->
    (h <= 23 -> m <= 59 -> s <= 60 ->
     time_text (w ++ hs ++ 58%N :: w' ++ ms ++ 58%N :: w'' ++ ss ++ fs) (((h * 60 + m) * 60 + s) * 1000000000 + f))%Z.
(** A point in time in nanoseconds: a date and a time with the letter T or white
    space between them, or with nothing after a day of two digits. *)
Inductive moment_text (sep : N) : list N -> Z -> Prop :=
| mt_letter a d n b t : date_text sep a d -> day_number d n -> time_text b t ->
    moment_text sep (a ++ 84%N :: b) (n * 86400000000000 + t)
| mt_white a d n c b t : date_text sep a d -> day_number d n -> In c white_space -> time_text (c :: b) t ->
    moment_text sep (a ++ c :: b) (n * 86400000000000 + t)
| mt_glued a x y d n b t : date_text sep (a ++ [x; y]) d -> digit x -> digit y -> day_number d n -> time_text b t ->
    moment_text sep (a ++ [x; y] ++ b) (n * 86400000000000 + t).
Definition separators : list N := [45; 47]%N.

(** [v] units of [10^-p] seconds are that many nanoseconds. *)
Definition in_units (p nanos v : Z) : Prop :=
  In p [0; 3; 6; 9]%Z /\ (nanos = v * 10 ^ (9 - p))%Z /\ i64 v.

(** The terms of a duration, separated by one blank: days, seconds and units of the
    precision, each at most once. *)
Definition integer_text (s : list N) : Prop := digits s \/ exists r, s = 45%N :: r /\ digits r.
Definition unit_text : list (Z * string) := [(3, "ms"); (6, "us"); (9, "ns"); (12, "ps")]%Z.
Inductive term (ok : Z -> Prop) (unit : list N) : option (list N) -> Z -> Prop :=
| te_none : term ok unit None 0
| te_some s z : integer_text s -> number s z -> ok z -> term ok unit (Some (s ++ unit)) z.
Definition terms (l : list (option (list N))) : list (list N) := concat (map (fun o => opt_list o) l).
Inductive duration_text (p : Z) : list N -> interval -> Prop :=
| du_seconds d c x y : In p [0; 3; 6; 9; 12]%Z -> term i32 (L "d") d x -> term i32 (L "s") c y ->
    terms [d; c] <> [] ->
    duration_text p (join [32%N] (terms [d; c])) (mk_interval x y 0 (Some (IvPrecision p)))
| du_units u d c s x y z : In (p, u) unit_text -> term i32 (L "d") d x -> term i32 (L "s") c y -> term i64 (L u) (Some s) z ->
    duration_text p (join [32%N] (terms [d; c; Some s])) (mk_interval x y z (Some (IvPrecision p))).

(** ** Literals *)

Definition may_be_null (n : nullability) : bool :=
  match n with NRequired => false | NNullable | NUnspecified => true end.
(** The types that make something other than a string of quoted text. *)
Definition quoted_type (t : ptype) : bool :=
  match t with
  | TSimple (SDate | STime | STimestamp) _ _ | TPrec _ _ _ _ | TIntervalDay _ _ _ => true
  | _ => false
  end.

Section Values.
  Context `{F : Floats}.

  Inductive value_means : litc -> option ptype -> litval -> bool -> Prop :=
  | vm_int s z : number s z -> i64 z -> value_means (CInt s) None (LI64 z) false
  | vm_i8 s z w n : number s z -> i64 z -> same_bits z w -> value_means (CInt s) (Some (TSimple SI8 n 0)) (LI8 w) (may_be_null n)
  | vm_i16 s z w n : number s z -> i64 z -> same_bits z w -> value_means (CInt s) (Some (TSimple SI16 n 0)) (LI16 w) (may_be_null n)
  | vm_i32 s z w n : number s z -> i64 z -> same_bits z w -> value_means (CInt s) (Some (TSimple SI32 n 0)) (LI32 w) (may_be_null n)
  | vm_i64 s z n : number s z -> i64 z -> value_means (CInt s) (Some (TSimple SI64 n 0)) (LI64 z) (may_be_null n)
  | vm_float s : value_means (CFloat s) None (LFp64 (read64 s)) false
  | vm_fp32 s n : value_means (CFloat s) (Some (TSimple SFp32 n 0)) (LFp32 (to32 (read64 s))) (may_be_null n)
  | vm_fp64 s n : value_means (CFloat s) (Some (TSimple SFp64 n 0)) (LFp64 (read64 s)) (may_be_null n)
  | vm_bool s b : (b = true <-> s = L "true") -> value_means (CBool s) None (LBool b) false
  | vm_boolean s b n : (b = true <-> s = L "true") -> value_means (CBool s) (Some (TSimple SBool n 0)) (LBool b) (may_be_null n)
  | vm_string s x : string_means s x -> value_means (CStr s) None (LString x) false
  | vm_typed_string s x t : string_means s x -> quoted_type t = false -> value_means (CStr s) (Some t) (LString x) false
  | vm_date s x sep d z n : string_means s x -> In sep separators -> date_text sep x d -> day_number d z ->
      value_means (CStr s) (Some (TSimple SDate n 0)) (LDate z) (may_be_null n)
  | vm_time s x t v n : string_means s x -> time_text x t -> in_units 6 t v ->
      value_means (CStr s) (Some (TSimple STime n 0)) (LTime v) (may_be_null n)
  | vm_timestamp s x sep t v n : string_means s x -> In sep separators -> moment_text sep x t -> in_units 6 t v ->
      value_means (CStr s) (Some (TSimple STimestamp n 0)) (LTimestamp v) (may_be_null n)
  | vm_precision_time s x t p v n : string_means s x -> time_text x t -> in_units p t v ->
      value_means (CStr s) (Some (TPrec PkTime p n 0)) (LPrecisionTime p v) (may_be_null n)
  | vm_precision_timestamp s x sep t p v n : string_means s x -> In sep separators -> moment_text sep x t -> in_units p t v ->
      value_means (CStr s) (Some (TPrec PkTimestamp p n 0)) (LPrecisionTimestamp p v) (may_be_null n)
  | vm_precision_timestamp_tz s x sep t p v n : string_means s x -> In sep separators -> moment_text sep x t -> in_units p t v ->
      value_means (CStr s) (Some (TPrec PkTimestampTz p n 0)) (LPrecisionTimestampTz p v) (may_be_null n)
  | vm_interval s x p i n : string_means s x -> duration_text p x i ->
      value_means (CStr s) (Some (TIntervalDay (Some p) n 0)) (LInterval i) (may_be_null n)
  | vm_null t : value_means CNull (Some t) (LNull t) false.
  Inductive literal_means (e : exts) : litc * option tcst -> literal -> Prop :=
  | lm_untyped c v b : value_means c None v b -> literal_means e (c, None) (mk_lit (Some v) b 0)
  | lm_typed c ct t v b : type_means e ct t -> value_means c (Some t) v b ->
      literal_means e (c, Some ct) (mk_lit (Some v) b 0).

  (** ** Expressions *)

  Definition column (z : Z) : pexpr := ESel (mk_fieldref (RefDirect (SegField z None)) RootRef).
  Definition index_means (s : list N) (z : Z) : Prop := number s z /\ i32 z.
  (** A cast marked with a question mark gives null on failure, one with an
      exclamation mark fails; without a mark this is not specified. *)
  Inductive cast_means : option N -> Z -> Prop :=
  | cm_none : cast_means None 0
  | cm_null : cast_means (Some 63%N) 1
  | cm_throw c : c <> 63%N -> cast_means (Some c) 2.
  Definition call_means (e : exts) (f : fref_c) (r : N) : Prop :=
    exists a u, anchor_means (fr_anchor f) a /\ anchor_means (fr_urn f) u /\ function_means e a (fr_name f) r.

  Inductive expr_means (e : exts) : ecst -> pexpr -> Prop :=
  | em_lit c l : literal_means e c l -> expr_means e (XLit c) (ELit l)
  | em_ref s z : index_means s z -> expr_means e (XRef s) (column z)
  | em_call f args xs ct t r : call_means e f r -> Forall2 (expr_means e) args xs -> type_means e ct t ->
      expr_means e (XCall f args ct) (EFunc r (map AValue xs) [] (Some t))
  | em_cast c x m b ct t : expr_means e c x -> cast_means m b -> type_means e ct t ->
      expr_means e (XCast c m ct) (ECast b (Some x) (Some t))
  | em_if ifs conds vals c x : Forall2 (expr_means e) (map fst ifs) conds -> Forall2 (expr_means e) (map snd ifs) vals ->
      expr_means e c x -> expr_means e (XIf ifs c) (EIf (combine (map Some conds) (map Some vals)) (Some x)).

  (** ** Arguments and columns of extensions *)

  Inductive argument_means (e : exts) : xacst -> xvalue -> Prop :=
  | ar_enum s : argument_means e (VEnum s) (XEnum s)
  | ar_ref s z : index_means s z -> argument_means e (VRef s) (XExpr (column z))
  | ar_string s x : string_means s x -> argument_means e (VLit (CStr s)) (XString x)
  | ar_int s z : number s z -> i64 z -> argument_means e (VLit (CInt s)) (XInteger z)
  | ar_float s : argument_means e (VLit (CFloat s)) (XFloat (read64 s))
  | ar_bool s b : (b = true <-> s = L "true") -> argument_means e (VLit (CBool s)) (XBoolean b)
  | ar_null : argument_means e (VLit CNull) XNull
  | ar_tuple cs vs : Forall2 (argument_means e) cs vs -> argument_means e (VTuple cs) (XTuple vs)
  | ar_expr c x : expr_means e c x -> argument_means e (VExpr c) (XExpr x).
  (** Named arguments in the order in which their names first occur; of a name that
      occurs again the last value counts. *)
  Inductive last_value {V} (k : list N) : list (list N * V) -> V -> Prop :=
  | lv_here v l : ~ In k (map fst l) -> last_value k ((k, v) :: l) v
  | lv_later p l v : last_value k l v -> last_value k (p :: l) v.
  Inductive first_names : list (list N) -> list (list N) -> Prop :=
  | fn_nil : first_names [] []
  | fn_new l ks k : first_names l ks -> ~ In k ks -> first_names (l ++ [k]) (ks ++ [k])
  | fn_again l ks k : first_names l ks -> In k ks -> first_names (l ++ [k]) ks.
  Definition named_map {V} (l m : list (list N * V)) : Prop :=
    first_names (map fst l) (map fst m) /\ Forall (fun p => last_value (fst p) l (snd p)) m.
  Definition arguments_mean (e : exts) (c : xargsc) (cols : list xcolumn) (a : xargs) : Prop :=
    exists ps names vs m, Forall2 (argument_means e) (fst c) ps /\
      Forall2 name_means (map fst (snd c)) names /\ Forall2 (argument_means e) (map snd (snd c)) vs /\
      named_map (combine names vs) m /\ a = mk_xargs ps m cols.
  Inductive xcolumn_means (e : exts) : xcolc -> xcolumn -> Prop :=
  | xc_named c n ct t : name_means c n -> type_means e ct t -> xcolumn_means e (KNamed (c, ct)) (XNamed n t)
  | xc_ref s z : index_means s z -> xcolumn_means e (KRef s) (XColExpr (column z))
  | xc_expr c x : expr_means e c x -> xcolumn_means e (KExpr c) (XColExpr x).

  (** The payload the handler registered for a kind and name makes of arguments. *)
  Definition handled (reg : registry) (k : xtype) (name : list N) (a : xargs) (d : any) : Prop :=
    exists h, hget (k, name) (rg_handlers reg) = Some h /\ payload_of h a = Ok d.

  (** ** Lines of relations *)

  Definition column_means (e : exts) (c : colc) (p : list N * ptype) : Prop :=
    name_means (fst c) (fst p) /\ type_means e (snd c) (snd p).
  Definition schema (cols : list (list N * ptype)) : option named_struct :=
    Some (mk_named_struct (map fst cols) (Some (map snd cols, 0%N, NRequired))).
  Definition common (k : emit_kind) : option rel_common := Some (mk_common (Some k) false).

  (** Column numbers are numbers of 32 bits. *)
  Definition position (i : nat) (z : Z) : Prop := same_bits (Z.of_nat i) z.
  (** All of the [n] columns in order are not written down as a mapping. *)
  Inductive emit_means (n : nat) : list Z -> emit_kind -> Prop :=
  | el_direct m : Forall2 position (seq 0 n) m -> emit_means n m EmDirect
  | el_mapped m : ~ Forall2 position (seq 0 n) m -> emit_means n m (EmEmit m).
  Definition references_mean (n : nat) (refs : list (list N)) (k : emit_kind) (w : nat) : Prop :=
    exists m, Forall2 index_means refs m /\ emit_means n m k /\ w = length m.

  (** The output of a read: all columns, or a mapping after all columns. *)
  Inductive output_means (e : exts) : outc -> list (list N * ptype) -> emit_kind -> nat -> Prop :=
  | om_implicit cs cols : Forall2 (column_means e) cs cols -> output_means e (OImplicit cs) cols EmDirect (length cols)
  | om_direct cs cols : Forall2 (column_means e) cs cols -> output_means e (ODirect cs None) cols EmDirect (length cols)
  | om_mapped cs cols refs m : Forall2 (column_means e) cs cols -> Forall2 index_means refs m ->
      output_means e (ODirect cs (Some refs)) cols (EmEmit m) (length m).

  (** The arguments of a projection: references to columns of the input, and new
      columns, numbered after those of the input. *)
  Inductive project_means (e : exts) : nat -> list pac -> list pexpr -> list Z -> Prop :=
  | pj_nil n : project_means e n [] [] []
  | pj_ref n s z l xs m : index_means s z -> project_means e n l xs m -> project_means e n (PaRef s :: l) xs (z :: m)
  | pj_expr n c x z l xs m : expr_means e c x -> position n z -> project_means e (S n) l xs m ->
      project_means e n (PaExpr c :: l) (x :: xs) (z :: m).

  (** The outputs of an aggregation: grouping expressions by their position, and
      calls that are none of them as measures, numbered after them. *)
  Inductive outputs_mean (e : exts) (gexprs : list pexpr) : nat -> list ecst -> list measure -> list Z -> Prop :=
  | op_nil n : outputs_mean e gexprs n [] [] []
  | op_group n c x i z l ms m : expr_means e c x -> nth_error gexprs i = Some x -> position i z ->
      outputs_mean e gexprs n l ms m -> outputs_mean e gexprs n (c :: l) ms (z :: m)
  | op_measure n f args ct r xs t z l ms m : expr_means e (XCall f args ct) (EFunc r xs [] (Some t)) ->
      ~ In (EFunc r xs [] (Some t)) gexprs -> position n z -> outputs_mean e gexprs (S n) l ms m ->
      outputs_mean e gexprs n (XCall f args ct :: l) (mk_measure (Some (mk_aggfn r xs [] (Some t) 0 0)) None :: ms) (z :: m).

  (** A value of an enumeration, after the ampersand. *)
  Definition enum_means (values : list (string * Z)) (s : list N) (z : Z) : Prop :=
    exists n, In (n, z) values /\ tl s = camel n.
  Definition sort_means (e : exts) (p : ecst * list N) (f : sort_field) : Prop :=
    exists x d, expr_means e (fst p) x /\ enum_means proto_sort_directions (snd p) d /\
      f = mk_sort_field (Some x) (Some (SkDirection d)).
  Inductive bound_means (e : exts) : fvc -> fetch_mode -> Prop :=
  | bm_int s z : number s z -> (0 <= z)%Z -> i64 z ->
      bound_means e (FvInt s) (FmExpr (ELit (mk_lit (Some (LI64 z)) false 0)))
  | bm_expr c x : expr_means e c x -> bound_means e (FvExpr c) (FmExpr x).
  Inductive option_means {A B} (P : A -> B -> Prop) : option A -> option B -> Prop :=
  | ot_none : option_means P None None
  | ot_some a b : P a b -> option_means P (Some a) (Some b).
  (** The argument with a name, of arguments with distinct names. *)
  Inductive argument_of {V} (args : list (list N * V)) (k : list N) : option V -> Prop :=
  | ao_none : ~ In k (map fst args) -> argument_of args k None
  | ao_some v : In (k, v) args -> argument_of args k (Some v).

  (** [line_means e y ins adv r n]: with the given inputs, each with its number of
      columns, and the given addenda, the line stands for relation [r], which has
      [n] columns. *)
  Definition widths (ins : list (prel * nat)) : nat := list_sum (map snd ins).
  Inductive line_means (e : exts) : rline -> list (prel * nat) -> option advext -> prel -> nat -> Prop :=
  | li_read t names o cols k n adv : Forall2 name_means t names -> output_means e o cols k n ->
      line_means e (YRead t o) [] adv (RRead (mk_read (common k) (schema cols) None (ReadNamed names) adv false)) n
  | li_virtual rows rs f x cs cols adv : Forall2 (Forall2 (expr_means e)) rows rs -> option_means (expr_means e) f x ->
      Forall2 (column_means e) cs cols ->
      line_means e (YVirtual rows f cs) [] adv
        (RRead (mk_read (common EmDirect) (schema cols) x (ReadVirtual rs) adv false)) (length cols)
  | li_filter c x refs k i w n adv : expr_means e c x -> references_mean w refs k n ->
      line_means e (YFilter c refs) [(i, w)] adv (RFilter (common k) (Some i) (Some x) adv) n
  | li_project args xs m k i w adv : project_means e w args xs m -> emit_means (w + length xs) m k ->
      line_means e (YProject args) [(i, w)] adv (RProject (common k) (Some i) xs adv) (length m)
  | li_aggregate g sets gexprs groups outs ms m k i w adv : Forall2 (Forall2 (expr_means e)) (written_sets g) sets ->
      current_form sets gexprs groups -> Forall (fun g => gr_exprs g = []) groups ->
      outputs_mean e gexprs (length gexprs) outs ms m -> emit_means (length gexprs + length ms) m k ->
      line_means e (YAggregate g outs) [(i, w)] adv (RAggregate (common k) (Some i) gexprs groups ms adv) (length m)
  | li_sort fs sorts refs k i w n adv : Forall2 (sort_means e) fs sorts -> references_mean w refs k n ->
      line_means e (YSort fs refs) [(i, w)] adv (RSort (common k) (Some i) sorts adv) n
  | li_fetch args lim off limit offset refs k i w n adv : NoDup (map fst args) ->
      argument_of args (L "limit") lim -> argument_of args (L "offset") off ->
      option_means (bound_means e) lim limit -> option_means (bound_means e) off offset -> references_mean w refs k n ->
      line_means e (YFetch args refs) [(i, w)] adv (RFetch (common k) (Some i) limit offset adv) n
  | li_join t jt c x p post refs k l lw r rw n adv : enum_means proto_join_types t jt -> expr_means e c x ->
      option_means (expr_means e) p post -> references_mean (lw + rw) refs k n ->
      line_means e (YJoin t c p refs) [(l, lw); (r, rw)] adv (RJoin (common k) (Some l) (Some r) (Some x) post jt adv) n
  | li_cross refs k l lw r rw n adv : references_mean (lw + rw) refs k n ->
      line_means e (YCross refs) [(l, lw); (r, rw)] adv (RCross (common k) (Some l) (Some r) adv) n
  | li_set o so refs k ins w n adv : 2 <= length ins -> Forall (fun i => snd i = w) ins -> enum_means proto_set_ops o so ->
      references_mean w refs k n ->
      line_means e (YSet o refs) ins adv (RSet (common k) (map fst ins) so adv) n.

  (** ** Addenda and trees *)

  Definition addendum_means (reg : registry) (e : exts) (a : acst * N) (d : any) : Prop :=
    match fst a with
    | Acst k c args => exists name xa, name_means c name /\ arguments_mean e args [] xa /\ handled reg k name xa d
    end.
  Definition has_kind (k : xtype) (a : acst * N) : bool := match fst a with Acst k' _ _ => xtype_eqb k' k end.
  (** At most one enhancement, and optimizations. *)
  Inductive addenda_mean (reg : registry) (e : exts) (ads : list (acst * N)) : option advext -> Prop :=
  | ad_none : ads = [] -> addenda_mean reg e ads None
  | ad_some enh opts : ads <> [] -> Forall (fun a => has_kind XtEnhancement a || has_kind XtOptimization a = true) ads ->
      Forall2 (addendum_means reg e) (filter (has_kind XtEnhancement) ads) (opt_list enh) ->
      Forall2 (addendum_means reg e) (filter (has_kind XtOptimization) ads) opts ->
      addenda_mean reg e ads (Some (mk_advext enh opts)).

  (** The name of an extension relation is taken as it stands, quotes included. *)
  Definition raw (c : nm) : list N := match c with NIdent s | NQuoted s => s end.
  Inductive extension_inputs : xkind -> list prel -> any -> prel -> Prop :=
  | ei_leaf d : extension_inputs XkLeaf [] d (RExtLeaf (common EmDirect) (Some d))
  | ei_single i d : extension_inputs XkSingle [i] d (RExtSingle (common EmDirect) (Some d) (Some i))
  | ei_multi l d : extension_inputs XkMulti l d (RExtMulti (common EmDirect) (Some d) l).

  (** [tree_means reg e t r n]: a line with its addenda and the lines below it
      stands for relation [r], which has [n] columns. *)
  Inductive tree_means (reg : registry) (e : exts) : rnode rline acst -> prel -> nat -> Prop :=
  | tr_line y line ads adv cs ins r n : Forall2 (fun c p => tree_means reg e c (fst p) (snd p)) cs ins ->
      addenda_mean reg e ads adv -> line_means e y ins adv r n ->
      tree_means reg e (RNode y line ads cs) r n
  | tr_table cs cols line a ads before d adv :
      addendum_means reg e a d -> has_kind XtTable a = true -> addenda_mean reg e (before ++ ads) adv ->
      Forall2 (column_means e) cs cols ->
      tree_means reg e (RNode (YExtRead cs) line (before ++ a :: ads) [])
        (RRead (mk_read (common EmDirect) (schema cols) None (ReadExtension (Some d)) adv false)) (length cols)
  | tr_extension k c args xcs cols a d line cs ins r : Forall2 (fun c p => tree_means reg e c (fst p) (snd p)) cs ins ->
      Forall2 (xcolumn_means e) xcs cols -> arguments_mean e args cols a -> handled reg XtRelation (raw c) a d ->
      extension_inputs k (map fst ins) d r ->
      tree_means reg e (RNode (YExt k c args xcs) line [] cs) r (length cols).
  (** A tree at the top: a root with names for the columns of its input, or any
      other relation. *)
  Inductive plan_tree_means (reg : registry) (e : exts) : rnode rline acst -> plan_rel -> Prop :=
  | pt_root cs names line c r n : Forall2 name_means cs names -> tree_means reg e c r n ->
      plan_tree_means reg e (RNode (YRoot cs) line [] [c]) (PRoot names (Some r))
  | pt_rel t r n : tree_means reg e t r n -> plan_tree_means reg e t (PRel r).
End Values.
