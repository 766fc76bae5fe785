(** How types, literals and expressions are written: for every message the text that
    shows it, as relations, without the functions that write it.  A message that no
    text shows is one the formatter must report. *)
From Coq Require Import String List NArith ZArith Bool.
From Verif Require Import Base Names SimpleExt Out Types Calendar SpecLiterals Literals Exprs SpecMeaning SpecOptions.
Import ListNotations.
Local Open Scope string_scope.
Local Open Scope list_scope.
Local Open Scope nat_scope.

(** ** Numbers, names, strings *)

(** Numbers without superfluous zeros or signs. *)
Inductive numeral : Z -> list N -> Prop :=
| nu_zero : numeral 0 (L "0")
| nu_plain s : digits s -> hd 0%N s <> 48%N -> numeral (decimal s) s
| nu_minus s : digits s -> hd 0%N s <> 48%N -> numeral (- decimal s) (45%N :: s).
(** Numbers in at least [w] digits, with zeros in front only as far as needed. *)
Definition padded (w : nat) (z : Z) (s : list N) : Prop :=
  digits s /\ decimal s = z /\ w <= length s /\ (w < length s -> hd 0%N s <> 48%N).
(** Hexadecimal digits. *)
Definition hex_digits : list N := L "0123456789abcdef".
Definition hex (x : N) (c : N) : Prop := nth_error hex_digits (N.to_nat x) = Some c.
Inductive hexadecimal : N -> list N -> Prop :=
| hx_digit x c : hex x c -> hexadecimal x [c]
| hx_more n s x c : n <> 0%N -> hexadecimal n s -> hex x c -> hexadecimal (16 * n + x) (s ++ [c]).

Definition letter (c : N) : Prop := (65 <= c <= 90)%N \/ (97 <= c <= 122)%N.
Definition identifier (s : list N) : Prop :=
  exists c r, s = c :: r /\ letter c /\ Forall (fun x => letter x \/ digit x \/ x = 95%N) r.

Section Notation.
  Context `{U : Unicode} `{F : Floats}.

  (** Characters in quotes: control characters, quotes and backslashes are escaped,
      other characters stand for themselves if they can be seen, and otherwise are
      given by number; so are marks that would change the opening quote. *)
  Definition control : list (N * string) := [(0, "0"); (9, "t"); (13, "r"); (10, "n")]%N.
  Definition marked : list N := [34; 39; 92]%N.
  Definition plain (first : bool) (c : N) : Prop :=
    printable c = true /\ (first = true -> grapheme_extend c = false).
  Inductive escaped (first : bool) : N -> list N -> Prop :=
  | ec_control c x : In (c, x) control -> escaped first c (92%N :: L x)
  | ec_marked c : In c marked -> escaped first c [92%N; c]
  | ec_plain c : ~ In c (map fst control ++ marked) -> plain first c -> escaped first c [c]
  | ec_number c x : ~ In c (map fst control ++ marked) -> ~ plain first c -> hexadecimal c x ->
      escaped first c (L "\u{" ++ x ++ L "}").
  Inductive quoted (q : N) : list N -> list N -> Prop :=
  | qu_nil : quoted q [] [q; q]
  | qu_cons c r x ys : escaped true c x -> Forall2 (escaped false) r ys -> quoted q (c :: r) (q :: x ++ concat ys ++ [q]).
  Inductive name_text (n : list N) : list N -> Prop :=
  | nt_identifier : identifier n -> name_text n n
  | nt_quoted s : ~ identifier n -> quoted 34 n s -> name_text n s.

  (** ** References to declarations *)

  (** Another declaration of the kind has a name of some sort. *)
  Definition another (e : exts) (k : kind) (a : N) (P : list N -> Prop) : Prop :=
    exists a' u n, a' <> a /\ decl_get e k a' = Some (u, n) /\ P n.
  (** If anchors are shown where required: a function is written by its base name if no
      other function has it; otherwise by its name, and by its anchor as well if another
      function has the same name, or if the name is a base name. *)
  Inductive reference_text (op : options) (e : exts) : kind -> N -> list N -> Prop :=
  | rt_always k a u n x : op_anchors op = VAlways -> decl_get e k a = Some (u, n) -> numeral (Z.of_N a) x ->
      reference_text op e k a (n ++ L "#" ++ x)
  | rt_never k a u n b : op_anchors op = VNever -> decl_get e k a = Some (u, n) -> base_name n b ->
      reference_text op e k a b
  | rt_base a u n b : op_anchors op = VRequired -> decl_get e KFunction a = Some (u, n) -> base_name n b ->
      ~ another e KFunction a (fun m => base_name m b) -> reference_text op e KFunction a b
  | rt_name a u n b : op_anchors op = VRequired -> decl_get e KFunction a = Some (u, n) -> base_name n b ->
      another e KFunction a (fun m => base_name m b) -> n <> b -> ~ another e KFunction a (eq n) ->
      reference_text op e KFunction a n
  | rt_anchor a u n b x : op_anchors op = VRequired -> decl_get e KFunction a = Some (u, n) -> base_name n b ->
      another e KFunction a (fun m => base_name m b) -> n = b \/ another e KFunction a (eq n) -> numeral (Z.of_N a) x ->
      reference_text op e KFunction a (n ++ L "#" ++ x)
  | rt_type k a u n b : k <> KFunction -> op_anchors op = VRequired -> decl_get e k a = Some (u, n) -> base_name n b ->
      ~ another e k a (eq n) -> reference_text op e k a b
  | rt_type_anchor k a u n b x : k <> KFunction -> op_anchors op = VRequired -> decl_get e k a = Some (u, n) ->
      base_name n b -> another e k a (eq n) -> numeral (Z.of_N a) x -> reference_text op e k a (b ++ L "#" ++ x).

  (** ** Types *)

  Inductive null_text : nullability -> list N -> Prop :=
  | nl_nullable : null_text NNullable (L "?")
  | nl_required : null_text NRequired [].
  Inductive variation_text (op : options) (e : exts) : N -> list N -> Prop :=
  | va_none : variation_text op e 0 []
  | va_some v s : v <> 0%N -> reference_text op e KTypeVariation v s -> variation_text op e v (L "[" ++ s ++ L "]").
  Definition listed (ss : list (list N)) : list N := join (L ", ") ss.
  Definition of_text (ps : list (list N)) : list N := if ps then [] else L "<" ++ listed ps ++ L ">".
  (** A word, marks for nullability and variation, and parameters. *)
  Definition type_form (op : options) (e : exts) (word : list N) (n : nullability) (v : N) (ps : list (list N)) (s : list N) : Prop :=
    exists q w, null_text n q /\ variation_text op e v w /\ s = word ++ q ++ w ++ of_text ps.

  Definition precision_words : list (preck * string) :=
    [(PkTime, "precisiontime"); (PkTimestamp, "precisiontimestamp"); (PkTimestampTz, "precisiontimestamptz")].
  Definition length_words : list (lenk * string) :=
    [(LkFixedChar, "fixedchar"); (LkVarchar, "varchar"); (LkFixedBinary, "fixedbinary")].
  Inductive type_text (op : options) (e : exts) : ptype -> list N -> Prop :=
  | ty_simple w k n v s : In (w, k) type_words -> type_form op e (L w) n v [] s -> type_text op e (TSimple k n v) s
  | ty_precision k w p x n v s : In (k, w) precision_words -> numeral p x -> type_form op e (L w) n v [x] s ->
      type_text op e (TPrec k p n v) s
  | ty_interval_day p x n v s : numeral (match p with Some p => p | None => 6 end) x ->
      type_form op e (L "interval_day") n v [x] s -> type_text op e (TIntervalDay p n v) s
  | ty_interval_compound p x n v s : numeral p x -> type_form op e (L "interval_compound") n v [x] s ->
      type_text op e (TIntervalCompound p n v) s
  | ty_length k w l x n v s : In (k, w) length_words -> numeral l x -> type_form op e (L w) n v [x] s ->
      type_text op e (TLen k l n v) s
  | ty_decimal p sc x y n v s : numeral p x -> numeral sc y -> type_form op e (L "decimal") n v [x; y] s ->
      type_text op e (TDecimal p sc n v) s
  | ty_struct ts xs n v s : Forall2 (type_text op e) ts xs -> type_form op e (L "struct") n v xs s ->
      type_text op e (TStruct ts n v) s
  | ty_list t x n v s : type_text op e t x -> type_form op e (L "list") n v [x] s -> type_text op e (TList (Some t) n v) s
  | ty_map t t' x y n v s : type_text op e t x -> type_text op e t' y -> type_form op e (L "map") n v [x; y] s ->
      type_text op e (TMap (Some t) (Some t') n v) s
  | ty_user r ps w xs n v s : reference_text op e KType r w -> Forall2 (param_text op e) ps xs -> type_form op e w n v xs s ->
      type_text op e (TUser r ps n v) s
  | ty_reference r w : reference_text op e KType r w -> type_text op e (TUserRef r) w
  with param_text (op : options) (e : exts) : pparam -> list N -> Prop :=
  | pa_true : param_text op e (PBool true) (L "true")
  | pa_false : param_text op e (PBool false) (L "false")
  | pa_type t s : type_text op e t s -> param_text op e (PType t) s
  | pa_enum s : param_text op e (PEnum s) s
  | pa_integer z s : numeral z s -> param_text op e (PInt z) s
  | pa_string s : param_text op e (PStr s) s
  | pa_null : param_text op e PNull (L "null").

  (** ** Literals *)

  (** Years from 0 to 9999 in four digits, others with a sign. *)
  Inductive year_written : Z -> list N -> Prop :=
  | yw_plain y s : (0 <= y <= 9999)%Z -> padded 4 y s -> year_written y s
  | yw_after y s : (9999 < y)%Z -> padded 4 y s -> year_written y (43%N :: s)
  | yw_before y s : (y < 0)%Z -> padded 4 (- y) s -> year_written y (45%N :: s).
  Definition date_written (d : date) (s : list N) : Prop :=
    exists ys ms ds, year_written (d_year d) ys /\ padded 2 (d_month d) ms /\ padded 2 (d_day d) ds
      /\ s = ys ++ L "-" ++ ms ++ L "-" ++ ds /\ (-262143 <= d_year d <= 262142)%Z.
  (** A number of units of [10^-p] seconds as a time of the day, with [p] decimals. *)
  Definition time_written (p v : Z) (t : list N) : Prop :=
    exists h m s f hs ms ss fs, (v = ((h * 60 + m) * 60 + s) * 10 ^ p + f)%Z
      /\ (0 <= h <= 23 /\ 0 <= m <= 59 /\ 0 <= s <= 59 /\ 0 <= f < 10 ^ p)%Z
      /\ padded 2 h hs /\ padded 2 m ms /\ padded 2 s ss
      /\ (p = 0%Z /\ fs = [] \/ exists x, p <> 0%Z /\ padded (Z.to_nat p) f x /\ fs = L "." ++ x)
      /\ t = hs ++ L ":" ++ ms ++ L ":" ++ ss ++ fs.
  Definition moment_written (p v : Z) (t : list N) : Prop :=
    exists d n w a b, day_number d n /\ v = (n * (86400 * 10 ^ p) + w)%Z /\ date_written d a /\ time_written p w b
      /\ t = a ++ L "T" ++ b.
  (** Durations: days, seconds and smaller units, those that are not zero. *)
  Inductive part (unit : string) : Z -> list (list N) -> Prop :=
  | pt_zero : part unit 0 []
  | pt_some z x : z <> 0%Z -> numeral z x -> part unit z [x ++ L unit].
  Definition units_of (i : interval) : Z * Z :=
    match iv_mode i with
    | Some (IvPrecision p) => (p, iv_sub i)
    | Some (IvMicroseconds us) => (6, us)%Z
    | None => (6, iv_sub i)%Z
    end.
  Definition duration_written (i : interval) (t : list N) : Prop :=
    exists p z u a b c, units_of i = (p, z) /\ In p [0; 3; 6; 9; 12]%Z /\ (z = 0%Z \/ In (p, u) unit_text)
      /\ (- 3650000 <= iv_days i <= 3650000)%Z /\ (Z.abs (iv_days i * 86400 + iv_secs i) <= 3650000 * 86400)%Z
      /\ (Z.abs z < 10 ^ p)%Z
      /\ part "d" (iv_days i) a /\ part "s" (iv_secs i) b /\ part u z c
      /\ t = (if a ++ b ++ c then L "0s" else join (L " ") (a ++ b ++ c)).

  Definition byte_text (n : N) (s : list N) : Prop :=
    exists x y c d, hex x c /\ hex y d /\ (n mod 256 = 16 * x + y)%N /\ s = [c; d].
  Inductive value_text (op : options) : litval -> list N -> Prop :=
  | vt_true : value_text op (LBool true) (L "true")
  | vt_false : value_text op (LBool false) (L "false")
  | vt_i8 z s : numeral z s -> value_text op (LI8 z) s
  | vt_i16 z s : numeral z s -> value_text op (LI16 z) s
  | vt_i32 z s : numeral z s -> value_text op (LI32 z) s
  | vt_i64 z s : numeral z s -> value_text op (LI64 z) s
  | vt_fp32 f : value_text op (LFp32 f) (show32 f)
  | vt_fp64 f : value_text op (LFp64 f) (show64 f)
  | vt_string x s : quoted 39 x s -> value_text op (LString x) s
  | vt_bytes b ss : op_binaries op = true -> Forall2 byte_text b ss -> value_text op (LBinary b) (L "0x" ++ concat ss)
  | vt_binary b : op_binaries op = false -> value_text op (LBinary b) (L "{binary}")
  | vt_date z d x s : day_number d z -> date_written d x -> quoted 39 x s -> value_text op (LDate z) s
  | vt_time v x s : time_written 6 v x -> quoted 39 x s -> value_text op (LTime v) s
  | vt_timestamp v x s : moment_written 6 v x -> quoted 39 x s -> value_text op (LTimestamp v) s
  | vt_precision_time p v x s : In p [0; 3; 6; 9]%Z -> time_written p v x -> quoted 39 x s -> value_text op (LPrecisionTime p v) s
  | vt_precision_timestamp p v x s : In p [0; 3; 6; 9]%Z -> moment_written p v x -> quoted 39 x s ->
      value_text op (LPrecisionTimestamp p v) s
  | vt_precision_timestamp_tz p v x s : In p [0; 3; 6; 9]%Z -> moment_written p v x -> quoted 39 x s ->
      value_text op (LPrecisionTimestampTz p v) s
  | vt_interval i x s : duration_written i x -> quoted 39 x s -> value_text op (LInterval i) s.
  (** Types of literals are shown always, never, or where the text does not tell them;
      those of nulls always. *)
  Definition type_shown (op : options) (l : literal) : Prop :=
    match op_literal_types op with VAlways => True | VRequired => untyped l = false | VNever => False end.
  Inductive literal_text (op : options) (e : exts) : literal -> list N -> Prop :=
  | lt_null t n w s : type_text op e t s -> literal_text op e (mk_lit (Some (LNull t)) n w) (L "null:" ++ s)
  | lt_typed v n w x t s : type_shown op (mk_lit (Some v) n w) -> value_text op v x ->
      literal_type (mk_lit (Some v) n w) = Some t -> type_text op e t s -> literal_text op e (mk_lit (Some v) n w) (x ++ L ":" ++ s)
  | lt_untyped v n w x : ~ type_shown op (mk_lit (Some v) n w) -> value_text op v x ->
      literal_text op e (mk_lit (Some v) n w) x.

  (** ** Expressions *)

  Inductive behavior_text : Z -> list N -> Prop :=
  | be_none : behavior_text 0 []
  | be_null : behavior_text 1 (L "?")
  | be_throw : behavior_text 2 (L "!").
  Definition option_text (o : fn_option) : list N := fo_name o ++ [8658%N] ++ L "[" ++ listed (fo_prefs o) ++ L "]".
  Inductive expr_text (op : options) (e : exts) : pexpr -> list N -> Prop :=
  | xt_literal l s : literal_text op e l s -> expr_text op e (ELit l) s
  | xt_column i c s : numeral i s -> expr_text op e (ESel (mk_fieldref (RefDirect (SegField i c)) RootRef)) (L "$" ++ s)
  | xt_call r args opts t f xs y : reference_text op e KFunction r f -> Forall2 (arg_text op e) args xs -> type_text op e t y ->
      expr_text op e (EFunc r args opts (Some t)) (f ++ L "(" ++ listed (xs ++ map option_text opts) ++ L "):" ++ y)
  | xt_if conds vals x cs vs s : Forall2 (expr_text op e) conds cs -> Forall2 (expr_text op e) vals vs -> expr_text op e x s ->
      length conds = length vals ->
      expr_text op e (EIf (combine (map Some conds) (map Some vals)) (Some x))
        (L "if_then(" ++ listed (map (fun p => fst p ++ L " -> " ++ snd p) (combine cs vs ++ [(L "_", s)])) ++ L ")")
  | xt_cast b m x s t y : expr_text op e x s -> behavior_text b m -> type_text op e t y ->
      expr_text op e (ECast b (Some x) (Some t)) (L "(" ++ s ++ L ")::" ++ m ++ y)
  with arg_text (op : options) (e : exts) : parg -> list N -> Prop :=
  | at_type t s : type_text op e t s -> arg_text op e (AType t) s
  | at_value x s : expr_text op e x s -> arg_text op e (AValue x) s
  | at_enum n s : name_text n s -> arg_text op e (AEnum n) (L "&" ++ s).
  (** Aggregate functions are written as calls: neither phase nor invocation is shown. *)
  Definition measure_text (op : options) (e : exts) (a : aggfn) (s : list N) : Prop :=
    exists f xs t y, reference_text op e KFunction (af_ref a) f /\ Forall2 (arg_text op e) (af_args a) xs
      /\ af_out a = Some t /\ type_text op e t y
      /\ s = f ++ L "(" ++ listed (xs ++ map option_text (af_opts a)) ++ L "):" ++ y.
End Notation.
