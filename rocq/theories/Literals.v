(** Literals: proto values, writing, reading. *)
From Coq Require Import String List NArith ZArith Bool.
From Verif Require Import Base Peg Names SimpleExt Out Anchors Types Calendar.
Import ListNotations.
Open Scope peg_scope.

(** ** Precisions *)

(** [SupportedPrecision], src/precision.rs l.16-22. *)
Inductive sprec := PSec | PMilli | PMicro | PNano | PPico.
(** [units], l.26-34; [from_units], l.37-46. *)
Definition prec_units (p : sprec) : Z :=
  match p with PSec => 0 | PMilli => 3 | PMicro => 6 | PNano => 9 | PPico => 12 end.
Definition prec_of_units (z : Z) : option sprec :=
  if (z =? 0)%Z then Some PSec else if (z =? 3)%Z then Some PMilli else if (z =? 6)%Z then Some PMicro
  else if (z =? 9)%Z then Some PNano else if (z =? 12)%Z then Some PPico else None.
(** [subsecond_unit], l.51-59; [from_subsecond_unit], l.62-70. *)
Definition prec_unit (p : sprec) : option (list N) :=
  match p with
  | PSec => None
  | PMilli => Some (L "ms") | PMicro => Some (L "us") | PNano => Some (L "ns") | PPico => Some (L "ps")
  end.
Definition prec_of_unit (s : list N) : option sprec :=
  if streqb s (L "ms") then Some PMilli else if streqb s (L "us") then Some PMicro
  else if streqb s (L "ns") then Some PNano else if streqb s (L "ps") then Some PPico else None.

(** ** Proto literals *)

(** Floating point numbers are their bit patterns; [show64]/[show32] are Rust's
    [Display], [read64] is [str::parse::<f64>] and [to32] is [as f32]. *)
Class Floats := {
  show64 : N -> list N;
  show32 : N -> list N;
  read64 : list N -> N;
  to32 : N -> N
}.

(** [IntervalDayToSecond] and its [PrecisionMode]. *)
Inductive ivmode := IvPrecision (p : Z) | IvMicroseconds (us : Z).
Record interval := mk_interval { iv_days : Z; iv_secs : Z; iv_sub : Z; iv_mode : option ivmode }.

(** [literal::LiteralType].  [LOther] stands for the variants the formatter does
    not implement, by name; their contents are dropped. *)
Inductive litval :=
| LBool (b : bool)
| LI8 (z : Z) | LI16 (z : Z) | LI32 (z : Z) | LI64 (z : Z)
| LFp32 (f : N) | LFp64 (f : N)
| LString (s : list N)
| LBinary (b : list N)
| LDate (days : Z)
| LTime (us : Z)
| LTimestamp (us : Z)
| LInterval (i : interval)
| LPrecisionTime (prec value : Z)
| LPrecisionTimestamp (prec value : Z)
| LPrecisionTimestampTz (prec value : Z)
| LNull (t : ptype)
| LOther (variant : string).

(** [expression::Literal]. *)
Record literal := mk_lit { l_type : option litval; l_nullable : bool; l_var : N }.

(** ** Writing *)

(** Two lower-case hexadecimal digits. *)
Definition hex2 (n : N) : list N := [hex_digit (n / 16 mod 16)%N; hex_digit (n mod 16)%N].

(** [textify_binary], src/textify/expressions.rs l.32-42. *)
Definition binary_text (op : options) (b : list N) : list N :=
  if op_binaries op then L "0x" ++ concat (map hex2 b) else L "{binary}".

Definition bad_literal : ferr := FPlan FInvalid "LiteralType".

(** [days_to_date_string], l.119-123: [None] where the addition panics. *)
Definition days_to_date_string (days : Z) : option (list N) :=
  option_map show_date (date_of_days_opt days).

(** [PrecisionFormatError], l.61-68. *)
Inductive prec_error := UnsupportedPrecision | OutOfRange.

(** A [chrono::Duration] is its number of nanoseconds;
    [duration_from_precision_units], l.127-139. *)
Definition duration_from_units (value prec : Z) : res prec_error Z :=
  if (prec =? 0)%Z then
    if in_range (- (i64_max / 1000)) (i64_max / 1000) value then Ok (value * 1000000000)%Z else Err OutOfRange
  else if (prec =? 3)%Z then
    if (i64_min <? value)%Z then Ok (value * 1000000)%Z else Err OutOfRange
  else if (prec =? 6)%Z then Ok (value * 1000)%Z
  else if (prec =? 9)%Z then Ok value
  else if (prec =? 12)%Z then Ok (Z.quot value 1000)
  else Err UnsupportedPrecision.

(** [fractional_spec], l.145-152, as the number of digits. *)
Definition fractional_digits (prec : Z) : nat :=
  if (prec =? 3)%Z then 3 else if (prec =? 6)%Z then 6
  else if (prec =? 9)%Z || (prec =? 12)%Z then 9 else 0.

Definition nanos_per_day : Z := (86400 * nano_per_sec)%Z.

(** [precision_timestamp_to_string], l.156-168. *)
Definition timestamp_to_string (value prec : Z) : res prec_error (list N) :=
  let? d := duration_from_units value prec in
  match date_of_days_opt (d / nanos_per_day) with
  | Some date =>
      Ok (show_date date ++ L "T" ++ show_hms (d mod nanos_per_day / nano_per_sec)
          ++ show_frac (fractional_digits prec) (d mod nano_per_sec))
  | None => Err OutOfRange
  end.

(** [precision_time_to_string], l.178-191. *)
Definition time_to_string (value prec : Z) : res prec_error (list N) :=
  if (value <? 0)%Z then Err OutOfRange
  else
    let? d := duration_from_units value prec in
    if (nanos_per_day <=? d)%Z then Err OutOfRange
    else Ok (show_hms (d / nano_per_sec) ++ show_frac (fractional_digits prec) (d mod nano_per_sec)).

Section Write.
  Context `{Unicode} `{Floats}.

  (** [write_precision_literal], l.94-110; the description of the failure is not
      modelled. *)
  Definition prec_literal_out (prec : Z) (r : res prec_error (list N)) : out :=
    match r with
    | Ok s => (if (prec =? 12)%Z then opush bad_literal else onil) +++ txt (show_string s)
    | _ => ofail bad_literal
    end.

  (** [interval_day_precision_units], l.200-207. *)
  Definition interval_units (i : interval) : Z * Z :=
    match iv_mode i with
    | Some (IvPrecision p) => (p, iv_sub i)
    | Some (IvMicroseconds us) => (6, us)%Z
    | None => (6, iv_sub i)%Z
    end.

  Definition max_interval_days : Z := 3650000.

  (** The terms of the duration text, l.249-292; [None] where there is no unit
      for the sub-seconds. *)
  Definition interval_parts (i : interval) (p : sprec) (sub : Z) : option (list (list N)) :=
    let base :=
      (if (iv_days i =? 0)%Z then [] else [show_Z (iv_days i) ++ L "d"])
      ++ (if (iv_secs i =? 0)%Z then [] else [show_Z (iv_secs i) ++ L "s"]) in
    if (sub =? 0)%Z then Some base
    else match prec_unit p with
         | Some u => Some (base ++ [show_Z sub ++ u])
         | None => None
         end.
  Definition interval_text (parts : list (list N)) : list N :=
    match parts with
    | [] => L "0s"
    | _ => join (L " ") parts
    end.

  (** [write_interval_day_to_second_literal], l.209-302. *)
  Definition interval_out (i : interval) : out :=
    let (units, sub) := interval_units i in
    match prec_of_units units with
    | None => ofail bad_literal
    | Some p =>
        let total := (iv_days i * 86400 + iv_secs i)%Z in
        (if in_range (- max_interval_days) max_interval_days (iv_days i)
            && in_range (- max_interval_days * 86400) (max_interval_days * 86400) total
         then onil else opush bad_literal)
        +++ match interval_parts i p sub with
            | None => ofail bad_literal
            | Some parts =>
                (if negb (sub =? 0)%Z && (10 ^ prec_units p <=? Z.abs sub)%Z
                 then opush bad_literal else onil)
                +++ txt (show_string (interval_text parts))
            end
    end.

  (** [write_literal_value], l.308-380. *)
  Definition litval_out (op : options) (l : litval) : out :=
    match l with
    | LBool b => txt (if b then L "true" else L "false")
    | LI8 z | LI16 z | LI32 z | LI64 z => txt (show_Z z)
    | LFp32 f => txt (show32 f)
    | LFp64 f => txt (show64 f)
    | LString s => txt (show_string s)
    | LBinary b => txt (binary_text op b)
    | LDate days =>
        match days_to_date_string days with
        | Some s => txt (show_string s)
        | None => opanic "NaiveDate + TimeDelta overflowed"
        end
    | LTime us => prec_literal_out 6 (time_to_string us 6)
    | LTimestamp us => prec_literal_out 6 (timestamp_to_string us 6)
    | LInterval i => interval_out i
    | LPrecisionTime p v => prec_literal_out p (time_to_string v p)
    | LPrecisionTimestamp p v | LPrecisionTimestampTz p v => prec_literal_out p (timestamp_to_string v p)
    | LNull _ => txt (L "null")
    | LOther _ => ofail (FPlan FUnimplemented "LiteralType")
    end.

  (** The name and precision of [write_literal_type_suffix], l.395-423. *)
  Definition suffix_parts (l : litval) : option (list N * option Z) :=
    match l with
    | LBool _ => Some (L "boolean", None)
    | LI8 _ => Some (L "i8", None)
    | LI16 _ => Some (L "i16", None)
    | LI32 _ => Some (L "i32", None)
    | LI64 _ => Some (L "i64", None)
    | LFp32 _ => Some (L "fp32", None)
    | LFp64 _ => Some (L "fp64", None)
    | LString _ => Some (L "string", None)
    | LBinary _ => Some (L "binary", None)
    | LDate _ => Some (L "date", None)
    | LTime _ => Some (L "time", None)
    | LTimestamp _ => Some (L "timestamp", None)
    | LPrecisionTimestamp p _ => Some (L "precisiontimestamp", Some p)
    | LPrecisionTimestampTz p _ => Some (L "precisiontimestamptz", Some p)
    | LPrecisionTime p _ => Some (L "precisiontime", Some p)
    | LInterval i => Some (L "interval_day", Some (fst (interval_units i)))
    | _ => None
    end.
  (** [write_literal_type_suffix], l.390-431. *)
  Definition suffix_text (l : litval) (nullable : bool) : list N :=
    match suffix_parts l with
    | Some (name, prec) =>
        L ":" ++ name ++ (if nullable then L "?" else [])
        ++ match prec with Some p => L "<" ++ show_Z p ++ L ">" | None => [] end
    | None => []
    end.

  (** [is_default_for_syntax], l.445-454. *)
  Definition is_default_for_syntax (l : litval) : bool :=
    match l with
    | LBool _ | LString _ | LBinary _ | LI64 _ | LFp64 _ => true
    | _ => false
    end.

  (** [Literal::textify], l.456-488. *)
  Definition literal_out (op : options) (e : exts) (l : literal) : out :=
    match l_type l with
    | None => ofail (FPlan FInvalid "Literal")
    | Some v =>
        litval_out op v
        +++ match v with
            | LNull t => txt (L ":") +++ type_out op e t
            | _ =>
                let show := match op_literal_types op with
                            | VNever => false
                            | VAlways => true
                            | VRequired => l_nullable l || negb (is_default_for_syntax v)
                            end in
                if show then txt (suffix_text v (l_nullable l)) else onil
            end
    end.
End Write.

(** ** Grammar *)

(** The value of [expression_literal], grammar l.58, as its text. *)
Inductive litc := CFloat (s : list N) | CInt (s : list N) | CBool (s : list N) | CStr (s : list N) | CNull.
Definition g_litval : peg litc :=
  pmap CFloat g_float <|> pmap CInt g_integer <|> pmap CBool g_boolean
  <|> pmap CStr g_string_literal <|> pmap (fun _ => CNull) g_null.
(** [expression_literal], grammar l.58. *)
Definition g_literal : peg (litc * option tcst) :=
  v <- g_litval ;; t <- popt (ptok (L ":") ;;; sp ;;; g_type) ;; pret (v, t).

(** [interval_day_duration] and its terms, grammar l.432-446. *)
Definition g_duration_days : peg (list N) := i <- g_integer ;; ptok (L "d") ;;; pret i.
Definition g_duration_seconds : peg (list N) := i <- g_integer ;; ptok (L "s") ;;; pret i.
Definition g_duration_subseconds : peg (list N * list N) :=
  i <- g_integer ;; u <- ptoks [L "ms"; L "us"; L "ns"; L "ps"] ;; pret (i, u).
Definition durc : Type := option (list N) * option (list N) * option (list N * list N).
Definition g_interval_duration : peg durc :=
  r <- ((d <- g_duration_days ;;
         s <- popt (ptok (L " ") ;;; g_duration_seconds) ;;
         u <- popt (ptok (L " ") ;;; g_duration_subseconds) ;;
         pret (Some d, s, u))
        <|> (s <- g_duration_seconds ;;
             u <- popt (ptok (L " ") ;;; g_duration_subseconds) ;;
             pret (None, Some s, u))
        <|> (u <- g_duration_subseconds ;; pret (None, None, Some u))) ;;
  peoi ;;; pret r.

(** ** Reading *)

(** [nullability != Required]. *)
Definition nullable_of (n : nullability) : bool :=
  match n with NRequired => false | _ => true end.

(** [parse_date_to_days], src/parser/expressions.rs l.365-383. *)
Definition parse_date_to_days (s : list N) : pres Z :=
  match first_match [scan_date 45; scan_date 47] s with
  | Some d => Ok (wrap_i32 (days_of_date d))
  | None => Err (PInvalid "date_parse_format")
  end.

(** [check_supported_precision], l.466-490. *)
Definition check_supported_precision (p : Z) : pres sprec :=
  match prec_of_units p with
  | Some PPico => Err (PInvalid "precision_literal_unsupported_precision")
  | Some p => Ok p
  | None => Err (PInvalid "precision_literal_invalid_precision")
  end.

(** [duration_to_precision_units], l.402-464. *)
Definition duration_to_units (d : Z) (p : sprec) : pres Z :=
  let exact (unit : Z) :=
    if (Z.quot d unit * unit =? d)%Z then Ok (Z.quot d unit)
    else Err (PInvalid "precision_literal_fractional_truncated") in
  match p with
  | PSec => exact 1000000000%Z
  | PMilli => exact 1000000%Z
  | PMicro =>
      if in_range i64_min i64_max (Z.quot d 1000) then exact 1000%Z
      else Err (PInvalid "precision_literal_out_of_range")
  | PNano => if in_range i64_min i64_max d then Ok d else Err (PInvalid "precision_literal_out_of_range")
  | PPico => Err (PInvalid "precision_literal_unsupported_precision")
  end.

(** A date and a time with one of the separators of the timestamp formats; the
    space of a format stands for any white space. *)
Definition scan_datetime (sep : N) (t : bool) (frac : bool) : peg (date * time) :=
  d <- scan_date sep ;;
  (if t then ptok (L "T") else scan_skip) ;;;
  x <- scan_time frac ;;
  pret (d, x).

(** [datetime.signed_duration_since(epoch)] and [time.signed_duration_since(midnight)]. *)
Definition time_nanos (t : time) : Z := (t_secs t * nano_per_sec + t_nano t)%Z.
Definition datetime_nanos (x : date * time) : Z :=
  (days_of_date (fst x) * nanos_per_day + time_nanos (snd x))%Z.

(** [parse_timestamp_to_precision_units], l.493-528. *)
Definition timestamp_formats : list (peg (date * time)) :=
  [scan_datetime 45 true true; scan_datetime 45 true false;
   scan_datetime 45 false true; scan_datetime 45 false false;
   scan_datetime 47 true true; scan_datetime 47 true false;
   scan_datetime 47 false true; scan_datetime 47 false false].
Definition parse_timestamp (s : list N) (prec : Z) : pres Z :=
  let? p := check_supported_precision prec in
  match first_match timestamp_formats s with
  | Some x => duration_to_units (datetime_nanos x) p
  | None => Err (PInvalid "timestamp_parse_format")
  end.

(** [parse_time_to_precision_units], l.531-556. *)
Definition parse_time (s : list N) (prec : Z) : pres Z :=
  let? p := check_supported_precision prec in
  match first_match [scan_time true; scan_time false] s with
  | Some x => duration_to_units (time_nanos x) p
  | None => Err (PInvalid "time_parse_format")
  end.

(** [parse_duration_number], l.596-607, at both widths. *)
Definition duration_number (o : option Z) : pres Z :=
  match o with
  | Some z => Ok z
  | None => Err (PInvalid "interval_day_duration")
  end.

(** [parse_interval_day_duration] and [interval_day_from_pair], l.612-698. *)
Definition parse_interval (s : list N) (p : sprec) : pres interval :=
  match g_interval_duration s with
  | None => Err (PInvalid "interval_day_duration")
  | Some ((d, c, u), _) =>
      let? days := match d with Some t => duration_number (parse_i32 t) | None => Ok 0%Z end in
      let? secs := match c with Some t => duration_number (parse_i32 t) | None => Ok 0%Z end in
      let? sub :=
        match u with
        | Some (t, unit) =>
            let? q := unwrap "the grammar restricts sub-second units to ms/us/ns/ps" (prec_of_unit unit) in
            if (prec_units q =? prec_units p)%Z then duration_number (parse_i64 t)
            else Err (PInvalid "interval_day_duration")
        | None => Ok 0%Z
        end in
      Ok (mk_interval days secs sub (Some (IvPrecision (prec_units p))))
  end.

(** [to_int_literal], l.95-138. *)
Definition to_int_literal (s : list N) (t : option ptype) : pres literal :=
  let? z := unwrap "integer literal is not an i64" (parse_i64 s) in
  match t with
  | None | Some TNone => Ok (mk_lit (Some (LI64 z)) false 0)
  | Some (TSimple SI8 n v) => Ok (mk_lit (Some (LI8 (wrap_i32 z))) (nullable_of n) v)
  | Some (TSimple SI16 n v) => Ok (mk_lit (Some (LI16 (wrap_i32 z))) (nullable_of n) v)
  | Some (TSimple SI32 n v) => Ok (mk_lit (Some (LI32 (wrap_i32 z))) (nullable_of n) v)
  | Some (TSimple SI64 n v) => Ok (mk_lit (Some (LI64 z)) (nullable_of n) v)
  | Some _ => Err (PInvalid "int_literal_type")
  end.

(** [to_float_literal], l.145-177. *)
Definition to_float_literal `{Floats} (s : list N) (t : option ptype) : pres literal :=
  match t with
  | None | Some TNone => Ok (mk_lit (Some (LFp64 (read64 s))) false 0)
  | Some (TSimple SFp32 n v) => Ok (mk_lit (Some (LFp32 (to32 (read64 s)))) (nullable_of n) v)
  | Some (TSimple SFp64 n v) => Ok (mk_lit (Some (LFp64 (read64 s))) (nullable_of n) v)
  | Some _ => Err (PInvalid "float_literal_type")
  end.

(** [to_boolean_literal], l.179-203. *)
Definition to_boolean_literal (s : list N) (t : option ptype) : pres literal :=
  let b := streqb s (L "true") in
  match t with
  | None | Some TNone => Ok (mk_lit (Some (LBool b)) false 0)
  | Some (TSimple SBool n v) => Ok (mk_lit (Some (LBool b)) (nullable_of n) v)
  | Some _ => Err (PInvalid "bool_literal_type")
  end.

(** [to_string_literal], l.205-345. *)
Definition to_string_literal (s : list N) (t : option ptype) : pres literal :=
  let? x := unescape_string c_sq s in
  match t with
  | Some (TSimple SDate n v) =>
      let? d := parse_date_to_days x in Ok (mk_lit (Some (LDate d)) (nullable_of n) v)
  | Some (TIntervalDay o n v) =>
      match match o with Some p => prec_of_units p | None => None end with
      | Some p => let? i := parse_interval x p in Ok (mk_lit (Some (LInterval i)) (nullable_of n) v)
      | None => Err (PInvalid "interval_day_literal_type")
      end
  | Some (TSimple STime n v) =>
      let? z := parse_time x 6 in Ok (mk_lit (Some (LTime z)) (nullable_of n) v)
  | Some (TSimple STimestamp n v) =>
      let? z := parse_timestamp x 6 in Ok (mk_lit (Some (LTimestamp z)) (nullable_of n) v)
  | Some (TPrec PkTimestamp p n v) =>
      let? z := parse_timestamp x p in Ok (mk_lit (Some (LPrecisionTimestamp p z)) (nullable_of n) v)
  | Some (TPrec PkTimestampTz p n v) =>
      let? z := parse_timestamp x p in Ok (mk_lit (Some (LPrecisionTimestampTz p z)) (nullable_of n) v)
  | Some (TPrec PkTime p n v) =>
      let? z := parse_time x p in Ok (mk_lit (Some (LPrecisionTime p z)) (nullable_of n) v)
  | _ => Ok (mk_lit (Some (LString x)) false 0)
  end.

(** [to_null_literal], l.347-362. *)
Definition to_null_literal (t : option ptype) : pres literal :=
  match t with
  | Some t => Ok (mk_lit (Some (LNull t)) false 0)
  | None => Err (PInvalid "null_literal_type")
  end.

(** [Literal::parse_pair], l.702-733. *)
Definition lower_literal `{Floats} (e : exts) (c : litc * option tcst) : pres literal :=
  let? t := match snd c with
            | Some t => rmap Some (lower_type e t)
            | None => Ok None
            end in
  match fst c with
  | CInt s => to_int_literal s t
  | CFloat s => to_float_literal s t
  | CBool s => to_boolean_literal s t
  | CStr s => to_string_literal s t
  | CNull => to_null_literal t
  end.
