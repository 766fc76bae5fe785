(** Specification vocabulary for literals. *)
From Coq Require Import String List NArith ZArith Bool.
From Verif Require Import Base Names SpecNames SimpleExt Out Types SpecTypes Calendar Literals.
Import ListNotations.
Open Scope Z_scope.

(** What the Unicode tables say about printable ASCII. *)
Definition ascii_sane (U : Unicode) : Prop :=
  forall c, (32 <= c <= 126)%N -> printable c = true /\ grapheme_extend c = false.

(** ** The Gregorian calendar *)

Definition month_length (y m : Z) : Z :=
  if m =? 2 then
    if (y mod 400 =? 0) || ((y mod 4 =? 0) && negb (y mod 100 =? 0)) then 29 else 28
  else if (m =? 4) || (m =? 6) || (m =? 9) || (m =? 11) then 30
  else 31.

(** The day after a date. *)
Definition next_date (d : date) : date :=
  if d_day d <? month_length (d_year d) (d_month d) then mk_date (d_year d) (d_month d) (d_day d + 1)
  else if d_month d <? 12 then mk_date (d_year d) (d_month d + 1) 1
  else mk_date (d_year d + 1) 1 1.

(** First and last day number of the supported range. *)
Definition first_day : Z := -96465292.
Definition last_day : Z := 95026236.

(** ** Precisions *)

Definition supported (p : Z) : bool := (p =? 0) || (p =? 3) || (p =? 6) || (p =? 9) || (p =? 12).
(** A count of [10^-p] seconds within one day. *)
Definition within_day (p v : Z) : bool := (0 <=? v) && (v <? 86400 * 10 ^ p).
(** A count of [10^-p] seconds since the epoch within the supported range of dates. *)
Definition within_calendar (p v : Z) : bool :=
  (first_day * 86400 * 10 ^ p <=? v) && (v <? (last_day + 1) * 86400 * 10 ^ p).

(** ** Literals the text format can carry *)

(** The type written after a value. *)
Definition value_type (v : litval) (n : nullability) : option ptype :=
  match v with
  | LBool _ => Some (TSimple SBool n 0)
  | LI8 _ => Some (TSimple SI8 n 0)
  | LI16 _ => Some (TSimple SI16 n 0)
  | LI32 _ => Some (TSimple SI32 n 0)
  | LI64 _ => Some (TSimple SI64 n 0)
  | LFp32 _ => Some (TSimple SFp32 n 0)
  | LFp64 _ => Some (TSimple SFp64 n 0)
  | LString _ => Some (TSimple SString n 0)
  | LDate _ => Some (TSimple SDate n 0)
  | LTime _ => Some (TSimple STime n 0)
  | LTimestamp _ => Some (TSimple STimestamp n 0)
  | LPrecisionTime p _ => Some (TPrec PkTime p n 0)
  | LPrecisionTimestamp p _ => Some (TPrec PkTimestamp p n 0)
  | LPrecisionTimestampTz p _ => Some (TPrec PkTimestampTz p n 0)
  | LInterval i =>
      match iv_mode i with
      | Some (IvPrecision p) => Some (TIntervalDay (Some p) n 0)
      | _ => None
      end
  | _ => None
  end.

(** Digits, a point and digits, with an optional minus sign. *)
Definition is_float_text (s : list N) : bool :=
  let body := match s with c :: r => if (c =? 45)%N then r else s | [] => s end in
  match split_at_char 46 body with
  | Some (a, b) =>
      negb (Nat.eqb (length a) 0) && forallb is_digit a && negb (Nat.eqb (length b) 0) && forallb is_digit b
  | None => false
  end.

(** A value the fields of the message can hold and the text can carry. *)
Definition value_ok `{Unicode} `{Floats} (e : exts) (v : litval) (nullable : bool) : bool :=
  match v with
  | LBool _ => true
  | LI8 z | LI16 z | LI32 z => in_range i32_min i32_max z
  | LI64 z => in_range i64_min i64_max z
  | LFp32 f => is_float_text (show32 f) && (to32 (read64 (show32 f)) =? f)%N
  | LFp64 f => is_float_text (show64 f) && (read64 (show64 f) =? f)%N
  | LString s => str_ok s && negb nullable
  | LDate d => in_range first_day last_day d
  | LTime v => within_day 6 v
  | LTimestamp v => in_range i64_min i64_max v && within_calendar 6 v
  | LPrecisionTime p v => supported p && negb (p =? 12) && within_day p v
  | LPrecisionTimestamp p v | LPrecisionTimestampTz p v =>
      supported p && negb (p =? 12) && in_range i64_min i64_max v && within_calendar p v
  | LInterval i =>
      match iv_mode i with
      | Some (IvPrecision p) =>
          supported p && in_range i32_min i32_max (iv_days i) && in_range i32_min i32_max (iv_secs i)
          && in_range i64_min i64_max (iv_sub i) && negb ((p =? 0) && negb (iv_sub i =? 0))
      | _ => false
      end
  | LNull t => type_ok e t && negb nullable
  | LBinary _ | LOther _ => false
  end.

Definition literal_ok `{Unicode} `{Floats} (e : exts) (l : literal) : bool :=
  match l_type l with
  | Some v => value_ok e v (l_nullable l) && (l_var l =? 0)%N
  | None => false
  end.

(** A suffix is written, or the reader supplies the type. *)
Definition type_known (op : options) (l : literal) : bool :=
  match op_literal_types op with
  | VNever =>
      match l_type l with
      | Some (LNull _) => true
      | Some v => is_default_for_syntax v && negb (l_nullable l)
      | None => false
      end
  | _ => true
  end.

(** Characters that would be taken as a continuation of a literal. *)
Definition lit_stop (c : N) : bool := type_stop c || (c =? 58)%N || (c =? 46)%N.

(** Floating point numbers for examples: a number of hundredths, and its sign in
    the lowest bit. *)
Definition toy_show (f : N) : list N :=
  (if N.odd f then L "-" else []) ++ show_N (f / 2 / 100) ++ L "." ++ pad0 2 (show_N (f / 2 mod 100)).
Definition toy_read (s : list N) : N :=
  let (sign, body) := match s with c :: r => if (c =? 45)%N then (1%N, r) else (0%N, s) | [] => (0%N, s) end in
  match split_at_char 46 body with
  | Some (a, b) =>
      (2 * (read_digits a * 100 + read_digits (firstn 2 (b ++ L "00"))) + sign)%N
  | None => 0%N
  end.
Definition toy_floats : Floats :=
  {| show64 := toy_show; show32 := toy_show; read64 := toy_read; to32 := fun f => f |}.
