(** Calendar dates, times of day and the [chrono] functions the crate calls.

    [chrono] 0.4.43 is not part of /repo; this file states the behaviour of the
    functions used there: the proleptic Gregorian calendar, the range of
    [NaiveDate], and formatting and parsing with the specifiers [%Y %m %d %H %M
    %S %.f %.3f %.6f %.9f]. *)
From Coq Require Import String List NArith ZArith Bool.
From Verif Require Import Base Peg Lines.
Import ListNotations.
Open Scope Z_scope.

(** ** Dates *)

Definition is_leap (y : Z) : bool :=
  (y mod 4 =? 0) && (negb (y mod 100 =? 0) || (y mod 400 =? 0)).

(** Lengths of the months of a year. *)
Definition month_lengths (y : Z) : list Z :=
  [31; if is_leap y then 29 else 28; 31; 30; 31; 30; 31; 31; 30; 31; 30; 31].

Record date := mk_date { d_year : Z; d_month : Z; d_day : Z }.

(** Days from 0001-01-01 to the first day of a year. *)
Definition days_before_year (y : Z) : Z :=
  365 * (y - 1) + (y - 1) / 4 - (y - 1) / 100 + (y - 1) / 400.

(** Sum of the lengths of the first months. *)
Fixpoint sum_first (n : nat) (l : list Z) : Z :=
  match n, l with
  | S n', x :: r => x + sum_first n' r
  | _, _ => 0
  end.

(** Days from 0001-01-01 to 1970-01-01. *)
Definition epoch_days : Z := 719162.

(** [date.signed_duration_since(epoch).num_days()]. *)
Definition days_of_date (d : date) : Z :=
  days_before_year (d_year d) + sum_first (Z.to_nat (d_month d - 1)) (month_lengths (d_year d))
  + d_day d - 1 - epoch_days.

(** The year and the day within it (from 0) of a day counted from 0001-01-01. *)
Definition year_of (n : Z) : Z * Z :=
  let c400 := n / 146097 in
  let r400 := n mod 146097 in
  let c100 := Z.min 3 (r400 / 36524) in
  let r100 := r400 - 36524 * c100 in
  let c4 := r100 / 1461 in
  let r4 := r100 mod 1461 in
  let c1 := Z.min 3 (r4 / 365) in
  (400 * c400 + 100 * c100 + 4 * c4 + c1 + 1, r4 - 365 * c1).

(** The month and the day within it (from 0) of a day of a year. *)
Fixpoint month_of (m : Z) (l : list Z) (d : Z) : Z * Z :=
  match l with
  | [] => (m, d)
  | x :: r => if d <? x then (m, d) else month_of (m + 1) r (d - x)
  end.

(** [epoch + Duration::days(n)], without the range check. *)
Definition date_of_days (n : Z) : date :=
  let (y, d) := year_of (n + epoch_days) in
  let (m, d) := month_of 1 (month_lengths y) d in
  mk_date y m (d + 1).

(** [NaiveDate::MIN] is -262143-01-01 and [NaiveDate::MAX] is 262142-12-31. *)
Definition min_year : Z := -262143.
Definition max_year : Z := 262142.

(** [NaiveDate::from_ymd_opt]. *)
Definition date_valid (d : date) : bool :=
  in_range min_year max_year (d_year d) && in_range 1 12 (d_month d)
  && in_range 1 (nth (Z.to_nat (d_month d - 1)) (month_lengths (d_year d)) 0) (d_day d).

Definition min_days : Z := days_of_date (mk_date min_year 1 1).
Definition max_days : Z := days_of_date (mk_date max_year 12 31).

(** [NaiveDate::checked_add_signed] from the epoch. *)
Definition date_of_days_opt (n : Z) : option date :=
  if in_range min_days max_days n then Some (date_of_days n) else None.

(** ** Times of day *)

(** A [NaiveTime]: seconds of the day and nanoseconds, where a leap second has
    [t_nano] of 1_000_000_000 or more. *)
Record time := mk_time { t_secs : Z; t_nano : Z }.

Definition nano_per_sec : Z := 1000000000.

(** ** Formatting *)

(** A number in at least [w] digits, padded with zeros. *)
Definition pad0 (w : nat) (s : list N) : list N := repeat 48%N (w - length s) ++ s.
Definition show_pad (w : nat) (z : Z) : list N := pad0 w (show_N (Z.to_N z)).

(** [%Y]: four digits for years 0 to 9999, otherwise a sign and at least four
    digits. *)
Definition show_year (y : Z) : list N :=
  if in_range 0 9999 y then show_pad 4 y
  else (if y <? 0 then 45%N else 43%N) :: show_pad 4 (Z.abs y).

(** [%Y-%m-%d]. *)
Definition show_date (d : date) : list N :=
  show_year (d_year d) ++ L "-" ++ show_pad 2 (d_month d) ++ L "-" ++ show_pad 2 (d_day d).

(** [%H:%M:%S], for a time without leap second. *)
Definition show_hms (secs : Z) : list N :=
  show_pad 2 (secs / 3600) ++ L ":" ++ show_pad 2 (secs / 60 mod 60) ++ L ":"
  ++ show_pad 2 (secs mod 60).

(** [%.3f], [%.6f], [%.9f]; [digits = 0] stands for no specifier. *)
Definition show_frac (digits : nat) (nano : Z) : list N :=
  match digits with
  | O => []
  | _ => 46%N :: show_pad digits (nano / 10 ^ (9 - Z.of_nat digits))
  end.

(** ** Parsing *)

Open Scope peg_scope.

(** Up to [n] characters of a class. *)
Fixpoint span_upto (n : nat) (f : N -> bool) (s : list N) : list N * list N :=
  match n, s with
  | S n', c :: r => if f c then let (a, b) := span_upto n' f r in (c :: a, b) else ([], s)
  | _, _ => ([], s)
  end.

(** [scan::number(s, 1, w)]; more than 63 bits is an error. *)
Definition scan_number (w : nat) : peg Z := fun s =>
  match span_upto w is_digit s with
  | ([], _) => None
  | (d, r) =>
      let z := Z.of_N (read_digits d) in
      if z <=? i64_max then Some (z, r) else None
  end.

(** [scan::number(s, 1, usize::MAX)]. *)
Definition scan_number_any : peg Z := fun s => scan_number (length s) s.

(** Numeric items skip white space first. *)
Definition scan_skip : peg unit := fun s => Some (tt, trim_start s).

(** A numeric item of width 2 with the range its [Parsed] setter accepts. *)
Definition scan_2 (lo hi : Z) : peg Z :=
  scan_skip ;;; z <- scan_number 2 ;; if in_range lo hi z then pret z else pfail.

(** [%Y]: with an explicit sign any number of digits, otherwise up to four. *)
Definition scan_year : peg Z :=
  scan_skip ;;;
  z <- ((ptok (L "-") ;;; pmap Z.opp scan_number_any)
        <|> (ptok (L "+") ;;; scan_number_any)
        <|> (pnot (ptok (L "-")) ;;; pnot (ptok (L "+")) ;;; scan_number 4)) ;;
  if in_range i32_min i32_max z then pret z else pfail.

(** [%.f]: absent, or a dot and digits of which nine count. *)
Definition scan_frac : peg Z := fun s =>
  match s with
  | c :: r =>
      if (c =? 46)%N then
        match span_upto 9 is_digit r with
        | ([], _) => None
        | (d, r') =>
            Some ((Z.of_N (read_digits d) * 10 ^ (9 - Z.of_nat (length d)))%Z,
                  snd (span is_digit r'))
        end
      else Some (0%Z, s)
  | [] => Some (0%Z, s)
  end.

(** [%Y-%m-%d] and [%Y/%m/%d], with [NaiveDate::from_ymd_opt]. *)
Definition scan_date (sep : N) : peg date :=
  y <- scan_year ;; ptok [sep] ;;; m <- scan_2 1 12 ;; ptok [sep] ;;; d <- scan_2 1 31 ;;
  if date_valid (mk_date y m d) then pret (mk_date y m d) else pfail.

(** [%H:%M:%S] followed by [%.f] or nothing.  A second of 60 is a leap second:
    the preceding second with a nanosecond part of one second or more. *)
Definition scan_time (frac : bool) : peg time :=
  h <- scan_2 0 23 ;; ptok (L ":") ;;; m <- scan_2 0 59 ;; ptok (L ":") ;;; s <- scan_2 0 60 ;;
  n <- (if frac then scan_frac else pret 0%Z) ;;
  let base := (h * 3600 + m * 60)%Z in
  pret (if (s =? 60)%Z then mk_time (base + 59) (nano_per_sec + n) else mk_time (base + s) n).

(** The whole text must be consumed. *)
Definition scan_all {A} (p : peg A) (s : list N) : option A :=
  match p s with
  | Some (a, []) => Some a
  | _ => None
  end.

(** The first format that matches. *)
Fixpoint first_match {A} (ps : list (peg A)) (s : list N) : option A :=
  match ps with
  | [] => None
  | p :: r => match scan_all p s with Some a => Some a | None => first_match r s end
  end.
