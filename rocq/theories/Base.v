(** Strings, characters, decimal integers, outcomes.

    A Rust [String] is modelled as the list of its Unicode scalar values
    ([list N]).  Byte offsets are not modelled; all uses of byte offsets in the
    source split at ASCII characters, where the two views agree. *)
From Coq Require Import Ascii String List NArith ZArith Bool.
Import ListNotations.

Notation char := N (only parsing).
Notation str := (list N) (only parsing).

(** ASCII string literals as [str]. *)
Fixpoint L (s : string) : str :=
  match s with
  | EmptyString => []
  | String c r => N_of_ascii c :: L r
  end.
Arguments L s%string.

Declare Scope str_scope.
Delimit Scope str_scope with str.

(** ** Character classes *)

(** pest's ASCII_DIGIT, ASCII_ALPHA, ASCII_ALPHANUMERIC. *)
Definition is_digit (c : char) : bool := (48 <=? c)%N && (c <=? 57)%N.
Definition is_upper (c : char) : bool := (65 <=? c)%N && (c <=? 90)%N.
Definition is_lower (c : char) : bool := (97 <=? c)%N && (c <=? 122)%N.
Definition is_alpha (c : char) : bool := is_upper c || is_lower c.
Definition is_alnum (c : char) : bool := is_alpha c || is_digit c.
Definition c_under : char := 95%N.
Definition is_idchar (c : char) : bool := is_alnum c || (c =? c_under)%N.
Definition to_lower (c : char) : char := if is_upper c then (c + 32)%N else c.

Definition c_nl : char := 10%N.
Definition c_cr : char := 13%N.
Definition c_tab : char := 9%N.
Definition c_sp : char := 32%N.
Definition c_dq : char := 34%N.
Definition c_sq : char := 39%N.
Definition c_bs : char := 92%N.

(** Equality of strings. *)
Fixpoint streqb (a b : str) : bool :=
  match a, b with
  | [], [] => true
  | x :: a', y :: b' => (x =? y)%N && streqb a' b'
  | _, _ => false
  end.

(** [hd_not f s]: [s] is empty or its first character is not in [f]. *)
Definition hd_not (f : char -> bool) (s : str) : bool :=
  match s with
  | [] => true
  | c :: _ => negb (f c)
  end.

(** Longest prefix in a class, and the rest. *)
Fixpoint span (f : char -> bool) (s : str) : str * str :=
  match s with
  | [] => ([], [])
  | c :: r => if f c then let (a, b) := span f r in (c :: a, b) else ([], s)
  end.

(** [strip_prefix p s]: Rust's [str::strip_prefix]. *)
Fixpoint strip_prefix (p s : str) : option str :=
  match p, s with
  | [], _ => Some s
  | x :: p', y :: s' => if (x =? y)%N then strip_prefix p' s' else None
  | _ :: _, [] => None
  end.

Definition starts_with (p s : str) : bool :=
  match strip_prefix p s with Some _ => true | None => false end.

(** Rust's [str::find] for one character: the text before it and after it. *)
Fixpoint split_at_char (c : char) (s : str) : option (str * str) :=
  match s with
  | [] => None
  | x :: r =>
      if (x =? c)%N then Some ([], r)
      else match split_at_char c r with
           | Some (a, b) => Some (x :: a, b)
           | None => None
           end
  end.

Fixpoint contains_char (c : char) (s : str) : bool :=
  match s with
  | [] => false
  | x :: r => (x =? c)%N || contains_char c r
  end.

(** Join with a separator. *)
Fixpoint join (sep : str) (l : list str) : str :=
  match l with
  | [] => []
  | [x] => x
  | x :: r => x ++ sep ++ join sep r
  end.

(** ** Decimal integers *)

(** Rust's [Display] for unsigned integers. *)
Fixpoint digs (fuel : nat) (n : N) (acc : str) : str :=
  match fuel with
  | O => acc
  | S f =>
      let acc' := (48 + n mod 10)%N :: acc in
      if (n <? 10)%N then acc' else digs f (n / 10)%N acc'
  end.

Definition show_N (n : N) : str := digs (S (N.size_nat n)) n [].

(** Rust's [Display] for signed integers. *)
Definition show_Z (z : Z) : str :=
  if (z <? 0)%Z then 45%N :: show_N (Z.abs_N z) else show_N (Z.abs_N z).

(** Rust's [{:3}] for unsigned integers: right-aligned in width 3. *)
Definition pad3 (s : str) : str :=
  match s with
  | [] => L "   "
  | [_] => L "  " ++ s
  | [_; _] => L " " ++ s
  | _ => s
  end.

(** Value of a digit string. *)
Definition read_step (a : N) (c : char) : N := (10 * a + (c - 48))%N.
Definition read_digits (s : str) : N := fold_left read_step s 0%N.

(** Value of a nonempty digit string. *)
Definition read_N (s : str) : option N :=
  match s with
  | [] => None
  | _ => if forallb is_digit s then Some (read_digits s) else None
  end.

(** Rust's [FromStr] for signed integers, before the range check. *)
Definition read_Z (s : str) : option Z :=
  match s with
  | [] => None
  | c :: r =>
      if (c =? 45)%N then option_map (fun n => (- Z.of_N n)%Z) (read_N r)
      else if (c =? 43)%N then option_map Z.of_N (read_N r)
      else option_map Z.of_N (read_N s)
  end.

Definition in_range (lo hi z : Z) : bool := (lo <=? z)%Z && (z <=? hi)%Z.

Definition i32_min : Z := (-2147483648)%Z.
Definition i32_max : Z := 2147483647%Z.
Definition i64_min : Z := (-9223372036854775808)%Z.
Definition i64_max : Z := 9223372036854775807%Z.
Definition u32_max : Z := 4294967295%Z.

Definition parse_int (lo hi : Z) (s : str) : option Z :=
  match read_Z s with
  | Some z => if in_range lo hi z then Some z else None
  | None => None
  end.

(** [str::parse::<i32>], [str::parse::<i64>]. *)
Definition parse_i32 (s : str) : option Z := parse_int i32_min i32_max s.
Definition parse_i64 (s : str) : option Z := parse_int i64_min i64_max s.

(** [str::parse::<u32>]: a leading minus is not accepted. *)
Definition parse_u32 (s : str) : option N :=
  let body := match s with
              | c :: r => if (c =? 43)%N then r else s
              | [] => s
              end in
  match read_N body with
  | Some n => if (Z.of_N n <=? u32_max)%Z then Some n else None
  | None => None
  end.

(** [x as i32] for an [i64] value: two's complement truncation. *)
Definition wrap_i32 (z : Z) : Z :=
  ((z + 2147483648) mod 4294967296 - 2147483648)%Z.

(** ** Outcomes *)

(** [Result] with Rust panics made explicit. *)
Inductive res (E A : Type) : Type :=
| Ok (a : A)
| Err (e : E)
| Panic (p : string).
Arguments Ok {E A} a.
Arguments Err {E A} e.
Arguments Panic {E A} p.

Definition rbind {E A B} (x : res E A) (f : A -> res E B) : res E B :=
  match x with
  | Ok a => f a
  | Err e => Err e
  | Panic p => Panic p
  end.
Notation "'let?' x ':=' e1 'in' e2" := (rbind e1 (fun x => e2))
  (at level 200, x pattern, e1 at level 100, e2 at level 200, right associativity).

Definition rmap {E A B} (f : A -> B) (x : res E A) : res E B :=
  match x with
  | Ok a => Ok (f a)
  | Err e => Err e
  | Panic p => Panic p
  end.

(** [iter.map(f).collect::<Result<_, _>>()], or a loop with [?]. *)
Section RList.
  Context {E A B : Type} (f : A -> res E B).
  Fixpoint rlist (l : list A) : res E (list B) :=
    match l with
    | [] => Ok []
    | x :: r => let? y := f x in let? ys := rlist r in Ok (y :: ys)
    end.
End RList.

(** An early [?] return while a guarded pair iterator still has pairs pending
    panics in [RuleIter]'s [Drop] (src/parser/common.rs l.305-313). *)
Definition guard_drop {E A} (x : res E A) : res E A :=
  match x with
  | Err _ => Panic "RuleIter dropped with pending pairs"
  | y => y
  end.

(** [Option::unwrap] / [Result::unwrap]. *)
Definition unwrap {E A} (what : string) (o : option A) : res E A :=
  match o with
  | Some a => Ok a
  | None => Panic what
  end.
