(** Identifiers, quoted names and string literals: lexical grammar, escaping,
    unescaping. *)
From Coq Require Import String List NArith ZArith Bool.
From Verif Require Import Base Peg.
Import ListNotations.
Open Scope peg_scope.

(** ** Lexical rules of src/parser/expression_grammar.pest *)

(** [identifier], l.8. *)
Definition g_identifier : peg (list N) :=
  c <- pchar is_alpha ;; r <- pwhile is_idchar ;; pret (c :: r).

(** [integer], l.9, as its text. *)
Definition g_integer : peg (list N) :=
  m <- popt (ptok (L "-")) ;;
  d <- pwhile1 is_digit ;;
  pret (match m with Some _ => 45%N :: d | None => d end).

(** [float], l.10, as its text. *)
Definition g_float : peg (list N) :=
  m <- popt (ptok (L "-")) ;;
  d <- pwhile1 is_digit ;;
  ptok (L ".") ;;;
  f <- pwhile1 is_digit ;;
  pret (match m with Some _ => 45%N :: d | None => d end ++ 46%N :: f).

(** [boolean] and [null], l.11-12, as their text. *)
Definition g_boolean : peg (list N) := ptoks [L "true"; L "false"].
Definition g_null : peg unit := ptok (L "null").

(** The repetition and closing quote of [string_literal] (l.16-22) and
    [quoted_name] (l.24-30): a backslash takes the next character with it; any
    other character but the quote stands for itself.  A final backslash is taken
    by the second alternative and the closing quote then fails. *)
Fixpoint quoted_rest (q : N) (s : list N) : option (list N * list N) :=
  match s with
  | [] => None
  | c :: r =>
      if (c =? c_bs)%N then
        match r with
        | [] => None
        | x :: r' =>
            match quoted_rest q r' with
            | Some (b, t) => Some (c :: x :: b, t)
            | None => None
            end
        end
      else if (c =? q)%N then Some ([c], r)
      else match quoted_rest q r with
           | Some (b, t) => Some (c :: b, t)
           | None => None
           end
  end.

(** Quoted text, including both quotes (pest's [as_str] of the pair). *)
Definition g_quoted (q : N) : peg (list N) := fun s =>
  match s with
  | c :: r =>
      if (c =? q)%N then
        match quoted_rest q r with
        | Some (b, t) => Some (c :: b, t)
        | None => None
        end
      else None
  | [] => None
  end.
Definition g_string_literal : peg (list N) := g_quoted c_sq.
Definition g_quoted_name : peg (list N) := g_quoted c_dq.

(** [name], l.33. *)
Inductive nm := NIdent (s : list N) | NQuoted (s : list N).
Definition g_name : peg nm := pmap NIdent g_identifier <|> pmap NQuoted g_quoted_name.

(** ** Reading names and strings *)

(** The loop of [unescape_string], src/parser/common.rs l.124-150. *)
Fixpoint unescape_loop {E} (closer : N) (s : list N) : res E (list N) :=
  match s with
  | [] => Ok []
  | c :: r =>
      if (c =? closer)%N then
        match r with
        | [] => Ok []
        | _ => Panic "Unexpected characters after closing quote"
        end
      else if (c =? c_bs)%N then
        match r with
        | [] => Panic "Incomplete escape sequence at end of string"
        | n :: r' =>
            let ch := if (n =? 110)%N then c_nl
                      else if (n =? 116)%N then c_tab
                      else if (n =? 114)%N then c_cr
                      else n in
            rmap (cons ch) (unescape_loop closer r')
        end
      else rmap (cons c) (unescape_loop closer r)
  end.

(** [unescape_string], src/parser/common.rs l.102-153; the quote character
    stands for the pair's rule. *)
Definition unescape_string {E} (q : N) (s : list N) : res E (list N) :=
  match s with
  | [] => Panic "Empty string literal"
  | c :: r => if (c =? q)%N then unescape_loop q r else Panic "Expected opening quote"
  end.

(** [Name::parse_pair], src/parser/expressions.rs l.1027-1035. *)
Definition lower_name {E} (n : nm) : res E (list N) :=
  match n with
  | NIdent s => Ok s
  | NQuoted s => unescape_string c_dq s
  end.

(** ** Writing names and strings *)

(** The Unicode tables [char::escape_debug] consults, as a parameter. *)
Class Unicode := {
  printable : N -> bool;
  grapheme_extend : N -> bool
}.

(** Lower-case hexadecimal digits. *)
Definition hex_digit (n : N) : N := if (n <? 10)%N then (48 + n)%N else (87 + n)%N.
Fixpoint hexs (fuel : nat) (n : N) (acc : list N) : list N :=
  match fuel with
  | O => acc
  | S f =>
      let acc' := hex_digit (n mod 16) :: acc in
      if (n <? 16)%N then acc' else hexs f (n / 16)%N acc'
  end.
Definition show_hex (n : N) : list N := hexs (S (N.size_nat n)) n [].

(** [char::escape_unicode]. *)
Definition escape_unicode (c : N) : list N := L "\u{" ++ show_hex c ++ L "}".

(** [char::escape_debug_ext] with both quotes escaped; [ge] says whether
    grapheme extenders are escaped. *)
Definition escape_char `{Unicode} (ge : bool) (c : N) : list N :=
  if (c =? 0)%N then L "\0"
  else if (c =? c_tab)%N then L "\t"
  else if (c =? c_cr)%N then L "\r"
  else if (c =? c_nl)%N then L "\n"
  else if (c =? c_dq)%N then [c_bs; c_dq]
  else if (c =? c_sq)%N then [c_bs; c_sq]
  else if (c =? c_bs)%N then [c_bs; c_bs]
  else if ge && grapheme_extend c then escape_unicode c
  else if printable c then [c]
  else escape_unicode c.

(** [str::escape_debug]: grapheme extenders are escaped only in first position.
    This is [escaped], src/textify/types.rs l.65-67. *)
Definition escape_debug `{Unicode} (s : list N) : list N :=
  match s with
  | [] => []
  | c :: r => escape_char true c ++ concat (map (escape_char false) r)
  end.

(** [is_identifer], src/textify/types.rs l.44-62. *)
Definition is_identifier (s : list N) : bool :=
  match s with
  | [] => false
  | c :: r => is_alpha c && forallb is_idchar r
  end.

(** [Display for Name], src/textify/types.rs l.74-82. *)
Definition show_name `{Unicode} (s : list N) : list N :=
  if is_identifier s then s else [c_dq] ++ escape_debug s ++ [c_dq].

(** A string literal's value, src/textify/expressions.rs l.319. *)
Definition show_string `{Unicode} (s : list N) : list N :=
  [c_sq] ++ escape_debug s ++ [c_sq].
