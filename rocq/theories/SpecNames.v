(** Specification vocabulary for names and string literals. *)
From Coq Require Import List NArith Bool.
From Verif Require Import Base Names.
Import ListNotations.

(** A character that the text format can carry: a tab, carriage return, newline,
    quote or backslash (which have two-character escapes), or a printable one.
    [first] says whether it stands first in the string, where characters that
    extend the preceding grapheme are written numerically. *)
Definition esc_ok `{Unicode} (first : bool) (c : N) : bool :=
  (c =? c_tab)%N || (c =? c_cr)%N || (c =? c_nl)%N || (c =? c_dq)%N || (c =? c_sq)%N || (c =? c_bs)%N
  || (negb (c =? 0)%N && printable c && negb (first && grapheme_extend c)).

(** A string made of such characters. *)
Definition str_ok `{Unicode} (s : list N) : bool :=
  match s with
  | [] => true
  | c :: r => esc_ok true c && forallb (esc_ok false) r
  end.

(** A name that the text format can carry. *)
Definition name_ok `{Unicode} (s : list N) : Prop := is_identifier s = true \/ str_ok s = true.

(** Tables for examples: ASCII is printable, and nothing extends a grapheme. *)
Definition ascii_tables : Unicode :=
  {| printable := fun c => (32 <=? c)%N && (c <=? 126)%N; grapheme_extend := fun _ => false |}.
