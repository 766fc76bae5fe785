(** Physical lines, indentation and chunks. *)
From Coq Require Import String List NArith ZArith Bool PeanoNat.
From Verif Require Import Base.
Import ListNotations.

(** [char::is_whitespace]: Unicode White_Space. *)
Definition is_ws (c : N) : bool :=
  (((9 <=? c) && (c <=? 13)) || (c =? 32) || (c =? 133) || (c =? 160) || (c =? 5760)
  || ((8192 <=? c) && (c <=? 8202)) || (c =? 8232) || (c =? 8233) || (c =? 8239)
  || (c =? 8287) || (c =? 12288))%N.

(** [str::trim_end_matches] for a class, [trim_end], [trim_start], [trim]. *)
Fixpoint trim_end_by (f : N -> bool) (s : list N) : list N :=
  match s with
  | [] => []
  | c :: r =>
      match trim_end_by f r with
      | [] => if f c then [] else [c]
      | t => c :: t
      end
  end.
Definition trim_end : list N -> list N := trim_end_by is_ws.
Definition trim_start (s : list N) : list N := snd (span is_ws s).
Definition trim (s : list N) : list N := trim_end (trim_start s).

(** [IndentedLine::from], src/parser/structural.rs l.39-57. *)
Definition indented (line : list N) : nat * list N :=
  let line := trim_end line in
  let spaces := length (fst (span (fun c => (c =? c_sp)%N) line)) in
  let indents := Nat.div2 spaces in
  (indents, skipn (indents * 2) line).

(** ** Chunks, src/parser/chunks.rs *)

(** [Line], l.42-46: its content, its text including the line break, and what
    follows it (for the [end] offset). *)
Record line := mk_line { ln_text : list N; ln_raw : list N; ln_after : list N }.

(** [ChunkCursor], l.68-79.  [text] and [current_end] are represented by the two
    halves of [text]: the chunk so far and the unread rest. *)
Record cursor := mk_cursor {
  cu_chunk : list N; cu_rest : list N; cu_start : N; cu_next : N }.

(** [new], l.84-94. *)
Definition cu_new (text : list N) (start : N) : option cursor :=
  match text with
  | [] => None
  | _ => Some (mk_cursor [] text start start)
  end.

(** [rest[..nl].strip_suffix('\r').unwrap_or(..)]. *)
Fixpoint strip_cr (s : list N) : list N :=
  match s with
  | [] => []
  | [c] => if (c =? c_cr)%N then [] else [c]
  | c :: r => c :: strip_cr r
  end.

(** [peek_line], l.103-126. *)
Definition peek_line (c : cursor) : option line :=
  match cu_rest c with
  | [] => None
  | rest =>
      match split_at_char c_nl rest with
      | Some (l, after) => Some (mk_line (strip_cr l) (l ++ [c_nl]) after)
      | None => Some (mk_line rest rest [])
      end
  end.

(** [merge], l.133-149. *)
Definition merge (c : cursor) (l : line) : cursor :=
  mk_cursor (cu_chunk c ++ ln_raw l) (ln_after l) (cu_start c) (cu_next c + 1).

(** [next], l.153-170. *)
Definition cu_finish (c : cursor) : list N * option cursor :=
  (cu_chunk c, cu_new (cu_rest c) (cu_next c)).

(** The continuation loop of [Parser::next_chunk], src/parser/structural.rs
    l.1006-1015; every iteration consumes a line, so the length of the rest
    bounds it. *)
Fixpoint merge_conts (fuel : nat) (base : nat) (c : cursor) : cursor :=
  match fuel with
  | O => c
  | S f =>
      match peek_line c with
      | Some l =>
          let (depth, body) := indented (ln_text l) in
          if (depth =? base + 1)%nat && starts_with (L "- ") body
          then merge_conts f base (merge c l)
          else c
      | None => c
      end
  end.

Definition is_eol (c : N) : bool := (c =? c_cr)%N || (c =? c_nl)%N.

(** [Parser::next_chunk], src/parser/structural.rs l.993-1021; [plan] says
    whether the parser is in the plan section.  The raw chunk is returned too. *)
Record chunk := mk_chunk { ck_raw : list N; ck_line_no : N; ck_rest : option cursor }.
Definition ck_text (k : chunk) : list N := trim_end_by is_eol (ck_raw k).
Definition next_chunk {E} (plan : bool) (c : cursor) : res E chunk :=
  match peek_line c with
  | None => Panic "a non-exhausted cursor always yields a line"
  | Some first =>
      let c1 := merge c first in
      let c2 := if plan then merge_conts (length (cu_rest c1)) (fst (indented (ln_text first))) c1
                else c1 in
      Ok (mk_chunk (fst (cu_finish c2)) (cu_start c2) (snd (cu_finish c2)))
  end.
