(** Using a chunk cursor (src/parser/chunks.rs) in any way its interface allows:
    merge one or more lines into the current chunk, finish it, go on with the
    cursor for the next chunk. *)
From Coq Require Import List NArith.
From Verif Require Import Base Lines.
Import ListNotations.

Inductive merges : cursor -> cursor -> Prop :=
| merges_one c l : peek_line c = Some l -> merges c (merge c l)
| merges_more c c1 l : merges c c1 -> peek_line c1 = Some l -> merges c (merge c1 l).

(** [chunked c ks]: the chunks with their start lines until the text is used up. *)
Inductive chunked : option cursor -> list (N * list N) -> Prop :=
| chunked_done : chunked None []
| chunked_next c c1 ks :
    merges c c1 -> chunked (snd (cu_finish c1)) ks ->
    chunked (Some c) ((cu_start c1, fst (cu_finish c1)) :: ks).
