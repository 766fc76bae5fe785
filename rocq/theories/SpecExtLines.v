(** Extension tables that the extension section can carry. *)
From Coq Require Import String List NArith ZArith Bool.
From Verif Require Import Base Names SimpleExt SpecExt Lines.
Import ListNotations.

(** A URN: not empty, on one line, without spaces, not ending in white space. *)
Definition urn_ok (u : list N) : bool :=
  match u with [] => false | _ => true end
  && negb (contains_char 32 u) && negb (contains_char 10 u) && streqb (trim_end u) u.
Definition decl_name_ok (k : kind) (n : list N) : bool :=
  match k with KFunction => fn_name_ok n | _ => is_identifier n end.
Definition is_u32 (n : N) : bool := (n <=? 4294967295)%N.

Definition urn_entry_ok (x : N * list N) : bool := is_u32 (fst x) && urn_ok (snd x).
Definition decl_entry_ok (e : exts) (x : (N * kind) * (N * list N)) : bool :=
  let '((a, k), (u, n)) := x in
  is_u32 a && is_u32 u && decl_name_ok k n && match urn_get e u with Some _ => true | None => false end.
Definition exts_writable (e : exts) : bool :=
  forallb urn_entry_ok (e_urns e) && forallb (decl_entry_ok e) (e_decls e).
