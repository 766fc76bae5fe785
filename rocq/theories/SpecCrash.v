(** The places at which reading a text may crash. *)
From Coq Require Import String List.
Import ListNotations.
Local Open Scope string_scope.

(** Panics of the parser, one entry per message. *)
Definition crash_sites : list string :=
  [ (* an error while a rule's iterator still has pairs to consume *)
    "RuleIter dropped with pending pairs";
    (* numbers out of range *)
    "field index is not an i32"; "integer literal is not an i64"; "extension integer is not an i64"; "anchor is not a u32";
    (* types of the grammar that the code does not know *)
    "type exists in parser but not implemented in code"; "not implemented: map_type"; "not implemented: struct_type";
    "not implemented: integer"; "not implemented: name";
    (* text after an extension declaration *)
    "assertion failed: pairs.as_str() == s" ].
