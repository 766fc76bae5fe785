(** Whole plans: parsing a text and formatting a plan (src/lib.rs l.70-205,
    src/textify/plan.rs, src/parser/structural.rs). *)
From Coq Require Import String List NArith ZArith Bool.
From Verif Require Import Base Peg Names SimpleExt Out Anchors Types Literals Exprs ExtArgs Registry
  Rels RelGrammar RelRead Tree Structural Version.
Import ListNotations.

(** [LineNode::parse] and [LineNode::parse_root], src/parser/structural.rs
    l.97-164.  Neither rule ends in EOI: what follows the match is dropped. *)
Definition read_node (s : list N) : pres (rline + acst) :=
  match g_node s with
  | Some (x, _) => Ok x
  | None => Err (PInvalid "planNode")
  end.
Definition read_root (s : list N) : pres (rline + acst) :=
  match g_top s with
  | Some (x, _) => Ok x
  | None => Err (PSyntax "top_level_relation")
  end.

(** [proto::Plan]: [advanced_extensions], [expected_type_urls] and the other
    fields neither side looks at are not modelled. *)
Definition pplan : Type := plan plan_rel.

Section Plan.
  Context `{U : Unicode} `{F : Floats}.

  (** [parse_with_registry], src/lib.rs l.80-87. *)
  Definition parse (reg : registry) (s : list N) : res perror pplan :=
    parse_plan rline acst plan_rel read_root read_node (build_plan_rel reg) s.

  (** Lines, each ended by a newline ([writeln!]). *)
  Definition lines_text (ls : list (list N)) : list N := concat (map (fun l => l ++ [c_nl]) ls).

  (** [write_relations], src/textify/plan.rs l.97-109. *)
  Definition relations_out (op : options) (reg : registry) (e : exts) (l : list plan_rel) : out :=
    txt (hdr_plan ++ [c_nl]) +++ osep [c_nl; c_nl] (map (plan_rel_out reg op e) l).

  (** [PlanWriter::new], l.22-48, and its [Display], l.114-125;
      [format_with_registry], src/lib.rs l.196-205. *)
  Definition format (reg : registry) (op : options) (p : pplan) : out :=
    let (e, errs) := from_extensions (pl_urns _ p) (pl_decls _ p) in
    mk_out [] (map FInsert errs) [] []
    +++ txt (lines_text (version_lines (op_indent op) (pl_version _ p)))
    +++ txt (lines_text (exts_lines (op_indent op) e))
    +++ txt (if exts_is_empty e then [] else [c_nl])
    +++ relations_out op reg e (pl_rels _ p)
    +++ txt [c_nl].
End Plan.
