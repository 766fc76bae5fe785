(** Writing the version section (src/textify/plan.rs l.59-92). *)
From Coq Require Import String List NArith ZArith Bool.
From Verif Require Import Base SimpleExt ExtLines Lines Tree Structural.
Import ListNotations.

Definition version_default : version := mk_version 0 0 0 [] [].
(** [version == &proto::Version::default()]. *)
Definition version_is_default (v : version) : bool :=
  (v_major v =? 0)%N && (v_minor v =? 0)%N && (v_patch v =? 0)%N
  && match v_producer v, v_git v with [], [] => true | _, _ => false end.

(** [write_version], l.61-92, as a list of pieces each followed by a newline. *)
Definition version_header (v : version) : list N :=
  hdr_version ++ L " " ++ show_N (v_major v) ++ L "." ++ show_N (v_minor v) ++ L "." ++ show_N (v_patch v).
Definition version_detail (indent key value : list N) : list (list N) :=
  match value with [] => [] | _ => [indent ++ key ++ L ": " ++ trim value] end.
Definition version_lines (indent : list N) (v : option version) : list (list N) :=
  match v with
  | None => []
  | Some v =>
      if version_is_default v then []
      else version_header v
           :: version_detail indent (L "producer") (v_producer v)
           ++ version_detail indent (L "git_hash") (v_git v)
  end.
