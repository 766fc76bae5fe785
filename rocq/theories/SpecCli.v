(** Specification for the command line. *)
From Coq Require Import String List NArith Bool.
From Verif Require Import Utf8 Base Names Out Literals SimpleExt Exprs ExtArgs Registry Rels Structural Plan Descriptors Cli.
Import ListNotations.
Local Open Scope string_scope.
Local Open Scope list_scope.

(** [path_named p name]: [name] is the last part of the path [p], slashes and dots
    at its end aside. *)
Definition path_named (p name : list N) : Prop := exists dir segs,
  p = dir ++ name ++ concat (map (fun s => 47%N :: s) segs) /\
  (dir = [] \/ exists d, dir = d ++ [47%N]) /\ ~ In 47%N name /\
  name <> [] /\ name <> L "." /\ name <> L ".." /\
  Forall (fun s => s = [] \/ s = L ".") segs.

(** File extensions, in lower case. *)
Definition extension_formats : list (string * format_kind) :=
  [("substrait", FmtText); ("txt", FmtText); ("json", FmtJson); ("yaml", FmtYaml); ("yml", FmtYaml);
   ("pb", FmtProtobuf); ("proto", FmtProtobuf); ("protobuf", FmtProtobuf)].
(** Format names of the options --from and --to, in lower case. *)
Definition named_formats : list (string * format_kind) :=
  [("text", FmtText); ("json", FmtJson); ("yaml", FmtYaml); ("protobuf", FmtProtobuf); ("proto", FmtProtobuf); ("pb", FmtProtobuf)].

(** What [name] was given so far: a file's content, or standard output. *)
Definition content (w : world) (p : list N) : option (list N) :=
  if streqb p (L "-") then Some (w_stdout w) else w_files w p.
(** What a fresh output starts from. *)
Definition base (w : world) (p : list N) : list N := if streqb p (L "-") then w_stdout w else [].

(** Files picked from [exs]: in order, the first of each name, none named as in [fs]. *)
Inductive firsts : list pfile -> list pfile -> list pfile -> Prop :=
| firsts_nil fs : firsts fs [] []
| firsts_new fs f exs l : ~ In (file_name f) (map file_name fs) -> firsts (fs ++ [f]) exs l -> firsts fs (f :: exs) (f :: l)
| firsts_old fs f exs l : In (file_name f) (map file_name fs) -> firsts fs exs l -> firsts fs (f :: exs) l.

(** What a command reads. *)
Definition input_bytes (w : world) (p : list N) : option (list N) :=
  if streqb p (L "-") then Some (w_stdin w) else w_files w p.
(** The format given by an option, or else by the path. *)
Definition chosen `{K : Codecs} (option_given : option format_kind) (p : list N) (f : format_kind) : Prop :=
  option_given = Some f \/ (option_given = None /\ from_extension p = Some f).
Definition input_of (c : command) : list N := match c with Convert i _ _ _ _ => i | Validate i _ => i end.
Definition output_of (c : command) : list N := match c with Convert _ o _ _ _ => o | Validate _ o => o end.
(** [runs c f t op]: the command reads format [f] and writes format [t] with the
    options [op]; only the display of literal types can be asked for. *)
Inductive runs `{K : Codecs} : command -> format_kind -> format_kind -> options -> Prop :=
| runs_convert i o from to lt f t : chosen from i f -> chosen to o t ->
    runs (Convert i o from to lt) f t
      (if lt : bool then mk_options (op_anchors opts_default) VAlways (op_show_emit opts_default) (op_binaries opts_default)
                  (op_indent opts_default) (op_vt_threshold opts_default) else opts_default)
| runs_validate i o : runs (Validate i o) FmtText FmtText opts_default.
(** [written t reg op p b]: [b] is all of the plan in the format [t], without any
    formatting error. *)
Definition written `{U : Unicode} `{F : Floats} `{K : Codecs} (t : format_kind) (reg : registry) (op : options) (p : pplan) (b : list N) : Prop :=
  match t with
  | FmtText => o_panics (format reg op p) = [] /\ o_errs (format reg op p) = [] /\ b = utf8_encode (o_text (format reg op p))
  | FmtJson => exists s, json_write p = Some s /\ b = utf8_encode s
  | FmtYaml => exists s, yaml_write p = Some s /\ b = utf8_encode s
  | FmtProtobuf => b = proto_encode p
  end.
