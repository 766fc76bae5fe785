(** The command line (src/cli.rs) and the choice of JSON reader (src/json.rs). *)
From Coq Require Import String List NArith ZArith Bool PeanoNat.
From Verif Require Import Base Utf8 Names Out Literals SimpleExt ExtArgs Registry Rels Structural Plan Descriptors.
Import ListNotations.
Local Open Scope string_scope.
Local Open Scope list_scope.

(** What the command line takes from its libraries: the lower case of a
    character (the rule for a final sigma aside), serde_json, serde_yaml, prost and
    prost-reflect. *)
Class Codecs := {
  lower : N -> list N;
  json_naive : list N -> option pplan;
  json_standard : list pfile -> list N -> option pplan;
  json_write : pplan -> option (list N);
  yaml_read : list N -> option pplan;
  yaml_write : pplan -> option (list N);
  proto_decode : list N -> option pplan;
  proto_encode : pplan -> list N;
  fds_decode : list N -> option (list pfile);
  pool_accepts : list pfile -> bool;
  core_fds : list N
}.

(** [Format], src/cli.rs l.301-307. *)
Inductive format_kind := FmtText | FmtJson | FmtYaml | FmtProtobuf.

Section Cli.
  Context `{U : Unicode} `{F : Floats} `{K : Codecs}.

  (** [str::to_lowercase]. *)
  Definition lowercase (s : list N) : list N := concat (map lower s).
  Definition one_of (s : list N) (l : list string) : bool := existsb (fun x => streqb s (L x)) l.

  (** [FromStr for Format], l.309-323. *)
  Definition format_of_name (s : list N) : option format_kind :=
    let s := lowercase s in
    if one_of s ["text"] then Some FmtText
    else if one_of s ["json"] then Some FmtJson
    else if one_of s ["yaml"] then Some FmtYaml
    else if one_of s ["protobuf"; "proto"; "pb"] then Some FmtProtobuf
    else None.

  (** The pieces of a path between its slashes. *)
  Fixpoint path_split (s : list N) : list (list N) :=
    match s with
    | [] => [[]]
    | c :: r =>
        if (c =? 47)%N then [] :: path_split r
        else match path_split r with
             | [] => [[c]]
             | x :: l => (c :: x) :: l
             end
    end.
  Definition skipped (x : list N) : bool := match x with [] => true | _ => streqb x (L ".") end.
  Fixpoint drop_while {A} (f : A -> bool) (l : list A) : list A :=
    match l with
    | [] => []
    | x :: r => if f x then drop_while f r else l
    end.
  (** [Path::file_name] on Unix: the last component, if it is a normal one; empty
      pieces and dots are no components (a leading dot is one, but not a normal one). *)
  Definition path_file_name (p : list N) : option (list N) :=
    match drop_while skipped (rev (path_split p)) with
    | [] => None
    | x :: _ => if streqb x (L "..") then None else Some x
    end.
  (** [rsplit_file_at_dot]: what is before and after the last dot. *)
  Fixpoint rsplit_dot (s : list N) : option (list N * list N) :=
    match s with
    | [] => None
    | c :: r =>
        match rsplit_dot r with
        | Some (a, b) => Some (c :: a, b)
        | None => if (c =? 46)%N then Some ([], r) else None
        end
    end.
  (** [Path::extension]. *)
  Definition path_extension (p : list N) : option (list N) :=
    match path_file_name p with
    | None => None
    | Some x => match rsplit_dot x with
                | Some (_ :: _, b) => Some b
                | _ => None
                end
    end.

  (** [Format::from_extension], l.326-344; a path is text, so [to_str] succeeds. *)
  Definition from_extension (path : list N) : option format_kind :=
    if streqb path (L "-") then None
    else match path_extension path with
         | None => None
         | Some x =>
             let x := lowercase x in
             if one_of x ["substrait"; "txt"] then Some FmtText
             else if one_of x ["json"] then Some FmtJson
             else if one_of x ["yaml"; "yml"] then Some FmtYaml
             else if one_of x ["pb"; "proto"; "protobuf"] then Some FmtProtobuf
             else None
         end.

  (** [parse_json], src/json.rs l.79-98. *)
  Definition parse_json (text : list N) (pool : list pfile) : option pplan :=
    match json_naive text with
    | Some p => Some p
    | None => json_standard pool text
    end.

  (** What is printed for an error is not modelled, only where it arose. *)
  Inductive cli_error := CInput | CRead | CParse | CDescriptors | CWrite | CFormat.

  (** [read_text_input], src/cli.rs l.429-434. *)
  Definition read_text (b : list N) : res cli_error (list N) :=
    match utf8_decode b with Some t => Ok t | None => Err CRead end.

  Definition ok_or {A} (e : cli_error) (o : option A) : res cli_error A := match o with Some a => Ok a | None => Err e end.

  (** [Format::read_plan], l.346-373, on the bytes of the input (the feature serde is
      on).  [descs] are the registry's descriptors. *)
  Definition read_plan (f : format_kind) (reg : registry) (descs : list (list N)) (b : list N) : res cli_error pplan :=
    match f with
    | FmtText =>
        let? t := read_text b in
        match parse reg t with
        | Ok p => Ok p
        | Err _ => Err CParse
        | Panic m => Panic m
        end
    | FmtJson =>
        let? t := read_text b in
        match build_descriptor_pool fds_decode pool_accepts core_fds descs with
        | Ok pool => ok_or CParse (parse_json t pool)
        | Err _ => Err CDescriptors
        | Panic m => Panic m
        end
    | FmtYaml => let? t := read_text b in ok_or CParse (yaml_read t)
    | FmtProtobuf => ok_or CParse (proto_decode b)
    end.

  (** [Outcome], l.21-27. *)
  Inductive outcome := Success | HadIssues (errs : list ferr).

  (** [Write::write_all] to a destination that takes [room] more bytes ([None]: any
      number); the bytes it took. *)
  Definition write_all (room : option nat) (b : list N) : list N * res cli_error unit :=
    match room with
    | Some n => if Nat.leb (length b) n then (b, Ok tt) else (firstn n b, Err CWrite)
    | None => (b, Ok tt)
    end.
  Definition write_then (room : option nat) (b : list N) (o : outcome) : list N * res cli_error outcome :=
    let (w, r) := write_all room b in (w, rmap (fun _ => o) r).

  (** [Format::write_plan], l.375-426: the bytes written and the result. *)
  Definition write_plan (f : format_kind) (reg : registry) (op : options) (room : option nat) (p : pplan)
    : list N * res cli_error outcome :=
    match f with
    | FmtText =>
        let o := format reg op p in
        match o_panics o with
        | m :: _ => ([], Panic m)
        | [] => write_then room (utf8_encode (o_text o)) (match o_errs o with [] => Success | e => HadIssues e end)
        end
    | FmtJson => match json_write p with Some t => write_then room (utf8_encode t) Success | None => ([], Err CFormat) end
    | FmtYaml => match yaml_write p with Some t => write_then room (utf8_encode t) Success | None => ([], Err CFormat) end
    | FmtProtobuf => write_then room (proto_encode p) Success
    end.

  (** [create_output_options], l.152-160. *)
  Definition create_output_options (show_literal_types : bool) : options :=
    if show_literal_types
    then mk_options (op_anchors opts_default) VAlways (op_show_emit opts_default) (op_binaries opts_default)
           (op_indent opts_default) (op_vt_threshold opts_default)
    else opts_default.
  (** [resolve_input_format] and [resolve_output_format], l.162-186. *)
  Definition resolve_format (f : option format_kind) (path : list N) : res cli_error format_kind :=
    match f with
    | Some f => Ok f
    | None => ok_or CInput (from_extension path)
    end.

  (** [run_convert_with_io], l.192-225. *)
  Definition convert_io (from to : format_kind) (op : options) (reg : registry) (descs : list (list N)) (room : option nat) (b : list N)
    : list N * res cli_error outcome :=
    match read_plan from reg descs b with
    | Ok p => write_plan to reg op room p
    | Err e => ([], Err e)
    | Panic m => ([], Panic m)
    end.
  (** [run_validate_with_io], l.227-247. *)
  Definition validate_io (reg : registry) (room : option nat) (b : list N) : list N * res cli_error outcome :=
    convert_io FmtText FmtText opts_default reg [] room b.

  (** [Commands], l.250-299; flags that only print are left out. *)
  Inductive command :=
  | Convert (input output : list N) (from to : option format_kind) (show_literal_types : bool)
  | Validate (input output : list N).

  (** Files by path (no two paths name one file), standard input and what went to
      standard output. *)
  Record world := mk_world {
    w_files : list N -> option (list N);
    w_stdin : list N;
    w_stdout : list N;
    w_creatable : list N -> bool;
    w_room : option nat
  }.
  Definition set_file (w : world) (p : list N) (c : list N) : world :=
    mk_world (fun q => if streqb q p then Some c else w_files w q) (w_stdin w) (w_stdout w) (w_creatable w) (w_room w).
  Definition is_std (p : list N) : bool := streqb p (L "-").

  (** [get_reader], l.455-462: opening fails if there is no such file; the file is
      read later. *)
  Definition can_open (w : world) (p : list N) : bool :=
    is_std p || match w_files w p with Some _ => true | None => false end.
  Definition read_all (w : world) (p : list N) : list N :=
    if is_std p then w_stdin w else match w_files w p with Some c => c | None => [] end.
  (** [get_writer], l.464-471: [File::create] empties the file.  Standard output is
      buffered by lines in Rust; here what is written to it arrives at once. *)
  Definition open_writer (w : world) (p : list N) : res cli_error world :=
    if is_std p then Ok w
    else if w_creatable w p then Ok (set_file w p []) else Err CInput.
  Definition deliver (w : world) (p : list N) (b : list N) : world :=
    if is_std p then mk_world (w_files w) (w_stdin w) (w_stdout w ++ b) (w_creatable w) (w_room w)
    else set_file w p b.

  (** [run_inner], l.73-113. *)
  Definition run_inner (reg : registry) (descs : list (list N)) (w : world) (c : command) : world * res cli_error outcome :=
    let (input, output) := match c with Convert i o _ _ _ => (i, o) | Validate i o => (i, o) end in
    if can_open w input then
      match open_writer w output with
      | Ok w' =>
          let finish (r : list N * res cli_error outcome) := (deliver w' output (fst r), snd r) in
          match c with
          | Convert _ _ from to lt =>
              match resolve_format from input with
              | Ok f =>
                  match resolve_format to output with
                  | Ok t => finish (convert_io f t (create_output_options lt) reg descs (w_room w') (read_all w' input))
                  | Err e => (w', Err e)
                  | Panic m => (w', Panic m)
                  end
              | Err e => (w', Err e)
              | Panic m => (w', Panic m)
              end
          | Validate _ _ => finish (validate_io reg (w_room w') (read_all w' input))
          end
      | Err e => (w, Err e)
      | Panic m => (w, Panic m)
      end
    else (w, Err CInput).

  (** [run_with_extensions], l.56-71: whether the exit code is SUCCESS. *)
  Definition exit_ok (r : res cli_error outcome) : bool :=
    match r with Ok Success => true | _ => false end.
End Cli.
