(** What the display options are to control, for property C53. *)
From Coq Require Import String List NArith ZArith Bool.
From Verif Require Import Base Names Out Types Literals Exprs ExtArgs Rels SpecRels.
Import ListNotations.
Local Open Scope string_scope.
Local Open Scope list_scope.
Local Open Scope nat_scope.

(** Options that differ in one field. *)
Definition with_anchors (op : options) (v : visibility) : options :=
  mk_options v (op_literal_types op) (op_show_emit op) (op_binaries op) (op_indent op) (op_vt_threshold op).
Definition with_types (op : options) (v : visibility) : options :=
  mk_options (op_anchors op) v (op_show_emit op) (op_binaries op) (op_indent op) (op_vt_threshold op).
Definition with_emit (op : options) (b : bool) : options :=
  mk_options (op_anchors op) (op_literal_types op) b (op_binaries op) (op_indent op) (op_vt_threshold op).
Definition with_binaries (op : options) (b : bool) : options :=
  mk_options (op_anchors op) (op_literal_types op) (op_show_emit op) b (op_indent op) (op_vt_threshold op).
Definition with_indent (op : options) (i : list N) : options :=
  mk_options (op_anchors op) (op_literal_types op) (op_show_emit op) (op_binaries op) i (op_vt_threshold op).
Definition with_threshold (op : options) (n : N) : options :=
  mk_options (op_anchors op) (op_literal_types op) (op_show_emit op) (op_binaries op) (op_indent op) n.

(** Lines, each a number of indentations and a text. *)
Definition laid (indent : list N) (ls : list (nat * list N)) : list N :=
  concat (map (fun l => concat (repeat indent (fst l)) ++ snd l ++ [c_nl]) ls).

(** Bytes from hexadecimal digits. *)
Definition hex_value (c : N) : option N :=
  if ((48 <=? c) && (c <=? 57))%N then Some (c - 48)%N
  else if ((97 <=? c) && (c <=? 102))%N then Some (c - 87)%N
  else None.
Fixpoint unhex (s : list N) : option (list N) :=
  match s with
  | [] => Some []
  | a :: b :: r =>
      match hex_value a, hex_value b, unhex r with
      | Some x, Some y, Some l => Some (16 * x + y :: l)%N
      | _, _, _ => None
      end
  | _ => None
  end.

(** The number of rows of a virtual table. *)
Definition virtual_rows (r : prel) : option nat :=
  match r with
  | RRead r => match rd_type r with ReadVirtual rows => Some (length rows) | _ => None end
  | _ => None
  end.
(** Two limits on the same side of a number of rows; nothing is ever laid out
    without rows. *)
Definition same_side (t t' : N) (n : nat) : Prop :=
  n = 0 \/ ((t <= N.of_nat n)%N <-> (t' <= N.of_nat n)%N).

(** Literals whose type the text alone tells. *)
Definition untyped (l : literal) : bool :=
  negb (l_nullable l) &&
  match l_type l with
  | Some (LBool _) | Some (LString _) | Some (LBinary _) | Some (LI64 _) | Some (LFp64 _) => true
  | _ => false
  end.

(** The type of a literal value; an interval without precision has microseconds. *)
Definition value_type (v : litval) (n : nullability) : option ptype :=
  match v with
  | LBool _ => Some (TSimple SBool n 0)
  | LI8 _ => Some (TSimple SI8 n 0)
  | LI16 _ => Some (TSimple SI16 n 0)
  | LI32 _ => Some (TSimple SI32 n 0)
  | LI64 _ => Some (TSimple SI64 n 0)
  | LFp32 _ => Some (TSimple SFp32 n 0)
  | LFp64 _ => Some (TSimple SFp64 n 0)
  | LString _ => Some (TSimple SString n 0)
  | LBinary _ => Some (TSimple SBinary n 0)
  | LDate _ => Some (TSimple SDate n 0)
  | LTime _ => Some (TSimple STime n 0)
  | LTimestamp _ => Some (TSimple STimestamp n 0)
  | LPrecisionTime p _ => Some (TPrec PkTime p n 0)
  | LPrecisionTimestamp p _ => Some (TPrec PkTimestamp p n 0)
  | LPrecisionTimestampTz p _ => Some (TPrec PkTimestampTz p n 0)
  | LInterval i => Some (TIntervalDay (match iv_mode i with Some (IvPrecision p) => Some p | _ => None end) n 0)
  | LNull _ | LOther _ => None
  end.
Definition literal_type (l : literal) : option ptype :=
  match l_type l with
  | Some v => value_type v (if l_nullable l then NNullable else NRequired)
  | None => None
  end.

(** A text that starts with [i] up to the first of [c]. *)
Definition up_to (c : N) (b n : list N) : Prop := ~ In c b /\ (n = b \/ exists r, n = b ++ c :: r).
