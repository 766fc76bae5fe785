(** Registration histories and argument accesses, for the properties of the
    extension registry. *)
From Coq Require Import String List NArith ZArith Bool.
From Verif Require Import Base Names SimpleExt Literals Exprs ExtArgs Registry.
Import ListNotations.

(** The registry after a sequence of registrations, whatever their outcomes. *)
Definition run_regs (l : list (xtype * extension)) : registry :=
  fold_left (fun r th => snd (register (fst th) (snd th) r)) l registry_new.

Definition same_name (a b : xtype * extension) : Prop := fst a = fst b /\ xe_name (snd a) = xe_name (snd b).
Definition same_url (a b : xtype * extension) : Prop := fst a = fst b /\ xe_url (snd a) = xe_url (snd b).

(** [accepts l k]: [k] are the registrations of [l] that count: those that clash
    with no earlier one that counts, neither in name nor in type URL. *)
Inductive accepts : list (xtype * extension) -> list (xtype * extension) -> Prop :=
| accepts_nil : accepts [] []
| accepts_new l k th : accepts l k -> (forall x, In x k -> ~ same_name th x /\ ~ same_url th x) ->
    accepts (l ++ [th]) (k ++ [th])
| accepts_clash l k th x : accepts l k -> In x k -> same_name th x \/ same_url th x -> accepts (l ++ [th]) k.

(** What a handler asks of its arguments. *)
Inductive question := QPositional | QColumns | QNamed (name : list N).
Fixpoint questions {X} (p : prog X) (a : xargs) : list question :=
  match p with
  | PReturn _ => []
  | PPositional k => QPositional :: questions (k (xa_positional a)) a
  | PColumns k => QColumns :: questions (k (xa_columns a)) a
  | PNamed n k => QNamed n :: questions (k (imap_get n (xa_named a))) a
  end.
(** What it makes of the answers. *)
Fixpoint answer {X} (p : prog X) (a : xargs) : res xerror X :=
  match p with
  | PReturn x => x
  | PPositional k => answer (k (xa_positional a)) a
  | PColumns k => answer (k (xa_columns a)) a
  | PNamed n k => answer (k (imap_get n (xa_named a))) a
  end.

(** The payload a handler makes of arguments, and the arguments it makes of a
    payload for a relation whose inputs have the given column counts. *)
Definition payload_of (h : extension) (a : xargs) : res xerror any :=
  match args_parse (xe_from_args h) a with
  | Ok v => xe_to_any h v
  | Err e => Err e
  | Panic p => Panic p
  end.
Definition arguments_of (h : extension) (d : any) (widths : list nat) : res xerror xargs :=
  match xe_from_any h d with
  | Ok v => xe_to_args h v widths
  | Err e => Err e
  | Panic p => Panic p
  end.

(** A whole text read as an argument of an extension and as an expression. *)
Definition argument_read `{Floats} (e : exts) (s : list N) (v : xvalue) : Prop :=
  exists c, g_xarg s = Some (c, []) /\ lower_xarg e c = Ok v.
Definition expression_read `{Floats} (e : exts) (s : list N) (x : pexpr) : Prop :=
  exists c, g_expr s = Some (c, []) /\ lower_expr e c = Ok x.

(** Texts of scalars. *)
Definition digits_text (s : list N) : Prop := s <> [] /\ forallb is_digit s = true.
Definition int_text (s : list N) : Prop := digits_text s \/ exists d, s = 45%N :: d /\ digits_text d.
Definition float_text (s : list N) : Prop := exists i f, s = i ++ 46%N :: f /\ int_text i /\ digits_text f.
