(** What of a plan is written, as far as writing it can crash: the expressions and
    the messages that come to be written, for every kind of relation. *)
From Coq Require Import String List NArith ZArith Bool.
From Verif Require Import Base Names SimpleExt Out Types Literals Exprs ExprEq ExtArgs Registry SpecRegistry Rels SpecRels
  SpecAddenda Plan Structural SpecLits SpecVisible SpecFormat.
Import ListNotations.
Local Open Scope list_scope.
Local Open Scope nat_scope.

(** ** Widths *)

(** The expressions grouped by: in the deprecated form those of all groups, repeated
    ones once. *)
Definition keys (xs : list pexpr) (gs : list grouping) : list pexpr :=
  if old_groups xs gs then dedup [] (concat (map gr_exprs gs)) else xs.
(** The functions of the measures; a measure without one is passed over. *)
Definition functions (ms : list measure) : list aggfn := concat (map (fun m => opt_list (ms_fn m)) ms).
(** The number of columns of a join: a semi or anti join has those of one side, a
    mark join one more, any other those of both. *)
Definition joined (t : Z) (l r : nat) : nat :=
  if existsb (Z.eqb t) [5; 6; 7]%Z then l
  else if existsb (Z.eqb t) [8; 9; 10]%Z then r
  else if (t =? 11)%Z then S l
  else if (t =? 12)%Z then S r
  else l + r.

Section Written.
  Context {F : Floats}.
  Variables (reg : registry) (op : options).

  (** [message t d widths a]: the handler registered for the type URL of [d] makes
      [a] of it, in a relation whose inputs have these widths. *)
  Definition message (t : xtype) (d : any) (widths : list nat) (a : res xerror xargs) : Prop :=
    exists name h, hget (t, any_url d) (rg_urls reg) = Some name /\ hget (t, name) (rg_handlers reg) = Some h /\
      a = arguments_of h d widths.
  (** The number of columns of an extension relation; one that cannot be decoded is
      given one column, for its error. *)
  Definition message_width (d : option any) (widths : list nat) : nat :=
    match d with
    | Some d =>
        match decode_with_type reg XtRelation d widths with
        | Ok (_, a) => length (xa_columns a)
        | Err _ => 1
        | Panic _ => 0
        end
    | None => 1
    end.

  (** The number of columns a relation is taken to put out. *)
  Fixpoint written_width (r : prel) : nat :=
    let one (i : option prel) := match i with Some i => written_width i | None => 0 end in
    match r with
    | RExtLeaf _ d => message_width d []
    | RExtSingle _ d i => message_width d (match i with Some i => [written_width i] | None => [] end)
    | RExtMulti _ d l => message_width d (map written_width l)
    | _ =>
        match rel_emit r with
        | Some (EmEmit m) => length m
        | _ =>
            match r with
            | RRead r =>
                match rd_schema r with
                | Some s => max (length (ns_names s)) (match ns_struct s with Some (ts, _, _) => length ts | None => 0 end)
                | None => 1
                end
            | RFilter _ i _ _ | RSort _ i _ _ | RFetch _ i _ _ _ => one i
            | RProject _ i xs _ => one i + length xs
            | RAggregate _ _ xs gs ms _ => length (keys xs gs) + length (functions ms)
            | RJoin _ l r _ _ t _ => joined t (one l) (one r)
            | RCross _ l r _ => one l + one r
            | RSet _ l _ _ => list_sum (map written_width l) / length l
            | _ => 0
            end
        end
    end.
  Definition input_width (i : option prel) : nat := match i with Some i => written_width i | None => 0 end.

  (** ** What is written *)

  (** Column [j] of a relation is written: all are, unless the relation puts out
      chosen columns and the choice is not to be shown but carried out. *)
  Definition column_written (r : prel) (j : nat) : Prop :=
    op_show_emit op = true \/ forall m, rel_emit r = Some (EmEmit m) -> In (Z.of_nat j) m.

  (** The expressions written for a relation itself. *)
  Inductive expr_written (x : pexpr) : prel -> Prop :=
  | ew_row r rows row : rd_type r = ReadVirtual rows -> In row rows -> In x row -> expr_written x (RRead r)
  | ew_rows r rows : rd_type r = ReadVirtual rows -> rd_filter r = Some x -> expr_written x (RRead r)
  | ew_filter c i a : expr_written x (RFilter c i (Some x) a)
  | ew_project c i xs a j : nth_error xs j = Some x -> column_written (RProject c i xs a) (input_width i + j) ->
      expr_written x (RProject c i xs a)
  | ew_old c i xs gs ms a g : old_groups xs gs = true -> In g gs -> In x (gr_exprs g) ->
      expr_written x (RAggregate c i xs gs ms a)
  | ew_group c i xs gs ms a g k : old_groups xs gs = false -> In g gs -> In k (gr_refs g) ->
      nth_error xs (N.to_nat k) = Some x -> expr_written x (RAggregate c i xs gs ms a)
  | ew_key c i xs gs ms a j : nth_error xs j = Some x -> column_written (RAggregate c i xs gs ms a) j ->
      expr_written x (RAggregate c i xs gs ms a)
  | ew_measure c i xs gs ms a j f : nth_error (functions ms) j = Some f -> In (AValue x) (af_args f) ->
      column_written (RAggregate c i xs gs ms a) (length (keys xs gs) + j) ->
      expr_written x (RAggregate c i xs gs ms a)
  | ew_sort c i ss s a : In s ss -> sf_expr s = Some x -> expr_written x (RSort c i ss a)
  | ew_limit c i o a : expr_written x (RFetch c i (Some (FmExpr x)) o a)
  | ew_offset c i n a : expr_written x (RFetch c i n (Some (FmExpr x)) a)
  | ew_join c l r p t a : expr_written x (RJoin c l r (Some x) p t a)
  | ew_post c l r y t a : expr_written x (RJoin c l r y (Some x) t a).

  (** The messages written for a relation itself, with the widths its handler gets. *)
  Inductive message_written : xtype -> any -> list nat -> prel -> Prop :=
  | mw_enhancement d r : In d (rel_enhancement r) -> message_written XtEnhancement d [] r
  | mw_optimization d r : In d (rel_optimizations r) -> message_written XtOptimization d [] r
  | mw_table d r : In d (rel_table r) -> message_written XtTable d [] r
  | mw_leaf c d : message_written XtRelation d [] (RExtLeaf c (Some d))
  | mw_single c d i : message_written XtRelation d (map written_width (opt_list i)) (RExtSingle c (Some d) i)
  | mw_multi c d l : message_written XtRelation d (map written_width l) (RExtMulti c (Some d) l).

  (** ** Crashes *)

  Definition outside (l : literal) : Prop := exists days, l_type l = Some (LDate days) /\ no_date days.

  (** [write_crashes s r]: crash [s] waits in [r] or in a relation it reads. *)
  Inductive write_crashes : string -> prel -> Prop :=
  | wc_date l x r : expr_written x r -> in_expr l x -> outside l -> write_crashes date_crash r
  | wc_argument l t d widths a r : message_written t d widths r -> message t d widths (Ok a) -> in_args l a ->
      (t = XtRelation \/ xa_columns a = []) -> outside l -> write_crashes date_crash r
  | wc_handler s t d widths r : message_written t d widths r -> message t d widths (Panic s) -> write_crashes s r
  | wc_input s i r : rel_input i r -> write_crashes s i -> write_crashes s r.

  Definition plan_crashes (s : string) (p : pplan) : Prop :=
    exists r, (In (PRel r) (pl_rels _ p) \/ exists ns, In (PRoot ns (Some r)) (pl_rels _ p)) /\ write_crashes s r.
End Written.
