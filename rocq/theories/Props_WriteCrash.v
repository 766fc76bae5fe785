(** C66: exactly which plans crash when they are formatted. *)
From Coq Require Import String List NArith ZArith Bool Lia.
From Verif Require Import Base Names SpecNames SimpleExt Out Types Literals SpecLiterals Exprs ExtArgs Registry SpecRegistry Rels
  SpecRels SpecAddenda Plan Structural SpecLits SpecVisible SpecFormat SpecWriteCrash WriteCrash WriteCrashRels.
Import ListNotations.
Local Open Scope string_scope.
Local Open Scope list_scope.
Local Open Scope nat_scope.

(** The crashes of formatting a plan are those that wait in what is written of it:
    dates outside the calendar in its written expressions or in what a handler makes
    of a written message, and panics of the handlers of written messages. *)
Theorem C66_crashes : forall (U : Unicode) (F : Floats) reg op p s,
  In s (o_panics (format reg op p)) <-> plan_crashes reg op s p.
Proof. exact pan_format. Qed.

(** So a plan is formatted without a crash exactly when none waits. *)
Theorem C66_no_crash : forall (U : Unicode) (F : Floats) reg op p,
  o_panics (format reg op p) = [] <-> forall s, ~ plan_crashes reg op s p.
Proof.
  intros U F reg op p. split.
  - intros H s K. apply (C66_crashes U F) in K. rewrite H in K. destruct K.
  - intros H. destruct (o_panics (format reg op p)) as [|s l] eqn:E; [reflexivity|exfalso].
    apply (H s), (C66_crashes U F). rewrite E. now left.
Qed.

Lemma column_written_opts op op' r j : op_show_emit op = op_show_emit op' -> column_written op r j -> column_written op' r j.
Proof. unfold column_written. now intros <-. Qed.
Lemma crashes_opts {F : Floats} reg op op' s r : op_show_emit op = op_show_emit op' ->
  write_crashes reg op s r -> write_crashes reg op' s r.
Proof.
  intros E H. induction H as [l x r W H O|l t d ws a r W M H T O|s t d ws r W M|s i r I H IH].
  - eapply wc_date; [|exact H|exact O]. destruct W;
      [eapply ew_row|eapply ew_rows|apply ew_filter|eapply ew_project|eapply ew_old|eapply ew_group|eapply ew_key|
      eapply ew_measure|eapply ew_sort|apply ew_limit|apply ew_offset|apply ew_join|apply ew_post];
      eauto using column_written_opts.
  - eapply wc_argument; eauto.
  - eapply wc_handler; eauto.
  - eapply wc_input; eauto.
Qed.

(** Of the options only whether chosen columns are shown matters, and of the plan
    only its relations. *)
Theorem C66_options : forall (U : Unicode) (F : Floats) reg op op' p p' s,
  op_show_emit op = op_show_emit op' -> pl_rels _ p = pl_rels _ p' ->
  (In s (o_panics (format reg op p)) <-> In s (o_panics (format reg op' p'))).
Proof.
  intros U F reg op op' p p' s E R. rewrite !C66_crashes. unfold plan_crashes. rewrite R.
  split; intros (r & Hr & H); exists r; (split; [exact Hr|]); (eapply crashes_opts; [|exact H]); congruence.
Qed.

(** Showing the choice of columns can only add crashes. *)
Theorem C66_show_emit : forall (U : Unicode) (F : Floats) reg op op' p s,
  op_show_emit op' = true -> In s (o_panics (format reg op p)) -> In s (o_panics (format reg op' p)).
Proof.
  intros U F reg op op' p s E. rewrite !C66_crashes. intros (r & Hr & H). exists r. split; [exact Hr|]. clear Hr.
  induction H as [l x r W H O|l t d ws a r W M H T O|s t d ws r W M|s i r I H IH].
  - eapply wc_date; [|exact H|exact O]. destruct W;
      [eapply ew_row|eapply ew_rows|apply ew_filter|eapply ew_project|eapply ew_old|eapply ew_group|eapply ew_key|
      eapply ew_measure|eapply ew_sort|apply ew_limit|apply ew_offset|apply ew_join|apply ew_post];
      eauto; now left.
  - eapply wc_argument; eauto.
  - eapply wc_handler; eauto.
  - eapply wc_input; eauto.
Qed.

(** ** Examples *)
Section Examples.
  #[local] Existing Instance ascii_tables.
  #[local] Existing Instance toy_floats.

  Definition far : pexpr := ELit (mk_lit (Some (LDate 95026237)) false 0).
  Definition near : pexpr := ELit (mk_lit (Some (LDate 0)) false 0).
  Definition wx_read (f : option pexpr) : prel :=
    RRead (mk_read None (Some (mk_named_struct [L "a"] None)) f (ReadNamed [L "t"]) None false).
  Definition wx_plan (r : prel) : pplan := mk_plan _ None [] [] [PRoot [L "a"] (Some r)].
  Definition wx_project (m : list Z) : prel :=
    RProject (Some (mk_common (Some (EmEmit m)) false)) (Some (wx_read None)) [near; far] None.
  Definition opts_shown : options := mk_options VRequired VRequired true false (L "  ") 3.

  (** A date that is not put out is not written, unless the choice is shown: column 2
      is the second expression after the one column read. *)
  Example wx_hidden : o_panics (format registry_new opts_default (wx_plan (wx_project [0; 1]%Z))) = [] /\
    o_panics (format registry_new opts_default (wx_plan (wx_project [0; 2]%Z))) = [date_crash] /\
    o_panics (format registry_new opts_shown (wx_plan (wx_project [0; 1]%Z))) = [date_crash].
  Proof. vm_compute. auto. Qed.
  Example wx_hidden_spec : plan_crashes registry_new opts_default date_crash (wx_plan (wx_project [0; 2]%Z)).
  Proof.
    exists (wx_project [0; 2]%Z). split; [right; eexists; now left|]. eapply wc_date with (x := far).
    - apply (ew_project _ _ _ _ _ _ _ 1); [reflexivity|]. right. intros m [= <-]. right. now left.
    - constructor.
    - exists 95026237%Z. split; [reflexivity|right; reflexivity].
  Qed.
  (** The filter of a named read is not written at all, that of a virtual one is. *)
  Example wx_filters : o_panics (format registry_new opts_default (wx_plan (wx_read (Some far)))) = [] /\
    o_panics (format registry_new opts_default (wx_plan (RRead (mk_read None (Some (mk_named_struct [L "a"] None)) (Some far)
      (ReadVirtual [[near]]) None false)))) = [date_crash].
  Proof. vm_compute. auto. Qed.
  (** A measure is counted after the expressions grouped by, those without a function
      left out; its own filter is not written. *)
  Definition wx_measures (m : list Z) : prel :=
    RAggregate (Some (mk_common (Some (EmEmit m)) false)) (Some (wx_read None)) [near]
      [mk_grouping [0%N] []]
      [mk_measure None (Some far); mk_measure (Some (mk_aggfn 1 [AValue far] [] None 0 0)) (Some far)] None.
  Example wx_measured : o_panics (format registry_new opts_default (wx_plan (wx_measures [0; 2]%Z))) = [] /\
    o_panics (format registry_new opts_default (wx_plan (wx_measures [1]%Z))) = [date_crash].
  Proof. vm_compute. auto. Qed.
  (** An expression grouped by is written with the grouping sets, whatever is put out. *)
  Example wx_grouped : o_panics (format registry_new opts_default (wx_plan (RAggregate (Some (mk_common (Some (EmEmit [])) false))
      (Some (wx_read None)) [] [mk_grouping [] [near; far]] [] None))) = [date_crash].
  Proof. vm_compute. reflexivity. Qed.

  (** A handler that panics for one input of two columns, and shows a date otherwise. *)
  Definition wx_handler : extension :=
    mk_extension unit (L "X") (L "u") (PReturn (Ok tt))
      (fun _ ws => match ws with [2] => Panic "two columns" | _ => Ok (mk_xargs [XTuple [XExpr near; XExpr far]] [] []) end)
      (fun _ => Ok (mk_any (L "u") [])) (fun _ => Ok tt).
  Definition wx_registry (t : xtype) : registry := snd (register t wx_handler registry_new).
  Definition wx_extension (m : list Z) : prel := RExtSingle None (Some (mk_any (L "u") [])) (Some (wx_project m)).
  Example wx_handlers :
    o_panics (format (wx_registry XtRelation) opts_default (wx_plan (wx_extension [0; 1]%Z))) = ["two columns"] /\
    o_panics (format (wx_registry XtRelation) opts_default (wx_plan (wx_extension [0]%Z))) = [date_crash] /\
    o_panics (format (wx_registry XtTable) opts_default (wx_plan (wx_extension [0]%Z))) = [].
  Proof. vm_compute. auto. Qed.
  Example wx_handlers_spec : plan_crashes (wx_registry XtRelation) opts_default "two columns" (wx_plan (wx_extension [0; 1]%Z)).
  Proof.
    exists (wx_extension [0; 1]%Z). split; [right; eexists; now left|].
    eapply wc_handler; [apply mw_single|]. exists (L "X"), wx_handler. repeat split; reflexivity.
  Qed.
  (** A hypothesis of [C66_options] and [C66_show_emit] met: the same plan with other
      options and declarations. *)
  Example wx_options : o_panics (format registry_new opts_verbose (mk_plan _ None [mk_urn 1 (L "u")] [] (pl_rels _ (wx_plan (wx_project [2]%Z))))) = [date_crash].
  Proof. vm_compute. reflexivity. Qed.
End Examples.
Print Assumptions C66_crashes.
Print Assumptions C66_no_crash.
Print Assumptions C66_options.
Print Assumptions C66_show_emit.
