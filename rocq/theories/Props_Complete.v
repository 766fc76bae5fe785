(** C62: a parsed plan has nothing missing, and what can be said against one. *)
From Coq Require Import String List NArith ZArith Bool Lia.
From Verif Require Import Base Names SpecNames SimpleExt Out Types Literals SpecLiterals Exprs ExtArgs Registry Rels SpecRels Tree Structural Plan
  SpecPlan Props_Plan Props_Stable SpecLits SpecComplete CompleteOut CompleteRead.
Import ListNotations.
Local Open Scope string_scope.
Local Open Scope list_scope.
Local Open Scope nat_scope.

(** Whatever the text: every part of the plan is given, all that is referred to is
    declared, and every message was made by a handler. *)
Theorem C62_parsed_complete (F : Floats) reg s p : parse reg s = Ok p -> plan_complete true (made_by reg) p.
Proof. exact (parsed_complete F reg s p). Qed.

(** A plan with nothing missing, parsed or not, meets no other complaints than these; none
    about nullabilities if they are all specified. *)
Theorem C62_complete_complaints (U : Unicode) (F : Floats) reg op u D p er : plan_complete u D p ->
  In er (o_errs (format reg op p)) -> complaint reg op u D p er.
Proof. intros H. now apply complete_complaints. Qed.

Theorem C62_parsed_complaints (U : Unicode) (F : Floats) reg op s p er : parse reg s = Ok p ->
  In er (o_errs (format reg op p)) -> complaint reg op true (made_by reg) p er.
Proof. intros H. apply C62_complete_complaints. now apply C62_parsed_complete in H. Qed.

(** Without handlers there are three. *)
Theorem C62_plain_complaints (U : Unicode) (F : Floats) op s p er : parse registry_new s = Ok p ->
  In er (o_errs (format registry_new op p)) ->
  (er = FPlan FInvalid "LiteralType" /\
     exists l, in_plan l p /\ In er (o_errs (literal_out op (fst (from_extensions (pl_urns _ p) (pl_decls _ p))) l))) \/
  (er = FPlan FInvalid "Nullability" /\ ~ plan_complete false (made_by registry_new) p) \/
  (er = FPlan FInvalid "Emitted" /\ op_show_emit op = false /\
     exists r m i, in_plan_rels r (pl_rels _ p) /\ rel_emit r = Some (EmEmit m) /\ In i m /\
       ~ (0 <= i < Z.of_nat (columns_listed registry_new op (fst (from_extensions (pl_urns _ p) (pl_decls _ p))) r))%Z).
Proof.
  intros H He. destruct (C62_parsed_complaints _ _ _ _ _ _ _ H He) as [C|[[-> _]|[C|(t & d & w & (name & a & M) & _)]]]; auto; [|discriminate M].
  right; left. split; [reflexivity|]. intros N.
  destruct (C62_complete_complaints _ _ _ _ _ _ _ _ N He) as [[C _]|[[_ C]|[[C _]|(t & d & w & (name & a & M) & _)]]]; discriminate.
Qed.

(** ** Each of the three is met *)

Section Examples.
  #[local] Existing Instance ascii_tables.
  #[local] Existing Instance toy_floats.

  Theorem C62_each_met :
    (exists p, parse registry_new (text ["=== Plan"; "Project['23:59:60':time]"; "  Read[t => a:i64]"]) = Ok p /\
       o_errs (format registry_new opts_default p) = [FPlan FInvalid "LiteralType"]) /\
    (exists p, parse registry_new (L "=== Plan" ++ [c_nl] ++ L "Read[t => a:i64" ++ [c_unspec] ++ L "]") = Ok p /\
       o_errs (format registry_new opts_default p) = [FPlan FInvalid "Nullability"]) /\
    (exists p, parse registry_new (text ["=== Plan"; "Filter[true => $7]"; "  Read[t => a:i64]"]) = Ok p /\
       o_errs (format registry_new opts_default p) = [FPlan FInvalid "Emitted"]).
  Proof. split; [|split]; (eexists; split; [vm_compute; reflexivity|vm_compute; reflexivity]). Qed.

  (** A parsed plan with declarations, calls, a grouping, a sort and a limit. *)
  Example C62_example : plan_complete true (made_by registry_new) st_plan /\ o_errs (format registry_new opts_default st_plan) = [].
  Proof. split; [exact (C62_parsed_complete _ _ _ _ st_parsed)|vm_compute; reflexivity]. Qed.

  (** Plans that no text gives: a filter without condition, a call of a function that is
      not declared. *)
  Definition cx_read : prel := RRead (mk_read None (Some (mk_named_struct [L "a"] (Some ([TSimple SI64 NRequired 0], 0%N, NRequired)))) None (ReadNamed [L "t"]) None false).
  Definition cx_filter (x : option pexpr) : pplan := mk_plan _ None [] [] [PRel (RFilter None (Some cx_read) x None)].
  Example C62_incomplete : forall s x, In x [None; Some (EFunc 3 [] [] (Some (TSimple SBool NRequired 0)))] ->
    o_errs (format registry_new opts_default (cx_filter x)) <> [] /\ parse registry_new s <> Ok (cx_filter x).
  Proof.
    intros s x Hx. split; [destruct Hx as [<-|[<-|[]]]; vm_compute; discriminate|]. intros H.
    apply C62_parsed_complete in H as [_ [_ H]].
    assert (K : in_plan_rels (RFilter None (Some cx_read) x None) (pl_rels _ (cx_filter x))).
    { eexists _, _. split; [now left|]. split; [now left|constructor]. }
    apply H in K. cbn [rel_complete] in K. destruct K as (_ & K & _). destruct Hx as [<-|[<-|[]]]; vm_compute in K; [destruct K|discriminate K].
  Qed.
End Examples.
