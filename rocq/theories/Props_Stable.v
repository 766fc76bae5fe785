(** C36: a text that was parsed is written to a text with the same plan. *)
From Coq Require Import String List NArith ZArith Bool Lia PeanoNat.
From Verif Require Import Base BaseFacts Peg PegFacts PegYields Names SpecNames SimpleExt SimpleExtFacts SpecExt ExtLinesFacts SpecExtLines Out Anchors
  Types SpecTypes TypesFacts Literals SpecLiterals LiteralsFacts Exprs SpecExprs ExprsFacts ExprEq
  ExtArgs Registry Rels SpecRels RelGrammar RelRead Tree ExtLines Structural Version Plan LineView SpecPlan SpecLits ExtReadFacts RelReadFacts RelTreeFacts
  Props_Literals Props_Ext Props_Preamble Props_Relations Props_Plan SpecStable StableFacts.
Import ListNotations.
Local Open Scope string_scope.
Local Open Scope list_scope.
Local Open Scope nat_scope.

(** A parsed plan can be written, provided only what the reader does not ensure by
    itself: nothing is asked of types, of the form of expressions and calls, of
    table names and grouping sets, or of the tree. *)
Theorem C36_parsed_kept_writable : forall (U : Unicode) (F : Floats) reg op s p,
  keeps_columns reg -> parse reg s = Ok p -> plan_kept reg op p -> plan_writable reg op p.
Proof.
  intros U F reg op s p Hk H (Kv & Kl & Kn & Ke). eapply C36_parsed_writable; [exact H|exact Kv|].
  unfold parse, parse_plan in H. apply rbind_ok in H as (q & Hq & H).
  destruct (C10_read_tables_writable _ _ _ _ _ _ Hq) as [W Hw].
  assert (Hl := accepted_lines _ _ Hq).
  unfold build_plan in H. apply rbind_ok in H as (rels & Hr & H). injection H as <-. cbn [pl_urns pl_decls pl_version pl_rels] in *.
  set (e := xp_exts (ps_ext _ _ q)) in *.
  assert (D : declares e (to_extension_urns e) (to_extension_declarations e)) by (split; reflexivity).
  destruct (Ke e D) as [T Kr]. exists e. split; [exact D|]. cbn [pl_rels].
  assert (Kl' : forall l x, In x rels -> forall i, plan_inputs x = [i] -> in_rel l i -> literal_kept l).
  { intros l x Hx i Hi Hin. apply Kl. exists i. cbn [pl_rels]. split; [|exact Hin].
    destruct x as [r|ns [r|]|]; cbn in Hi; try discriminate; injection Hi as ->; [left|right; exists ns]; exact Hx. }
  assert (Kr' : forall x y, In x rels -> forall i, plan_inputs x = [i] -> subrel y i -> rel_kept reg op e y).
  { intros x y Hx i Hi Hy. apply Kr. exists x, i. rewrite Hi. split; [exact Hx|]. split; [now left|exact Hy]. }
  clear Kl Kr Hq Ke D. clearbody e. apply rlist_ok_inv in Hr.
  induction Hr as [|n x ns xs Hx _ IH]; constructor; inversion Hl as [|? ? Hl1 Hl2]; inversion Kn as [|? ? Kn1 Kn2]; subst.
  - destruct (build_plan_rel_ind reg e readable
        (fun i => exists w, good U F reg op e i w) (fun n' r w Hg Hb => ex_intro _ w (build_rel_good U F reg op e W T Hw Hk n' r w Hg Hb)) n x Hl1 Hx)
      as (i & Hi & w & G).
    destruct G as [Ew Wi]. { intros l Hin. apply (Kl' l x (or_introl eq_refl) i Hi Hin). } { intros y Hy. apply (Kr' x y (or_introl eq_refl) i Hi Hy). }
    destruct x as [r|names [r|]|]; cbn in Hi; try discriminate; injection Hi as ->; cbn [plan_rel_writable]; [eauto|].
    split; [exact Kn1|eauto].
  - apply IH; auto.
    + intros l y Hy. apply (Kl' l y). now right.
    + intros y z Hy. apply (Kr' y z). now right.
Qed.

(** So what a text was parsed to is written to a text that is parsed to the same plan,
    and written to the same text again. *)
Theorem C36_parsed_plans_stable : forall (U : Unicode) (F : Floats) reg op s p,
  ascii_sane U -> readable_options op -> keeps_columns reg ->
  parse reg s = Ok p -> plan_kept reg op p ->
  parse reg (o_text (format reg op p)) = Ok p /\
  forall p', parse reg (o_text (format reg op p)) = Ok p' -> o_text (format reg op p') = o_text (format reg op p).
Proof.
  intros U F reg op s p Ha Ho Hk H K. assert (E : parse reg (o_text (format reg op p)) = Ok p).
  { apply C01_text_is_read_back; auto. eapply C36_parsed_kept_writable; eauto. }
  split; [exact E|]. intros p' Hp'. congruence.
Qed.

(** ** The conditions are needed *)

Definition text (l : list string) : list N := unl (map L l).

Section Refuted.
  #[local] Existing Instance ascii_tables.
  #[local] Existing Instance toy_floats.

  (** A text that is parsed to a plan; the plan is written without any error reported,
      but what is written is not parsed to that plan again. *)
  Definition unstable (op : options) (s : list N) : Prop :=
    exists p, parse registry_new s = Ok p /\ o_errs (format registry_new op p) = [] /\
      parse registry_new (o_text (format registry_new op p)) <> Ok p.

  Ltac witness := eexists; split; [vm_compute; reflexivity|]; split; [vm_compute; reflexivity|vm_compute; discriminate].

  (** A string with a control character: it is written with a numeric escape, which is
      read as other characters; likewise a name. *)
  Theorem C36_string_escape_refuted :
    unstable opts_default (L "=== Plan" ++ [c_nl] ++ L "Project['" ++ [7%N] ++ L "']" ++ [c_nl] ++ L "  Read[t => a:i64]").
  Proof. witness. Qed.
  Theorem C36_name_escape_refuted :
    unstable opts_default (L "=== Plan" ++ [c_nl] ++ L "Read[" ++ [c_dq; 7%N; c_dq] ++ L " => a:i64]") /\
    unstable opts_default (L "=== Plan" ++ [c_nl] ++ L "Read[t => " ++ [c_dq; 7%N; c_dq] ++ L ":i64]") /\
    unstable opts_default (L "=== Plan" ++ [c_nl] ++ L "Root[" ++ [c_dq; 7%N; c_dq] ++ L "]" ++ [c_nl] ++ L "  Read[t => a:i64]").
  Proof. split; [|split]; witness. Qed.
  (** A leap second is read, but is no time that could be written (an error is
      reported). *)
  Theorem C36_leap_second_refuted : exists p,
    parse registry_new (text ["=== Plan"; "Project['23:59:60':time]"; "  Read[t => a:i64]"]) = Ok p /\
    forall q, parse registry_new (o_text (format registry_new opts_default p)) <> Ok q.
  Proof. eexists. split; [vm_compute; reflexivity|]. intros q. vm_compute. discriminate. Qed.
  (** A declared type whose name begins like a built-in one: it can be read with its
      URN, but is written without. *)
  Theorem C36_type_name_refuted :
    unstable opts_default (text ["=== Extensions"; "URNs:"; "  @ 1: u"; "Types:"; "  # 1 @ 1: date_x"; "=== Plan"; "Read[t => a:u!date_x]"]).
  Proof. witness. Qed.
  (** An output column of a Project that repeats an expression's column is written as
      the expression once more. *)
  Theorem C36_project_order_refuted :
    unstable opts_default (text ["=== Plan"; "Project[42, $1]"; "  Read[t => a:i64]"]).
  Proof. witness. Qed.
  (** A single grouping set that begins with a cast. *)
  Theorem C36_grouping_cast_refuted :
    unstable opts_default (text ["=== Plan"; "Aggregate[(($0)::i64) => ($0)::i64]"; "  Read[t => a:i64]"]).
  Proof. witness. Qed.
  (** A Sort without sort fields. *)
  Theorem C36_empty_sort_refuted :
    unstable opts_default (text ["=== Plan"; "Sort[ => $0]"; "  Read[t => a:i64]"]).
  Proof. witness. Qed.
  (** Limits and offsets in verbose output. *)
  Theorem C36_verbose_fetch_refuted :
    unstable opts_verbose (text ["=== Plan"; "Fetch[limit=3 => $0]"; "  Read[t => a:i64]"]).
  Proof. witness. Qed.
  (** A join with the columns of both inputs as output, of a type that has not both. *)
  Theorem C36_narrow_join_refuted :
    unstable opts_default (text ["=== Plan"; "Join[&LeftSemi, true => $0, $1]"; "  Read[t => a:i64]"; "  Read[u => b:i64]"]).
  Proof. witness. Qed.
End Refuted.

(** ** Example *)

Section Example.
  #[local] Existing Instance ascii_tables.
  #[local] Existing Instance toy_floats.

  (** A text in a layout of its own, and the plan it is parsed to. *)
  Definition st_text : list N := text
    ["=== Extensions"; "URNs:"; "  @1: /functions"; "Functions:"; "  #7@1: gt"; "  # 8 @1: sum"; "Types:"; "  #7@1: point"; "=== Plan"; "";
     "Root[total, name]"; "  Fetch[limit=10 => $0, $1]"; "    Sort[($0, &DescNullsLast) => $0, $1]";
     "      Aggregate[($0), _ => sum($1):i64, $0]"; "        Filter[gt#7($1,42):boolean => $1,$0]";
     "          Read[db.t => a:point?, b:i64]"].
  Definition st_plan : pplan := match parse registry_new st_text with Ok p => p | _ => mk_plan _ None [] [] [] end.

  Example st_parsed : parse registry_new st_text = Ok st_plan.
  Proof. vm_compute. reflexivity. Qed.
  Example st_written : o_text (format registry_new opts_default st_plan) = text
    ["=== Extensions"; "URNs:"; "  @  1: /functions"; "Functions:"; "  #  7 @  1: gt"; "  #  8 @  1: sum"; "Types:"; "  #  7 @  1: point"; ""; "=== Plan";
     "Root[total, name]"; "  Fetch[limit=10 => $0, $1]"; "    Sort[($0, &DescNullsLast) => $0, $1]";
     "      Aggregate[($0), _ => sum($1):i64, $0]"; "        Filter[gt($1, 42):boolean => $1, $0]";
     "          Read[db.t => a:point?, b:i64]"].
  Proof. vm_compute. reflexivity. Qed.

  (** Listing the relations and the literals of a plan. *)
  Fixpoint subrels (r : prel) : list prel :=
    r :: match r with
         | RFilter _ (Some i) _ _ | RProject _ (Some i) _ _ | RAggregate _ (Some i) _ _ _ _ | RSort _ (Some i) _ _
         | RFetch _ (Some i) _ _ _ | RExtSingle _ _ (Some i) => subrels i
         | RJoin _ l r _ _ _ _ | RCross _ l r _ =>
             (match l with Some l => subrels l | None => [] end) ++ (match r with Some r => subrels r | None => [] end)
         | RSet _ l _ _ | RExtMulti _ _ l => flat_map subrels l
         | _ => []
         end.
  Fixpoint expr_lits (x : pexpr) : list literal :=
    match x with
    | ELit l => [l]
    | EFunc _ args _ _ => flat_map (fun a => match a with AValue x => expr_lits x | _ => [] end) args
    | EIf ifs els =>
        flat_map (fun c : option pexpr * option pexpr =>
          (match fst c with Some x => expr_lits x | None => [] end) ++ (match snd c with Some x => expr_lits x | None => [] end)) ifs
        ++ (match els with Some x => expr_lits x | None => [] end)
    | ECast _ (Some x) _ => expr_lits x
    | _ => []
    end.
  Definition opt_exprs (x : option pexpr) : list pexpr := match x with Some x => [x] | None => [] end.
  Definition own (r : prel) : list pexpr :=
    match r with
    | RRead r => opt_exprs (rd_filter r) ++ match rd_type r with ReadVirtual rows => concat rows | _ => [] end
    | RFilter _ _ x _ => opt_exprs x
    | RProject _ _ xs _ => xs
    | RAggregate _ _ xs gs ms _ =>
        xs ++ flat_map gr_exprs gs ++
        flat_map (fun m => match ms_fn m with Some f => flat_map (fun a => match a with AValue x => [x] | _ => [] end) (af_args f) | None => [] end) ms
    | RSort _ _ ss _ => flat_map (fun s => opt_exprs (sf_expr s)) ss
    | RFetch _ _ n o _ => (match n with Some (FmExpr x) => [x] | _ => [] end) ++ (match o with Some (FmExpr x) => [x] | _ => [] end)
    | RJoin _ _ _ x p _ _ => opt_exprs x ++ opt_exprs p
    | _ => []
    end.
  Lemma subrel_listed x r : subrel x r -> In x (subrels r).
  Proof.
    induction 1 as [|r i Hi _ IH]; [destruct x; now left|].
    destruct r; cbn [SpecRels.inputs] in Hi; cbn [subrels]; right; try (now destruct Hi);
      repeat match goal with o : option prel |- _ => destruct o end; cbn [opt_list app] in Hi;
      try (apply in_flat_map; eauto; fail); repeat (destruct Hi as [<-|Hi]); try (now destruct Hi); auto; apply in_app_iff; auto.
  Qed.
  Lemma lit_listed l x : in_expr l x -> In l (expr_lits x).
  Proof.
    induction 1 as [|r args opts t x Ha _ IH|ifs els c x Hc Hx _ IH|ifs x _ IH|b x t _ IH]; cbn [expr_lits].
    - now left.
    - apply in_flat_map. exists (AValue x). auto.
    - apply in_app_iff. left. apply in_flat_map. exists c. split; [exact Hc|]. apply in_app_iff. destruct Hx as [-> | ->]; auto.
    - apply in_app_iff. auto.
    - exact IH.
  Qed.
  Lemma own_listed x r : rel_expr x r -> In x (own r).
  Proof.
    destruct 1 as [r H|r rows row H H1 H2| | | |? ? ? ? ? ? ? H H1|? ? ? ? ? ? ? ? H H1 H2|? ? ? ? ? H H1| | | |]; cbn [own]; auto.
    - rewrite H. now left.
    - apply in_app_iff. right. rewrite H. apply in_concat. eauto.
    - now left.
    - apply in_app_iff; auto.
    - apply in_app_iff. right. apply in_app_iff. left. apply in_flat_map. eauto.
    - apply in_app_iff. right. apply in_app_iff. right. apply in_flat_map. eexists. split; [exact H|]. rewrite H1. apply in_flat_map. eexists. split; [exact H2|now left].
    - apply in_flat_map. eexists. split; [exact H|]. rewrite H1. now left.
    - now left.
    - apply in_app_iff. right. now left.
    - now left.
    - apply in_app_iff. right. now left.
  Qed.
  Lemma input_listed i r : rel_input i r -> In i (inputs r).
  Proof. destruct 1; cbn [inputs opt_list]; auto; try (now left); apply in_app_iff; right; now left. Qed.
  Lemma in_rel_listed l r : in_rel l r -> exists y, subrel y r /\ In l (flat_map expr_lits (own y)).
  Proof.
    induction 1 as [x r Hx Hl|i r Hi _ (y & Hy & IH)].
    - exists r. split; [constructor|]. apply in_flat_map. exists x. split; [now apply own_listed|now apply lit_listed].
    - exists y. split; [|exact IH]. eapply subrel_input; [apply input_listed, Hi|exact Hy].
  Qed.
  Definition plan_subrels (p : pplan) : list prel := flat_map (fun q => flat_map subrels (plan_inputs q)) (pl_rels _ p).
  Lemma plan_kept_listed reg op p e : declares e (pl_urns _ p) (pl_decls _ p) -> types_usable e ->
    pl_version _ p <> Some (mk_version 0 0 0 [] []) ->
    Forall (fun q => Forall name_ok (root_names q)) (pl_rels _ p) ->
    Forall (fun r => Forall literal_kept (flat_map expr_lits (own r)) /\ rel_kept reg op e r) (plan_subrels p) ->
    plan_kept reg op p.
  Proof.
    intros D T Hv Hn H. rewrite Forall_forall in H. split; [exact Hv|]. split; [|split; [exact Hn|]].
    - intros l (r & Hr & Hl). apply in_rel_listed in Hl as (y & Hy & Hl). assert (Hin : In y (plan_subrels p)).
      { apply in_flat_map. destruct Hr as [Hr|(ns & Hr)]; (eexists; split; [exact Hr|]); apply in_flat_map;
          exists r; (split; [now left|now apply subrel_listed]). }
      destruct (H y Hin) as [G _]. rewrite Forall_forall in G. auto.
    - intros e' D'. assert (e' = e) as -> by (eapply declares_unique; eauto). split; [exact T|].
      intros x (q & r & Hq & Hr & Hx). apply H. apply in_flat_map. exists q. split; [exact Hq|]. apply in_flat_map. exists r.
      split; [exact Hr|now apply subrel_listed].
  Qed.

  Definition st_exts : exts :=
    mk_exts [(1%N, L "/functions")] [((7%N, KFunction), (1%N, L "gt")); ((7%N, KType), (1%N, L "point")); ((8%N, KFunction), (1%N, L "sum"))].
  Example st_kept : plan_kept registry_new opts_default st_plan.
  Proof.
    apply (plan_kept_listed _ _ _ st_exts).
    - vm_compute. split; reflexivity.
    - intros a u n H. apply decl_get_in in H; [|apply loaded_wf; exists (pl_urns _ st_plan), (pl_decls _ st_plan); vm_compute; reflexivity].
      vm_compute in H. repeat (destruct H as [H|H]; [first [discriminate H
        |injection H as <- <- <-; split; [reflexivity|split; [reflexivity|unfold u32_max; lia]]]|]). destruct H.
    - vm_compute. discriminate.
    - vm_compute. repeat constructor.
    - let l := eval vm_compute in (plan_subrels st_plan) in set (k := l). assert (E : plan_subrels st_plan = k) by (vm_compute; reflexivity).
      rewrite E. clear E. unfold k. repeat (constructor; [split;
        [match goal with |- Forall _ ?l => let v := eval vm_compute in l in change l with v end; repeat constructor|]|]); [..|constructor].
      all: split; [vm_compute; discriminate|]; split; [intros []|]; cbn [rel_kept addenda_kept].
      + (* Fetch *) split; [exact I|]. split; [exact I|]. split; [intros _; reflexivity|exact I].
      + (* Sort *) split; [exact I|]. split; [exact I|discriminate].
      + (* Aggregate *) split; [exact I|]. intros g i rest [=].
      + (* Filter *) split; [exact I|]. unfold refers_within. cbn [rel_emit rel_common_of rc_emit].
        match goal with |- context [available ?r ?x] => replace (available r x) with 2 by (vm_compute; reflexivity) end.
        repeat constructor; lia.
      + (* Read *) split; [intros n [= <-]; repeat constructor|]. split; [intros x [= <-]; repeat constructor|]. split; [intros d [=]|exact I].
  Qed.

  Example st_stable : parse registry_new (o_text (format registry_new opts_default st_plan)) = Ok st_plan.
  Proof.
    refine (proj1 (C36_parsed_plans_stable ascii_tables toy_floats registry_new opts_default _ _ _ _ _ st_parsed st_kept)).
    - exact ascii_tables_sane.
    - repeat split; discriminate.
    - exact ex_keeps.
  Qed.
End Example.
