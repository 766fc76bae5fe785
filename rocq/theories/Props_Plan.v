(** Properties of whole plans: what is written is read back. *)
From Coq Require Import String List NArith ZArith Bool Lia PeanoNat.
From Verif Require Import Base BaseFacts Peg Names SpecNames SimpleExt SimpleExtFacts SpecExt ExtLinesFacts SpecExtLines Out
  Types SpecTypes TypesFacts Lines SpecLines LinesFacts Tree SpecTree Literals SpecLiterals Exprs SpecExprs ExprsFacts ExprEq
  ExtArgs Registry Rels SpecRels RelGrammar RelRead Structural Version PreambleFacts Plan LineView ReadFacts SpecPlan NoNewline
  ExtArgsFacts RelTextFacts VirtualFacts PlanFacts PlanQuiet ExtLines StructuralFacts Props_Preamble ParsedFacts Props_Ext Props_Exprs Props_Literals SpecRegistry Props_Registry.
Import ListNotations.
Local Open Scope string_scope.
Local Open Scope list_scope.
Local Open Scope nat_scope.

(** ** Lines of a plan *)

Lemma unl_app a b : unl (a ++ b) = unl a ++ unl b.
Proof. unfold unl. now rewrite map_app, concat_app. Qed.
Lemma blank_fresh : fresh_group [[]].
Proof. split; [constructor|]. now vm_compute. Qed.

(** The trees of plan relations, one empty line between two of them. *)
Section Lines.
  Context (U : Unicode) (F : Floats).
  Variable (reg : registry) (op : options) (e : exts).
  Hypotheses (Hascii : ascii_sane U) (Hop : readable_options op) (W : wf_exts e).
  Let P := plan_rel_writable reg op e (fun x => expr_ok e x = true) (fun t => type_ok e t = true) (fun a => aggfn_ok e a = true).

  Lemma rels_back l : Forall P l -> exists f ks,
    rlist (build_plan_rel reg e) f = Ok l /\
    L "=== Plan" ++ [c_nl] ++ o_text (osep [c_nl; c_nl] (map (plan_rel_out reg op e) l)) ++ [c_nl]
    = unl (L "=== Plan" :: concat ks) /\
    Forall fresh_group ks /\ Forall (Forall nl_free) ks /\
    Forall2 good (filter (fun k => negb (is_blank_group k)) ks) (flatten_all f).
  Proof.
    destruct Hop as (Hi & Ha & Ht & Hs). destruct l as [|p l]; intros H.
    - exists [], [[[]]]. cbn [rlist map osep o_text onil concat app]. split; [reflexivity|]. split; [reflexivity|].
      split; [repeat constructor|]. split; [repeat constructor|]. constructor.
    - assert (G : exists f ks, rlist (build_plan_rel reg e) f = Ok (p :: l) /\
        [c_nl] ++ o_text (osep [c_nl; c_nl] (map (plan_rel_out reg op e) (p :: l))) = broken (concat ks) /\
        Forall fresh_group ks /\ Forall (Forall nl_free) ks /\
        Forall2 good (filter (fun k => negb (is_blank_group k)) ks) (flatten_all f)).
      { revert p H. induction l as [|q l IH]; intros p H; apply Forall_cons_iff in H as [Hp Hl];
          destruct (plan_rel_back U F op Hi Hascii reg e W Ha Ht Hs p Hp) as (n & ks & B & E & G);
          assert (Gk : filter (fun k => negb (is_blank_group k)) ks = ks /\ Forall fresh_group ks /\ Forall (Forall nl_free) ks);
          try (clear - G; induction G as [|k x ks xs (G1 & G2 & G3 & _) _ (IH1 & IH2 & IH3)]; [repeat constructor|];
               cbn [filter]; unfold is_blank_group at 1; rewrite G3; cbn [negb]; rewrite IH1; repeat split; constructor; auto);
          destruct Gk as (Gk1 & Gk2 & Gk3).
        - exists [n], ks. cbn [rlist]. rewrite B. split; [reflexivity|]. split; [exact E|]. split; [exact Gk2|]. split; [exact Gk3|].
          rewrite Gk1. unfold flatten_all. cbn [map concat]. now rewrite app_nil_r.
        - destruct (IH q Hl) as (f & ks' & B' & E' & F1 & F2 & F3). exists (n :: f), (ks ++ [[]] :: ks').
          cbn [rlist]. rewrite B. cbn [rbind]. rewrite B'. split; [reflexivity|]. split.
          + rewrite concat_app. cbn [concat app]. rewrite broken_app.
            change (broken ([] :: concat ks')) with ([c_nl] ++ broken (concat ks')). rewrite <- E, <- E'.
            cbn [map osep]. rewrite !o_text_app. cbn [o_text txt]. now rewrite <- !app_assoc.
          + split; [apply Forall_app; split; [exact Gk2|constructor; [apply blank_fresh|exact F1]]|].
            split; [apply Forall_app; split; [exact Gk3|constructor; [repeat constructor|exact F2]]|].
            rewrite filter_app, Gk1. unfold flatten_all. cbn [map concat filter].
            change (is_blank_group [[]]) with true. cbn [negb]. now apply Forall2_app. }
      destruct G as (f & ks & B & E & G). exists f, ks. split; [exact B|]. split; [|exact G].
      rewrite app_assoc with (l := [c_nl]), E, broken_unl. reflexivity.
  Qed.
End Lines.

(** ** C01 *)

Lemma version_kept_read v : version_kept v ->
  match v with Some w => version_writable w | None => true end = true /\ version_read v = v.
Proof.
  destruct v as [[a b c pr g]|]; [|now split]. cbn [version_kept v_major v_minor v_patch v_producer v_git].
  intros ((H1 & H2 & H3) & [P1 P2] & [Q1 Q2] & Hd). split.
  - unfold version_writable, is_u32. cbn [v_major v_minor v_patch v_producer v_git]. rewrite P2, Q2.
    change c_nl with 10%N. rewrite P1, Q1.
    repeat (apply andb_true_iff; split); try reflexivity; now apply N.leb_le.
  - cbn [version_read]. destruct (version_is_default _) eqn:E.
    + exfalso. apply Hd. unfold version_is_default in E. cbn [v_major v_minor v_patch v_producer v_git] in E. bool_hyps.
      destruct pr, g; try discriminate. f_equal; now apply N.eqb_eq.
    + unfold version_trimmed. cbn [v_major v_minor v_patch v_producer v_git]. now rewrite P2, Q2.
Qed.

Lemma declares_exported e us ds : declares e us ds -> us = to_extension_urns e /\ ds = to_extension_declarations e.
Proof. intros [-> ->]. split; reflexivity. Qed.

(** A plan the text format can carry is parsed back from its text. *)
Theorem C01_text_is_read_back : forall (U : Unicode) (F : Floats) reg op p,
  ascii_sane U -> readable_options op -> plan_writable reg op p ->
  parse reg (o_text (format reg op p)) = Ok p.
Proof.
  intros U F reg op [v us ds rels] Hascii Hop (e & W & Hw & Hd & Hv & Hr). cbn [pl_urns pl_decls pl_version pl_rels] in *.
  apply declares_exported in Hd as [-> ->]. destruct (version_kept_read v Hv) as [Hv1 Hv2].
  destruct (rels_back U F reg op e Hascii Hop W rels Hr) as (f & ks & B & E & F1 & F2 & F3).
  assert (Hop' := Hop). destruct Hop' as (Hi & _).
  rewrite <- Hv2 at 2. apply (parse_lines F reg v e (if exts_is_empty e then [] else [[]]) ks f rels); auto.
  - destruct (exts_is_empty e); repeat constructor.
  - unfold format. cbn [pl_urns pl_decls pl_version pl_rels]. rewrite (load_exported e W Hw).
    unfold relations_out. rewrite !o_text_app. cbn [o_text txt]. rewrite Hi. cbn [app].
    assert (T : lines_text (version_lines (L "  ") v) ++ lines_text (exts_lines (L "  ") e) ++ (if exts_is_empty e then [] else [c_nl])
        ++ ((hdr_plan ++ [c_nl]) ++ o_text (osep [c_nl; c_nl] (map (plan_rel_out reg op e) rels))) ++ [c_nl]
      = unl (version_lines (L "  ") v ++ exts_lines (L "  ") e ++ (if exts_is_empty e then [] else [[]]) ++ L "=== Plan" :: concat ks)).
    { rewrite !unl_app. change lines_text with unl. f_equal. f_equal. f_equal; [now destruct (exts_is_empty e)|].
      rewrite <- E. unfold hdr_plan. now rewrite <- !app_assoc. }
    rewrite <- !app_assoc in T. rewrite <- !app_assoc. rewrite T. apply text_lines_unl.
    repeat (apply Forall_app; split).
    + now apply version_nl_free.
    + now apply exts_nl_free.
    + destruct (exts_is_empty e); repeat constructor.
    + constructor; [reflexivity|]. clear - F2. induction F2; cbn [concat]; [constructor|]. now apply Forall_app.
Qed.

Lemma plan_clean_writable (U : Unicode) (F : Floats) reg op p : plan_clean reg op p -> plan_writable reg op p.
Proof.
  intros (e & H1 & H2 & H3 & H4 & H5). exists e. split; [exact H1|split; [exact H2|split; [exact H3|split; [exact H4|]]]].
  eapply Forall_impl; [|exact H5]. intros r. apply plan_rel_larger; tauto.
Qed.

(** A clean plan is written without error and parsed back. *)
Theorem C01_plan_round_trip : forall (U : Unicode) (F : Floats) reg op p,
  ascii_sane U -> readable_options op -> plan_clean reg op p ->
  o_errs (format reg op p) = [] /\ o_toks (format reg op p) = [] /\ o_panics (format reg op p) = [] /\
  parse reg (o_text (format reg op p)) = Ok p.
Proof.
  intros U F reg op p Hascii Hop H.
  assert (Q : quiet (format reg op p)).
  { destruct H as (e & W & Hw & Hd & Hv & Hr). destruct p as [v us ds rels]. cbn [pl_urns pl_decls pl_version pl_rels] in *.
    apply declares_exported in Hd as [-> ->]. unfold format. cbn [pl_urns pl_decls pl_version pl_rels].
    rewrite (load_exported e W Hw). cbn [map]. change (mk_out [] [] [] []) with onil. unfold relations_out.
    repeat (apply quiet_app; [now auto with quiet|]). apply quiet_app; [|apply quiet_txt]. apply quiet_app; [apply quiet_txt|].
    apply quiet_sep. apply Forall_map. eapply Forall_impl; [|exact Hr]. intros r. destruct Hop as (_ & Ha & Ht & _). apply plan_rel_quiet.
    - intros x [A B]. now apply expr_quiet.
    - intros t [A B]. now apply type_quiet.
    - intros a [A B]. now apply measure_quiet. }
  destruct Q as (Q1 & Q2 & Q3). repeat (split; [assumption|]).
  apply C01_text_is_read_back; auto. now apply plan_clean_writable.
Qed.

(** ** C36 *)

Lemma declares_unique e e' us ds : declares e us ds -> declares e' us ds -> e = e'.
Proof.
  intros [-> ->] [H1 H2]. destruct e as [u d], e' as [u' d']. cbn [e_urns e_decls] in *. f_equal.
  - clear H2. revert u' H1. induction u as [|[a x] u IH]; intros [|[a' x'] u'] H; try discriminate; [reflexivity|].
    cbn [map fst snd] in H. injection H as -> -> H. now rewrite (IH u' H).
  - clear H1. revert d' H2. induction d as [|[[a k] [x n]] d IH]; intros [|[[a' k'] [x' n']] d'] H; try discriminate; [reflexivity|].
    cbn [map] in H. injection H as -> -> -> -> H. now rewrite (IH d' H).
Qed.

(** The declarations and the version of a parsed plan can be carried, except for the
    version 0.0.0 without producer and hash. *)
Theorem C36_parsed_writable : forall (U : Unicode) (F : Floats) reg op s p,
  parse reg s = Ok p -> pl_version _ p <> Some (mk_version 0 0 0 [] []) ->
  relations_writable reg op p -> plan_writable reg op p.
Proof.
  intros U F reg op s p H Hv (e' & Hd & Hr). unfold parse, parse_plan in H. apply rbind_ok in H as (q & Hq & H).
  unfold build_plan in H. apply rbind_ok in H as (rels & _ & H). injection H as <-. cbn [pl_urns pl_decls pl_version pl_rels] in *.
  set (e := xp_exts (ps_ext _ _ q)) in *.
  assert (D : declares e (to_extension_urns e) (to_extension_declarations e)) by (split; reflexivity).
  assert (e' = e) as -> by (eapply declares_unique; eauto).
  destruct (C10_read_tables_writable _ _ _ _ _ _ Hq) as [W Hw].
  exists e. cbn [pl_urns pl_decls pl_version pl_rels]. split; [exact W|]. split; [exact Hw|]. split; [exact D|]. split; [|exact Hr].
  apply read_version_fine in Hq. destruct (ps_version rline acst q) as [v|]; [|exact I].
  destruct Hq as (B & P & G). split; [exact B|]. split; [exact P|]. split; [exact G|]. congruence.
Qed.

(** So what a text was parsed to is stable: it is written to a text that is parsed to
    the same plan and written to the same text. *)
Theorem C36_formatting_is_stable : forall (U : Unicode) (F : Floats) reg op s p,
  ascii_sane U -> readable_options op ->
  parse reg s = Ok p -> pl_version _ p <> Some (mk_version 0 0 0 [] []) -> relations_writable reg op p ->
  parse reg (o_text (format reg op p)) = Ok p /\
  forall p', parse reg (o_text (format reg op p)) = Ok p' -> o_text (format reg op p') = o_text (format reg op p).
Proof.
  intros U F reg op s p Ha Ho H Hv Hr. assert (E : parse reg (o_text (format reg op p)) = Ok p).
  { apply C01_text_is_read_back; auto. eapply C36_parsed_writable; eauto. }
  split; [exact E|]. intros p' Hp'. congruence.
Qed.

(** ** C35 *)

(** Plans for the verbose options are plans for the default options. *)
Lemma verbose_default (U : Unicode) (F : Floats) reg p : plan_writable reg opts_verbose p -> plan_writable reg opts_default p.
Proof.
  intros (e & H1 & H2 & H3 & H4 & H5). exists e. split; [exact H1|split; [exact H2|split; [exact H3|split; [exact H4|]]]].
  eapply Forall_impl; [|exact H5].
  assert (G : forall r w, writable reg opts_verbose e (fun x => expr_ok e x = true) (fun t => type_ok e t = true) (fun a => aggfn_ok e a = true) r w ->
                          writable reg opts_default e (fun x => expr_ok e x = true) (fun t => type_ok e t = true) (fun a => aggfn_ok e a = true) r w).
  { apply (writable_min U F reg opts_verbose e _ _ _ _
      (writable_list reg opts_default e (fun x => expr_ok e x = true) (fun t => type_ok e t = true) (fun a => aggfn_ok e a = true)));
      intros; try (econstructor; eauto; fail).
    assert (B : forall m, bound_writable opts_verbose (fun x => expr_ok e x = true) m -> bound_writable opts_default (fun x => expr_ok e x = true) m).
    { clear. intros [[x|z]|]; cbn [bound_writable]; auto. destruct x; auto. destruct (is_number l); auto. intros [H _]. discriminate. }
    econstructor; eauto. }
  intros [r|names [r|]|]; cbn [plan_rel_writable]; auto.
  - intros (w & H). eauto.
  - intros (Hn & w & H). eauto.
Qed.

(** The texts written with the default and with the verbose options are parsed to the
    same plan.  Missing: the limits and offsets written as numbers, which cannot be
    read back from the verbose text (see below). *)
Theorem C35_modes_agree_partial : forall (U : Unicode) (F : Floats) reg p,
  ascii_sane U -> plan_writable reg opts_verbose p ->
  parse reg (o_text (format reg opts_default p)) = Ok p /\ parse reg (o_text (format reg opts_verbose p)) = Ok p.
Proof.
  intros U F reg p Ha H. split; apply C01_text_is_read_back; auto; try (repeat split; discriminate).
  now apply verbose_default.
Qed.

(** ** Examples *)
Section Examples.
  #[local] Existing Instance ascii_tables.
  #[local] Existing Instance toy_floats.

  Definition px_i64 : ptype := TSimple SI64 NRequired 0.
  Definition px_read : prel :=
    RRead (mk_read direct
      (Some (mk_named_struct [L "a"; L "b c"] (Some ([px_i64; TList (Some (TUser 10 [] NNullable 0)) NRequired 0], 0%N, NRequired))))
      None (ReadNamed [L "db"; L "my table"]) (Some (mk_advext (Some (mk_any (L "u/1") (L "7:h"))) [])) false).
  Definition px_virtual : prel :=
    RRead (mk_read direct (Some (mk_named_struct [L "v"] (Some ([px_i64], 0%N, NRequired))))
      (Some (ELit (mk_lit (Some (LBool true)) false 0)))
      (ReadVirtual [[ELit (mk_lit (Some (LI64 (-3))) false 0)]; [ex_call 10 [AValue (ELit (mk_lit (Some (LString (L "a]b"))) false 0))]]]) None false).
  Definition px_join : prel :=
    RJoin direct (Some px_read) (Some px_virtual) (Some (ex_call 10 [AValue (ex_field 0); AValue (ex_field 2)])) None 1 None.
  Definition px_filter : prel := RFilter (emit [2; 0]%Z) (Some px_join) (Some ex_expr) None.
  Definition px_aggregate : prel :=
    RAggregate (emit [1; 0]%Z) (Some px_filter) [ex_field 0] [mk_grouping [0%N] []; mk_grouping [] []]
      [mk_measure (Some (mk_aggfn 13 [] [] (Some px_i64) 0 0)) None] None.
  Definition px_project : prel := RProject (emit [2; 0]%Z) (Some px_aggregate) [ex_call 12 [AValue (ex_field 1)]] None.
  Definition px_sort : prel := RSort direct (Some px_project) [mk_sort_field (Some (ex_field 0)) (Some (SkDirection 3))] None.
  Definition px_fetch : prel :=
    RFetch direct (Some px_sort) (Some (FmExpr (ELit (mk_lit (Some (LI64 10)) false 0)))) None None.
  Definition px_leaf : prel := RExtLeaf direct (Some (mk_any (L "u/1") (L "7:a/b"))).
  Definition px_plan : pplan :=
    mk_plan _ (Some (mk_version 0 42 1 (L "some producer") [])) (to_extension_urns ex_exts) (to_extension_declarations ex_exts)
      [PRoot [L "x"; L "y z"] (Some px_fetch); PRel px_leaf].

  Definition px_X (x : pexpr) : Prop := expr_ok ex_exts x = true /\ expr_clean x = true.
  Definition px_T (t : ptype) : Prop := type_ok ex_exts t = true /\ nulls_given t = true.
  Definition px_M (a : aggfn) : Prop := aggfn_ok ex_exts a = true /\ aggfn_clean a = true.
  Notation px_writable := (writable (run_regs ex_history) opts_default ex_exts px_X px_T px_M).

  Lemma px_args s : str_ok s = true -> args_writable ex_exts px_X px_T (mk_xargs [XString s] [(L "limit", XInteger 7)] []).
  Proof.
    intros Hs. split; [repeat constructor; exact Hs|]. split; [|split; [|constructor]].
    - constructor; [|constructor]. split; [reflexivity|]. split; [reflexivity|]. now constructor.
    - constructor; [intros []|constructor].
  Qed.
  Lemma px_read_ok : px_writable px_read 2.
  Proof.
    apply w_read with (n := 2).
    - discriminate.
    - constructor; [left; reflexivity|]. constructor; [right; reflexivity|constructor].
    - exists [(L "a", px_i64); (L "b c", TList (Some (TUser 10 [] NNullable 0)) NRequired 0)]. split; [reflexivity|]. split; [|reflexivity].
      constructor; [split; [left; reflexivity|now split]|]. constructor; [split; [right; reflexivity|now split]|constructor].
    - split; [left; discriminate|]. split; [|constructor]. intros d [= <-]. exists (L "Hint"), (mk_xargs [XString (L "h")] [(L "limit", XInteger 7)] []).
      split; [vm_compute; reflexivity|]. split; [vm_compute; reflexivity|]. split; [reflexivity|]. split; [now apply px_args|reflexivity].
    - left. split; reflexivity.
  Qed.
  Lemma px_virtual_ok : px_writable px_virtual 1.
  Proof.
    apply w_virtual.
    - exists [(L "v", px_i64)]. split; [reflexivity|]. split; [|reflexivity]. constructor; [split; [left; reflexivity|now split]|constructor].
    - split; reflexivity.
    - constructor; [constructor; [split; vm_compute; reflexivity|constructor]|]. constructor; [constructor; [split; vm_compute; reflexivity|constructor]|constructor].
    - exact I.
  Qed.
  Lemma px_join_ok : px_writable px_join 3.
  Proof.
    eapply w_join with (shown := 3); [exact px_read_ok|exact px_virtual_ok|now split|exact I|exact I|reflexivity| |].
    - apply (jo_inner 2 1).
    - apply (emits_direct 3). vm_compute. discriminate.
  Qed.
  Lemma px_filter_ok : px_writable px_filter 2.
  Proof.
    eapply w_filter; [exact px_join_ok|exact ex_expr_ok|exact I|]. apply (emits_emit [2; 0]%Z).
    - vm_compute. discriminate.
    - vm_compute. discriminate.
    - repeat constructor; lia.
    - discriminate.
  Qed.
  Lemma px_aggregate_ok : px_writable px_aggregate 2.
  Proof.
    eapply w_aggregate; [exact px_filter_ok| | |exact I| |].
    - split; [discriminate|]. split; [repeat constructor|]. split; [reflexivity|]. split; [repeat constructor|].
      intros g i r E. discriminate.
    - constructor; [|constructor]. split; [reflexivity|]. eexists. split; [reflexivity|]. split; [now split|].
      intros [E|[]]. discriminate.
    - apply (emits_emit [1; 0]%Z); [vm_compute; discriminate|vm_compute; discriminate|repeat constructor; cbn; lia|discriminate].
    - reflexivity.
  Qed.
  Lemma px_project_ok : px_writable px_project 2.
  Proof.
    eapply w_project; [exact px_aggregate_ok| | |exact I| |].
    - constructor; [now split|constructor].
    - repeat constructor.
    - apply (emits_emit [2; 0]%Z); [vm_compute; discriminate|vm_compute; discriminate|repeat constructor; cbn; lia|discriminate].
    - reflexivity.
  Qed.
  Lemma px_fetch_ok : px_writable px_fetch 2.
  Proof.
    assert (D : emits direct 2 2 (all_columns 2) 2) by (apply emits_direct; vm_compute; discriminate).
    eapply w_fetch; [|split; [reflexivity|]|exact I|exact I|exact D].
    - eapply w_sort; [exact px_project_ok|discriminate| |exact I|exact D].
      constructor; [|constructor]. exists (ex_field 0), 3%Z. split; [reflexivity|]. split; [now split|lia].
    - exists 10%Z. split; [reflexivity|]. split; [lia|reflexivity].
  Qed.
  Lemma px_leaf_ok : px_writable px_leaf 0.
  Proof.
    apply w_leaf with (cols := []). exists (L "Scan"), ex_args. split; [exact ex_decode|]. split; [exact ex_parse|]. split; [reflexivity|].
    split; [now apply px_args|reflexivity].
  Qed.
  Lemma px_clean : plan_clean (run_regs ex_history) opts_default px_plan.
  Proof.
    exists ex_exts. split; [apply wf_from_extensions|]. split; [vm_compute; reflexivity|]. split; [split; reflexivity|].
    split; [repeat split; try discriminate; vm_compute; congruence|].
    constructor; [|constructor; [|constructor]].
    - split; [constructor; [left; reflexivity|]; constructor; [right; reflexivity|constructor]|]. exists 2. exact px_fetch_ok.
    - exists 0. exact px_leaf_ok.
  Qed.
  (** The text of this plan. *)
  Example px_text : o_text (format (run_regs ex_history) opts_default px_plan) = unl (map L [
    "=== Version 0.42.1";
    "  producer: some producer";
    "=== Extensions";
    "URNs:";
    "  @  1: urn:a";
    "  @  2: urn:b";
    "Functions:";
    "  # 10 @  1: add:i64_i64";
    "  # 11 @  2: add:i64_i64";
    "  # 12 @  1: add";
    "  # 13 @  1: count:";
    "Types:";
    "  # 10 @  1: json";
    "";
    "=== Plan";
    "Root[x, ""y z""]";
    "  Fetch[limit=10 => $0, $1]";
    "    Sort[($0, &DescNullsFirst) => $0, $1]";
    "      Project[add#12($1):i64, $0]";
    "        Aggregate[($0), _ => count():i64, $0]";
    "          Filter[if_then(add:i64_i64#10($0, -3):i64 -> ($4)::?string?, true:boolean? -> count():i64, _ -> (if_then($1 -> add:i64_i64#11(add#12($7):i64):i64, _ -> 'a(b)'))::!list<json?>) => $2, $0]";
    "            Join[&Inner, add:i64_i64#10($0, $2):i64 => $0, $1, $2]";
    "              Read[db.""my table"" => a:i64, ""b c"":list<json?>]";
    "                + Enh:Hint['h', limit=7]";
    "              Read:Virtual[(-3), (add:i64_i64#10('a]b'):i64), filter=true => v:i64]";
    "";
    "ExtensionLeaf:Scan['a/b', limit=7 => ]"
    ]%string).
  Proof. vm_compute. reflexivity. Qed.
  Example px_back : parse (run_regs ex_history) (o_text (format (run_regs ex_history) opts_default px_plan)) = Ok px_plan.
  Proof. apply C01_plan_round_trip; [exact ascii_tables_sane|repeat split; discriminate|exact px_clean]. Qed.

  (** C01 and C35 do not hold for all plans that are written without error: a limit
      is written with its type by the verbose options, and then cannot be read.  The
      same plan is read back from the default text. *)
  Definition px_limit : pplan :=
    mk_plan _ None [] [] [PRel (RFetch direct
      (Some (RRead (mk_read direct (Some (mk_named_struct [L "a"] (Some ([px_i64], 0%N, NRequired)))) None (ReadNamed [L "t"]) None false)))
      (Some (FmExpr (ELit (mk_lit (Some (LI64 10)) false 0)))) None None)].
  Theorem C35_modes_agree_refuted : exists p,
    plan_clean registry_new opts_default p /\ quiet (format registry_new opts_verbose p) /\
    parse registry_new (o_text (format registry_new opts_default p)) = Ok p /\
    forall q, parse registry_new (o_text (format registry_new opts_verbose p)) <> Ok q.
  Proof.
    exists px_limit. split; [|split; [|split]].
    - exists exts_empty. split; [apply wf_empty|]. split; [reflexivity|]. split; [split; reflexivity|]. split; [exact I|].
      constructor; [|constructor]. exists 1.
      eapply w_fetch; [|split; [reflexivity|]|exact I|exact I|apply (emits_direct 1); vm_compute; discriminate].
      + apply w_read with (n := 1); [discriminate|constructor; [left; reflexivity|constructor]| |exact I|left; split; reflexivity].
        exists [(L "a", px_i64)]. split; [reflexivity|]. split; [|reflexivity]. constructor; [split; [left; reflexivity|now split]|constructor].
      + exists 10%Z. split; [reflexivity|]. split; [lia|reflexivity].
    - vm_compute. repeat split.
    - vm_compute. reflexivity.
    - intros q. vm_compute. discriminate.
  Qed.

  (** C36: the version 0.0.0 is dropped by the formatter. *)
  Theorem C36_default_version_refuted : exists s p,
    parse registry_new s = Ok p /\ pl_version _ p = Some (mk_version 0 0 0 [] []) /\
    exists q, parse registry_new (o_text (format registry_new opts_default p)) = Ok q /\ pl_version _ q = None.
  Proof.
    exists (unl (map L ["=== Version 0.0.0"; "=== Plan"]%string)). eexists. split; [vm_compute; reflexivity|].
    split; [reflexivity|]. eexists. split; [vm_compute; reflexivity|reflexivity].
  Qed.

  (** C36: of a parsed relation the meaning may change, too: a column beyond those of
      the input is accepted but cannot be written. *)
  Theorem C36_columns_refuted : exists s p,
    parse registry_new s = Ok p /\ o_errs (format registry_new opts_default p) <> [] /\
    forall q, parse registry_new (o_text (format registry_new opts_default p)) <> Ok q.
  Proof.
    exists (unl (map L ["=== Plan"; "Project[$7]"; "  Read[t => a:i64]"]%string)). eexists. split; [vm_compute; reflexivity|].
    split; [vm_compute; discriminate|]. intros q. vm_compute. discriminate.
  Qed.

  (** A text in another layout is parsed to a plan that is stable. *)
  Example px_stable : exists s p, parse (run_regs ex_history) s = Ok p /\ p = px_plan /\
    s <> o_text (format (run_regs ex_history) opts_default p) /\
    pl_version _ p <> Some (mk_version 0 0 0 [] []) /\ relations_writable (run_regs ex_history) opts_default p.
  Proof.
    exists (o_text (format (run_regs ex_history) opts_default px_plan) ++ [c_nl]), px_plan.
    split; [vm_compute; reflexivity|]. split; [reflexivity|]. split; [|split; [discriminate|]].
    - vm_compute. discriminate.
    - destruct (plan_clean_writable _ _ _ _ _ px_clean) as (e & _ & _ & Hd & _ & Hr). exists e. split; assumption.
  Qed.
End Examples.
