(** Lines that take twice as many rules with every level. *)
From Coq Require Import String List NArith Bool Lia Arith.
From Verif Require Import Base BaseFacts Peg PegFacts Names NamesFacts Anchors AnchorsFacts Types TypesFacts
  Literals Exprs ExprsFacts ExtLines ExtArgs ExtArgsFacts Registry RelGrammar ConsumedFacts Pest PestFacts
  PestText SpecGrammar GrammarFacts GrammarRules GrammarLines SpecSteps StepsFacts.
Import ListNotations.
Local Open Scope string_scope.
Local Open Scope list_scope.
Local Open Scope nat_scope.

(** The rules whose bodies matter. *)
Definition doubling_rules : list string :=
  ["expression"; "if_then"; "if_clause"; "function_call"; "argument_list"; "project_relation";
   "project_argument_list"; "project_argument"; "planNode"; "type"; "compound_type"; "list_type";
   "user_defined_type"; "parameters"; "parameter"; "read_relation"; "output"; "implicit_output";
   "named_column_list"; "named_column"].

Section Doubling.
  Variable G : grammar.
  Hypothesis sub : forall w at_ x s o, derives the_grammar w at_ x s o -> derives G w at_ x s o.
  Hypothesis same : forall nm, In nm doubling_rules -> lookup G nm = lookup the_grammar nm.
  Variable w : list N.

  Notation takes := (takes G w false).

  Lemma rd_none {A} v (p : peg A) x s : (forall n, reads the_grammar w false n v p x) -> p s = None -> takes x s None 0.
  Proof.
    intros H E. specialize (H (S (length s)) s (le_n _)). rewrite E in H. apply takes_some, sub, H.
  Qed.
  Lemma rd_done {A} v (p : peg A) x s a r : (forall n, reads the_grammar w false n v p x) -> p s = Some (a, r) ->
    exists ts, takes x s (Some (ts, r)) 0.
  Proof.
    intros H E. specialize (H (S (length s)) s (le_n _)). rewrite E in H. destruct H as (ts & D & _).
    exists ts. apply takes_some, sub, D.
  Qed.
  Lemma tok_ok t s : takes (QTok t) (t ++ s) (Some ([], s)) 0.
  Proof. apply takes_some. constructor. Qed.
  Lemma tok_no t s : (forall r, s <> t ++ r) -> takes (QTok t) s None 0.
  Proof. intros. apply takes_some. now constructor. Qed.
  Lemma sp_ok c r : (c =? c_sp)%N = false -> exists ts, takes (QRef "sp") (c :: r) (Some (ts, c :: r)) 0.
  Proof.
    intros H. eapply (rd_done _ sp); [intros n; apply rd_sp|]. unfold sp, pmap, pwhile. cbn. now rewrite H.
  Qed.
  Lemma no_more x c r : (c =? c_sp)%N = false -> (c =? 44)%N = false ->
    exists ts, takes (QStar (QSeq (QRef "sp") (QSeq (QTok [44%N]) x))) (c :: r) (Some (ts, c :: r)) 0.
  Proof.
    intros H H'. destruct (sp_ok c r H) as (ts & D). exists []. apply takes_some, d_star_no.
    eapply d_seq_no2; [eapply takes_derives, D|]. apply d_seq_no1, d_tok_no. intros q [= E].
    subst. discriminate.
  Qed.
  Lemma takes_rule nm x s ts r m : In nm doubling_rules -> lookup the_grammar nm = Some (QNormal, x) ->
    takes x s (Some (ts, r)) m -> exists ts', takes (QRef nm) s (Some (ts', r)) m.
  Proof.
    intros I E H. destruct (derives_suffix _ _ _ _ _ _ (takes_derives _ _ _ _ _ _ _ H) _ _ eq_refl) as [t Et].
    exists [Node nm t ts]. eapply (takes_ref G w false nm QNormal); eauto. now rewrite same.
  Qed.
  Lemma takes_rule_no nm x s m : In nm doubling_rules -> lookup the_grammar nm = Some (QNormal, x) ->
    takes x s None m -> takes (QRef nm) s None m.
  Proof. intros I E H. eapply (takes_ref_no G w false nm QNormal); eauto. now rewrite same. Qed.

  Ltac listed := cbn; tauto.
  Ltac enter nm := eapply takes_rule; [listed|the_rule nm|].
  Ltac enter_no nm := eapply takes_rule_no; [listed|the_rule nm|].
  Ltac tokno := apply tok_no; intros ? [=].

  (** *** Calls of a function named like the keyword *)

  (** What may come after a call here: a closing bracket. *)
  Definition closing (c : N) : Prop := c = 41%N \/ c = 93%N.

  Lemma calls_take k : forall c r, closing c ->
    exists ts, takes (QRef "expression") (calls_text k ++ c :: r) (Some (ts, c :: r)) (2 ^ k).
  Proof.
    induction k as [|k IH]; intros c r Hc.
    - assert (E : g_expr (calls_text 0 ++ c :: r) = Some (XLit (CInt (L "1"), None), c :: r)).
      { rewrite g_expr_eq. destruct Hc as [-> | ->]; reflexivity. }
      destruct (rd_done _ _ _ _ _ _ (fun n => rd_expr w n) E) as (ts & D). exists ts.
      apply takes_call. eapply takes_derives, D.
    - cbn [calls_text]. rewrite <- !app_assoc. set (rest := L ":i64" ++ c :: r).
      change (L "):i64" ++ c :: r) with (41%N :: rest). 
      destruct (IH 41%N rest (or_introl eq_refl)) as (ts & D). set (u := calls_text k ++ 41%N :: rest) in *.
      assert (U : exists d u', u = d :: u' /\ (d =? c_sp)%N = false).
      { unfold u. destruct k; cbn; eauto. }
      destruct U as (d & u' & Eu & Hd).
      assert (I : takes (QRef "if_then") (L "if_then(" ++ u) None (2 ^ k)).
      { destruct (sp_ok d u' Hd) as (ts1 & S1). rewrite <- Eu in S1.
        destruct (sp_ok 41%N rest eq_refl) as (ts2 & S2).
        enter_no "if_then". eapply takes_le; [eapply takes_seq_no2; [apply tok_ok|]|].
        - eapply takes_seq_no2; [exact S1|]. apply takes_seq_no1, takes_plus_no, takes_seq_no1.
          enter_no "if_clause". eapply takes_seq_no2; [exact D|]. eapply takes_seq_no2; [exact S2|].
          apply takes_seq_no1. tokno.
        - lia. }
      assert (C : takes (QRef "cast_expression") (L "if_then(" ++ u) None 0).
      { eapply rd_none; [intros n; apply (reads_le _ _ _ n (S n)); [lia|]; apply (rd_cast w g_expr n (rd_expr w n))|]. reflexivity. }
      assert (F : exists ts', takes (QRef "function_reference") (L "if_then(" ++ u) (Some (ts', L "(" ++ u)) 0).
      { eapply (rd_done _ g_function_reference); [intros n; apply rd_function_reference|]. reflexivity. }
      destruct F as (ts3 & F).
      assert (T : exists ts', takes (QRef "type") (L "i64" ++ c :: r) (Some (ts', c :: r)) 0).
      { eapply (rd_done _ g_type); [intros n; apply rd_type|]. rewrite g_type_eq. destruct Hc as [-> | ->]; reflexivity. }
      destruct T as (ts4 & T).
      destruct (sp_ok 40%N u eq_refl) as (ts5 & S5). destruct (sp_ok 105%N (L "64" ++ c :: r) eq_refl) as (ts6 & S6).
      destruct (no_more (QSeq (QRef "sp") (QRef "expression")) 41%N rest eq_refl eq_refl) as (ts7 & S7).
      assert (A : exists ts', takes (QRef "argument_list") (L "(" ++ u) (Some (ts', rest)) (2 ^ k)).
      { enter "argument_list". eapply takes_le.
        - eapply takes_seq; [apply tok_ok|]. eapply takes_seq; [apply takes_opt; eapply takes_seq; [exact D|exact S7]|].
          apply (tok_ok [41%N]).
        - lia. }
      destruct A as (ts8 & A).
      assert (B : exists ts', takes (QRef "function_call") (L "if_then(" ++ u) (Some (ts', c :: r)) (2 ^ k)).
      { enter "function_call". eapply takes_le.
        - eapply takes_seq; [exact F|]. eapply takes_seq; [exact S5|]. eapply takes_seq; [exact A|].
          eapply takes_seq; [apply (tok_ok [58%N])|]. eapply takes_seq; [exact S6|exact T].
        - lia. }
      destruct B as (ts9 & B).
      enter "expression". eapply takes_le.
      + eapply takes_alt_r; [exact I|]. eapply takes_alt_r; [exact C|]. apply takes_alt_l. exact B.
      + cbn [Nat.pow]. lia.
  Qed.

  (** The line of a projection. *)
  Lemma calls_line_takes k : exists ts, takes (QRef "planNode") (calls_line k) (Some (ts, [])) (2 ^ k).
  Proof.
    destruct (calls_take k 93%N [] (or_intror eq_refl)) as (ts & D).
    set (u := calls_text k ++ [93%N]) in *.
    assert (R : takes (QRef "reference") u None 0).
    { eapply (rd_none _ g_reference); [intros n; apply rd_reference|]. unfold u. now destruct k. }
    assert (A : exists ts', takes (QRef "project_argument") u (Some (ts', [93%N])) (2 ^ k)).
    { enter "project_argument". eapply takes_le; [eapply takes_alt_r; [exact R|exact D]|lia]. }
    destruct A as (ts1 & A).
    destruct (no_more (QSeq (QRef "sp") (QRef "project_argument")) 93%N [] eq_refl eq_refl) as (ts2 & S2).
    assert (B : exists ts', takes (QRef "project_argument_list") u (Some (ts', [93%N])) (2 ^ k)).
    { enter "project_argument_list". eapply takes_le; [apply takes_opt; eapply takes_seq; [exact A|exact S2]|lia]. }
    destruct B as (ts3 & B).
    assert (P : exists ts', takes (QRef "project_relation") (calls_line k) (Some (ts', [])) (2 ^ k)).
    { enter "project_relation". eapply takes_le.
      - eapply takes_seq; [apply (tok_ok (L "Project"))|]. eapply takes_seq; [apply (tok_ok [91%N])|].
        eapply takes_seq; [exact B|apply (tok_ok [93%N])].
      - lia. }
    destruct P as (ts4 & P).
    enter "planNode". eapply takes_le.
    - eapply takes_alt_r; [eapply (rd_none _ g_ext_read); [intros n; apply rd_ext_read|reflexivity]|].
      eapply takes_alt_r; [eapply (rd_none _ g_virtual); [intros n; apply rd_virtual|reflexivity]|].
      eapply takes_alt_r; [eapply (rd_none _ g_read); [intros n; apply rd_read|reflexivity]|].
      eapply takes_alt_r; [eapply (rd_none _ g_filter); [intros n; apply rd_filter|reflexivity]|].
      apply takes_alt_l. exact P.
    - lia.
  Qed.

  (** *** Lists left open *)

  Lemma lists_take k : exists o, takes (QRef "type") (open_lists k) o (2 ^ k) /\
    match k with 0 => o = None | S k' => exists ts, o = Some (ts, L "<" ++ open_lists k') end.
  Proof.
    induction k as [|k (o & D & Ho)].
    - exists None. split; [|reflexivity]. apply takes_call. eapply takes_derives.
      eapply (rd_none _ g_type); [intros n; apply rd_type|]. now rewrite g_type_eq.
    - cbn [open_lists]. set (u := open_lists k) in *.
      assert (Nl : exists ts, takes (QRef "nullability") (L "<" ++ u) (Some (ts, L "<" ++ u)) 0).
      { eapply (rd_done _ g_null_suffix); [intros n; apply rd_null_suffix|reflexivity]. }
      destruct Nl as (ts1 & Nl).
      assert (E : takes (QSeq (QRef "type") (QTok [62%N])) u None (2 ^ k)).
      { subst u. destruct k as [|k].
        - subst o. apply takes_seq_no1, D.
        - destruct Ho as (ts & ->). eapply takes_le; [eapply takes_seq_no2; [exact D|tokno]|lia]. }
      assert (Li : takes (QRef "list_type") (L "list<" ++ u) None (2 ^ k)).
      { enter_no "list_type". eapply takes_le.
        - eapply takes_seq_no2; [apply takes_some, (d_ci _ _ _ _ (L "list") (L "<" ++ u)); reflexivity|].
          eapply takes_seq_no2; [exact Nl|]. eapply takes_seq_no2; [apply (tok_ok [60%N])|exact E].
        - lia. }
      assert (Co : takes (QRef "compound_type") (L "list<" ++ u) None (2 ^ k)).
      { enter_no "compound_type". eapply takes_le.
        - eapply takes_alt_r; [exact Li|]. apply takes_some, sub.
          assert (No : forall nm x t, lookup the_grammar nm = Some (QNormal, QSeq (QTokCI t) x) ->
            forallb (fun c => negb (is_upper c)) t = true ->
            ptok_ci t (L "list<" ++ u) = None -> derives the_grammar w false (QRef nm) (L "list<" ++ u) None).
          { intros nm x t El Ht Es. eapply d_ref_no; [exact El|]. apply d_seq_no1.
            pose proof (reads_tok_ci the_grammar w (within false QNormal) (S (length (L "list<" ++ u))) t Ht _ (le_n _)) as H.
            now rewrite Es in H. }
          apply d_alt_r; [eapply No; [the_rule "map_type"|reflexivity..]|].
          apply d_alt_r; [eapply No; [the_rule "struct_type"|reflexivity..]|].
          apply d_alt_r; [eapply No; [the_rule "precision_timestamp_tz_type"|reflexivity..]|].
          apply d_alt_r; [eapply No; [the_rule "precision_timestamp_type"|reflexivity..]|].
          apply d_alt_r; [eapply No; [the_rule "precision_time_type"|reflexivity..]|].
          eapply No; [the_rule "interval_day_type"|reflexivity..].
        - lia. }
      assert (Si : takes (QRef "simple_type") (L "list<" ++ u) None 0).
      { eapply (rd_none _ g_simple_type); [intros n; apply rd_simple_type|reflexivity]. }
      assert (Id : exists ts, takes (QRef "identifier") (L "list<" ++ u) (Some (ts, L "<" ++ u)) 0).
      { eapply (rd_done _ g_identifier); [intros n; apply rd_identifier|reflexivity]. }
      destruct Id as (ts2 & Id).
      assert (An : takes (QRef "anchor") (L "<" ++ u) None 0).
      { eapply (rd_none _ g_anchor); [intros n; apply rd_anchor|reflexivity]. }
      assert (Ua : takes (QRef "urn_anchor") (L "<" ++ u) None 0).
      { eapply (rd_none _ g_urn_anchor); [intros n; apply rd_urn_anchor|reflexivity]. }
      assert (Pa : exists o', takes (QRef "parameter") u o' (2 ^ k) /\
        match k with 0 => o' = None | S k' => exists ts, o' = Some (ts, L "<" ++ open_lists k') end).
      { subst u. destruct k as [|k].
        - exists None. split; [|reflexivity]. subst o. enter_no "parameter". eapply takes_le.
          + eapply takes_alt_r; [exact D|].
            eapply takes_alt_r; [eapply (rd_none _ g_integer); [intros n; apply rd_integer|reflexivity]|].
            eapply (rd_none _ g_name); [intros n; apply rd_name|reflexivity].
          + lia.
        - destruct Ho as (ts & ->).
          assert (A : exists ts', takes (QRef "parameter") (open_lists (S k)) (Some (ts', L "<" ++ open_lists k)) (2 ^ S k)).
          { enter "parameter". apply takes_alt_l. exact D. }
          destruct A as (ts' & A). eauto. }
      destruct Pa as (o' & Pa & Ho').
      assert (Ps : takes (QRef "parameters") (L "<" ++ u) None (2 ^ k)).
      { enter_no "parameters". subst u. destruct k as [|k].
        - subst o'. eapply takes_le.
          + eapply takes_seq_no2; [apply (tok_ok [60%N])|]. eapply takes_seq_no2.
            * apply takes_opt_no, takes_seq_no1. exact Pa.
            * tokno.
          + lia.
        - destruct Ho' as (ts & ->). eapply takes_le.
          + eapply takes_seq_no2; [apply (tok_ok [60%N])|]. eapply takes_seq_no2.
            * apply takes_opt. eapply takes_seq; [exact Pa|]. apply takes_some, d_star_no, d_seq_no1, d_tok_no.
              intros ? [=].
            * tokno.
          + lia. }
      assert (Us : exists ts, takes (QRef "user_defined_type") (L "list<" ++ u) (Some (ts, L "<" ++ u)) (2 ^ k)).
      { enter "user_defined_type". eapply takes_le.
        - eapply takes_seq; [apply takes_opt_no; tokno|]. eapply takes_seq; [exact Id|].
          eapply takes_seq; [apply takes_opt_no, An|]. eapply takes_seq; [apply takes_opt_no, Ua|].
          eapply takes_seq; [exact Nl|]. apply takes_opt_no, Ps.
        - lia. }
      destruct Us as (ts3 & Us).
      assert (Ty : exists ts, takes (QRef "type") (L "list<" ++ u) (Some (ts, L "<" ++ u)) (2 ^ S k)).
      { enter "type". eapply takes_le; [eapply takes_alt_r; [exact Si|]; eapply takes_alt_r; [exact Co|exact Us]|].
        cbn [Nat.pow]. lia. }
      destruct Ty as (ts4 & Ty). eauto.
  Qed.

  (** The line of a read. *)
  Lemma lists_line_takes k : takes (QRef "planNode") (lists_line k) None (2 ^ k).
  Proof.
    destruct (lists_take k) as (o & D & Ho). set (u := open_lists k) in *.
    assert (Na : exists ts, takes (QRef "name") (L "a:" ++ u) (Some (ts, L ":" ++ u)) 0).
    { eapply (rd_done _ g_name); [intros n; apply rd_name|reflexivity]. }
    destruct Na as (ts1 & Na).
    assert (Cl : exists ts r, takes (QRef "named_column_list") (L "a:" ++ u) (Some (ts, r)) (2 ^ k)
      /\ forall q, r <> [93%N] ++ q).
    { subst u. destruct k as [|k].
      - subst o.
        assert (A : exists ts, takes (QRef "named_column_list") (L "a:") (Some (ts, L "a:")) 1).
        { enter "named_column_list". apply takes_opt_no, takes_seq_no1. enter_no "named_column".
          eapply takes_le; [eapply takes_seq_no2; [exact Na|eapply takes_seq_no2; [apply (tok_ok [58%N])|exact D]]|].
          cbn. lia. }
        destruct A as (ts & A). exists ts, (L "a:"). split; [exact A|]. intros q [=].
      - destruct Ho as (ts & ->).
        assert (A : exists ts', takes (QRef "named_column") (L "a:" ++ open_lists (S k))
                      (Some (ts', L "<" ++ open_lists k)) (2 ^ S k)).
        { enter "named_column".
          eapply takes_le; [eapply takes_seq; [exact Na|eapply takes_seq; [apply (tok_ok [58%N])|exact D]]|]. lia. }
        destruct A as (ts2 & A).
        assert (B : exists ts', takes (QRef "named_column_list") (L "a:" ++ open_lists (S k))
                      (Some (ts', L "<" ++ open_lists k)) (2 ^ S k)).
        { enter "named_column_list". eapply takes_le; [apply takes_opt; eapply takes_seq; [exact A|]|].
          - apply takes_some, d_star_no, d_seq_no1, d_tok_no. intros ? [=].
          - lia. }
        destruct B as (ts3 & B). exists ts3, (L "<" ++ open_lists k). split; [exact B|]. intros q [=]. }
    destruct Cl as (ts2 & r & Cl & Hr).
    destruct (sp_ok 97%N (L ":" ++ u) eq_refl) as (ts3 & S3).
    assert (Sp : exists ts, takes (QRef "sp") (L " a:" ++ u) (Some (ts, L "a:" ++ u)) 0).
    { eapply (rd_done _ sp); [intros n; apply rd_sp|reflexivity]. }
    destruct Sp as (ts4 & Sp).
    assert (Im : exists ts, takes (QRef "implicit_output") (L "=> a:" ++ u) (Some (ts, r)) (2 ^ k)).
    { enter "implicit_output". eapply takes_le.
      - eapply takes_seq; [apply (tok_ok (L "=>"))|]. eapply takes_seq; [exact Sp|exact Cl].
      - lia. }
    destruct Im as (ts5 & Im).
    assert (Ou : exists ts, takes (QRef "output") (L "=> a:" ++ u) (Some (ts, r)) (2 ^ k)).
    { enter "output". apply takes_alt_l. exact Im. }
    destruct Ou as (ts6 & Ou).
    assert (Ta : exists ts, takes (QRef "table_name") (L "t => a:" ++ u) (Some (ts, L " => a:" ++ u)) 0).
    { eapply (rd_done _ g_table_name); [intros n; apply rd_table_name|]. reflexivity. }
    destruct Ta as (ts7 & Ta).
    assert (Sq : exists ts, takes (QRef "sp") (L " => a:" ++ u) (Some (ts, L "=> a:" ++ u)) 0).
    { eapply (rd_done _ sp); [intros n; apply rd_sp|reflexivity]. }
    destruct Sq as (ts8 & Sq).
    assert (Re : takes (QRef "read_relation") (lists_line k) None (2 ^ k)).
    { enter_no "read_relation". eapply takes_le.
      - eapply takes_seq_no2; [apply (tok_ok (L "Read"))|]. eapply takes_seq_no2; [apply (tok_ok [91%N])|].
        eapply takes_seq_no2; [exact Ta|]. eapply takes_seq_no2; [exact Sq|].
        eapply takes_seq_no2; [exact Ou|]. apply tok_no, Hr.
      - lia. }
    enter_no "planNode". eapply takes_le.
    - eapply takes_alt_r; [eapply (rd_none _ g_ext_read); [intros n; apply rd_ext_read|reflexivity]|].
      eapply takes_alt_r; [eapply (rd_none _ g_virtual); [intros n; apply rd_virtual|reflexivity]|].
      eapply takes_alt_r; [exact Re|].
      eapply takes_alt_r; [eapply (rd_none _ g_filter); [intros n; apply rd_filter|reflexivity]|].
      eapply takes_alt_r; [eapply (rd_none _ g_project); [intros n; apply rd_project|reflexivity]|].
      eapply takes_alt_r; [eapply (rd_none _ g_aggregate); [intros n; apply rd_aggregate|reflexivity]|].
      eapply takes_alt_r; [eapply (rd_none _ g_sort); [intros n; apply rd_sort|reflexivity]|].
      eapply takes_alt_r; [eapply (rd_none _ g_fetch); [intros n; apply rd_fetch|reflexivity]|].
      eapply takes_alt_r; [eapply (rd_none _ g_join); [intros n; apply rd_join|reflexivity]|].
      eapply takes_alt_r; [eapply (rd_none _ g_set); [intros n; apply rd_set|reflexivity]|].
      eapply takes_alt_r; [eapply (rd_none _ g_cross); [intros n; apply rd_cross|reflexivity]|].
      eapply takes_alt_r; [eapply (rd_none _ g_ext); [intros n; apply rd_ext|reflexivity]|].
      eapply (rd_none _ g_addendum); [intros n; apply rd_addendum|reflexivity].
    - lia.
  Qed.
End Doubling.
