(** Lines that nest rules as deep as one likes. *)
From Coq Require Import String List NArith Bool Lia Arith.
From Verif Require Import Base BaseFacts Peg PegFacts Names NamesFacts Anchors AnchorsFacts Types TypesFacts
  Literals Exprs ExprsFacts ExtLines ExtArgs ExtArgsFacts Registry RelGrammar ConsumedFacts Pest PestFacts
  PestText SpecGrammar GrammarFacts GrammarRules GrammarLines SpecSteps StepsFacts.
Import ListNotations.
Local Open Scope string_scope.
Local Open Scope list_scope.
Local Open Scope nat_scope.

(** [x] takes [s] as [o] and nests at least [m] rules. *)
Definition nesting G w x s o m : Prop := exists n, nests G w false x s o n /\ m <= n.

(** The rules whose bodies matter. *)
Definition nesting_rules : list string :=
  ["expression"; "cast_expression"; "project_relation"; "project_argument_list"; "project_argument"; "planNode"].

Section Deep.
  Variable G : grammar.
  Hypothesis sub : forall w at_ x s o, derives the_grammar w at_ x s o -> derives G w at_ x s o.
  Hypothesis same : forall nm, In nm nesting_rules -> lookup G nm = lookup the_grammar nm.
  Variable w : list N.

  Notation nesting := (nesting G w).

  Lemma n_some x s o : derives G w false x s o -> nesting x s o 0.
  Proof. intros H. apply (derives_enters Nat.max) in H as [n H]. exists n. split; [auto|lia]. Qed.
  Lemma n_le x s o m k : nesting x s o m -> k <= m -> nesting x s o k.
  Proof. intros (n & H & L) Hk. exists n. split; [auto|lia]. Qed.
  Lemma n_derives x s o m : nesting x s o m -> derives G w false x s o.
  Proof. intros (n & H & L). eapply enters_derives, H. Qed.
  Lemma n_rule nm x s ts r m : In nm nesting_rules -> lookup the_grammar nm = Some (QNormal, x) ->
    nesting x s (Some (ts, r)) m -> exists ts', nesting (QRef nm) s (Some (ts', r)) (S m).
  Proof.
    intros I E H. destruct (derives_suffix _ _ _ _ _ _ (n_derives _ _ _ _ H) _ _ eq_refl) as [t Et].
    destruct H as (n & H & L). exists [Node nm t ts], (S n). split; [|lia].
    eapply (e_ref _ _ _ false nm QNormal); eauto. now rewrite same.
  Qed.
  Lemma n_seq a b s ts r us q m m' : nesting a s (Some (ts, r)) m -> nesting b r (Some (us, q)) m' ->
    nesting (QSeq a b) s (Some (ts ++ us, q)) (Nat.max m m').
  Proof. intros (n & H & L) (n' & H' & L'). exists (Nat.max n n'). split; [eapply e_seq; eauto|lia]. Qed.
  Lemma n_alt_l a b s x m : nesting a s (Some x) m -> nesting (QAlt a b) s (Some x) m.
  Proof. intros (n & H & L). exists n. split; [now apply e_alt_l|auto]. Qed.
  Lemma n_alt_r a b s o m m' : nesting a s None m -> nesting b s o m' -> nesting (QAlt a b) s o (Nat.max m m').
  Proof. intros (n & H & L) (n' & H' & L'). exists (Nat.max n n'). split; [eapply e_alt_r; eauto|lia]. Qed.
  Lemma n_opt a s x m : nesting a s (Some x) m -> nesting (QOpt a) s (Some x) m.
  Proof. intros (n & H & L). exists n. split; [now apply e_opt|auto]. Qed.
  Lemma n_none {A} v (p : peg A) x s : (forall n, reads the_grammar w false n v p x) -> p s = None -> nesting x s None 0.
  Proof.
    intros H E. specialize (H (S (length s)) s (le_n _)). rewrite E in H. apply n_some, sub, H.
  Qed.
  Lemma n_done {A} v (p : peg A) x s a r : (forall n, reads the_grammar w false n v p x) -> p s = Some (a, r) ->
    exists ts, nesting x s (Some (ts, r)) 0.
  Proof.
    intros H E. specialize (H (S (length s)) s (le_n _)). rewrite E in H. destruct H as (ts & D & _).
    exists ts. apply n_some, sub, D.
  Qed.
  Lemma n_tok t s : nesting (QTok t) (t ++ s) (Some ([], s)) 0.
  Proof. apply n_some. constructor. Qed.
  Lemma n_sp c r : (c =? c_sp)%N = false -> exists ts, nesting (QRef "sp") (c :: r) (Some (ts, c :: r)) 0.
  Proof.
    intros H. eapply (n_done _ sp); [intros n; apply rd_sp|]. unfold sp, pmap, pwhile. cbn. now rewrite H.
  Qed.

  Ltac enter nm := eapply n_rule; [cbn; tauto|the_rule nm|].

  Lemma casts_nest k : forall c r, c = 41%N \/ c = 93%N ->
    exists ts, nesting (QRef "expression") (casts_text k ++ c :: r) (Some (ts, c :: r)) (2 * k).
  Proof.
    induction k as [|k IH]; intros c r Hc.
    - assert (E : g_expr (casts_text 0 ++ c :: r) = Some (XLit (CInt (L "1"), None), c :: r)).
      { rewrite g_expr_eq. destruct Hc as [-> | ->]; reflexivity. }
      exact (n_done _ _ _ _ _ _ (fun n => rd_expr w n) E).
    - cbn [casts_text]. rewrite <- !app_assoc. set (rest := L "::i64" ++ c :: r).
      change (L ")::i64" ++ c :: r) with (41%N :: rest).
      destruct (IH 41%N rest (or_introl eq_refl)) as (ts & D). set (u := casts_text k ++ 41%N :: rest) in *.
      assert (U : exists d u', u = d :: u' /\ (d =? c_sp)%N = false).
      { unfold u. destruct k; cbn; eauto. }
      destruct U as (d & u' & Eu & Hd).
      destruct (n_sp d u' Hd) as (ts1 & S1). rewrite <- Eu in S1.
      destruct (n_sp 41%N rest eq_refl) as (ts2 & S2). destruct (n_sp 58%N (L ":i64" ++ c :: r) eq_refl) as (ts3 & S3).
      destruct (n_sp 105%N (L "64" ++ c :: r) eq_refl) as (ts4 & S4).
      assert (B : exists ts', nesting (QOpt (QRef "cast_failure_behavior")) (L "i64" ++ c :: r)
                    (Some (ts', L "i64" ++ c :: r)) 0).
      { exists []. apply n_some, d_opt_no. eapply n_derives. eapply (n_none _ g_behavior); [intros n; apply rd_behavior|reflexivity]. }
      destruct B as (ts5 & B).
      assert (T : exists ts', nesting (QRef "type") (L "i64" ++ c :: r) (Some (ts', c :: r)) 0).
      { eapply (n_done _ g_type); [intros n; apply rd_type|]. rewrite g_type_eq. destruct Hc as [-> | ->]; reflexivity. }
      destruct T as (ts6 & T).
      assert (I : nesting (QRef "if_then") (L "(" ++ u) None 0).
      { eapply n_none; [intros n; apply (reads_le _ _ _ n (S n)); [lia|]; apply (rd_if_then w g_expr)|reflexivity].
        - apply strict_expr.
        - apply rd_expr. }
      assert (C : exists ts', nesting (QRef "cast_expression") (L "(" ++ u) (Some (ts', c :: r)) (S (2 * k))).
      { enter "cast_expression". eapply n_le.
        - eapply n_seq; [apply n_tok|]. eapply n_seq; [exact S1|]. eapply n_seq; [exact D|].
          eapply n_seq; [exact S2|]. eapply n_seq; [apply (n_tok [41%N])|]. eapply n_seq; [exact S3|].
          eapply n_seq; [apply (n_tok [58%N; 58%N])|]. eapply n_seq; [exact S4|]. eapply n_seq; [exact B|].
          eapply n_seq; [exact S4|exact T].
        - lia. }
      destruct C as (ts7 & C).
      assert (E : exists ts', nesting (QRef "expression") (L "(" ++ u) (Some (ts', c :: r)) (S (S (2 * k)))).
      { enter "expression". eapply n_le; [eapply n_alt_r; [exact I|]; apply n_alt_l; exact C|lia]. }
      destruct E as (ts8 & E). exists ts8. eapply n_le; [exact E|lia].
  Qed.

  Lemma casts_line_nests k : exists ts, nesting (QRef "planNode") (casts_line k) (Some (ts, [])) (2 * k).
  Proof.
    destruct (casts_nest k 93%N [] (or_intror eq_refl)) as (ts & D).
    set (u := casts_text k ++ [93%N]) in *.
    assert (R : nesting (QRef "reference") u None 0).
    { eapply (n_none _ g_reference); [intros n; apply rd_reference|]. unfold u. now destruct k. }
    assert (A : exists ts', nesting (QRef "project_argument") u (Some (ts', [93%N])) (S (2 * k))).
    { enter "project_argument". eapply n_le; [eapply n_alt_r; [exact R|exact D]|lia]. }
    destruct A as (ts1 & A).
    assert (S2 : nesting (QStar (QSeq (QRef "sp") (QSeq (QTok [44%N]) (QSeq (QRef "sp") (QRef "project_argument")))))
                   [93%N] (Some ([], [93%N])) 0).
    { destruct (n_sp 93%N [] eq_refl) as (ts3 & S3). apply n_some, d_star_no.
      eapply d_seq_no2; [eapply n_derives, S3|]. apply d_seq_no1, d_tok_no. intros q [=]. }
    assert (B : exists ts', nesting (QRef "project_argument_list") u (Some (ts', [93%N])) (S (2 * k))).
    {
      destruct (n_rule "project_argument_list" _ u _ [93%N] (S (2 * k)) ltac:(cbn; tauto)
        ltac:(the_rule "project_argument_list")
        ltac:(eapply n_le; [apply n_opt; eapply n_seq; [exact A|exact S2]|lia])) as (t & B). exists t. eapply n_le; [exact B|lia]. }
    destruct B as (ts3 & B).
    assert (P : exists ts', nesting (QRef "project_relation") (casts_line k) (Some (ts', [])) (S (2 * k))).
    { destruct (n_rule "project_relation" _ (casts_line k) _ [] (S (2 * k)) ltac:(cbn; tauto)
        ltac:(the_rule "project_relation")
        ltac:(eapply n_le; [eapply n_seq; [apply (n_tok (L "Project"))|]; eapply n_seq; [apply (n_tok [91%N])|];
                            eapply n_seq; [exact B|apply (n_tok [93%N])]|lia])) as (t & P). exists t. eapply n_le; [exact P|lia]. }
    destruct P as (ts4 & P).
    assert (Q : exists ts', nesting (QRef "planNode") (casts_line k) (Some (ts', [])) (S (S (2 * k)))).
    { enter "planNode". eapply n_le.
      - eapply n_alt_r; [eapply (n_none _ g_ext_read); [intros n; apply rd_ext_read|reflexivity]|].
        eapply n_alt_r; [eapply (n_none _ g_virtual); [intros n; apply rd_virtual|reflexivity]|].
        eapply n_alt_r; [eapply (n_none _ g_read); [intros n; apply rd_read|reflexivity]|].
        eapply n_alt_r; [eapply (n_none _ g_filter); [intros n; apply rd_filter|reflexivity]|].
        apply n_alt_l. exact P.
      - lia. }
    destruct Q as (ts5 & Q). exists ts5. eapply n_le; [exact Q|lia].
  Qed.
End Deep.
