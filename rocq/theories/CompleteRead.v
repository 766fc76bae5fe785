(** What is parsed has nothing missing. *)
From Coq Require Import String List NArith ZArith Bool Lia.
From Verif Require Import Base BaseFacts Peg Names SimpleExt SimpleExtFacts Out Anchors Types TypesFacts Literals Exprs ExprsFacts
  ExprEq ExtArgs Registry Rels RelGrammar RelRead RelReadFacts Tree TreeFacts Structural SpecPlan SpecRels RelTreeFacts Plan
  MeaningFacts SpecMeaning ExtLines ExtLinesFacts SpecExt CrashFacts ExtReadFacts Props_Preamble Props_Visible StableFacts SpecLits SpecComplete.
Import ListNotations.
Local Open Scope string_scope.
Local Open Scope list_scope.
Local Open Scope nat_scope.

Section Read.
  Context (F : Floats).
  Variables (reg : registry) (e : exts).
  Hypothesis W : wf_exts e.
  Notation X := (fun x => expr_complete true e x = true).

  Lemma function_declared a name r : get_and_validate_anchor e KFunction a name = Ok r -> declared e KFunction r = true.
  Proof.
    unfold get_and_validate_anchor. intros H. apply rmap_ok in H as (x & H & ->). unfold lift_missing in H.
    destruct (resolve_function e name a) as [y| |] eqn:E; try discriminate. injection H as <-.
    unfold resolve_function in E. apply rbind_ok in E as (b & _ & E).
    destruct (decl_get e KFunction b) as [[u n]|] eqn:D; [|rewrite (lookup_function_none _ _ D) in E; discriminate].
    rewrite (lookup_function_spec _ _ _ _ W D) in E. injection E as <-. cbn [rf_anchor]. unfold declared. now rewrite D.
  Qed.
  Lemma type_declared a name r : get_and_validate_anchor e KType a name = Ok r -> declared e KType r = true.
  Proof.
    cbn [get_and_validate_anchor]. unfold declared. destruct a as [a|]; intros H.
    - apply rbind_ok in H as (un & H & Hn). destruct (_ || _); [|discriminate]. injection Hn as <-.
      unfold find_by_anchor in H. destruct (decl_get e KType a); [reflexivity|discriminate].
    - unfold lift_missing in H. destruct (find_by_name e KType name) as [y| |] eqn:E; try discriminate. injection H as <-.
      apply find_by_name_ok in E as [(u & E) _]; auto. now rewrite E.
  Qed.

  Lemma any_settled n : settled true n = true. Proof. now destruct n. Qed.
  Lemma type_made : forall c t, lower_type e c = Ok t -> type_complete true e t = true.
  Proof.
    apply (tcst_ind2 (fun c => forall t, lower_type e c = Ok t -> type_complete true e t = true)
      (fun c => forall p, lower_param e c = Ok p ->
         match p with PType t => type_complete true e t | PNone => false | _ => true end = true)); cbn [lower_type lower_param]; intros; try discriminate.
    - destruct (simple_kind s); [|discriminate]. injection H as <-. cbn [type_complete]. now rewrite any_settled.
    - apply rmap_ok in H0 as (u & Hu & ->). cbn [type_complete]. now rewrite (H _ Hu), any_settled.
    - apply rmap_ok in H as (u & Hu & ->). cbn [type_complete]. now rewrite any_settled.
    - apply rmap_ok in H as (u & Hu & ->). cbn [type_complete]. now rewrite any_settled.
    - apply rbind_ok in H0 as (? & _ & H0). apply rbind_ok in H0 as (? & _ & H0). apply rbind_ok in H0 as (l & Hl & H0).
      apply rbind_ok in H0 as (r & Hr & H0). injection H0 as <-. cbn [type_complete]. rewrite (type_declared _ _ _ Hr), any_settled. cbn [andb].
      rewrite andb_true_r. apply forallb_forall. destruct ps as [l0|]; [|injection Hl as <-; intros ? []].
      specialize (H _ eq_refl). apply params_loop_inv in Hl. clear - H Hl. induction Hl as [|c p l0 l Hp _ IH]; [intros ? []|].
      inversion H; subst. intros q [<-|Hq]; auto.
    - apply rmap_ok in H0 as (u & Hu & ->). auto.
  Qed.

  Lemma literal_made c l : lower_literal e c = Ok l -> literal_complete true e l = true.
  Proof.
    unfold lower_literal. intros H. apply rbind_ok in H as (t & Ht & H).
    assert (Hp : match t with Some t => type_complete true e t = true | None => True end).
    { destruct (snd c) as [tc|]; [|injection Ht as <-; exact I]. apply rmap_ok in Ht as (t' & Ht & ->). now apply type_made in Ht. }
    unfold literal_complete. destruct (fst c) as [s|s|s|s|].
    - unfold to_float_literal in H. destruct t as [[k n v|k p n v|p n v|p n v|k p n v|p q n v|ts n v|t n v|a b n v|r ps n v|r| | |]|]; try discriminate;
        try destruct k; try discriminate; injection H as <-; reflexivity.
    - unfold to_int_literal in H. apply rbind_ok in H as (z & Hz & H).
      destruct t as [[k n v|k p n v|p n v|p n v|k p n v|p q n v|ts n v|t n v|a b n v|r ps n v|r| | |]|]; try discriminate;
        try destruct k; try discriminate; injection H as <-; reflexivity.
    - unfold to_boolean_literal in H. destruct t as [[k n v|k p n v|p n v|p n v|k p n v|p q n v|ts n v|t n v|a b n v|r ps n v|r| | |]|]; try discriminate;
        try destruct k; try discriminate; injection H as <-; reflexivity.
    - unfold to_string_literal in H. apply rbind_ok in H as (x & _ & H).
      destruct t as [[k n v|k p n v|p n v|p n v|k p n v|p q n v|ts n v|t n v|a b n v|r ps n v|r| | |]|];
        try destruct k; try (injection H as H; subst l; reflexivity);
        try (apply rbind_ok in H as (z & Hz & H); injection H as <-; reflexivity).
      destruct p as [p|]; [|discriminate]. destruct (prec_of_units p) as [q|]; [|discriminate]. apply rbind_ok in H as (i & Hi & H).
      injection H as <-. reflexivity.
    - unfold to_null_literal in H. destruct t as [t|]; [|discriminate]. injection H as <-. exact Hp.
  Qed.

  Lemma args_made args l : Forall (fun c => forall x, lower_expr e c = Ok x -> X x) args ->
    rlist (fun x => rmap AValue (lower_expr e x)) args = Ok l -> forallb (arg_complete true e) l = true.
  Proof.
    intros IH H. apply rlist_ok_inv in H. induction H as [|c y args l Hy _ IHl]; [reflexivity|].
    inversion IH; subst. apply rmap_ok in Hy as (x & Hx & ->). cbn [forallb arg_complete]. apply andb_true_iff. split; auto.
  Qed.
  Lemma expr_made : forall c x, lower_expr e c = Ok x -> X x.
  Proof.
    induction c as [ifs els IH1 IH2|x b t IH|f args t IH|s|c] using ecst_ind2; cbn [lower_expr]; intros y H.
    - apply rbind_ok in H as (l & Hl & H). apply rbind_ok in H as (z & Hz & H). injection H as <-.
      cbn [expr_complete]. apply andb_true_iff. split; [|auto]. clear Hz.
      revert l Hl. induction ifs as [|p ifs IH]; intros l H; cbn [clauses_loop] in H; [injection H as <-; reflexivity|].
      apply rbind_ok in H as (q & Hq & H). apply guard_drop_ok in Hq. apply rbind_ok in H as (qs & Hqs & H). injection H as <-.
      inversion IH1 as [|? ? [A B] A']; subst. cbn [forallb].
      apply rbind_ok in Hq as (a & Ha & Hq). apply rbind_ok in Hq as (b & Hb & Hq). injection Hq as <-. cbn [fst snd].
      now rewrite (A _ Ha), (B _ Hb), (IH A' _ Hqs).
    - apply rbind_ok in H as (z & Hz & H). apply rbind_ok in H as (u & Hu & H). injection H as <-. cbn [expr_complete opt_b].
      rewrite (IH _ Hz), (type_made _ _ Hu). destruct b as [b|]; cbn [behavior_value]; [destruct (b =? 63)%N; reflexivity|reflexivity].
    - apply rbind_ok in H as (a & _ & H). apply rbind_ok in H as (l & Hl & H). apply rbind_ok in H as (u & Hu & H). apply rbind_ok in H as (r & Hr & H).
      injection H as <-. cbn [expr_complete opt_b]. rewrite (function_declared _ _ _ Hr), (type_made _ _ Hu). rewrite andb_true_r. exact (args_made _ _ IH Hl).
    - apply rmap_ok in H as (i & Hi & ->). reflexivity.
    - apply rmap_ok in H as (l & Hl & ->). cbn [expr_complete]. now apply literal_made in Hl.
  Qed.
  Lemma measure_made f args t a : lower_measure e (f, args, t) = Ok a -> measure_complete true e (mk_measure (Some a) None) = true.
  Proof.
    cbn [lower_measure]. intros H. apply rbind_ok in H as (x & _ & H). apply rbind_ok in H as (l & Hl & H).
    apply rbind_ok in H as (u & Hu & H). apply rbind_ok in H as (r & Hr & H). injection H as <-.
    unfold measure_complete. cbn [ms_fn af_out af_ref af_args opt_b].
    rewrite (function_declared _ _ _ Hr), (type_made _ _ Hu), (args_made args l); auto. apply Forall_forall. intros c _. apply expr_made.
  Qed.
  Lemma exprs_made l xs : lower_exprs e l = Ok xs -> Forall X xs.
  Proof. intros H. eapply rlist_Forall; [|exact H]. apply Forall_forall. intros c _. apply expr_made. Qed.
  Lemma opt_made c x : lower_opt_expr e c = Ok x -> if_given X x.
  Proof. destruct c; cbn [lower_opt_expr]; [|intros [= <-]; exact I]. intros H. apply rmap_ok in H as (y & H & ->). now apply expr_made in H. Qed.

  Lemma schema_made l cols : lower_columns e l = Ok cols -> schema_complete true e (build_named_struct cols).
  Proof.
    intros H. unfold schema_complete, build_named_struct. cbn [ns_struct ns_names given fst]. split; [now rewrite !map_length|].
    apply Forall_map. eapply rlist_Forall; [|exact H]. apply Forall_forall. intros c _ [n t] Hc. apply rbind_ok in Hc as (n' & _ & Hc).
    apply rbind_ok in Hc as (t' & Ht & Hc). injection Hc as <- <-. now apply type_made in Ht.
  Qed.
  Lemma resolve_made t line name a d : resolve reg t line name a = Ok d -> made_by reg t d.
  Proof. intros H. apply resolve_ok in H. exists name, a. exact H. Qed.
  Lemma loop_made l : forall enh opts p, standard_loop reg l enh opts = Ok p -> if_given (made_by reg XtEnhancement) enh ->
    Forall (made_by reg XtOptimization) opts ->
    if_given (made_by reg XtEnhancement) (fst p) /\ Forall (made_by reg XtOptimization) (snd p).
  Proof.
    induction l as [|a l IH]; intros enh opts p H He Ho; cbn [standard_loop] in H; [injection H as <-; now split|].
    destruct (ai_kind a) eqn:Ek; try discriminate.
    - destruct enh; [discriminate|]. apply rbind_ok in H as (d & Hd & H). unfold resolve_addendum in Hd. rewrite Ek in Hd.
      apply (IH _ _ _ H); auto. now apply resolve_made in Hd.
    - apply rbind_ok in H as (d & Hd & H). unfold resolve_addendum in Hd. rewrite Ek in Hd.
      apply (IH _ _ _ H); auto. apply Forall_app. split; auto. repeat constructor. now apply resolve_made in Hd.
  Qed.
  Lemma addenda_made l a : standard_addenda reg l = Ok a -> addenda_complete (made_by reg) a.
  Proof.
    unfold standard_addenda. intros H. apply rbind_ok in H as ([enh opts] & Hp & H).
    apply loop_made in Hp as [A B]; [|exact I|constructor]. cbn [fst snd] in *.
    destruct enh, opts; injection H as <-; try exact I; now split.
  Qed.
  Lemma number_named l s z : enum_number l s = Some z -> named_number l z.
  Proof.
    induction l as [|[k n] l IH]; cbn [enum_number]; [discriminate|]. destruct (streqb _ _).
    - intros [= ->]. exists n. now left.
    - intros H. destruct (IH H) as [m Hm]. exists m. now right.
  Qed.
  Lemma groups_read g sets groups gexprs : lower_groups e g = Ok sets -> build_grouping_fields sets = (groups, gexprs) ->
    Forall X gexprs /\ Forall (fun g => gr_exprs g = [] /\ Forall (fun n => N.to_nat n < length gexprs) (gr_refs g)) groups.
  Proof.
    intros Hs Hb. assert (Hx : Forall (Forall X) sets).
    { destruct g as [l|l]; cbn [lower_groups] in Hs.
      - eapply rlist_Forall; [|exact Hs]. apply Forall_forall. intros c _ xs. apply exprs_made.
      - apply rbind_ok in Hs as (xs & Hx & Hs). injection Hs as <-. repeat constructor. now apply exprs_made in Hx. }
    split.
    - unfold build_grouping_fields in Hb. destruct (intern_sets [] sets) as [xs gs] eqn:Ei. injection Hb as <- <-.
      now destruct (intern_sets_plain _ _ _ _ _ Ei (Forall_nil _) Hx) as (A & _ & _).
    - apply build_grouping_fields_spec in Hb as (_ & _ & Hf). clear - Hf. induction Hf as [|s g sets groups [H1 H2] _ IH]; constructor; auto.
      split; [exact H1|]. clear - H2. induction H2 as [|x i s is Hx _ IH]; constructor; auto. unfold at_pos in Hx. apply nth_error_Some. congruence.
  Qed.
  Lemma outputs_read gexprs l : forall k ms m, lower_outputs e gexprs k l = Ok (ms, m) -> Forall (fun m => measure_complete true e m = true) ms.
  Proof.
    induction l as [|c l IH]; intros k ms m H; cbn [lower_outputs] in H; [injection H as <- <-; constructor|].
    apply rbind_ok in H as (x & Hx & H). destruct (last_pos 0 x gexprs).
    - apply rbind_ok in H as ([ms' m'] & Hr & H). injection H as <- <-. eauto.
    - destruct c as [| |f a t| |]; try discriminate. apply rbind_ok in H as (fn & Hf & H). apply rbind_ok in H as ([ms' m'] & Hr & H).
      injection H as <- <-. constructor; eauto. eapply measure_made; eauto.
  Qed.
  Lemma project_read n l : forall k xs m, lower_project e n k l = Ok (xs, m) -> Forall X xs.
  Proof.
    induction l as [|a l IH]; intros k xs m H; cbn [lower_project] in H; [injection H as <- <-; constructor|]. destruct a as [s|c].
    - apply rbind_ok in H as (i & _ & H). apply rbind_ok in H as ([xs' m'] & Hp & H). injection H as <- <-. eauto.
    - apply rbind_ok in H as (x & Hx & H). apply rbind_ok in H as ([xs' m'] & Hp & H). injection H as <- <-.
      constructor; eauto. now apply expr_made in Hx.
  Qed.
  Lemma sorts_read l ss : rlist (lower_sort_field e) l = Ok ss ->
    Forall (fun s => given X (sf_expr s) /\
       given (fun k => match k with SkDirection d => named_number sort_directions d | _ => False end) (sf_kind s)) ss.
  Proof.
    intros H. eapply rlist_Forall; [|exact H]. apply Forall_forall. intros c _ s Hs.
    unfold lower_sort_field in Hs. apply rbind_ok in Hs as (x & Hx & Hs). apply guard_drop_ok in Hx.
    destruct (enum_number _ _) as [d|] eqn:Ed; [|discriminate]. injection Hs as <-. cbn [sf_expr sf_kind given]. split.
    - now apply expr_made in Hx.
    - now apply number_named in Ed.
  Qed.
  Lemma bound_read what v m : lower_fetch_opt e what v = Ok m -> bound_complete true e m.
  Proof.
    destruct v as [v|]; cbn [lower_fetch_opt]; [|intros [= <-]; exact I]. intros H. apply rmap_ok in H as (y & Hy & ->).
    destruct v as [s|c]; cbn [lower_fetch_value] in Hy.
    - destruct (parse_i64 s); [|discriminate]. destruct (_ <? _)%Z; [discriminate|]. injection Hy as <-. reflexivity.
    - apply rmap_ok in Hy as (x & Hx & ->). now apply expr_made in Hx.
  Qed.

  Lemma lower_rel_complete y cs ads adv r w : standard_addenda reg ads = Ok adv -> lower_rel e y cs adv = Ok (r, w) ->
    rel_complete true e (made_by reg) r.
  Proof.
    intros Ha H. apply addenda_made in Ha. destruct y; cbn [lower_rel] in H; try discriminate.
    - destruct cs; [|discriminate]. apply rbind_ok in H as (names & Hn & H). apply rbind_ok in H as ([[cols c] n] & Ho & H).
      injection H as <- <-. cbn [rel_complete rd_schema rd_filter rd_adv rd_type given]. split; [|split; [exact I|split; [exact Ha|exact I]]].
      destruct o as [l|l refs]; cbn [lower_output] in Ho; apply rbind_ok in Ho as (cols' & Hl & Ho).
      + injection Ho as -> _ _. eapply schema_made; eauto.
      + apply guard_drop_ok in Hl. destruct refs; [apply rbind_ok in Ho as (m & _ & Ho)|]; injection Ho as -> _ _; eapply schema_made; eauto.
    - destruct cs; [|discriminate]. apply rbind_ok in H as (f' & Hf & H). apply guard_drop_ok in Hf. apply rbind_ok in H as (rows' & Hr & H).
      apply rbind_ok in H as (cols' & Hl & H). injection H as <- <-. cbn [rel_complete rd_schema rd_filter rd_adv rd_type given].
      split; [eapply schema_made; eauto|]. split; [now apply opt_made in Hf|]. split; [exact Ha|].
      eapply rlist_Forall; [|exact Hr]. apply Forall_forall. intros c _ xs. apply exprs_made.
    - apply rbind_ok in H as (i & Hi & H). apply rbind_ok in H as (x' & Hx & H). apply guard_drop_ok in Hx. apply rbind_ok in H as (p & Hp & H).
      injection H as <- <-. cbn [rel_complete given]. split; [discriminate|]. split; [now apply expr_made in Hx|exact Ha].
    - apply rbind_ok in H as (i & Hi & H). apply rbind_ok in H as ([xs m] & Hp & H). injection H as <- <-.
      cbn [rel_complete fst]. split; [discriminate|]. split; [now apply project_read in Hp|exact Ha].
    - apply rbind_ok in H as (i & Hi & H). apply rbind_ok in H as (sets & Hs & H).
      destruct (build_grouping_fields sets) as [groups gexprs] eqn:Eb. apply rbind_ok in H as ([ms m] & Hp & H). injection H as <- <-.
      destruct (groups_read _ _ _ _ Hs Eb) as [A B]. cbn [rel_complete fst]. split; [discriminate|]. split; [exact A|].
      split; [now apply outputs_read in Hp|]. split; [exact Ha|exact B].
    - apply rbind_ok in H as (i & Hi & H). apply rbind_ok in H as (ss & Hs & H). apply rbind_ok in H as (p & Hp & H).
      injection H as <- <-. cbn [rel_complete]. split; [discriminate|]. split; [exact Ha|now apply sorts_read in Hs].
    - apply rbind_ok in H as (i & Hi & H). apply rbind_ok in H as (u & _ & H). apply rbind_ok in H as (p & Hp & H).
      apply rbind_ok in H as (n & Hn & H). apply rbind_ok in H as (o & Ho & H). injection H as <- <-.
      cbn [rel_complete]. split; [discriminate|]. split; [now apply bound_read in Hn|]. split; [now apply bound_read in Ho|exact Ha].
    - apply rbind_ok in H as ([il ir] & Hlr & H). apply rbind_ok in H as (jt & Hj & H). apply rbind_ok in H as (x' & Hx & H). apply guard_drop_ok in Hx.
      apply rbind_ok in H as (post' & Hp & H). apply guard_drop_ok in Hp. apply rbind_ok in H as (p & Hm & H). injection H as <- <-.
      apply unwrap_ok in Hj. cbn [rel_complete given]. split; [discriminate|]. split; [discriminate|]. split; [now apply expr_made in Hx|].
      split; [now apply opt_made in Hp|]. split; [now apply number_named in Hj|exact Ha].
    - destruct cs as [|c1 [|c2 cs]]; try discriminate. destruct (forallb _ _) eqn:Ew; [|discriminate].
      apply rbind_ok in H as (o' & Ho & H). apply rbind_ok in H as (p & Hm & H). injection H as <- <-. apply unwrap_ok in Ho.
      cbn [rel_complete]. split; [cbn; lia|]. split; [now apply number_named in Ho|exact Ha].
    - apply rbind_ok in H as ([il ir] & Hlr & H). apply rbind_ok in H as (p & Hm & H). injection H as <- <-.
      cbn [rel_complete]. split; [discriminate|]. split; [discriminate|exact Ha].
  Qed.
  Lemma parse_relation_complete y line ads cs r w : parse_relation reg e y line ads cs = Ok (r, w) -> rel_complete true e (made_by reg) r.
  Proof.
    intros H.
    assert (G : (let? adv := standard_addenda reg ads in lift_plan line (lower_rel e y cs adv)) = Ok (r, w) -> rel_complete true e (made_by reg) r).
    { intros H'. apply rbind_ok in H' as (adv & Ha & H'). apply lift_plan_ok in H'. eapply lower_rel_complete; eauto. }
    destruct y; try (apply G; exact H); cbn [parse_relation] in H; clear G.
    - apply rbind_ok in H as ([d adv] & Hp & H). apply lift_plan_ok in H. destruct cs; [|discriminate].
      apply rbind_ok in H as (cols' & Hl & H). injection H as <- <-. unfold extension_read_addenda in Hp.
      destruct (filter is_table ads) as [|a [|? ?]] eqn:Ef; try discriminate.
      apply rbind_ok in Hp as (d' & Hd & Hp). apply rbind_ok in Hp as (adv' & Ha & Hp). injection Hp as <- <-.
      cbn [rel_complete rd_schema rd_filter rd_adv rd_type given fst snd]. split; [eapply schema_made; eauto|]. split; [exact I|].
      split; [now apply addenda_made in Ha|]. assert (Hk : is_table a = true).
      { assert (Hin : In a (filter is_table ads)) by (rewrite Ef; now left). apply filter_In in Hin. tauto. }
      unfold is_table in Hk. unfold resolve_addendum in Hd. destruct (ai_kind a); try discriminate. now apply resolve_made in Hd.
    - destruct ads; [|discriminate]. apply rbind_ok in H as (a & _ & H). destruct (child_count_ok k (length cs)) eqn:Ek; [|discriminate].
      apply rbind_ok in H as (d & Hd & H). injection H as <- <-. apply resolve_made in Hd.
      destruct k; cbn [create_rel rel_complete given]; auto. cbn [child_count_ok] in Ek. destruct cs; [discriminate|]. split; [exact Hd|discriminate].
  Qed.
End Read.

Theorem parsed_complete (F : Floats) reg s p : parse reg s = Ok p -> plan_complete true (made_by reg) p.
Proof.
  intros H. unfold parse, parse_plan in H. apply rbind_ok in H as (q & Hq & H).
  destruct (C10_read_tables_writable _ _ _ _ _ _ Hq) as [W Hw]. assert (Hl := accepted_lines _ _ Hq).
  unfold build_plan in H. apply rbind_ok in H as (rels & Hr & H). injection H as <-. unfold plan_complete. cbn [pl_urns pl_decls pl_rels] in *.
  set (e := xp_exts (ps_ext _ _ q)) in *. rewrite (load_exported e W Hw). cbn [fst snd]. split; [reflexivity|].
  clearbody e. clear Hq. apply rlist_ok_inv in Hr.
  assert (G : forall x, In x rels -> exists i, plan_inputs x = [i] /\ forall y, subrel y i -> rel_complete true e (made_by reg) y).
  { induction Hr as [|n x ns xs Hx _ IH]; [intros ? []|]. inversion Hl as [|? ? Hl1 Hl2]; subst. intros y [<-|Hy]; [|now apply IH].
    apply (build_plan_rel_ind reg e readable (fun i => forall y, subrel y i -> rel_complete true e (made_by reg) y)) with (n := n); auto.
    intros n' r w. apply build_all. intros. eapply parse_relation_complete; eauto. }
  split.
  - intros x Hx. destruct (G x Hx) as (i & -> & _). discriminate.
  - intros r (x & i & Hx & Hi & Hs). destruct (G x Hx) as (j & E & K). rewrite E in Hi. destruct Hi as [<-|[]]. auto.
Qed.
