(** Reading crashes where the specification says: lines, addenda, trees. *)
From Coq Require Import String List NArith ZArith Bool Lia PeanoNat.
From Verif Require Import Base BaseFacts Peg Names SimpleExt SimpleExtFacts Out Anchors Types Literals Exprs ExprEq ExprsFacts
  ExtArgs Registry Rels RelGrammar RelRead RelReadFacts Tree SpecTree TreeFacts Structural SpecRegistry SpecRels SpecAggregate CrashFacts SpecMeaning MeaningFacts
  MeaningExprs MeaningRels SpecCrashes CrashesFacts.
Import ListNotations.
Local Open Scope string_scope.
Local Open Scope list_scope.
Local Open Scope nat_scope.

Lemma panics_refused {E X} (x : res E X) (P : Prop) ps : P \/ ~ P -> (P -> panics x ps) -> (~ P -> forall m, x <> Panic m) -> panics x (refused P :: ps).
Proof.
  intros D H1 H2 m. cbn [first_of refused fst snd]. destruct D as [D|D].
  - rewrite (H1 D m). tauto.
  - split; [intros Hm; now apply H2 in Hm|tauto].
Qed.
Lemma agrees_unless {E X} (x : res E X) (P : Prop) ps : P \/ ~ P -> (P -> agrees x (in_order ps)) -> (~ P -> exists d, x = Err d) ->
  agrees x (in_order (refused P :: ps)).
Proof.
  intros D H1 H2. split; [|apply panics_refused; auto].
  - cbn [in_order fst]. destruct D as [D|D].
    + rewrite (proj1 (H1 D)). cbn [in_order fst]. split; [auto|]. now inversion 1.
    + destruct (H2 D) as (d & ->). split; [intros (v & Hv); discriminate|]. now inversion 1.
  - intros D'. now apply agrees_panics, H1.
  - intros D'. destruct (H2 D') as (d & ->). discriminate.
Qed.
Lemma agrees_nested {E X} (x : res E X) ps qs : agrees x (in_order (ps ++ qs)) -> agrees x (in_order (in_order ps :: qs)).
Proof.
  intros H. eapply agrees_eq; [exact H|..]; cbn [in_order fst snd].
  - rewrite Forall_app. split; [intros []; constructor; auto|]. inversion 1; auto.
  - intros m. now rewrite first_app.
Qed.
Lemma agrees_pass {E X} (x : res E X) (P : Prop) ps : P -> agrees x (in_order ps) -> agrees x (in_order (refused P :: ps)).
Proof. intros H Hx. apply agrees_unless; auto. tauto. Qed.
Lemma agrees_stop {E X} (d : E) (P : Prop) ps : ~ P -> agrees (X := X) (Err d) (in_order (refused P :: ps)).
Proof. intros H. apply agrees_unless; eauto. tauto. Qed.
Lemma panics_pass {E X} (x : res E X) (P : Prop) ps : P -> panics x ps -> panics x (refused P :: ps).
Proof. intros H Hx. apply panics_refused; auto. Qed.
Lemma panics_stop {E X} (d : E) (P : Prop) ps : ~ P -> panics (X := X) (Err d) (refused P :: ps).
Proof. intros H. apply panics_refused; auto; [tauto|discriminate]. Qed.
Lemma panics_end {E X Y} (x : res E X) (k : X -> Y) ps : agrees x (in_order ps) -> panics (let? v := x in Ok (k v)) ps.
Proof. intros H. apply agrees_panics. now apply agrees_end. Qed.

Section Rels.
  Context `{F : Floats}.
  Variable reg : registry.
  Variable e : exts.
  Hypothesis We : wf_exts e.

  Lemma agrees_emit refs n : agrees (parse_emit refs n) (in_order (map index_part refs)).
  Proof. unfold parse_emit. apply (agrees_end _ (fun m => (make_emit m n, length m))). apply agrees_indices. Qed.
  Lemma agrees_output o : match o with OImplicit c | ODirect c _ => cols_whole c end -> agrees (lower_output e o) (in_order (output_parts e o)).
  Proof.
    destruct o as [cs|cs refs]; cbn [lower_output output_parts]; intros H.
    - apply (agrees_end _ (fun cols => (cols, direct_common, length cols))). now apply agrees_columns.
    - apply agrees_cons; [now apply agrees_guard, agrees_columns|]. intros cols _. destruct refs as [refs|]; [|apply agrees_ret].
      apply (agrees_end _ (fun m => (cols, emit_common (EmEmit m), length m))). apply agrees_indices.
  Qed.
  Lemma agrees_project n l : forall k, Forall (fun a => match a with PaRef _ => True | PaExpr c => ewhole c end) l ->
    agrees (lower_project e n k l) (in_order (map (fun a => match a with PaRef s => index_part s | PaExpr c => expr_part e c end) l)).
  Proof.
    induction l as [|[s|c] l IH]; intros k H; cbn [lower_project map]; [apply agrees_ret|..]; inversion H; subst.
    - apply agrees_cons; [apply agrees_index|]. intros z _. apply (agrees_end _ (fun p => (fst p, z :: snd p))). auto.
    - apply agrees_cons; [now apply agrees_expr|]. intros x _. apply (agrees_end _ (fun p => (x :: fst p, wrap_i32 (Z.of_nat n + Z.of_nat k) :: snd p))). auto.
  Qed.

  Lemma firsts_in l : forall seen x, In x (fold_left (fun seen x => if existsb (pexpr_eqb x) seen then seen else seen ++ [x]) l seen) <-> In x seen \/ In x l.
  Proof.
    induction l as [|y l IH]; intros seen x; cbn [fold_left In]; [tauto|]. rewrite IH. destruct (existsb (pexpr_eqb y) seen) eqn:E.
    - split; [tauto|]. intros [H|[<-|H]]; auto. left. now apply existsb_in.
    - rewrite in_app_iff. cbn [In]. tauto.
  Qed.
  Lemma grouping_in g sets groups gexprs : lower_groups e g = Ok sets -> build_grouping_fields sets = (groups, gexprs) ->
    forall x, In x gexprs <-> exists c, In c (concat (written_sets g)) /\ expr_means e c x.
  Proof.
    intros H1 H2 x. apply groups_iff in H1; [|exact We]. apply grouping_iff in H2 as [[-> _] _]. unfold firsts. rewrite firsts_in. cbn [In].
    assert (G : Forall2 (expr_means e) (concat (written_sets g)) (concat sets)).
    { clear - H1. induction H1; cbn [concat]; [constructor|]. now apply Forall2_app. }
    clear - G We. induction G as [|c y cs ys Hc _ IH]; cbn [In].
    - split; [tauto|]. intros (c & [] & _).
    - split.
      + intros [[]|[<-|H]]; [eauto|]. destruct IH as [IH _]. destruct IH as (c' & ? & ?); eauto.
      + intros (c' & [<-|H] & Hm); right; [left|right].
        * apply expr_iff in Hc, Hm; auto. congruence.
        * destruct IH as [_ IH]. destruct IH as [[]|IH]; eauto.
  Qed.
  Lemma agrees_outputs g gexprs l : (forall x, In x gexprs <-> exists c, In c (concat (written_sets g)) /\ expr_means e c x) -> Forall ewhole l ->
    forall k, agrees (lower_outputs e gexprs k l) (in_order (map (fun c => in_order [expr_part e c; refused (is_output e g c)]) l)).
  Proof.
    intros Hg. induction 1 as [|c l Hc _ IH]; intros k; cbn [lower_outputs map]; [apply agrees_ret|].
    apply agrees_nested. cbn [app]. apply agrees_cons; [now apply agrees_expr|]. intros x Hx. pose proof (last_pos_spec x gexprs 0) as Hp.
    destruct (last_pos 0 x gexprs) as [i|].
    - destruct Hp as [_ Hp]. apply nth_error_In in Hp. apply Hg in Hp as (c' & H1 & H2). apply agrees_pass.
      + right. exists c', x. split; auto. split; auto. apply expr_iff; auto.
      + apply (agrees_end _ (fun p => (fst p, wrap_i32 (Z.of_nat i) :: snd p))). apply IH.
    - assert (N : ~ exists c' y, In c' (concat (written_sets g)) /\ expr_means e c y /\ expr_means e c' y).
      { intros (c' & y & H1 & H2 & H3). apply Hp. apply Hg. exists c'. split; auto. apply expr_iff in H2; auto. congruence. }
      destruct c as [ifs els|c b t|f args t|s|c]; try (apply agrees_stop; intros [(f & args & t' & H)|H]; [discriminate|auto]).
      apply agrees_pass; [left; eauto|]. apply agrees_skip.
      + assert (M : exists r xs t', x = EFunc r xs [] (Some t')).
        { apply expr_iff in Hx; auto. inversion Hx; subst; eauto. }
        destruct M as (r & xs & t' & ->). eexists. apply measure_iff; auto. exists r, xs, t'. split; [now apply expr_iff|reflexivity].
      + intros q _. apply (agrees_end _ (fun p => (mk_measure (Some q) None :: fst p, wrap_i32 (Z.of_nat (length gexprs) + Z.of_nat k) :: snd p))). apply IH.
  Qed.
  Lemma agrees_sort p : ewhole (fst p) -> agrees (lower_sort_field e p)
    (in_order [pending (expr_part e (fst p)); refused (exists d, enum_means proto_sort_directions (snd p) d)]).
  Proof.
    intros H. unfold lower_sort_field. apply agrees_cons; [now apply agrees_guard, agrees_expr|]. intros x _.
    destruct (enum_number sort_directions (tl (snd p))) as [d|] eqn:E.
    - apply agrees_pass; [|apply agrees_ret]. exists d. now apply direction_iff.
    - apply agrees_stop. intros (d & Hd). apply direction_iff in Hd. congruence.
  Qed.
  Lemma agrees_bound what args k : NoDup (map fst args) -> Forall (fun p : list N * fvc => match snd p with FvInt _ => True | FvExpr c => ewhole c end) args ->
    agrees (lower_fetch_opt e what (imap_get k args)) (bound_part e args k).
  Proof.
    intros Hd Hw. destruct (imap_get k args) as [v|] eqn:E.
    - apply argument_of_iff in E; auto. inversion E as [|? Hv]; subst.
      assert (U : forall v', In (k, v') args -> v' = v).
      { intros v' H. assert (imap_get k args = Some v') by (apply argument_of_iff; auto; now constructor).
        assert (imap_get k args = Some v) by (apply argument_of_iff; auto). congruence. }
      cbn [lower_fetch_opt]. apply agrees_map. split; cbn [bound_part fst snd].
      + rewrite (fold_some _ _ (fun b => bound_iff e We what v b)). split.
        * intros H v' H'. apply U in H'. now subst.
        * intros H. now apply H.
      + intros m. destruct v as [s|c]; cbn [lower_fetch_value].
        * split; [destruct (parse_i64 s); [destruct (_ <? _)%Z|]; discriminate|]. intros (c & H & _). apply U in H. discriminate.
        * rewrite rmap_panic, (expr_crash e We).
          -- split; [eauto|]. intros (c' & H & Hm). apply U in H. injection H as ->. exact Hm.
          -- rewrite Forall_forall in Hw. apply (Hw _ Hv).
    - apply argument_of_iff in E; auto. inversion E as [Hn|]; subst. cbn [lower_fetch_opt]. split; cbn [bound_part fst snd].
      + split; [|eauto]. intros _ v H. destruct Hn. apply in_map_iff. exists (k, v). auto.
      + intros m. split; [discriminate|]. intros (c & H & _). destruct Hn. apply in_map_iff. exists (k, FvExpr c). auto.
  Qed.
  Lemma agrees_groups g : match g with GSets s => Forall (Forall ewhole) s | GList s => Forall ewhole s end ->
    agrees (lower_groups e g) (in_order (map (expr_part e) (concat (written_sets g)))).
  Proof.
    destruct g as [l|l]; cbn [lower_groups written_sets]; intros H; [now apply agrees_rows|].
    apply (agrees_end _ (fun xs => [xs])). cbn [concat]. rewrite app_nil_r. now apply agrees_exprs.
  Qed.

  Ltac one_input := match goal with |- panics (let? i := one_child _ ?cs in _) _ =>
    destruct cs as [|c [|c' cs]]; cbn [one_child rbind length]; [apply panics_stop; lia|apply panics_pass; [reflexivity|]|apply panics_stop; lia] end.
  Ltac two_inputs := match goal with |- panics (let? i := two_children _ ?cs in _) _ =>
    destruct cs as [|c [|c' [|c'' cs]]]; cbn [two_children rbind length]; [apply panics_stop; lia|apply panics_stop; lia|apply panics_pass; [reflexivity|]|apply panics_stop; lia] end.

  Lemma line_crash y cs adv : line_whole y -> not_root y -> match y with YExtRead _ | YExt _ _ _ _ => False | _ => True end ->
    panics (lower_rel e y cs adv) (line_parts e y (length cs) (exists n, Forall (fun c => snd c = n) cs)).
  Proof.
    intros H Hn Ho. destruct y as [names|t o|cols|rows f cols|x refs|args|g outs|fs refs|args refs|t x p refs|o refs|refs|k c args cols];
      try contradiction; cbn [line_whole lower_rel line_parts] in *.
    - destruct H as [H1 H2]. destruct cs as [|c cs]; [|apply panics_stop; discriminate]. apply panics_pass; [reflexivity|].
      apply panics_skip.
      { clear - H1. induction H1 as [|n l Hn _ (x & IH)]; cbn [rlist]; eauto. destruct (name_reads (E := perr) n Hn) as (y & ->). cbn [rbind]. rewrite IH. cbn. eauto. }
      intros ns _. rewrite <- (app_nil_r (output_parts e o)). apply panics_app; [now apply agrees_output|]. intros [[? ?] ?] _. apply panics_ok.
    - destruct H as (H1 & H2 & H3). destruct cs as [|c cs]; [|apply panics_stop; discriminate]. apply panics_pass; [reflexivity|].
      apply panics_cons; [now apply agrees_guard, agrees_optional|]. intros f' _. apply panics_app; [now apply agrees_rows|]. intros rs _.
      apply panics_end. now apply agrees_columns.
    - one_input. apply panics_cons; [now apply agrees_guard, agrees_expr|]. intros x' _. apply panics_end. apply agrees_emit.
    - one_input. apply (panics_end _ (fun q => _)). now apply agrees_project.
    - destruct H as [H1 H2]. one_input. apply panics_app; [now apply agrees_groups|]. intros sets Hs.
      destruct (build_grouping_fields sets) as [groups gexprs] eqn:Eg. apply (panics_end _ (fun q => _)). apply agrees_outputs; auto.
      eapply grouping_in; eauto.
    - one_input. apply panics_app.
      + apply agrees_list. eapply Forall_impl; [|exact H]. intros q. apply agrees_sort.
      + intros sorts _. apply panics_end, agrees_emit.
    - one_input. destruct (has_duplicate args) eqn:Ed; cbn [guard_drop rbind].
      + intros m. cbn [first_of fatal fst snd]. assert (N : ~ NoDup (map fst args)) by (intros G; apply duplicate_iff in G; congruence). split.
        * intros [= <-]. auto.
        * intros [[-> _]|[G _]]; [reflexivity|contradiction].
      + apply duplicate_iff in Ed. assert (G : panics (E := perr) (X := prel * nat) (let? p := parse_emit refs (total [c]) in
          let? count := lower_fetch_opt e "CountMode" (imap_get (L "limit") args) in
          let? offset := lower_fetch_opt e "OffsetMode" (imap_get (L "offset") args) in
          Ok (RFetch (emit_common (fst p)) (Some (fst c)) count offset adv, snd p))
          (map index_part refs ++ [bound_part e args (L "limit"); bound_part e args (L "offset")])).
        { apply panics_app; [apply agrees_emit|]. intros q _. apply panics_cons; [now apply agrees_bound|]. intros l _. apply panics_last. now apply agrees_bound. }
        intros m. specialize (G m). cbn [first_of fatal fst snd]. rewrite G. tauto.
    - destruct H as (H1 & H2 & H3). two_inputs. apply panics_skip.
      { destruct (enum_number join_types (tl t)) eqn:E; [cbn; eauto|]. now apply join_toks_known in H1. }
      intros jt _. apply panics_cons; [now apply agrees_guard, agrees_expr|]. intros x' _. apply panics_cons; [now apply agrees_guard, agrees_optional|].
      intros post _. apply panics_end, agrees_emit.
    - destruct cs as [|c [|d cs]]; [apply panics_stop; cbn; intros [? _]; lia..|].
      destruct (forallb (fun d : prel * nat => Nat.eqb (snd d) (snd c)) (c :: d :: cs)) eqn:A.
      + apply panics_pass.
        { split; [cbn; lia|]. exists (snd c). apply Forall_forall. intros q Hq. rewrite forallb_forall in A. now apply Nat.eqb_eq, A. }
        apply panics_skip.
        { destruct (enum_number set_ops (tl o)) eqn:E; [cbn; eauto|]. now apply set_toks_known in H. }
        intros so _. apply panics_end, agrees_emit.
      + apply panics_stop. intros (_ & n & Hall). assert (T : forallb (fun d : prel * nat => Nat.eqb (snd d) (snd c)) (c :: d :: cs) = true); [|congruence].
        apply forallb_forall. intros q Hq. rewrite Forall_forall in Hall. apply Nat.eqb_eq. rewrite (Hall q Hq), (Hall c); [reflexivity|now left].
    - two_inputs. apply panics_end, agrees_emit.
  Qed.
End Rels.
