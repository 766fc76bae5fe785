(** Reading crashes where the specification says: addenda and trees. *)
From Coq Require Import String List NArith ZArith Bool Lia PeanoNat.
From Verif Require Import Base BaseFacts Peg Names SimpleExt SimpleExtFacts Out Anchors Types Literals Exprs ExprEq ExprsFacts
  ExtArgs Registry Rels RelGrammar RelRead RelReadFacts Tree SpecTree TreeFacts Structural SpecRegistry SpecRels SpecAggregate CrashFacts SpecMeaning MeaningFacts
  MeaningExprs MeaningRels SpecCrashes CrashesFacts CrashesRels.
Import ListNotations.
Local Open Scope string_scope.
Local Open Scope list_scope.
Local Open Scope nat_scope.

Lemma agrees_lift {X} line (x : pres X) p : agrees x p -> agrees (lift_plan line x) p.
Proof.
  intros [H1 H2]. split.
  - rewrite <- H1. destruct x; cbn; split; intros (v & Hv); eauto; discriminate.
  - intros m. rewrite <- H2. destruct x; cbn; split; congruence.
Qed.
Lemma panics_lift {X} line (x : pres X) ps : panics x ps -> panics (lift_plan line x) ps.
Proof. intros H m. rewrite <- (H m). destruct x; cbn; split; congruence. Qed.
Lemma agrees_list_concat {E X Y} (f : X -> res E Y) (g : X -> list part) l :
  Forall (fun x => agrees (f x) (in_order (g x))) l -> agrees (rlist f l) (in_order (concat (map g l))).
Proof.
  induction 1 as [|x l Hx _ IH]; cbn [rlist map concat]; [apply agrees_ret|]. apply agrees_app; auto. intros v _. now apply agrees_end.
Qed.
Lemma panics_eq {E X} (x : res E X) ps qs : panics x ps -> (forall m, first_of ps m <-> first_of qs m) -> panics x qs.
Proof. intros H Hq m. rewrite (H m). apply Hq. Qed.

Section Trees.
  Context `{F : Floats}.
  Variable reg : registry.
  Variable e : exts.
  Hypothesis We : wf_exts e.

  Lemma resolve_crash k line name a m : resolve reg k line name a = Panic m <-> handler_crashes reg k name a m.
  Proof.
    unfold resolve, handler_crashes, parse_with_type, payload_of. destruct (hget (k, name) (rg_handlers reg)) as [h|].
    - unfold parse_detail. split.
      + intros H. exists h. split; [reflexivity|]. destruct (args_parse (xe_from_args h) a) as [v|x|x]; cbn [rbind] in H.
        * destruct (xe_to_any h v) as [d'|x|x]; [discriminate|destruct x; discriminate|now injection H as ->].
        * destruct x; discriminate.
        * cbn. now injection H as ->.
      + intros (h' & [= <-] & H). destruct (args_parse (xe_from_args h) a) as [v|x|x]; cbn [rbind]; cbn [rbind] in H; try discriminate; [now rewrite H|]. now injection H as ->.
    - split; [discriminate|]. intros (h & H & _). discriminate.
  Qed.
  Lemma agrees_addendum a : acst_whole (fst a) -> agrees (lower_addendum e a) (in_order (addendum_parts e a)).
  Proof.
    destruct a as [[k c args] line]. cbn [fst acst_whole lower_addendum addendum_parts]. intros [H1 H2]. apply agrees_lift.
    apply agrees_skip; [now apply name_reads|]. intros n _. apply (agrees_end _ (fun a => mk_ainv k n a line)). now apply agrees_arguments.
  Qed.
  Lemma agrees_payload a i : invoked e a i -> agrees (resolve_addendum reg i) (payload_part reg e a).
  Proof.
    intros Hi. split; cbn [payload_part fst snd].
    - split; intros (d & Hd); exists d.
      + apply resolved_iff; auto. exists i. auto.
      + apply resolved_iff in Hd as (i' & Hi' & Hd); auto. unfold invoked in *. congruence.
    - intros m. destruct a as [[k c args] line]. cbn [fst]. pose proof Hi as H. unfold invoked, lower_addendum in H. apply (proj1 (lift_iff _ _ _)) in H.
      apply rbind_ok in H as (n & Hn & H). apply rbind_ok in H as (x & Hx & [= <-]). unfold resolve_addendum. cbn [ai_kind ai_line ai_name ai_args].
      rewrite resolve_crash. split.
      + intros H. exists n, x. repeat split; [now apply (name_iff (E := perr))|now apply xargs_iff|exact H].
      + intros (n' & x' & Hn' & Hx' & H). apply (name_iff (E := perr)) in Hn'. apply xargs_iff in Hx'; auto. congruence.
  Qed.
  Lemma agrees_loop ads is : Forall2 (invoked e) ads is -> forall before enh opts, (enh = None <-> filter (has_kind XtEnhancement) before = []) ->
    agrees (standard_loop reg is enh opts) (in_order (payload_parts reg e before ads)).
  Proof.
    induction 1 as [|a i ads is Hi _ IH]; intros before enh opts He; cbn [standard_loop payload_parts]; [apply agrees_ret|].
    assert (K : forall k, has_kind k a = xtype_eqb (ai_kind i) k) by (intros k; symmetry; now apply invoked_kind with (e := e)).
    rewrite !K. destruct (ai_kind i) eqn:Ek; cbn [xtype_eqb].
    - apply agrees_stop. intros [?|[? _]]; discriminate.
    - apply agrees_stop. intros [?|[? _]]; discriminate.
    - destruct enh as [d|].
      + apply agrees_stop. intros [?|[_ H]]; [discriminate|]. apply He in H. discriminate.
      + apply agrees_pass; [right; split; [reflexivity|now apply He]|]. apply agrees_cons; [now apply agrees_payload|]. intros d _. apply IH.
        rewrite filter_app. cbn [filter]. rewrite (K XtEnhancement). cbn. split; [discriminate|]. intros H. apply app_eq_nil in H as [_ ?]. discriminate.
    - apply agrees_pass; [now left|]. apply agrees_cons; [now apply agrees_payload|]. intros d _. apply IH.
      rewrite filter_app. cbn [filter]. rewrite (K XtEnhancement). cbn. now rewrite app_nil_r.
  Qed.
  Lemma agrees_standard ads is : Forall2 (invoked e) ads is -> agrees (standard_addenda reg is) (in_order (payload_parts reg e [] ads)).
  Proof.
    intros H. unfold standard_addenda. 
    assert (G : agrees (let? p := standard_loop reg is None [] in Ok match p with (None, []) => None | (enh, opts) => Some (mk_advext enh opts) end)
                  (in_order (payload_parts reg e [] ads))).
    { apply (agrees_end _ (fun p => match p with (None, []) => None | (enh, opts) => Some (mk_advext enh opts) end)). apply agrees_loop; auto. cbn. tauto. }
    destruct (standard_loop reg is None []) as [[[x|] [|y l]]| |]; exact G.
  Qed.
  Lemma rest_filter ads is : Forall2 (invoked e) ads is ->
    Forall2 (invoked e) (filter (fun a => negb (has_kind XtTable a)) ads) (filter (fun i => negb (is_table i)) is).
  Proof.
    induction 1 as [|a i ads is H _ IH]; cbn [filter]; [constructor|].
    assert (K : is_table i = has_kind XtTable a) by now apply invoked_kind with (e := e). rewrite K.
    destruct (has_kind XtTable a); cbn [negb]; [|constructor]; assumption.
  Qed.
  Lemma agrees_table line ads is : Forall2 (invoked e) ads is -> agrees (extension_read_addenda reg line is)
    (in_order (refused (length (filter (has_kind XtTable) ads) = 1) :: map (payload_part reg e) (filter (has_kind XtTable) ads) ++
       payload_parts reg e [] (filter (fun a => negb (has_kind XtTable a)) ads))).
  Proof.
    intros H. unfold extension_read_addenda. pose proof (kind_filter e XtTable _ _ H) as K.
    change (filter (inv_kind XtTable) is) with (filter is_table is) in K. inversion K as [Ea Ei|a i ls is' Hi K' Ea Ei].
    - apply agrees_stop. discriminate.
    - inversion K' as [|a' i' ? ? Hi' ?]; subst.
      + apply agrees_pass; [reflexivity|]. cbn [map app]. apply agrees_cons; [now apply agrees_payload|]. intros d _.
        apply (agrees_end _ (fun adv => (d, adv))). apply agrees_standard. now apply rest_filter.
      + apply agrees_stop. cbn. discriminate.
  Qed.
  Lemma agrees_relation line c args xcs a : lower_invocation e args xcs = Ok a ->
    agrees (resolve reg XtRelation line (raw_name c) a) (relation_part reg e c args xcs).
  Proof.
    intros Ha. change (raw_name c) with (raw c). pose proof Ha as Ha'. apply invocation_iff in Ha'; auto. destruct Ha' as (cols & Hc & Hm).
    assert (U : forall cols' a', Forall2 (xcolumn_means e) xcs cols' -> arguments_mean e args cols' a' -> a' = a).
    { intros cols' a' H1 H2. assert (lower_invocation e args xcs = Ok a') by (apply invocation_iff; eauto). congruence. }
    split; cbn [relation_part fst snd].
    - split.
      + intros (d & Hd). apply handled_iff in Hd. eauto 8.
      + intros (cols' & a' & d & H1 & H2 & H3). exists d. apply handled_iff. now rewrite <- (U _ _ H1 H2).
    - intros m. rewrite resolve_crash. split; [eauto 6|]. intros (cols' & a' & H1 & H2 & H3). now rewrite <- (U _ _ H1 H2).
  Qed.

  Definition relation_parts (y : rline) (ads : list (acst * N)) (ins : nat) (same : Prop) : list part :=
    match y with
    | YExtRead cs =>
        refused (length (filter (has_kind XtTable) ads) = 1) :: map (payload_part reg e) (filter (has_kind XtTable) ads) ++
        payload_parts reg e [] (filter (fun a => negb (has_kind XtTable a)) ads) ++ refused (ins = 0) :: column_parts e cs
    | YExt k c args xcs =>
        refused (ads = []) :: argument_parts e args ++ map (xcolumn_part e) xcs ++
        [refused (inputs_of k ins); relation_part reg e c args xcs]
    | _ => payload_parts reg e [] ads ++ line_parts e y ins same
    end.
  Lemma relation_crash y line ads is cs : Forall2 (invoked e) ads is -> line_whole y -> not_root y ->
    panics (parse_relation reg e y line is cs) (relation_parts y ads (length cs) (exists n, Forall (fun c => snd c = n) cs)).
  Proof.
    intros Hi Hw Hn.
    assert (S : match y with YExtRead _ | YExt _ _ _ _ => False | _ => True end ->
      panics (let? adv := standard_addenda reg is in lift_plan line (lower_rel e y cs adv))
        (payload_parts reg e [] ads ++ line_parts e y (length cs) (exists n, Forall (fun c => snd c = n) cs))).
    { intros Ho. apply panics_app; [now apply agrees_standard|]. intros adv _. apply panics_lift. now apply line_crash. }
    destruct y as [names|t o|cols|rows f cols|x refs|args|g outs|fs refs|args refs|t x p refs|o refs|refs|k c args xcs];
      cbn [parse_relation relation_parts]; try (apply S; exact I); clear S.
    - rewrite app_comm_cons, app_assoc. rewrite <- (app_comm_cons _ _ (refused _)). apply panics_app; [now apply agrees_table|]. intros [d adv] _.
      apply panics_lift. destruct cs as [|c cs]; [|apply panics_stop; discriminate]. apply panics_pass; [reflexivity|].
      apply panics_end. now apply agrees_columns.
    - destruct Hi as [|a i ads is Hi _]; [|apply panics_stop; discriminate]. apply panics_pass; [reflexivity|]. rewrite app_assoc.
      destruct Hw as (_ & H2 & H3). apply panics_app.
      + apply agrees_lift. unfold lower_invocation. apply agrees_app; [now apply agrees_arguments|]. intros a _.
        apply (agrees_end _ (fun c => mk_xargs (xa_positional a) (xa_named a) c)). apply agrees_list. eapply Forall_impl; [|exact H3]. intros x. now apply agrees_xcolumn.
      + intros a Ha. apply (proj1 (lift_iff _ _ _)) in Ha.
        assert (D : child_count_ok k (length cs) = true <-> inputs_of k (length cs)).
        { destruct k; cbn; [apply Nat.eqb_eq..|tauto]. }
        destruct (child_count_ok k (length cs)).
        * apply panics_pass; [now apply D|]. apply panics_last. now apply agrees_relation.
        * apply panics_stop. intros H. apply D in H. discriminate.
  Qed.

  Lemma same_parts y ads ins P Q : (P <-> Q) -> forall m, first_of (relation_parts y ads ins P) m <-> first_of (relation_parts y ads ins Q) m.
  Proof.
    intros H m. destruct y; cbn [relation_parts]; try reflexivity. rewrite !first_app. cbn [line_parts first_of refused fst snd]. tauto.
  Qed.
  Lemma tree_some t : (exists v, build_rel reg e t = Ok v) <-> exists r n, tree_means reg e t r n.
  Proof.
    split.
    - intros ([r n] & H). exists r, n. now apply tree_iff.
    - intros (r & n & H). exists (r, n). now apply tree_iff.
  Qed.
  Lemma make_tree t : (forall m, build_rel reg e t = Panic m <-> tree_crashes reg e t m) ->
    agrees (build_rel reg e t) (exists r n, tree_means reg e t r n, tree_crashes reg e t).
  Proof. intros H. split; [apply tree_some|exact H]. Qed.
  Lemma widths cs ins : rlist (build_rel reg e) cs = Ok ins ->
    length ins = length cs /\ ((exists n, Forall (fun c => snd c = n) ins) <-> exists n, Forall (fun c => exists r, tree_means reg e c r n) cs).
  Proof.
    intros H. apply rlist_iff in H. split; [symmetry; clear - H; induction H; cbn; congruence|].
    assert (G : forall n, Forall (fun c => snd c = n) ins <-> Forall (fun c => exists r, tree_means reg e c r n) cs).
    { intros n. induction H as [|c [r k] cs ins Hc _ IH]; [split; constructor|]. rewrite !Forall_cons_iff, IH. cbn [snd].
      assert (k = n <-> exists r', tree_means reg e c r' n); [|tauto]. split.
      - intros <-. exists r. now apply tree_iff.
      - intros (r' & Hr). apply tree_iff in Hr; auto. congruence. }
    split; intros (n & Hn); exists n; now apply G.
  Qed.
  Lemma tree_crash t : sub_whole t -> forall m, build_rel reg e t = Panic m <-> tree_crashes reg e t m.
  Proof.
    induction t as [y line ads cs IH] using rnode_ind2. cbn [sub_whole build_rel tree_crashes]. intros (H1 & H2 & H3 & H4). apply fold_all in H4.
    match goal with |- forall m, ?x = _ <-> first_of ?ps m => change (panics x ps) end. apply panics_app.
    - apply agrees_list. rewrite Forall_forall in *. intros c Hc. apply make_tree, IH; auto.
    - intros ins Hins. unfold node_parts. apply panics_app.
      + apply agrees_list_concat. eapply Forall_impl; [|exact H3]. intros a. apply agrees_addendum.
      + intros is His. apply rlist_iff in His. destruct (widths _ _ Hins) as [L W]. rewrite <- L.
        eapply panics_eq; [apply relation_crash; eauto|]. now apply same_parts.
  Qed.
  Lemma plan_tree_crash t : tree_whole t -> forall m, build_plan_rel reg e t = Panic m <-> plan_tree_crashes reg e t m.
  Proof.
    destruct t as [y line ads cs]. cbn [tree_whole]. intros (H1 & H2 & H3).
    assert (S : not_root y -> forall m, (let? p := build_rel reg e (RNode y line ads cs) in Ok (PRel (fst p))) = Panic m <-> tree_crashes reg e (RNode y line ads cs) m).
    { intros Hy m. rewrite rbind_panic. rewrite tree_crash; [|cbn [sub_whole]; rewrite fold_all; auto].
      split; [intros [H|(v & _ & H)]; [exact H|discriminate]|now left]. }
    destruct y as [l| | | | | | | | | | | |]; try (apply S; exact I). clear S. cbn [build_plan_rel plan_tree_crashes].
    match goal with |- forall m, ?x = _ <-> first_of ?ps m => change (panics x ps) end.
    destruct ads as [|[a n] ads]; [|apply panics_stop; discriminate]. apply panics_pass; [reflexivity|]. apply panics_skip.
    { cbn [line_whole] in H1. clear - H1.
      assert (G : exists v, rlist (lower_name (E := perr)) l = Ok v).
      { induction H1 as [|n l Hn _ (x & IH)]; cbn [rlist]; eauto. destruct (name_reads (E := perr) n Hn) as (y & ->). cbn [rbind]. rewrite IH. cbn. eauto. }
      destruct G as (v & ->). cbn. eauto. }
    intros names _. destruct cs as [|c [|c' cs]]; [apply panics_stop; discriminate| |apply panics_stop; discriminate].
    apply panics_pass; [reflexivity|]. cbn [map]. inversion H3; subst. apply panics_last, make_tree, tree_crash. assumption.
  Qed.
  Lemma agrees_tree t : tree_whole t -> agrees (build_plan_rel reg e t) (exists p, plan_tree_means reg e t p, plan_tree_crashes reg e t).
  Proof.
    intros H. split; cbn [fst snd]; [|now apply plan_tree_crash]. apply fold_some. intros p. now apply plan_tree_iff.
  Qed.
  Lemma agrees_trees ts : Forall tree_whole ts ->
    agrees (rlist (build_plan_rel reg e) ts) (in_order (map (fun t => (exists p, plan_tree_means reg e t p, plan_tree_crashes reg e t)) ts)).
  Proof. intros H. apply agrees_list. eapply Forall_impl; [|exact H]. intros t. apply agrees_tree. Qed.
End Trees.
