(** The first part of a tree without a meaning is the one reported. *)
From Coq Require Import String List NArith ZArith Bool Lia PeanoNat.
From Verif Require Import Base BaseFacts Peg Names SimpleExt SimpleExtFacts Out Anchors Types Literals Exprs ExtArgs Registry Rels RelGrammar
  RelRead RelReadFacts Tree SpecTree TreeFacts Structural ReadFacts SpecRegistry SpecRels CrashFacts SpecMeaning MeaningFacts MeaningExprs MeaningRels
  SpecCrashes CrashesFacts CrashesRels CrashesTrees SpecBlame.
Import ListNotations.
Local Open Scope string_scope.
Local Open Scope list_scope.
Local Open Scope nat_scope.

(** ** Claims *)

Definition blames {X} (x : res perror X) (ps : list claim) : Prop := forall d, x = Err d -> blamed ps (error_line d) (complaint_of d).
Definition answers {X} (x : res perror X) (p : claim) : Prop := (forall v, x = Ok v -> fst p) /\ forall d, x = Err d -> snd p (error_line d) (complaint_of d).

Lemma blames_cons {X Y} (x : res perror X) (f : X -> res perror Y) p ps :
  answers x p -> (forall v, x = Ok v -> blames (f v) ps) -> blames (rbind x f) (p :: ps).
Proof.
  intros [H1 H2] H d Hd. cbn [blamed]. apply rbind_err in Hd as [Hd|(v & Hv & Hd)]; [left; auto|]. right. split; [eauto|]. now apply (H v Hv).
Qed.
Lemma blamed_app ps qs n c : blamed (ps ++ qs) n c <-> blamed ps n c \/ Forall fst ps /\ blamed qs n c.
Proof.
  induction ps as [|p ps IH]; cbn [blamed app].
  - split; [auto|]. tauto.
  - rewrite IH. split.
    + intros [H|[H [H'|[H' H'']]]]; auto.
    + intros [[H|[H H']]|[H H']]; auto. inversion H; subst. auto.
Qed.
Lemma blames_app {X Y} (x : res perror X) (f : X -> res perror Y) ps qs :
  (forall v, x = Ok v -> Forall fst ps) -> blames x ps -> (forall v, x = Ok v -> blames (f v) qs) -> blames (rbind x f) (ps ++ qs).
Proof.
  intros H1 H2 H d Hd. rewrite blamed_app. apply rbind_err in Hd as [Hd|(v & Hv & Hd)]; [left; now apply H2|]. right. split; [eauto|]. now apply (H v Hv).
Qed.
Lemma blames_end {X Y} (x : res perror X) (k : X -> Y) ps : blames x ps -> blames (let? v := x in Ok (k v)) ps.
Proof. intros H d Hd. apply rbind_err in Hd as [Hd|(v & _ & Hd)]; [now apply H|discriminate]. Qed.
Lemma blames_last {X} (x : res perror X) p : answers x p -> blames x [p].
Proof. intros [_ H] d Hd. left. now apply H. Qed.
Lemma blames_list {X Y} (f : X -> res perror Y) (g : X -> claim) l : Forall (fun x => answers (f x) (g x)) l -> blames (rlist f l) (map g l).
Proof.
  induction 1 as [|x l Hx _ IH]; cbn [rlist map]; [intros d Hd; discriminate|]. apply blames_cons; auto. intros v _. now apply blames_end.
Qed.
Lemma list_claims {X Y} (f : X -> res perror Y) (g : X -> claim) l : Forall (fun x => answers (f x) (g x)) l -> forall v, rlist f l = Ok v -> Forall fst (map g l).
Proof.
  intros H v Hv. apply rlist_iff in Hv. revert H. induction Hv as [|x y l v Hx _ IH]; intros H; [constructor|]. inversion H as [|? ? [H1 _] H2]; subst.
  cbn [map]. constructor; eauto.
Qed.
Lemma blames_misplaced {X} n m (P : Prop) ps : ~ P -> blames (Err (EValidation n m) : res perror X) (unless P n Misplaced :: ps).
Proof. intros H d [= <-]. cbn. auto. Qed.
Lemma blames_pass {X} (x : res perror X) (P : Prop) n c ps : P -> blames x ps -> blames x (unless P n c :: ps).
Proof. intros HP H d Hd. right. split; [exact HP|]. now apply H. Qed.
Lemma rmap_err {E X Y} (f : X -> Y) (x : res E X) d : rmap f x = Err d -> x = Err d.
Proof. destruct x; cbn; congruence. Qed.
Lemma unescape_no_err {E} q (d : E) s : unescape_loop q s <> Err d.
Proof.
  induction s as [s IH] using (well_founded_induction (Wf_nat.well_founded_ltof _ (@length N))). unfold Wf_nat.ltof in IH.
  destruct s as [|c r]; cbn [unescape_loop]; [discriminate|]. destruct (c =? q)%N; [destruct r; discriminate|]. destruct (c =? c_bs)%N.
  - destruct r as [|n r]; [discriminate|]. intros H. apply rmap_err in H. apply IH in H; [auto|cbn; lia].
  - intros H. apply rmap_err in H. apply IH in H; [auto|cbn; lia].
Qed.
Lemma name_no_err {E} (c : nm) (d : E) : lower_name c <> Err d.
Proof.
  destruct c as [s|[|x r]]; cbn [lower_name unescape_string]; try discriminate. destruct (x =? c_dq)%N; [|discriminate]. apply unescape_no_err.
Qed.

Section Trees.
  Context `{F : Floats}.
  Variable reg : registry.
  Variable e : exts.
  Hypothesis We : wf_exts e.

  Lemma resolve_complains k line name a d : resolve reg k line name a = Err d -> error_line d = line /\ handler_complains reg k name a (complaint_of d).
  Proof.
    unfold resolve, parse_with_type, handler_complains, payload_of. destruct (hget (k, name) (rg_handlers reg)) as [h|].
    - unfold parse_detail. intros H. destruct (args_parse (xe_from_args h) a) as [v|x|x] eqn:Ea; cbn [rbind] in H.
      + destruct (xe_to_any h v) as [d'|x|x] eqn:Ex; [discriminate| |discriminate]. assert (G : error_line d = line /\ complaint_of d = match x with XNotFound _ => Unregistered name | _ => Unsuitable end).
        { destruct x; injection H as <-; auto. }
        destruct G as [G1 G2]. split; [exact G1|]. right. exists h, x. rewrite Ea. auto.
      + assert (G : error_line d = line /\ complaint_of d = match x with XNotFound _ => Unregistered name | _ => Unsuitable end).
        { destruct x; injection H as <-; auto. }
        destruct G as [G1 G2]. split; [exact G1|]. right. exists h, x. rewrite Ea. auto.
      + discriminate.
    - intros [= <-]. auto.
  Qed.
  Lemma answers_addendum a : answers (lower_addendum e a) (addendum_claim e a).
  Proof.
    destruct a as [[k c args] line]. split; cbn [addendum_claim unless fst snd].
    - intros v H. unfold lower_addendum in H. apply (proj1 (lift_iff _ _ _)) in H. apply rbind_ok in H as (n & _ & H). apply rbind_ok in H as (x & Hx & _).
      exists x. now apply xargs_iff.
    - intros d H. cbn [lower_addendum] in H. destruct (lower_name c) as [n|q|q] eqn:En; cbn [rbind lift_plan] in H; [|now apply name_no_err in En|discriminate].
      destruct (lower_xargs e args) as [x|q|q] eqn:Ex; cbn [rbind lift_plan] in H; try discriminate. injection H as <-. cbn. split; [|auto].
      intros (xa & Hxa). apply xargs_iff in Hxa; auto. congruence.
  Qed.
  Lemma answers_payload a i : invoked e a i -> answers (resolve_addendum reg i) (payload_claim reg e a).
  Proof.
    intros Hi. split; cbn [payload_claim fst snd].
    - intros d Hd. exists d. apply resolved_iff; auto. exists i. auto.
    - intros d Hd. destruct a as [[k c args] line]. cbn [fst snd]. pose proof Hi as H. unfold invoked, lower_addendum in H. apply (proj1 (lift_iff _ _ _)) in H.
      apply rbind_ok in H as (n & Hn & H). apply rbind_ok in H as (x & Hx & [= <-]). unfold resolve_addendum in Hd. cbn [ai_kind ai_line ai_name ai_args] in Hd.
      apply resolve_complains in Hd as [H1 H2]. split; [exact H1|]. exists n, x. repeat split; [now apply (name_iff (E := perr))|now apply xargs_iff|exact H2].
  Qed.
  Lemma invoked_line a i : invoked e a i -> ai_line i = snd a.
  Proof.
    intros H. destruct a as [[k c args] line]. unfold invoked, lower_addendum in H. apply (proj1 (lift_iff _ _ _)) in H.
    apply rbind_ok in H as (n & Hn & H). now apply rbind_ok in H as (x & Hx & [= <-]).
  Qed.
  Lemma loop_claims ads is : Forall2 (invoked e) ads is -> forall before enh opts, (enh = None <-> filter (has_kind XtEnhancement) before = []) ->
    blames (standard_loop reg is enh opts) (payload_claims reg e before ads) /\
    forall v, standard_loop reg is enh opts = Ok v -> Forall fst (payload_claims reg e before ads).
  Proof.
    induction 1 as [|a i ads is Hi _ IH]; intros before enh opts He; cbn [standard_loop payload_claims]; [split; [intros d; discriminate|constructor]|].
    assert (K : forall k, has_kind k a = xtype_eqb (ai_kind i) k) by (intros k; symmetry; now apply invoked_kind with (e := e)).
    rewrite !K, (invoked_line _ _ Hi). destruct (ai_kind i) eqn:Ek; cbn [xtype_eqb].
    - split; [|discriminate]. apply blames_misplaced. intros [?|[? _]]; discriminate.
    - split; [|discriminate]. apply blames_misplaced. intros [?|[? _]]; discriminate.
    - destruct enh as [d|].
      + split; [|discriminate]. apply blames_misplaced. intros [?|[_ H]]; [discriminate|]. apply He in H. discriminate.
      + assert (N : forall d : any, Some d = None <-> filter (has_kind XtEnhancement) (before ++ [a]) = []).
        { intros d. rewrite filter_app. cbn [filter]. rewrite (K XtEnhancement). cbn. split; [discriminate|]. intros H. apply app_eq_nil in H as [_ ?]. discriminate. }
        assert (C : true = true /\ filter (has_kind XtEnhancement) before = []) by (split; [reflexivity|now apply He]).
        split.
        * apply blames_pass; [right; exact C|]. apply blames_cons; [now apply answers_payload|]. intros d _. now apply IH.
        * intros v Hv. apply rbind_ok in Hv as (d & Hd & Hv). constructor; [right; exact C|]. constructor; [now apply (answers_payload a i Hi) in Hd|].
          eapply IH; [apply N|exact Hv].
    - assert (N : enh = None <-> filter (has_kind XtEnhancement) (before ++ [a]) = []).
      { rewrite filter_app. cbn [filter]. rewrite (K XtEnhancement). cbn. now rewrite app_nil_r. }
      split.
      + apply blames_pass; [now left|]. apply blames_cons; [now apply answers_payload|]. intros d _. now apply IH.
      + intros v Hv. apply rbind_ok in Hv as (d & Hd & Hv). constructor; [now left|]. constructor; [now apply (answers_payload a i Hi) in Hd|].
        eapply IH; [apply N|exact Hv].
  Qed.
  Lemma standard_claims ads is : Forall2 (invoked e) ads is -> blames (standard_addenda reg is) (payload_claims reg e [] ads) /\
    forall v, standard_addenda reg is = Ok v -> Forall fst (payload_claims reg e [] ads).
  Proof.
    intros H. unfold standard_addenda. destruct (loop_claims _ _ H [] None []) as [H1 H2]; [cbn; tauto|]. split.
    - intros d Hd. apply rbind_err in Hd as [Hd|([[x|] [|y l]] & _ & Hd)]; try discriminate. now apply H1.
    - intros v Hv. apply rbind_ok in Hv as (p & Hp & _). eauto.
  Qed.
  Lemma table_claims_iff line ads is : Forall2 (invoked e) ads is -> blames (extension_read_addenda reg line is) (table_claims reg e line ads) /\
    forall v, extension_read_addenda reg line is = Ok v -> Forall fst (table_claims reg e line ads).
  Proof.
    intros H. unfold extension_read_addenda, table_claims. pose proof (kind_filter e XtTable _ _ H) as K.
    change (filter (inv_kind XtTable) is) with (filter is_table is) in K. inversion K as [Ea Ei|a i ls is' Hi K' Ea Ei].
    - split; [|discriminate]. now apply blames_misplaced.
    - destruct K' as [|a' i' ? ? Hi' ?].
      + destruct (standard_claims _ _ (rest_filter e ads is H)) as [S1 S2]. split.
        * apply blames_cons; [now apply answers_payload|]. intros d _. now apply (blames_end _ (fun adv => (d, adv))).
        * intros v Hv. apply rbind_ok in Hv as (d & Hd & Hv). apply rbind_ok in Hv as (adv & Hv & _). constructor; eauto.
          now apply (answers_payload a i Hi) in Hd.
      + split; [|discriminate]. rewrite (invoked_line _ _ Hi'). now apply blames_misplaced.
  Qed.
  (** What is left is blamed on the relation. *)
  Lemma blames_rest {X} line (x : pres X) (P : Prop) : (forall d, x = Err d -> ~ P) -> blames (lift_plan line x) [unless P line Unreadable].
  Proof. intros H d Hd. destruct x as [v|q|q]; try discriminate. injection Hd as <-. left. cbn. split; [now apply (H q)|auto]. Qed.

  Lemma relation_blame y line ads is cs (P : Prop) : Forall2 (invoked e) ads is -> (P -> exists v, parse_relation reg e y line is cs = Ok v) ->
    blames (parse_relation reg e y line is cs)
      (match y with
       | YExtRead _ => table_claims reg e line ads ++ [unless P line Unreadable]
       | YExt k nm args xcs =>
           match ads with
           | a :: _ => [unless False (snd a) Misplaced]
           | [] => [unless ((exists cols a, Forall2 (xcolumn_means e) xcs cols /\ arguments_mean e args cols a) /\ inputs_of k (length cs)) line Unreadable;
                    relation_claim reg e line nm args xcs]
           end
       | _ => payload_claims reg e [] ads ++ [unless P line Unreadable]
       end).
  Proof.
    intros Hi HP.
    assert (S : match y with YExtRead _ | YExt _ _ _ _ => False | _ => True end ->
      blames (let? adv := standard_addenda reg is in lift_plan line (lower_rel e y cs adv)) (payload_claims reg e [] ads ++ [unless P line Unreadable])).
    { intros Ho. destruct (standard_claims _ _ Hi) as [S1 S2]. apply blames_app; auto. intros adv Ha. apply blames_rest. intros d Hd HP'. destruct (HP HP') as (v & Hv).
      assert (Hv' : (let? adv := standard_addenda reg is in lift_plan line (lower_rel e y cs adv)) = Ok v) by (destruct y; try contradiction; exact Hv).
      rewrite Ha in Hv'. cbn [rbind] in Hv'. rewrite Hd in Hv'. discriminate. }
    destruct y as [names|t o|cols|rows f cols|x refs|args|g outs|fs refs|args refs|t x p refs|o refs|refs|k c args xcs];
      cbn [parse_relation]; try (apply S; exact I); clear S.
    - destruct (table_claims_iff line _ _ Hi) as [S1 S2]. apply blames_app; auto. intros p Hp. apply blames_rest. intros d Hd HP'.
      destruct (HP HP') as (v & Hv). cbn [parse_relation] in Hv. rewrite Hp in Hv. cbn [rbind] in Hv. rewrite Hd in Hv. discriminate.
    - destruct Hi as [|a i ads is Hi _]; [|rewrite (invoked_line _ _ Hi); now apply blames_misplaced].
      assert (D : child_count_ok k (length cs) = true <-> inputs_of k (length cs)).
      { destruct k; cbn; [apply Nat.eqb_eq..|tauto]. }
      intros d Hd. destruct (lower_invocation e args xcs) as [a|q|q] eqn:Ei; cbn [lift_plan rbind] in Hd; [|injection Hd as <-|discriminate].
      + pose proof Ei as Ei'. apply invocation_iff in Ei' as (cols & Hc & Hm); auto. destruct (child_count_ok k (length cs)).
        * right. split; [split; [eauto|now apply D]|]. left. apply rbind_err in Hd as [Hd|(z & _ & Hd)]; [|discriminate].
          apply resolve_complains in Hd as [H1 H2]. split; [exact H1|]. exists cols, a. auto.
        * left. injection Hd as <-. cbn. split; [|auto]. intros [_ H]. apply D in H. discriminate.
      + left. cbn. split; [|auto]. intros [(cols & a & H1 & H2) _]. assert (lower_invocation e args xcs = Ok a) by (apply invocation_iff; eauto). congruence.
  Qed.

  Lemma answers_tree t : (forall d, build_rel reg e t = Err d -> tree_blames reg e t (error_line d) (complaint_of d)) ->
    answers (build_rel reg e t) (exists r k, tree_means reg e t r k, tree_blames reg e t).
  Proof. intros H. split; [intros v Hv; apply tree_some; eauto|exact H]. Qed.
  Lemma tree_blame t : forall d, build_rel reg e t = Err d -> tree_blames reg e t (error_line d) (complaint_of d).
  Proof.
    induction t as [y line ads cs IH] using rnode_ind2. intros d Hd.
    pose proof (tree_some reg e We (RNode y line ads cs)) as T. cbn [tree_blames].
    assert (A : Forall (fun c => answers (build_rel reg e c) (exists r k, tree_means reg e c r k, tree_blames reg e c)) cs).
    { eapply Forall_impl; [|exact IH]. intros c. apply answers_tree. }
    set (P := exists r k, tree_means reg e (RNode y line ads cs) r k) in *. clearbody P. cbn [build_rel] in T, Hd. revert d Hd.
    match goal with |- forall d, ?x = _ -> blamed ?ps _ _ => change (blames x ps) end.
    apply blames_app; [now apply list_claims|now apply blames_list|]. intros ins Hins. rewrite Hins in T. cbn [rbind] in T. unfold node_claims.
    assert (B : Forall (fun a => answers (lower_addendum e a) (addendum_claim e a)) ads) by (apply Forall_forall; intros a _; apply answers_addendum).
    apply blames_app; [now apply list_claims|now apply blames_list|]. intros is His. rewrite His in T. cbn [rbind] in T. apply rlist_iff in His.
    destruct (widths reg e We _ _ Hins) as [Lc _]. rewrite <- Lc. apply relation_blame; auto. now apply T.
  Qed.
  Lemma plan_tree_blame t : forall d, build_plan_rel reg e t = Err d -> plan_tree_blames reg e t (error_line d) (complaint_of d).
  Proof.
    destruct t as [y line ads cs].
    assert (S : forall d, (let? p := build_rel reg e (RNode y line ads cs) in Ok (PRel (fst p))) = Err d -> tree_blames reg e (RNode y line ads cs) (error_line d) (complaint_of d)).
    { intros d Hd. apply rbind_err in Hd as [Hd|(v & _ & Hd)]; [|discriminate]. now apply tree_blame. }
    destruct y as [l| | | | | | | | | | | |]; try exact S. clear S. cbn [build_plan_rel plan_tree_blames].
    destruct ads as [|[a n] ads]; [|intros d [= <-]; left; cbn; auto]. cbn [app]. intros d Hd. apply rbind_err in Hd as [Hd|(names & _ & Hd)].
    { exfalso. destruct (rlist lower_name l) as [v|q|q] eqn:El; try discriminate. clear Hd. revert q El. induction l as [|x l IH]; cbn [rlist]; [discriminate|].
      intros q Hq. apply rbind_err in Hq as [Hq|(v & _ & Hq)]; [now apply name_no_err in Hq|]. apply rbind_err in Hq as [Hq|(v' & _ & Hq)]; [now apply IH in Hq|discriminate]. }
    destruct cs as [|c [|c' cs]]; [injection Hd as <-; left; cbn; repeat split; discriminate| |injection Hd as <-; left; cbn; repeat split; discriminate].
    right. split; [reflexivity|]. left. cbn [snd]. apply rbind_err in Hd as [Hd|(v & _ & Hd)]; [|discriminate]. now apply tree_blame.
  Qed.
  Lemma answers_plan_tree t : answers (build_plan_rel reg e t) (exists p, plan_tree_means reg e t p, plan_tree_blames reg e t).
  Proof. split; [intros v Hv; exists v; now apply plan_tree_iff|apply plan_tree_blame]. Qed.
  Lemma trees_blame ts : blames (rlist (build_plan_rel reg e) ts) (map (fun t => (exists p, plan_tree_means reg e t p, plan_tree_blames reg e t)) ts).
  Proof. apply blames_list, Forall_forall. intros t _. apply answers_plan_tree. Qed.

  (** ** Nobody else is blamed *)

  (** Something blamed has no meaning, and only one complaint is made about it. *)
  Definition definite (p : claim) : Prop := (forall n c, snd p n c -> ~ fst p) /\ forall n c n' c', snd p n c -> snd p n' c' -> n = n' /\ c = c'.
  Lemma definite_unless P n c : definite (unless P n c).
  Proof. split; cbn; [tauto|]. intros n1 c1 n2 c2 (_ & -> & ->) (_ & -> & ->). auto. Qed.
  Lemma definite_all ps : Forall definite ps -> definite (Forall fst ps, blamed ps).
  Proof.
    induction 1 as [|p ps [H1 H2] _ [I1 I2]]; split; cbn [fst snd blamed] in *; try tauto.
    - intros n c [H|[H H']] HF; inversion HF; subst; [eapply H1; eauto|eapply I1; eauto].
    - intros n c n' c' [H|[H H']] [G|[G G']]; [eauto|exfalso; eapply H1; eauto..|eauto].
  Qed.
  Lemma complains_one k name a c c' : handler_complains reg k name a c -> handler_complains reg k name a c' -> c = c'.
  Proof.
    intros [[H1 ->]|(h & x & H1 & H2 & ->)] [[G1 ->]|(h' & x' & G1 & G2 & ->)]; try congruence.
    assert (h' = h) by congruence. subst h'. assert (x' = x) by congruence. now subst x'.
  Qed.
  Lemma complains_not k name a c d : handler_complains reg k name a c -> handled reg k name a d -> False.
  Proof. intros [[H1 _]|(h & x & H1 & H2 & _)] (h' & G1 & G2); congruence. Qed.
  Lemma definite_payload a : definite (payload_claim reg e a).
  Proof.
    destruct a as [[k nm args] line]. 
    assert (U : forall name xa name' xa', name_means nm name -> arguments_mean e args [] xa -> name_means nm name' -> arguments_mean e args [] xa' ->
      name = name' /\ xa = xa').
    { intros name xa name' xa' H1 H2 H3 H4. apply (name_iff (E := perr)) in H1, H3. apply xargs_iff in H2, H4; auto. split; congruence. }
    split; cbn [payload_claim fst snd].
    - intros n c (_ & name & xa & H1 & H2 & H3) (d & name' & xa' & G1 & G2 & G3). destruct (U _ _ _ _ H1 H2 G1 G2) as [<- <-].
      now apply (complains_not _ _ _ _ _ H3) in G3.
    - intros n c n' c' (-> & name & xa & H1 & H2 & H3) (-> & name' & xa' & G1 & G2 & G3). split; [reflexivity|].
      destruct (U _ _ _ _ H1 H2 G1 G2) as [<- <-]. eapply complains_one; eauto.
  Qed.
  Lemma definite_payloads ads : forall before, Forall definite (payload_claims reg e before ads).
  Proof.
    induction ads as [|a ads IH]; intros before; cbn [payload_claims]; [constructor|]. constructor; [apply definite_unless|].
    constructor; [apply definite_payload|apply IH].
  Qed.
  Lemma definite_relation line nm args xcs : definite (relation_claim reg e line nm args xcs).
  Proof.
    assert (U : forall cols a cols' a', Forall2 (xcolumn_means e) xcs cols -> arguments_mean e args cols a -> Forall2 (xcolumn_means e) xcs cols' ->
      arguments_mean e args cols' a' -> a = a').
    { intros cols a cols' a' H1 H2 H3 H4. assert (lower_invocation e args xcs = Ok a) by (apply invocation_iff; eauto).
      assert (lower_invocation e args xcs = Ok a') by (apply invocation_iff; eauto). congruence. }
    split; cbn [relation_claim fst snd].
    - intros n c (_ & cols & a & H1 & H2 & H3) (cols' & a' & d & G1 & G2 & G3). rewrite <- (U _ _ _ _ H1 H2 G1 G2) in G3.
      now apply (complains_not _ _ _ _ _ H3) in G3.
    - intros n c n' c' (-> & cols & a & H1 & H2 & H3) (-> & cols' & a' & G1 & G2 & G3). split; [reflexivity|].
      rewrite <- (U _ _ _ _ H1 H2 G1 G2) in G3. eapply complains_one; eauto.
  Qed.
  Lemma definite_node y line ads ins P : Forall definite (node_claims reg e y line ads ins P).
  Proof.
    unfold node_claims. apply Forall_app. split; [rewrite Forall_map; apply Forall_forall; intros a _; apply definite_unless|].
    assert (S : Forall definite (payload_claims reg e [] ads ++ [unless P line Unreadable])).
    { apply Forall_app. split; [apply definite_payloads|]. constructor; [apply definite_unless|constructor]. }
    destruct y; try exact S; clear S.
    - apply Forall_app. split; [|constructor; [apply definite_unless|constructor]]. unfold table_claims.
      destruct (filter (has_kind XtTable) ads) as [|a [|a' l]]; try (constructor; [apply definite_unless|constructor]).
      constructor; [apply definite_payload|apply definite_payloads].
    - destruct ads; constructor; try apply definite_unless; constructor; [apply definite_relation|constructor].
  Qed.
  Lemma relation_claims y line ads is cs (P : Prop) v : Forall2 (invoked e) ads is -> P -> parse_relation reg e y line is cs = Ok v ->
    Forall fst (match y with
       | YExtRead _ => table_claims reg e line ads ++ [unless P line Unreadable]
       | YExt k nm args xcs =>
           match ads with
           | a :: _ => [unless False (snd a) Misplaced]
           | [] => [unless ((exists cols a, Forall2 (xcolumn_means e) xcs cols /\ arguments_mean e args cols a) /\ inputs_of k (length cs)) line Unreadable;
                    relation_claim reg e line nm args xcs]
           end
       | _ => payload_claims reg e [] ads ++ [unless P line Unreadable]
       end).
  Proof.
    intros Hi HP Hv. assert (S : Forall fst [unless P line Unreadable]) by (constructor; [exact HP|constructor]).
    assert (St : (exists adv, standard_addenda reg is = Ok adv) -> Forall fst (payload_claims reg e [] ads ++ [unless P line Unreadable])).
    { intros (adv & Ha). apply Forall_app. split; [|exact S]. now apply (proj2 (standard_claims _ _ Hi) adv). }
    destruct y as [names|t o|cols|rows f cols|x refs|args|g outs|fs refs|args refs|t x p refs|o refs|refs|k c args xcs];
      cbn [parse_relation] in Hv; try (apply rbind_ok in Hv as (adv & Ha & _); apply St; eauto).
    - apply rbind_ok in Hv as (p & Hp & _). apply Forall_app. split; [|exact S]. now apply (proj2 (table_claims_iff line _ _ Hi) p).
    - destruct Hi as [|a i ads is Hi _]; [|discriminate]. apply rbind_ok in Hv as (a & Ha & Hv). apply (proj1 (lift_iff _ _ _)) in Ha.
      apply invocation_iff in Ha as (cols & Hc & Hm); auto.
      assert (D : child_count_ok k (length cs) = true <-> inputs_of k (length cs)).
      { destruct k; cbn; [apply Nat.eqb_eq..|tauto]. }
      destruct (child_count_ok k (length cs)); [|discriminate]. apply rbind_ok in Hv as (d & Hd & _). apply handled_iff in Hd.
      constructor; [split; [eauto|now apply D]|]. constructor; [|constructor]. exists cols, a, d. auto.
  Qed.
  Lemma definite_tree t : definite (exists r k, tree_means reg e t r k, tree_blames reg e t).
  Proof.
    induction t as [y line ads cs IH] using rnode_ind2. pose proof (tree_some reg e We (RNode y line ads cs)) as T.
    assert (A : Forall (fun c => answers (build_rel reg e c) (exists r k, tree_means reg e c r k, tree_blames reg e c)) cs).
    { apply Forall_forall. intros c _. apply answers_tree, tree_blame. }
    assert (Ad : Forall (fun a => answers (lower_addendum e a) (addendum_claim e a)) ads) by (apply Forall_forall; intros a _; apply answers_addendum).
    destruct (definite_all (map (fun t' => (exists r k, tree_means reg e t' r k, tree_blames reg e t')) cs ++
      node_claims reg e y line ads (length cs) (exists r k, tree_means reg e (RNode y line ads cs) r k))) as [D1 D2].
    { apply Forall_app. split; [rewrite Forall_map; exact IH|apply definite_node]. }
    split; cbn [fst snd tree_blames] in *; [|exact D2]. intros n c Hb Hm. apply (D1 n c Hb). pose proof Hm as HP. apply T in Hm as (v & Hv). clear D1 D2 Hb IH.
    cbn [build_rel] in Hv. apply rbind_ok in Hv as (ins & Hins & Hv). apply rbind_ok in Hv as (is & His & Hv). apply Forall_app. split.
    - eapply list_claims; eauto.
    - unfold node_claims. apply Forall_app. split; [eapply list_claims; eauto|]. apply rlist_iff in His. destruct (widths reg e We _ _ Hins) as [Lc _]. rewrite <- Lc.
      eapply relation_claims; eauto.
  Qed.
  Lemma definite_plan_tree t : definite (exists p, plan_tree_means reg e t p, plan_tree_blames reg e t).
  Proof.
    destruct t as [y line ads cs].
    assert (S : (forall l, y <> YRoot l) -> definite (exists p, plan_tree_means reg e (RNode y line ads cs) p, tree_blames reg e (RNode y line ads cs))).
    { intros Hy. destruct (definite_tree (RNode y line ads cs)) as [D1 D2]. split; cbn [fst snd] in *; [|exact D2]. intros n c Hb (p & Hp). apply (D1 n c Hb).
      inversion Hp as [? ? ? ? ? ? Hn Ht|? r k Ht]; subst; [now destruct (Hy cs0)|eauto]. }
    destruct y as [l| | | | | | | | | | | |]; try (apply S; intros; discriminate). clear S. cbn [plan_tree_blames].
    destruct (definite_all (match ads with a :: _ => [unless False (snd a) Misplaced] | [] => [] end ++
          unless (length cs = 1) line Unreadable :: map (fun t' => (exists r k, tree_means reg e t' r k, tree_blames reg e t')) cs)) as [D1 D2].
    { apply Forall_app. split; [destruct ads; constructor; [apply definite_unless|constructor]|]. constructor; [apply definite_unless|].
      rewrite Forall_map. apply Forall_forall. intros t _. apply definite_tree. }
    split; cbn [fst snd] in *; [|exact D2]. intros n c Hb (p & Hp). apply (D1 n c Hb).
    inversion Hp as [? ? ? t r k Hn Ht|? r k Ht]; subst.
    - constructor; [reflexivity|]. constructor; [cbn; eauto|constructor].
    - exfalso. apply tree_iff in Ht; auto. cbn [build_rel] in Ht. apply rbind_ok in Ht as (ins & _ & Ht). apply rbind_ok in Ht as (is & _ & Ht).
      cbn [parse_relation] in Ht. apply rbind_ok in Ht as (adv & _ & Ht). discriminate.
  Qed.
  Lemma definite_trees ts : definite (Forall fst (map (fun t => (exists p, plan_tree_means reg e t p, plan_tree_blames reg e t)) ts),
    blamed (map (fun t => (exists p, plan_tree_means reg e t p, plan_tree_blames reg e t)) ts)).
  Proof. apply definite_all. rewrite Forall_map. apply Forall_forall. intros t _. apply definite_plan_tree. Qed.

  (** An error is made exactly of what is blamed, unless reading crashes. *)
  Lemma trees_blame_iff ts n c : Forall tree_whole ts ->
    (exists d, rlist (build_plan_rel reg e) ts = Err d /\ error_line d = n /\ complaint_of d = c) <->
    blamed (map (fun t => (exists p, plan_tree_means reg e t p, plan_tree_blames reg e t)) ts) n c /\ forall m, rlist (build_plan_rel reg e) ts <> Panic m.
  Proof.
    intros W. destruct (definite_trees ts) as [D1 D2]. cbn [fst snd] in *. split.
    - intros (d & Hd & <- & <-). split; [now apply trees_blame|]. rewrite Hd. discriminate.
    - intros [Hb Hn]. destruct (rlist (build_plan_rel reg e) ts) as [v|d|m] eqn:E; [|exists d|now destruct (Hn m)].
      + exfalso. apply (D1 n c Hb). eapply list_claims; [|exact E]. apply Forall_forall. intros t _. apply answers_plan_tree.
      + split; [reflexivity|]. now apply (D2 _ _ n c (trees_blame ts d E)).
  Qed.
End Trees.
