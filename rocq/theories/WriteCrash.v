(** Where the crashes of formatting come from. *)
From Coq Require Import String List NArith ZArith Bool Lia.
From Verif Require Import Base BaseFacts Names SimpleExt SimpleExtFacts Out Anchors Types TypesFacts Calendar Literals Exprs
  ExprsFacts ExprEq ExtArgs Registry SpecRegistry Rels SpecRels SpecAddenda Plan Structural SpecLits SpecVisible SpecFormat
  OutClosed SpecWriteCrash.
Import ListNotations.
Local Open Scope string_scope.
Local Open Scope list_scope.
Local Open Scope nat_scope.

(** [pan s o]: crash [s] is among those of [o]. *)
Definition pan (s : string) (o : out) : Prop := In s (o_panics o).
Definition none (o : out) : Prop := forall s, ~ pan s o.

Lemma pan_app s a b : pan s (a +++ b) <-> pan s a \/ pan s b.
Proof. unfold pan. cbn [oapp o_panics]. apply in_app_iff. Qed.
Lemma none_txt t : none (txt t). Proof. intros s []. Qed.
Lemma none_fail e : none (ofail e). Proof. intros s []. Qed.
Lemma none_push e : none (opush e). Proof. intros s []. Qed.
Lemma none_nil : none onil. Proof. intros s []. Qed.
Lemma none_app a b : none a -> none b -> none (a +++ b).
Proof. intros Ha Hb s H. apply pan_app in H as [H|H]; [now apply Ha in H|now apply Hb in H]. Qed.
Lemma pan_panic s p : pan s (opanic p) <-> s = p.
Proof. unfold pan. cbn. intuition. Qed.
Lemma pan_sep s sep l : pan s (osep sep l) <-> exists o, In o l /\ pan s o.
Proof.
  induction l as [|x l IH]; [cbn; split; [intros []|intros (? & [] & _)]|]. destruct l as [|y l].
  - cbn [osep]. split; [intros H; exists x; split; [now left|exact H]|intros (o & [->|[]] & H); exact H].
  - change (osep sep (x :: y :: l)) with (x +++ txt sep +++ osep sep (y :: l)). rewrite !pan_app, IH. split.
    + intros [H|[[]|(o & Ho & H)]]; [exists x; split; [now left|exact H]|exists o; split; [now right|exact H]].
    + intros (o & [<-|Ho] & H); [now left|right; right; eauto].
Qed.
Lemma pan_fold s l : pan s (fold_right oapp onil l) <-> exists o, In o l /\ pan s o.
Proof.
  induction l as [|x l IH]; cbn [fold_right]; [split; [intros []|intros (? & [] & _)]|]. rewrite pan_app, IH. split.
  - intros [H|(o & Ho & H)]; [exists x; split; [now left|exact H]|exists o; split; [now right|exact H]].
  - intros (o & [<-|Ho] & H); [now left|right; eauto].
Qed.
Lemma pan_map {A} s (f : A -> out) l : (exists o, In o (map f l) /\ pan s o) <-> exists a, In a l /\ pan s (f a).
Proof.
  split.
  - intros (o & Ho & H). apply in_map_iff in Ho as (a & <- & Ha). eauto.
  - intros (a & Ha & H). exists (f a). split; [now apply in_map|exact H].
Qed.

Section Write.
  Context (U : Unicode) (F : Floats).
  Variables (reg : registry) (op : options) (e : exts).
  Hypothesis We : wf_exts e.

  Ltac quiet := try exact We; try exact none_txt; try exact none_app; try apply none_push; try exact none_fail.
  Lemma none_ref k a : none (ref_out op e k a).
  Proof. eapply Pref; quiet. Qed.
  Lemma none_type t : none (type_out op e t).
  Proof. eapply Ptype; quiet. Qed.
  Lemma none_fieldref f : none (fieldref_out f).
  Proof. eapply Pfieldref; quiet. Qed.
  Lemma none_output t : none (output_type_out op e t).
  Proof. eapply Poutput; quiet. Qed.
  Lemma none_behavior b : none (behavior_out b).
  Proof. eapply Pbehavior; quiet. Qed.
  Lemma none_expect_type t : none (oexpect "Type" (type_out op e) t).
  Proof. destruct t; cbn [oexpect]; [apply none_type|apply none_fail]. Qed.

  (** ** Literals and expressions *)
  Lemma none_not s o : none o -> (pan s o <-> False).
  Proof. intros H. split; [apply H|intros []]. Qed.

  Lemma pan_date s days : pan s (litval_out op (LDate days)) <-> s = date_crash /\ no_date days.
  Proof.
    cbn [litval_out]. unfold days_to_date_string, date_of_days_opt.
    destruct (in_range min_days max_days days) eqn:R; unfold in_range in R; change min_days with (-96465292)%Z in R;
      change max_days with (95026236)%Z in R; unfold no_date.
    - split; [intros []|intros [_ H]; lia].
    - cbn [option_map]. rewrite pan_panic. split; [intros ->; split; [reflexivity|lia]|intros [-> _]; reflexivity].
  Qed.
  Lemma pan_literal s l : pan s (literal_out op e l) <-> s = date_crash /\ outside l.
  Proof.
    destruct (l_type l) as [v|] eqn:E.
    - assert (H : forall days, v <> LDate days -> True) by auto.
      destruct (match v with LDate days => Some days | _ => None end) as [days|] eqn:D.
      + assert (v = LDate days) as -> by (destruct v; congruence).
        unfold literal_out. rewrite E, pan_app, pan_date. unfold outside. rewrite E. split.
        * intros [[-> N]|K]; [split; eauto|exfalso]. revert K.
          match goal with |- context [if ?b then _ else _] => destruct b end; intros [].
        * intros (-> & d & [= ->] & N). left. auto.
      + assert (none (literal_out op e l)) as N.
        { eapply Pliteral with (G := fun l' => l' = l); quiet; [|reflexivity].
          intros l' days -> E'. rewrite E in E'. injection E' as ->. discriminate D. }
        rewrite (none_not s _ N). split; [intros []|]. intros (_ & days & E' & _). rewrite E in E'. injection E' as ->. discriminate D.
    - unfold literal_out. rewrite E. split; [intros []|]. intros (_ & days & E' & _). congruence.
  Qed.

  (** An expression has a date outside the calendar. *)
  Definition bad (x : pexpr) : Prop := exists l, in_expr l x /\ outside l.
  Definition bad_arg (a : parg) : Prop := match a with AValue x => bad x | _ => False end.
  Lemma bad_fun r args opts t : bad (EFunc r args opts t) <-> exists a, In a args /\ bad_arg a.
  Proof.
    split.
    - intros (l & H & O). inversion H; subst. exists (AValue x). split; [assumption|]. exists l. auto.
    - intros (a & Ha & B). destruct a; try contradiction B. destruct B as (l & H & O). exists l. split; [|exact O].
      eapply ie_arg; eauto.
  Qed.
  Definition bad_opt (o : option pexpr) : Prop := exists x, o = Some x /\ bad x.
  Lemma bad_if ifs els : bad (EIf ifs els) <-> (exists c, In c ifs /\ (bad_opt (fst c) \/ bad_opt (snd c))) \/ bad_opt els.
  Proof.
    split.
    - intros (l & H & O). inversion H; subst.
      + left. exists c. split; [assumption|]. match goal with K : _ \/ _ |- _ => destruct K as [E|E] end; [left|right]; exists x; (split; [exact E|exists l; auto]).
      + right. exists x. split; [reflexivity|exists l; auto].
    - intros [(c & Hc & [(x & E & l & H & O)|(x & E & l & H & O)])|(x & E & l & H & O)]; exists l; (split; [|exact O]).
      + eapply ie_if; eauto.
      + eapply ie_if; eauto.
      + rewrite E. now apply ie_else.
  Qed.
  Lemma bad_cast b i t : bad (ECast b i t) <-> bad_opt i.
  Proof.
    split.
    - intros (l & H & O). inversion H; subst. exists x. split; [reflexivity|exists l; auto].
    - intros (x & -> & l & H & O). exists l. split; [now constructor|exact O].
  Qed.

  Lemma pan_opt s o k : opt_all (fun x => pan s (expr_out op e x) <-> s = date_crash /\ bad x) o ->
    (pan s (match o with Some y => expr_out op e y | None => ofail k end) <-> s = date_crash /\ bad_opt o).
  Proof.
    destruct o as [x|]; cbn [opt_all]; intros H.
    - rewrite H. split; [intros [-> B]; split; [reflexivity|exists x; auto]|intros (-> & y & [= <-] & B); auto].
    - split; [intros []|intros (_ & y & E & _); discriminate E].
  Qed.
  Lemma pan_invocation s r l os : pan s (invocation_out op e r l os) <-> exists o, In o l /\ pan s o.
  Proof.
    unfold invocation_out. rewrite !pan_app, (none_not s _ (none_ref KFunction r)), !(none_not s _ (none_txt _)), !pan_sep.
    split; [|tauto]. intros [[]|[[]|[H|[[]|[(o & Ho & H)|[]]]]]]; [exact H|exfalso].
    apply in_map_iff in Ho as (a & <- & _). destruct H.
  Qed.
  Lemma pan_expr s x : pan s (expr_out op e x) <-> s = date_crash /\ bad x.
  Proof.
    revert x. apply (pexpr_ind2 (fun x => pan s (expr_out op e x) <-> s = date_crash /\ bad x)
      (fun a => pan s (arg_out op e a) <-> s = date_crash /\ bad_arg a)); cbn [expr_out arg_out bad_arg].
    - intros l. rewrite pan_literal. split; intros [-> H]; (split; [reflexivity|]).
      + exists l. split; [constructor|exact H].
      + destruct H as (l' & H & O). inversion H; subst. exact O.
    - intros f. rewrite (none_not s _ (none_fieldref f)). split; [intros []|]. intros (_ & l & H & _). inversion H.
    - intros r args opts t IH. rewrite pan_app, (none_not s _ (none_output t)), pan_invocation, pan_map, bad_fun.
      rewrite Forall_forall in IH. split.
      + intros [(a & Ha & H)|[]]. apply IH in H as [-> B]; [|exact Ha]. split; eauto.
      + intros (-> & a & Ha & B). left. exists a. split; [exact Ha|]. apply IH; auto.
    - intros ifs els IH IHe. rewrite !pan_app, !(none_not s _ (none_txt _)), pan_fold, pan_map, bad_if, (pan_opt s els _ IHe).
      rewrite Forall_forall in IH.
      assert (K : (exists c, In c ifs /\ pan s (match fst c with Some y => expr_out op e y | None => ofail (FPlan FInvalid "Expression") end
        +++ txt (L " -> ") +++ match snd c with Some y => expr_out op e y | None => ofail (FPlan FInvalid "Expression") end +++ txt (L ", ")))
        <-> s = date_crash /\ exists c, In c ifs /\ (bad_opt (fst c) \/ bad_opt (snd c))).
      { split.
        - intros (c & Hc & H). destruct (IH c Hc) as [I1 I2]. rewrite !pan_app, (pan_opt s _ _ I1), (pan_opt s _ _ I2) in H.
          destruct H as [[-> B]|[[]|[[-> B]|[]]]]; (split; [reflexivity|exists c; auto]).
        - intros (-> & c & Hc & B). exists c. split; [exact Hc|]. destruct (IH c Hc) as [I1 I2].
          rewrite !pan_app, (pan_opt _ _ _ I1), (pan_opt _ _ _ I2). tauto. }
      rewrite K. tauto.
    - intros b i t IH. rewrite !pan_app, !(none_not s _ (none_txt _)), (none_not s _ (none_behavior b)),
        (none_not s _ (none_expect_type t)), (pan_opt s i _ IH), bad_cast. tauto.
    - intros v. split; [intros []|]. intros (_ & l & H & _). inversion H.
    - split; [intros []|]. intros (_ & l & H & _). inversion H.
    - intros t. rewrite (none_not s _ (none_type t)). tauto.
    - intros x H. exact H.
    - intros n. split; [intros []|intros [_ []]].
    - split; [intros []|intros [_ []]].
  Qed.
  Lemma pan_arg s a : pan s (arg_out op e a) <-> s = date_crash /\ bad_arg a.
  Proof.
    destruct a; cbn [arg_out bad_arg].
    - rewrite (none_not s _ (none_type t)). tauto.
    - apply pan_expr.
    - split; [intros []|intros [_ []]].
    - split; [intros []|intros [_ []]].
  Qed.
  Lemma pan_aggfn s a : pan s (aggfn_out op e a) <-> s = date_crash /\ exists x, In (AValue x) (af_args a) /\ bad x.
  Proof.
    unfold aggfn_out. rewrite pan_app, (none_not s _ (none_output _)), pan_invocation, pan_map. split.
    - intros [(b & Hb & H)|[]]. apply pan_arg in H as [-> B]. destruct b; try contradiction B. split; eauto.
    - intros (-> & x & Hx & B). left. exists (AValue x). split; [exact Hx|]. now apply pan_arg.
  Qed.
  Lemma pan_opt_expr s k m x : pan s (opt_expr_out op e k m x) <-> s = date_crash /\ bad_opt x.
  Proof.
    unfold opt_expr_out, missing. destruct x as [x|].
    - rewrite pan_expr. split; [intros [-> B]; split; [reflexivity|exists x; auto]|intros (-> & y & [= <-] & B); auto].
    - split; [intros []|intros (_ & y & E & _); discriminate E].
  Qed.

  (** ** What handlers make of messages *)
  Definition bad_value (v : xvalue) : Prop := exists l, in_value l v /\ outside l.
  Lemma pan_value s v : pan s (xvalue_out op e v) <-> s = date_crash /\ bad_value v.
  Proof.
    revert v. apply (xvalue_ind2 (fun v => pan s (xvalue_out op e v) <-> s = date_crash /\ bad_value v)); cbn [xvalue_out];
      try (intros; split; [intros []|intros (_ & l0 & H & _); inversion H]; fail).
    - intros x. rewrite pan_expr. split; intros (-> & l & H & O); (split; [reflexivity|]); exists l; (split; [|exact O]).
      + now constructor.
      + now inversion H.
    - intros l IH. rewrite !pan_app, !(none_not s _ (none_txt _)), pan_sep, pan_map. rewrite Forall_forall in IH. split.
      + intros [[]|[(v & Hv & H)|[[]|[]]]]. apply IH in H as (-> & k & H & O); [|exact Hv]. split; [reflexivity|].
        exists k. split; [econstructor; eauto|exact O].
      + intros (-> & k & H & O). inversion H; subst. right. left. exists v. split; [assumption|]. apply IH; [assumption|].
        split; [reflexivity|exists k; auto].
  Qed.
  Lemma pan_column s c : pan s (xcolumn_out op e c) <-> s = date_crash /\ exists x, c = XColExpr x /\ bad x.
  Proof.
    destruct c as [n t|x]; cbn [xcolumn_out].
    - rewrite pan_app, (none_not s _ (none_txt _)), (none_not s _ (none_type t)). split; [tauto|]. intros (_ & x & E & _). discriminate E.
    - rewrite pan_expr. split; [intros [-> B]; eauto|]. intros (-> & y & [= ->] & B). auto.
  Qed.
  Definition bad_args (a : xargs) : Prop := exists l, in_args l a /\ outside l.
  Lemma bad_args_iff a : bad_args a <->
    (exists v, In v (xa_positional a) /\ bad_value v) \/ (exists p, In p (xa_named a) /\ bad_value (snd p)) \/
    (exists c x, In c (xa_columns a) /\ c = XColExpr x /\ bad x).
  Proof.
    split.
    - intros (l & [(v & Hv & H)|(x & Hx & H)] & O).
      + apply in_app_iff in Hv as [Hv|Hv].
        * left. exists v. split; [exact Hv|exists l; auto].
        * apply in_map_iff in Hv as (p & <- & Hp). right. left. exists p. split; [exact Hp|exists l; auto].
      + right. right. exists (XColExpr x), x. split; [exact Hx|]. split; [reflexivity|exists l; auto].
    - intros [(v & Hv & l & H & O)|[(p & Hp & l & H & O)|(c & x & Hc & -> & l & H & O)]]; exists l; (split; [|exact O]).
      + left. exists v. split; [apply in_app_iff; now left|exact H].
      + left. exists (snd p). split; [apply in_app_iff; right; now apply in_map|exact H].
      + right. eauto.
  Qed.
  Lemma pan_xargs s a : xa_columns a = [] -> (pan s (xargs_out op e a) <-> s = date_crash /\ bad_args a).
  Proof.
    intros Hc. unfold xargs_out, xarglist_out. rewrite Hc, pan_app, (none_not s _ none_nil), bad_args_iff, Hc.
    assert (K : pan s (osep (L ", ") (map (xvalue_out op e) (xa_positional a) ++ map (xnamed_out op e) (xa_named a))) <->
      s = date_crash /\ ((exists v, In v (xa_positional a) /\ bad_value v) \/ (exists p, In p (xa_named a) /\ bad_value (snd p)))).
    { rewrite pan_sep. split.
      - intros (o & Ho & H). apply in_app_iff in Ho as [Ho|Ho]; apply in_map_iff in Ho as (v & <- & Hv).
        + apply pan_value in H as [-> B]. eauto 6.
        + unfold xnamed_out in H. apply pan_app in H as [[]|H]. apply pan_value in H as [-> B]. eauto 6.
      - intros (-> & [(v & Hv & B)|(p & Hp & B)]).
        + exists (xvalue_out op e v). split; [apply in_app_iff; left; now apply in_map|now apply pan_value].
        + exists (xnamed_out op e p). split; [apply in_app_iff; right; now apply in_map|].
          unfold xnamed_out. apply pan_app. right. now apply pan_value. }
    assert (E : pan s (match xa_positional a, xa_named a with
      | [], [] => txt (L "_")
      | _, _ => osep (L ", ") (map (xvalue_out op e) (xa_positional a) ++ map (xnamed_out op e) (xa_named a)) end) <->
      pan s (osep (L ", ") (map (xvalue_out op e) (xa_positional a) ++ map (xnamed_out op e) (xa_named a)))).
    { destruct (xa_positional a), (xa_named a); try reflexivity. }
    rewrite E, K. cbn [In]. split; [|intros (-> & [H|[H|(c & x & [] & _)]]); auto].
    intros [(-> & [H|H])|[]]; auto.
  Qed.

  Lemma decode_message t d ws : (forall n a, decode_with_type reg t d ws = Ok (n, a) -> message reg t d ws (Ok a)) /\
    (forall p, decode_with_type reg t d ws = Panic p <-> message reg t d ws (Panic p)) /\
    (forall a, message reg t d ws (Ok a) -> exists n, decode_with_type reg t d ws = Ok (n, a)).
  Proof.
    unfold decode_with_type, message. destruct (hget (t, any_url d) (rg_urls reg)) as [name|]; cycle 1.
    { split; [discriminate|]. split; [split; [discriminate|intros (? & ? & [=] & _)]|intros a (? & ? & [=] & _)]. }
    destruct (hget (t, name) (rg_handlers reg)) as [h|] eqn:E; cycle 1.
    { split; [discriminate|]. split; [split; [discriminate|intros (? & ? & [= <-] & E' & _); congruence]|].
      intros a (? & ? & [= <-] & E' & _). congruence. }
    change (textify_detail h d ws) with (arguments_of h d ws). split; [|split].
    - intros n a H. exists name, h. destruct (arguments_of h d ws); cbn [rbind] in H; try discriminate. injection H as <- <-. auto.
    - intros p. split.
      + intros H. exists name, h. destruct (arguments_of h d ws); cbn [rbind] in H; try discriminate. injection H as <-. auto.
      + intros (n & h' & [= <-] & E' & H). rewrite E in E'. injection E' as <-. now rewrite <- H.
    - intros a (n & h' & [= <-] & E' & H). rewrite E in E'. injection E' as <-. rewrite <- H. exists name. reflexivity.
  Qed.

  (** A message crashes. *)
  Definition bad_message (s : string) (t : xtype) (d : any) (ws : list nat) : Prop :=
    message reg t d ws (Panic s) \/
    s = date_crash /\ exists a, message reg t d ws (Ok a) /\ bad_args a /\ (t = XtRelation \/ xa_columns a = []).
  Lemma pan_addendum s pre t d : t <> XtRelation ->
    (pan s (addendum_out op e pre (decode_with_type reg t d [])) <-> bad_message s t d []).
  Proof.
    intros Ht. unfold addendum_out, bad_message. rewrite pan_app, (none_not s _ (none_txt _)).
    destruct (decode_message t d []) as (M1 & M2 & M3).
    destruct (decode_with_type reg t d []) as [[n a]|x|p] eqn:D.
    - assert (forall a', message reg t d [] (Ok a') -> a' = a) as U1.
      { intros a' H. apply M3 in H as (n' & H). now injection H. }
      assert (~ message reg t d [] (Panic s)) as N by (intros H; apply M2 in H; discriminate H).
      specialize (M1 n a eq_refl).
      destruct (xa_columns a) eqn:C.
      + rewrite !pan_app, !(none_not s _ (none_txt _)), (pan_xargs s a C). split.
        * intros [[]|[[]|[[-> B]|[]]]]. right. split; [reflexivity|]. exists a. auto.
        * intros [H|(-> & a' & H & B & _)]; [contradiction|]. apply U1 in H as ->. auto.
      + split.
        * unfold missing. rewrite !pan_app. intros [[]|[[]|[[]|[]]]].
        * intros [H|(_ & a' & H & _ & [T|E])]; [contradiction|congruence|]. apply U1 in H as ->. congruence.
    - split.
      + rewrite !pan_app. intros [[]|[[]|[[]|[]]]].
      + intros [H|(_ & a' & H & _)]; [apply M2 in H; discriminate H|apply M3 in H as (n' & H); discriminate H].
    - rewrite pan_panic. split.
      + intros [[]| ->]. left. now apply M2.
      + intros [H|(_ & a' & H & _)]; [apply M2 in H; injection H; auto|apply M3 in H as (n' & H); discriminate H].
  Qed.
  Lemma pan_adv s a : (exists o, In o (adv_lines reg op e a) /\ pan s o) <->
    (exists d, In d (match a with Some a => opt_list (ae_enhancement a) | None => [] end) /\ bad_message s XtEnhancement d []) \/
    (exists d, In d (match a with Some a => ae_optimizations a | None => [] end) /\ bad_message s XtOptimization d []).
  Proof.
    destruct a as [a|]; cbn [adv_lines].
    - split.
      + intros (o & Ho & H). apply in_app_iff in Ho as [Ho|Ho].
        * left. destruct (ae_enhancement a) as [d|]; [|destruct Ho]. destruct Ho as [<-|[]]. exists d. split; [now left|].
          apply pan_addendum in H; [exact H|discriminate].
        * right. apply in_map_iff in Ho as (d & <- & Hd). exists d. split; [exact Hd|]. apply pan_addendum in H; [exact H|discriminate].
      + intros [(d & Hd & H)|(d & Hd & H)].
        * destruct (ae_enhancement a) as [d'|]; [|destruct Hd]. destruct Hd as [->|[]]. eexists. split; [now left|].
          apply pan_addendum; [discriminate|exact H].
        * eexists. split; [apply in_app_iff; right; apply in_map; exact Hd|]. apply pan_addendum; [discriminate|exact H].
    - split; [intros (o & [] & _)|intros [(d & [] & _)|(d & [] & _)]].
  Qed.
  Lemma pan_table s d : pan s (table_line reg op e d) <-> exists d', d = Some d' /\ bad_message s XtTable d' [].
  Proof.
    unfold table_line. destruct d as [d|].
    - rewrite pan_addendum by discriminate. split; [eauto|]. intros (d' & [= <-] & H). exact H.
    - split; [|intros (d' & [=] & _)]. unfold addendum_out. rewrite !pan_app. intros [[]|[[]|[[]|[]]]].
  Qed.
End Write.
