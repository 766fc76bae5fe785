(** Where the errors of formatting come from. *)
From Coq Require Import String List NArith ZArith Bool Lia.
From Verif Require Import Base BaseFacts Names SimpleExt SimpleExtFacts Out Anchors Types TypesFacts Calendar Literals Exprs
  ExprsFacts ExprEq ExtArgs Registry SpecRegistry Rels SpecRels SpecAddenda Plan Structural SpecLits SpecVisible SpecNotation SpecFormat
  NotationBase NotationLits OutClosed SpecWriteCrash WriteCrash SpecWriteErrors.
Import ListNotations.
Local Open Scope string_scope.
Local Open Scope list_scope.
Local Open Scope nat_scope.

(** [err er o]: error [er] is among those of [o]. *)
Definition err (er : ferr) (o : out) : Prop := In er (o_errs o).
Lemma err_app er a b : err er (a +++ b) <-> err er a \/ err er b.
Proof. unfold err. cbn [oapp o_errs]. apply in_app_iff. Qed.
Lemma err_txt er t : err er (txt t) <-> False. Proof. reflexivity. Qed.
Lemma err_nil er : err er onil <-> False. Proof. reflexivity. Qed.
Lemma err_panic er p : err er (opanic p) <-> False. Proof. reflexivity. Qed.
Lemma err_fail er x : err er (ofail x) <-> er = x.
Proof. unfold err. cbn. intuition. Qed.
Lemma err_push er x : err er (opush x) <-> er = x.
Proof. unfold err. cbn. intuition. Qed.
Lemma err_sep er sep l : err er (osep sep l) <-> exists o, In o l /\ err er o.
Proof.
  induction l as [|x l IH]; [cbn; split; [intros []|intros (? & [] & _)]|]. destruct l as [|y l].
  - cbn [osep]. split; [intros H; exists x; split; [now left|exact H]|intros (o & [->|[]] & H); exact H].
  - change (osep sep (x :: y :: l)) with (x +++ txt sep +++ osep sep (y :: l)). rewrite !err_app, IH. split.
    + intros [H|[[]|(o & Ho & H)]]; [exists x; split; [now left|exact H]|exists o; split; [now right|exact H]].
    + intros (o & [<-|Ho] & H); [now left|right; right; eauto].
Qed.
Lemma err_fold er l : err er (fold_right oapp onil l) <-> exists o, In o l /\ err er o.
Proof.
  induction l as [|x l IH]; cbn [fold_right]; [split; [intros []|intros (? & [] & _)]|]. rewrite err_app, IH. split.
  - intros [H|(o & Ho & H)]; [exists x; split; [now left|exact H]|exists o; split; [now right|exact H]].
  - intros (o & [<-|Ho] & H); [now left|right; eauto].
Qed.
Lemma err_map {A} er (f : A -> out) l : (exists o, In o (map f l) /\ err er o) <-> exists a, In a l /\ err er (f a).
Proof.
  split.
  - intros (o & Ho & H). apply in_map_iff in Ho as (a & <- & Ha). eauto.
  - intros (a & Ha & H). exists (f a). split; [now apply in_map|exact H].
Qed.

Section Write.
  Context (U : Unicode) (F : Floats).
  Variables (reg : registry) (op : options) (e : exts).
  Hypothesis We : wf_exts e.

  (** ** Types *)
  Lemma err_ref er k a : err er (ref_out op e k a) <-> undeclared e k a er.
  Proof.
    unfold ref_out, na_out. rewrite err_app.
    assert (A : forall b, err er (anchor_out op (na_anchor (na_lookup e k a)) b) <-> False).
    { intros b. unfold anchor_out. destruct (op_anchors op); [reflexivity| |reflexivity]. destruct b; reflexivity. }
    rewrite A.
    assert (N : forall s : bool, err er match na_name (na_lookup e k a) with
      | Some n => na_fail (na_lookup e k a) +++ txt (if s then n else cn_base n) | None => na_fail (na_lookup e k a) end <->
      err er (na_fail (na_lookup e k a))).
    { intros s. destruct (na_name _); [|reflexivity]. rewrite err_app, err_txt. tauto. }
    rewrite N. clear A N. unfold undeclared.
    destruct (decl_get e k a) as [[u n]|] eqn:D.
    - assert (err er (na_fail (na_lookup e k a)) <-> False) as ->; [|split; [intros [[]|[]]|intros [[=] _]]].
      destruct k; cbn [na_lookup]; unfold lookup_function, find_by_anchor; rewrite D; cbn [rbind fst snd];
        rewrite (is_name_unique_spec e _ a u n We D); cbn [rbind];
        rewrite ?(is_base_name_unique_spec e _ a u n We D); reflexivity.
    - assert (err er (na_fail (na_lookup e k a)) <-> er = FLookup (MissingAnchor k a)) as ->; [|tauto].
      destruct k; cbn [na_lookup]; unfold lookup_function, find_by_anchor; rewrite D; cbn [rbind na_fail]; apply err_fail.
  Qed.

  Lemma err_marks er n v : err er (null_out n +++ var_out op e v) <->
    (n = NUnspecified /\ er = FPlan FInvalid "Nullability") \/ (v <> 0%N /\ undeclared e KTypeVariation v er).
  Proof.
    rewrite err_app.
    assert (err er (null_out n) <-> n = NUnspecified /\ er = FPlan FInvalid "Nullability") as ->.
    { destruct n; cbn [null_out]; rewrite ?err_app, ?err_push, ?err_txt, ?err_nil; split; try tauto; try (intros [[=] _]). }
    assert (err er (var_out op e v) <-> v <> 0%N /\ undeclared e KTypeVariation v er) as ->; [|reflexivity].
    unfold var_out. destruct (N.eqb_spec v 0) as [->|N]; [rewrite err_nil; tauto|].
    rewrite !err_app, !err_txt, err_ref. tauto.
  Qed.
  Lemma err_params er l : err er (params_out l) <-> exists o, In o l /\ err er o.
  Proof.
    destruct l as [|x l]; cbn [params_out]; [split; [intros []|intros (? & [] & _)]|].
    rewrite !err_app, !err_txt, err_sep. tauto.
  Qed.
  Definition err_parts (er : ferr) (l : list (option ptype)) : Prop :=
    (In None l /\ er = FPlan FInvalid "Parameter") \/ (exists t, In (Some t) l /\ type_error e er t).
  Lemma te_iff er t n v : type_marks t = Some (n, v) -> (type_error e er t <->
    (exists r, type_anchor t = Some r /\ undeclared e KType r er) \/
    ((n = NUnspecified /\ er = FPlan FInvalid "Nullability") \/ (v <> 0%N /\ undeclared e KTypeVariation v er)) \/
    err_parts er (type_parts t)).
  Proof.
    intros M. split.
    - intros H. unfold err_parts. inversion H; subst; try discriminate M.
      + right. left. left. split; [congruence|reflexivity].
      + right. left. right. rewrite M in *. match goal with K : Some _ = Some _ |- _ => injection K as -> -> end. auto.
      + left. eauto.
      + right. right. left. auto.
      + right. right. right. eauto.
    - intros [(r & A & H)|[[[-> E]|[N H]]|[[H E]|(t' & H & K)]]].
      + eapply te_user; eauto.
      + eapply te_nullability; eauto.
      + eapply te_variation; eauto.
      + eapply te_missing; eauto.
      + eapply te_part; eauto.
  Qed.
  Lemma err_type er t : err er (type_out op e t) <-> type_error e er t.
  Proof.
    revert t. apply (ptype_ind2 (fun t => err er (type_out op e t) <-> type_error e er t)
      (fun p => err er (param_out op e p) <-> err_parts er (match p with PType t => [Some t] | PNone => [None] | _ => [] end)));
      cbn [type_out param_out].
    1-6: intros; rewrite (te_iff er _ n v) by reflexivity; unfold textify_type; rewrite err_app, err_txt, <- (err_marks er n v), !err_app, err_params;
      cbn [type_anchor type_parts]; unfold err_parts; cbn [In];
      (split;
       [intros [[]|[H|[H|(o & H & K)]]]; [tauto|tauto|repeat destruct H as [<-|H]; try destruct H; destruct K]|
        intros [(r & [=] & _)|[[H|H]|[[[] _]|(x & [] & _)]]]; tauto]).
    - intros ts n v IH. rewrite Forall_forall in IH. rewrite (te_iff er _ n v) by reflexivity. unfold textify_type.
      rewrite err_app, err_txt, <- (err_marks er n v), !err_app, err_params, err_map. cbn [type_anchor type_parts]. unfold err_parts. split.
      + intros [[]|[H|[H|(x & H & K)]]]; [tauto|tauto|]. right. right. right. exists x. split; [now apply in_map|now apply IH].
      + intros [(r & [=] & _)|[[H|H]|[[H _]|(x & H & K)]]]; [tauto|tauto| |].
        * apply in_map_iff in H as (y & [=] & _).
        * apply in_map_iff in H as (y & [= ->] & H). right. right. right. exists x. split; [exact H|now apply IH].
    - intros t n v IH. rewrite (te_iff er _ n v) by reflexivity. unfold textify_type.
      rewrite err_app, err_txt, <- (err_marks er n v), !err_app, err_params. cbn [type_anchor type_parts]. unfold err_parts.
      destruct t as [t|]; [specialize (IH t eq_refl)|clear IH]; split.
      + intros [[]|[H|[H|(x & [<-|[]] & K)]]]; [tauto|tauto|]. right. right. right. exists t. split; [now left|now apply IH].
      + intros [(r & [=] & _)|[[H|H]|[[[[=]|[]] _]|(x & [[= ->]|[]] & K)]]]; [tauto|tauto|].
        right. right. right. eexists. split; [now left|now apply IH].
      + intros [[]|[H|[H|(x & [<-|[]] & K)]]]; [tauto|tauto|]. apply err_fail in K as ->. right. right. left. split; [now left|reflexivity].
      + intros [(r & [=] & _)|[[H|H]|[[_ ->]|(x & [[=]|[]] & K)]]]; [tauto|tauto|].
        right. right. right. eexists. split; [now left|now apply err_fail].
    - intros a b n v IHa IHb. rewrite (te_iff er _ n v) by reflexivity. unfold textify_type.
      rewrite err_app, err_txt, <- (err_marks er n v), !err_app, err_params. cbn [type_anchor type_parts].
      assert (O : forall t, (forall x, t = Some x -> (err er (type_out op e x) <-> type_error e er x)) ->
        (err er match t with Some t0 => type_out op e t0 | None => missing_param end <-> err_parts er [t])).
      { unfold err_parts. intros [t|] IH; [specialize (IH t eq_refl); rewrite IH|clear IH; unfold missing_param; rewrite err_fail]; split.
        - intros H. right. exists t. split; [now left|exact H].
        - intros [[[[=]|[]] _]|(x & [[= ->]|[]] & K)]. exact K.
        - intros ->. left. split; [now left|reflexivity].
        - intros [[_ E]|(x & [[=]|[]] & K)]. exact E. }
      specialize (O a IHa) as Oa. specialize (O b IHb) as Ob.
      assert (err_parts er [a; b] <-> err_parts er [a] \/ err_parts er [b]) as ->.
      { unfold err_parts. cbn [In]. split.
        - intros [[[H|[H|[]]] E]|(x & [H|[H|[]]] & K)]; eauto 8.
        - intros [[[[H|[]] E]|(x & [H|[]] & K)]|[[[H|[]] E]|(x & [H|[]] & K)]]; eauto 8. }
      rewrite <- Oa, <- Ob. split.
      + intros [[]|[H|[H|(x & [<-|[<-|[]]] & K)]]]; tauto.
      + intros [(r & [=] & _)|[[H|H]|[H|H]]]; [tauto|tauto| |]; right; right; right; eexists; (split; [|exact H]); [now left|right; now left].
    - intros r ps n v IH. rewrite Forall_forall in IH. rewrite (te_iff er _ n v) by reflexivity. unfold user_out.
      rewrite err_app, err_ref, <- (err_marks er n v), !err_app, err_params, err_map. cbn [type_anchor type_parts]. split.
      + intros [H|[H|[H|(p & H & K)]]]; [left; eauto|tauto|tauto|]. right. right. apply IH in K; [|exact H].
        unfold err_parts in *. destruct K as [[K E]|(t & K & E)]; [left; split; [|exact E]|right; exists t; split; [|exact E]];
          apply in_concat; eexists; (split; [apply in_map_iff; exists p; split; [reflexivity|exact H]|exact K]).
      + intros [(r' & [= <-] & H)|[[H|H]|H]]; [tauto|tauto|tauto|]. right. right. right.
        unfold err_parts in H. destruct H as [[K E]|(t & K & E)]; apply in_concat in K as (l & Hl & K);
          apply in_map_iff in Hl as (p & <- & Hp); exists p; (split; [exact Hp|]); (apply IH; [exact Hp|]); unfold err_parts; eauto.
    - intros r. unfold user_out. rewrite !err_app, err_ref. cbn [null_out]. unfold var_out. cbn [N.eqb params_out]. rewrite err_nil. split.
      + intros [H|H]; [|tauto]. eapply te_user; [reflexivity|exact H].
      + intros H. inversion H; subst; try discriminate; try match goal with K : In _ (type_parts _) |- _ => destruct K end.
        match goal with K : type_anchor _ = Some _ |- _ => injection K as -> end. now left.
    - rewrite err_fail. split; [apply te_func|]. intros H. inversion H; subst; try discriminate; auto; match goal with K : In _ (type_parts _) |- _ => destruct K end.
    - rewrite err_fail. split; [apply te_alias|]. intros H. inversion H; subst; try discriminate; auto; match goal with K : In _ (type_parts _) |- _ => destruct K end.
    - rewrite err_fail. split; [apply te_none|]. intros H. inversion H; subst; try discriminate; auto; match goal with K : In _ (type_parts _) |- _ => destruct K end.
    - intros b. unfold err_parts. split; [destruct b; intros []|intros [[[] _]|(x & [] & _)]].
    - intros t IH. rewrite IH. unfold err_parts. split; [intros H; right; exists t; split; [now left|exact H]|].
      intros [[[[=]|[]] _]|(x & [[= ->]|[]] & K)]. exact K.
    - intros s. unfold err_parts. split; [intros []|intros [[[] _]|(x & [] & _)]].
    - intros s. unfold err_parts. split; [intros []|intros [[[] _]|(x & [] & _)]].
    - intros s. unfold err_parts. split; [intros []|intros [[[] _]|(x & [] & _)]].
    - unfold err_parts. split; [intros []|intros [[[] _]|(x & [] & _)]].
    - unfold missing_param. rewrite err_fail. unfold err_parts. split; [intros ->; left; split; [now left|reflexivity]|].
      intros [[_ E]|(x & [[=]|[]] & _)]. exact E.
  Qed.
  Lemma err_type_in er m t : err er (oexpect m (type_out op e) t) <-> type_error_in e m er t.
  Proof. destruct t; cbn [oexpect type_error_in]; [apply err_type|apply err_fail]. Qed.
  Lemma err_output er t : err er (output_type_out op e t) <-> type_error_in e "OutputType" er t.
  Proof.
    destruct t; cbn [output_type_out type_error_in]; [rewrite err_app, err_txt, err_type; tauto|apply err_fail].
  Qed.

  (** ** Literals and expressions *)
  Lemma value_bad er v : (forall d, v <> LDate d) -> (forall s, v <> LOther s) -> err er (litval_out op v) -> er = bad_literal.
  Proof.
    intros H2 H3.
    assert (Pr : forall z r, err er (prec_literal_out z r) -> er = bad_literal).
    { intros z r. unfold prec_literal_out. destruct r; rewrite ?err_app, ?err_txt, ?err_fail; try tauto.
      destruct (_ =? _)%Z; rewrite ?err_push, ?err_nil; tauto. }
    assert (If : forall b : bool, err er (if b then opush bad_literal else onil) \/ err er (if b then onil else opush bad_literal) ->
      er = bad_literal).
    { intros []; rewrite ?err_push, ?err_nil; tauto. }
    destruct v; cbn [litval_out]; try (intros []; fail); try apply Pr.
    - now destruct (H2 days).
    - unfold interval_out. destruct (interval_units i) as [u s]. destruct (prec_of_units u) as [z|]; [|rewrite err_fail; auto].
      rewrite err_app. intros [H|H]; [eapply If; eauto|]. revert H. destruct (interval_parts i z s); [|rewrite err_fail; auto].
      rewrite err_app, err_txt. intros [H|[]]. eapply If; eauto.
    - now destruct (H3 variant).
  Qed.
  Lemma value_errors er v : (forall t, v <> LNull t) -> (forall d, v <> LDate d) -> (forall s, v <> LOther s) ->
    (err er (litval_out op v) <-> er = bad_literal /\ ~ exists s, value_text op v s).
  Proof.
    intros H1 H2 H3.
    assert (P : o_panics (litval_out op v) = []).
    { assert (none (litval_out op v)) as N.
      { assert (X : none (literal_out op e (mk_lit (Some v) false 0))).
        { eapply Pliteral with (G := fun l => l_type l = Some v); try exact We; try exact none_txt; try exact none_app; try apply none_push; try exact none_fail.
          - intros l days E E'. exfalso. rewrite E in E'. injection E' as E'. exact (H2 _ E').
          - reflexivity. }
        intros s K. apply (X s). unfold literal_out. cbn [l_type]. apply pan_app. now left. }
      destruct (o_panics (litval_out op v)) as [|p l] eqn:E; [reflexivity|]. exfalso. apply (N p). unfold pan. rewrite E. now left. }
    split.
    - intros H. split; [now apply value_bad in H|]. intros (s & T). apply value_iff in T; [|exact H1]. destruct T as (E & _).
      unfold err in H. rewrite E in H. destruct H.
    - intros [-> N]. destruct (o_errs (litval_out op v)) as [|x l] eqn:E.
      + exfalso. apply N. exists (o_text (litval_out op v)). apply value_iff; [exact H1|]. repeat split; assumption.
      + assert (err x (litval_out op v)) as K by (unfold err; rewrite E; now left). pose proof (value_bad x v H2 H3 K) as ->. exact K.
  Qed.
  Lemma err_literal er l : err er (literal_out op e l) <-> literal_error op e er l.
  Proof.
    unfold literal_out, literal_error. destruct (l_type l) as [v|]; [|apply err_fail]. rewrite err_app.
    assert (T : forall b s, err er (if b : bool then txt s else onil) <-> False) by (intros []; reflexivity).
    destruct v; try (rewrite value_errors by discriminate; rewrite T; split; [intros [H|[]]; exact H|intros H; left; exact H]).
    - rewrite T. split; [intros [H|[]]|intros []]. cbn [litval_out] in H. destruct (days_to_date_string days); exact H.
    - cbn [litval_out]. rewrite err_app, !err_txt, err_type. tauto.
    - rewrite T. cbn [litval_out]. rewrite err_fail. tauto.
  Qed.
  Lemma err_reference er f : err er (fieldref_out f) <-> reference_error er f.
  Proof.
    unfold fieldref_out, reference_error. destruct (fr_root f); try apply err_fail. destruct (fr_ref f) as [[]| |]; try apply err_fail.
    apply err_txt.
  Qed.
  Lemma err_behavior er b : err er (behavior_out b) <-> ~ In b [0; 1; 2]%Z /\ er = FPlan FInvalid "Cast".
  Proof.
    unfold behavior_out. cbn [In]. repeat (match goal with |- context [(?x =? ?y)%Z] => destruct (Z.eqb_spec x y) end); rewrite ?err_fail, ?err_txt, ?err_nil.
    all: split; [|intros [H K]]; try tauto; try (exfalso; apply H; lia). intros ->. split; [lia|reflexivity].
  Qed.
  Definition arg_error (er : ferr) (a : parg) : Prop :=
    match a with
    | AType t => type_error e er t
    | AValue x => expr_error op e er x
    | AEnum _ => False
    | ANone => er = FPlan FInvalid "ArgType"
    end.
  Lemma call_iff er r args t : call_error op e er r args t <->
    undeclared e KFunction r er \/ (exists a, In a args /\ arg_error er a) \/ type_error_in e "OutputType" er t.
  Proof.
    split.
    - intros H. inversion H; subst; auto.
      + right. left. exists (AValue x). auto.
      + right. left. exists (AType x). auto.
      + right. left. exists ANone. cbn. auto.
    - intros [H|[([t'|x|s|] & Ha & H)|H]]; cbn [arg_error] in *.
      + now apply ce_function.
      + eapply ce_type; eauto.
      + eapply ce_value; eauto.
      + destruct H.
      + eapply ce_missing; eauto.
      + now apply ce_output.
  Qed.
  Lemma err_opt er o : opt_all (fun x => err er (expr_out op e x) <-> expr_error op e er x) o ->
    (err er (match o with Some y => expr_out op e y | None => ofail (FPlan FInvalid "Expression") end) <-> part_error op e er o).
  Proof.
    destruct o as [x|]; cbn [opt_all]; intros H.
    - rewrite H. split; [apply pe_some|]. intros K. now inversion K.
    - rewrite err_fail. split; [apply pe_none|]. intros K. now inversion K.
  Qed.
  Lemma err_invocation er r l os : err er (invocation_out op e r l os) <-> undeclared e KFunction r er \/ exists o, In o l /\ err er o.
  Proof.
    unfold invocation_out. rewrite !err_app, err_ref, !err_txt, !err_sep.
    split; [|tauto]. intros [H|[[]|[H|[[]|[(o & Ho & H)|[]]]]]]; [now left|now right|exfalso].
    apply in_map_iff in Ho as (a & <- & _). destruct H.
  Qed.
  Lemma err_expr er x : err er (expr_out op e x) <-> expr_error op e er x.
  Proof.
    revert x. apply (pexpr_ind2 (fun x => err er (expr_out op e x) <-> expr_error op e er x)
      (fun a => err er (arg_out op e a) <-> arg_error er a)); cbn [expr_out arg_out arg_error].
    - intros l. rewrite err_literal. split; [apply xe_literal|]. intros H. now inversion H.
    - intros f. rewrite err_reference. split; [apply xe_reference|]. intros H. now inversion H.
    - intros r args opts t IH. rewrite err_app, err_output, err_invocation, err_map. rewrite Forall_forall in IH.
      assert ((exists a, In a args /\ err er (arg_out op e a)) <-> exists a, In a args /\ arg_error er a) as ->.
      { split; intros (a & Ha & H); exists a; (split; [exact Ha|]); now apply IH. }
      split.
      + intros H. apply xe_call, call_iff. tauto.
      + intros H. inversion H; subst. match goal with K : call_error _ _ _ _ _ _ |- _ => apply call_iff in K end. tauto.
    - intros ifs els IH IHe. rewrite !err_app, !err_txt, err_fold, err_map, (err_opt er els IHe).
      rewrite Forall_forall in IH. split.
      + intros [[]|[(c & Hc & H)|[[]|[H|[]]]]].
        * destruct (IH c Hc) as [I1 I2]. rewrite !err_app, !err_txt, (err_opt er _ I1), (err_opt er _ I2) in H.
          destruct H as [H|[[]|[H|[]]]]; (eapply xe_if; [|exact H]); right; apply in_app_iff; [left|right]; now apply in_map.
        * eapply xe_if; [now left|exact H].
      + intros H. inversion H; subst. match goal with K : In _ (_ :: _) |- _ => destruct K as [<-|K]; [tauto|apply in_app_iff in K as [K|K];
          apply in_map_iff in K as (c & <- & Hc)] end; right; left; exists c; (split; [exact Hc|]); destruct (IH c Hc) as [I1 I2];
          rewrite !err_app, !err_txt, (err_opt er _ I1), (err_opt er _ I2); tauto.
    - intros b i t IH. rewrite !err_app, !err_txt, err_behavior, err_type_in, (err_opt er i IH). split.
      + intros [[]|[H|[[]|[[H E]|H]]]]; [now apply xe_cast|now apply xe_cast_behavior|now apply xe_cast_type].
      + intros H. inversion H; subst; tauto.
    - intros v. rewrite err_fail. split; [apply xe_other|]. intros H. now inversion H.
    - rewrite err_fail. split; [apply xe_none|]. intros H. now inversion H.
    - intros t. apply err_type.
    - intros x H. exact H.
    - intros n. apply err_txt.
    - apply err_fail.
  Qed.
  Lemma err_arg er a : err er (arg_out op e a) <-> arg_error er a.
  Proof.
    destruct a; cbn [arg_out arg_error]; [apply err_type|apply err_expr|apply err_txt|apply err_fail].
  Qed.
  Lemma err_aggfn er a : err er (aggfn_out op e a) <-> call_error op e er (af_ref a) (af_args a) (af_out a).
  Proof.
    unfold aggfn_out. rewrite err_app, err_output, err_invocation, err_map, call_iff.
    assert ((exists x, In x (af_args a) /\ err er (arg_out op e x)) <-> exists x, In x (af_args a) /\ arg_error er x) as ->; [|tauto].
    split; intros (x & Hx & H); exists x; (split; [exact Hx|]); now apply err_arg.
  Qed.
  Lemma err_opt_expr er k m x : err er (opt_expr_out op e k m x) <->
    match x with Some x => expr_error op e er x | None => er = FPlan k m end.
  Proof. unfold opt_expr_out, missing. destruct x as [x|]; [apply err_expr|apply err_fail]. Qed.

  (** ** What handlers make of messages *)
  Lemma err_value er v : err er (xvalue_out op e v) <-> value_error op e er v.
  Proof.
    revert v. apply (xvalue_ind2 (fun v => err er (xvalue_out op e v) <-> value_error op e er v)); cbn [xvalue_out];
      try (intros; split; [intros []|intros H; inversion H]; fail).
    - intros s. rewrite err_fail. split; [apply ve_error|]. intros H. now inversion H.
    - intros x. rewrite err_expr. split; [apply ve_expr|]. intros H. now inversion H.
    - intros l IH. rewrite !err_app, !err_txt, err_sep, err_map. rewrite Forall_forall in IH. split.
      + intros [[]|[(v & Hv & H)|[[]|[]]]]. apply IH in H; [|exact Hv]. eapply ve_tuple; eauto.
      + intros H. inversion H; subst. right. left. exists v. split; [assumption|]. now apply IH.
  Qed.
  Lemma err_column er c : err er (xcolumn_out op e c) <-> column_error op e er c.
  Proof.
    destruct c as [n t|x]; cbn [xcolumn_out column_error]; [rewrite err_app, err_txt, err_type; tauto|apply err_expr].
  Qed.
  Lemma args_iff er a : args_error op e er a <->
    (exists v, In v (xa_positional a) /\ value_error op e er v) \/ (exists p, In p (xa_named a) /\ value_error op e er (snd p)) \/
    (exists c, In c (xa_columns a) /\ column_error op e er c).
  Proof.
    unfold args_error. split.
    - intros [(v & Hv & H)|H]; [|auto]. apply in_app_iff in Hv as [Hv|Hv]; [eauto|].
      apply in_map_iff in Hv as (p & <- & Hp). eauto.
    - intros [(v & Hv & H)|[(p & Hp & H)|H]]; [left|left|auto].
      + exists v. split; [apply in_app_iff; now left|exact H].
      + exists (snd p). split; [apply in_app_iff; right; now apply in_map|exact H].
  Qed.
  Lemma err_xargs er a : xa_columns a = [] -> (err er (xargs_out op e a) <-> args_error op e er a).
  Proof.
    intros Hc. unfold xargs_out, xarglist_out. rewrite Hc, err_app, err_nil, args_iff, Hc.
    assert (K : err er (osep (L ", ") (map (xvalue_out op e) (xa_positional a) ++ map (xnamed_out op e) (xa_named a))) <->
      (exists v, In v (xa_positional a) /\ value_error op e er v) \/ (exists p, In p (xa_named a) /\ value_error op e er (snd p))).
    { rewrite err_sep. split.
      - intros (o & Ho & H). apply in_app_iff in Ho as [Ho|Ho]; apply in_map_iff in Ho as (v & <- & Hv).
        + apply err_value in H. eauto.
        + unfold xnamed_out in H. apply err_app in H as [[]|H]. apply err_value in H. eauto.
      - intros [(v & Hv & B)|(p & Hp & B)].
        + exists (xvalue_out op e v). split; [apply in_app_iff; left; now apply in_map|now apply err_value].
        + exists (xnamed_out op e p). split; [apply in_app_iff; right; now apply in_map|].
          unfold xnamed_out. apply err_app. right. now apply err_value. }
    assert (E : err er (match xa_positional a, xa_named a with
      | [], [] => txt (L "_")
      | _, _ => osep (L ", ") (map (xvalue_out op e) (xa_positional a) ++ map (xnamed_out op e) (xa_named a)) end) <->
      err er (osep (L ", ") (map (xvalue_out op e) (xa_positional a) ++ map (xnamed_out op e) (xa_named a)))).
    { destruct (xa_positional a), (xa_named a); try reflexivity. }
    rewrite E, K. split; [tauto|]. intros [H|[H|(c & [] & _)]]; tauto.
  Qed.

  Lemma undecodable_iff t d ws : undecodable reg t d ws <-> exists x, decode_with_type reg t d ws = Err x.
  Proof.
    destruct (decode_message reg t d ws) as (M1 & M2 & M3). unfold undecodable. split.
    - intros [N1 N2]. destruct (decode_with_type reg t d ws) as [[n a]|x|p]; [|eauto|].
      + exfalso. eapply N1, M1. reflexivity.
      + exfalso. eapply N2. now apply M2.
    - intros (x & E). rewrite E in *. split.
      + intros a H. apply M3 in H as (n & H). discriminate H.
      + intros s H. apply M2 in H. discriminate H.
  Qed.
  Lemma message_ok t d ws n a : decode_with_type reg t d ws = Ok (n, a) -> forall a', message reg t d ws (Ok a') <-> a' = a.
  Proof.
    destruct (decode_message reg t d ws) as (M1 & _ & M3). intros E a'. split.
    - intros H. apply M3 in H as (n' & H). rewrite E in H. now injection H.
    - intros ->. eapply M1, E.
  Qed.
  Lemma message_panic t d ws p : decode_with_type reg t d ws = Panic p -> forall a, ~ message reg t d ws (Ok a).
  Proof.
    destruct (decode_message reg t d ws) as (_ & _ & M3). intros E a H. apply M3 in H as (n & H). congruence.
  Qed.
  Lemma err_addendum er pre t d : err er (addendum_out op e pre (decode_with_type reg t d [])) <-> addendum_error op e reg er t (Some d).
  Proof.
    unfold addendum_out. rewrite err_app, err_txt.
    destruct (decode_with_type reg t d []) as [[n a]|x|p] eqn:D.
    - assert (~ undecodable reg t d []) as ND by (rewrite undecodable_iff; intros (x & H); congruence).
      pose proof (message_ok t d [] n a D) as M. destruct (xa_columns a) as [|c cs] eqn:C.
      + rewrite !err_app, !err_txt, (err_xargs er a C). split.
        * intros [[]|[[]|[H|[]]]]. eapply ae_args; [now apply M|exact C|exact H].
        * intros H. inversion H; subst; [contradiction| |]; match goal with K : message _ _ _ _ _ |- _ => apply M in K as -> end; [congruence|tauto].
      + unfold missing. rewrite !err_app, !err_txt, err_fail. split.
        * intros [[]|[[]|[-> |[]]]]. eapply ae_columns; [now apply M|congruence|reflexivity].
        * intros H. inversion H; subst; [contradiction| |]; match goal with K : message _ _ _ _ _ |- _ => apply M in K as -> end; [tauto|congruence].
    - rewrite !err_app, !err_txt, err_fail. assert (undecodable reg t d []) as ND by (rewrite undecodable_iff; eauto). split.
      + intros [[]|[[]|[-> |[]]]]. now apply ae_undecodable.
      + intros H. inversion H; subst; [tauto| |]; exfalso; destruct ND as [ND _]; eapply ND; eauto.
    - rewrite err_panic. split; [tauto|]. intros H. exfalso. pose proof (message_panic t d [] p D) as M.
      inversion H; subst; [|eapply M; eauto|eapply M; eauto].
      match goal with K : undecodable _ _ _ _ |- _ => apply undecodable_iff in K as (x & K) end. congruence.
  Qed.
  Definition beside_error (er : ferr) (a : option advext) : Prop :=
    (exists d, In d (match a with Some a => opt_list (ae_enhancement a) | None => [] end) /\ addendum_error op e reg er XtEnhancement (Some d)) \/
    (exists d, In d (match a with Some a => ae_optimizations a | None => [] end) /\ addendum_error op e reg er XtOptimization (Some d)).
  Lemma err_adv er a : (exists o, In o (adv_lines reg op e a) /\ err er o) <-> beside_error er a.
  Proof.
    unfold beside_error. destruct a as [a|]; cbn [adv_lines].
    - split.
      + intros (o & Ho & H). apply in_app_iff in Ho as [Ho|Ho].
        * left. destruct (ae_enhancement a) as [d|]; [|destruct Ho]. destruct Ho as [<-|[]]. exists d. split; [now left|].
          now apply err_addendum in H.
        * right. apply in_map_iff in Ho as (d & <- & Hd). exists d. split; [exact Hd|]. now apply err_addendum in H.
      + intros [(d & Hd & H)|(d & Hd & H)].
        * destruct (ae_enhancement a) as [d'|]; [|destruct Hd]. destruct Hd as [->|[]]. eexists. split; [now left|]. now apply err_addendum.
        * eexists. split; [apply in_app_iff; right; apply in_map; exact Hd|]. now apply err_addendum.
    - split; [intros (o & [] & _)|intros [(d & [] & _)|(d & [] & _)]].
  Qed.
  Lemma err_table er d : err er (table_line reg op e d) <-> addendum_error op e reg er XtTable d.
  Proof.
    unfold table_line. destruct d as [d|]; [apply err_addendum|]. unfold addendum_out. rewrite !err_app, !err_txt, err_fail. split.
    - intros [[]|[[]|[-> |[]]]]. now constructor.
    - intros H. inversion H; subst. tauto.
  Qed.
End Write.
