(** Properties of everything the formatter writes: a predicate that holds of plain
    text, of failures, of the literals of the plan and of the panics of handlers, and
    that is kept by concatenation, holds of the output of [format]. *)
From Coq Require Import String List NArith ZArith Bool Lia.
From Verif Require Import Base BaseFacts Names SimpleExt SimpleExtFacts Out Anchors Types TypesFacts Calendar Literals
  Exprs ExprsFacts ExprEq ExtArgs Registry Rels Plan Structural SpecLits.
Import ListNotations.
Local Open Scope string_scope.
Local Open Scope list_scope.
Local Open Scope nat_scope.

(** ** No panics when names are looked up *)

Lemma name_unique_loop_total k a n f o l p : name_unique_loop k a n f o l <> Panic p.
Proof.
  revert f o; induction l as [|[[b k'] [u m]] l IH]; intros f o; cbn [name_unique_loop]; [discriminate|].
  destruct (negb _); auto. destruct (_ =? _)%N; [destruct (streqb _ _); [auto|discriminate]|].
  destruct (negb _); auto. destruct f; [discriminate|auto].
Qed.
Lemma is_name_unique_total e k a n p : is_name_unique e k a n <> Panic p.
Proof.
  unfold is_name_unique. intros H.
  destruct (name_unique_loop k a n false false (e_decls e)) as [[f o]| |q] eqn:E; cbn [rbind] in H.
  - destruct f; discriminate.
  - discriminate.
  - now apply name_unique_loop_total in E.
Qed.
Lemma find_by_anchor_total e k a p : find_by_anchor e k a <> Panic p.
Proof. unfold find_by_anchor. destruct (decl_get e k a); discriminate. Qed.
Lemma find_get e k a x : find_by_anchor e k a = Ok x -> decl_get e k a = Some x.
Proof. unfold find_by_anchor. destruct (decl_get e k a); congruence. Qed.
Lemma is_base_name_unique_total e k a p : is_base_name_unique e k a <> Panic p.
Proof. unfold is_base_name_unique, find_by_anchor. destruct (decl_get e k a); discriminate. Qed.
Lemma lookup_function_total e a p : lookup_function e a <> Panic p.
Proof.
  unfold lookup_function. intros H.
  destruct (find_by_anchor e KFunction a) as [un| |q] eqn:E1; cbn [rbind] in H;
    [|discriminate|now apply find_by_anchor_total in E1].
  destruct (is_name_unique e KFunction a (snd un)) as [u| |q] eqn:E2; cbn [rbind] in H;
    [|discriminate|now apply is_name_unique_total in E2].
  destruct (is_base_name_unique e KFunction a) as [b| |q] eqn:E3; cbn [rbind] in H;
    [discriminate|discriminate|now apply is_base_name_unique_total in E3].
Qed.

Section XInd.
  Context {F : Floats} (P : xvalue -> Prop).
  Context (HS : forall s, P (XString s)) (HI : forall z, P (XInteger z)) (HF : forall f, P (XFloat f))
    (HB : forall b, P (XBoolean b)) (HN : P XNull) (HE : forall s, P (XError s)) (HX : forall x, P (XExpr x))
    (HEn : forall s, P (XEnum s)) (HT : forall l, Forall P l -> P (XTuple l)).
  Fixpoint xvalue_ind2 (v : xvalue) : P v :=
    match v with
    | XString s => HS s
    | XInteger z => HI z
    | XFloat f => HF f
    | XBoolean b => HB b
    | XNull => HN
    | XError s => HE s
    | XExpr x => HX x
    | XEnum s => HEn s
    | XTuple l => HT l ((fix go l : Forall P l :=
        match l with [] => Forall_nil _ | a :: r => Forall_cons _ (xvalue_ind2 a) (go r) end) l)
    end.
End XInd.

(** A predicate on what an option holds. *)
Definition opt_P {A} (P : A -> Prop) (o : option A) : Prop :=
  match o with Some a => P a | None => True end.

Section RInd.
  Context (P : prel -> Prop).
  Context (HR : forall r, P (RRead r))
    (HF : forall c i x a, opt_P P i -> P (RFilter c i x a))
    (HP : forall c i x a, opt_P P i -> P (RProject c i x a))
    (HA : forall c i g gs ms a, opt_P P i -> P (RAggregate c i g gs ms a))
    (HS : forall c i s a, opt_P P i -> P (RSort c i s a))
    (HFe : forall c i n o a, opt_P P i -> P (RFetch c i n o a))
    (HJ : forall c l r x p t a, opt_P P l -> opt_P P r -> P (RJoin c l r x p t a))
    (HSe : forall c l o a, Forall P l -> P (RSet c l o a))
    (HC : forall c l r a, opt_P P l -> opt_P P r -> P (RCross c l r a))
    (HEL : forall c d, P (RExtLeaf c d))
    (HES : forall c d i, opt_P P i -> P (RExtSingle c d i))
    (HEM : forall c d l, Forall P l -> P (RExtMulti c d l))
    (HO : forall v, P (ROther v)) (HN : P RNone).
  Fixpoint prel_ind2 (r : prel) : P r :=
    let o := fun i : option prel => match i as i return opt_P P i with Some x => prel_ind2 x | None => I end in
    let go := fix go l : Forall P l :=
        match l with [] => Forall_nil _ | a :: r => Forall_cons _ (prel_ind2 a) (go r) end in
    match r with
    | RRead r => HR r
    | RFilter c i x a => HF c i x a (o i)
    | RProject c i x a => HP c i x a (o i)
    | RAggregate c i g gs ms a => HA c i g gs ms a (o i)
    | RSort c i s a => HS c i s a (o i)
    | RFetch c i n k a => HFe c i n k a (o i)
    | RJoin c l r x p t a => HJ c l r x p t a (o l) (o r)
    | RSet c l k a => HSe c l k a (go l)
    | RCross c l r a => HC c l r a (o l) (o r)
    | RExtLeaf c d => HEL c d
    | RExtSingle c d i => HES c d i (o i)
    | RExtMulti c d l => HEM c d l (go l)
    | ROther v => HO v
    | RNone => HN
    end.
End RInd.

Section Closed.
  Context (U : Unicode) (F : Floats).
  Variables (reg : registry) (op : options) (e : exts) (P : out -> Prop) (G : literal -> Prop).
  Hypothesis We : wf_exts e.
  Hypothesis Ptxt : forall s, P (txt s).
  Hypothesis Papp : forall a b, P a -> P b -> P (a +++ b).
  Hypothesis Pnullability : P (opush (FPlan FInvalid "Nullability")).
  Hypothesis Pbad : P (opush bad_literal).
  Hypothesis Pfail : forall e, P (ofail e).
  Hypothesis Pdate : forall l days, G l -> l_type l = Some (LDate days) -> P (litval_out op (LDate days)).
  Hypothesis Pargs_of : forall t d ctx n a l, decode_with_type reg t d ctx = Ok (n, a) -> in_args l a -> G l.
  Hypothesis Phandler : forall t d ctx p, decode_with_type reg t d ctx = Panic p -> P (opanic p).

  Ltac papp := repeat match goal with |- P (_ +++ _) => apply Papp end.
  Lemma Pnil : P onil. Proof. apply (Ptxt []). Qed.
  Lemma Psep sep l : Forall P l -> P (osep sep l).
  Proof.
    induction l as [|x l IH]; intros H; [apply Pnil|]. inversion H; subst.
    destruct l as [|y l]; auto. change (osep sep (x :: y :: l)) with (x +++ txt sep +++ osep sep (y :: l)).
    apply Papp; auto.
  Qed.
  Lemma Pfold l : Forall P l -> P (fold_right oapp onil l).
  Proof. induction 1; cbn [fold_right]; [apply Pnil|auto]. Qed.
  Lemma Pexpect {A} n (f : A -> out) o : (forall a, P (f a)) -> P (oexpect n f o).
  Proof. intros H. destruct o; cbn [oexpect]; auto. Qed.
  Lemma Pmap {A} (f : A -> out) l : (forall a, P (f a)) -> Forall P (map f l).
  Proof. intros H. apply Forall_map, Forall_forall; auto. Qed.
  Hint Resolve Ptxt Papp Pnullability Pbad Pfail Pnil Psep Pfold Pexpect Pmap : closed.

  Lemma Pref k a : P (ref_out op e k a).
  Proof.
    unfold ref_out, na_out. apply Papp; [|unfold anchor_out; destruct (op_anchors op); auto with closed;
      match goal with |- context [if ?b then _ else _] => destruct b end; auto with closed].
    enough (P (na_fail (na_lookup e k a))) by (destruct (na_name _); auto with closed).
    destruct k; cbn [na_lookup].
    - destruct (lookup_function e a) as [| |p] eqn:E; cbn [na_fail]; auto with closed.
      now apply lookup_function_total in E.
    - destruct (find_by_anchor e KType a) as [[u n]| |p] eqn:E; cbn [na_fail]; auto with closed.
      + apply find_get in E. rewrite (is_name_unique_spec e _ a u n We E). cbn [na_fail]. auto with closed.
      + now apply find_by_anchor_total in E.
    - destruct (find_by_anchor e KTypeVariation a) as [[u n]| |p] eqn:E; cbn [na_fail]; auto with closed.
      + apply find_get in E. rewrite (is_name_unique_spec e _ a u n We E). cbn [na_fail]. auto with closed.
      + now apply find_by_anchor_total in E.
  Qed.
  Hint Resolve Pref : closed.

  Lemma Pnull n : P (null_out n).
  Proof. destruct n; cbn [null_out]; auto with closed. Qed.
  Lemma Pvar v : P (var_out op e v).
  Proof. unfold var_out. destruct (_ =? _)%N; auto with closed. Qed.
  Lemma Pparams l : Forall P l -> P (params_out l).
  Proof. destruct l; intros; cbn [params_out]; auto with closed. Qed.
  Hint Resolve Pnull Pvar Pparams : closed.
  Lemma Ptextify n nu v l : Forall P l -> P (textify_type op e n nu v l).
  Proof. intros. unfold textify_type. auto 8 with closed. Qed.
  Hint Resolve Ptextify : closed.

  Lemma Ptype t : P (type_out op e t).
  Proof.
    revert t. apply (ptype_ind2 (fun t => P (type_out op e t)) (fun p => P (param_out op e p)));
      cbn [type_out param_out]; intros; unfold missing_param; auto with closed.
    - apply Ptextify. now apply Forall_map.
    - destruct t; auto with closed.
    - destruct a, b; auto 6 with closed.
    - unfold user_out. papp; auto with closed. apply Pparams. now apply Forall_map.
    - unfold user_out. papp; auto with closed.
    - destruct b; auto with closed.
  Qed.
  Hint Resolve Ptype : closed.

  Lemma Pprec z r : P (prec_literal_out z r).
  Proof.
    unfold prec_literal_out. destruct r; auto with closed.
    destruct (_ =? _)%Z; auto with closed.
  Qed.
  Hint Resolve Pprec : closed.
  Lemma Pinterval i : P (interval_out i).
  Proof.
    unfold interval_out. destruct (interval_units i) as [u s]. destruct (prec_of_units u) as [z|]; auto with closed.
    apply Papp; [match goal with |- context [if ?b then _ else _] => destruct b end; auto with closed|].
    destruct (interval_parts i z s); auto with closed.
    apply Papp; [match goal with |- context [if ?b then _ else _] => destruct b end; auto with closed|auto with closed].
  Qed.
  Hint Resolve Pinterval : closed.
  Lemma Pliteral l : G l -> P (literal_out op e l).
  Proof.
    intros H. unfold literal_out. destruct (l_type l) as [v|] eqn:E; auto with closed. apply Papp.
    - destruct v; try now apply (Pdate l). all: cbn [litval_out]; auto with closed.
    - destruct v; try (match goal with |- context [if ?b then _ else _] => destruct b end); auto with closed.
  Qed.
  Hint Resolve Pliteral : closed.
  Lemma Pfieldref f : P (fieldref_out f).
  Proof.
    unfold fieldref_out. destruct (fr_root f); auto with closed.
    destruct (fr_ref f) as [s| |]; auto with closed. destruct s; auto with closed.
  Qed.
  Lemma Poutput t : P (output_type_out op e t).
  Proof. destruct t; cbn [output_type_out]; auto with closed. Qed.
  Lemma Pinvocation r l os : Forall P l -> P (invocation_out op e r l os).
  Proof.
    intros H. unfold invocation_out. papp; auto with closed. apply Psep, Pmap. intros. apply Ptxt.
  Qed.
  Lemma Pbehavior b : P (behavior_out b).
  Proof. unfold behavior_out. repeat destruct (_ =? _)%Z; auto with closed. Qed.
  Hint Resolve Pfieldref Poutput Pinvocation Pbehavior : closed.
  Lemma Popt o k : opt_all (fun x => P (expr_out op e x)) o ->
    P (match o with Some y => expr_out op e y | None => ofail k end).
  Proof. destruct o; cbn [opt_all]; auto with closed. Qed.
  Hint Resolve Popt : closed.
  (** Expressions, and what has them, all of whose literals are [G]. *)
  Definition Gexpr (x : pexpr) : Prop := forall l, in_expr l x -> G l.
  Definition Garg (a : parg) : Prop := match a with AValue x => Gexpr x | _ => True end.
  Lemma Pexpr_arg : (forall x, Gexpr x -> P (expr_out op e x)) /\ (forall a, Garg a -> P (arg_out op e a)).
  Proof.
    assert (forall x, Gexpr x -> P (expr_out op e x)) as H.
    { apply (pexpr_ind2 (fun x => Gexpr x -> P (expr_out op e x)) (fun a => Garg a -> P (arg_out op e a)));
        cbn [expr_out arg_out Garg]; intros; auto with closed.
      - apply Pliteral. apply H. constructor.
      - apply Papp; auto with closed. apply Pinvocation. apply Forall_map. rewrite Forall_forall in *.
        intros y Hy. apply H; auto. destruct y; cbn [Garg]; auto. intros l Hl. apply H0. econstructor; eauto.
      - papp; auto with closed.
        + apply Pfold. apply Forall_map. rewrite Forall_forall in *.
          intros c Hc. destruct (H _ Hc) as [H2 H3]. papp; auto with closed; apply Popt.
          * destruct (fst c) eqn:E; cbn [opt_all] in *; auto. apply H2. intros l Hl. apply H1. eapply ie_if; eauto.
          * destruct (snd c) eqn:E; cbn [opt_all] in *; auto. apply H3. intros l Hl. apply H1. eapply ie_if; eauto.
        + apply Popt. match goal with |- opt_all _ ?o => destruct o end; cbn [opt_all] in *; auto. apply H0. intros l Hl. apply H1. now constructor.
      - papp; auto with closed. apply Popt. match goal with |- opt_all _ ?o => destruct o end; cbn [opt_all] in *; auto. apply H.
        intros l Hl. apply H0. now constructor. }
    split; auto. intros []; cbn [arg_out Garg]; auto with closed.
  Qed.
  Lemma Pexpr x : Gexpr x -> P (expr_out op e x). Proof. apply Pexpr_arg. Qed.
  Lemma Parg x : Garg x -> P (arg_out op e x). Proof. apply Pexpr_arg. Qed.
  Hint Resolve Pexpr Parg : closed.
  Lemma Pexprs {A} (f : A -> out) l : (forall a, In a l -> P (f a)) -> Forall P (map f l).
  Proof. intros H. apply Forall_map, Forall_forall. auto. Qed.
  Lemma Paggfn a : (forall x, In (AValue x) (af_args a) -> Gexpr x) -> P (aggfn_out op e a).
  Proof.
    intros H. unfold aggfn_out. papp; auto with closed. apply Pinvocation. apply Pexprs. intros y Hy. apply Parg.
    destruct y; cbn [Garg]; auto.
  Qed.
  Hint Resolve Paggfn : closed.
  Definition Gvalue (v : xvalue) : Prop := forall l, in_value l v -> G l.
  Definition Gxargs (a : xargs) : Prop := forall l, in_args l a -> G l.
  Lemma Pxvalue v : Gvalue v -> P (xvalue_out op e v).
  Proof.
    revert v. apply (xvalue_ind2 (fun v => Gvalue v -> P (xvalue_out op e v))); cbn [xvalue_out]; intros; auto with closed.
    - apply Pexpr. intros l Hl. apply H. now constructor.
    - papp; auto with closed. apply Psep. apply Pexprs. rewrite Forall_forall in H. intros v Hv. apply H; auto.
      intros l' Hl. apply H0. econstructor; eauto.
  Qed.
  Hint Resolve Pxvalue : closed.
  Lemma Pxcolumn c : (forall x, c = XColExpr x -> Gexpr x) -> P (xcolumn_out op e c).
  Proof. destruct c; cbn [xcolumn_out]; auto with closed. Qed.
  Hint Resolve Pxcolumn : closed.
  Lemma Pxnamed c : Gvalue (snd c) -> P (xnamed_out op e c).
  Proof. unfold xnamed_out; auto with closed. Qed.
  Hint Resolve Pxnamed : closed.
  Lemma Gpositional a v : Gxargs a -> In v (xa_positional a) -> Gvalue v.
  Proof. intros H Hv l Hl. apply H. left. exists v. split; auto. apply in_or_app. auto. Qed.
  Lemma Gnamed a v : Gxargs a -> In v (xa_named a) -> Gvalue (snd v).
  Proof. intros H Hv l Hl. apply H. left. exists (snd v). split; auto. apply in_or_app. right. now apply in_map. Qed.
  Lemma Gcolumn a c x : Gxargs a -> In c (xa_columns a) -> c = XColExpr x -> Gexpr x.
  Proof. intros H Hv -> l Hl. apply H. right. eauto. Qed.
  Hint Resolve Gpositional Gnamed Gcolumn : closed.
  Lemma Pxargs a : Gxargs a -> P (xargs_out op e a).
  Proof.
    intros H. unfold xargs_out, xarglist_out. apply Papp.
    - assert (P (osep (L ", ") (map (xvalue_out op e) (xa_positional a) ++ map (xnamed_out op e) (xa_named a)))).
      { apply Psep, Forall_app. split; apply Pexprs; eauto with closed. }
      destruct (xa_positional a), (xa_named a); auto with closed.
    - assert (Forall P (map (xcolumn_out op e) (xa_columns a))) by (apply Pexprs; eauto with closed).
      destruct (xa_columns a) eqn:E; auto with closed.
  Qed.
  Hint Resolve Pxargs : closed.
  Lemma Gdecoded t d ctx n a : decode_with_type reg t d ctx = Ok (n, a) -> Gxargs a.
  Proof. intros E l Hl. eauto. Qed.
  Lemma Paddendum pre t d ctx : P (addendum_out op e pre (decode_with_type reg t d ctx)).
  Proof.
    unfold addendum_out. apply Papp; auto with closed.
    destruct (decode_with_type reg t d ctx) as [[n a]| |p] eqn:E; unfold missing; eauto with closed.
    apply Gdecoded in E. destruct (xa_columns a); auto with closed.
  Qed.
  Hint Resolve Paddendum : closed.
  Lemma Padv a : Forall P (adv_lines reg op e a).
  Proof.
    destruct a as [a|]; cbn [adv_lines]; auto. apply Forall_app; split; auto with closed.
    destruct (ae_enhancement a); auto with closed.
  Qed.
  Lemma Ptable d : P (table_line reg op e d).
  Proof.
    destruct d; unfold table_line; auto with closed. unfold addendum_out. auto with closed.
  Qed.
  Hint Resolve Padv Ptable : closed.

  (** Headers all of whose parts satisfy [P]. *)
  Definition Pargs (a : rel_args) : Prop :=
    match a with RaInline p n | RaRows p n => Forall P p /\ Forall (fun x => P (snd x)) n end.
  Definition Pheader (h : header) : Prop :=
    P (hd_name h) /\ match hd_args h with Some a => Pargs a | None => True end /\ Forall P (hd_cols h)
    /\ Forall P (hd_addenda h).
  Inductive Pview : view -> Prop :=
    PView h cs : Pheader h -> Forall (fun o => forall v, o = Some v -> Pview v) cs -> Pview (View h cs).

  Lemma Pshown h : Forall P (hd_cols h) -> Forall P (shown_columns op h).
  Proof.
    intros H. unfold shown_columns. destruct (op_show_emit op); auto. destruct (hd_emit h) as [[|m]|]; auto.
    apply Pmap. intros i. unfold zget. destruct (_ <? _)%Z; auto with closed.
    destruct (nth_error _ _) eqn:E; auto with closed. apply nth_error_In in E. rewrite Forall_forall in H. auto.
  Qed.
  Lemma Pclause h : Forall P (hd_cols h) -> P (output_clause op h).
  Proof.
    intros H. unfold output_clause. destruct (hd_explicit h).
    - papp; auto with closed. unfold emit_suffix_out. destruct (hd_emit h) as [[|m]|]; auto with closed.
    - apply Papp; auto with closed. apply Psep, Pshown, H.
  Qed.
  Lemma Pnamed n : Forall (fun x : list N * out => P (snd x)) n -> Forall P (map named_out n).
  Proof. intros H. apply Forall_map. eapply Forall_impl; [|exact H]. intros x Hx. unfold named_out. auto with closed. Qed.
  Lemma Prows d b l : Forall P l -> P (row_lines op d b l).
  Proof.
    intros H. induction H as [|x l Hx Hl IH]; [apply Pnil|].
    assert (forall b, P (row_line op d b x)) by (intros; unfold row_line; auto with closed).
    destruct l; cbn [row_lines] in *; auto.
  Qed.
  Lemma Pheader_out d h : Pheader h -> P (header_out op d h).
  Proof.
    intros (Hn & Ha & Hc & _). unfold header_out. papp; auto with closed.
    destruct (hd_args h) as [[p n|p n]|].
    - destruct Ha as [Hp Hm]. papp; auto using Pclause with closed. unfold arguments_out.
      assert (P (osep (L ", ") (p ++ map named_out n))).
      { apply Psep, Forall_app. auto using Pnamed. }
      destruct p, n; auto with closed.
    - destruct Ha as [Hp Hm]. papp; auto using Pclause, Prows, Pnamed with closed.
    - apply Psep, Pshown, Hc.
  Qed.
  Lemma Pview_out : forall v d, Pview v -> P (view_out op d v).
  Proof.
    fix IH 1. intros [h cs] d H. inversion H as [? ? Hh Hcs]; subst. cbn [view_out].
    papp; auto using Pheader_out.
    - apply Pfold, Forall_map. destruct Hh as (_ & _ & _ & Ha). eapply Forall_impl; [|exact Ha]. auto with closed.
    - clear H Hh. induction cs as [|c cs IHc]; [apply Pnil|]. inversion Hcs as [|? ? Hc Hr]; subst.
      cbn [map fold_right]. apply Papp; [|now apply IHc]. destruct c as [v|]; [|apply Pnil].
      apply Papp; auto with closed.
  Qed.

  Lemma Prefs n : Forall P (ref_columns n).
  Proof. unfold ref_columns. apply Pmap. intros. apply Ptxt. Qed.
  Lemma Ptuple l : Forall P l -> P (tuple_out l).
  Proof. unfold tuple_out. auto with closed. Qed.
  Lemma Penum l z a b : P (enum_out l z a b).
  Proof. unfold enum_out, missing. destruct (enum_name l z); auto with closed. destruct (_ =? _)%Z; auto with closed. Qed.
  Lemma Popt_expr k m x : (forall y, x = Some y -> Gexpr y) -> P (opt_expr_out op e k m x).
  Proof. unfold opt_expr_out, missing. destruct x; auto with closed. Qed.
  Hint Resolve Prefs Ptuple Penum Popt_expr : closed.
  Lemma Pfield n t : P (field_out op e n t).
  Proof. unfold field_out. papp; auto with closed. Qed.
  Hint Resolve Pfield : closed.
  Lemma Pzip ns ts : Forall P (zip_fields op e ns ts).
  Proof.
    revert ts; induction ns as [|n ns IH]; intros [|t ts]; cbn [zip_fields]; auto with closed.
    constructor; auto with closed. induction ts; constructor; auto with closed.
  Qed.
  Hint Resolve Pzip : closed.
  (** A relation all of whose literals are [G]. *)
  Definition Grel (r : prel) : Prop := forall l, in_rel l r -> G l.
  Lemma Grel_expr r x : Grel r -> rel_expr x r -> Gexpr x.
  Proof. intros H Hx l Hl. apply H. eapply ir_here; eauto. Qed.
  Lemma Grel_input r i : Grel r -> rel_input i r -> Grel i.
  Proof. intros H Hi l Hl. apply H. eapply ir_input; eauto. Qed.
  Lemma Pread r : Grel (RRead r) -> Pheader (read_header reg op e r).
  Proof.
    intros Hr.
    assert (Hc : Forall P (read_columns op e r)).
    { unfold read_columns, missing. destruct (rd_schema r); auto with closed. }
    assert (Hf : forall f, rd_filter r = Some f -> P (expr_out op e f)).
    { intros f Hf. apply Pexpr. apply (Grel_expr _ _ Hr). now constructor. }
    unfold read_header. destruct (rd_type r) eqn:ET; cbn [hd_args];
      try (split; [|split; [|split]]; unfold missing; cbn [hd_name hd_args hd_cols hd_addenda Pargs]; auto 8 with closed).
    set (tuples := map _ _). assert (Ht : Forall P tuples).
    { apply Pexprs. intros row Hrow. apply Ptuple, Pexprs. intros x Hx. apply Pexpr. apply (Grel_expr _ _ Hr).
      eapply re_row; eauto. }
    clearbody tuples.
    assert (Hn : Forall (fun x : list N * out => P (snd x))
                   match rd_filter r with Some f => [(L "filter", expr_out op e f)] | None => [] end).
    { destruct (rd_filter r); repeat constructor. cbn [snd]. auto with closed. }
    destruct (negb _ && _); cbn [Pargs]; split; auto; destruct tuples; auto with closed;
      destruct (rd_filter r); auto with closed.
  Qed.
  Lemma dedup_from seen l x : In x (dedup seen l) -> In x l.
  Proof.
    revert seen; induction l as [|y l IH]; intros seen; cbn [dedup]; auto.
    destruct (existsb _ _); cbn [In]; [eauto|intros [->|H]; eauto].
  Qed.
  Lemma Pgrouping g gs : (forall x, In x g -> Gexpr x) -> (forall y x, In y gs -> In x (gr_exprs y) -> Gexpr x) ->
    (forall x, In x (fst (grouping_values op e g gs)) -> Gexpr x) /\
    Forall (Forall P) (snd (grouping_values op e g gs)).
  Proof.
    intros Hg Hgs. unfold grouping_values. destruct (_ && _); cbn [fst snd]; split; auto.
    - intros x Hx. apply dedup_from in Hx. apply in_concat in Hx. destruct Hx as (l & Hl & Hx).
      apply in_map_iff in Hl. destruct Hl as (y & <- & Hy). eauto.
    - apply Forall_map, Forall_forall. intros y Hy. apply Pexprs. eauto with closed.
    - assert (Forall (Forall P)
        (map (fun g0 => map (fun i => match nth_error g (N.to_nat i) with
                                     | Some x => expr_out op e x
                                     | None => missing FInvalid "AggregateRel"
                                     end) (gr_refs g0)) gs)).
      { apply Forall_map, Forall_forall. intros y _. apply Pmap. intros i.
        destruct (nth_error _ _) eqn:E; unfold missing; auto with closed. apply nth_error_In in E. auto with closed. }
      destruct gs; auto.
  Qed.
  Lemma Pgargs sets : Forall (Forall P) sets -> Forall P (grouping_args sets).
  Proof.
    intros H.
    assert (Forall P (map (fun g => match g with [] => txt (L "_") | _ => tuple_out g end) sets)).
    { apply Forall_map. eapply Forall_impl; [|exact H]. intros [|x g] Hg; auto with closed. }
    destruct sets as [|g [|g' sets]]; auto. inversion H; subst. destruct g; cbn [grouping_args]; auto with closed.
    destruct g; auto.
  Qed.
  Lemma Pmeasures ms : (forall m f x, In m ms -> ms_fn m = Some f -> In (AValue x) (af_args f) -> Gexpr x) ->
    Forall P (measure_outs op e ms).
  Proof.
    induction ms as [|m ms IH]; cbn [measure_outs]; intros H; auto.
    assert (Forall P (measure_outs op e ms)) by (apply IH; intros; eapply H; eauto; now right).
    destruct (ms_fn m) eqn:E; auto. constructor; auto. apply Paggfn. intros x Hx. eapply H; eauto. now left.
  Qed.
  Lemma Psort s : (forall x, sf_expr s = Some x -> Gexpr x) -> P (sort_field_out op e s).
  Proof.
    intros H. unfold sort_field_out. apply Ptuple. constructor; auto with closed. constructor; auto.
    unfold sort_kind_out, missing. destruct (sf_kind s) as [[]|]; auto with closed.
  Qed.
  Lemma Pfetch n m : (forall x, m = Some (FmExpr x) -> Gexpr x) ->
    Forall (fun x : list N * out => P (snd x)) (fetch_arg op e n m).
  Proof. intros H. destruct m as [[]|]; cbn [fetch_arg]; repeat constructor; cbn [snd fetch_mode_out]; auto with closed. Qed.
  Lemma Pextension k d ws : Pheader (extension_header reg op e k d ws).
  Proof.
    unfold extension_header.
    assert (Forall P [missing FInvalid "extension"]) by (unfold missing; auto with closed).
    destruct d as [d|]; [|now split; [|split; [|split]]; cbn; auto with closed].
    destruct (decode_with_type reg XtRelation d ws) as [[n a]| |p] eqn:E;
      (split; [|split; [|split]]; cbn [hd_name hd_args hd_cols hd_addenda Pargs]; eauto with closed).
    - apply Gdecoded in E. split; [apply Pexprs; eauto with closed|].
      apply Forall_map, Forall_forall. intros x Hx. cbn [snd]. eauto with closed.
    - apply Gdecoded in E. apply Pexprs; eauto with closed.
  Qed.

  Lemma Pview_of r : Grel r -> Pview (view_of reg op e r).
  Proof.
    assert (Hc : forall o, opt_P (fun r => Grel r -> Pview (view_of reg op e r)) o -> (forall i, o = Some i -> Grel i) ->
      forall v, match o with Some r => Some (view_of reg op e r) | None => None end = Some v -> Pview v).
    { intros [] H Hi v; [intros [= <-]; apply H, Hi; reflexivity|discriminate]. }
    assert (Hl : forall l, Forall (fun r => Grel r -> Pview (view_of reg op e r)) l -> (forall i, In i l -> Grel i) ->
      Forall (fun o => forall v, o = Some v -> Pview v) (map Some (map (view_of reg op e) l))).
    { intros l H Hi. rewrite map_map. apply Forall_map. rewrite Forall_forall in *. intros a Ha v [= <-]. auto. }
    revert r. apply (prel_ind2 (fun r => Grel r -> Pview (view_of reg op e r))); intros; cbn [view_of];
      match goal with H : Grel ?r |- _ => pose proof (fun i => Grel_input r i H) as Hi; pose proof (fun x => Grel_expr r x H) as Hx end;
      constructor; try solve [repeat (apply Forall_cons; [apply Hc; [assumption|intros ? ->; apply Hi; now constructor]|]); auto using Pread, Pextension];
      try solve [apply Hl; auto; intros; apply Hi; now constructor].
    - split; [|split; [|split]]; cbn [filter_header hd_name hd_args hd_cols hd_addenda Pargs]; auto with closed.
      repeat constructor. apply Popt_expr. intros y ->. apply Hx. constructor.
    - split; [|split; [|split]]; cbn [project_header hd_name hd_args hd_cols hd_addenda Pargs]; auto with closed.
      apply Forall_app. split; auto with closed. apply Pexprs. intros y Hy. apply Pexpr, Hx. now constructor.
    - unfold aggregate_header. destruct (Pgrouping g gs) as [Hg Hg'].
      { intros x Hin. apply Hx. now constructor. }
      { intros y x Hy Hin. apply Hx. eapply re_deprecated; eauto. }
      apply Pgargs in Hg'.
      destruct (grouping_values op e g gs) as [xs sets].
      split; [|split; [|split]]; cbn [hd_name hd_args hd_cols hd_addenda Pargs]; auto with closed.
      apply Forall_app. split; [apply Pexprs; auto with closed|].
      apply Pmeasures. intros m f x Hm Hf Hin. apply Hx. eapply re_measure; eauto.
    - split; [|split; [|split]]; cbn [sort_header hd_name hd_args hd_cols hd_addenda Pargs]; auto with closed.
      split; auto. apply Pexprs. intros y Hy. apply Psort. intros x E. apply Hx. eapply re_sort; eauto.
    - split; [|split; [|split]]; cbn [fetch_header hd_name hd_args hd_cols hd_addenda Pargs]; auto with closed.
      split; auto. apply Forall_app; split; apply Pfetch; intros x ->; apply Hx; constructor.
    - split; [|split; [|split]]; cbn [join_header hd_name hd_args hd_cols hd_addenda Pargs]; auto with closed.
      split.
      + constructor; auto with closed. repeat constructor. apply Popt_expr. intros y ->. apply Hx. constructor.
      + destruct p; repeat constructor. cbn [snd]. apply Pexpr, Hx. constructor.
    - split; [|split; [|split]]; cbn [set_header hd_name hd_args hd_cols hd_addenda Pargs]; auto with closed.
    - split; [|split; [|split]]; cbn [cross_header hd_name hd_args hd_cols hd_addenda Pargs]; auto with closed.
    - split; [|split; [|split]]; cbn [hd_name hd_args hd_cols hd_addenda Pargs]; unfold missing; auto with closed.
    - split; [|split; [|split]]; cbn [hd_name hd_args hd_cols hd_addenda Pargs]; unfold missing; auto with closed.
  Qed.

  Lemma Pplan_rel p : (forall r, p = PRel r -> Grel r) -> (forall ns r, p = PRoot ns (Some r) -> Grel r) ->
    P (plan_rel_out reg op e p).
  Proof.
    intros H1 H2. destruct p; unfold plan_rel_out, rel_out, missing; auto using Pview_out, Pview_of with closed.
    apply Papp; auto. destruct input; eauto using Pview_out, Pview_of with closed.
  Qed.

End Closed.

Lemma Perrs (P : out -> Prop) l : P onil -> (forall a b, P a -> P b -> P (a +++ b)) -> (forall x, P (opush (FInsert x))) ->
  P (mk_out [] (map FInsert l) [] []).
Proof.
  intros H0 Ha Hp. induction l as [|x l IH]; [exact H0|].
  change (P (opush (FInsert x) +++ mk_out [] (map FInsert l) [] [])). auto.
Qed.
(** Errors are pushed without a placeholder only for declarations that are refused,
    for unspecified nullability and for some literals. *)
Definition pushed (e : ferr) : Prop :=
  match e with FInsert _ => True | _ => e = FPlan FInvalid "Nullability" \/ e = bad_literal end.
Theorem lit_closed_format (U : Unicode) (F : Floats) reg op (P : out -> Prop) (G : literal -> Prop) :
  (forall s, P (txt s)) -> (forall a b, P a -> P b -> P (a +++ b)) -> (forall e, pushed e -> P (opush e)) ->
  (forall e, P (ofail e)) ->
  (forall l days, G l -> l_type l = Some (LDate days) -> P (litval_out op (LDate days))) ->
  (forall t d ctx n a l, decode_with_type reg t d ctx = Ok (n, a) -> in_args l a -> G l) ->
  (forall t d ctx p, decode_with_type reg t d ctx = Panic p -> P (opanic p)) ->
  forall p, (forall l, in_plan l p -> G l) -> P (format reg op p).
Proof.
  intros Ht Ha Hp Hf Hd Hx Hh p H. unfold format. pose proof (wf_from_extensions (pl_urns _ p) (pl_decls _ p)) as We.
  destruct (from_extensions _ _) as [e errs]. cbn [fst] in We.
  repeat match goal with |- P (_ +++ _) => apply Ha end; auto.
  1: apply Perrs; auto; [apply (Ht [])|intros; apply Hp; exact I].
  unfold relations_out. apply Ha; auto. apply Psep; auto. apply Forall_map, Forall_forall. intros r Hr. apply Pplan_rel with (G := G); auto.
  - apply Hp. left. reflexivity.
  - apply Hp. right. reflexivity.
  - intros r' -> l Hl. apply H. exists r'. auto.
  - intros ns r' -> l Hl. apply H. exists r'. eauto.
Qed.

(** The same without regard to literals: the panic of a date must satisfy [P]. *)
Theorem closed_format (U : Unicode) (F : Floats) reg op (P : out -> Prop) :
  (forall s, P (txt s)) -> (forall a b, P a -> P b -> P (a +++ b)) -> (forall e, pushed e -> P (opush e)) ->
  (forall e, P (ofail e)) -> P (opanic "NaiveDate + TimeDelta overflowed") ->
  (forall t d ctx p, decode_with_type reg t d ctx = Panic p -> P (opanic p)) ->
  forall p, P (format reg op p).
Proof.
  intros Ht Ha Hp Hf Hd Hh p. apply (lit_closed_format U F reg op P (fun _ => True)); auto.
  intros l days _ _. cbn [litval_out]. destruct (days_to_date_string _); auto.
Qed.
