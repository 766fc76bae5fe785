(** Formatting a plan with nothing missing: what can be complained about. *)
From Coq Require Import String List NArith ZArith Bool Lia.
From Verif Require Import Base BaseFacts Names SimpleExt SimpleExtFacts Out Anchors Types TypesFacts Calendar Literals
  Exprs ExprsFacts ExprEq ExtArgs Registry Rels Plan Structural SpecRels SpecLits OutClosed SpecComplete.
Import ListNotations.
Local Open Scope string_scope.
Local Open Scope list_scope.
Local Open Scope nat_scope.

Ltac bools := repeat match goal with
  | H : _ && _ = true |- _ => apply andb_true_iff in H as [? H]
  end.

Section Only.
  Variable Q : ferr -> Prop.
  Definition only (o : out) : Prop := forall er, In er (o_errs o) -> Q er.
  Lemma only_quiet o : o_errs o = [] -> only o. Proof. intros H er. rewrite H. intros []. Qed.
  Lemma only_txt s : only (txt s). Proof. now apply only_quiet. Qed.
  Lemma only_nil : only onil. Proof. now apply only_quiet. Qed.
  Lemma only_panic s : only (opanic s). Proof. now apply only_quiet. Qed.
  Lemma only_push er : Q er -> only (opush er). Proof. intros H x [<-|[]]. exact H. Qed.
  Lemma only_fail er : Q er -> only (ofail er). Proof. intros H x [<-|[]]. exact H. Qed.
  Lemma only_app a b : only a -> only b -> only (a +++ b).
  Proof. intros Ha Hb er. cbn [o_errs oapp]. intros H. apply in_app_or in H as [H|H]; auto. Qed.
  Lemma only_sep sep l : Forall only l -> only (osep sep l).
  Proof.
    induction l as [|x l IH]; intros H; [apply only_nil|]. inversion H; subst.
    destruct l as [|y l]; auto. change (osep sep (x :: y :: l)) with (x +++ txt sep +++ osep sep (y :: l)).
    auto using only_app, only_txt.
  Qed.
  Lemma only_fold l : Forall only l -> only (fold_right oapp onil l).
  Proof. induction 1; cbn [fold_right]; auto using only_nil, only_app. Qed.
  Lemma only_map {A} (f : A -> out) l : (forall a, In a l -> only (f a)) -> Forall only (map f l).
  Proof. intros H. apply Forall_map, Forall_forall. auto. Qed.
End Only.
#[global] Hint Resolve only_txt only_nil only_panic only_app only_sep only_fold only_push only_fail : only.
Lemma only_imp (Q Q' : ferr -> Prop) o : (forall er, Q er -> Q' er) -> only Q o -> only Q' o.
Proof. intros H Ho er Hin. auto. Qed.
Lemma app_only (Q : ferr -> Prop) a b : only Q (a +++ b) -> only Q a /\ only Q b.
Proof. intros H. split; intros er Hin; apply H; cbn [o_errs oapp]; apply in_or_app; auto. Qed.
Lemma sep_only (Q : ferr -> Prop) sep l : only Q (osep sep l) -> Forall (only Q) l.
Proof.
  induction l as [|x l IH]; intros H; auto. destruct l as [|y l]; [repeat constructor; exact H|].
  change (osep sep (x :: y :: l)) with (x +++ txt sep +++ osep sep (y :: l)) in H.
  apply app_only in H as [H1 H]. apply app_only in H as [_ H]. constructor; auto.
Qed.

(** ** Types, literals, expressions *)

Section Parts.
  Context (U : Unicode) (F : Floats).
  Variables (op : options) (u : bool) (e : exts) (Q : ferr -> Prop).
  Hypothesis We : wf_exts e.
  Hypothesis Qnull : u = true -> Q no_nullability.
  Notation only := (only Q).

  Ltac oapp := repeat match goal with |- only (_ +++ _) => apply only_app end.

  Lemma ref_only k a : declared e k a = true -> only (ref_out op e k a).
  Proof.
    unfold declared. destruct (decl_get e k a) as [[w n]|] eqn:E; [intros _|discriminate].
    unfold ref_out, na_out. apply only_app.
    2: { unfold anchor_out. destruct (op_anchors op); auto with only.
         match goal with |- context [if ?b then _ else _] => destruct b end; auto with only. }
    enough (H : na_fail (na_lookup e k a) = onil) by (rewrite H; destruct (na_name _); auto with only).
    destruct k; cbn [na_lookup].
    - unfold lookup_function, find_by_anchor. rewrite E. cbn [rbind snd].
      rewrite (is_name_unique_spec _ _ _ _ _ We E). cbn [rbind].
      rewrite (is_base_name_unique_spec _ _ _ _ _ We E). reflexivity.
    - unfold find_by_anchor. rewrite E. rewrite (is_name_unique_spec _ _ _ _ _ We E). reflexivity.
    - unfold find_by_anchor. rewrite E. rewrite (is_name_unique_spec _ _ _ _ _ We E). reflexivity.
  Qed.
  Lemma null_only n : settled u n = true -> only (null_out n).
  Proof. destruct n; cbn [null_out settled]; auto with only. Qed.
  Lemma var_only v : (v =? 0)%N || declared e KTypeVariation v = true -> only (var_out op e v).
  Proof. unfold var_out. destruct (_ =? _)%N; cbn [orb]; auto using ref_only with only. Qed.
  Lemma params_only l : Forall only l -> only (params_out l).
  Proof. destruct l; intros; cbn [params_out]; auto with only. Qed.
  Hint Resolve ref_only null_only var_only params_only : only.
  Lemma textify_only n nu v l : settled u nu = true -> (v =? 0)%N || declared e KTypeVariation v = true -> Forall only l -> only (textify_type op e n nu v l).
  Proof. intros. unfold textify_type. auto 8 with only. Qed.
  Hint Resolve textify_only : only.

  Lemma type_only t : type_complete u e t = true -> only (type_out op e t).
  Proof.
    revert t. apply (ptype_ind2 (fun t => type_complete u e t = true -> only (type_out op e t))
      (fun p => match p with PType t => type_complete u e t | PNone => false | _ => true end = true -> only (param_out op e p)));
      cbn [type_complete type_out param_out]; intros; bools; try discriminate; auto with only.
    - apply textify_only; auto. apply only_map. intros t Ht. rewrite Forall_forall in *.
      match goal with H : forallb _ _ = true |- _ => rewrite forallb_forall in H end. auto.
    - destruct t; [|discriminate]. bools. apply textify_only; auto.
    - destruct a, b; try discriminate. bools. apply textify_only; auto.
    - unfold user_out. oapp; auto with only. apply params_only. apply only_map. intros q Hq. rewrite Forall_forall in *.
      match goal with H : forallb _ _ = true |- _ => rewrite forallb_forall in H end. auto.
    - unfold user_out. oapp; auto with only.
    - destruct b; auto with only.
  Qed.
End Parts.

Lemma literal_errs (U : Unicode) (F : Floats) op u e l : wf_exts e -> literal_complete u e l = true ->
  only (fun er => er = bad_literal \/ (er = no_nullability /\ u = true)) (literal_out op e l).
Proof.
  intros We C. set (B := fun er => er = bad_literal \/ (er = no_nullability /\ u = true)).
  assert (Hb : B bad_literal) by now left.
  assert (Hn : u = true -> B no_nullability) by now right.
  assert (Hp : forall z r, only B (prec_literal_out z r)).
  { intros z r. unfold prec_literal_out. destruct r; auto with only. destruct (_ =? _)%Z; auto with only. }
  assert (Hi : forall i, only B (interval_out i)).
  { intros i. unfold interval_out. destruct (interval_units i) as [w s]. destruct (prec_of_units w) as [z|]; auto with only.
    apply only_app; [match goal with |- context [if ?b then _ else _] => destruct b end; auto with only|].
    destruct (interval_parts i z s); auto with only.
    apply only_app; [match goal with |- context [if ?b then _ else _] => destruct b end; auto with only|auto with only]. }
  unfold literal_complete, literal_out in *.
  destruct (l_type l) as [v|] eqn:E; [|discriminate]. apply only_app.
  - destruct v; cbn [litval_out]; auto with only; try discriminate. destruct (days_to_date_string _); auto with only.
  - destruct v; try (match goal with |- context [if ?b then _ else _] => destruct b end); auto with only.
    apply only_app; auto with only. now apply type_only with (u := u).
Qed.

Section Exprs.
  Context (U : Unicode) (F : Floats).
  Variables (op : options) (u : bool) (e : exts) (Q : ferr -> Prop) (G : literal -> Prop).
  Hypothesis We : wf_exts e.
  Hypothesis Qnull : u = true -> Q no_nullability.
  Hypothesis Qlit : forall l, G l -> literal_complete u e l = true -> In bad_literal (o_errs (literal_out op e l)) -> Q bad_literal.
  Notation only := (only Q).
  Ltac oapp := repeat match goal with |- only (_ +++ _) => apply only_app end.

  Lemma literal_only l : G l -> literal_complete u e l = true -> only (literal_out op e l).
  Proof.
    intros Hg C er Hin. destruct (literal_errs U F op u e l We C er Hin) as [-> | [-> ?]]; eauto.
  Qed.
  Lemma output_only t : opt_b (type_complete u e) t = true -> only (output_type_out op e t).
  Proof. destruct t; cbn; [|discriminate]. intros. oapp; auto with only. now apply type_only with (u := u). Qed.
  Lemma invocation_only r l os : declared e KFunction r = true -> Forall only l -> only (invocation_out op e r l os).
  Proof.
    intros. unfold invocation_out. oapp; auto with only; [now apply ref_only|]. apply only_sep, only_map. intros. apply only_txt.
  Qed.
  Notation Gexpr := (OutClosed.Gexpr G).
  Notation Garg := (OutClosed.Garg G).
  Lemma expr_arg_only : (forall x, expr_complete u e x = true -> Gexpr x -> only (expr_out op e x)) /\
    (forall a, arg_complete u e a = true -> Garg a -> only (arg_out op e a)).
  Proof.
    assert (forall x, expr_complete u e x = true -> Gexpr x -> only (expr_out op e x)) as H.
    { apply (pexpr_ind2 (fun x => expr_complete u e x = true -> Gexpr x -> only (expr_out op e x))
        (fun a => arg_complete u e a = true -> Garg a -> only (arg_out op e a)));
        cbn [expr_out arg_out OutClosed.Garg expr_complete arg_complete]; intros; try discriminate; auto with only.
      - apply literal_only; auto. apply H0. constructor.
      - destruct f as [[[]| |] []]; try discriminate. apply only_txt.
      - bools. apply only_app; [|now apply output_only]. apply invocation_only; auto. apply only_map.
        rewrite Forall_forall in *. match goal with H : forallb _ _ = true |- _ => rewrite forallb_forall in H end.
        intros y Hy. apply H; auto. destruct y; cbn [OutClosed.Garg]; auto. intros l Hl. apply H1. econstructor; eauto.
      - bools. oapp; auto with only.
        + apply only_fold, only_map. rewrite Forall_forall in *.
          match goal with H : forallb _ _ = true |- _ => rewrite forallb_forall in H; rename H into Hf end.
          intros c Hc. specialize (Hf c Hc). destruct (H _ Hc) as [Ha Hb].
          destruct c as [[a|] [b|]]; cbn [fst snd opt_all] in *; try discriminate.
          bools. oapp; auto with only.
          * apply Ha; auto. intros l Hl. match goal with H : Gexpr (EIf _ _) |- _ => apply H end. eapply ie_if; [exact Hc|left; reflexivity|exact Hl].
          * apply Hb; auto. intros l Hl. match goal with H : Gexpr (EIf _ _) |- _ => apply H end. eapply ie_if; [exact Hc|right; reflexivity|exact Hl].
        + destruct els; [|discriminate]. cbn [opt_all] in *.
          match goal with H : expr_complete u _ _ = true -> _ |- _ => apply H; auto end.
          intros l Hl. match goal with H : Gexpr (EIf _ _) |- _ => apply H end. now constructor.
      - bools. destruct i as [y|]; [|discriminate]. destruct t; cbn [opt_b oexpect opt_all] in *; [|discriminate]. oapp; auto with only.
        + apply H; auto. intros l Hl. match goal with H : Gexpr (ECast _ _ _) |- _ => apply H end. now constructor.
        + unfold behavior_out. destruct (b =? 0)%Z, (b =? 1)%Z, (b =? 2)%Z; cbn [orb] in *; try discriminate; auto with only.
        + now apply type_only with (u := u).
      - now apply type_only with (u := u). }
    split; auto. intros []; cbn [arg_out OutClosed.Garg arg_complete]; try discriminate; auto with only. intros. now apply type_only with (u := u).
  Qed.
  Lemma expr_only x : expr_complete u e x = true -> Gexpr x -> only (expr_out op e x). Proof. apply expr_arg_only. Qed.
  Lemma measures_only ms : Forall (fun m => measure_complete u e m = true) ms ->
    (forall m f x, In m ms -> ms_fn m = Some f -> In (AValue x) (af_args f) -> Gexpr x) -> Forall only (measure_outs op e ms).
  Proof.
    induction 1 as [|m ms Hm _ IH]; cbn [measure_outs]; intros H; auto.
    assert (Forall only (measure_outs op e ms)) by (apply IH; intros; eapply H; eauto; now right).
    unfold measure_complete in Hm. destruct (ms_fn m) as [a|] eqn:E; auto. constructor; auto. bools. unfold aggfn_out.
    apply only_app; [|now apply output_only]. apply invocation_only; auto. apply only_map. intros y Hy.
    match goal with H : forallb _ _ = true |- _ => rewrite forallb_forall in H end. apply expr_arg_only; auto.
    destruct y; cbn [OutClosed.Garg]; auto. eapply H; eauto. now left.
  Qed.
End Exprs.

(** ** Relations *)

Section Rels.
  Context (U : Unicode) (F : Floats).
  Variables (reg : registry) (op : options) (u : bool) (e : exts) (Q : ferr -> Prop) (G : literal -> Prop) (D : xtype -> any -> Prop).
  Hypothesis We : wf_exts e.
  Hypothesis Qnull : u = true -> Q no_nullability.
  Hypothesis Qlit : forall l, G l -> literal_complete u e l = true -> In bad_literal (o_errs (literal_out op e l)) -> Q bad_literal.
  Hypothesis Qdetail : forall t d ws er, D t d -> In er (detail_complaints reg op e t d ws) -> Q er.
  Notation only := (only Q).
  Notation Gexpr := (OutClosed.Gexpr G).
  Notation Grel := (OutClosed.Grel G).
  Ltac oapp := repeat match goal with |- only (_ +++ _) => apply only_app end.

  Lemma x_only x : expr_complete u e x = true -> Gexpr x -> only (expr_out op e x).
  Proof. apply expr_only with (u := u); auto. Qed.

  (** Headers: each part, and the columns that a mapping may ask for. *)
  Definition args_only (a : rel_args) : Prop :=
    match a with RaInline p n | RaRows p n => Forall only p /\ Forall (fun x => only (snd x)) n end.
  Definition header_only (h : header) : Prop :=
    only (hd_name h) /\ match hd_args h with Some a => args_only a | None => True end /\ Forall only (hd_cols h)
    /\ Forall only (hd_addenda h)
    /\ (forall m i, hd_emit h = Some (EmEmit m) -> op_show_emit op = false -> In i m ->
          ~ (0 <= i < Z.of_nat (length (hd_cols h)))%Z -> Q no_column).
  Inductive view_only : view -> Prop :=
    view_only_intro h cs : header_only h -> Forall (fun o => forall v, o = Some v -> view_only v) cs -> view_only (View h cs).

  Lemma shown_only h : header_only h -> Forall only (shown_columns op h).
  Proof.
    intros (_ & _ & H & _ & He). unfold shown_columns. destruct (op_show_emit op) eqn:E; auto. destruct (hd_emit h) as [[|m]|]; auto.
    apply only_map. intros i Hi. specialize (He m i eq_refl eq_refl Hi). unfold zget. destruct (Z.ltb_spec i 0); [apply only_fail, He; lia|].
    destruct (nth_error _ _) eqn:E'; [|apply nth_error_None in E'; apply only_fail, He; lia]. apply nth_error_In in E'. rewrite Forall_forall in H. auto.
  Qed.
  Lemma clause_only h : header_only h -> only (output_clause op h).
  Proof.
    intros H. unfold output_clause. destruct (hd_explicit h).
    - destruct H as (_ & _ & H & _). oapp; auto with only. unfold emit_suffix_out. destruct (hd_emit h) as [[|m]|]; auto with only.
      apply only_app; auto with only. apply only_sep, only_map. auto with only.
    - apply only_app; auto with only. apply only_sep, shown_only, H.
  Qed.
  Lemma named_only n : Forall (fun x : list N * out => only (snd x)) n -> Forall only (map named_out n).
  Proof. intros H. apply Forall_map. eapply Forall_impl; [|exact H]. intros x Hx. unfold named_out. auto with only. Qed.
  Lemma rows_only d b l : Forall only l -> only (row_lines op d b l).
  Proof.
    intros H. induction H as [|x l Hx Hl IH]; [apply only_nil|].
    assert (forall b, only (row_line op d b x)) by (intros; unfold row_line; auto with only).
    destruct l; cbn [row_lines] in *; auto with only.
  Qed.
  Lemma header_out_only d h : header_only h -> only (header_out op d h).
  Proof.
    intros H. pose proof H as (Hn & Ha & _). unfold header_out. oapp; auto with only.
    destruct (hd_args h) as [[p n|p n]|].
    - destruct Ha as [Hp Hm]. oapp; auto using clause_only with only. unfold arguments_out.
      assert (only (osep (L ", ") (p ++ map named_out n))) by (apply only_sep, Forall_app; auto using named_only).
      destruct p, n; auto with only.
    - destruct Ha as [Hp Hm]. oapp; auto using clause_only, rows_only, named_only with only.
    - apply only_sep, shown_only, H.
  Qed.
  Lemma view_out_only : forall v d, view_only v -> only (view_out op d v).
  Proof.
    fix IH 1. intros [h cs] d H. inversion H as [? ? Hh Hcs]; subst. cbn [view_out].
    oapp; auto using header_out_only.
    - apply only_fold, Forall_map. destruct Hh as (_ & _ & _ & Ha & _). eapply Forall_impl; [|exact Ha]. auto with only.
    - clear H Hh. induction cs as [|c cs IHc]; [apply only_nil|]. inversion Hcs as [|? ? Hc Hr]; subst.
      cbn [map fold_right]. apply only_app; [|now apply IHc]. destruct c as [v|]; [|apply only_nil].
      apply only_app; auto with only.
  Qed.

  Lemma refs_only n : Forall only (ref_columns n).
  Proof. unfold ref_columns. apply only_map. intros. apply only_txt. Qed.
  Lemma tuple_only l : Forall only l -> only (tuple_out l).
  Proof. intros. unfold tuple_out. auto with only. Qed.
  Lemma enum_only l z a b : named_number l z -> only (enum_out l z a b).
  Proof.
    intros [n H]. unfold enum_out. enough (enum_name l z <> None) by (destruct (enum_name l z); [auto with only|congruence]).
    induction l as [|[k m] l IH]; [destruct H|]. cbn [enum_name]. destruct (Z.eqb_spec k z); [discriminate|].
    destruct H as [[= -> ->]|H]; [congruence|auto].
  Qed.
  Lemma addendum_only pre t d ws : t <> XtRelation -> D t d -> only (addendum_out op e pre (decode_with_type reg t d ws)).
  Proof.
    intros Ht Hd. pose proof (fun er => Qdetail t d ws er Hd) as H. unfold detail_complaints in H. unfold addendum_out, missing.
    apply only_app; auto with only. destruct (decode_with_type reg t d ws) as [[n a]| |p]; auto with only.
    - destruct (xa_columns a).
      + oapp; auto with only. intros er Hin. apply H. now destruct t.
      + oapp; auto with only. apply only_fail, H. destruct t; [congruence|..]; now left.
    - oapp; auto with only. apply only_fail, H. destruct t; [congruence|..]; now left.
  Qed.
  Lemma adv_only a : addenda_complete D a -> Forall only (adv_lines reg op e a).
  Proof.
    destruct a as [a|]; cbn [adv_lines addenda_complete if_given]; auto. intros [H1 H2]. apply Forall_app; split.
    - destruct (ae_enhancement a); cbn [if_given] in *; auto. repeat constructor. apply addendum_only; [discriminate|exact H1].
    - apply only_map. intros d Hd. rewrite Forall_forall in H2. apply addendum_only; [discriminate|auto].
  Qed.

  Lemma zip_only : forall ns ts, length ns = length ts -> Forall (fun t => type_complete u e t = true) ts -> Forall only (zip_fields op e ns ts).
  Proof.
    induction ns as [|n ns IH]; intros [|t ts] Hl Ht; cbn [zip_fields]; try discriminate; auto.
    inversion Ht; subst. constructor; [|apply IH; auto]. unfold field_out. cbn [oexpect]. oapp; auto with only. now apply type_only with (u := u).
  Qed.
  Lemma bound_only n m : bound_complete u e m -> (forall x, m = Some (FmExpr x) -> Gexpr x) ->
    Forall (fun x : list N * out => only (snd x)) (fetch_arg op e n m).
  Proof.
    intros Hb H. destruct m as [[]|]; cbn [fetch_arg]; repeat constructor; cbn [snd fetch_mode_out]; auto with only.
    apply x_only; auto.
  Qed.
  Lemma gargs_only sets : Forall (Forall only) sets -> Forall only (grouping_args sets).
  Proof.
    intros H.
    assert (Forall only (map (fun g => match g with [] => txt (L "_") | _ => tuple_out g end) sets)).
    { apply Forall_map. eapply Forall_impl; [|exact H]. intros [|x g] Hg; auto using tuple_only with only. }
    destruct sets as [|g [|g' sets]]; auto. inversion H; subst. destruct g; cbn [grouping_args]; auto with only.
    destruct g; auto.
  Qed.
  Lemma extension_only k d ws : given (D XtRelation) d -> header_only (extension_header reg op e k d ws).
  Proof.
    destruct d as [d|]; [|intros []]. cbn [given]. intros Hd. pose proof (fun er => Qdetail XtRelation d ws er Hd) as H.
    unfold detail_complaints in H. unfold extension_header, missing.
    destruct (decode_with_type reg XtRelation d ws) as [[n a]| |p];
      (split; [|split; [|split; [|split]]]; cbn [hd_name hd_args hd_cols hd_addenda hd_emit args_only]; try discriminate; auto with only).
    - change (only (xargs_out op e a)) in H. unfold xargs_out, xarglist_out in H. apply app_only in H as [H _].
      assert (K : only (osep (L ", ") (map (xvalue_out op e) (xa_positional a) ++ map (xnamed_out op e) (xa_named a))))
        by (destruct (xa_positional a), (xa_named a); auto with only).
      apply sep_only, Forall_app in K as [K1 K2]. split; auto. apply Forall_map. rewrite Forall_map in K2.
      eapply Forall_impl; [|exact K2]. intros x Hx. unfold xnamed_out in Hx. now apply app_only in Hx as [_ Hx].
    - change (only (xargs_out op e a)) in H. unfold xargs_out in H. apply app_only in H as [_ H].
      destruct (xa_columns a) as [|c l]; [constructor|]. apply app_only in H as [_ H]. now apply sep_only in H.
  Qed.

  Definition good (r : prel) : Prop :=
    rel_complete u e D r /\ Grel r /\ (forall m i, rel_emit r = Some (EmEmit m) -> op_show_emit op = false -> In i m ->
      ~ (0 <= i < Z.of_nat (columns_listed reg op e r))%Z -> Q no_column).
  Lemma read_only r : good (RRead r) -> header_only (read_header reg op e r).
  Proof.
    intros (C & Hg & He). cbn [rel_complete] in C. destruct C as (Cs & Cf & Ca & Ct).
    pose proof (fun x => Grel_expr G (RRead r) x Hg) as Hx.
    assert (Hc : Forall only (read_columns op e r)).
    { unfold read_columns. destruct (rd_schema r) as [s|]; [|destruct Cs]. cbn [given] in Cs. unfold schema_complete in Cs.
      destruct (ns_struct s) as [[[ts ?] ?]|]; [|destruct Cs]. cbn [given fst] in Cs. destruct Cs. now apply zip_only. }
    assert (Hf : forall f, rd_filter r = Some f -> only (expr_out op e f)).
    { intros f Hf. rewrite Hf in Cf. apply x_only; auto. apply Hx. now constructor. }
    apply adv_only in Ca.
    assert (Hl : columns_listed reg op e (RRead r) = length (read_columns op e r))
      by (unfold columns_listed; cbn [view_of]; unfold read_header; destruct (rd_type r); reflexivity).
    rewrite Hl in He. clear Hl.
    unfold read_header. destruct (rd_type r) eqn:ET; try contradiction; cbn [hd_args];
      (split; [|split; [|split; [|split]]]; cbn [hd_name hd_args hd_cols hd_addenda hd_emit args_only]; auto 8 with only).
    - set (tuples := map _ _). assert (Ht : Forall only tuples).
      { apply only_map. intros row Hrow. rewrite Forall_forall in Ct. apply tuple_only, only_map. intros x Hin. specialize (Ct row Hrow).
        rewrite Forall_forall in Ct. apply x_only; auto. apply Hx. eapply re_row; eauto. }
      clearbody tuples.
      assert (Hn : Forall (fun x : list N * out => only (snd x))
                     match rd_filter r with Some f => [(L "filter", expr_out op e f)] | None => [] end).
      { destruct (rd_filter r); repeat constructor. cbn [snd]. auto. }
      destruct (negb _ && _); cbn [args_only]; split; auto; destruct tuples; auto with only;
        destruct (rd_filter r); auto with only.
    - constructor; auto. unfold table_line. destruct detail as [d|]; [|destruct Ct]. apply addendum_only; [discriminate|exact Ct].
  Qed.

  Lemma view_of_only r : (forall x, subrel x r -> good x) -> view_only (view_of reg op e r).
  Proof.
    pose (P := fun r => (forall x, subrel x r -> good x) -> view_only (view_of reg op e r)).
    assert (Hc : forall o, opt_P P o -> (forall i x, o = Some i -> subrel x i -> good x) ->
      forall v, match o with Some r => Some (view_of reg op e r) | None => None end = Some v -> view_only v).
    { intros [] H Hi v; [intros [= <-]; apply H; eauto|discriminate]. }
    assert (Hl : forall l, Forall P l -> (forall i x, In i l -> subrel x i -> good x) ->
      Forall (fun o => forall v, o = Some v -> view_only v) (map Some (map (view_of reg op e) l))).
    { intros l H Hi. rewrite map_map. apply Forall_map. rewrite Forall_forall in *. intros a Ha v [= <-]. apply H; eauto. }
    revert r. apply (prel_ind2 P); unfold P; intros; cbn [view_of];
      match goal with H : forall x, subrel x ?r -> good x |- _ =>
        pose proof (H r (subrel_self r)) as (C & Hg & He); rename H into Hs; unfold columns_listed in He; cbn [view_of] in He;
        pose proof (fun x => Grel_expr G r x Hg) as Hx end;
      cbn [rel_complete] in C; try contradiction;
      constructor; try solve [apply read_only, Hs, subrel_self|apply extension_only; tauto|auto];
      try solve [repeat (apply Forall_cons; [apply Hc; [assumption|intros ? ? -> ?; apply Hs; eapply subrel_input; [|eassumption]; cbn [inputs opt_list];
         first [now left | apply in_or_app; right; now left | apply in_or_app; left; now left]]|]); auto];
      try solve [apply Hl; auto; intros; apply Hs; eapply subrel_input; [|eassumption]; assumption].
    - destruct C as (_ & C & Ca). destruct x as [x|]; [|destruct C]. split; [|split; [|split; [|split]]]; cbn [filter_header hd_name hd_args hd_cols hd_addenda hd_emit args_only]; auto using adv_only, refs_only with only.
      repeat constructor. apply x_only; auto. apply Hx. constructor.
    - destruct C as (_ & C & Ca). split; [|split; [|split; [|split]]]; cbn [project_header hd_name hd_args hd_cols hd_addenda hd_emit args_only]; auto using adv_only, refs_only with only.
      apply Forall_app. split; auto using refs_only. apply only_map. intros y Hy. rewrite Forall_forall in C. apply x_only; auto.
      apply Hx. now constructor.
    - destruct C as (_ & C & Cm & Ca & Cg). unfold aggregate_header, grouping_values.
      assert (Hold : (match gs with g :: _ => negb (Nat.eqb (length (gr_exprs g)) 0) | [] => false end) = false).
      { destruct gs as [|g0 gs]; auto. inversion Cg as [|? ? [E _] _]; subst. now rewrite E. }
      unfold aggregate_header, grouping_values in He. rewrite Hold, andb_false_r in *. cbn [hd_cols] in He.
      assert (Hxs : forall y, In y g -> only (expr_out op e y)).
      { intros y Hy. rewrite Forall_forall in C. apply x_only; auto. apply Hx. now constructor. }
      split; [|split; [|split; [|split]]]; cbn [ hd_name hd_args hd_cols hd_addenda hd_emit args_only]; auto using adv_only, refs_only with only.
      + split; auto. apply gargs_only. rewrite Forall_forall in Cg.
        assert (K : Forall (Forall only) (map (fun g0 => map (fun i => match nth_error g (N.to_nat i) with
                                     | Some x => expr_out op e x
                                     | None => missing FInvalid "AggregateRel"
                                     end) (gr_refs g0)) gs)).
        { apply Forall_map, Forall_forall. intros y Hy. destruct (Cg y Hy) as [_ Hr]. rewrite Forall_forall in Hr. apply only_map. intros n Hn.
          destruct (nth_error g (N.to_nat n)) as [x|] eqn:E; [apply nth_error_In in E; auto|].
          apply nth_error_None in E. specialize (Hr n Hn). lia. }
        destruct gs; auto.
      + apply Forall_app. split; [now apply only_map|]. apply measures_only with (u := u) (G := G); auto. intros m f x Hm Hf Hin. apply Hx. eapply re_measure; eauto.
    - destruct C as (_ & Ca & C). split; [|split; [|split; [|split]]]; cbn [sort_header hd_name hd_args hd_cols hd_addenda hd_emit args_only]; auto using adv_only, refs_only with only.
      split; auto. apply only_map. intros y Hy. rewrite Forall_forall in C. destruct (C y Hy) as [C1 C2]. unfold sort_field_out.
      apply tuple_only. destruct (sf_expr y) as [x|] eqn:E; [|destruct C1]. cbn [opt_expr_out]. constructor.
      + apply x_only; auto. apply Hx. eapply re_sort; eauto.
      + repeat constructor. unfold sort_kind_out. destruct (sf_kind y) as [[z|]|]; try destruct C2. apply enum_only. eexists; eassumption.
    - destruct C as (_ & C1 & C2 & Ca). split; [|split; [|split; [|split]]]; cbn [fetch_header hd_name hd_args hd_cols hd_addenda hd_emit args_only]; auto using adv_only, refs_only with only.
      split; auto. apply Forall_app; split; apply bound_only; auto; intros x ->; apply Hx; constructor.
    - destruct C as (_ & _ & C1 & C2 & C3 & Ca). destruct x as [x|]; [|destruct C1]. split; [|split; [|split; [|split]]]; cbn [join_header hd_name hd_args hd_cols hd_addenda hd_emit args_only]; auto using adv_only, refs_only with only.
      split.
      + constructor; [now apply enum_only|]. repeat constructor. apply x_only; auto. apply Hx. constructor.
      + destruct p; repeat constructor. cbn [snd]. apply x_only; auto. apply Hx. constructor.
    - destruct C as (_ & C1 & Ca). split; [|split; [|split; [|split]]]; cbn [set_header hd_name hd_args hd_cols hd_addenda hd_emit args_only]; auto using adv_only, refs_only with only.
      split; auto. repeat constructor. now apply enum_only.
    - destruct C as (_ & _ & Ca). split; [|split; [|split; [|split]]]; cbn [cross_header hd_name hd_args hd_cols hd_addenda hd_emit args_only]; auto using adv_only, refs_only with only.
  Qed.
  Lemma plan_rel_only q : plan_inputs q <> [] -> (forall r x, In r (plan_inputs q) -> subrel x r -> good x) -> only (plan_rel_out reg op e q).
  Proof.
    intros Hn H. destruct q as [r|ns [r|]|]; cbn [plan_inputs opt_list plan_rel_out] in *; try congruence; unfold rel_out.
    - apply view_out_only, view_of_only. intros x. apply H. now left.
    - oapp; auto with only. apply view_out_only, view_of_only. intros x. apply H. now left.
  Qed.
End Rels.

(** ** Plans *)

Lemma input_given r i : In i (inputs r) -> rel_input i r.
Proof.
  intros Hi. destruct r; cbn [SpecRels.inputs] in Hi; try (now constructor); try contradiction;
    repeat match goal with o : option prel |- _ => destruct o end; cbn [opt_list app In] in Hi;
    repeat match goal with H : _ \/ _ |- _ => destruct H end; subst; try contradiction; now constructor.
Qed.
Lemma subrel_lits l x r : subrel x r -> in_rel l x -> in_rel l r.
Proof. induction 1; auto. intros Hl. eapply ir_input; [apply input_given; eassumption|auto]. Qed.

Theorem complete_complaints (U : Unicode) (F : Floats) reg op u D p : plan_complete u D p ->
  forall er, In er (o_errs (format reg op p)) -> complaint reg op u D p er.
Proof.
  intros [H0 [Hn Hc]]. change (only (complaint reg op u D p) (format reg op p)).
  unfold format. pose proof (wf_from_extensions (pl_urns _ p) (pl_decls _ p)) as We.
  destruct (from_extensions _ _) as [e errs] eqn:Ee. cbn [fst snd] in *. subst errs.
  repeat match goal with |- only _ (_ +++ _) => apply only_app end; auto with only.
  unfold relations_out. apply only_app; auto with only. apply only_sep, only_map. intros q Hq.
  apply plan_rel_only with (u := u) (G := fun l => in_plan l p) (D := D); auto.
  - intros ->. right; left. now split.
  - intros l Hl _ Hb. left. split; auto. exists l. rewrite Ee. auto.
  - intros t d ws er Hd Hin. right; right; right. exists t, d, ws. rewrite Ee. auto.
  - intros r x Hr Hx. assert (Hp : in_plan_rels x (pl_rels _ p)) by (exists q, r; auto). split; [|split]; auto.
    + intros l Hl. exists r. split; [|now apply (subrel_lits l x)].
      destruct q as [r'|ns [r'|]|]; cbn [plan_inputs opt_list In] in Hr; try contradiction; destruct Hr as [-> |[]]; eauto.
    + intros m i Hm Hs Hi Hr'. right; right; left. split; [reflexivity|]. split; [exact Hs|]. exists x, m, i. rewrite Ee. auto.
Qed.
