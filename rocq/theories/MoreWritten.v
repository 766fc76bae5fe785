(** What has a text keeps it when there are more declarations and registrations. *)
From Coq Require Import String List NArith ZArith Bool Lia.
From Verif Require Import Base BaseFacts Names OMap SimpleExt SimpleExtFacts Out Types TypesFacts SpecLiterals Literals Exprs ExprsFacts ExtArgs Registry
  SpecRegistry Rels OutClosed SpecAggregate SpecMeaning SpecText SpecOptions SpecNotation SpecLayout SpecMore MoreRead.
Import ListNotations.
Local Open Scope string_scope.
Local Open Scope list_scope.
Local Open Scope nat_scope.

Section Written.
  Context `{U : Unicode} `{F : Floats}.
  Context (reg reg' : registry) (op : options) (e e' : exts) (M : more_declared e e').
  Context (MH : forall k n h, hget (k, n) (rg_handlers reg) = Some h -> hget (k, n) (rg_handlers reg') = Some h).
  Context (MU : forall k n x, hget (k, n) (rg_urls reg) = Some x -> hget (k, n) (rg_urls reg') = Some x).

  Lemma another_more k a P : another e k a P -> another e' k a P.
  Proof. intros (a' & u & n & H & G & K). exists a', u, n. split; auto. split; auto. exact (proj1 M _ _ _ G). Qed.
  Lemma another_less k a u n b (P : list N -> Prop) : decl_get e k a = Some (u, n) -> base_name n b -> (forall m, P m -> base_name m b) ->
    another e' k a P -> another e k a P.
  Proof.
    intros G B HP (a' & u' & n' & H & G' & K). exists a'. destruct (decl_get e k a') as [[u2 n2]|] eqn:E.
    - pose proof (proj1 M _ _ _ E) as E'. rewrite E' in G'. injection G' as -> ->. eauto.
    - exfalso. exact (proj2 M _ _ _ _ _ _ _ _ G G' E B (HP _ K)).
  Qed.
  Lemma reference_text_more k a s : reference_text op e k a s -> reference_text op e' k a s.
  Proof.
    pose proof (proj1 M) as M1. intros H. destruct H.
    - eapply rt_always; eauto.
    - eapply rt_never; eauto.
    - eapply rt_base; eauto. intros K. eapply another_less in K; eauto.
    - eapply rt_name; eauto using another_more. intros K. eapply another_less in K; eauto. now intros m <-.
    - eapply rt_anchor; eauto using another_more. match goal with H : _ \/ _ |- _ => destruct H end; auto using another_more.
    - eapply rt_type; eauto. intros K. eapply another_less in K; eauto. now intros m <-.
    - eapply rt_type_anchor; eauto using another_more.
  Qed.
  Lemma type_form_more word n v ps s : type_form op e word n v ps s -> type_form op e' word n v ps s.
  Proof.
    intros (q & w & H & K & G). exists q, w. split; auto. split; auto. destruct K; constructor; auto. now apply reference_text_more.
  Qed.
  Lemma type_text_more : forall t s, type_text op e t s -> type_text op e' t s.
  Proof.
    apply (ptype_ind2 (fun t => forall s, type_text op e t s -> type_text op e' t s) (fun p => forall s, param_text op e p s -> param_text op e' p s));
      intros; match goal with H : type_text _ _ _ _ |- _ => inversion H; subst | H : param_text _ _ _ _ |- _ => inversion H; subst end;
      try (econstructor; eauto using type_form_more, reference_text_more; fail).
    - eapply ty_struct; eauto using type_form_more. eapply Forall2_mono_in; eauto.
    - eapply ty_user; eauto using type_form_more, reference_text_more. eapply Forall2_mono_in; eauto.
  Qed.
  Lemma literal_text_more l s : literal_text op e l s -> literal_text op e' l s.
  Proof. intros H. destruct H; [eapply lt_null|eapply lt_typed|eapply lt_untyped]; eauto using type_text_more. Qed.
  Lemma combine_some (P : pexpr -> Prop) (a b : list pexpr) : length a = length b ->
    Forall (fun c => opt_all P (fst c) /\ opt_all P (snd c)) (combine (map Some a) (map Some b)) -> Forall P a /\ Forall P b.
  Proof.
    revert b; induction a as [|x a IH]; intros [|y b] E H; try discriminate; [auto|]. cbn [map combine] in H.
    inversion H as [|? ? [H1 H2] H3]; subst. cbn in H1, H2, E. destruct (IH b) as [K1 K2]; auto.
  Qed.
  Lemma expr_text_more : forall x s, expr_text op e x s -> expr_text op e' x s.
  Proof.
    apply (pexpr_ind2 (fun x => forall s, expr_text op e x s -> expr_text op e' x s) (fun p => forall s, arg_text op e p s -> arg_text op e' p s));
      intros; match goal with H : expr_text _ _ _ _ |- _ => inversion H; subst | H : arg_text _ _ _ _ |- _ => inversion H; subst end.
    - apply xt_literal. now apply literal_text_more.
    - now apply xt_column.
    - eapply xt_call; eauto using reference_text_more, type_text_more. eapply Forall2_mono_in; eauto.
    - match goal with G : Forall _ (combine _ _), E : length _ = length _ |- _ => apply combine_some in G as [Ga Gb]; [|exact E] end.
      eapply xt_if; eauto; (eapply Forall2_mono_in; eauto).
    - eapply xt_cast; eauto using type_text_more.
    - constructor. now apply type_text_more.
    - constructor. auto.
    - now constructor.
  Qed.
  Lemma arg_text_more a s : arg_text op e a s -> arg_text op e' a s.
  Proof. intros H. destruct H; constructor; auto using type_text_more, expr_text_more. Qed.
  Lemma measure_text_more a s : measure_text op e a s -> measure_text op e' a s.
  Proof.
    intros (f & xs & t & y & H1 & H2 & H3 & H4 & H5). exists f, xs, t, y.
    split; [now apply reference_text_more|]. split; [eapply Forall2_mono; [apply arg_text_more|exact H2]|]. auto using type_text_more.
  Qed.

  (** ** Shows *)
  Definition within (c c' : shows) : Prop := forall s, c s -> c' s.
  Lemma within_refl c : within c c. Proof. intros s; auto. Qed.
  Lemma each_within cs cs' ss : Forall2 within cs cs' -> each cs ss -> each cs' ss.
  Proof. intros H K. revert cs' H. induction K as [|c s cs ss Hc _ IH]; intros cs' W; inversion W; subst; constructor; [auto|now apply IH]. Qed.
  Lemma within_same {A} (f g : A -> shows) l : (forall x, within (f x) (g x)) -> Forall2 within (map f l) (map g l).
  Proof. intros H. induction l; constructor; auto. Qed.
  Lemma within_all l : Forall2 within l l.
  Proof. induction l; constructor; auto using within_refl. Qed.
  Lemma within_nth l l' i c : Forall2 within l l' -> nth_error l i = Some c -> exists c', nth_error l' i = Some c' /\ within c c'.
  Proof.
    intros H. revert i; induction H as [|x y l l' H _ IH]; intros [|i] E; try discriminate; [|now apply IH].
    injection E as <-. exists y. split; auto.
  Qed.
  Lemma tuple_within cs cs' : Forall2 within cs cs' -> within (tuple_text cs) (tuple_text cs').
  Proof. intros H s (ss & K & E). exists ss. split; auto. eapply each_within; eauto. Qed.
  Definition arg_within (a a' : argument) : Prop := fst a = fst a' /\ within (snd a) (snd a').
  Lemma argument_within a a' s : arg_within a a' -> argument_text a s -> argument_text a' s.
  Proof.
    destruct a as [n c], a' as [n' c']. intros [E H]. cbn in E, H. subst n'. unfold argument_text. cbn. destruct n; auto.
    intros (x & K & G). eauto.
  Qed.
  Lemma all_args_within l l' ss : Forall2 arg_within l l' -> Forall2 argument_text l ss -> Forall2 argument_text l' ss.
  Proof. intros H K. revert l' H. induction K as [|a s l ss Ha _ IH]; intros l' W; inversion W; subst; constructor; auto. eapply argument_within; eauto. Qed.
  Lemma arguments_within l l' s : Forall2 arg_within l l' -> arguments_text l s -> arguments_text l' s.
  Proof. intros H (ss & K & E). exists ss. split; auto. eapply all_args_within; eauto. Qed.
  Lemma bare_within l l' : Forall2 within l l' -> Forall2 arg_within (bare_arguments l) (bare_arguments l').
  Proof. intros H. induction H; constructor; auto. now split. Qed.
  Lemma columns_within cols cols' k : Forall2 within cols cols' -> within (columns_text op cols k) (columns_text op cols' k).
  Proof.
    intros H s K. destruct K as [m ss A B|k ss A B].
    - apply co_mapped; auto. eapply Forall2_mono; [|exact B]. cbn beta. intros i x (P & c & G & Q). split; auto.
      destruct (within_nth _ _ _ _ H G) as (c' & G' & W). eauto.
    - apply co_all; auto. eapply each_within; eauto.
  Qed.
  Lemma width_within cols cols' k : Forall2 within cols cols' -> emitted_width cols k = emitted_width cols' k.
  Proof. intros H. unfold emitted_width. destruct k as [[]|]; auto; (induction H; cbn; auto). Qed.
  Lemma plain_within cols cols' k : Forall2 within cols cols' -> within (plain_output op cols k) (plain_output op cols' k).
  Proof. intros H s (x & K & E). exists x. split; auto. eapply columns_within; eauto. Qed.
  Lemma mapped_within cols cols' m : Forall2 within cols cols' -> within (mapped_output cols m) (mapped_output cols' m).
  Proof. intros H s (ss & ms & K & E). exists ss, ms. split; auto. eapply each_within; eauto. Qed.
  Lemma bare_line_within d word cols cols' k ls : Forall2 within cols cols' -> bare_line op d word cols k ls -> bare_line op d word cols' k ls.
  Proof. intros H (s & K & E). exists s. split; auto. eapply columns_within; eauto. Qed.
  Lemma full_line_within d word args args' out out' ls : Forall2 arg_within args args' -> within out out' ->
    full_line op d word args out ls -> full_line op d word args' out' ls.
  Proof. intros H G (a & o & K & E). exists a, o. split; [eapply arguments_within; eauto|]. destruct E. auto. Qed.
  Lemma long_line_within d word args args' out out' ls : Forall2 arg_within args args' -> within out out' ->
    long_line op d word args out ls -> long_line op d word args' out' ls.
  Proof. intros H G (a & o & K & E). exists a, o. split; [eapply all_args_within; eauto|]. destruct E. auto. Qed.

  Lemma expression_within x : within (expression op e x) (expression op e' x).
  Proof. intros s. apply expr_text_more. Qed.
  Lemma expressions_within l : Forall2 within (map (expression op e) l) (map (expression op e') l).
  Proof. apply within_same. apply expression_within. Qed.
  Lemma optional_within x : within (optional op e x) (optional op e' x).
  Proof. destruct x; [apply expression_within|apply within_refl]. Qed.
  Lemma named_within n x : Forall2 arg_within (named op e n x) (named op e' n x).
  Proof. destruct x; repeat constructor. apply expression_within. Qed.
  Lemma xvalue_more : forall v s, xvalue_text op e v s -> xvalue_text op e' v s.
  Proof.
    induction v using xvalue_ind2; intros t K; inversion K; subst; try (constructor; auto using expr_text_more; fail).
    - apply xv_one. match goal with H : Forall _ [_] |- _ => inversion H; auto end.
    - apply xv_tuple; auto. eapply Forall2_mono_in; eauto.
  Qed.
  Lemma xcolumn_within c : within (xcolumn_text op e c) (xcolumn_text op e' c).
  Proof.
    destruct c as [n t|x]; [|apply expression_within]. intros s (x & y & H & K & E). exists x, y. split; auto. split; auto. now apply type_text_more.
  Qed.
  Lemma xarguments_within a : Forall2 arg_within (xarguments op e a) (xarguments op e' a).
  Proof.
    unfold xarguments. apply Forall2_app.
    - apply bare_within, within_same. intros x s. apply xvalue_more.
    - induction (xa_named a) as [|p l IH]; constructor; auto. split; auto. intros s. apply xvalue_more.
  Qed.
  Lemma decoded_more k d ws n a : decoded reg k d ws n a -> decoded reg' k d ws n a.
  Proof. intros (H & h & K & G). split; auto. exists h. auto. Qed.
  Lemma addendum_text_more a s : addendum_text reg op e a s -> addendum_text reg' op e' a s.
  Proof.
    destruct a as [[p k] d]. intros (n & a & x & H & K & G & E). exists n, a, x. split; [now apply decoded_more|]. split; auto. split; auto.
    eapply arguments_within; [apply xarguments_within|exact G].
  Qed.
  Lemma addenda_lines_more d l ls : addenda_lines reg op e d l ls -> addenda_lines reg' op e' d l ls.
  Proof. intros (ss & H & E). exists ss. split; auto. eapply Forall2_mono; [apply addendum_text_more|exact H]. Qed.
  Lemma read_fields_within r : Forall2 within (read_fields op e r) (read_fields op e' r).
  Proof.
    unfold read_fields. destruct (rd_schema r); [|apply within_all]. unfold fields. apply within_same.
    intros i s (x & t & y & z & H1 & H2 & H3 & H4 & H5). exists x, t, y, z. repeat (split; [now auto using type_text_more|]). exact H5.
  Qed.
  Lemma rows_within r rows : Forall2 arg_within (row_arguments op e r rows) (row_arguments op e' r rows).
  Proof.
    unfold row_arguments. apply Forall2_app; [|apply named_within].
    assert (G : Forall2 arg_within (bare_arguments (map (fun row => tuple_text (map (expression op e) row)) rows))
                  (bare_arguments (map (fun row => tuple_text (map (expression op e') row)) rows))).
    { apply bare_within, within_same. intros row. apply tuple_within, expressions_within. }
    destruct rows; [destruct (rd_filter r)|]; auto. constructor; [|constructor]. split; auto. apply within_refl.
  Qed.
  Lemma self_within l : Forall2 arg_within l l.
  Proof. induction l; constructor; auto. split; auto. apply within_refl. Qed.
  Lemma read_line_more d r ls : read_line op e d r ls -> read_line op e' d r ls.
  Proof.
    pose proof (read_fields_within r) as W. intros H. destruct H.
    - eapply rl_mapped; eauto. eapply full_line_within; [| |eassumption]; [apply self_within|now apply mapped_within].
    - eapply rl_named; eauto. eapply full_line_within; [| |eassumption]; [apply self_within|now apply plain_within].
    - eapply rl_short; eauto. eapply full_line_within; [| |eassumption]; [apply rows_within|now apply plain_within].
    - eapply rl_long; eauto. eapply long_line_within; [| |eassumption]; [apply rows_within|now apply plain_within].
    - eapply rl_extension; eauto. eapply bare_line_within; [|eassumption]. exact W.
  Qed.
  Lemma grouping_more gexprs groups xs sets : grouping_sets op e gexprs groups xs sets ->
    exists sets', grouping_sets op e' gexprs groups xs sets' /\ Forall2 (Forall2 within) sets sets'.
  Proof.
    intros H. destruct H.
    - eexists. split; [now apply gs_given|]. generalize (g :: groups). intros l. induction l; constructor; auto. apply expressions_within.
    - eexists. split; [apply gs_none|]. repeat constructor.
    - eexists. split; [now apply gs_positions|]. generalize (g :: groups). intros l. induction l; constructor; auto.
      apply within_same. intros i s (x & G & K). exists x. split; auto. now apply expr_text_more.
  Qed.
  Lemma sets_within sets sets' : Forall2 (Forall2 within) sets sets' -> Forall2 arg_within (set_arguments sets) (set_arguments sets').
  Proof.
    intros H. unfold set_arguments. apply bare_within.
    assert (G : Forall2 within (map set_text sets) (map set_text sets')).
    { clear - H. induction H as [|a b l m H _ IH]; constructor; auto. destruct H; [apply within_refl|]. apply tuple_within. now constructor. }
    destruct H as [|a b l m H K]; auto. destruct H as [|x y a b Hx H]; auto. destruct K as [|]; [|exact G]. now constructor.
  Qed.
  Lemma measures_within l : Forall2 within (measures op e l) (measures op e' l).
  Proof.
    unfold measures. induction l as [|m l IH]; [constructor|]. cbn [map concat]. apply Forall2_app; auto.
    apply within_same. intros a s. apply measure_text_more.
  Qed.
  Lemma bound_within n m : Forall2 arg_within (bound op e n m) (bound op e' n m).
  Proof. destruct m as [[]|]; repeat constructor; cbn; auto using expression_within, within_refl. Qed.
  Lemma sorts_within l : Forall2 arg_within
    (bare_arguments (map (fun f => tuple_text [optional op e (sf_expr f); direction (sf_kind f)]) l))
    (bare_arguments (map (fun f => tuple_text [optional op e' (sf_expr f); direction (sf_kind f)]) l)).
  Proof. apply bare_within, within_same. intros f. apply tuple_within. constructor; [apply optional_within|apply within_all]. Qed.
  Lemma extension_more d kind x ws name args h : extension_line reg op e d kind x ws name args h -> extension_line reg' op e' d kind x ws name args h.
  Proof.
    intros H. inversion H; subst. constructor; [now apply decoded_more|]. eapply full_line_within; [| |eassumption]; [apply xarguments_within|].
    apply plain_within, within_same. apply xcolumn_within.
  Qed.
  Lemma head_more d r ws w ls : head_shown reg op e d r ws w ls -> head_shown reg' op e' d r ws w ls.
  Proof.
    intros H. destruct H; try (econstructor; eauto using extension_more; fail).
    - rewrite (width_within _ (read_fields op e' r)) by apply read_fields_within. apply hs_read; auto using read_line_more, addenda_lines_more.
    - apply hs_filter; auto using addenda_lines_more. eapply full_line_within; [| |eassumption]; [|apply within_refl].
      constructor; [|constructor]. split; [reflexivity|apply optional_within].
    - rewrite (width_within _ (references n ++ map (expression op e') xs)).
      2: apply Forall2_app; [apply within_all|apply expressions_within].
      apply hs_project; auto using addenda_lines_more. eapply bare_line_within; [|eassumption]. apply Forall2_app; [apply within_all|apply expressions_within].
    - assert (W : Forall2 within (map (expression op e) xs ++ measures op e ms) (map (expression op e') xs ++ measures op e' ms)).
      { apply Forall2_app; [apply expressions_within|apply measures_within]. }
      rewrite (width_within _ _ _ W). match goal with G : grouping_sets _ _ _ _ _ _ |- _ => apply grouping_more in G as (sets' & G & S) end.
      eapply hs_aggregate; eauto using addenda_lines_more. eapply full_line_within; [| |eassumption]; [now apply sets_within|now apply plain_within].
    - apply hs_sort; auto using addenda_lines_more. eapply full_line_within; [| |eassumption]; [apply sorts_within|apply within_refl].
    - apply hs_fetch; auto using addenda_lines_more. eapply full_line_within; [| |eassumption]; [|apply within_refl].
      apply Forall2_app; apply bound_within.
    - eapply hs_join; eauto using addenda_lines_more. eapply full_line_within; [| |eassumption]; [|apply within_refl].
      apply Forall2_app; [|apply named_within]. apply bare_within. constructor; [apply within_refl|]. constructor; [apply optional_within|constructor].
    - apply hs_set; auto using addenda_lines_more.
    - apply hs_cross; auto using addenda_lines_more.
  Qed.
  Scheme rel_shown_less := Minimality for rel_shown Sort Prop with inputs_shown_less := Minimality for inputs_shown Sort Prop.
  Lemma rel_shown_more : forall d r w ls, rel_shown reg op e d r w ls -> rel_shown reg' op e' d r w ls.
  Proof.
    apply (rel_shown_less _ _ reg op e (fun d r w ls => rel_shown reg' op e' d r w ls) (fun d l ws ls => inputs_shown reg' op e' d l ws ls)).
    - intros d r ws w h ls _ IH H. econstructor; [exact IH|]. now apply head_more.
    - intros d. constructor.
    - intros d l ws ls _ IH. now constructor.
    - intros d r w h l ws ls _ IH _ IH'. now constructor.
  Qed.
  Lemma inputs_shown_more d l ws ls : inputs_shown reg op e d l ws ls -> inputs_shown reg' op e' d l ws ls.
  Proof. induction 1; constructor; auto using rel_shown_more. Qed.
  Lemma plan_rel_shown_more p ls : plan_rel_shown reg op e p ls -> plan_rel_shown reg' op e' p ls.
  Proof. intros H. destruct H; econstructor; eauto using rel_shown_more, inputs_shown_more. Qed.
End Written.
