(** The texts of names, types, literals and expressions have no line breaks. *)
From Coq Require Import String List NArith ZArith Bool Lia.
From Verif Require Import Base BaseFacts Peg PegFacts Names SpecNames NamesFacts SimpleExt Out Anchors SimpleExtFacts
  SpecExt AnchorsFacts Types SpecTypes TypesFacts Calendar Literals SpecLiterals LiteralsFacts Exprs SpecExprs ExprsFacts.
Import ListNotations.
Local Open Scope string_scope.
Local Open Scope list_scope.
Local Open Scope nat_scope.

Definition nlf (s : list N) : Prop := contains_char c_nl s = false.

Lemma nlf_app a b : nlf a -> nlf b -> nlf (a ++ b).
Proof. unfold nlf. intros. now rewrite contains_char_app, H, H0. Qed.
Ltac nlfs := repeat match goal with |- nlf (_ ++ _) => apply nlf_app end.
Lemma nlf_app_iff a b : nlf (a ++ b) <-> nlf a /\ nlf b.
Proof. unfold nlf. rewrite contains_char_app. apply orb_false_iff. Qed.
Lemma nlf_cons c s : (c =? c_nl)%N = false -> nlf s -> nlf (c :: s).
Proof. unfold nlf. cbn [contains_char]. now intros -> ->. Qed.
Lemma nlf_class f s : forallb f s = true -> f c_nl = false -> nlf s.
Proof. intros. eapply contains_char_class; eauto. Qed.
Lemma nlf_concat l : Forall nlf l -> nlf (concat l).
Proof. induction 1; [reflexivity|]. now apply nlf_app. Qed.
Lemma nlf_join sep l : nlf sep -> Forall nlf l -> nlf (join sep l).
Proof.
  intros Hs. induction 1 as [|x l Hx Hl IH]; [reflexivity|]. destruct l as [|y l]; [exact Hx|].
  change (nlf (x ++ sep ++ join sep (y :: l))). auto using nlf_app.
Qed.
Lemma nlf_ascii s : ascii_text s = true -> nlf s.
Proof. intros H. eapply nlf_class; [exact H|reflexivity]. Qed.
Lemma nlf_digits s : forallb is_digit s = true -> nlf s.
Proof. intros H. eapply nlf_class; [exact H|reflexivity]. Qed.
Lemma nlf_idchars s : forallb is_idchar s = true -> nlf s.
Proof. intros H. eapply nlf_class; [exact H|reflexivity]. Qed.
Lemma nlf_show_N n : nlf (show_N n).
Proof. apply nlf_digits, show_N_digits. Qed.
Lemma nlf_show_Z z : nlf (show_Z z).
Proof. unfold show_Z. destruct (z <? 0)%Z; [apply nlf_cons; [reflexivity|]|]; apply nlf_show_N. Qed.
Lemma nlf_ident s : is_identifier s = true -> nlf s.
Proof.
  destruct s as [|c r]; [discriminate|]. cbn [is_identifier]. intros H. apply andb_true_iff in H as [Hc Hr].
  apply nlf_cons; [|now apply nlf_idchars]. unfold c_nl. chars.
Qed.
Lemma nlf_null n : nlf (null_text n). Proof. now destruct n. Qed.
Lemma nlf_anchor a : nlf (anchor_text a).
Proof. destruct a as [a|]; [|reflexivity]. unfold anchor_text. apply nlf_app; [reflexivity|apply nlf_show_N]. Qed.
Lemma nlf_params l : Forall nlf l -> nlf (params_text l).
Proof.
  intros H. destruct l as [|x l]; [reflexivity|]. unfold params_text.
  nlfs; try reflexivity. now apply nlf_join.
Qed.
#[export] Hint Resolve nlf_app nlf_show_N nlf_show_Z nlf_ident nlf_null nlf_anchor nlf_params nlf_join nlf_ascii : nlf.
#[export] Hint Extern 1 (nlf (L _)) => reflexivity : nlf.
#[export] Hint Extern 1 (nlf []) => reflexivity : nlf.
#[export] Hint Extern 1 (nlf [_]) => reflexivity : nlf.

Section Names.
  Context {U : Unicode}.
  Lemma nlf_escape ge c : nlf (escape_char ge c).
  Proof.
    unfold escape_char. repeat match goal with |- nlf (if ?b then _ else _) => destruct b eqn:? end; try reflexivity.
    all: unfold escape_unicode; try (nlfs; try reflexivity; eapply nlf_class; [apply show_hex_chars|reflexivity]).
    all: apply nlf_cons; [|reflexivity]; assumption.
  Qed.
  Lemma nlf_escape_debug s : nlf (escape_debug s).
  Proof.
    destruct s as [|c r]; [reflexivity|]. unfold escape_debug. apply nlf_app; [apply nlf_escape|].
    apply nlf_concat, Forall_map, Forall_forall. intros; apply nlf_escape.
  Qed.
  Lemma nlf_show_string s : nlf (show_string s).
  Proof. unfold show_string. nlfs; try reflexivity. apply nlf_escape_debug. Qed.
  Lemma nlf_show_name s : nlf (show_name s).
  Proof.
    unfold show_name. destruct (is_identifier s) eqn:E; [now apply nlf_ident|].
    nlfs; try reflexivity. apply nlf_escape_debug.
  Qed.
End Names.
#[export] Hint Resolve nlf_show_string nlf_show_name : nlf.

Lemma nlf_type op e t : wf_exts e -> type_ok e t = true -> nlf (ttext op e t).
Proof.
  intros W. revert t.
  apply (ptype_ind2
           (fun t => type_ok e t = true -> nlf (ttext op e t))
           (fun p => match p with PType t => type_ok e t = true -> nlf (ttext op e t) | _ => True end));
    try (intros; discriminate); try (intros; exact I).
  all: unfold ttext in *; cbn [type_ok].
  - intros k n v H. apply N.eqb_eq in H as ->. cbn [type_out]. rewrite textify_type_text.
    nlfs; auto with nlf; destruct k; reflexivity.
  - intros k p n v H. bool_hyps. apply N.eqb_eq in H0 as ->. cbn [type_out]. rewrite textify_type_text.
    nlfs; auto with nlf; try (destruct k; reflexivity).
    apply nlf_params. repeat constructor. apply nlf_show_Z.
  - intros [p|] n v H; [|discriminate]. bool_hyps. apply N.eqb_eq in H0 as ->. cbn [type_out]. rewrite textify_type_text.
    nlfs; auto with nlf. apply nlf_params. repeat constructor. apply nlf_show_Z.
  - intros [t|] n v IH H; [|discriminate]. apply andb_true_iff in H as [H0 H]. apply N.eqb_eq in H as ->.
    cbn [type_out]. rewrite textify_type_text. nlfs; auto with nlf.
    apply nlf_params. repeat constructor. cbn [map]. now apply IH.
  - intros r ps n v IH H. destruct (decl_get e KType r) as [[u nm]|] eqn:Ed; [|discriminate].
    bool_hyps. apply N.eqb_eq in H0 as ->. destruct (type_name_ok_ident nm) as (_ & Hid & _); [auto|].
    cbn [type_out]. rewrite (user_out_text op e r u nm n _ W Ed) by now apply ident_no_colon.
    nlfs; auto with nlf; [now apply nlf_idchars|]. apply nlf_params.
    rewrite map_map. rewrite Forall_map. apply Forall_forall. intros p Hp.
    rewrite Forall_forall in IH. specialize (IH p Hp).
    match goal with Hf : forallb _ ps = true |- _ => rewrite forallb_forall in Hf; specialize (Hf p Hp) end.
    destruct p; try discriminate. cbn [param_out]. auto.
  - intros t IH H. auto.
Qed.

Lemma nlf_arg_type s : arg_type_ok s = true -> nlf s.
Proof.
  assert (G : forall s, short_name_ok s = true -> nlf s).
  { intros [|c r]; [discriminate|]. cbn [short_name_ok]. intros H. apply andb_true_iff in H as [Hc Hr].
    apply nlf_cons; [unfold c_nl; chars|]. eapply nlf_class; [exact Hr|reflexivity]. }
  unfold arg_type_ok. destruct (strip_prefix (L "u!") s) as [r|] eqn:E; auto.
  apply strip_prefix_spec in E. subst. intros H. apply nlf_app; [reflexivity|auto].
Qed.
Lemma split_on_join c s : join [c] (split_on c s) = s.
Proof.
  induction s as [|x s IH]; [reflexivity|]. cbn [split_on]. destruct (N.eqb_spec x c) as [->|Hx].
  - destruct (split_on c s) as [|p ps] eqn:E; [destruct s; cbn in E; [discriminate|destruct (_ =? _)%N; [discriminate|destruct (split_on c s); discriminate]]|].
    change (join [c] ([] :: p :: ps)) with ([] ++ [c] ++ join [c] (p :: ps)). rewrite IH. reflexivity.
  - destruct (split_on c s) as [|p ps] eqn:E; [destruct s; cbn in E; [discriminate|destruct (_ =? _)%N; [discriminate|destruct (split_on c s); discriminate]]|].
    rewrite <- IH. destruct ps; reflexivity.
Qed.
Lemma nlf_fn_name n : fn_name_ok n = true -> nlf n.
Proof.
  unfold fn_name_ok. destruct (split_at_char c_colon n) as [[b s]|] eqn:E; [|apply nlf_ident].
  apply split_at_char_spec in E as [-> _]. intros H. assert (G : is_identifier b = true /\ (s = [] \/ forallb arg_type_ok (split_on c_under s) = true)).
  { destruct s; bool_hyps; auto. }
  destruct G as [Hb Hs]. apply nlf_app; [now apply nlf_ident|]. apply nlf_cons; [reflexivity|].
  destruct Hs as [->|Hs]; [reflexivity|]. rewrite <- (split_on_join c_under s). apply nlf_join; [reflexivity|].
  rewrite forallb_forall in Hs. apply Forall_forall. intros x Hx. apply nlf_arg_type. auto.
Qed.
Lemma nlf_float s : is_float_text s = true -> nlf s.
Proof.
  unfold is_float_text. intros H.
  assert (G : nlf (match s with c :: r => if (c =? 45)%N then r else s | [] => s end)).
  { destruct (split_at_char 46 _) as [[a b]|] eqn:E; [|discriminate]. apply split_at_char_spec in E as [-> _].
    bool_hyps. apply nlf_app; [now apply nlf_digits|]. apply nlf_cons; [reflexivity|]. now apply nlf_digits. }
  destruct s as [|c r]; [reflexivity|]. destruct (N.eqb_spec c 45) as [->|_]; [|exact G].
  apply nlf_cons; [reflexivity|exact G].
Qed.

Section Exprs.
  Context (U : Unicode) (F : Floats).
  Variable Hascii : ascii_sane U.
  Variables (op : options) (e : exts).
  Hypothesis W : wf_exts e.
  Hypothesis Hanc : op_anchors op <> VNever.
  Hypothesis Htyp : types_written op.

  Lemma nlf_literal l : literal_ok e l = true -> nlf (o_text (literal_out op e l)).
  Proof.
    destruct l as [[v|] n var]; [|discriminate]. unfold literal_ok. cbn [l_type l_nullable l_var]. intros H.
    apply andb_true_iff in H as [Hok Hv]. apply N.eqb_eq in Hv as ->.
    destruct (literal_text U F op e W v n Hok) as (t & E & Ht). unfold ltext in E. rewrite E. apply nlf_app.
    - destruct (is_quoted v) eqn:Hq.
      + destruct (quoted_round_trip U F Hascii e v n Hok Hq) as (s & Es & _ & _).
        rewrite (value_text_quoted U F op e v n s Hok Es). apply nlf_show_string.
      + destruct v; try discriminate; cbn [litval_out o_text txt value_ok] in *; auto with nlf; bool_hyps;
          auto using nlf_float. now destruct b.
    - destruct Ht as [->|(ty & Hty & ->)]; [reflexivity|]. apply nlf_app; [reflexivity|]. now apply nlf_type.
  Qed.

  Lemma nlf_call r args t : function_ok e r = true -> type_ok e t = true -> Forall (fun o => nlf (o_text o)) args ->
    nlf (o_text (invocation_out op e r args [] +++ output_type_out op e (Some t))).
  Proof.
    unfold function_ok. destruct (decl_get e KFunction r) as [[u n]|] eqn:Hd; [|discriminate].
    intros Hf Ht Ha. bool_hyps. rewrite (call_out_text op e W r args t u n Hd). unfold call_text.
    nlfs; auto with nlf.
    - now apply nlf_fn_name, shown_fn_ok.
    - apply nlf_join; [reflexivity|]. now apply Forall_map.
    - now apply nlf_type.
  Qed.

  Lemma nlf_expr x : expr_ok e x = true -> nlf (etext U F op e x).
  Proof.
    revert x. apply (pexpr_ind2 (fun x => expr_ok e x = true -> nlf (etext U F op e x))
      (fun a => match a with AValue y => expr_ok e y = true -> nlf (etext U F op e y) | _ => True end));
      unfold etext; cbn [expr_ok]; try (intros; discriminate); try (intros; exact I); auto.
    - intros l H. now apply nlf_literal.
    - intros [[[i [c|]| |]| |] []] H; try discriminate. cbn [expr_out fieldref_out fr_root fr_ref txt o_text]. unfold ref_text.
      nlfs; auto with nlf.
    - intros r args opts t IH H. destruct opts; [|discriminate]. destruct t as [t|]; [|discriminate].
      bool_hyps. cbn [expr_out]. apply nlf_call; auto. apply Forall_map, Forall_forall. intros a Ha.
      rewrite Forall_forall in IH. specialize (IH a Ha). rewrite forallb_forall in H0. specialize (H0 a Ha).
      destruct a; try discriminate. cbn [arg_out]. auto.
    - intros ifs els Hi He H. destruct ifs as [|c cs]; [discriminate|]. destruct els as [y|]; [|discriminate].
      apply andb_true_iff in H as [H1 H2]. cbn [expr_out]. rewrite !o_text_app. nlfs; try reflexivity; [|now apply He].
      revert Hi H1. generalize (c :: cs). intros l Hi H1. induction l as [|d l IHl]; [reflexivity|].
      cbn [map fold_right]. inversion Hi as [|? ? [Hd1 Hd2] Hl]; subst. cbn [forallb] in H1. apply andb_true_iff in H1 as [Hd H1].
      destruct d as [[a|] [b|]]; cbn [fst snd] in Hd; try discriminate. apply andb_true_iff in Hd as [Ha Hb].
      rewrite !o_text_app. nlfs; try reflexivity; auto.
    - intros b i t IH H. destruct i as [y|]; [|discriminate]. destruct t as [t|]; [|discriminate].
      bool_hyps. cbn [expr_out oexpect]. rewrite !o_text_app. nlfs; try reflexivity; auto.
      + unfold behavior_out. unfold in_range in *. bool_hyps.
        destruct (b =? 0)%Z eqn:?; [reflexivity|]. destruct (b =? 1)%Z eqn:?; [reflexivity|]. destruct (b =? 2)%Z eqn:?; reflexivity.
      + now apply nlf_type.
  Qed.
  Lemma nlf_aggfn a : aggfn_ok e a = true -> nlf (o_text (aggfn_out op e a)).
  Proof.
    unfold aggfn_ok. destruct (af_opts a) eqn:Eo; [|discriminate]. destruct (af_out a) as [t|] eqn:Et; [|discriminate].
    intros H. bool_hyps. unfold aggfn_out. rewrite Eo, Et. apply nlf_call; auto. apply Forall_map, Forall_forall.
    intros x Hx. match goal with Hf : forallb _ (af_args a) = true |- _ => rewrite forallb_forall in Hf; specialize (Hf x Hx) end.
    destruct x; try discriminate. cbn [arg_out]. now apply nlf_expr.
  Qed.
End Exprs.
