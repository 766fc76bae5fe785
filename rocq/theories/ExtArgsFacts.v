(** Facts about arguments of extensions. *)
From Coq Require Import String List NArith ZArith Bool Lia.
From Verif Require Import Base BaseFacts Peg PegFacts PegYields Names SpecNames NamesFacts Props_Names SimpleExt Out
  Anchors SimpleExtFacts SpecExt AnchorsFacts Types SpecTypes TypesFacts ExtReadFacts Lines Calendar Literals
  SpecLiterals LiteralsFacts Exprs SpecExprs ExprsFacts ExtArgs Registry SpecPlan OutClosed NoNewline.
Import ListNotations.
Local Open Scope string_scope.
Local Open Scope list_scope.
Local Open Scope nat_scope.
Local Open Scope peg_scope.

(** ** Items of a list *)

(** What may stand where an item is expected: it begins with something to see. *)
Definition visible (t : list N) : Prop := exists c r, t = c :: r /\ is_sp c = false.
Lemma visible_app t r : visible t -> visible (t ++ r).
Proof. intros (c & s & -> & H). exists c, (s ++ r). auto. Qed.
Lemma visible_sp t r : visible t -> hd_not is_sp (t ++ r) = true.
Proof. intros (c & s & -> & H). cbn [app hd_not]. now rewrite H. Qed.

(** [p] reads [t] as [a]. *)
Definition reads_to {A} (p : peg A) (t : list N) (a : A) : Prop :=
  forall r, expr_follow r = true -> p (t ++ r) = Some (a, r).
Definition item {A} (p : peg A) (t : list N) (a : A) : Prop := visible t /\ reads_to p t a.

Definition comma_like (sep : peg unit) : Prop :=
  shrinks sep /\ forall t r, visible t -> sep (L ", " ++ t ++ r) = Some (tt, t ++ r).

Lemma comma_sp_like : comma_like comma_sp.
Proof.
  split; [unfold comma_sp; peg_shrink|]. intros t r Ht. unfold comma_sp.
  eapply pthen_some; [apply sp_none; reflexivity|].
  eapply pthen_some; [apply (ptok_app (L ",") (c_sp :: t ++ r))|]. apply sp_one. now apply visible_sp.
Qed.
Lemma comma_tok_like : comma_like (ptok (L ",") ;;; sp).
Proof.
  split; [peg_shrink|]. intros t r Ht.
  eapply pthen_some; [apply (ptok_app (L ",") (c_sp :: t ++ r))|]. apply sp_one. now apply visible_sp.
Qed.

Lemma map_fst_combine {A B} (l : list A) (l' : list B) : length l = length l' -> map fst (combine l l') = l.
Proof. revert l'; induction l as [|x l IH]; intros [|y l'] H; try discriminate; cbn; auto. f_equal. apply IH. now injection H. Qed.
Lemma map_snd_combine {A B} (l : list A) (l' : list B) : length l = length l' -> map snd (combine l l') = l'.
Proof. revert l'; induction l as [|x l IH]; intros [|y l'] H; try discriminate; cbn; auto. f_equal. apply IH. now injection H. Qed.
Lemma Forall2_combine {A B} (P : A -> B -> Prop) l l' : Forall2 P l l' ->
  forall p, In p (combine l l') -> P (fst p) (snd p).
Proof. induction 1; cbn; [tauto|]. intros p [<-|Hp]; auto. Qed.

Lemma Forall2_length' {A B} (P : A -> B -> Prop) l l' : Forall2 P l l' -> length l = length l'.
Proof. induction 1; cbn; auto. Qed.

Lemma psep1_reads {A} sep (p : peg A) ts vs rest : strict p -> comma_like sep -> ts <> [] ->
  Forall2 (item p) ts vs -> expr_follow rest = true -> pthen sep p rest = None ->
  psep1 sep p (join (L ", ") ts ++ rest) = Some (vs, rest).
Proof.
  intros Hp [Hs1 Hs2] Hne H Hr Hend. assert (Hlen : length ts = length vs) by now apply Forall2_length' with (P := item p).
  pose proof (Forall2_combine _ _ _ H) as K.
  destruct (combine ts vs) as [|x l] eqn:E.
  { destruct ts, vs; try discriminate; congruence. }
  pose proof (psep1_items sep p (L ", ") fst snd (fun r => expr_follow r = true) x l rest) as G.
  rewrite <- E in G, K. rewrite (map_fst_combine ts vs Hlen), (map_snd_combine ts vs Hlen) in G.
  apply G; auto.
  - intros y r Hy Hok. now apply K.
  - intros y r Hy. apply Hs2. now apply K.
Qed.

Lemma psep0_reads {A} sep (p : peg A) ts vs rest : strict p -> comma_like sep ->
  Forall2 (item p) ts vs -> expr_follow rest = true -> pthen sep p rest = None -> p rest = None ->
  psep0 sep p (join (L ", ") ts ++ rest) = Some (vs, rest).
Proof.
  intros Hp Hs H Hr Hend Hn. unfold psep0. destruct ts as [|t ts].
  - inversion H; subst. apply palt_r; [|reflexivity]. cbn [join app]. now apply pbind_none.
  - apply palt_l. apply psep1_reads; auto. discriminate.
Qed.

Lemma pstar_reads {A} sep (p : peg A) ts vs rest : strict p -> comma_like sep ->
  Forall2 (item p) ts vs -> expr_follow rest = true -> pthen sep p rest = None ->
  pstar (pthen sep p) (concat (map (fun t => L ", " ++ t) ts) ++ rest) = Some (vs, rest).
Proof.
  intros Hp [Hs1 Hs2] H Hr Hend. induction H as [|t v ts vs [Hv Ht] H IH]; cbn [map concat app].
  - apply pstar_nil. exact Hend.
  - rewrite <- !app_assoc. eapply pstar_cons; [apply strict_then_r; auto| |exact IH].
    eapply pthen_some; [now apply Hs2|]. apply Ht. destruct ts; [exact Hr|reflexivity].
Qed.

(** ** The recursion of the grammar is well founded *)

Lemma strict_enum_value : strict g_enum_value.
Proof. unfold g_enum_value. peg_shrink. Qed.
Lemma strict_parameter_literal : strict g_parameter_literal.
Proof. unfold g_parameter_literal. peg_shrink. Qed.
#[global] Hint Resolve strict_enum_value strict_parameter_literal : peg.
Lemma shrinks_comma_sp : shrinks comma_sp.
Proof. unfold comma_sp; peg_shrink. Qed.
Lemma strict_comma_sp : strict comma_sp.
Proof. unfold comma_sp; peg_shrink. Qed.
#[global] Hint Resolve shrinks_comma_sp strict_comma_sp : peg.
Lemma strict_tuple arg : shrinks arg -> strict (g_tuple arg).
Proof. intros. unfold g_tuple. peg_shrink. Qed.
Lemma xarg_F_strict arg : shrinks arg -> strict (xarg_F arg).
Proof. intros H. pose proof (strict_tuple arg H). unfold xarg_F. peg_shrink. Qed.
Lemma agree_tuple n p q : shrinks p -> shrinks q -> agree n p q -> agree (S n) (g_tuple p) (g_tuple q).
Proof.
  intros Hp Hq Ha. unfold g_tuple. apply agree_alt; [peg_agree|].
  apply agree_alt; (apply agree_then_strict; [peg_shrink|peg_agree|]); peg_agree.
Qed.
Lemma xarg_F_agree n p q : shrinks p -> shrinks q -> agree n p q -> agree (S n) (xarg_F p) (xarg_F q).
Proof. intros Hp Hq Ha. pose proof (agree_tuple n p q Hp Hq Ha). unfold xarg_F. peg_agree. Qed.
Lemma xarg_F_agree0 p q : shrinks p -> shrinks q -> agree 0 (xarg_F p) (xarg_F q).
Proof. intros Hp Hq [|? ?] Hs; [reflexivity|cbn in Hs; lia]. Qed.

Lemma g_xarg_eq s : g_xarg s = xarg_F g_xarg s.
Proof.
  apply prun_eq; [intros; apply strict_shrinks; now apply xarg_F_strict|apply xarg_F_agree|apply xarg_F_agree0].
Qed.
Lemma strict_xarg : strict g_xarg.
Proof.
  intros s a r H. rewrite g_xarg_eq in H. eapply xarg_F_strict; [|exact H].
  apply prun_shrinks. intros. apply strict_shrinks. now apply xarg_F_strict.
Qed.
#[global] Hint Resolve strict_xarg : peg.

(** ** Values *)

Lemma starts_with_iff w s : starts_with w s = true <-> exists t, s = w ++ t.
Proof.
  unfold starts_with. split.
  - destruct (strip_prefix w s) as [t|] eqn:E; [|discriminate]. intros _. exists t.
    assert (G : ptok w s = Some (tt, t)) by (unfold ptok; now rewrite E). now apply ptok_spec in G.
  - intros (t & ->). pose proof (ptok_app w t) as G. unfold ptok in G. destruct (strip_prefix w (w ++ t)); [reflexivity|discriminate].
Qed.
Lemma ptok_starts w s : starts_with w s = false -> ptok w s = None.
Proof. unfold starts_with, ptok. destruct (strip_prefix w s); [discriminate|reflexivity]. Qed.
Lemma starts_with_app w n c r : starts_with w (n ++ c :: r) = true -> contains_char c w = false -> starts_with w n = true.
Proof.
  rewrite !starts_with_iff. intros (t & E). revert n E; induction w as [|x w IH]; intros n E; [now exists n|]. cbn [contains_char]. intros Hc.
  apply orb_false_iff in Hc as [Hx Hc]. destruct n as [|y n]; cbn [app] in *.
  - injection E as -> _. now rewrite N.eqb_refl in Hx.
  - injection E as -> E. destruct (IH n E Hc) as (t' & ->). eauto.
Qed.
Lemma starts_with_more w n r : starts_with w n = true -> starts_with w (n ++ r) = true.
Proof. rewrite !starts_with_iff. intros (t & ->). exists (t ++ r). now rewrite app_assoc. Qed.

Lemma litval_none s : hd_not is_digit s = true -> hd_not (N.eqb 45) s = true -> hd_not (N.eqb c_sq) s = true ->
  value_word s = false -> g_litval s = None.
Proof.
  intros Hd Hm Hq Hw. unfold value_word in Hw. apply orb_false_iff in Hw as [Hw H3]. apply orb_false_iff in Hw as [H1 H2].
  destruct s as [|c s]; [reflexivity|]. cbn [hd_not] in *.
  destruct (num_none c s) as [N1 N2]; [now destruct (is_digit c)| |].
  { intros ->. discriminate Hm. }
  unfold g_litval. apply palt_r; [now apply pmap_none|]. apply palt_r; [now apply pmap_none|].
  apply palt_r.
  { apply pmap_none. unfold g_boolean. cbn [ptoks]. apply palt_r; [now apply pmap_none, ptok_starts|].
    apply palt_r; [now apply pmap_none, ptok_starts|]. reflexivity. }
  apply palt_r; [|now apply pmap_none, ptok_starts].
  apply pmap_none. unfold g_string_literal, g_quoted. rewrite N.eqb_sym. now destruct (c_sq =? c)%N.
Qed.

(** The first character of a value. *)
Definition value_start (c : N) : bool := expr_head c || (c =? 38)%N.
Definition starts_value (s : list N) : Prop := exists c r, s = c :: r /\ value_start c = true.
Lemma starts_value_expr s : starts_expr s -> starts_value s.
Proof. intros (c & r & -> & H). exists c, r. unfold value_start. now rewrite H. Qed.
Lemma starts_value_visible s : starts_value s -> visible s.
Proof. intros (c & r & -> & H). exists c, r. split; auto. unfold value_start, expr_head, is_sp in *. chars. Qed.
Lemma starts_value_not s rest (f : N -> bool) : starts_value s -> (forall c, value_start c = true -> f c = false) ->
  hd_not f (s ++ rest) = true.
Proof. intros (c & r & -> & Hc) Hf. cbn [app hd_not]. now rewrite Hf. Qed.

Lemma follow_num rest : expr_follow rest = true -> hd_not num_stop rest = true.
Proof. unfold expr_follow. intros H. bool_hyps. now apply lit_stop_num. Qed.
Lemma follow_colon rest : expr_follow rest = true -> hd_not (N.eqb 58) rest = true.
Proof. unfold expr_follow. intros H. bool_hyps. eapply hd_not_weaken; [|eassumption]. unfold lit_stop. intros c; cbv beta. chars. Qed.
Lemma follow_id rest : expr_follow rest = true -> hd_not is_idchar rest = true.
Proof. unfold expr_follow. intros H. bool_hyps. eapply hd_not_weaken; [|eassumption]. unfold lit_stop, type_stop. intros c; cbv beta. chars. Qed.
Lemma follow_digit rest : expr_follow rest = true -> hd_not is_digit rest = true.
Proof. unfold expr_follow. intros H. bool_hyps. eapply hd_not_weaken; [|eassumption]. unfold lit_stop, type_stop. intros c; cbv beta. chars. Qed.

Section Values.
  Context (U : Unicode) (F : Floats).
  Variable Hascii : ascii_sane U.
  Variables (op : options) (e : exts).
  Hypothesis W : wf_exts e.
  Hypothesis Hanc : op_anchors op <> VNever.
  Hypothesis Htyp : types_written op.

  Notation X := (fun x => expr_ok e x = true).
  Notation T := (fun t => type_ok e t = true).

  Definition xtext (v : xvalue) : list N := o_text (xvalue_out op e v).

  (** Values written like a literal without a type. *)
  Definition plain (v : xvalue) : option litval :=
    match v with
    | XString s => Some (LString s)
    | XInteger z => Some (LI64 z)
    | XFloat f => Some (LFp64 f)
    | XBoolean b => Some (LBool b)
    | XNull => Some (LNull (TSimple SBool NNullable 0))
    | _ => None
    end.
  Lemma plain_spec v l : value_writable e X v -> plain v = Some l ->
    value_ok e l false = true \/ (v = XNull).
  Proof.
    intros H E. inversion H; subst; try discriminate E; injection E as <-; auto; left; cbn [value_ok]; auto.
    - rewrite H0. reflexivity.
    - rewrite H0, H1. now rewrite N.eqb_refl.
  Qed.
  Lemma plain_text v l : plain v = Some l -> xtext v = o_text (litval_out op l).
  Proof. destruct v; try discriminate; intros [= <-]; reflexivity. Qed.

  Lemma litval_plain v l rest : value_writable e X v -> plain v = Some l -> hd_not num_stop rest = true ->
    g_litval (xtext v ++ rest) = Some (value_cst U F l, rest).
  Proof.
    intros H E Hr. rewrite (plain_text v l E). destruct (plain_spec v l H E) as [Hok| ->].
    - eapply g_litval_value; eauto.
    - injection E as <-. reflexivity.
  Qed.
  Lemma lower_plain v l : value_writable e X v -> plain v = Some l -> lower_parameter (value_cst U F l) = Ok v.
  Proof.
    intros H E. inversion H; subst; try discriminate E; injection E as <-; cbn [value_cst lower_parameter quoted_value]; auto.
    - destruct (C05_string_round_trip U s [] perr H0) as (t & G & Ht).
      assert (t = show_string s) as -> by (apply g_quoted_split in G as [S _]; now apply app_inv_tail in S).
      now rewrite Ht.
    - now rewrite parse_i64_show.
    - now rewrite H1.
    - destruct b; reflexivity.
  Qed.

  (** A text that is an expression to its end, or none. *)
  Definition all_or_none (t : list N) : Prop :=
    forall r, expr_follow r = true -> g_expr (t ++ r) = None \/ exists c, g_expr (t ++ r) = Some (c, r).

  (** What the induction provides for one value. *)
  Definition vback (v : xvalue) : Prop :=
    starts_value (xtext v) /\ all_or_none (xtext v) /\
    exists c, lower_xarg e c = Ok v /\ reads_to g_xarg (xtext v) c.

  Lemma plain_starts v l : value_writable e X v -> plain v = Some l -> starts_expr (xtext v).
  Proof.
    intros H E. rewrite (plain_text v l E). destruct (plain_spec v l H E) as [Hok| ->].
    - eapply litval_starts; eauto.
    - injection E as <-. eexists _, _; split; reflexivity.
  Qed.

  Lemma enum_none s : hd_not (N.eqb 38) s = true -> g_enum_value s = None.
  Proof. intros H. apply pthen_none, (ptok_none_hd [] 38%N). exact H. Qed.

  Lemma parameter_plain v l rest : value_writable e X v -> plain v = Some l -> expr_follow rest = true ->
    g_parameter_literal (xtext v ++ rest) = Some (value_cst U F l, rest).
  Proof.
    intros H E Hr. unfold g_parameter_literal. eapply pbind_some; [apply (litval_plain v l); auto using follow_num|].
    apply follow_colon in Hr.
    assert (N : ptok (L ":") rest = None) by (apply (ptok_none_hd [] 58%N); exact Hr).
    unfold pthen, pbind, pnot. rewrite N. reflexivity.
  Qed.

  Definition not_other (s : list N) : Prop :=
    g_if_then g_expr s = None /\ g_cast g_expr s = None /\ g_function_call g_expr s = None /\ g_reference s = None.
  Lemma not_other_head c s : lit_head c = true -> not_other (c :: s).
  Proof.
    intros Hc. unfold lit_head in Hc. repeat split.
    - apply pthen_none, (ptok_none_hd (L "f_then(") 105%N). cbn [hd_not]. destruct (N.eqb_spec 105 c); auto; subst; discriminate.
    - apply pthen_none, (ptok_none_hd [] 40%N). cbn [hd_not]. destruct (N.eqb_spec 40 c); auto; subst; discriminate.
    - unfold g_function_call, g_function_reference, g_function_signature. do 3 apply pbind_none.
      apply g_identifier_none. cbn [hd_not]. chars.
    - apply pthen_none, (ptok_none_hd [] 36%N). cbn [hd_not]. destruct (N.eqb_spec 36 c); auto; subst; discriminate.
  Qed.
  Lemma not_other_word w r : In w [L "true"; L "false"; L "null"] -> expr_follow r = true -> not_other (w ++ r).
  Proof.
    intros Hw Hr. assert (FC : g_function_call g_expr (w ++ r) = None).
    { apply function_call_none, no_call_app; [|unfold expr_follow in Hr; now bool_hyps].
      cbn [In] in Hw. destruct Hw as [<-|[<-|[<-|[]]]]; reflexivity. }
    cbn [In] in Hw. destruct Hw as [<-|[<-|[<-|[]]]]; repeat split; auto.
  Qed.
  Lemma plain_not_other v l r : value_writable e X v -> plain v = Some l -> expr_follow r = true -> not_other (xtext v ++ r).
  Proof.
    intros H E Hr. destruct (word_value l) eqn:Ew.
    - apply not_other_word; auto. destruct v; try discriminate E; injection E as <-; try discriminate Ew.
      + destruct b; cbn; auto.
      + cbn; auto.
    - destruct (plain_spec v l H E) as [Hok| ->]; [|injection E as <-; discriminate].
      destruct (value_head U F Hascii op e l false Hok Ew) as (c & s & Es & Hc).
      rewrite (plain_text v l E), Es. cbn [app]. now apply not_other_head.
  Qed.
  Lemma litexpr s c t r : not_other s -> g_literal s = Some ((c, t), r) -> g_expr s = Some (XLit (c, t), r).
  Proof.
    intros (H1 & H2 & H3 & H4) H. rewrite g_expr_eq. unfold expr_F. apply palt_r; [exact H1|]. apply palt_r; [exact H2|].
    apply palt_r; [now apply pmap_none|]. apply palt_r; [now apply pmap_none|]. now apply pmap_some.
  Qed.

  Lemma plain_back v l : value_writable e X v -> plain v = Some l -> vback v.
  Proof.
    intros H E. pose proof (plain_starts v l H E) as Hs. split; [now apply starts_value_expr|]. split.
    - intros r Hr. right. exists (XLit (value_cst U F l, None)). apply litexpr; [now apply plain_not_other with l|].
      unfold g_literal. eapply pbind_some; [apply (litval_plain v l); auto using follow_num|].
      eapply pbind_some; [|reflexivity]. apply popt_none, pthen_none, (ptok_none_hd [] 58%N). now apply follow_colon.
    - exists (VLit (value_cst U F l)). split; [now apply lower_plain|].
      intros r Hr. rewrite g_xarg_eq. unfold xarg_F. apply palt_r.
      + apply pmap_none, enum_none. apply starts_not; [exact Hs|]. intros c. unfold expr_head. chars.
      + apply palt_l, pmap_some. now apply parameter_plain.
  Qed.

  (** An expression among the arguments. *)
  Lemma xexpr_back x : expr_ok e x = true -> argument_expr e x -> vback (XExpr x).
  Proof.
    intros Hx Ha. destruct (expr_back U F Hascii op e W Hanc Htyp x Hx) as (Hs & c & Hc & G).
    assert (Et : xtext (XExpr x) = etext U F op e x) by reflexivity. unfold vback. rewrite Et.
    split; [now apply starts_value_expr|]. split; [intros r Hr; right; eauto|].
    assert (En : forall r, g_enum_value (etext U F op e x ++ r) = None).
    { intros r. apply enum_none, starts_not; [exact Hs|]. intros y. unfold expr_head. chars. }
    assert (K : forall r, expr_follow r = true -> g_parameter_literal (etext U F op e x ++ r) = None ->
      g_reference (etext U F op e x ++ r) = None -> g_xarg (etext U F op e x ++ r) = Some (VExpr c, r)).
    { intros r Hr N1 N2. rewrite g_xarg_eq. unfold xarg_F. apply palt_r; [now apply pmap_none|].
      apply palt_r; [now apply pmap_none|]. apply palt_r; [now apply pmap_none|]. apply palt_l, pmap_some. now apply G. }
    destruct x as [l|f|r args opts t|ifs els|b i t|v|]; try discriminate Hx.
    - exists (VExpr c). split; [cbn [lower_xarg]; now rewrite Hc|]. intros r Hr. cbn [expr_ok] in Hx. apply K; auto.
      + destruct l as [[v|] n var]; [|discriminate]. unfold literal_ok in Hx. cbn [l_type l_nullable l_var] in Hx.
        apply andb_true_iff in Hx as [Hok Hv]. apply N.eqb_eq in Hv as ->.
        assert (exists t, etext U F op e (ELit (mk_lit (Some v) n 0)) = o_text (litval_out op v) ++ L ":" ++ t) as (t & ->).
        { unfold etext. cbn [expr_out]. fold (ltext U F op e (mk_lit (Some v) n 0)).
          destruct (literal_text U F op e W v n Hok) as (t & Et' & [-> |(ty & _ & ->)]); [|eauto].
          exfalso. unfold ltext, literal_out in Et'. cbn [l_type l_nullable oapp o_text] in Et'.
          apply app_inv_head in Et'. cbn [argument_expr typed_literal l_type l_nullable] in Ha. unfold types_written in Htyp.
          destruct v; cbv zeta in Et'; try discriminate Et';
            destruct (op_literal_types op); try congruence; try discriminate Et';
            destruct Ha as [-> |Ha]; try discriminate; try (rewrite Ha in Et'); rewrite ?orb_true_r in Et'; discriminate Et'. }
        unfold g_parameter_literal. rewrite <- !app_assoc.
        eapply pbind_some; [eapply g_litval_value; [exact Hascii|exact Hok|reflexivity]|]. reflexivity.
      + apply (literal_not_other U F Hascii op e W l r Hx Hr).
    - destruct f as [[[i [ch|]| |]| |] []]; try discriminate Hx. exists (VRef (show_Z i)). split.
      { cbn [lower_xarg]. unfold field_index. cbn [expr_ok] in Hx. now rewrite parse_i32_show. }
      intros r Hr. rewrite g_xarg_eq. unfold xarg_F. apply palt_r; [now apply pmap_none|].
      apply palt_r; [reflexivity|]. apply palt_l, pmap_some.
      unfold etext. cbn [expr_out fieldref_out fr_root fr_ref txt o_text]. unfold ref_text. rewrite <- app_assoc.
      unfold g_reference. eapply pthen_some; [apply (ptok_app (L "$"))|]. apply g_integer_show_Z. now apply follow_digit.
    - exists (VExpr c). split; [cbn [lower_xarg]; now rewrite Hc|]. intros r' Hr.
      cbn [expr_ok] in Hx. destruct opts; [|discriminate]. destruct t as [t|]; [|discriminate]. bool_hyps. rename H into Hf.
      unfold function_ok in Hf. destruct (decl_get e KFunction r) as [[u n]|] eqn:Hd; [|discriminate]. bool_hyps.
      cbn [argument_expr] in Ha. specialize (Ha u n Hd).
      assert (exists t' : list N, etext U F op e (EFunc r args [] (Some t)) ++ r' = shown_name op e KFunction r n ++ t' /\ exists (q : N) (s : list N), t' = q :: s /\ (q = 35%N \/ q = 40%N)) as (t' & Et' & q & s & -> & Hq).
      { pose proof (call_out_text op e W r (map (arg_out op e) args) t u n Hd) as Ec.
        change (etext U F op e (EFunc r args [] (Some t)) = call_text op e (shown_name op e KFunction r n)
          (shown_anchor op e KFunction r n) (map o_text (map (arg_out op e) args)) t) in Ec. rewrite Ec. unfold call_text.
        rewrite <- !app_assoc. eexists. split; [reflexivity|].
        destruct (shown_anchor op e KFunction r n); eexists _, _; (split; [reflexivity|]); auto. }
      assert (Hn : fn_name_ok (shown_name op e KFunction r n) = true) by now apply shown_fn_ok.
      assert (Hw : value_word (shown_name op e KFunction r n ++ q :: s) = false).
      { assert (V : forall w, contains_char q w = false -> starts_with w n = false -> starts_with w (shown_name op e KFunction r n ++ q :: s) = false).
        { intros w Hw1 Hw2. destruct (starts_with w (shown_name op e KFunction r n ++ q :: s)) eqn:E; [|reflexivity].
          apply starts_with_app in E; [|exact Hw1]. rewrite <- Hw2. symmetry.
          assert (exists z, n = shown_name op e KFunction r n ++ z) as (z & Ez).
          { unfold shown_name. assert (exists z, n = cn_base n ++ z) as B.
            { unfold cn_base. destruct (split_at_char c_colon n) as [[x y]|] eqn:Es; [|exists []; now rewrite app_nil_r].
              apply split_at_char_spec in Es as [Es _]. eauto. }
            destruct (op_anchors op), (base_uniq e KFunction r n); auto; exists []; now rewrite app_nil_r. }
          rewrite Ez. now apply starts_with_more. }
        unfold value_word in *. apply orb_false_iff in Ha as [Ha A3]. apply orb_false_iff in Ha as [A1 A2].
        rewrite !V; auto; destruct Hq as [-> | ->]; reflexivity. }
      destruct (fn_name_alpha _ Hn) as (ch & w & Ew & Hch).
      apply K; auto; rewrite Et'.
      + unfold g_parameter_literal. apply pbind_none. apply litval_none; auto; rewrite Ew; cbn [app hd_not]; chars.
      + apply pthen_none, (ptok_none_hd [] 36%N). rewrite Ew. cbn [app hd_not]. chars.
    - exists (VExpr c). split; [cbn [lower_xarg]; now rewrite Hc|]. intros r Hr. apply K; auto.
    - exists (VExpr c). split; [cbn [lower_xarg]; now rewrite Hc|]. intros r Hr. apply K; auto.
  Qed.

  Lemma enum_back s : is_identifier s = true -> vback (XEnum s).
  Proof.
    intros Hs. assert (Et : xtext (XEnum s) = L "&" ++ s) by reflexivity. unfold vback. rewrite Et.
    split; [eexists _, _; split; reflexivity|]. split.
    - intros r _. left. now apply expr_none.
    - exists (VEnum s). split; [reflexivity|]. intros r Hr. rewrite g_xarg_eq. unfold xarg_F. apply palt_l, pmap_some.
      unfold g_enum_value. rewrite <- app_assoc. eapply pthen_some; [apply (ptok_app (L "&"))|].
      apply g_identifier_app; auto using follow_id.
  Qed.

  Lemma vitem v : vback v -> exists c, lower_xarg e c = Ok v /\ item g_xarg (xtext v) c.
  Proof. intros (Hs & _ & c & Hc & G). exists c. split; auto. split; auto. now apply starts_value_visible. Qed.

  Lemma vitems l : Forall vback l ->
    exists cs, rlist (lower_xarg e) cs = Ok l /\ Forall2 (item g_xarg) (map xtext l) cs.
  Proof.
    induction 1 as [|v l Hv _ (cs & Hc & G)]; [exists []; split; constructor|].
    destruct (vitem v Hv) as (c & Hc1 & G1). exists (c :: cs). cbn [rlist]. rewrite Hc1. cbn [rbind]. rewrite Hc.
    split; [reflexivity|]. now constructor.
  Qed.

  Lemma tuple_text l : xtext (XTuple l) =
    L "(" ++ join (L ", ") (map xtext l) ++ (match l with [_] => L "," | _ => [] end) ++ L ")".
  Proof.
    unfold xtext at 1. cbn [xvalue_out]. rewrite !o_text_app, osep_text, map_map. reflexivity.
  Qed.

  Lemma tuple_back l : Forall vback l -> vback (XTuple l).
  Proof.
    intros H. unfold vback. rewrite tuple_text. split; [eexists _, _; split; reflexivity|].
    assert (EN : forall r, expr_follow r = true ->
      g_expr ((L "(" ++ join (L ", ") (map xtext l) ++ (match l with [_] => L "," | _ => [] end) ++ L ")") ++ r) = None).
    { intros r Hr. rewrite <- !app_assoc. rewrite g_expr_eq. unfold expr_F. apply palt_r; [reflexivity|].
      apply palt_r; [|repeat (apply palt_r; [reflexivity|]); reflexivity].
      unfold g_cast. eapply pthen_some; [apply (ptok_app (L "("))|].
      destruct l as [|v l].
      - cbn [map join app]. eapply pthen_some; [apply sp_none; reflexivity|]. apply pbind_none. now apply expr_none.
      - inversion_clear H as [|? ? (Hs & Ha & _) _]. rewrite map_cons, join_cons, <- app_assoc.
        eapply pthen_some; [apply sp_none; apply visible_sp, starts_value_visible, Hs|].
        match goal with |- _ (xtext v ++ ?t) = _ => assert (Ht : exists z, t = 44%N :: z); [destruct l as [|v' l]; eexists; reflexivity|];
          destruct Ht as (z & Ez); rewrite Ez end.
        destruct (Ha (44%N :: z)) as [N|(c & N)]; [reflexivity|now apply pbind_none|].
        eapply pbind_some; [exact N|]. reflexivity. }
    split; [intros r Hr; left; now apply EN|].
    destruct (vitems l H) as (cs & Hc & G). exists (VTuple cs). split.
    { cbn [lower_xarg]. rewrite Hc. reflexivity. }
    intros r Hr. rewrite g_xarg_eq. unfold xarg_F. apply palt_r; [reflexivity|]. apply palt_r; [reflexivity|].
    apply palt_r; [reflexivity|]. apply palt_r; [now apply pmap_none, EN|]. apply pmap_some. clear EN.
    rewrite <- !app_assoc. unfold g_tuple.
    destruct l as [|v l].
    - inversion G; subst. apply palt_l. reflexivity.
    - inversion_clear H as [|? ? (Hs & _ & _) Hl]. cbn [map] in *. inversion G as [|? c ? cs' [Hv Gv] Gl]; subst. clear G.
      apply palt_r.
      { eapply pthen_some; [apply (ptok_app (L "("))|]. rewrite join_cons, <- !app_assoc.
        eapply pthen_some; [apply sp_none; now apply visible_sp|]. apply pthen_none, (ptok_none_hd [] 41%N).
        apply starts_value_not; [exact Hs|]. intros y; unfold value_start, expr_head; chars. }
      destruct l as [|v' l].
      + inversion Gl; subst. apply palt_l. eapply pthen_some; [apply (ptok_app (L "("))|]. cbn [map join].
        eapply pthen_some; [apply sp_none; now apply visible_sp|].
        eapply pbind_some; [now apply Gv|]. reflexivity.
      + rewrite join_cons, <- !app_assoc. apply palt_r.
        { eapply pthen_some; [apply (ptok_app (L "("))|].
          eapply pthen_some; [apply sp_none; now apply visible_sp|].
          eapply pbind_some; [now apply Gv|]. cbn [map concat]. rewrite <- !app_assoc.
          inversion_clear Hl as [|? ? (Hs' & _ & _) _].
          eapply pthen_some; [apply sp_none; reflexivity|].
          eapply pthen_some; [apply (ptok_app (L ",") (c_sp :: xtext v' ++ _))|].
          eapply pthen_some; [apply sp_one; now apply visible_sp, starts_value_visible|].
          apply pthen_none, (ptok_none_hd [] 41%N). apply starts_value_not; [exact Hs'|].
          intros y; unfold value_start, expr_head; chars. }
        eapply pthen_some; [apply (ptok_app (L "("))|].
        eapply pthen_some; [apply sp_none; now apply visible_sp|].
        eapply pbind_some; [now apply Gv|].
        cbn [map] in *. inversion Gl as [|? c' ? cs'' [Hv' Gv'] Gl']; subst. cbn [map concat]. rewrite <- !app_assoc.
        eapply pbind_some with (a := c' :: cs'') (r := L ")" ++ r).
        { unfold pplus. eapply pbind_some.
          - eapply pthen_some; [apply comma_sp_like; exact Hv'|]. apply Gv'. destruct l; reflexivity.
          - eapply pbind_some; [apply pstar_reads; [apply strict_xarg|apply comma_sp_like|exact Gl'|reflexivity|reflexivity]|].
            reflexivity. }
        reflexivity.
  Qed.

  Theorem value_back v : value_writable e X v -> vback v.
  Proof.
    revert v. apply (xvalue_ind2 (fun v => value_writable e X v -> vback v));
      try (intros; eapply plain_back; [eassumption|reflexivity]).
    - intros x H. inversion H.
    - intros x H. inversion H; subst. now apply xexpr_back.
    - intros s H. inversion H; subst. now apply enum_back.
    - intros l IH H. inversion H as [| | | | | | |l' Hl]; subst. apply tuple_back.
      rewrite Forall_forall in *. auto.
  Qed.

  (** ** Named arguments *)

  Definition ntext (p : list N * xvalue) : list N := fst p ++ L "=" ++ xtext (snd p).
  Lemma named_text p : o_text (xnamed_out op e p) = ntext p.
  Proof. unfold xnamed_out, ntext. rewrite o_text_app. cbn [o_text txt]. now rewrite <- app_assoc. Qed.

  Lemma ident_head n : is_identifier n = true -> exists c r, n = c :: r /\ is_alpha c = true.
  Proof. destruct n as [|c r]; [discriminate|]. cbn [is_identifier]. intros H; bool_hyps. eauto. Qed.
  Lemma ident_chars n : is_identifier n = true -> forallb is_idchar n = true.
  Proof.
    destruct n as [|c r]; [discriminate|]. cbn [is_identifier forallb]. intros H; bool_hyps. rewrite H0, andb_true_r. unfold is_idchar, is_alnum. now rewrite H.
  Qed.

  (** A name with a value is not an argument by itself. *)
  Lemma named_not_arg n s : is_identifier n = true -> value_word n = false -> g_xarg (n ++ 61%N :: s) = None.
  Proof.
    intros Hn Hw. destruct (ident_head n Hn) as (c & r & En & Hc). pose proof (ident_chars n Hn) as Hid.
    assert (Hw' : value_word (n ++ 61%N :: s) = false).
    { assert (V : forall w, contains_char 61 w = false -> starts_with w n = false -> starts_with w (n ++ 61%N :: s) = false).
      { intros w H1 H2. destruct (starts_with w (n ++ 61%N :: s)) eqn:E; auto. apply starts_with_app in E; congruence. }
      unfold value_word in *. apply orb_false_iff in Hw as [Hw A3]. apply orb_false_iff in Hw as [A1 A2].
      rewrite !V; auto. }
    assert (Hlit : g_litval (n ++ 61%N :: s) = None).
    { apply litval_none; auto; rewrite En; cbn [app hd_not]; chars. }
    assert (T : forall x t, is_alpha x = false -> ptok (x :: t) (n ++ 61%N :: s) = None).
    { intros x t Hx. apply ptok_none_hd. rewrite En. cbn [app hd_not]. destruct (N.eqb_spec x c); auto; subst; congruence. }
    rewrite g_xarg_eq. unfold xarg_F. apply palt_r; [apply pmap_none, pthen_none, T; reflexivity|].
    apply palt_r; [now apply pmap_none, pbind_none|]. apply palt_r; [apply pmap_none, pthen_none, T; reflexivity|].
    apply palt_r.
    - apply pmap_none. rewrite g_expr_eq. unfold expr_F.
      apply palt_r.
      { apply pthen_none, ptok_starts. destruct (starts_with (L "if_then(") (n ++ 61%N :: s)) eqn:E; auto.
        apply starts_with_app in E; [|reflexivity]. apply starts_with_iff in E as (t & ->). rewrite forallb_app in Hid. discriminate Hid. }
      apply palt_r; [apply pthen_none, T; reflexivity|].
      apply palt_r.
      { apply pmap_none, function_call_none. rewrite span_fr_split; [reflexivity|].
        eapply forallb_impl; [|exact Hid]. unfold fr_char. intros y Hy. now rewrite Hy. }
      apply palt_r; [apply pmap_none, pthen_none, T; reflexivity|]. now apply pmap_none, pbind_none.
    - apply pmap_none. unfold g_tuple. repeat (apply palt_r; [apply pthen_none, T; reflexivity|]). apply pthen_none, T; reflexivity.
  Qed.

  Lemma named_back p : named_writable e X p ->
    exists c, lower_xnamed e c = Ok p /\ item g_xnamed (ntext p) c.
  Proof.
    intros (Hn & Hw & Hv). destruct p as [n v]. cbn [fst snd] in *. destruct (value_back v Hv) as (Hs & _ & c & Hc & G).
    exists (NIdent n, c). split; [unfold lower_xnamed; cbn [fst snd lower_name rbind]; now rewrite Hc|].
    destruct (ident_head n Hn) as (x & r & En & Hx). split.
    - unfold ntext. cbn [fst]. apply visible_app. exists x, r. split; auto. unfold is_sp. chars.
    - intros rest Hr. unfold ntext, g_xnamed. cbn [fst snd]. rewrite <- !app_assoc.
      eapply pbind_some; [unfold g_name; apply palt_l, pmap_some; now apply g_identifier_app|].
      eapply pthen_some; [apply sp_none; reflexivity|].
      eapply pthen_some; [apply (ptok_app (L "="))|].
      eapply pthen_some; [apply sp_none; now apply visible_sp, starts_value_visible|].
      eapply pbind_some; [now apply G|]. reflexivity.
  Qed.

  Lemma named_items l : Forall (named_writable e X) l ->
    exists cs, rlist (lower_xnamed e) cs = Ok l /\ Forall2 (item g_xnamed) (map ntext l) cs.
  Proof.
    induction 1 as [|v l Hv _ (cs & Hc & G)]; [exists []; split; constructor|].
    destruct (named_back v Hv) as (c & Hc1 & G1). exists (c :: cs). cbn [rlist]. rewrite Hc1. cbn [rbind]. rewrite Hc.
    split; [reflexivity|]. now constructor.
  Qed.

  (** ** Argument lists *)

  Definition arglist_text (p : list xvalue) (n : list (list N * xvalue)) : list N :=
    match p, n with
    | [], [] => L "_"
    | _, _ => join (L ", ") (map xtext p ++ map ntext n)
    end.

  Lemma imap_insert_fresh {V} k (v : V) m : ~ In k (map fst m) -> imap_insert k v m = m ++ [(k, v)].
  Proof.
    induction m as [|[k' v'] m IH]; cbn [imap_insert map fst In app]; [reflexivity|]. intros H.
    destruct (streqb k k') eqn:E; [apply streqb_eq in E; subst; tauto|]. rewrite IH by tauto. reflexivity.
  Qed.
  Lemma imap_inserts (l m : list (list N * xvalue)) : NoDup (map fst (m ++ l)) ->
    fold_left (fun m kv => imap_insert (fst kv) (snd kv) m) l m = m ++ l.
  Proof.
    revert m; induction l as [|[k v] l IH]; intros m H; cbn [fold_left fst snd]; [now rewrite app_nil_r|].
    rewrite imap_insert_fresh.
    - rewrite IH; rewrite <- app_assoc; [reflexivity|exact H].
    - rewrite map_app in H. cbn [map fst] in H. apply NoDup_remove_2 in H. intros Hin. apply H. apply in_or_app. now left.
  Qed.

  Lemma join_app_ne sep a b : a <> [] -> b <> [] -> join sep (a ++ b) = join sep a ++ sep ++ join sep b.
  Proof.
    intros Ha Hb. induction a as [|x a IH]; [congruence|]. destruct a as [|y a].
    - destruct b; [congruence|]. reflexivity.
    - change (join sep ((x :: y :: a) ++ b)) with (x ++ sep ++ join sep ((y :: a) ++ b)). rewrite IH by discriminate.
      change (join sep (x :: y :: a)) with (x ++ sep ++ join sep (y :: a)). now rewrite <- !app_assoc.
  Qed.

  Lemma strict_xnamed : strict g_xnamed.
  Proof. unfold g_xnamed. peg_shrink. Qed.

  Theorem arglist_back p n : Forall (value_writable e X) p -> Forall (named_writable e X) n -> NoDup (map fst n) ->
    exists c, lower_xargs e c = Ok (mk_xargs p n []) /\ visible (arglist_text p n) /\
      forall rest, expr_follow rest = true -> (forall A (q : peg A), pthen comma_sp q rest = None) ->
        g_xargs (arglist_text p n ++ rest) = Some (c, rest).
  Proof.
    intros Hp Hn Hd.
    assert (Hp' : Forall vback p) by (eapply Forall_impl; [|exact Hp]; apply value_back).
    destruct (vitems p Hp') as (ps & Lp & Gp). destruct (named_items n Hn) as (ns & Ln & Gn).
    exists (ps, ns). split.
    { unfold lower_xargs. cbn [fst snd]. rewrite Lp. cbn [rbind]. rewrite Ln. cbn [rbind]. f_equal. f_equal. now apply (imap_inserts n []). }
    assert (EM : forall v t, starts_value v -> g_empty (v ++ t) = None).
    { intros v t Hv. apply (ptok_none_hd [] 95%N). apply starts_value_not; [exact Hv|]. intros y; unfold value_start, expr_head; chars. }
    destruct p as [|v p]; [destruct n as [|m n]|].
    - inversion Gp; inversion Gn; subst. split; [eexists _, _; split; reflexivity|]. intros rest Hr Hend. reflexivity.
    - inversion Gp; subst. cbn [arglist_text map app]. change (ntext m :: map ntext n) with (map ntext (m :: n)). split.
      { cbn [map]. rewrite join_cons. apply visible_app. inversion_clear Gn as [|? ? ? ? [Hv _] _]. exact Hv. }
      intros rest Hr Hend. inversion_clear Hn as [|? ? (Hm1 & Hm2 & Hm3) _]. unfold g_xargs.
      assert (Em : exists s, join (L ", ") (map ntext (m :: n)) ++ rest = fst m ++ 61%N :: s).
      { cbn [map]. rewrite join_cons. unfold ntext at 1. rewrite <- !app_assoc. eexists. reflexivity. }
      destruct Em as (s & Em).
      apply palt_r.
      { apply pmap_none. rewrite Em. destruct (ident_head _ Hm1) as (ch & w & Ex & Hx). rewrite Ex.
        apply (ptok_none_hd [] 95%N). cbn [app hd_not]. chars. }
      apply palt_r.
      { unfold psep1. do 2 apply pbind_none. rewrite Em. now apply named_not_arg. }
      apply palt_l, pmap_some. apply psep1_reads; auto using comma_sp_like. apply strict_xnamed. discriminate.
    - cbn [arglist_text]. destruct (Forall_inv Hp') as (Hs & _ & _). split.
      { cbn [map app]. rewrite join_cons. apply visible_app. now apply starts_value_visible. }
      intros rest Hr Hend. unfold g_xargs. apply palt_r.
      { apply pmap_none. cbn [map app]. rewrite join_cons, <- app_assoc. now apply EM. }
      apply palt_l. destruct n as [|m n].
      + inversion Gn; subst. cbn [map]. rewrite app_nil_r. change (xtext v :: map xtext p) with (map xtext (v :: p)).
        eapply pbind_some.
        { apply psep1_reads; [apply strict_xarg|apply comma_sp_like|discriminate|exact Gp|exact Hr|apply Hend]. }
        eapply pbind_some; [apply popt_none, Hend|]. reflexivity.
      + inversion_clear Hn as [|? ? (Hm1 & Hm2 & Hm3) _].
        rewrite join_app_ne by discriminate. rewrite <- !app_assoc.
        assert (Em : exists s, join (L ", ") (map ntext (m :: n)) ++ rest = fst m ++ 61%N :: s).
        { cbn [map]. rewrite join_cons. unfold ntext at 1. rewrite <- !app_assoc. eexists. reflexivity. }
        assert (Vm : visible (join (L ", ") (map ntext (m :: n)))).
        { cbn [map]. rewrite join_cons. apply visible_app. inversion_clear Gn as [|? ? ? ? [Hv _] _]. exact Hv. }
        destruct Em as (s & Em).
        eapply pbind_some.
        { apply psep1_reads; [apply strict_xarg|apply comma_sp_like|discriminate|exact Gp|reflexivity|].
          eapply pthen_some; [now apply comma_sp_like|]. rewrite Em. now apply named_not_arg. }
        eapply pbind_some.
        { apply popt_some. eapply pthen_some; [now apply comma_sp_like|].
          apply psep1_reads; [apply strict_xnamed|apply comma_sp_like|discriminate|exact Gn|exact Hr|apply Hend]. }
        reflexivity.
  Qed.

  (** ** Columns *)

  Definition ctext (c : xcolumn) : list N := o_text (xcolumn_out op e c).
  Lemma show_name_visible n : visible (show_name n).
  Proof.
    unfold show_name. destruct (is_identifier n) eqn:E.
    - destruct (ident_head n E) as (c & r & -> & Hc). exists c, r. split; auto. unfold is_sp. chars.
    - eexists _, _; split; reflexivity.
  Qed.

  Lemma named_column_back n t : name_ok n -> type_ok e t = true ->
    exists c, lower_name (fst c) = @Ok perr _ n /\ lower_type e (snd c) = Ok t /\
      item g_named_column (show_name n ++ L ":" ++ ttext op e t) c.
  Proof.
    intros Hn Ht. destruct (type_round_trip op e t W Hanc Ht) as (ct & Hct & G). exists (nm_of n, ct). cbn [fst snd].
    split; [now apply lower_nm_of|]. split; [exact Hct|]. split; [apply visible_app, show_name_visible|].
    intros r Hr. unfold g_named_column. rewrite <- !app_assoc. eapply pbind_some; [now apply g_name_show|].
    eapply pthen_some; [apply (ptok_app (L ":"))|]. eapply pbind_some; [apply G; now apply (follow_type r)|]. reflexivity.
  Qed.

  (** A column that is an expression is not taken for a named one. *)
  Lemma column_expr_not_named x r : expr_ok e x = true -> column_expr e x -> g_named_column (etext U F op e x ++ r) = None.
  Proof.
    intros Hx Hc. unfold g_named_column.
    assert (Q : forall c s, is_alpha c = false -> c <> c_dq -> g_name (c :: s) = None).
    { intros c s H1 H2. unfold g_name. apply palt_r; apply pmap_none; [apply g_identifier_none; cbn [hd_not]; now rewrite H1|].
      unfold g_quoted_name, g_quoted. destruct (N.eqb_spec c c_dq); [contradiction|reflexivity]. }
    destruct x as [l|f|g args opts t|ifs els|b i t|v|]; try discriminate Hx.
    - cbn [expr_ok] in Hx. destruct l as [[v|] n var]; [|discriminate]. unfold literal_ok in Hx. cbn [l_type l_nullable l_var] in Hx.
      apply andb_true_iff in Hx as [Hok Hv]. apply N.eqb_eq in Hv as ->.
      assert (Hw : word_value v = false) by (cbn [column_expr l_type] in Hc; destruct v; try contradiction; reflexivity).
      destruct (value_head U F Hascii op e v n Hok Hw) as (c & s & Es & Hh).
      unfold etext. cbn [expr_out]. fold (ltext U F op e (mk_lit (Some v) n 0)).
      destruct (literal_text U F op e W v n Hok) as (t & -> & _). rewrite Es. apply pbind_none. cbn [app]. unfold lit_head in Hh.
      apply Q; [chars|]. intros ->. discriminate Hh.
    - destruct f as [[[i [ch|]| |]| |] []]; try discriminate Hx. apply pbind_none. now apply Q.
    - cbn [expr_ok] in Hx. destruct opts; [|discriminate]. destruct t as [t|]; [|discriminate]. bool_hyps. rename H into Hf.
      unfold function_ok in Hf. destruct (decl_get e KFunction g) as [[u n]|] eqn:Hd; [|discriminate]. bool_hyps.
      cbn [column_expr] in Hc. specialize (Hc u n Hd).
      pose proof (call_out_text op e W g (map (arg_out op e) args) t u n Hd) as Ec.
      change (etext U F op e (EFunc g args [] (Some t)) = call_text op e (shown_name op e KFunction g n)
          (shown_anchor op e KFunction g n) (map o_text (map (arg_out op e) args)) t) in Ec. rewrite Ec. unfold call_text.
      assert (shown_name op e KFunction g n = n) as ->.
      { unfold shown_name. rewrite (cn_base_id n Hc). destruct (op_anchors op), (base_uniq e KFunction g n); reflexivity. }
      assert (Hi : is_identifier n = true).
      { unfold fn_name_ok in H. apply split_at_char_none in Hc. now rewrite Hc in H. }
      rewrite <- !app_assoc. eapply pbind_some.
      { unfold g_name. apply palt_l, pmap_some. apply g_identifier_app; auto. destruct (shown_anchor op e KFunction g n); reflexivity. }
      destruct (shown_anchor op e KFunction g n); reflexivity.
    - cbn [expr_ok] in Hx. destruct ifs as [|i ifs]; [discriminate|].
      assert (exists s, etext U F op e (EIf (i :: ifs) els) ++ r = L "if_then" ++ 40%N :: s) as (s & ->).
      { unfold etext. cbn [expr_out]. rewrite !o_text_app, <- !app_assoc. eexists. reflexivity. }
      eapply pbind_some; [unfold g_name; apply palt_l, pmap_some; apply g_identifier_app; reflexivity|]. reflexivity.
    - apply pbind_none. assert (exists s, etext U F op e (ECast b i t) ++ r = 40%N :: s) as (s & ->).
      { unfold etext. cbn [expr_out]. rewrite !o_text_app, <- !app_assoc. eexists. reflexivity. }
      now apply Q.
  Qed.

  Lemma reference_reads i : reads_to g_reference (ref_text i) (show_Z i).
  Proof.
    intros r Hr. unfold ref_text, g_reference. rewrite <- app_assoc. eapply pthen_some; [apply (ptok_app (L "$"))|].
    apply g_integer_show_Z. now apply follow_digit.
  Qed.

  Lemma reference_or_not x : expr_ok e x = true ->
    (exists i, x = ESel (field_reference i) /\ in_range i32_min i32_max i = true) \/
    (is_reference x = false /\ forall r, expr_follow r = true -> g_reference (etext U F op e x ++ r) = None).
  Proof.
    intros Hx. destruct x as [l|f|g args opts t|ifs els|b i t|v|]; try discriminate Hx.
    - right. split; [reflexivity|]. intros r Hr. apply (literal_not_other U F Hascii op e W l r Hx Hr).
    - left. destruct f as [[[i [ch|]| |]| |] []]; try discriminate Hx. exists i. split; [reflexivity|exact Hx].
    - right. split; [reflexivity|]. intros r Hr. cbn [expr_ok] in Hx. destruct opts; [|discriminate]. destruct t as [t|]; [|discriminate].
      bool_hyps. rename H into Hf. unfold function_ok in Hf. destruct (decl_get e KFunction g) as [[u n]|] eqn:Hd; [|discriminate]. bool_hyps.
      pose proof (call_out_text op e W g (map (arg_out op e) args) t u n Hd) as Ec.
      change (etext U F op e (EFunc g args [] (Some t)) = call_text op e (shown_name op e KFunction g n)
          (shown_anchor op e KFunction g n) (map o_text (map (arg_out op e) args)) t) in Ec. rewrite Ec. unfold call_text.
      assert (Hn : fn_name_ok (shown_name op e KFunction g n) = true) by now apply shown_fn_ok.
      destruct (fn_name_alpha _ Hn) as (ch & w & -> & Hch). apply pthen_none, (ptok_none_hd [] 36%N). cbn [app hd_not]. chars.
    - right. split; [reflexivity|]. intros r Hr. reflexivity.
    - right. split; [reflexivity|]. intros r Hr. reflexivity.
  Qed.

  Theorem column_back c : column_writable e X T c ->
    exists k, lower_xcolumn e k = Ok c /\ item g_xcolumn (ctext c) k.
  Proof.
    destruct c as [n t|x]; cbn [column_writable].
    - intros [Hn Ht]. destruct (named_column_back n t Hn Ht) as (k & K1 & K2 & Hv & G). destruct k as [kn kt]. cbn [fst snd] in *.
      exists (KNamed (kn, kt)). split; [cbn [lower_xcolumn]; rewrite K1; cbn [rbind]; now rewrite K2|].
      assert (Et : ctext (XNamed n t) = show_name n ++ L ":" ++ ttext op e t).
      { unfold ctext. cbn [xcolumn_out]. rewrite o_text_app. cbn [o_text txt]. now rewrite <- app_assoc. }
      rewrite Et. split; [exact Hv|]. intros r Hr. unfold g_xcolumn. apply palt_l, pmap_some. now apply G.
    - intros [Hx Hc]. destruct (expr_back U F Hascii op e W Hanc Htyp x Hx) as (Hs & k & Hk & G).
      assert (Et : ctext (XColExpr x) = etext U F op e x) by reflexivity. rewrite Et.
      pose proof (starts_value_visible _ (starts_value_expr _ Hs)) as Hv.
      destruct (reference_or_not x Hx) as [(i & -> & Hi)|[_ R]].
      + exists (KRef (show_Z i)). split; [cbn [lower_xcolumn]; unfold field_index; now rewrite parse_i32_show|].
        split; [exact Hv|]. intros r Hr. unfold g_xcolumn. apply palt_r; [apply pmap_none; now apply column_expr_not_named|].
        apply palt_l, pmap_some. now apply (reference_reads i r).
      + exists (KExpr k). split; [cbn [lower_xcolumn]; now rewrite Hk|]. split; [exact Hv|].
        intros r Hr. unfold g_xcolumn. apply palt_r; [apply pmap_none; now apply column_expr_not_named|].
        apply palt_r; [now apply pmap_none, R|]. apply pmap_some. now apply G.
  Qed.
End Values.
