(** What the text does not depend on. *)
From Coq Require Import String List NArith ZArith Bool Lia.
From Verif Require Import Base BaseFacts Names SimpleExt Out Anchors Types TypesFacts Calendar Literals
  Exprs ExprsFacts ExtArgs Registry Rels Plan Structural SpecRels OutClosed SpecOptions.
Import ListNotations.
Local Open Scope string_scope.
Local Open Scope list_scope.
Local Open Scope nat_scope.

Section Agree.
  Context (U : Unicode) (F : Floats).
  Variables (reg : registry) (op op' : options).
  Hypothesis Hanc : op_anchors op = op_anchors op'.
  Hypothesis Htyp : op_literal_types op = op_literal_types op'.
  Hypothesis Hbin : op_binaries op = op_binaries op'.

  Lemma same_ref e k a : ref_out op e k a = ref_out op' e k a.
  Proof. unfold ref_out, na_out, anchor_out. now rewrite Hanc. Qed.
  Lemma same_var e v : var_out op e v = var_out op' e v.
  Proof. unfold var_out. now rewrite same_ref. Qed.
  Lemma same_textify e n nu v l : textify_type op e n nu v l = textify_type op' e n nu v l.
  Proof. unfold textify_type. now rewrite same_var. Qed.
  Lemma same_user e r n v l : user_out op e r n v l = user_out op' e r n v l.
  Proof. unfold user_out. now rewrite same_var, same_ref. Qed.
  Lemma same_type e t : type_out op e t = type_out op' e t.
  Proof.
    revert t. apply (ptype_ind2 (fun t => type_out op e t = type_out op' e t) (fun p => param_out op e p = param_out op' e p));
      cbn [type_out param_out]; intros; rewrite ?same_textify, ?same_user; auto.
    - f_equal. now apply map_ext_Forall.
    - destruct t as [t|]; [|reflexivity]. now rewrite (H t eq_refl).
    - destruct a as [a|], b as [b|]; rewrite ?(H a eq_refl), ?(H0 b eq_refl); reflexivity.
    - f_equal. now apply map_ext_Forall.
  Qed.
  Lemma same_litval v : litval_out op v = litval_out op' v.
  Proof. destruct v; cbn [litval_out]; auto. unfold binary_text. now rewrite Hbin. Qed.
  Lemma same_literal e l : literal_out op e l = literal_out op' e l.
  Proof. unfold literal_out. destruct (l_type l) as [v|]; auto. rewrite same_litval, Htyp. destruct v; auto. now rewrite same_type. Qed.
  Lemma same_output e t : output_type_out op e t = output_type_out op' e t.
  Proof. destruct t; cbn [output_type_out]; auto. now rewrite same_type. Qed.
  Lemma same_invocation e r l os : invocation_out op e r l os = invocation_out op' e r l os.
  Proof. unfold invocation_out. now rewrite same_ref. Qed.
  Lemma same_expr_arg e : (forall x, expr_out op e x = expr_out op' e x) /\ (forall a, arg_out op e a = arg_out op' e a).
  Proof.
    assert (forall x, expr_out op e x = expr_out op' e x) as H.
    { apply (pexpr_ind2 (fun x => expr_out op e x = expr_out op' e x) (fun a => arg_out op e a = arg_out op' e a));
        cbn [expr_out arg_out]; intros; auto using same_literal, same_type.
      - rewrite same_invocation, same_output. do 2 f_equal. now apply map_ext_Forall.
      - do 2 f_equal.
        + f_equal. apply map_ext_Forall. eapply Forall_impl; [|exact H]. intros c [H1 H2].
          destruct (fst c), (snd c); cbn [opt_all] in *; rewrite ?H1, ?H2; reflexivity.
        + do 2 f_equal. destruct els; cbn [opt_all] in *; rewrite ?H0; reflexivity.
      - do 2 f_equal; [destruct i; cbn [opt_all] in *; rewrite ?H; reflexivity|]. do 2 f_equal. destruct t; cbn [oexpect]; auto. apply same_type. }
    split; auto. intros []; cbn [arg_out]; auto using same_type.
  Qed.
  Lemma same_expr e x : expr_out op e x = expr_out op' e x. Proof. apply same_expr_arg. Qed.
  Lemma same_exprs e l : map (expr_out op e) l = map (expr_out op' e) l.
  Proof. apply map_ext, same_expr. Qed.
  Lemma same_aggfn e a : aggfn_out op e a = aggfn_out op' e a.
  Proof.
    unfold aggfn_out. rewrite same_invocation, same_output. do 2 f_equal. apply map_ext, same_expr_arg.
  Qed.
  Lemma same_xvalue e v : xvalue_out op e v = xvalue_out op' e v.
  Proof.
    revert v. apply (xvalue_ind2 (fun v => xvalue_out op e v = xvalue_out op' e v)); cbn [xvalue_out]; intros; auto using same_expr.
    do 3 f_equal. now apply map_ext_Forall.
  Qed.
  Lemma same_xcolumn e c : xcolumn_out op e c = xcolumn_out op' e c.
  Proof. destruct c; cbn [xcolumn_out]; [now rewrite same_type|apply same_expr]. Qed.
  Lemma same_xargs e a : xargs_out op e a = xargs_out op' e a.
  Proof.
    unfold xargs_out, xarglist_out. rewrite !(map_ext _ _ (same_xvalue e)).
    rewrite !(map_ext (xnamed_out op e) (xnamed_out op' e)); [|intros c; unfold xnamed_out; now rewrite same_xvalue].
    destruct (xa_columns a); auto. now rewrite (map_ext _ _ (same_xcolumn e)).
  Qed.
  Lemma same_addendum e p d : addendum_out op e p d = addendum_out op' e p d.
  Proof. unfold addendum_out. destruct d as [[n a]| |]; auto. now rewrite same_xargs. Qed.
  Lemma same_adv e a : adv_lines reg op e a = adv_lines reg op' e a.
  Proof.
    destruct a as [a|]; cbn [adv_lines]; auto. f_equal.
    - destruct (ae_enhancement a); auto. now rewrite same_addendum.
    - apply map_ext. intros d. apply same_addendum.
  Qed.
  Lemma same_table e d : table_line reg op e d = table_line reg op' e d.
  Proof. unfold table_line. apply same_addendum. Qed.

  Lemma same_optexpr e k m x : opt_expr_out op e k m x = opt_expr_out op' e k m x.
  Proof. destruct x; cbn [opt_expr_out]; auto using same_expr. Qed.
  Lemma same_field e n t : field_out op e n t = field_out op' e n t.
  Proof. unfold field_out. destruct t; cbn [oexpect]; auto. now rewrite same_type. Qed.
  Lemma same_zip e ns : forall ts, zip_fields op e ns ts = zip_fields op' e ns ts.
  Proof.
    induction ns as [|n ns IH]; intros [|t ts]; cbn [zip_fields]; rewrite ?same_field, ?IH; auto.
    f_equal. induction ts as [|t' ts IH]; auto. now rewrite same_field, IH.
  Qed.
  Lemma same_columns e r : read_columns op e r = read_columns op' e r.
  Proof. unfold read_columns. destruct (rd_schema r); auto using same_zip. Qed.

  Lemma same_read e r : (forall n, virtual_rows (RRead r) = Some n -> same_side (op_vt_threshold op) (op_vt_threshold op') n) ->
    read_header reg op e r = read_header reg op' e r.
  Proof.
    intros H. unfold read_header. rewrite same_columns, !same_adv. destruct (rd_type r) as [ns|rows|d| |] eqn:E; auto.
    - rewrite (map_ext (fun row => tuple_out (map (expr_out op e) row)) (fun row => tuple_out (map (expr_out op' e) row)))
        by (intros row; now rewrite same_exprs).
      assert (Ef : match rd_filter r with Some f => [(L "filter", expr_out op e f)] | None => [] end =
                   match rd_filter r with Some f => [(L "filter", expr_out op' e f)] | None => [] end)
        by (destruct (rd_filter r); auto; now rewrite same_expr).
      rewrite Ef. cbv zeta.
      assert (Eb : negb (Nat.eqb (length rows) 0) && (op_vt_threshold op <=? N.of_nat (length rows))%N =
                   negb (Nat.eqb (length rows) 0) && (op_vt_threshold op' <=? N.of_nat (length rows))%N).
      { destruct (H (length rows)) as [-> | Hs]; [cbn [virtual_rows]; now rewrite E|reflexivity|]. f_equal.
        destruct (N.leb_spec (op_vt_threshold op) (N.of_nat (length rows))), (N.leb_spec (op_vt_threshold op') (N.of_nat (length rows))); auto; lia. }
      now rewrite Eb.
    - now rewrite same_table.
  Qed.

  Lemma same_grouping e xs gs : grouping_values op e xs gs = grouping_values op' e xs gs.
  Proof.
    unfold grouping_values. destruct (_ && _).
    - f_equal. apply map_ext. intros g. apply same_exprs.
    - f_equal. destruct gs as [|g gs]; auto. apply map_ext. intros g'. apply map_ext. intros i.
      destruct (nth_error xs (N.to_nat i)); auto using same_expr.
  Qed.
  Lemma same_measures e ms : measure_outs op e ms = measure_outs op' e ms.
  Proof. induction ms as [|m ms IH]; cbn [measure_outs]; auto. destruct (ms_fn m); rewrite ?IH, ?same_aggfn; auto. Qed.
  Lemma same_aggregate e c xs gs ms a : aggregate_header reg op e c xs gs ms a = aggregate_header reg op' e c xs gs ms a.
  Proof. unfold aggregate_header. rewrite same_grouping. destruct (grouping_values op' e xs gs). now rewrite same_adv, same_exprs, same_measures. Qed.
  Lemma same_extension e k d w : extension_header reg op e k d w = extension_header reg op' e k d w.
  Proof.
    unfold extension_header. destruct (match d with Some _ => _ | None => _ end) as [[n a]| |]; auto.
    rewrite (map_ext _ _ (same_xvalue e)), (map_ext _ _ (same_xcolumn e)). do 3 f_equal. apply map_ext. intros p. now rewrite same_xvalue.
  Qed.

  (** The tree of headers is the same if no virtual table lies between the limits. *)
  Lemma same_view e r :
    (forall x n, subrel x r -> virtual_rows x = Some n -> same_side (op_vt_threshold op) (op_vt_threshold op') n) ->
    view_of reg op e r = view_of reg op' e r.
  Proof.
    revert r. apply (prel_ind2 (fun r => (forall x n, subrel x r -> virtual_rows x = Some n -> same_side (op_vt_threshold op) (op_vt_threshold op') n) ->
      view_of reg op e r = view_of reg op' e r)).
    all: intros; cbn [view_of].
    all: repeat match goal with
      | H : opt_P _ ?i |- _ =>
          let E := fresh "E" in
          assert (E : match i with Some r => Some (view_of reg op e r) | None => None end =
                      match i with Some r => Some (view_of reg op' e r) | None => None end);
          [destruct i as [i|]; cbn [opt_P] in H; [rewrite H; [reflexivity|]|reflexivity];
           intros y m Hy Hm; match goal with K : forall x n, subrel x _ -> _ |- _ => eapply K; [|exact Hm] end;
           eapply subrel_input; [|exact Hy]; cbn [inputs opt_list app In]; try (apply in_or_app; cbn [opt_list In]); auto
          |rewrite E; clear E H]
      | H : Forall _ ?l |- _ =>
          let E := fresh "E" in
          assert (E : map (view_of reg op e) l = map (view_of reg op' e) l);
          [apply map_ext_Forall; rewrite Forall_forall in *; intros y Hy; apply H; [exact Hy|];
           intros z m Hz Hm; match goal with K : forall x n, subrel x _ -> _ |- _ => eapply K; [|exact Hm] end;
           eapply subrel_input; [|exact Hz]; cbn [inputs]; exact Hy
          |rewrite E; clear E H]
      end.
    all: try (rewrite same_aggregate; reflexivity).
    all: try (rewrite same_extension; reflexivity).
    all: try match goal with |- ?a = ?a => reflexivity end.
    - rewrite same_read; auto. intros n Hn. apply (H (RRead r) n); auto. constructor.
    - unfold filter_header. now rewrite same_adv, same_optexpr.
    - unfold project_header. now rewrite same_adv, same_exprs.
    - unfold sort_header. rewrite same_adv.
      rewrite (map_ext (sort_field_out op e) (sort_field_out op' e)); auto. intros f. unfold sort_field_out. now rewrite same_optexpr.
    - unfold fetch_header, fetch_arg, fetch_mode_out. rewrite same_adv. destruct n as [[]|], o as [[]|]; rewrite ?same_expr; auto.
    - unfold join_header. rewrite same_adv, same_optexpr. destruct p; rewrite ?same_expr; auto.
    - unfold set_header. now rewrite same_adv.
    - unfold cross_header. now rewrite same_adv.
  Qed.
End Agree.

(** ** Lines and indentation *)

Definition lay (i : list N) (l : nat * list N) : list N := concat (repeat i (fst l)) ++ snd l.
(** A text that is a sequence of lines, the last not ended. *)
Definition lined (T : list N -> list N) : Prop := exists ls l, forall i, T i = laid i ls ++ lay i l.

Lemma laid_app i a b : laid i (a ++ b) = laid i a ++ laid i b.
Proof. unfold laid. now rewrite map_app, concat_app. Qed.
Lemma laid_one i l : laid i [l] = lay i l ++ [c_nl].
Proof. unfold laid, lay. cbn. now rewrite app_nil_r, <- app_assoc. Qed.
Lemma laid_map {A} (f : A -> list N -> list N) (g : A -> nat * list N) i l :
  (forall a, f a i = lay i (g a) ++ [c_nl]) -> concat (map (fun a => f a i) l) = laid i (map g l).
Proof. intros H. unfold laid. rewrite map_map. f_equal. apply map_ext. intros a. rewrite H. unfold lay. now rewrite <- app_assoc. Qed.

Lemma lined_ext T T' : (forall i, T i = T' i) -> lined T -> lined T'.
Proof. intros E (ls & l & H). exists ls, l. intros i. now rewrite <- E. Qed.
Lemma lined_line k t : lined (fun i => concat (repeat i k) ++ t).
Proof. exists [], (k, t). reflexivity. Qed.
Lemma lined_nl T T' : lined T -> lined T' -> lined (fun i => T i ++ [c_nl] ++ T' i).
Proof.
  intros (ls & l & H) (ls' & l' & H'). exists (ls ++ [l] ++ ls'), l'. intros i. rewrite H, H', !laid_app, laid_one.
  now rewrite <- !app_assoc.
Qed.
Lemma lined_tail T t : lined T -> lined (fun i => T i ++ t).
Proof. intros (ls & l & H). exists ls, (fst l, snd l ++ t). intros i. rewrite H. unfold lay. cbn [fst snd]. now rewrite <- !app_assoc. Qed.
Lemma lined_fold {A} (f : A -> list N -> list N) l : (forall a, In a l -> lined (f a)) ->
  forall T, lined T -> lined (fun i => T i ++ concat (map (fun a => [c_nl] ++ f a i) l)).
Proof.
  induction l as [|a l IH]; intros Hf T HT; [apply lined_ext with T; auto; intros; cbn; now rewrite app_nil_r|].
  eapply lined_ext; [|apply (IH ltac:(intros; apply Hf; now right) (fun i => T i ++ [c_nl] ++ f a i))].
  - intros i. cbn [map concat]. now rewrite <- !app_assoc.
  - apply lined_nl; auto. apply Hf. now left.
Qed.
Lemma fold_text l : o_text (fold_right oapp onil l) = concat (map o_text l).
Proof. induction l as [|a l IH]; cbn; auto. now rewrite IH. Qed.

(** The errors, tokens and panics of two outputs. *)
Definition same_rest (a b : out) : Prop := o_errs a = o_errs b /\ o_toks a = o_toks b /\ o_panics a = o_panics b.
Lemma rest_refl a : same_rest a a. Proof. repeat split. Qed.
Lemma rest_txt s t : same_rest (txt s) (txt t). Proof. repeat split. Qed.
Lemma rest_app a b c d : same_rest a b -> same_rest c d -> same_rest (a +++ c) (b +++ d).
Proof. intros (H1 & H2 & H3) (H4 & H5 & H6). repeat split; cbn; congruence. Qed.
Lemma rest_fold {A} (f g : A -> out) l : (forall a, In a l -> same_rest (f a) (g a)) ->
  same_rest (fold_right oapp onil (map f l)) (fold_right oapp onil (map g l)).
Proof.
  induction l as [|a l IH]; intros H; [apply rest_refl|]. cbn [map fold_right]. apply rest_app; [apply H; now left|].
  apply IH. intros b Hb. apply H. now right.
Qed.
Lemma rest_sep {A} (f g : A -> out) s l : (forall a, In a l -> same_rest (f a) (g a)) -> same_rest (osep s (map f l)) (osep s (map g l)).
Proof.
  induction l as [|a l IH]; intros H; [apply rest_refl|]. cbn [map]. destruct l as [|b l]; [apply H; now left|].
  cbn [map] in *. change (osep s (?x :: ?y :: ?r)) with (x +++ txt s +++ osep s (y :: r)).
  apply rest_app; [apply H; now left|]. apply rest_app; [apply rest_refl|]. apply IH. intros c Hc. apply H. now right.
Qed.

Section Layout.
  Context (U : Unicode) (F : Floats).
  Variables (reg : registry) (op : options).
  Notation opi := (with_indent op).

  Lemma rows_text d b l i : o_text (row_lines (opi i) d b l) =
    laid i (map (fun p => (S d, L "- " ++ o_text (fst p) ++ (if snd p : bool then L "," else [])))
              (combine l (repeat true (pred (length l)) ++ [b]))).
  Proof.
    induction l as [|o l IH]; [reflexivity|]. destruct l as [|o' l].
    - unfold row_line, indent_text, laid. cbn. rewrite !app_nil_r, <- ?app_assoc. cbn. now rewrite <- ?app_assoc.
    - change (row_lines (opi i) d b (o :: o' :: l)) with (row_line (opi i) d true o +++ row_lines (opi i) d b (o' :: l)).
      rewrite o_text_app, IH. cbn [length pred repeat app combine map].
      change (laid i (?x :: ?r)) with (laid i ([x] ++ r)). rewrite laid_app, laid_one. f_equal.
      unfold row_line, lay. cbn [fst snd oapp o_text txt]. unfold indent_text. cbn [op_indent with_indent]. now rewrite <- !app_assoc.
  Qed.

  Lemma header_lined d h : lined (fun i => o_text (header_out (opi i) d h)).
  Proof.
    unfold header_out. destruct (hd_args h) as [[p n|p n]|].
    - apply lined_ext with (T := fun i => concat (repeat i d) ++ o_text (hd_name h) ++ L "[" ++
        o_text (arguments_out p n +++ txt (L " ") +++ output_clause op h) ++ L "]"); [|apply lined_line].
      intros i. rewrite !o_text_app. reflexivity.
    - set (r1 := fun i => o_text (row_lines (opi i) d (negb (Nat.eqb (length n) 0)) p)).
      set (r2 := fun i => o_text (row_lines (opi i) d false (map named_out n))).
      assert (exists a, forall i, r1 i = laid i a) as (a & Ha) by (eexists; intros i; apply rows_text).
      assert (exists b, forall i, r2 i = laid i b) as (b & Hb) by (eexists; intros i; apply rows_text).
      exists ((d, o_text (hd_name h) ++ L "[") :: a ++ b), (S d, L "- " ++ o_text (output_clause op h) ++ L "]").
      intros i. rewrite !o_text_app. fold (r1 i) (r2 i). rewrite Ha, Hb.
      change (laid i (?x :: ?r)) with (laid i ([x] ++ r)). rewrite !laid_app, laid_one. unfold lay. cbn [fst snd].
      change (output_clause (opi i) h) with (output_clause op h).
      unfold indent_text. cbn [o_text txt op_indent with_indent]. now rewrite <- !app_assoc.
    - apply lined_ext with (T := fun i => concat (repeat i d) ++ o_text (hd_name h) ++ L "[" ++
        o_text (osep (L ", ") (shown_columns op h)) ++ L "]"); [|apply lined_line].
      intros i. rewrite !o_text_app. reflexivity.
  Qed.

  Lemma view_lined : forall v d, lined (fun i => o_text (view_out (opi i) d v)).
  Proof.
    fix IH 1. intros [h cs] d. cbn [view_out].
    assert (HA : lined (fun i => o_text (header_out (opi i) d h) ++
                   concat (map (fun a => [c_nl] ++ concat (repeat i (S d)) ++ o_text a) (hd_addenda h)))).
    { apply (lined_fold (fun a i => concat (repeat i (S d)) ++ o_text a)); [|apply header_lined]. intros a _. apply lined_line. }
    match type of HA with lined ?X => apply lined_ext with (T := fun i => X i ++
      concat (map (fun c => o_text match c with Some v => txt [c_nl] +++ view_out (opi i) (S d) v | None => onil end) cs)) end.
    { intros i. rewrite !o_text_app, !fold_text, !map_map, <- app_assoc. do 3 f_equal. }
    assert (K : forall T, lined T -> lined (fun i => T i ++
      concat (map (fun c => o_text match c with Some v => txt [c_nl] +++ view_out (opi i) (S d) v | None => onil end) cs))); [|exact (K _ HA)].
    clear HA. induction cs as [|c cs IHc]; intros T HT.
    - eapply lined_ext; [|exact HT]. intros i. cbn. now rewrite app_nil_r.
    - destruct c as [v|].
      + eapply lined_ext; [|apply (IHc (fun i => T i ++ [c_nl] ++ o_text (view_out (opi i) (S d) v)))].
        * intros i. cbn [map concat]. rewrite o_text_app. cbn [o_text txt]. now rewrite <- !app_assoc.
        * apply lined_nl; auto.
      + eapply lined_ext; [|apply (IHc T HT)]. intros i. reflexivity.
  Qed.

  Lemma rest_rows d b l i j : same_rest (row_lines (opi i) d b l) (row_lines (opi j) d b l).
  Proof.
    induction l as [|o l IH]; [apply rest_refl|]. cbn [row_lines]. assert (K : forall c, same_rest (row_line (opi i) d c o) (row_line (opi j) d c o)).
    { intros c. unfold row_line. apply rest_app; [apply rest_txt|apply rest_refl]. }
    destruct l; auto. apply rest_app; auto.
  Qed.
  Lemma rest_header d h i j : same_rest (header_out (opi i) d h) (header_out (opi j) d h).
  Proof.
    unfold header_out. apply rest_app; [apply rest_txt|]. apply rest_app; [apply rest_refl|]. apply rest_app; [apply rest_refl|].
    apply rest_app; [|apply rest_refl]. destruct (hd_args h) as [[p n|p n]|]; try apply rest_refl.
    apply rest_app; [apply rest_refl|]. apply rest_app; [apply rest_rows|]. apply rest_app; [apply rest_rows|].
    apply rest_app; [apply rest_txt|apply rest_refl].
  Qed.
  Lemma rest_view i j : forall v d, same_rest (view_out (opi i) d v) (view_out (opi j) d v).
  Proof.
    fix IH 1. intros [h cs] d. cbn [view_out]. apply rest_app; [apply rest_header|]. apply rest_app.
    - apply rest_fold. intros a _. apply rest_app; [apply rest_txt|apply rest_refl].
    - induction cs as [|c cs IHc]; [apply rest_refl|]. cbn [map fold_right]. apply rest_app; [|exact IHc].
      destruct c as [v|]; [|apply rest_refl]. apply rest_app; [apply rest_refl|apply IH].
  Qed.

  Lemma view_indent e i r : view_of reg (opi i) e r = view_of reg op e r.
  Proof. apply same_view; auto. intros x n _ _. right. reflexivity. Qed.

  Lemma plan_rel_lined e p : lined (fun i => o_text (plan_rel_out reg (opi i) e p)).
  Proof.
    destruct p as [r|ns [r|]|]; cbn [plan_rel_out].
    - eapply lined_ext; [|apply view_lined]. intros i. unfold rel_out. now rewrite view_indent.
    - eapply lined_ext; [|apply lined_nl; [apply (lined_line 0)|apply view_lined]]. intros i. unfold rel_out. now rewrite !o_text_app, view_indent.
    - eapply lined_ext; [|apply (lined_line 0)]. intros i. reflexivity.
    - eapply lined_ext; [|apply (lined_line 0)]. intros i. reflexivity.
  Qed.
  Lemma rest_plan_rel e p i j : same_rest (plan_rel_out reg (opi i) e p) (plan_rel_out reg (opi j) e p).
  Proof.
    destruct p as [r|ns [r|]|]; cbn [plan_rel_out]; try apply rest_refl; unfold rel_out; rewrite !view_indent.
    - apply rest_view.
    - apply rest_app; [apply rest_refl|]. apply rest_app; [apply rest_refl|apply rest_view].
  Qed.

  Lemma sep_lined e l : l <> [] -> lined (fun i => o_text (osep [c_nl; c_nl] (map (plan_rel_out reg (opi i) e) l))).
  Proof.
    induction l as [|p l IH]; [congruence|]. intros _. destruct l as [|q l]; [apply plan_rel_lined|].
    eapply lined_ext; [|apply lined_nl; [apply (plan_rel_lined e p)|apply lined_nl; [apply (lined_line 0 [])|apply IH; discriminate]]].
    intros i. cbn [map osep]. rewrite !o_text_app. reflexivity.
  Qed.
End Layout.

(** Lines built from the indentation, each ended. *)
Definition blocked (T : list N -> list (list N)) : Prop := exists ls, forall i, T i = map (lay i) ls.
Lemma blocked_nil : blocked (fun _ => []). Proof. now exists []. Qed.
Lemma blocked_app S T : blocked S -> blocked T -> blocked (fun i => S i ++ T i).
Proof. intros (a & Ha) (b & Hb). exists (a ++ b). intros i. now rewrite Ha, Hb, map_app. Qed.
Lemma blocked_cons t T : blocked T -> blocked (fun i => t :: T i).
Proof. intros (a & Ha). exists ((0, t) :: a). intros i. now rewrite Ha. Qed.
Lemma blocked_map {A} (g : A -> list N) l : blocked (fun i => map (fun a => i ++ g a) l).
Proof. exists (map (fun a => (1, g a)) l). intros i. rewrite map_map. apply map_ext. intros a. unfold lay. cbn. now rewrite app_nil_r. Qed.
Lemma blocked_ext S T : (forall i, S i = T i) -> blocked S -> blocked T.
Proof. intros E (a & Ha). exists a. intros i. now rewrite <- E. Qed.
Lemma blocked_lines T : blocked T -> exists ls, forall i, lines_text (T i) = laid i ls.
Proof.
  intros (ls & H). exists ls. intros i. unfold lines_text, laid. rewrite H, map_map. f_equal. apply map_ext. intros l. unfold lay. now rewrite <- app_assoc.
Qed.

(** Laying out headers depends on the indentation and the choice of columns only. *)
Lemma view_agree op op' : op_indent op = op_indent op' -> op_show_emit op = op_show_emit op' ->
  forall v d, view_out op d v = view_out op' d v.
Proof.
  intros Hi Hs.
  assert (I : forall d, indent_text op d = indent_text op' d) by (intros d; unfold indent_text; now rewrite Hi).
  assert (C : forall h, shown_columns op h = shown_columns op' h) by (intros h; unfold shown_columns; now rewrite Hs).
  assert (R : forall d b l, row_lines op d b l = row_lines op' d b l).
  { intros d b l. induction l as [|o l IH]; [reflexivity|]. cbn [row_lines]. unfold row_line. rewrite IH, I. reflexivity. }
  assert (H : forall d h, header_out op d h = header_out op' d h).
  { intros d h. unfold header_out, output_clause. rewrite !I, C. destruct (hd_args h) as [[p n|p n]|]; rewrite ?R; reflexivity. }
  fix IH 1. intros [h cs] d. cbn [view_out]. rewrite H, I. f_equal. f_equal.
  induction cs as [|[c|] cs IHc]; cbn [map fold_right]; [reflexivity| |]; rewrite IHc; [rewrite IH|]; reflexivity.
Qed.
