(** Virtual tables: every layout is read alike. *)
From Coq Require Import String List NArith ZArith Bool Lia PeanoNat.
From Verif Require Import Base BaseFacts Peg PegFacts PegYields Names SpecNames NamesFacts Props_Names SimpleExt Out
  Anchors SimpleExtFacts SpecExt AnchorsFacts Types SpecTypes TypesFacts ExtReadFacts Lines Calendar Literals
  SpecLiterals LiteralsFacts Exprs SpecExprs ExprsFacts ExprEq ExtArgs Registry Rels RelGrammar Structural RelRead SpecRels
  RelReadFacts SpecPlan OutClosed NoNewline ExtArgsFacts RelTextFacts SpecVirtual.
Import ListNotations.
Local Open Scope string_scope.
Local Open Scope list_scope.
Local Open Scope nat_scope.
Local Open Scope peg_scope.

(** ** Gaps *)

Lemma sp_spaces k t : hd_not is_sp t = true -> sp (spaces k ++ t) = Some (tt, t).
Proof.
  intros H. unfold sp, pmap. unfold spaces. rewrite pwhile_app; [reflexivity| |exact H].
  induction k; [reflexivity|]. cbn [repeat forallb]. now rewrite IHk.
Qed.
(** Text that cannot be the end of a line. *)
Definition solid (t : list N) : Prop := exists c r, t = c :: r /\ is_sp c = false /\ c <> c_nl /\ c <> c_cr.
Lemma solid_sp t : solid t -> hd_not is_sp t = true.
Proof. intros (c & r & -> & H & _). cbn [hd_not]. now rewrite H. Qed.
Lemma solid_newline t : solid t -> g_newline t = None.
Proof.
  intros (c & r & -> & _ & H1 & H2). unfold g_newline.
  assert (T : forall d w, d <> c -> ptok (d :: w) (c :: r) = None).
  { intros d w Hd. apply (ptok_none_hd w d). cbn [hd_not]. destruct (N.eqb_spec d c); [congruence|reflexivity]. }
  repeat (apply palt_r; [apply T; congruence|]). apply T; congruence.
Qed.
Lemma new_line_reads s t : new_line s -> hd_not is_sp t = true -> line_cont (s ++ t) = Some (tt, t).
Proof.
  intros [a b c|a b c] Ht; unfold line_cont; rewrite <- !app_assoc; (eapply pthen_some; [apply sp_spaces; reflexivity|]);
  (eapply pthen_some; [reflexivity|]); (eapply pthen_some; [apply sp_spaces; reflexivity|]);
  (eapply pthen_some; [apply (ptok_app (L "- "))|]); now apply sp_spaces.
Qed.
Lemma gap_reads s t : gap s -> solid t -> (line_cont <|> sp) (s ++ t) = Some (tt, t).
Proof.
  intros [k|s' H] Ht.
  - apply palt_r; [|now apply sp_spaces, solid_sp]. unfold line_cont.
    eapply pthen_some; [now apply sp_spaces, solid_sp|]. apply pthen_none. now apply solid_newline.
  - apply palt_l. apply new_line_reads; auto using solid_sp.
Qed.
Lemma comma_reads c t : comma c -> solid t -> relation_comma (c ++ t) = Some (tt, t).
Proof.
  intros [a s H] Ht. unfold relation_comma. rewrite <- !app_assoc. eapply pthen_some; [apply sp_spaces; reflexivity|].
  eapply pthen_some; [apply (ptok_app (L ","))|]. now apply gap_reads.
Qed.
Lemma arrow_text_reads a t : arrow_text a -> hd_not is_sp t = true -> relation_arrow (a ++ t) = Some (tt, t).
Proof.
  intros [s k H] Ht. unfold relation_arrow. rewrite <- !app_assoc.
  eapply pthen_some; [apply gap_reads; [exact H|]; eexists _, _; split; [reflexivity|repeat split; discriminate]|].
  eapply pthen_some; [apply (ptok_app (L "=>"))|]. now apply sp_spaces.
Qed.
Lemma arrow_text_no_comma a t : arrow_text a -> relation_comma (a ++ t) = None.
Proof.
  intros [s k H]. unfold relation_comma. rewrite <- !app_assoc. destruct H as [j|s' [x y z|x y z]].
  - eapply pthen_some; [apply sp_spaces; reflexivity|]. reflexivity.
  - rewrite <- !app_assoc. eapply pthen_some; [apply sp_spaces; reflexivity|]. reflexivity.
  - rewrite <- !app_assoc. eapply pthen_some; [apply sp_spaces; reflexivity|]. reflexivity.
Qed.
Lemma follow_spaces k t : expr_follow t = true -> expr_follow (spaces k ++ t) = true.
Proof.
  intros H. induction k as [|k IH]; [exact H|]. unfold expr_follow in *. apply andb_true_iff in IH as [_ IH].
  apply andb_true_iff. split; [reflexivity|]. rewrite <- IH. apply (span_fr_split [c_sp]). reflexivity.
Qed.
Lemma arrow_text_follow a t : arrow_text a -> expr_follow (a ++ t) = true.
Proof.
  intros [s k H]. rewrite <- !app_assoc. destruct H as [j|s' [x y z|x y z]]; rewrite <- ?app_assoc; now apply follow_spaces.
Qed.
Lemma comma_follow c t : comma c -> expr_follow (c ++ t) = true.
Proof. intros [a s H]. rewrite <- !app_assoc. now apply follow_spaces. Qed.
Lemma opening_reads o t : opening o -> solid t -> relation_open (o ++ t) = Some (tt, t).
Proof.
  intros [|s H] Ht; unfold relation_open.
  - eapply pthen_some; [apply (ptok_app (L "["))|]. eapply pthen_some; [|reflexivity]. apply popt_none. unfold line_cont.
    eapply pthen_some; [now apply sp_none, solid_sp|]. apply pthen_none. now apply solid_newline.
  - rewrite <- app_assoc. eapply pthen_some; [apply (ptok_app (L "["))|]. eapply pthen_some; [|reflexivity].
    apply popt_some. apply new_line_reads; auto using solid_sp.
Qed.

Lemma separated_one a t : separated [a] t -> t = a.
Proof. intros H. now inversion H. Qed.

Lemma join_last c l x : l <> [] -> join c (l ++ [x]) = join c l ++ c ++ x.
Proof.
  destruct l as [|a l]; [congruence|]. intros _. cbn [app]. rewrite !join_cons, map_app, concat_app. cbn [map concat].
  now rewrite app_nil_r, <- !app_assoc.
Qed.

Lemma indent_spaces op d : op_indent op = L "  " -> indent_text op d = spaces (2 * d).
Proof.
  intros Hi. unfold indent_text. rewrite Hi. induction d as [|d IH]; [reflexivity|]. cbn [repeat concat]. rewrite IH.
  replace (2 * S d) with (S (S (2 * d))) by lia. reflexivity.
Qed.

Section Virtual.
  Context (U : Unicode) (F : Floats).
  Variable Hascii : ascii_sane U.
  Variables (op : options) (e : exts).
  Hypothesis W : wf_exts e.
  Hypothesis Hanc : op_anchors op <> VNever.
  Hypothesis Htyp : types_written op.
  Let X : pexpr -> Prop := fun x => expr_ok e x = true.
  Let T : ptype -> Prop := fun t => type_ok e t = true.

  (** ** Rows *)

  Definition row_text (r : list pexpr) : list N := L "(" ++ join (L ", ") (map (etext U F op e) r) ++ L ")".
  Lemma row_solid r t : solid (row_text r ++ t).
  Proof. eexists _, _. split; [reflexivity|]. repeat split; discriminate. Qed.
  Lemma row_reads r : Forall X r -> exists c, lower_exprs e c = Ok r /\ nlf (row_text r) /\
    forall t, g_virtual_row (row_text r ++ t) = Some (c, t).
  Proof.
    intros HX. destruct (expr_items U F Hascii op e W Hanc Htyp r HX) as (cs & Lc & Gc). exists cs. split; [exact Lc|]. split.
    { unfold row_text. nlfs; try reflexivity. apply nlf_join; [reflexivity|]. now apply nlf_exprs. }
    intros t. unfold g_virtual_row, row_text. rewrite <- !app_assoc. eapply pthen_some; [reflexivity|].
    destruct r as [|x r]; [inversion Gc; reflexivity|].
    eapply pthen_some.
    { apply sp_none. inversion Gc as [|? c ts cs' [Vt _] _]. cbn [map]. rewrite join_cons, <- app_assoc. now apply visible_sp. }
    destruct (plist_reads g_expr (map (etext U F op e) (x :: r)) cs (L ")" ++ t) strict_expr) as (q & Gq & Aq);
      [discriminate|exact Gc|reflexivity| |].
    { intros q Aq. now rewrite (after_sp_visible (L ")" ++ t) q eq_refl Aq). }
    rewrite (after_sp_visible (L ")" ++ t) q eq_refl Aq) in Gq.
    eapply pbind_some; [apply popt_some; exact Gq|]. reflexivity.
  Qed.
  Lemma strict_virtual_row : strict g_virtual_row.
  Proof. unfold g_virtual_row, g_expression_list. peg_shrink. Qed.
  Lemma shrinks_relation_comma : shrinks relation_comma.
  Proof. unfold relation_comma, line_cont, g_newline. peg_shrink. Qed.

  (** What follows the rows: nothing, or a comma and the filter. *)
  Definition tail (fl : list (list N)) (v : list N) : Prop :=
    match fl with
    | [] => v = []
    | x :: _ => exists c, comma c /\ v = c ++ x
    end.
  Lemma rows_star rows : forall r0 css fl t, length fl <= 1 -> separated (row_text r0 :: map row_text rows ++ fl) t ->
    Forall2 (fun r c => forall t, g_virtual_row (row_text r ++ t) = Some (c, t)) rows css ->
    exists u v, t = row_text r0 ++ u ++ v /\ tail fl v /\
      forall rest, (relation_comma ;;; g_virtual_row) (v ++ rest) = None ->
        pstar (relation_comma ;;; g_virtual_row) (u ++ v ++ rest) = Some (css, v ++ rest).
  Proof.
    induction rows as [|r rows IH]; intros r0 css fl t Hfl Hs Hc.
    - inversion Hc; subst css. cbn [map app] in Hs. destruct fl as [|x fl].
      + apply separated_one in Hs as ->. exists [], []. rewrite app_nil_r. repeat split; auto. intros rest Hr. now apply pstar_nil.
      + destruct fl; [|cbn in Hfl; lia]. inversion Hs as [|a b l c t' Hcm Hs']; subst a b l. apply separated_one in Hs' as ->. subst t.
        exists [], (c ++ x). split; [reflexivity|]. split; [exists c; auto|]. intros rest Hr. now apply pstar_nil.
    - inversion Hc as [|? c0 ? css' Hr0 Hrest]; subst. cbn [map app] in Hs. inversion Hs as [|a b l c t' Hcm Hs']; subst.
      destruct (IH r css' fl t' Hfl Hs' Hrest) as (u & v & -> & Hv & G).
      exists (c ++ row_text r ++ u), v. split; [now rewrite <- !app_assoc|]. split; [exact Hv|]. intros rest Hr.
      rewrite <- !app_assoc. eapply pstar_cons; [|eapply pthen_some; [apply comma_reads; [exact Hcm|apply row_solid]|apply Hr0]|now apply G].
      apply strict_then_r; [apply shrinks_relation_comma|apply strict_virtual_row].
  Qed.

  Definition filter_args (f : option pexpr) : list (list N) :=
    match f with Some x => [L "filter=" ++ etext U F op e x] | None => [] end.
  Definition virtual_args (rows : list (list pexpr)) (f : option pexpr) : list (list N) :=
    match rows with [] => [L "_"] | _ => map row_text rows end ++ filter_args f.

  Lemma rows_back rows : Forall (Forall X) rows -> exists css, rlist (lower_exprs e) css = Ok rows /\
    Forall2 (fun r c => forall t, g_virtual_row (row_text r ++ t) = Some (c, t)) rows css.
  Proof.
    induction 1 as [|r rows Hr _ (css & Lc & Gc)]; [exists []; split; constructor|].
    destruct (row_reads r Hr) as (c & L1 & _ & G1). exists (c :: css). cbn [rlist]. rewrite L1. cbn [rbind]. rewrite Lc.
    split; [reflexivity|]. now constructor.
  Qed.
  Lemma rows_read rows css f t : Forall2 (fun r c => forall t, g_virtual_row (row_text r ++ t) = Some (c, t)) rows css ->
    separated (virtual_args rows f) t ->
    exists u v, t = u ++ v /\ (forall t, solid (u ++ t)) /\ tail (filter_args f) v /\
      forall rest, (relation_comma ;;; g_virtual_row) (v ++ rest) = None ->
        g_virtual_rows (u ++ v ++ rest) = Some (css, v ++ rest).
  Proof.
    intros Gc Hs. assert (Hfl : length (filter_args f) <= 1) by (destruct f; cbn; lia). destruct rows as [|r rows].
    - exists (L "_"). inversion Gc; subst css.
      assert (exists v, t = L "_" ++ v /\ tail (filter_args f) v) as (v & -> & Hv).
      { unfold virtual_args in Hs. destruct (filter_args f) as [|x fl].
        - apply separated_one in Hs as ->. exists []. split; reflexivity.
        - destruct fl; [|cbn in Hfl; lia]. inversion Hs as [|a b l c t' Hcm Hs']; subst a b l. apply separated_one in Hs' as ->. subst t.
          exists (c ++ x). split; auto. exists c; auto. }
      exists v. split; [reflexivity|]. split; [|split; [exact Hv|]].
      + intros t. eexists _, _. split; [reflexivity|]. repeat split; discriminate.
      + intros rest Hr. reflexivity.
    - inversion Gc as [|? c0 ? css' G0 Grest]; subst css.
      destruct (rows_star rows r css' (filter_args f) t Hfl Hs Grest) as (u & v & -> & Hv & G).
      exists (row_text r ++ u), v. split; [now rewrite <- app_assoc|]. split; [|split; [exact Hv|]].
      + intros t. rewrite <- app_assoc. apply row_solid.
      + intros rest Hr. unfold g_virtual_rows. apply palt_l. unfold psep1. rewrite <- app_assoc.
        eapply pbind_some; [apply G0|]. eapply pbind_some; [now apply G|]. reflexivity.
  Qed.

  Theorem virtual_read rows f cols : Forall (Forall X) rows -> optional X f -> Forall (fun c => name_ok (fst c) /\ T (snd c)) cols ->
    exists y,
      (forall a, lower_rel e y [] a =
         Ok (RRead (mk_read direct (Some (columns_schema cols)) f (ReadVirtual rows) a false), length cols)) /\
      forall t, virtual_text (virtual_args rows f) (join (L ", ") (map (coltext U op e) cols)) t ->
        g_relation t = Some (y, []) /\ g_root t = None.
  Proof.
    intros HX Hf Hc.
    destruct (rows_back rows HX) as (css & Lr & Gr0).
    destruct (columns_back U op e W Hanc cols Hc) as (cc & Lc & _ & Gc).
    assert (exists cf, lower_opt_expr e cf = Ok f /\ forall v rest, tail (filter_args f) v -> expr_follow rest = true ->
      relation_comma rest = None ->
      (relation_comma ;;; g_virtual_row) (v ++ rest) = None /\
      popt (relation_comma ;;; g_virtual_filter) (v ++ rest) = Some (cf, rest)) as (cf & Lf & Gf).
    { destruct f as [x|]; cbn [filter_args tail optional] in *.
      - destruct (expr_item U F Hascii op e W Hanc Htyp x Hf) as (cx & Lx & Vx & Gx).
        exists (Some cx). cbn [lower_opt_expr]. rewrite Lx. split; [reflexivity|]. intros v rest (c & Hcm & ->) Hr _. rewrite <- !app_assoc.
        assert (S : solid (L "filter=" ++ etext U F op e x ++ rest)) by (eexists _, _; split; [reflexivity|repeat split; discriminate]).
        split.
        + eapply pthen_some; [now apply comma_reads|]. reflexivity.
        + apply popt_some. eapply pthen_some; [now apply comma_reads|]. unfold g_virtual_filter.
          eapply pthen_some; [reflexivity|]. eapply pthen_some; [reflexivity|]. eapply pthen_some; [reflexivity|].
          eapply pthen_some; [now apply sp_none, visible_sp|]. now apply Gx.
      - exists None. split; [reflexivity|]. intros v rest -> _ Hr. cbn [app].
        split; [apply pthen_none|apply popt_none, pthen_none]; exact Hr. }
    exists (YVirtual css cf cc). split.
    { intros adv. cbn [lower_rel]. rewrite Lf. cbn [guard_drop rbind]. rewrite Lr. cbn [rbind]. rewrite Lc. reflexivity. }
    intros t [o b a k Ho Hb Ha]. destruct (rows_read rows css f b Gr0 Hb) as (u & v & -> & Hu & Hv & Gr).
    set (rest := a ++ join (L ", ") (map (coltext U op e) cols) ++ L "]" ++ spaces k).
    destruct (Gf v rest Hv (arrow_text_follow _ _ Ha) (arrow_text_no_comma _ _ Ha)) as [Ev Gf'].
    split; [|reflexivity].
    unfold g_relation. apply palt_r; [reflexivity|]. apply palt_l. unfold g_virtual.
    eapply pthen_some; [apply (ptok_app (L "Read:Virtual"))|].
    rewrite <- app_assoc. fold rest. eapply pthen_some; [apply opening_reads; [exact Ho|apply Hu]|].
    eapply pbind_some; [now apply Gr|]. eapply pbind_some; [exact Gf'|].
    eapply pthen_some; [apply arrow_text_reads; [exact Ha|eapply columns_visible; [exact Gc|reflexivity]]|].
    eapply pbind_some; [apply columns_reads; [exact Gc|reflexivity..]|].
    eapply pthen_some; [reflexivity|]. unfold relation_end.
    eapply pthen_some; [|reflexivity]. rewrite <- (app_nil_r (spaces k)) at 1.
    eapply pthen_some; [now apply sp_spaces|]. reflexivity.
  Qed.

  (** ** The text the writer chooses *)
  Hypothesis Hshow : op_show_emit op = false.
  Hypothesis Hindent : op_indent op = L "  ".
  Variable reg : registry.

  Lemma separated_join c l : comma c -> l <> [] -> separated l (join c l).
  Proof.
    intros Hc. destruct l as [|a l]; [congruence|]. intros _. revert a. induction l as [|b l IH]; intros a.
    - constructor.
    - replace (join c (a :: b :: l)) with (a ++ c ++ join c (b :: l)) by reflexivity. now constructor.
  Qed.
  Let prefix d : list N := indent_text op (S d) ++ L "- ".
  Lemma prefix_new_line d : new_line ([c_nl] ++ prefix d).
  Proof.
    unfold prefix. rewrite indent_spaces by exact Hindent. pose proof (new_line_intro 0 (2 * S d) 0) as H. exact H.
  Qed.
  Lemma row_lines_text d b l : l <> [] ->
    o_text (row_lines op d b l) = prefix d ++ join (L "," ++ [c_nl] ++ prefix d) (map o_text l) ++ (if b then L "," else []) ++ [c_nl].
  Proof.
    destruct l as [|a l]; [congruence|]. intros _. revert a. induction l as [|x l IH]; intros a.
    - cbn [row_lines map join]. unfold row_line. rewrite !o_text_app. reflexivity.
    - change (row_lines op d b (a :: x :: l)) with (row_line op d true a +++ row_lines op d b (x :: l)).
      rewrite o_text_app, IH. unfold row_line. rewrite !o_text_app. cbn [o_text txt map].
      replace (join (L "," ++ [c_nl] ++ prefix d) (o_text a :: o_text x :: map o_text l))
        with (o_text a ++ (L "," ++ [c_nl] ++ prefix d) ++ join (L "," ++ [c_nl] ++ prefix d) (o_text x :: map o_text l))
        by reflexivity.
      unfold prefix. now rewrite <- !app_assoc.
  Qed.
  Lemma row_out_text r : o_text (tuple_out (map (expr_out op e) r)) = row_text r.
  Proof. unfold tuple_out, row_text. rewrite !o_text_app, text_osep, map_map. reflexivity. Qed.
  Lemma nlf_args rows f : Forall (Forall X) rows -> optional X f -> Forall (fun u => nlf u /\ hd_not is_ws u = true /\ u <> []) (virtual_args rows f).
  Proof.
    intros HX Hf. unfold virtual_args. apply Forall_app. split.
    - assert (Forall (fun u => nlf u /\ hd_not is_ws u = true /\ u <> []) (map row_text rows)).
      { apply Forall_map. eapply Forall_impl; [|exact HX]. intros r Hr. destruct (row_reads r Hr) as (_ & _ & N & _).
        split; [exact N|]. split; [reflexivity|discriminate]. }
      destruct rows; auto. constructor; [repeat split; discriminate|constructor].
    - destruct f as [x|]; constructor; [|constructor]. split; [|split; [reflexivity|discriminate]].
      nlfs; [reflexivity|]. now apply nlf_expr.
  Qed.
  Lemma args_lines d l : Forall (fun u => nlf u /\ hd_not is_ws u = true /\ u <> []) l -> l <> [] ->
    exists us, Forall (fun u => nlf u /\ hd_not is_ws u = true /\ u <> []) us /\
    ([c_nl] ++ prefix d) ++ join (L "," ++ [c_nl] ++ prefix d) l = concat (map (fun u => [c_nl] ++ prefix d ++ u) us).
  Proof.
    induction 1 as [|a l Ha Hl IH]; [congruence|]. intros _. destruct l as [|b l].
    - exists [a]. split; [now constructor|]. cbn [join map concat]. now rewrite app_nil_r, <- app_assoc.
    - destruct IH as (us & Hus & E); [congruence|]. exists ((a ++ L ",") :: us). split.
      { constructor; [|exact Hus]. destruct Ha as (H1 & H2 & H3). split; [nlfs; auto; reflexivity|].
        destruct a; [congruence|]. split; [exact H2|discriminate]. }
      replace (join (L "," ++ [c_nl] ++ prefix d) (a :: b :: l))
        with (a ++ L "," ++ ([c_nl] ++ prefix d) ++ join (L "," ++ [c_nl] ++ prefix d) (b :: l)) by reflexivity.
      rewrite E. cbn [map concat]. now rewrite <- !app_assoc.
  Qed.

  Lemma virtual_line cols f rows adv : Forall (Forall X) rows -> optional X f -> Forall (fun c => name_ok (fst c) /\ T (snd c)) cols ->
    exists y, header_line op (read_header reg op e (mk_read direct (Some (columns_schema cols)) f (ReadVirtual rows) adv false)) y /\
      hd_emitted (read_header reg op e (mk_read direct (Some (columns_schema cols)) f (ReadVirtual rows) adv false)) = length cols /\
      forall a, lower_rel e y [] a = Ok (RRead (mk_read direct (Some (columns_schema cols)) f (ReadVirtual rows) a false), length cols).
  Proof.
    intros HX Hf Hc.
    set (h := read_header reg op e (mk_read direct (Some (columns_schema cols)) f (ReadVirtual rows) adv false)).
    set (ctext := join (L ", ") (map (coltext U op e) cols)).
    assert (Hcn : nlf ctext).
    { destruct (columns_back U op e W Hanc cols Hc) as (_ & _ & Nc & _). apply nlf_join; [reflexivity|exact Nc]. }
    pose proof (nlf_args rows f HX Hf) as Han.
    assert (Hne : virtual_args rows f <> []) by (unfold virtual_args; destruct rows; discriminate).
    assert (Hclause : o_text (output_clause op h) = L "=> " ++ ctext).
    { unfold output_clause, h, read_header, read_columns, shown_columns, ctext.
      cbn [rd_type rd_common rd_schema ns_names ns_struct columns_schema get_emit direct rc_emit hd_explicit hd_emit hd_cols].
      rewrite Hshow, o_text_app, text_osep. now rewrite zip_fields_text. }
    destruct (virtual_read rows f cols HX Hf Hc) as (y & Ly & Gy).
    exists y. split; [|split; [|exact Ly]].
    2: { unfold h, hd_emitted, read_header, read_columns.
      cbn [rd_type rd_common rd_schema ns_names ns_struct columns_schema get_emit direct rc_emit hd_emit hd_cols].
      rewrite <- (map_length o_text), (zip_fields_text U). apply map_length. }
    set (m := negb (Nat.eqb (length rows) 0) && (op_vt_threshold op <=? N.of_nat (length rows))%N).
    intros d. destruct m eqn:Em.
    - exists (L "Read:Virtual" ++ (L "[" ++ [c_nl] ++ prefix d) ++ join (L "," ++ [c_nl] ++ prefix d) (virtual_args rows f) ++
        (([c_nl] ++ prefix d) ++ L "=> ") ++ ctext ++ L "]").
      split; [|split; [|split; [eexists _, _; split; reflexivity|split; [eexists; rewrite !app_assoc; reflexivity|]]]].
      + apply andb_true_iff in Em as [Em1 Em2]. destruct rows as [|r rows]; [discriminate|]. clear Em1.
        unfold header_out. rewrite !o_text_app.
        replace (hd_name h) with (txt (L "Read:Virtual")) by reflexivity.
        replace (hd_args h) with (Some (RaRows (map (fun row => tuple_out (map (expr_out op e) row)) (r :: rows))
          match f with Some f => [(L "filter", expr_out op e f)] | None => [] end)).
        2: { unfold h, read_header. cbn [rd_type hd_args rd_filter]. fold m. unfold m. rewrite Em2. reflexivity. }
        rewrite !o_text_app, Hclause, row_lines_text by discriminate. rewrite map_map. rewrite (map_ext _ _ row_out_text).
        unfold virtual_args. destruct f as [x|].
        * rewrite row_lines_text by discriminate. cbn [filter_args length Nat.eqb negb]. rewrite join_last by discriminate.
          cbn [map join]. unfold named_out, prefix. rewrite o_text_app. cbn [o_text txt fst snd].
          rewrite <- !app_assoc. reflexivity.
        * cbn [map filter_args length Nat.eqb negb row_lines o_text onil]. rewrite app_nil_r. unfold prefix. cbn [o_text txt].
          rewrite <- !app_assoc. reflexivity.
      + destruct (args_lines d _ Han Hne) as (us & Hus & E).
        exists (L "Read:Virtual["), (map (fun u => prefix d ++ u) (us ++ [L "=> " ++ ctext ++ L "]"])). split; [|split; [reflexivity|]].
        * rewrite join_cons. rewrite map_map, map_app, concat_app.
          rewrite <- E. cbn [map concat].
          rewrite app_nil_r. rewrite <- !app_assoc. reflexivity.
        * apply Forall_map. apply Forall_app. split.
          -- eapply Forall_impl; [|exact Hus]. intros u Hu. exists u. split; [|exact Hu]. unfold prefix. now rewrite <- app_assoc.
          -- constructor; [|constructor]. eexists. split; [unfold prefix; now rewrite <- app_assoc|].
             split; [nlfs; auto; reflexivity|]. split; [reflexivity|discriminate].
      + replace (ctext ++ L "]") with (ctext ++ L "]" ++ spaces 0) by reflexivity. apply Gy. apply virtual_intro.
        * apply open_line, prefix_new_line.
        * apply separated_join; auto. apply (comma_intro 0), gap_line, prefix_new_line.
        * apply (arrow_intro _ 1), gap_line, prefix_new_line.
    - exists (L "Read:Virtual" ++ L "[" ++ join (L ", ") (virtual_args rows f) ++ L " => " ++ ctext ++ L "]").
      split; [|split; [|split; [eexists _, _; split; reflexivity|split; [eexists; rewrite !app_assoc; reflexivity|]]]].
      + unfold header_out. rewrite !o_text_app.
        replace (hd_name h) with (txt (L "Read:Virtual")) by reflexivity.
        replace (hd_args h) with (Some (RaInline (match rows, f with [], Some _ => [txt (L "_")]
          | _, _ => map (fun row => tuple_out (map (expr_out op e) row)) rows end)
          match f with Some f => [(L "filter", expr_out op e f)] | None => [] end)).
        2: { unfold h, read_header. cbn [rd_type hd_args rd_filter]. fold m. rewrite Em. destruct rows, f; reflexivity. }
        rewrite !o_text_app, Hclause. cbn [o_text txt].
        replace (o_text (arguments_out _ _)) with (join (L ", ") (virtual_args rows f)).
        2: { destruct rows as [|r rows]; destruct f as [x|]; try reflexivity; unfold arguments_out; cbn [map app];
             rewrite text_osep; f_equal; cbn [map]; rewrite ?map_app, map_map, row_out_text, (map_ext _ _ row_out_text);
             unfold virtual_args; cbn [map app filter_args]; rewrite ?app_nil_r; reflexivity. }
        rewrite <- !app_assoc. reflexivity.
      + match goal with |- line_text _ _ ?t => exists t, [] end. split; [reflexivity|]. split; [|constructor]. nlfs; auto; try reflexivity. apply nlf_join; [reflexivity|].
        eapply Forall_impl; [|exact Han]. now intros u (N & _).
      + replace (ctext ++ L "]") with (ctext ++ L "]" ++ spaces 0) by reflexivity. apply Gy. apply virtual_intro.
        * apply open_inline.
        * apply separated_join; auto. apply (comma_intro 0 _ (gap_inline 1)).
        * apply (arrow_intro (spaces 1) 1 (gap_inline 1)).
  Qed.
End Virtual.
