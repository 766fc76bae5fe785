(** Relation lines: what is written for them, read back. *)
From Coq Require Import String List NArith ZArith Bool Lia PeanoNat.
From Verif Require Import Base BaseFacts Peg PegFacts PegYields Names SpecNames NamesFacts Props_Names SimpleExt Out
  Anchors SimpleExtFacts SpecExt AnchorsFacts Types SpecTypes TypesFacts ExtReadFacts Lines Calendar Literals
  SpecLiterals LiteralsFacts Exprs SpecExprs ExprsFacts ExprEq ExtArgs Registry Rels RelGrammar Structural RelRead SpecRels
  RelReadFacts SpecPlan OutClosed NoNewline ExtArgsFacts.
Import ListNotations.
Local Open Scope string_scope.
Local Open Scope list_scope.
Local Open Scope nat_scope.
Local Open Scope peg_scope.

(** ** Texts of outputs *)

Lemma text_osep sep l : o_text (osep sep l) = join sep (map o_text l).
Proof. apply osep_text. Qed.
Lemma text_fold l : o_text (fold_right oapp onil l) = concat (map o_text l).
Proof. induction l as [|x l IH]; [reflexivity|]. cbn [fold_right map concat]. now rewrite o_text_app, IH. Qed.
Lemma text_arguments p n : o_text (arguments_out p n) =
  match p, n with [], [] => L "_" | _, _ => join (L ", ") (map o_text p ++ map (fun x => fst x ++ L "=" ++ o_text (snd x)) n) end.
Proof.
  unfold arguments_out. destruct p, n; try reflexivity; rewrite text_osep, map_app, map_map; do 2 f_equal;
    apply map_ext; intros []; unfold named_out; rewrite o_text_app; cbn [o_text txt fst snd]; now rewrite <- app_assoc.
Qed.

(** ** Lines *)

(** A piece of text that is read as the line [y]: it starts with a letter, has no
    line break and ends with a bracket. *)
Definition starts_alpha (t : list N) : Prop := exists c r, t = c :: r /\ is_alpha c = true.
Definition one_line (t : list N) (y : rline) : Prop :=
  nlf t /\ starts_alpha t /\ (exists b, t = b ++ L "]") /\ g_relation t = Some (y, []) /\ g_root t = None.

(** ** Pieces of lines *)

Lemma arrow_reads t : hd_not is_sp t = true -> arrow (L " => " ++ t) = Some (tt, t).
Proof.
  intros H. unfold arrow. eapply pthen_some; [apply (sp_one (L "=> " ++ t)); reflexivity|].
  eapply pthen_some; [apply (ptok_app (L "=>") (c_sp :: t))|]. now apply sp_one.
Qed.
Lemma ref_text_visible i : visible (ref_text i).
Proof. unfold ref_text. eexists _, _. split; reflexivity. Qed.
Lemma refs_items m : Forall2 (item g_reference) (map ref_text m) (map show_Z m).
Proof. induction m; constructor; auto. split; [apply ref_text_visible|apply reference_reads]. Qed.
Lemma refs_reads m : g_references (join (L ", ") (map ref_text m) ++ L "]") = Some (map show_Z m, L "]").
Proof. apply psep0_reads; auto using strict_reference, comma_sp_like, refs_items. Qed.
Lemma refs_visible m : hd_not is_sp (join (L ", ") (map ref_text m) ++ L "]") = true.
Proof. destruct m as [|i [|j m]]; reflexivity. Qed.
Lemma output_mapping_show m : Forall (fun i => in_range i32_min i32_max i = true) m -> output_mapping (map show_Z m) = Ok m.
Proof.
  intros H. unfold output_mapping. induction H as [|i m Hi H IH]; [reflexivity|]. cbn [map rlist]. unfold field_index at 1.
  rewrite parse_i32_show by auto. cbn [unwrap rbind]. now rewrite IH.
Qed.
Lemma nlf_ref i : nlf (ref_text i).
Proof. unfold ref_text. apply nlf_app; [reflexivity|apply nlf_show_Z]. Qed.
Lemma nlf_refs m : nlf (join (L ", ") (map ref_text m)).
Proof. apply nlf_join; [reflexivity|]. apply Forall_map, Forall_forall. intros; apply nlf_ref. Qed.
#[global] Hint Resolve nlf_ref nlf_refs nlf_show_Z nlf_show_N : nlf.

(** The end of most lines. *)
Lemma end_reads {A} (f : list (list N) -> A) m :
  (r <- g_references ;; ptok (L "]") ;;; pret (f r)) (join (L ", ") (map ref_text m) ++ L "]") = Some (f (map show_Z m), []).
Proof. eapply pbind_some; [apply refs_reads|]. reflexivity. Qed.
Lemma arrow_end_reads {A} (f : list (list N) -> A) m :
  (arrow ;;; r <- g_references ;; ptok (L "]") ;;; pret (f r)) (L " => " ++ join (L ", ") (map ref_text m) ++ L "]")
  = Some (f (map show_Z m), []).
Proof. eapply pthen_some; [apply arrow_reads, refs_visible|]. apply end_reads. Qed.

(** ** Emits *)

Lemma in_range_index i n : (0 <= i < Z.of_nat n)%Z -> (Z.of_nat n <= column_limit)%Z -> in_range i32_min i32_max i = true.
Proof. unfold column_limit, in_range, i32_min, i32_max. intros. apply andb_true_iff. lia. Qed.
Lemma all_columns_range n : (Z.of_nat n <= column_limit)%Z -> Forall (fun i => in_range i32_min i32_max i = true) (all_columns n).
Proof.
  intros H. unfold all_columns. apply Forall_map, Forall_forall. intros i Hi. apply in_seq in Hi.
  apply in_range_index with n; lia.
Qed.
Lemma emits_range c shown all k w : emits c shown all k w -> Forall (fun i => in_range i32_min i32_max i = true) k.
Proof.
  destruct 1; [now apply all_columns_range|]. eapply Forall_impl; [|eassumption]. cbv beta. intros; eapply in_range_index; eauto.
Qed.
Lemma emits_length c shown all k w : emits c shown all k w -> length k = w.
Proof. destruct 1; auto. unfold all_columns. now rewrite map_length, seq_length. Qed.
Lemma make_emit_direct n : (Z.of_nat n <= column_limit)%Z -> make_emit (all_columns n) n = EmDirect.
Proof. intros H. now apply (make_emit_spec (all_columns n) n H). Qed.
Lemma make_emit_emit m n : (Z.of_nat n <= column_limit)%Z -> m <> all_columns n -> make_emit m n = EmEmit m.
Proof.
  intros H Hne. destruct (make_emit_spec m n H) as [E1 E2]. destruct (make_emit m n); [|cbn in E1; congruence].
  exfalso. apply Hne. now apply E2.
Qed.
Lemma emits_make c shown all k w : emits c shown all k w -> emit_common (make_emit k all) = c.
Proof. destruct 1; [rewrite make_emit_direct by auto|rewrite make_emit_emit by auto]; reflexivity. Qed.
Lemma emits_parse c shown all k w : emits c shown all k w ->
  exists kind, parse_emit (map show_Z k) all = Ok (kind, w) /\ emit_common kind = c.
Proof.
  intros H. exists (make_emit k all). split; [|now apply emits_make with shown w].
  unfold parse_emit. rewrite output_mapping_show by (eapply emits_range; eauto). cbn [rbind].
  now rewrite (emits_length _ _ _ _ _ H).
Qed.

Lemma nth_error_seq a n i : i < n -> nth_error (seq a n) i = Some (a + i).
Proof.
  revert a i. induction n as [|n IH]; intros a i H; [lia|]. destruct i as [|i]; cbn [seq nth_error]; [f_equal; lia|].
  rewrite IH by lia. f_equal. lia.
Qed.
(** What is shown for emitted columns: of [shown] columns with the given texts,
    those that are emitted. *)
Lemma emits_shown c shown all k w (f : nat -> list N) op h : emits c shown all k w -> op_show_emit op = false ->
  hd_emit h = get_emit c -> map o_text (hd_cols h) = map f (seq 0 shown) ->
  map o_text (shown_columns op h) = map (fun i => f (Z.to_nat i)) k.
Proof.
  intros H Hs He Hc. unfold shown_columns. rewrite Hs, He. destruct H as [n|m shown all H1 H2 H3 H4]; cbn [get_emit direct emit rc_emit].
  - rewrite Hc. unfold all_columns. rewrite map_map. apply map_ext. intros. now rewrite Nat2Z.id.
  - rewrite map_map. apply map_ext_in. intros i Hi. rewrite Forall_forall in H3. specialize (H3 i Hi).
    unfold zget. replace (i <? 0)%Z with false by lia.
    assert (E : nth_error (map o_text (hd_cols h)) (Z.to_nat i) = Some (f (Z.to_nat i))).
    { rewrite Hc, nth_error_map, nth_error_seq by lia. reflexivity. }
    rewrite nth_error_map in E. destruct (nth_error (hd_cols h) (Z.to_nat i)); [|discriminate]. cbn [option_map] in E. congruence.
Qed.
Lemma emits_emitted c shown all k w h : emits c shown all k w -> hd_emit h = get_emit c -> length (hd_cols h) = shown ->
  hd_emitted h = w.
Proof. intros H He Hc. unfold hd_emitted. rewrite He. destruct H; cbn [get_emit direct emit rc_emit]; auto. Qed.
Lemma ref_columns_length n : length (ref_columns n) = n.
Proof. unfold ref_columns. now rewrite map_length, seq_length. Qed.
Lemma emits_refs c shown all k w op h : emits c shown all k w -> op_show_emit op = false ->
  hd_emit h = get_emit c -> hd_cols h = ref_columns shown ->
  map o_text (shown_columns op h) = map ref_text k.
Proof.
  intros H Hs He Hc.
  rewrite (emits_shown c shown all k w (fun i => ref_text (wrap_i32 (Z.of_nat i))) op h H Hs He).
  - apply map_ext_in. intros i Hi. f_equal.
    assert (Hr : (0 <= i < column_limit)%Z).
    { destruct H as [n Hn|m shown all H1 H2 H3 H4].
      - unfold all_columns in Hi. apply in_map_iff in Hi as (j & <- & Hj). apply in_seq in Hj. lia.
      - rewrite Forall_forall in H3. specialize (H3 i Hi). lia. }
    rewrite wrap_index by lia. lia.
  - rewrite Hc. unfold ref_columns. rewrite map_map. reflexivity.
Qed.

(** The text of a header with its arguments in one line. *)
Lemma inline_text op d name p n cols em adds :
  o_text (header_out op d (mk_header (txt name) (Some (RaInline p n)) cols em false adds)) =
  indent_text op d ++ name ++ L "[" ++ o_text (arguments_out p n) ++ L " => " ++
    join (L ", ") (map o_text (shown_columns op (mk_header (txt name) (Some (RaInline p n)) cols em false adds))) ++ L "]".
Proof.
  unfold header_out. cbn [hd_name hd_args]. rewrite !o_text_app. unfold output_clause. cbn [hd_explicit].
  rewrite o_text_app, text_osep. cbn [o_text txt]. rewrite <- !app_assoc. reflexivity.
Qed.
Lemma bare_text op d name cols em adds :
  o_text (header_out op d (mk_header (txt name) None cols em false adds)) =
  indent_text op d ++ name ++ L "[" ++
    join (L ", ") (map o_text (shown_columns op (mk_header (txt name) None cols em false adds))) ++ L "]".
Proof.
  unfold header_out. cbn [hd_name hd_args]. rewrite !o_text_app, text_osep. cbn [o_text txt]. rewrite <- ?app_assoc. reflexivity.
Qed.

(** ** Lists with optional white space after the first item *)

Lemma pstar_ext {A} (p q : peg A) s : (forall s, p s = q s) -> pstar p s = pstar q s.
Proof.
  intros H. unfold pstar. generalize (length s). intros n. f_equal. revert s. induction n as [|n IH]; intros s; [reflexivity|].
  cbn [pstar_n]. rewrite H. destruct (q s) as [[a r]|]; [|reflexivity]. now rewrite IH.
Qed.
Lemma pthen_assoc {A B C} (p : peg A) (q : peg B) (r : peg C) s : pthen p (pthen q r) s = pthen (pthen p q) r s.
Proof. unfold pthen, pbind. now destruct (p s) as [[a x]|]. Qed.

Definition plist {A} (p : peg A) : peg (list A) :=
  x <- p ;; sp ;;; l <- pstar (ptok (L ",") ;;; sp ;;; p) ;; pret (x :: l).
Definition after_sp (rest rest' : list N) : Prop := rest' = rest \/ sp rest = Some (tt, rest').
Lemma plist_reads {A} (p : peg A) ts vs rest : strict p -> ts <> [] -> Forall2 (item p) ts vs -> expr_follow rest = true ->
  (forall r, after_sp rest r -> ptok (L ",") r = None) ->
  exists rest', plist p (join (L ", ") ts ++ rest) = Some (vs, rest') /\ after_sp rest rest'.
Proof.
  intros Hp Hne H Hr Hend. destruct H as [|t v ts vs [Hv Ht] H]; [congruence|]. rewrite join_cons, <- app_assoc. unfold plist.
  destruct H as [|t' v' ts vs [Hv' Ht'] H].
  - cbn [map concat app]. destruct (sp_total rest) as (r & Hsp & _). exists r. split; [|right; exact Hsp].
    eapply pbind_some; [now apply Ht|]. eapply pthen_some; [exact Hsp|].
    eapply pbind_some; [|reflexivity]. apply pstar_nil. apply pthen_none. apply Hend. right; exact Hsp.
  - exists rest. split; [|now left].
    eapply pbind_some; [apply Ht; reflexivity|]. eapply pthen_some; [apply sp_none; reflexivity|].
    eapply pbind_some; [|reflexivity].
    rewrite (pstar_ext _ (pthen (ptok (L ",") ;;; sp) p) _ (fun s => pthen_assoc _ _ _ s)).
    apply pstar_reads; auto using comma_tok_like; [constructor; auto; now split|].
    apply pthen_none, pthen_none. apply Hend. now left.
Qed.

Section Lines.
  Context (U : Unicode) (F : Floats).
  Variable Hascii : ascii_sane U.
  Variables (reg : registry) (op : options) (e : exts).
  Hypothesis W : wf_exts e.
  Hypothesis Hanc : op_anchors op <> VNever.
  Hypothesis Htyp : types_written op.
  Hypothesis Hshow : op_show_emit op = false.
  Let X : pexpr -> Prop := fun x => expr_ok e x = true.
  Let T : ptype -> Prop := fun t => type_ok e t = true.
  Let M : aggfn -> Prop := fun a => aggfn_ok e a = true.

  (** The text of a header, at any depth: lines after the first are one level
      deeper and start with a dash. *)
  Definition line_text (d : nat) (t : list N) : Prop :=
    exists first rest, t = join [c_nl] (first :: rest) /\ nlf first /\
      Forall (fun l => exists u, l = indent_text op (S d) ++ L "- " ++ u /\ nlf u /\ hd_not is_ws u = true /\ u <> []) rest.
  Definition header_line (h : header) (y : rline) : Prop :=
    forall d, exists t, o_text (header_out op d h) = indent_text op d ++ t /\ line_text d t /\
      starts_alpha t /\ (exists b, t = b ++ L "]") /\ g_relation t = Some (y, []) /\ g_root t = None.
  Lemma one_line_header h y t : (forall d, o_text (header_out op d h) = indent_text op d ++ t) -> one_line t y -> header_line h y.
  Proof.
    intros H (H1 & H2 & H3 & H4 & H5) d. exists t. repeat split; auto. exists t, []. repeat split; auto.
  Qed.

  (** *** Expressions *)

  Lemma expr_item x : X x -> exists c, lower_expr e c = Ok x /\ item g_expr (etext U F op e x) c.
  Proof.
    intros Hx. destruct (expr_back U F Hascii op e W Hanc Htyp x Hx) as (Hs & c & Hc & G). exists c. split; [exact Hc|].
    split; [now apply starts_value_visible, starts_value_expr|exact G].
  Qed.
  Lemma expr_items xs : Forall X xs ->
    exists cs, lower_exprs e cs = Ok xs /\ Forall2 (item g_expr) (map (etext U F op e) xs) cs.
  Proof.
    induction 1 as [|x xs Hx _ (cs & Hc & G)]; [exists []; split; constructor|].
    destruct (expr_item x Hx) as (c & Hc1 & G1). exists (c :: cs). unfold lower_exprs in *. cbn [rlist]. rewrite Hc1.
    cbn [rbind]. rewrite Hc. split; [reflexivity|]. now constructor.
  Qed.
  Lemma nlf_exprs xs : Forall X xs -> Forall nlf (map (etext U F op e) xs).
  Proof. intros H. apply Forall_map. eapply Forall_impl; [|exact H]. intros x Hx. now apply nlf_expr. Qed.

  Ltac ends := eexists; rewrite !app_assoc; reflexivity.
  Tactic Notation "alts" integer(n) := unfold g_relation; do n (apply palt_r; [reflexivity|]); apply palt_l.

  (** *** Filter *)
  Lemma filter_line c n x m w adv : X x -> emits c n n m w ->
    exists y, header_line (filter_header reg op e c n (Some x) adv) y /\
      hd_emitted (filter_header reg op e c n (Some x) adv) = w /\
      forall i a, lower_rel e y [(i, n)] a = Ok (RFilter c (Some i) (Some x) a, w).
  Proof.
    intros Hx He. destruct (expr_item x Hx) as (cx & Lx & _ & Gx). exists (YFilter cx (map show_Z m)). split; [|split].
    - eapply one_line_header with (t := L "Filter[" ++ etext U F op e x ++ L " => " ++ join (L ", ") (map ref_text m) ++ L "]").
      + intros d. unfold filter_header. rewrite inline_text.
        erewrite emits_refs; [|exact He|exact Hshow|reflexivity|reflexivity]. reflexivity.
      + split; [nlfs; auto with nlf; try reflexivity; now apply nlf_expr|]. split; [eexists _, _; split; reflexivity|].
        split; [ends|]. split; [|reflexivity]. alts 3. unfold g_filter.
        eapply pthen_some; [reflexivity|]. eapply pthen_some; [reflexivity|].
        eapply pbind_some; [apply Gx; reflexivity|]. apply (arrow_end_reads (YFilter cx)).
    - eapply emits_emitted; [exact He|reflexivity|apply ref_columns_length].
    - intros i a. cbn [lower_rel one_child rbind]. rewrite Lx. cbn [guard_drop rbind fst].
      destruct (emits_parse _ _ _ _ _ He) as (k & Hk & <-). unfold total. cbn [map snd list_sum fold_right].
      rewrite Nat.add_0_r, Hk. reflexivity.
  Qed.

  (** *** Sort *)
  Lemma sort_text x d : 1 <= d <= 4 -> exists name, enum_name sort_directions (Z.of_nat d) = Some name /\
    enum_number sort_directions (L name) = Some (Z.of_nat d) /\ nlf (L name) /\
    forall r, ptoks sort_toks (L "&" ++ L name ++ x :: r) = Some (L "&" ++ L name, x :: r) \/ is_idchar x = true.
  Proof.
    intros Hd. do 5 (destruct d as [|d]; [first [lia|eexists; split; [reflexivity|]; split; [reflexivity|]; split; [reflexivity|];
      intros r; left; reflexivity]|]). lia.
  Qed.
  Lemma sort_item s : sort_writable X s ->
    exists c, lower_sort_field e c = Ok s /\ nlf (o_text (sort_field_out op e s)) /\
      item g_sort_field (o_text (sort_field_out op e s)) c.
  Proof.
    intros (x & d & -> & Hx & Hd). destruct (expr_item x Hx) as (cx & Lx & Vx & Gx).
    destruct (sort_text 41%N (Z.to_nat d) ltac:(lia)) as (name & N1 & N2 & N3 & N4). rewrite Z2Nat.id in * by lia.
    assert (Et : o_text (sort_field_out op e (mk_sort_field (Some x) (Some (SkDirection d)))) =
      L "(" ++ etext U F op e x ++ L ", " ++ (L "&" ++ L name) ++ L ")").
    { unfold sort_field_out, tuple_out. cbn [sf_expr sf_kind opt_expr_out sort_kind_out]. unfold enum_out. rewrite N1.
      cbn [osep]. rewrite !o_text_app. cbn [o_text txt]. now rewrite <- !app_assoc. }
    rewrite Et. exists (cx, L "&" ++ L name). split; [|split; [|split]].
    - unfold lower_sort_field. cbn [fst snd]. rewrite Lx. cbn [guard_drop rbind].
      change (tl (L "&" ++ L name)) with (L name). now rewrite N2.
    - nlfs; try reflexivity; auto. now apply nlf_expr.
    - eexists _, _. split; reflexivity.
    - intros r Hr. unfold g_sort_field. rewrite <- !app_assoc. eapply pthen_some; [reflexivity|].
      eapply pthen_some; [now apply sp_none, visible_sp|]. eapply pbind_some; [apply Gx; reflexivity|].
      eapply pthen_some; [apply comma_sp_like with (t := L "&"); eexists _, _; split; reflexivity|].
      eapply pbind_some.
      { destruct (N4 r) as [E|E]; [exact E|discriminate]. }
      reflexivity.
  Qed.
  Lemma strict_sort_field : strict g_sort_field.
  Proof. unfold g_sort_field. peg_shrink. Qed.
  Lemma sort_items l : Forall (sort_writable X) l ->
    exists cs, rlist (lower_sort_field e) cs = Ok l /\ Forall nlf (map o_text (map (sort_field_out op e) l)) /\
      Forall2 (item g_sort_field) (map o_text (map (sort_field_out op e) l)) cs.
  Proof.
    induction 1 as [|x l Hx _ (cs & Hc & Hn & G)]; [exists []; repeat split; constructor|].
    destruct (sort_item x Hx) as (c & Hc1 & Hn1 & G1). exists (c :: cs). cbn [rlist map]. rewrite Hc1.
    cbn [rbind]. rewrite Hc. split; [reflexivity|]. split; now constructor.
  Qed.
  Lemma sort_line c n sorts m w adv : sorts <> [] -> Forall (sort_writable X) sorts -> emits c n n m w ->
    exists y, header_line (sort_header reg op e c n sorts adv) y /\
      hd_emitted (sort_header reg op e c n sorts adv) = w /\
      forall i a, lower_rel e y [(i, n)] a = Ok (RSort c (Some i) sorts a, w).
  Proof.
    intros Hne Hs He. destruct (sort_items sorts Hs) as (cs & Lc & Nc & Gc). exists (YSort cs (map show_Z m)). split; [|split].
    - set (body := join (L ", ") (map o_text (map (sort_field_out op e) sorts))) in *.
      eapply one_line_header with (t := L "Sort[" ++ body ++ L " => " ++ join (L ", ") (map ref_text m) ++ L "]").
      + intros d. unfold sort_header. rewrite inline_text.
        erewrite emits_refs; [|exact He|exact Hshow|reflexivity|reflexivity]. rewrite text_arguments.
        destruct sorts as [|s sorts]; [congruence|]. cbn [map app]. rewrite app_nil_r. reflexivity.
      + split; [nlfs; auto with nlf; try reflexivity; now apply nlf_join|]. split; [eexists _, _; split; reflexivity|].
        split; [ends|]. split; [|reflexivity]. alts 6. unfold g_sort.
        eapply pthen_some; [reflexivity|]. eapply pthen_some; [reflexivity|].
        eapply pbind_some.
        { apply psep0_reads; [apply strict_sort_field|apply comma_sp_like|exact Gc|reflexivity|reflexivity|reflexivity]. }
        apply (arrow_end_reads (YSort cs)).
    - eapply emits_emitted; [exact He|reflexivity|apply ref_columns_length].
    - intros i a. cbn [lower_rel one_child rbind]. rewrite Lc. cbn [rbind fst].
      destruct (emits_parse _ _ _ _ _ He) as (k & Hk & <-). unfold total. cbn [map snd list_sum fold_right].
      rewrite Nat.add_0_r, Hk. reflexivity.
  Qed.

  (** *** Fetch *)
  Lemma not_integer x r : X x -> match x with ELit l => is_number l = false | _ => True end ->
    g_integer (etext U F op e x ++ r) = None.
  Proof.
    intros Hx Hn. assert (K : forall c s, is_digit c = false -> c <> 45%N -> g_integer (c :: s) = None).
    { intros c s H1 H2. now apply num_none. }
    destruct x as [l|f|g args opts t|ifs els|b i t|v|]; try discriminate Hx.
    - unfold X in Hx. cbn [expr_ok] in Hx. destruct l as [[v|] n var]; [|discriminate]. unfold literal_ok in Hx. cbn [l_type l_nullable l_var] in Hx.
      apply andb_true_iff in Hx as [Hok Hv]. apply N.eqb_eq in Hv as ->.
      unfold etext. cbn [expr_out]. fold (ltext U F op e (mk_lit (Some v) n 0)).
      destruct (literal_text U F op e W v n Hok) as (t & -> & _). unfold is_number in Hn. cbn [l_type] in Hn.
      rewrite <- app_assoc. destruct (is_quoted v) eqn:Hq.
      + destruct (quoted_round_trip U F Hascii e v n Hok Hq) as (s & E & _ & _).
        rewrite (value_text_quoted U F op e v n s Hok E). apply K; [reflexivity|discriminate].
      + destruct v; try discriminate Hn; try discriminate Hq; try discriminate Hok; cbn [litval_out o_text txt].
        * destruct b; (apply K; [reflexivity|discriminate]).
        * apply K; [reflexivity|discriminate].
    - unfold X in Hx. cbn [expr_ok] in Hx. destruct f as [[[i [ch|]| |]| |] []]; try discriminate Hx. apply K; [reflexivity|discriminate].
    - unfold X in Hx. cbn [expr_ok] in Hx. destruct opts; [|discriminate]. destruct t as [t|]; [|discriminate].
      bool_hyps. rename H into Hf. unfold function_ok in Hf. destruct (decl_get e KFunction g) as [[u n]|] eqn:Hd; [|discriminate]. bool_hyps.
      pose proof (call_out_text op e W g (map (arg_out op e) args) t u n Hd) as Ec.
      change (etext U F op e (EFunc g args [] (Some t)) = call_text op e (shown_name op e KFunction g n)
          (shown_anchor op e KFunction g n) (map o_text (map (arg_out op e) args)) t) in Ec. rewrite Ec. unfold call_text.
      assert (Hn' : fn_name_ok (shown_name op e KFunction g n) = true) by now apply shown_fn_ok.
      destruct (fn_name_alpha _ Hn') as (ch & w & -> & Hch). cbn [app]. apply K; [chars|]. intros ->. discriminate.
    - apply K; [reflexivity|discriminate].
    - apply K; [reflexivity|discriminate].
  Qed.
  Definition bound_text (m : fetch_mode) : list N := o_text (fetch_mode_out op e m).
  Lemma bound_back m : bound_writable op X (Some m) ->
    exists v, (forall what, lower_fetch_value e what v = Ok m) /\ nlf (bound_text m) /\ item g_fetch_value (bound_text m) v.
  Proof.
    destruct m as [x|z]; [|intros []]. cbn [bound_writable]. intros H.
    assert (G : X x -> match x with ELit l => is_number l = false | _ => True end ->
      exists v, (forall what, lower_fetch_value e what v = Ok (FmExpr x)) /\ nlf (bound_text (FmExpr x)) /\
        item g_fetch_value (bound_text (FmExpr x)) v).
    { intros Hx Hn. destruct (expr_item x Hx) as (cx & Lx & Vx & Gx). exists (FvExpr cx).
      split; [intros what; cbn [lower_fetch_value]; now rewrite Lx|]. split; [now apply nlf_expr|]. split; [exact Vx|].
      intros r Hr. unfold g_fetch_value. apply palt_r; [now apply pmap_none, (not_integer x r)|]. apply pmap_some. now apply Gx. }
    destruct x as [l|f|g args opts t|ifs els|b i t|v|]; try (now apply G).
    destruct (is_number l) eqn:Hn; [|now apply G]. destruct H as (Hop & z & -> & Hz & Hr).
    assert (Et : bound_text (FmExpr (ELit (mk_lit (Some (LI64 z)) false 0))) = show_Z z).
    { unfold bound_text. cbn [fetch_mode_out expr_out]. unfold literal_out. cbn [l_type l_nullable]. rewrite Hop.
      cbn [litval_out is_default_for_syntax negb orb]. rewrite o_text_app. cbn [o_text txt onil]. apply app_nil_r. }
    rewrite Et. exists (FvInt (show_Z z)). split; [|split; [apply nlf_show_Z|split]].
    - intros what. cbn [lower_fetch_value]. rewrite parse_i64_show by auto. replace (z <? 0)%Z with false by lia. reflexivity.
    - destruct (show_Z_head z) as (ch & r & E & Hc). exists ch, r. split; [exact E|]. unfold is_sp. chars.
    - intros r Hrr. unfold g_fetch_value. apply palt_l, pmap_some, g_integer_show_Z. now apply follow_digit.
  Qed.
  Lemma fetch_arg_item name m : name = "limit" \/ name = "offset" -> bound_writable op X (Some m) ->
    exists v, (forall what, lower_fetch_value e what v = Ok m) /\ nlf (L name ++ L "=" ++ bound_text m) /\
      item g_fetch_arg (L name ++ L "=" ++ bound_text m) (L name, v).
  Proof.
    intros Hname Hm. destruct (bound_back m Hm) as (v & Lv & Nv & Vv & Gv). exists v. split; [exact Lv|]. split; [|split].
    - nlfs; auto; destruct Hname as [->| ->]; reflexivity.
    - destruct Hname as [->| ->]; eexists _, _; split; reflexivity.
    - intros r Hr. unfold g_fetch_arg. rewrite <- !app_assoc. eapply pbind_some with (a := L name) (r := L "=" ++ bound_text m ++ r).
      { destruct Hname as [->| ->]; reflexivity. }
      eapply pthen_some; [apply sp_none; reflexivity|]. eapply pthen_some; [apply (ptok_app (L "="))|].
      eapply pthen_some; [now apply sp_none, visible_sp|]. eapply pbind_some; [now apply Gv|]. reflexivity.
  Qed.
  Lemma strict_fetch_arg : strict g_fetch_arg.
  Proof. unfold g_fetch_arg, g_fetch_value. peg_shrink. Qed.
  Lemma fetch_args count offset : bound_writable op X count -> bound_writable op X offset ->
    exists args, has_duplicate args = false /\
      (forall what, lower_fetch_opt e what (imap_get (L "limit") args) = Ok count) /\
      (forall what, lower_fetch_opt e what (imap_get (L "offset") args) = Ok offset) /\
      nlf (o_text (arguments_out [] (fetch_arg op e "limit" count ++ fetch_arg op e "offset" offset))) /\
      forall rest, (psep1 comma_sp g_fetch_arg <|> pmap (fun _ => []) g_empty)
        (o_text (arguments_out [] (fetch_arg op e "limit" count ++ fetch_arg op e "offset" offset)) ++ L " => " ++ rest)
        = Some (args, L " => " ++ rest).
  Proof.
    intros Hc Ho.
    assert (P : forall ts vs rest, ts <> [] -> Forall2 (item g_fetch_arg) ts vs ->
      (psep1 comma_sp g_fetch_arg <|> pmap (fun _ => []) g_empty) (join (L ", ") ts ++ L " => " ++ rest) = Some (vs, L " => " ++ rest)).
    { intros ts vs rest Hne H. apply palt_l. apply psep1_reads; auto using strict_fetch_arg, comma_sp_like. }
    rewrite text_arguments.
    destruct count as [cm|], offset as [om|]; cbn [fetch_arg app map fst snd]; fold (bound_text).
    - destruct (fetch_arg_item "limit" cm) as (v1 & L1 & N1 & G1); auto. destruct (fetch_arg_item "offset" om) as (v2 & L2 & N2 & G2); auto.
      exists [(L "limit", v1); (L "offset", v2)].
      split; [reflexivity|]. split; [intros; cbn; now rewrite L1|]. split; [intros; cbn; now rewrite L2|].
      split; [apply nlf_join; [reflexivity|]; repeat constructor; auto|].
      intros rest; (apply P; [discriminate|]; repeat constructor; apply G1 || apply G2).
    - destruct (fetch_arg_item "limit" cm) as (v1 & L1 & N1 & G1); auto.
      exists [(L "limit", v1)].
      split; [reflexivity|]. split; [intros; cbn; now rewrite L1|]. split; [reflexivity|].
      split; [apply nlf_join; [reflexivity|]; repeat constructor; auto|].
      intros rest; (apply P; [discriminate|]; repeat constructor; apply G1).
    - destruct (fetch_arg_item "offset" om) as (v2 & L2 & N2 & G2); auto.
      exists [(L "offset", v2)].
      split; [reflexivity|]. split; [reflexivity|]. split; [intros; cbn; now rewrite L2|].
      split; [apply nlf_join; [reflexivity|]; repeat constructor; auto|].
      intros rest; (apply P; [discriminate|]; repeat constructor; apply G2).
    - exists []. repeat split; reflexivity.
  Qed.

  Lemma fetch_line c n count offset m w adv : bound_writable op X count -> bound_writable op X offset -> emits c n n m w ->
    exists y, header_line (fetch_header reg op e c n count offset adv) y /\
      hd_emitted (fetch_header reg op e c n count offset adv) = w /\
      forall i a, lower_rel e y [(i, n)] a = Ok (RFetch c (Some i) count offset a, w).
  Proof.
    intros Hc Ho He. destruct (fetch_args count offset Hc Ho) as (args & Hd & Lc & Lo & Nf & Gf).
    exists (YFetch args (map show_Z m)). split; [|split].
    - eapply one_line_header with (t := L "Fetch[" ++
        o_text (arguments_out [] (fetch_arg op e "limit" count ++ fetch_arg op e "offset" offset)) ++
        L " => " ++ join (L ", ") (map ref_text m) ++ L "]").
      + intros d. unfold fetch_header. rewrite inline_text.
        erewrite emits_refs; [|exact He|exact Hshow|reflexivity|reflexivity]. reflexivity.
      + split; [nlfs; auto with nlf; reflexivity|]. split; [eexists _, _; split; reflexivity|].
        split; [ends|]. split; [|reflexivity]. alts 7. unfold g_fetch.
        eapply pthen_some; [reflexivity|]. eapply pthen_some; [reflexivity|].
        eapply pbind_some; [apply Gf|]. apply (arrow_end_reads (YFetch args)).
    - eapply emits_emitted; [exact He|reflexivity|apply ref_columns_length].
    - intros i a. cbn [lower_rel one_child rbind]. rewrite Hd. cbn [guard_drop rbind fst].
      destruct (emits_parse _ _ _ _ _ He) as (k & Hk & <-). unfold total. cbn [map snd list_sum fold_right].
      rewrite Nat.add_0_r, Hk. cbn [rbind]. rewrite Lc. cbn [rbind]. rewrite Lo. reflexivity.
  Qed.

  (** *** Join *)
  Lemma join_type_text t name : enum_name join_types t = Some name ->
    enum_number join_types (L name) = Some t /\ nlf (L name) /\
    (forall l r, join_output name l r (join_width t l r)) /\
    forall r, ptoks join_toks ((L "&" ++ L name) ++ L ", " ++ r) = Some (L "&" ++ L name, L ", " ++ r).
  Proof.
    unfold join_types. cbn [enum_name].
    repeat (match goal with |- context [(?k =? t)%Z] => destruct (Z.eqb_spec k t) as [<-|_] end;
      [intros [= <-]; split; [reflexivity|]; split; [reflexivity|]; split; [|intros; reflexivity];
       intros l r; unfold join_width; cbn [Z.eqb Pos.eqb orb]; constructor|]).
    discriminate.
  Qed.
  Lemma join_output_unique name l r a b : join_output name l r a -> join_output name l r b -> a = b.
  Proof. intros H1 H2. destruct H1; inversion H2; reflexivity. Qed.
  Lemma post_reads post : optional X post ->
    exists c, lower_opt_expr e c = Ok post /\ forall rest,
      popt (comma_sp ;;; g_post_filter)
        (match post with Some x => L ", post_filter=" ++ etext U F op e x | None => [] end ++ L " => " ++ rest)
      = Some (c, L " => " ++ rest).
  Proof.
    destruct post as [x|]; cbn [optional]; intros Hx.
    - destruct (expr_item x Hx) as (cx & Lx & Vx & Gx). exists (Some cx). cbn [lower_opt_expr]. rewrite Lx. split; [reflexivity|].
      intros rest. apply popt_some. rewrite <- app_assoc. unfold g_post_filter.
      eapply pthen_some; [reflexivity|]. eapply pthen_some; [reflexivity|]. eapply pthen_some; [reflexivity|].
      eapply pthen_some; [reflexivity|]. eapply pthen_some; [now apply sp_none, visible_sp|]. now apply Gx.
    - exists None. split; [reflexivity|]. intros rest. reflexivity.
  Qed.
  Lemma join_line c nl nr x post t name shown m w adv : X x -> optional X post -> enum_name join_types t = Some name ->
    join_output name nl nr shown -> emits c shown (nl + nr) m w ->
    exists y, header_line (join_header reg op e c nl nr (Some x) post t adv) y /\
      hd_emitted (join_header reg op e c nl nr (Some x) post t adv) = w /\
      forall l r a, lower_rel e y [(l, nl); (r, nr)] a = Ok (RJoin c (Some l) (Some r) (Some x) post t a, w).
  Proof.
    intros Hx Hp Ht Hj He. destruct (join_type_text t name Ht) as (Hnum & Nn & Hw & Gt).
    assert (shown = join_width t nl nr) as -> by (eapply join_output_unique; eauto).
    destruct (expr_item x Hx) as (cx & Lx & Vx & Gx). destruct (post_reads post Hp) as (cp & Lp & Gp).
    exists (YJoin (L "&" ++ L name) cx cp (map show_Z m)). split; [|split].
    - eapply one_line_header with (t := L "Join[" ++ (L "&" ++ L name) ++ L ", " ++ etext U F op e x ++
        match post with Some x => L ", post_filter=" ++ etext U F op e x | None => [] end ++
        L " => " ++ join (L ", ") (map ref_text m) ++ L "]").
      + intros d. unfold join_header. rewrite inline_text.
        erewrite emits_refs; [|exact He|exact Hshow|reflexivity|reflexivity].
        rewrite text_arguments. unfold enum_out. rewrite Ht. destruct post as [p|]; cbn [map app fst snd join o_text txt opt_expr_out];
          rewrite <- ?app_assoc; reflexivity.
      + split.
        { nlfs; auto with nlf; try reflexivity; try (now apply nlf_expr). destruct post; [|reflexivity].
          apply nlf_app; [reflexivity|now apply nlf_expr]. }
        split; [eexists _, _; split; reflexivity|].
        split; [ends|]. split; [|reflexivity]. alts 8. unfold g_join.
        eapply pthen_some; [reflexivity|]. eapply pthen_some; [reflexivity|].
        eapply pbind_some; [apply Gt|].
        eapply pthen_some; [apply (proj2 comma_sp_like); exact Vx|].
        eapply pbind_some; [apply Gx; destruct post; reflexivity|].
        eapply pbind_some; [apply Gp|]. apply (arrow_end_reads (YJoin (L "&" ++ L name) cx cp)).
    - eapply emits_emitted; [exact He|reflexivity|apply ref_columns_length].
    - intros l r a. cbn [lower_rel two_children rbind]. change (tl (L "&" ++ L name)) with (L name). rewrite Hnum.
      cbn [unwrap rbind]. rewrite Lx. cbn [guard_drop rbind]. rewrite Lp. cbn [guard_drop rbind fst snd].
      destruct (emits_parse _ _ _ _ _ He) as (k & Hk & <-). unfold total. cbn [map snd list_sum fold_right].
      rewrite Nat.add_0_r, Hk. reflexivity.
  Qed.

  (** *** Set *)
  Lemma set_op_text o name : enum_name set_ops o = Some name ->
    enum_number set_ops (L name) = Some o /\ nlf (L name) /\
    forall r, ptoks set_toks ((L "&" ++ L name) ++ L " => " ++ r) = Some (L "&" ++ L name, L " => " ++ r).
  Proof.
    unfold set_ops. cbn [enum_name].
    repeat (match goal with |- context [(?k =? o)%Z] => destruct (Z.eqb_spec k o) as [<-|_] end;
      [intros [= <-]; split; [reflexivity|]; split; [reflexivity|]; intros; reflexivity|]).
    discriminate.
  Qed.
  Lemma same_widths n (ws : list nat) : ws <> [] -> (forall k, In k ws -> k = n) ->
    match ws with [] => 0 | _ => list_sum ws / length ws end = n.
  Proof.
    intros Hne H. assert (E : list_sum ws = n * length ws).
    { clear Hne. induction ws as [|a ws IH]; [cbn; lia|]. change (list_sum (a :: ws)) with (a + list_sum ws). cbn [length].
      rewrite IH by (intros; apply H; now right). rewrite (H a) by now left. lia. }
    destruct ws as [|a ws]; [congruence|]. rewrite E. apply Nat.div_mul. discriminate.
  Qed.
  Lemma set_line c n ws o name m w adv : ws <> [] -> (forall k, In k ws -> k = n) -> enum_name set_ops o = Some name ->
    emits c n n m w ->
    exists y, header_line (set_header reg op e c ws o adv) y /\
      hd_emitted (set_header reg op e c ws o adv) = w /\
      forall cs a, 2 <= length cs -> (forall x, In x cs -> snd x = n) ->
        lower_rel e y cs a = Ok (RSet c (map fst cs) o a, w).
  Proof.
    intros Hne Hws Ho He. destruct (set_op_text o name Ho) as (Hnum & Nn & Gt).
    unfold set_header. rewrite (same_widths n ws Hne Hws).
    exists (YSet (L "&" ++ L name) (map show_Z m)). split; [|split].
    - eapply one_line_header with (t := L "Set[" ++ (L "&" ++ L name) ++ L " => " ++ join (L ", ") (map ref_text m) ++ L "]").
      + intros d. rewrite inline_text.
        erewrite emits_refs; [|exact He|exact Hshow|reflexivity|reflexivity].
        rewrite text_arguments. unfold enum_out. rewrite Ho. reflexivity.
      + split; [nlfs; auto with nlf; try reflexivity|]. split; [eexists _, _; split; reflexivity|].
        split; [ends|]. split; [|reflexivity]. alts 9. unfold g_set.
        eapply pthen_some; [reflexivity|]. eapply pthen_some; [reflexivity|].
        eapply pbind_some; [apply Gt|]. apply (arrow_end_reads (YSet (L "&" ++ L name))).
    - eapply emits_emitted; [exact He|reflexivity|apply ref_columns_length].
    - intros cs a Hlen Hall. cbn [lower_rel]. change (tl (L "&" ++ L name)) with (L name). rewrite Hnum.
      destruct cs as [|c1 [|c2 cs]]; cbn [length] in Hlen; try lia.
      assert (Ef : forallb (fun d => Nat.eqb (snd d) (snd c1)) (c1 :: c2 :: cs) = true).
      { apply forallb_forall. intros x Hx. apply Nat.eqb_eq. rewrite (Hall x Hx), (Hall c1); [reflexivity|now left]. }
      rewrite Ef. cbn [unwrap rbind]. rewrite (Hall c1) by now left.
      destruct (emits_parse _ _ _ _ _ He) as (k & Hk & <-). rewrite Hk. reflexivity.
  Qed.

  (** *** Cross *)
  Lemma cross_line c nl nr m w adv : emits c (nl + nr) (nl + nr) m w ->
    exists y, header_line (cross_header reg op e c (nl + nr) adv) y /\
      hd_emitted (cross_header reg op e c (nl + nr) adv) = w /\
      forall l r a, lower_rel e y [(l, nl); (r, nr)] a = Ok (RCross c (Some l) (Some r) a, w).
  Proof.
    intros He. exists (YCross (map show_Z m)). split; [|split].
    - eapply one_line_header with (t := L "Cross[" ++ join (L ", ") (map ref_text m) ++ L "]").
      + intros d. unfold cross_header. rewrite bare_text.
        erewrite emits_refs; [|exact He|exact Hshow|reflexivity|reflexivity]. reflexivity.
      + split; [nlfs; auto with nlf; try reflexivity|]. split; [eexists _, _; split; reflexivity|].
        split; [ends|]. split; [|reflexivity]. alts 10. unfold g_cross.
        eapply pthen_some; [reflexivity|]. eapply pthen_some; [reflexivity|]. apply (end_reads YCross).
    - eapply emits_emitted; [exact He|reflexivity|apply ref_columns_length].
    - intros l r a. cbn [lower_rel two_children rbind fst snd].
      destruct (emits_parse _ _ _ _ _ He) as (k & Hk & <-). unfold total. cbn [map snd list_sum fold_right].
      rewrite Nat.add_0_r, Hk. reflexivity.
  Qed.


  (** *** Project *)
  Definition project_text (n : nat) (xs : list pexpr) (i : nat) : list N :=
    if i <? n then ref_text (wrap_i32 (Z.of_nat i)) else etext U F op e (nth (i - n) xs ENone).
  Lemma map_nth_seq {A} (xs : list A) d : map (fun i => nth i xs d) (seq 0 (length xs)) = xs.
  Proof.
    induction xs as [|x xs IH]; [reflexivity|]. cbn [length seq map nth]. f_equal. rewrite <- seq_shift, map_map. exact IH.
  Qed.
  Lemma seq_offset n k : seq n k = map (fun i => n + i) (seq 0 k).
  Proof.
    revert n. induction k as [|k IH]; intros n; [reflexivity|]. cbn [seq map]. f_equal; [lia|].
    rewrite IH, (IH 1), map_map. apply map_ext. intros; lia.
  Qed.
  Lemma project_columns n xs :
    map o_text (ref_columns n ++ map (expr_out op e) xs) = map (project_text n xs) (seq 0 (n + length xs)).
  Proof.
    rewrite seq_app, !map_app. f_equal.
    - unfold ref_columns. rewrite map_map. apply map_ext_in. intros i Hi. apply in_seq in Hi. cbn [o_text txt].
      unfold project_text. replace (i <? n) with true by (symmetry; apply Nat.ltb_lt; lia). reflexivity.
    - rewrite (seq_offset (0 + n)), !map_map. rewrite <- (map_nth_seq xs ENone) at 1. rewrite map_map. apply map_ext. intros i.
      unfold project_text. replace (0 + n + i <? n) with false by (symmetry; apply Nat.ltb_ge; lia).
      replace (0 + n + i - n) with i by lia. reflexivity.
  Qed.
  Lemma strict_project_arg : strict g_project_arg.
  Proof. unfold g_project_arg. peg_shrink. Qed.
  Lemma skipn_nth {A} k (xs : list A) d : k < length xs -> skipn k xs = nth k xs d :: skipn (S k) xs.
  Proof.
    revert xs. induction k as [|k IH]; intros [|x xs] H; cbn [length] in H; try lia; [reflexivity|].
    change (skipn (S k) (x :: xs)) with (skipn k xs). cbn [nth]. rewrite IH by lia. reflexivity.
  Qed.
  Lemma project_args n xs : Forall X xs -> Forall (fun x => is_reference x = false) xs ->
    (Z.of_nat (n + length xs) <= column_limit)%Z ->
    forall m k, k <= length xs -> Forall (fun i => 0 <= i < Z.of_nat (n + length xs))%Z m ->
      filter (fun i => (Z.of_nat n <=? i)%Z) m = map Z.of_nat (seq (n + k) (length xs - k)) ->
      exists args, lower_project e n k args = Ok (skipn k xs, m) /\
        Forall nlf (map (fun i => project_text n xs (Z.to_nat i)) m) /\
        Forall2 (item g_project_arg) (map (fun i => project_text n xs (Z.to_nat i)) m) args.
  Proof.
    intros HX HR Hlim. induction m as [|i m IH]; intros k Hk Hm Hf.
    - cbn [filter] in Hf. destruct (length xs - k) eqn:E; [|discriminate]. exists []. split; [|split; constructor].
      cbn [lower_project]. rewrite skipn_all2 by lia. reflexivity.
    - apply Forall_inv in Hm as Hi. apply Forall_inv_tail in Hm. cbn [filter] in Hf. destruct (Z.leb_spec (Z.of_nat n) i) as [Hle|Hlt].
      + destruct (length xs - k) as [|j] eqn:E; [discriminate|]. cbn [seq map] in Hf. injection Hf as Hi' Hf.
        assert (Hj : j = length xs - S k) by lia. rewrite Hj in Hf. replace (S (n + k)) with (n + S k) in Hf by lia.
        destruct (IH (S k)) as (args & La & Na & Ga); auto; [lia|].
        assert (Hin : In (nth k xs ENone) xs) by (apply nth_In; lia).
        assert (Hx : X (nth k xs ENone)) by (rewrite Forall_forall in HX; auto).
        assert (Hr : is_reference (nth k xs ENone) = false) by (rewrite Forall_forall in HR; auto).
        destruct (expr_item _ Hx) as (cx & Lx & Vx & Gx).
        assert (Et : project_text n xs (Z.to_nat i) = etext U F op e (nth k xs ENone)).
        { unfold project_text. replace (Z.to_nat i <? n) with false by (symmetry; apply Nat.ltb_ge; lia).
          replace (Z.to_nat i - n) with k by lia. reflexivity. }
        exists (PaExpr cx :: args). cbn [lower_project map]. rewrite Et, Lx. cbn [rbind]. rewrite La. cbn [rbind fst snd].
        rewrite <- (skipn_nth k xs ENone) by lia. rewrite wrap_i32_id.
        2:{ apply in_range_index with (n := n + length xs); [lia|exact Hlim]. }
        split; [repeat f_equal; lia|]. split; [constructor; [now apply nlf_expr|exact Na]|].
        constructor; [|exact Ga]. split; [exact Vx|]. intros r Hrr. unfold g_project_arg. apply palt_r.
        * apply pmap_none. destruct (reference_or_not U F Hascii op e W Hanc _ Hx) as [(z & Ez & _)|[_ G]]; [rewrite Ez in Hr; discriminate|].
          now apply G.
        * apply pmap_some. now apply Gx.
      + destruct (IH k) as (args & La & Na & Ga); auto.
        assert (Et : project_text n xs (Z.to_nat i) = ref_text i).
        { unfold project_text. replace (Z.to_nat i <? n) with true by (symmetry; apply Nat.ltb_lt; lia).
          f_equal. rewrite wrap_index by lia. lia. }
        exists (PaRef (show_Z i) :: args). cbn [lower_project map]. rewrite Et. unfold field_index.
        rewrite parse_i32_show by (apply in_range_index with (n := n + length xs); [lia|exact Hlim]). cbn [unwrap rbind].
        rewrite La. cbn [rbind fst snd]. split; [reflexivity|]. split; [constructor; [apply nlf_ref|exact Na]|].
        constructor; [|exact Ga]. split; [apply ref_text_visible|]. intros r Hrr. unfold g_project_arg. apply palt_l, pmap_some.
        now apply reference_reads.
  Qed.
  Lemma emits_within c n all k w : emits c n all k w -> (Z.of_nat n <= column_limit)%Z /\ Forall (fun i => 0 <= i < Z.of_nat n)%Z k.
  Proof.
    destruct 1; split; auto. unfold all_columns. apply Forall_map, Forall_forall. intros i Hi. apply in_seq in Hi. lia.
  Qed.
  Lemma project_line c n xs m w adv : Forall X xs -> Forall (fun x => is_reference x = false) xs ->
    emits c (n + length xs) (n + length xs) m w -> in_order n (length xs) m ->
    exists y, header_line (project_header reg op e c n xs adv) y /\
      hd_emitted (project_header reg op e c n xs adv) = w /\
      forall i a, lower_rel e y [(i, n)] a = Ok (RProject c (Some i) xs a, w).
  Proof.
    intros HX HR He Ho. destruct (emits_within _ _ _ _ _ He) as (Hlim & Hm).
    destruct (project_args n xs HX HR Hlim m 0) as (args & La & Na & Ga); [lia|exact Hm| |].
    { rewrite Nat.add_0_r, Nat.sub_0_r. exact Ho. }
    exists (YProject args). split; [|split].
    - eapply one_line_header with (t := L "Project[" ++ join (L ", ") (map (fun i => project_text n xs (Z.to_nat i)) m) ++ L "]").
      + intros d. unfold project_header. rewrite bare_text.
        erewrite emits_shown; [|exact He|exact Hshow|reflexivity|apply project_columns]. reflexivity.
      + split; [nlfs; try reflexivity; now apply nlf_join|]. split; [eexists _, _; split; reflexivity|].
        split; [ends|]. split; [|reflexivity]. alts 4. unfold g_project.
        eapply pthen_some; [reflexivity|]. eapply pthen_some; [reflexivity|].
        eapply pbind_some; [apply psep0_reads; [apply strict_project_arg|apply comma_sp_like|exact Ga|reflexivity..]|]. reflexivity.
    - eapply emits_emitted; [exact He|reflexivity|]. unfold project_header. cbn [hd_cols].
      now rewrite app_length, ref_columns_length, map_length.
    - intros i a. cbn [lower_rel one_child rbind]. unfold total. cbn [map snd list_sum fold_right]. rewrite Nat.add_0_r, La.
      cbn [rbind fst snd skipn]. rewrite (emits_make _ _ _ _ _ He). now rewrite (emits_length _ _ _ _ _ He).
  Qed.


  (** *** Aggregate *)
  Lemma not_parenthesis x r : X x -> is_cast x = false -> hd_not (N.eqb 40) (etext U F op e x ++ r) = true.
  Proof.
    intros Hx Hn. destruct x as [l|f|g args opts t|ifs els|b i t|v|]; try discriminate Hx; try discriminate Hn.
    - unfold X in Hx. cbn [expr_ok] in Hx. destruct l as [[v|] n var]; [|discriminate]. unfold literal_ok in Hx. cbn [l_type l_nullable l_var] in Hx.
      apply andb_true_iff in Hx as [Hok Hv]. apply N.eqb_eq in Hv as ->.
      unfold etext. cbn [expr_out]. fold (ltext U F op e (mk_lit (Some v) n 0)).
      destruct (literal_text U F op e W v n Hok) as (t & -> & _). rewrite <- app_assoc. destruct (word_value v) eqn:Hw.
      + destruct v; try discriminate Hw; cbn [litval_out o_text txt]; [destruct b|]; reflexivity.
      + destruct (value_head U F Hascii op e v n Hok Hw) as (c & s & -> & Hc). cbn [app hd_not]. unfold lit_head in Hc.
        destruct (N.eqb_spec 40 c); auto; subst; discriminate.
    - unfold X in Hx. cbn [expr_ok] in Hx. destruct f as [[[i [ch|]| |]| |] []]; try discriminate Hx. reflexivity.
    - unfold X in Hx. cbn [expr_ok] in Hx. destruct opts; [|discriminate]. destruct t as [t|]; [|discriminate].
      bool_hyps. rename H into Hf. unfold function_ok in Hf. destruct (decl_get e KFunction g) as [[u n]|] eqn:Hd; [|discriminate]. bool_hyps.
      pose proof (call_out_text op e W g (map (arg_out op e) args) t u n Hd) as Ec.
      change (etext U F op e (EFunc g args [] (Some t)) = call_text op e (shown_name op e KFunction g n)
          (shown_anchor op e KFunction g n) (map o_text (map (arg_out op e) args)) t) in Ec. rewrite Ec. unfold call_text.
      assert (Hn' : fn_name_ok (shown_name op e KFunction g n) = true) by now apply shown_fn_ok.
      destruct (fn_name_alpha _ Hn') as (ch & w & -> & Hch). cbn [app hd_not].
      destruct (N.eqb_spec 40 ch); auto; subst; discriminate.
    - reflexivity.
  Qed.

  Definition mtext (m : measure) : list N := match ms_fn m with Some a => o_text (aggfn_out op e a) | None => [] end.
  Lemma measure_item gexprs m : measure_writable M gexprs m ->
    exists f args t x a, m = mk_measure (Some a) None /\ ~ In x gexprs /\ lower_expr e (XCall f args t) = Ok x /\
      lower_measure e (f, args, t) = Ok a /\ nlf (mtext m) /\ item g_expr (mtext m) (XCall f args t).
  Proof.
    intros (Hf & a & Ha & HM & Hin). destruct m as [fn fl]. cbn [ms_fn ms_filter] in *. subst fn fl.
    unfold mtext. cbn [ms_fn]. destruct a as [r args opts out inv ph]. unfold M, aggfn_ok in HM.
    cbn [af_ref af_args af_opts af_out af_invocation af_phase] in *.
    destruct opts; [|discriminate]. destruct out as [t|]; [|discriminate].
    apply andb_true_iff in HM as [HM Hp]. apply andb_true_iff in HM as [HM Hi]. apply Z.eqb_eq in Hp, Hi. subst.
    assert (Hx : X (EFunc r args [] (Some t))) by exact HM.
    destruct (expr_item _ Hx) as (c & Lc & Vc & Gc).
    assert (exists f cs ct, c = XCall f cs ct) as (f & cs & ct & ->).
    { destruct c as [ifs els|y b ct|f cs ct|s|l]; eauto; cbn [lower_expr] in Lc; exfalso.
      - apply rbind_ok in Lc as (? & _ & Lc). apply rbind_ok in Lc as (? & _ & Lc). discriminate.
      - apply rbind_ok in Lc as (? & _ & Lc). apply rbind_ok in Lc as (? & _ & Lc). discriminate.
      - apply rmap_ok in Lc as (? & _ & Lc). discriminate.
      - apply rmap_ok in Lc as (? & _ & Lc). discriminate. }
    exists f, cs, ct, (EFunc r args [] (Some t)), (mk_aggfn r args [] (Some t) 0 0).
    split; [reflexivity|]. split; [exact Hin|]. split; [exact Lc|]. split; [|split].
    - cbn [lower_expr] in Lc. unfold lower_measure. apply rbind_ok in Lc as (q1 & -> & Lc). cbn [rbind].
      apply rbind_ok in Lc as (q2 & -> & Lc). cbn [rbind]. apply rbind_ok in Lc as (q3 & -> & Lc). cbn [rbind].
      apply rbind_ok in Lc as (q4 & -> & Lc). cbn [rbind]. injection Lc as <- <- <-. reflexivity.
    - change (nlf (etext U F op e (EFunc r args [] (Some t)))). now apply nlf_expr.
    - exact (conj Vc Gc).
  Qed.
  Lemma measure_outs_text gexprs ms : Forall (measure_writable M gexprs) ms ->
    map o_text (measure_outs op e ms) = map mtext ms.
  Proof.
    induction 1 as [|m ms (_ & a & Ha & _) _ IH]; [reflexivity|]. cbn [measure_outs map]. unfold mtext at 1. rewrite Ha.
    cbn [map]. now rewrite IH.
  Qed.
  Definition no_measure : measure := mk_measure None None.
  Definition aggregate_text (gexprs : list pexpr) (ms : list measure) (i : nat) : list N :=
    if i <? length gexprs then etext U F op e (nth i gexprs ENone) else mtext (nth (i - length gexprs) ms no_measure).
  Lemma aggregate_columns gexprs ms : Forall (measure_writable M gexprs) ms ->
    map o_text (map (expr_out op e) gexprs ++ measure_outs op e ms) =
    map (aggregate_text gexprs ms) (seq 0 (length gexprs + length ms)).
  Proof.
    intros H. rewrite map_app, (measure_outs_text gexprs ms H). rewrite seq_app, !map_app. f_equal.
    - rewrite map_map. rewrite <- (map_nth_seq gexprs ENone) at 1. rewrite map_map. apply map_ext_in. intros i Hi.
      apply in_seq in Hi. unfold aggregate_text. replace (i <? length gexprs) with true by (symmetry; apply Nat.ltb_lt; lia). reflexivity.
    - rewrite (seq_offset (0 + length gexprs)), !map_map. rewrite <- (map_nth_seq ms no_measure) at 1. rewrite map_map.
      apply map_ext. intros i. unfold aggregate_text.
      replace (0 + length gexprs + i <? length gexprs) with false by (symmetry; apply Nat.ltb_ge; lia).
      replace (0 + length gexprs + i - length gexprs) with i by lia. reflexivity.
  Qed.
  Lemma last_pos_nodup gexprs x i : NoDup gexprs -> nth_error gexprs i = Some x -> last_pos 0 x gexprs = Some i.
  Proof.
    intros Hd Hi. pose proof (last_pos_spec x gexprs 0) as H. destruct (last_pos 0 x gexprs) as [j|].
    - destruct H as [Hj H]. rewrite Nat.sub_0_r in H. f_equal. eapply NoDup_nth_error; [exact Hd|lia|congruence].
    - exfalso. apply H. now apply nth_error_In with i.
  Qed.
  Lemma aggregate_outputs gexprs ms : Forall X gexprs -> NoDup gexprs -> Forall (measure_writable M gexprs) ms ->
    (Z.of_nat (length gexprs + length ms) <= column_limit)%Z ->
    forall m k, k <= length ms -> Forall (fun i => 0 <= i < Z.of_nat (length gexprs + length ms))%Z m ->
      filter (fun i => (Z.of_nat (length gexprs) <=? i)%Z) m = map Z.of_nat (seq (length gexprs + k) (length ms - k)) ->
      exists cs, lower_outputs e gexprs k cs = Ok (skipn k ms, m) /\
        Forall nlf (map (fun i => aggregate_text gexprs ms (Z.to_nat i)) m) /\
        Forall2 (item g_expr) (map (fun i => aggregate_text gexprs ms (Z.to_nat i)) m) cs.
  Proof.
    intros HX HD HM Hlim. induction m as [|i m IH]; intros k Hk Hm Hf.
    - cbn [filter] in Hf. destruct (length ms - k) eqn:E; [|discriminate]. exists []. split; [|split; constructor].
      cbn [lower_outputs]. rewrite skipn_all2 by lia. reflexivity.
    - apply Forall_inv in Hm as Hi. apply Forall_inv_tail in Hm. cbn [filter] in Hf.
      destruct (Z.leb_spec (Z.of_nat (length gexprs)) i) as [Hle|Hlt].
      + destruct (length ms - k) as [|j] eqn:E; [discriminate|]. cbn [seq map] in Hf. injection Hf as Hi' Hf.
        assert (Hj : j = length ms - S k) by lia. rewrite Hj in Hf.
        replace (S (length gexprs + k)) with (length gexprs + S k) in Hf by lia.
        destruct (IH (S k)) as (cs & La & Na & Ga); auto; [lia|].
        assert (Hin : In (nth k ms no_measure) ms) by (apply nth_In; lia).
        assert (Hw : measure_writable M gexprs (nth k ms no_measure)) by (rewrite Forall_forall in HM; auto).
        destruct (measure_item _ _ Hw) as (f & args & t & x & a & Em & Hx & Lx & Lm & Nm & Gm).
        assert (Et : aggregate_text gexprs ms (Z.to_nat i) = mtext (nth k ms no_measure)).
        { unfold aggregate_text. replace (Z.to_nat i <? length gexprs) with false by (symmetry; apply Nat.ltb_ge; lia).
          replace (Z.to_nat i - length gexprs) with k by lia. reflexivity. }
        exists (XCall f args t :: cs). cbn [lower_outputs map]. rewrite Et, Lx. cbn [rbind].
        pose proof (last_pos_spec x gexprs 0) as Hp. destruct (last_pos 0 x gexprs) as [p|].
        { exfalso. apply Hx. destruct Hp as [_ Hp]. now apply nth_error_In in Hp. }
        rewrite Lm. cbn [rbind]. rewrite La. cbn [rbind fst snd].
        rewrite <- Em, <- (skipn_nth k ms no_measure) by lia. rewrite wrap_i32_id.
        2:{ apply in_range_index with (n := length gexprs + length ms); [lia|exact Hlim]. }
        split; [repeat f_equal; lia|]. split; constructor; auto.
      + destruct (IH k) as (cs & La & Na & Ga); auto.
        assert (Hin : In (nth (Z.to_nat i) gexprs ENone) gexprs) by (apply nth_In; lia).
        assert (Hx : X (nth (Z.to_nat i) gexprs ENone)) by (rewrite Forall_forall in HX; auto).
        destruct (expr_item _ Hx) as (cx & Lx & Gx).
        assert (Et : aggregate_text gexprs ms (Z.to_nat i) = etext U F op e (nth (Z.to_nat i) gexprs ENone)).
        { unfold aggregate_text. replace (Z.to_nat i <? length gexprs) with true by (symmetry; apply Nat.ltb_lt; lia). reflexivity. }
        exists (cx :: cs). cbn [lower_outputs map]. rewrite Et, Lx. cbn [rbind].
        rewrite (last_pos_nodup gexprs _ (Z.to_nat i) HD) by (apply nth_error_nth'; lia).
        rewrite La. cbn [rbind fst snd]. rewrite wrap_index by lia. rewrite Z2Nat.id by lia. split; [reflexivity|].
        split; constructor; auto. now apply nlf_expr.
  Qed.

  (** Groupings. *)
  Lemma groups_back gexprs sets groups : gexprs = firsts (concat sets) -> sets = map (grouping_exprs gexprs) groups ->
    Forall (fun g => gr_exprs g = [] /\ Forall (fun i => N.to_nat i < length gexprs) (gr_refs g)) groups ->
    build_grouping_fields sets = (groups, gexprs) /\ NoDup gexprs.
  Proof.
    intros Hg Hs H. destruct (build_grouping_fields sets) as [gs xs] eqn:E.
    apply build_grouping_fields_spec in E as (-> & Hd & Hf). rewrite <- Hg in *. split; [|exact Hd]. f_equal.
    assert (P : forall l1 (l2 : list N), Forall2 (at_pos gexprs) (map (fun i => nth (N.to_nat i) gexprs ENone) l1) l2 ->
      Forall (fun i => N.to_nat i < length gexprs) l1 -> l2 = l1).
    { induction l1 as [|i l1 IHl]; intros l2 H2 H1; inversion H2 as [|? i2 ? l2' Ha Hl]; subst l2; [reflexivity|].
      apply Forall_inv in H1 as Hi. apply Forall_inv_tail in H1. f_equal; [|now apply IHl].
      unfold at_pos in Ha. apply N2Nat.inj. eapply (proj1 (NoDup_nth_error gexprs) Hd).
      - apply nth_error_Some. congruence.
      - rewrite Ha. symmetry. now apply nth_error_nth'. }
    rewrite Hs in Hf. clear Hs Hg. revert gs Hf. induction H as [|g groups [He Hi] H IH]; intros gs Hf.
    - now inversion Hf.
    - inversion Hf as [|? g' ? gs' [He' Ha] Hf' E1 E2]. subst gs. f_equal; [|now apply IH].
      destruct g as [gr gx], g' as [gr' gx']. cbn [gr_refs gr_exprs] in *. subst. f_equal. eapply P; eauto.
  Qed.

  Lemma plist_then {A B} (p : peg A) (f : list A -> B) s l r : plist p s = Some (l, r) ->
    (x <- p ;; sp ;;; l <- pstar (ptok (L ",") ;;; sp ;;; p) ;; pret (f (x :: l))) s = Some (f l, r).
  Proof.
    unfold plist, pbind, pthen, pret, pbind. destruct (p s) as [[a q]|]; [|discriminate].
    destruct (sp q) as [[[] q']|]; [|discriminate].
    destruct (pstar _ q') as [[b q'']|]; [|discriminate]. now intros [= <- <-].
  Qed.
  Lemma arrow_after t r : hd_not is_sp t = true -> after_sp (L " => " ++ t) r -> arrow r = Some (tt, t).
  Proof.
    intros Ht [->|H]; [now apply arrow_reads|].
    change (L " => " ++ t) with (c_sp :: L "=> " ++ t) in H. rewrite (sp_one (L "=> " ++ t)) in H by reflexivity.
    injection H as <-. unfold arrow.
    eapply pthen_some; [now apply sp_none|]. eapply pthen_some; [apply (ptok_app (L "=>") (c_sp :: t))|]. now apply sp_one.
  Qed.
  Lemma strict_grouping_set : strict g_grouping_set.
  Proof. unfold g_grouping_set, g_expression_list, g_empty. peg_shrink. Qed.
  Definition set_text (s : list pexpr) : list N :=
    match s with [] => L "_" | _ => L "(" ++ join (L ", ") (map (etext U F op e) s) ++ L ")" end.
  Lemma expression_list_reads xs rest : xs <> [] -> Forall X xs -> expr_follow rest = true ->
    (forall r, after_sp rest r -> ptok (L ",") r = None) ->
    exists cs rest', lower_exprs e cs = Ok xs /\ g_expression_list (join (L ", ") (map (etext U F op e) xs) ++ rest) = Some (cs, rest') /\
      after_sp rest rest'.
  Proof.
    intros Hne HX Hr Hend. destruct (expr_items xs HX) as (cs & Lc & Gc).
    destruct (plist_reads g_expr (map (etext U F op e) xs) cs rest strict_expr) as (r & Gr & Ar); auto; [destruct xs; [congruence|discriminate]|].
    exists cs, r. auto.
  Qed.
  Lemma after_sp_visible rest r : hd_not is_sp rest = true -> after_sp rest r -> r = rest.
  Proof. intros H [->|Hs]; auto. rewrite sp_none in Hs by exact H. now injection Hs. Qed.
  Lemma set_item s : Forall X s -> exists c, lower_exprs e c = Ok s /\ nlf (set_text s) /\ item g_grouping_set (set_text s) c.
  Proof.
    intros HX. destruct s as [|x s].
    - exists []. split; [reflexivity|]. split; [reflexivity|]. split; [eexists _, _; split; reflexivity|]. intros r Hr. reflexivity.
    - destruct (expr_items (x :: s) HX) as (cs & Lc & Gc). exists cs. split; [exact Lc|]. unfold set_text. split; [|split].
      + nlfs; try reflexivity. apply nlf_join; [reflexivity|now apply nlf_exprs].
      + eexists _, _; split; reflexivity.
      + intros r Hr. unfold g_grouping_set. apply palt_l. rewrite <- !app_assoc. eapply pthen_some; [reflexivity|].
        eapply pthen_some.
        { apply sp_none. inversion Gc as [|t c ts cs' [Vt _] _]. cbn [map]. rewrite join_cons, <- app_assoc. apply visible_sp. congruence. }
        destruct (plist_reads g_expr (map (etext U F op e) (x :: s)) cs (L ")" ++ r) strict_expr) as (q & Gq & Aq);
          [discriminate|exact Gc|reflexivity| |].
        { intros q Aq. now rewrite (after_sp_visible (L ")" ++ r) q eq_refl Aq). }
        rewrite (after_sp_visible (L ")" ++ r) q eq_refl Aq) in Gq.
        eapply pbind_some; [exact Gq|]. reflexivity.
  Qed.
  Lemma set_items sets : Forall (Forall X) sets ->
    exists cs, rlist (lower_exprs e) cs = Ok sets /\ Forall nlf (map set_text sets) /\ Forall2 (item g_grouping_set) (map set_text sets) cs.
  Proof.
    induction 1 as [|x l Hx _ (cs & Hc & Hn & G)]; [exists []; repeat split; constructor|].
    destruct (set_item x Hx) as (c & Hc1 & Hn1 & G1). exists (c :: cs). cbn [rlist map]. rewrite Hc1.
    cbn [rbind]. rewrite Hc. split; [reflexivity|]. split; now constructor.
  Qed.

  Definition sets_text (sets : list (list pexpr)) : list N :=
    match sets with
    | [[]] => L "_"
    | [s] => join (L ", ") (map (etext U F op e) s)
    | _ => join (L ", ") (map set_text sets)
    end.
  Lemma arrow_no_comma t r : after_sp (L " => " ++ t) r -> ptok (L ",") r = None.
  Proof.
    intros [->|H]; [reflexivity|]. change (L " => " ++ t) with (c_sp :: L "=> " ++ t) in H.
    rewrite (sp_one (L "=> " ++ t)) in H by reflexivity. now injection H as <-.
  Qed.
  Lemma sets_back sets : sets <> [] -> Forall (Forall X) sets ->
    (forall x s, sets = [x :: s] -> is_cast x = false) ->
    exists c, lower_groups e c = Ok sets /\ nlf (sets_text sets) /\
      forall t, exists r, g_group_by (sets_text sets ++ L " => " ++ t) = Some (c, r) /\ after_sp (L " => " ++ t) r.
  Proof.
    intros Hne HX Hcast.
    assert (G : sets_text sets = join (L ", ") (map set_text sets) ->
      exists c, lower_groups e c = Ok sets /\ nlf (sets_text sets) /\
      forall t, exists r, g_group_by (sets_text sets ++ L " => " ++ t) = Some (c, r) /\ after_sp (L " => " ++ t) r).
    { intros ->. destruct (set_items sets HX) as (cs & Lc & Nc & Gc). exists (GSets cs). split; [exact Lc|].
      split; [apply nlf_join; [reflexivity|exact Nc]|]. intros t.
      destruct (plist_reads g_grouping_set (map set_text sets) cs (L " => " ++ t) strict_grouping_set) as (r & Gr & Ar);
        [destruct sets; [congruence|discriminate]|exact Gc|reflexivity|intros; eapply arrow_no_comma; eauto|].
      exists r. split; [|exact Ar]. unfold g_group_by. apply palt_l. now apply (plist_then g_grouping_set GSets). }
    destruct sets as [|s [|s2 sets]]; [congruence| |apply G; destruct s; reflexivity]. destruct s as [|x s]; [now apply G|].
    apply Forall_inv in HX. cbn [sets_text].
    destruct (expr_items (x :: s) HX) as (cs & Lc & Gc). exists (GList cs). cbn [lower_groups]. rewrite Lc. split; [reflexivity|].
    split; [apply nlf_join; [reflexivity|now apply nlf_exprs]|]. intros t.
    destruct (plist_reads g_expr (map (etext U F op e) (x :: s)) cs (L " => " ++ t) strict_expr) as (r & Gr & Ar);
      [discriminate|exact Gc|reflexivity|intros; eapply arrow_no_comma; eauto|].
    exists r. split; [|exact Ar]. unfold g_group_by. apply palt_r; [|apply pmap_some; exact Gr].
    cbn [map]. rewrite join_cons, <- app_assoc.
    assert (Hx : X x) by now inversion HX.
    apply pbind_none. unfold g_grouping_set. apply palt_r.
    - apply pthen_none, (ptok_none_hd [] 40%N). apply not_parenthesis; auto. now apply (Hcast x s).
    - apply pmap_none, (ptok_none_hd [] 95%N). apply starts_not; [now apply (expr_back U F Hascii op e W Hanc Htyp)|].
      intros c. unfold expr_head. chars.
  Qed.

  Lemma grouping_sets_text gexprs groups : groups <> [] ->
    Forall (fun g => gr_exprs g = [] /\ Forall (fun i => N.to_nat i < length gexprs) (gr_refs g)) groups ->
    exists sets, grouping_values op e gexprs groups = (gexprs, sets) /\
      map (map o_text) sets = map (map (etext U F op e)) (map (grouping_exprs gexprs) groups).
  Proof.
    intros Hne H. unfold grouping_values. destruct groups as [|g gs]; [congruence|]. apply Forall_inv in H as H0. destruct H0 as [H0 _].
    rewrite H0. cbn [length Nat.eqb negb andb]. rewrite andb_false_r. eexists. split; [reflexivity|].
    rewrite !map_map. apply map_ext_in. intros g' Hg'. rewrite Forall_forall in H. destruct (H g' Hg') as [_ Hi].
    unfold grouping_exprs. rewrite !map_map. apply map_ext_in. intros i Hin. rewrite Forall_forall in Hi.
    rewrite (nth_error_nth' gexprs ENone) by auto. reflexivity.
  Qed.
  Lemma grouping_args_text sets xss : map (map o_text) sets = map (map (etext U F op e)) xss -> xss <> [] ->
    o_text (arguments_out (grouping_args sets) []) = sets_text xss.
  Proof.
    assert (P : forall s xs, map o_text s = map (etext U F op e) xs ->
      o_text (match s with [] => txt (L "_") | _ => tuple_out s end) = set_text xs).
    { intros s xs Hs. destruct s as [|o s], xs as [|x xs]; try discriminate Hs; [reflexivity|]. unfold tuple_out, set_text.
      rewrite !o_text_app, text_osep, Hs. reflexivity. }
    assert (Q : forall sets xss, map (map o_text) sets = map (map (etext U F op e)) xss ->
      map o_text (map (fun g => match g with [] => txt (L "_") | _ => tuple_out g end) sets) = map set_text xss).
    { induction sets0 as [|s ss IH]; intros [|xs yss] Hs; try discriminate Hs; [reflexivity|].
      injection Hs as H1 H2. cbn [map]. f_equal; auto. }
    intros H Hne. destruct xss as [|xs [|ys yss]]; [congruence| |].
    - destruct sets as [|s [|s2 ss]]; try discriminate H. injection H as H. destruct s as [|o s], xs as [|x xs]; try discriminate H; [reflexivity|].
      cbn [grouping_args]. rewrite text_arguments, app_nil_r, H. reflexivity.
    - destruct sets as [|s [|s2 ss]]; try discriminate H.
      assert (E : grouping_args (s :: s2 :: ss) = map (fun g => match g with [] => txt (L "_") | _ => tuple_out g end) (s :: s2 :: ss)).
      { destruct s; reflexivity. }
      rewrite E, text_arguments. cbn [map]. rewrite app_nil_r. apply Q in H. cbn [map] in H. rewrite H. destruct xs; reflexivity.
  Qed.
  Lemma aggregate_line c n gexprs groups ms m w adv : groups_writable X gexprs groups -> Forall (measure_writable M gexprs) ms ->
    emits c (length gexprs + length ms) (length gexprs + length ms) m w -> in_order (length gexprs) (length ms) m ->
    exists y, header_line (aggregate_header reg op e c gexprs groups ms adv) y /\
      hd_emitted (aggregate_header reg op e c gexprs groups ms adv) = w /\
      forall i a, lower_rel e y [(i, n)] a = Ok (RAggregate c (Some i) gexprs groups ms a, w).
  Proof.
    intros (Hne & Hgr & Hfirst & HX & Hcast) HM He Ho. destruct (emits_within _ _ _ _ _ He) as (Hlim & Hm).
    destruct (groups_back gexprs _ groups Hfirst eq_refl Hgr) as (Hb & Hd).
    set (sets := map (grouping_exprs gexprs) groups) in *.
    destruct (aggregate_outputs gexprs ms HX Hd HM Hlim m 0) as (cs & La & Na & Ga); [lia|exact Hm| |].
    { rewrite Nat.add_0_r, Nat.sub_0_r. exact Ho. }
    assert (HXs : Forall (Forall X) sets).
    { apply Forall_map. eapply Forall_impl; [|exact Hgr]. intros g [_ Hi]. unfold grouping_exprs. apply Forall_map.
      eapply Forall_impl; [|exact Hi]. intros i Hlt. rewrite Forall_forall in HX. apply HX. now apply nth_In. }
    destruct (sets_back sets) as (cg & Lg & Ng & Gg).
    { destruct groups; [congruence|discriminate]. }
    { exact HXs. }
    { intros x s E. destruct groups as [|g [|g2 gs]]; try discriminate E. injection E as E. unfold grouping_exprs in E.
      destruct (gr_refs g) as [|i r] eqn:Er; [discriminate|]. injection E as <- _. eapply Hcast; [reflexivity|exact Er]. }
    destruct (grouping_sets_text gexprs groups Hne Hgr) as (os & Ev & Eo).
    unfold aggregate_header. rewrite Ev.
    exists (YAggregate cg cs). split; [|split].
    - eapply one_line_header with (t := L "Aggregate[" ++ sets_text sets ++ L " => " ++
        join (L ", ") (map (fun i => aggregate_text gexprs ms (Z.to_nat i)) m) ++ L "]").
      + intros d. rewrite inline_text.
        erewrite emits_shown; [|exact He|exact Hshow|reflexivity|now apply aggregate_columns].
        rewrite (grouping_args_text os sets Eo) by (destruct groups; [congruence|discriminate]). reflexivity.
      + split; [nlfs; try reflexivity; auto; now apply nlf_join|]. split; [eexists _, _; split; reflexivity|].
        split; [ends|]. split; [|reflexivity]. alts 5. unfold g_aggregate.
        eapply pthen_some; [reflexivity|]. eapply pthen_some; [reflexivity|].
        destruct (Gg (join (L ", ") (map (fun i => aggregate_text gexprs ms (Z.to_nat i)) m) ++ L "]")) as (r & Gr & Ar).
        eapply pbind_some; [exact Gr|]. eapply pthen_some; [apply arrow_after; [|exact Ar]|].
        { destruct m as [|i m']; [reflexivity|]. cbn [map]. rewrite join_cons, <- app_assoc. apply visible_sp.
          inversion Ga as [|t c' ts cs' [Vt _] _]. congruence. }
        eapply pbind_some; [apply psep0_reads; [apply strict_expr|apply comma_sp_like|exact Ga|reflexivity..]|]. reflexivity.
    - eapply emits_emitted; [exact He|reflexivity|]. cbn [hd_cols].
      rewrite <- (map_length o_text), (aggregate_columns gexprs ms HM). now rewrite map_length, seq_length.
    - intros i a. cbn [lower_rel one_child rbind]. rewrite Lg. cbn [rbind]. rewrite Hb, La. cbn [rbind fst snd skipn].
      rewrite (emits_make _ _ _ _ _ He). now rewrite (emits_length _ _ _ _ _ He).
  Qed.


  (** *** Named columns *)
  Definition coltext (c : list N * ptype) : list N := show_name (fst c) ++ L ":" ++ ttext op e (snd c).
  Lemma columns_back cols : Forall (fun c => name_ok (fst c) /\ T (snd c)) cols ->
    exists cs, lower_columns e cs = Ok cols /\ Forall nlf (map coltext cols) /\ Forall2 (item g_named_column) (map coltext cols) cs.
  Proof.
    induction 1 as [|[n t] l [Hn Ht] _ (cs & Hc & Nc & G)]; [exists []; repeat split; constructor|]. cbn [fst snd] in *.
    destruct (named_column_back U op e W Hanc n t Hn Ht) as (c & L1 & L2 & G1). exists (c :: cs). unfold lower_columns in *.
    cbn [rlist map]. unfold lower_column at 1. rewrite L1. cbn [rbind]. rewrite L2. cbn [rbind]. rewrite Hc. split; [reflexivity|].
    split; constructor; auto. unfold coltext. cbn [fst snd]. nlfs; try reflexivity; try apply nlf_show_name. now apply nlf_type.
  Qed.
  Lemma strict_named_column : strict g_named_column.
  Proof. unfold g_named_column. peg_shrink. Qed.
  Lemma zip_fields_text cols :
    map o_text (zip_fields op e (map fst cols) (map snd cols)) = map coltext cols.
  Proof.
    induction cols as [|[n t] cols IH]; [reflexivity|]. cbn [map fst snd zip_fields]. now rewrite IH.
  Qed.
  Lemma columns_reads cols cs rest : Forall2 (item g_named_column) (map coltext cols) cs -> expr_follow rest = true ->
    (ptok (L ",") ;;; sp ;;; g_named_column) rest = None -> g_named_column rest = None ->
    g_columns (join (L ", ") (map coltext cols) ++ rest) = Some (cs, rest).
  Proof.
    intros G Hr H1 H2. apply psep0_reads; auto using strict_named_column, comma_tok_like. rewrite <- pthen_assoc. exact H1.
  Qed.
  Lemma columns_visible cols cs rest : Forall2 (item g_named_column) (map coltext cols) cs -> hd_not is_sp rest = true ->
    hd_not is_sp (join (L ", ") (map coltext cols) ++ rest) = true.
  Proof.
    intros G Hr. destruct cols as [|c cols]; [exact Hr|]. cbn [map] in *. rewrite join_cons, <- app_assoc. apply visible_sp.
    inversion G as [|t c' ts cs' [Vt _] _]. congruence.
  Qed.

  (** *** Read *)
  Lemma table_reads names rest : names <> [] -> hd_not is_idchar rest = true -> hd_not (N.eqb 46) rest = true ->
    g_table_name (join (L ".") (map show_name names) ++ rest) = Some (map nm_of names, rest).
  Proof.
    intros Hne Hr Hdot. destruct names as [|n names]; [congruence|]. unfold g_table_name.
    apply (psep1_items _ g_name (L ".") show_name nm_of (fun r => hd_not is_idchar r = true)).
    - apply strict_name.
    - peg_shrink.
    - intros y r _ Hy. now apply g_name_show.
    - intros y r _. apply ptok_app.
    - reflexivity.
    - exact Hr.
    - apply pthen_none, (ptok_none_hd [] 46%N). exact Hdot.
  Qed.
  Lemma names_back names : Forall name_ok names -> rlist (@lower_name perr) (map nm_of names) = Ok names.
  Proof.
    induction 1 as [|n names Hn H IH]; [reflexivity|]. cbn [map rlist]. rewrite lower_nm_of by exact Hn. cbn [rbind]. now rewrite IH.
  Qed.
  Lemma nlf_names sep names : nlf sep -> nlf (join sep (map show_name names)).
  Proof. intros H. apply nlf_join; [exact H|]. apply Forall_map, Forall_forall. intros; apply nlf_show_name. Qed.
  Lemma nlf_cols cols : Forall nlf (map coltext cols) -> nlf (join (L ", ") (map coltext cols)).
  Proof. now apply nlf_join. Qed.
  Hint Resolve nlf_cols nlf_names : nlf.

  Definition columns_schema (cols : list (list N * ptype)) : named_struct :=
    mk_named_struct (map fst cols) (Some (map snd cols, 0%N, NRequired)).
  Lemma read_line c cols names w adv : names <> [] -> Forall name_ok names -> Forall (fun c => name_ok (fst c) /\ T (snd c)) cols ->
    (c = direct /\ w = length cols \/
     exists m, c = emit m /\ Forall (fun i => in_range i32_min i32_max i = true) m /\ w = length m) ->
    exists y, header_line (read_header reg op e (mk_read c (Some (columns_schema cols)) None (ReadNamed names) adv false)) y /\
      hd_emitted (read_header reg op e (mk_read c (Some (columns_schema cols)) None (ReadNamed names) adv false)) = w /\
      forall a, lower_rel e y [] a = Ok (RRead (mk_read c (Some (columns_schema cols)) None (ReadNamed names) a false), w).
  Proof.
    intros Hne Hn Hc Hw. destruct (columns_back cols Hc) as (cs & Lc & Nc & Gc).
    destruct Hw as [(-> & ->)|(m & -> & Hm & ->)].
    - exists (YRead (map nm_of names) (OImplicit cs)). split; [|split].
      + eapply one_line_header with (t := L "Read[" ++ join (L ".") (map show_name names) ++ L " => " ++
          join (L ", ") (map coltext cols) ++ L "]").
        * intros d. unfold read_header, read_columns. cbn [rd_type rd_common rd_schema ns_names ns_struct columns_schema get_emit direct rc_emit].
          rewrite inline_text. unfold shown_columns. cbn [hd_emit hd_cols]. destruct (op_show_emit op); rewrite zip_fields_text; reflexivity.
        * split; [nlfs; auto with nlf; reflexivity|]. split; [eexists _, _; split; reflexivity|].
          split; [ends|]. split; [|reflexivity]. alts 2. unfold g_read.
          eapply pthen_some; [reflexivity|]. eapply pthen_some; [reflexivity|].
          eapply pbind_some; [apply table_reads; auto|].
          eapply pthen_some; [apply (sp_one (L "=> " ++ join (L ", ") (map coltext cols) ++ L "]")); reflexivity|].
          eapply pbind_some with (a := OImplicit cs) (r := L "]"); [|reflexivity]. unfold g_output. apply palt_l, pmap_some.
          eapply pthen_some; [reflexivity|]. eapply pthen_some; [apply sp_one; eapply columns_visible; eauto|].
          apply columns_reads; auto.
      + unfold hd_emitted, read_header, read_columns. cbn [rd_type rd_common rd_schema ns_names ns_struct columns_schema get_emit direct rc_emit hd_emit hd_cols].
        rewrite <- (map_length o_text), zip_fields_text. apply map_length.
      + intros a. cbn [lower_rel lower_output]. rewrite (names_back names Hn). cbn [rbind]. rewrite Lc. reflexivity.
    - exists (YRead (map nm_of names) (ODirect cs (Some (map show_Z m)))). split; [|split].
      + eapply one_line_header with (t := L "Read[" ++ join (L ".") (map show_name names) ++ L " +> " ++
          join (L ", ") (map coltext cols) ++ L " |> " ++ join (L ", ") (map ref_text m) ++ L "]").
        * intros d. unfold read_header, read_columns. cbn [rd_type rd_common rd_schema ns_names ns_struct columns_schema get_emit emit rc_emit].
          unfold header_out, output_clause, emit_suffix_out. cbn [hd_name hd_args hd_explicit hd_emit hd_cols].
          rewrite !o_text_app, !text_osep, zip_fields_text, map_map. cbn [o_text txt]. rewrite <- !app_assoc. reflexivity.
        * split; [nlfs; auto with nlf; reflexivity|]. split; [eexists _, _; split; reflexivity|].
          split; [ends|]. split; [|reflexivity]. alts 2. unfold g_read.
          eapply pthen_some; [reflexivity|]. eapply pthen_some; [reflexivity|].
          eapply pbind_some; [apply table_reads; auto|].
          eapply pthen_some; [apply (sp_one (L "+> " ++ join (L ", ") (map coltext cols) ++ L " |> " ++ join (L ", ") (map ref_text m) ++ L "]")); reflexivity|].
          eapply pbind_some with (a := ODirect cs (Some (map show_Z m))) (r := L "]"); [|reflexivity].
          unfold g_output. apply palt_r; [reflexivity|]. eapply pthen_some; [reflexivity|].
          assert (R : forall b : bool, (sp ;;; ptok (L "|>") ;;; sp ;;; g_references)
            ((if b then L " |> " else L "|> ") ++ join (L ", ") (map ref_text m) ++ L "]") = Some (map show_Z m, L "]")).
          { intros b. eapply pthen_some with (a := tt) (r := L "|> " ++ join (L ", ") (map ref_text m) ++ L "]").
            - destruct b; [apply (sp_one (L "|> " ++ _))|apply sp_none]; reflexivity.
            - eapply pthen_some; [reflexivity|]. eapply pthen_some; [apply sp_one, refs_visible|]. apply refs_reads. }
          destruct cols as [|c1 cols].
          { inversion Gc; subst cs. eapply pthen_some with (a := tt) (r := L "|> " ++ join (L ", ") (map ref_text m) ++ L "]"); [reflexivity|].
            eapply pbind_some; [reflexivity|]. eapply pbind_some; [apply popt_some; apply (R false)|]. reflexivity. }
          eapply pthen_some.
          { apply sp_one. cbn [map] in *. rewrite join_cons, <- app_assoc. apply visible_sp.
            inversion Gc as [|t c' ts cs' [Vt _] _]. exact Vt. }
          eapply pbind_some; [apply columns_reads; [exact Gc|reflexivity..]|].
          eapply pbind_some; [apply popt_some; apply (R true)|]. reflexivity.
      + reflexivity.
      + intros a. cbn [lower_rel lower_output]. rewrite (names_back names Hn). cbn [rbind]. rewrite Lc. cbn [rbind guard_drop].
        rewrite output_mapping_show by exact Hm. reflexivity.
  Qed.


  (** *** Arguments of extensions *)
  Lemma nlf_value v : value_writable e X v -> nlf (xtext U F op e v).
  Proof.
    revert v. apply (xvalue_ind2 (fun v => value_writable e X v -> nlf (xtext U F op e v))); unfold xtext; cbn [xvalue_out o_text txt].
    - intros s _. apply nlf_show_string.
    - intros z _. apply nlf_show_Z.
    - intros f H. inversion H; subst. now apply nlf_float.
    - intros [] _; reflexivity.
    - reflexivity.
    - intros x H. inversion H.
    - intros x H. inversion H; subst. now apply nlf_expr.
    - intros s H. inversion H; subst. apply nlf_app; [reflexivity|now apply nlf_ident].
    - intros l IH H. inversion H; subst. rewrite !o_text_app, text_osep. nlfs; try reflexivity.
      + apply nlf_join; [reflexivity|]. rewrite map_map. apply Forall_map. apply Forall_forall. intros v Hv.
        rewrite Forall_forall in *. now apply IH, H1.
      + destruct l as [|? []]; reflexivity.
  Qed.
  Lemma nlf_named p : named_writable e X p -> nlf (ntext U F op e p).
  Proof. intros (Hn & _ & Hv). unfold ntext. nlfs; try reflexivity; [now apply nlf_ident|now apply nlf_value]. Qed.
  Lemma nlf_column c : column_writable e X T c -> nlf (ctext U F op e c).
  Proof.
    destruct c as [n t|x]; cbn [column_writable]; unfold ctext; cbn [xcolumn_out].
    - intros [Hn Ht]. rewrite o_text_app. cbn [o_text txt]. nlfs; try reflexivity; try apply nlf_show_name. now apply nlf_type.
    - intros [Hx _]. now apply nlf_expr.
  Qed.
  Lemma nlf_arglist p n : Forall (value_writable e X) p -> Forall (named_writable e X) n -> nlf (arglist_text U F op e p n).
  Proof.
    intros Hp Hn. assert (J : nlf (join (L ", ") (map (xtext U F op e) p ++ map (ntext U F op e) n))).
    { apply nlf_join; [reflexivity|]. apply Forall_app. split; apply Forall_map; eapply Forall_impl; try eassumption;
        intros; [now apply nlf_value|now apply nlf_named]. }
    unfold arglist_text. destruct p, n; auto.
  Qed.
  Lemma arguments_text p n :
    o_text (arguments_out (map (xvalue_out op e) p) (map (fun p => (fst p, xvalue_out op e (snd p))) n)) = arglist_text U F op e p n.
  Proof.
    rewrite text_arguments. unfold arglist_text. destruct p as [|v p], n as [|q n]; [reflexivity|..];
      rewrite ?map_map; f_equal; f_equal; cbn [map]; rewrite ?map_map; reflexivity.
  Qed.
  Lemma xarglist_text a : o_text (xarglist_out op e a) = arglist_text U F op e (xa_positional a) (xa_named a).
  Proof.
    unfold xarglist_out, arglist_text. destruct (xa_positional a) as [|v p], (xa_named a) as [|q n]; [reflexivity|..];
      rewrite text_osep, map_app, !map_map; f_equal; f_equal; apply map_ext; intros; apply named_text.
  Qed.
  Lemma xcolumns_back cols : Forall (column_writable e X T) cols ->
    exists cs, rlist (lower_xcolumn e) cs = Ok cols /\ Forall2 (item g_xcolumn) (map (ctext U F op e) cols) cs.
  Proof.
    induction 1 as [|c l Hc _ (cs & Lc & G)]; [exists []; split; constructor|].
    destruct (column_back U F Hascii op e W Hanc Htyp c Hc) as (k & Lk & Gk). exists (k :: cs). cbn [rlist map]. rewrite Lk. cbn [rbind].
    rewrite Lc. split; [reflexivity|]. now constructor.
  Qed.
  Lemma strict_xcolumn : strict g_xcolumn.
  Proof. unfold g_xcolumn, g_named_column. peg_shrink. Qed.

  (** *** Extension relations *)
  Definition kind_name (k : xkind) : string :=
    match k with XkLeaf => "ExtensionLeaf" | XkSingle => "ExtensionSingle" | XkMulti => "ExtensionMulti" end.
  Lemma extension_line k d widths cols : detail_writable reg e X T XtRelation d widths cols ->
    exists y, header_line (extension_header reg op e (kind_name k) (Some d) widths) y /\
      hd_emitted (extension_header reg op e (kind_name k) (Some d) widths) = length cols /\
      hd_addenda (extension_header reg op e (kind_name k) (Some d) widths) = [] /\
      forall line cs, child_count_ok k (length cs) = true ->
        parse_relation reg e y line [] cs = Ok (create_rel k d (map fst cs), length cols).
  Proof.
    intros (name & a & Hdec & Hpar & Hid & (Hp & Hn & Hnd & Hc) & <-). unfold extension_header. rewrite Hdec.
    destruct (arglist_back U F Hascii op e W Hanc Htyp _ _ Hp Hn Hnd) as (ca & La & Va & Ga).
    destruct (xcolumns_back _ Hc) as (cc & Lc & Gc).
    exists (YExt k (NIdent name) ca cc). split; [|split; [|split; [reflexivity|]]].
    - eapply one_line_header with (t := L (kind_name k) ++ L ":" ++ name ++ L "[" ++
        arglist_text U F op e (xa_positional a) (xa_named a) ++ L " => " ++ join (L ", ") (map (ctext U F op e) (xa_columns a)) ++ L "]").
      + intros d0. rewrite inline_text, arguments_text. unfold shown_columns. cbn [hd_emit hd_cols].
        replace (match op_show_emit op with true | _ => map (xcolumn_out op e) (xa_columns a) end)
          with (map (xcolumn_out op e) (xa_columns a)) by now destruct (op_show_emit op).
        rewrite map_map. rewrite <- !app_assoc. reflexivity.
      + split.
        { nlfs; try reflexivity; [destruct k; reflexivity|now apply nlf_ident|now apply nlf_arglist|].
          apply nlf_join; [reflexivity|]. apply Forall_map. eapply Forall_impl; [|exact Hc]. intros; now apply nlf_column. }
        split; [destruct k; eexists _, _; split; reflexivity|].
        split; [ends|]. split; [|destruct k; reflexivity].
        unfold g_relation. do 11 (apply palt_r; [destruct k; reflexivity|]). unfold g_ext.
        eapply pbind_some with (a := k) (r := L ":" ++ name ++ L "[" ++
        arglist_text U F op e (xa_positional a) (xa_named a) ++ L " => " ++ join (L ", ") (map (ctext U F op e) (xa_columns a)) ++ L "]").
        { destruct k; reflexivity. }
        eapply pthen_some; [reflexivity|]. eapply pbind_some.
        { unfold g_name. apply palt_l, pmap_some. apply g_identifier_app; [exact Hid|reflexivity]. }
        eapply pthen_some; [reflexivity|]. eapply pthen_some; [now apply sp_none, visible_sp|].
        eapply pbind_some; [apply Ga; [reflexivity|reflexivity]|].
        eapply pbind_some.
        { apply popt_some. eapply pthen_some; [apply arrow_reads|].
          - destruct (xa_columns a) as [|c cs]; [reflexivity|]. cbn [map] in *. rewrite join_cons, <- app_assoc. apply visible_sp.
            inversion Gc as [|t c' ts cs' [Vt _] _]. exact Vt.
          - apply psep0_reads; [apply strict_xcolumn|apply comma_sp_like|exact Gc|reflexivity..]. }
        reflexivity.
    - unfold hd_emitted. cbn [hd_emit hd_cols]. apply map_length.
    - intros line cs Hcs. cbn [parse_relation]. unfold lower_invocation. rewrite La. cbn [rbind]. rewrite Lc. cbn [rbind lift_plan xa_positional xa_named].
      rewrite Hcs. cbn [raw_name]. unfold resolve.
      replace (mk_xargs (xa_positional a) (xa_named a) (xa_columns a)) with a by now destruct a.
      rewrite Hpar. reflexivity.
  Qed.

  (** *** Addenda *)
  Definition addendum_line (t : list N) (c : acst) : Prop :=
    nlf t /\ (exists r, t = L "+ " ++ r) /\ (exists b, t = b ++ L "]") /\ g_relation t = None /\ g_root t = None /\ g_addendum t = Some (c, []).
  Definition addendum_prefix (t : xtype) : string :=
    match t with XtEnhancement => "Enh" | XtOptimization => "Opt" | _ => "Ext" end.
  Lemma addendum_back t d : t <> XtRelation -> detail_writable reg e X T t d [] [] ->
    exists c name a, addendum_line (o_text (addendum_out op e (addendum_prefix t) (decode_with_type reg t d []))) c /\
      (forall line, lower_addendum e (c, line) = Ok (mk_ainv t name a line)) /\
      parse_with_type reg t name a = Ok d.
  Proof.
    intros Ht (name & a & Hdec & Hpar & Hid & (Hp & Hn & Hnd & Hc) & Hcols).
    destruct (arglist_back U F Hascii op e W Hanc Htyp _ _ Hp Hn Hnd) as (ca & La & Va & Ga).
    rewrite Hdec. unfold addendum_out. rewrite Hcols. rewrite !o_text_app. unfold xargs_out. rewrite Hcols, o_text_app, xarglist_text.
    cbn [o_text txt onil]. rewrite app_nil_r, <- !app_assoc.
    exists (Acst t (NIdent name) ca), name, a. split; [|split].
    - split; [|split; [eexists; reflexivity|split; [ends|split; [reflexivity|split; [reflexivity|]]]]].
      + nlfs; try reflexivity; [destruct t; reflexivity|now apply nlf_ident|now apply nlf_arglist].
      + unfold g_addendum. eapply pthen_some; [reflexivity|].
        eapply pthen_some with (a := tt); [apply sp_one; destruct t; reflexivity|].
        eapply pbind_some with (a := t) (r := L ":" ++ name ++ L "[" ++ arglist_text U F op e (xa_positional a) (xa_named a) ++ L "]").
        { destruct t; try congruence; reflexivity. }
        eapply pthen_some; [reflexivity|]. eapply pbind_some.
        { unfold g_name. apply palt_l, pmap_some. apply g_identifier_app; [exact Hid|reflexivity]. }
        eapply pthen_some; [reflexivity|].
        eapply pbind_some; [apply Ga; [reflexivity|reflexivity]|]. reflexivity.
    - intros line. cbn [lower_addendum lower_name rbind]. rewrite La. cbn [rbind lift_plan].
      rewrite <- Hcols. now destruct a.
    - exact Hpar.
  Qed.
  (** *** Extension tables *)
  Lemma table_line_back cols d adv : Forall (fun c => name_ok (fst c) /\ T (snd c)) cols ->
    let h := read_header reg op e (mk_read direct (Some (columns_schema cols)) None (ReadExtension d) adv false) in
    exists cs, lower_columns e cs = Ok cols /\ header_line h (YExtRead cs) /\ hd_emitted h = length cols /\
      hd_addenda h = table_line reg op e d :: adv_lines reg op e adv.
  Proof.
    intros Hc h. destruct (columns_back cols Hc) as (cs & Lc & Nc & Gc). exists cs. split; [exact Lc|]. split; [|split; [|reflexivity]].
    - eapply one_line_header with (t := L "Read:Extension[" ++ join (L ", ") (map coltext cols) ++ L "]").
      + intros d0. unfold h, read_header, read_columns. cbn [rd_type rd_common rd_schema ns_names ns_struct columns_schema get_emit direct rc_emit].
        rewrite bare_text. unfold shown_columns. cbn [hd_emit hd_cols]. destruct (op_show_emit op); rewrite zip_fields_text; reflexivity.
      + split; [nlfs; auto with nlf; reflexivity|]. split; [eexists _, _; split; reflexivity|].
        split; [ends|]. split; [|reflexivity]. alts 0. unfold g_ext_read.
        eapply pthen_some; [reflexivity|]. eapply pthen_some; [reflexivity|].
        eapply pbind_some; [apply columns_reads; [exact Gc|reflexivity..]|]. reflexivity.
    - unfold h, hd_emitted, read_header, read_columns. cbn [rd_type rd_common rd_schema ns_names ns_struct columns_schema get_emit direct rc_emit hd_emit hd_cols].
      rewrite <- (map_length o_text), zip_fields_text. apply map_length.
  Qed.

End Lines.
