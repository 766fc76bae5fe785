(** The crashes of formatting relations and plans. *)
From Coq Require Import String List NArith ZArith Bool Lia.
From Verif Require Import Base BaseFacts Names SimpleExt SimpleExtFacts Out Anchors Types TypesFacts Calendar Literals Exprs
  ExprsFacts ExprEq ExtArgs Registry SpecRegistry Rels SpecRels SpecAddenda Plan Structural SpecLits SpecVisible SpecFormat
  OutClosed SpecWriteCrash WriteCrash.
Import ListNotations.
Local Open Scope string_scope.
Local Open Scope list_scope.
Local Open Scope nat_scope.

Section Rels.
  Context (U : Unicode) (F : Floats).
  Variables (reg : registry) (op : options) (e : exts).
  Hypothesis We : wf_exts e.

  (** ** Widths *)
  Lemma old_groups_eq xs gs : old_groups xs gs =
    Nat.eqb (length xs) 0 && match gs with g :: _ => negb (Nat.eqb (length (gr_exprs g)) 0) | [] => false end.
  Proof.
    unfold old_groups. destruct xs as [|x xs]; [|reflexivity]. destruct gs as [|[refs [|y ys]] gs]; reflexivity.
  Qed.
  Lemma grouping_keys xs gs : fst (grouping_values op e xs gs) = keys xs gs.
  Proof. unfold grouping_values, keys. rewrite old_groups_eq. destruct (_ && _); reflexivity. Qed.
  Lemma measure_functions ms : measure_outs op e ms = map (aggfn_out op e) (functions ms).
  Proof.
    induction ms as [|m ms IH]; [reflexivity|]. unfold functions in *. cbn [measure_outs map concat]. rewrite map_app, <- IH.
    destruct (ms_fn m); reflexivity.
  Qed.
  Lemma joined_eq t l r : joined t l r = join_width t l r.
  Proof.
    unfold joined, join_width. cbn [existsb]. rewrite !orb_false_r, !orb_assoc.
    repeat match goal with |- context [if ?b then _ else _] => destruct b end; lia.
  Qed.
  Lemma zip_length ns ts : length (zip_fields op e ns ts) = max (length ns) (length ts).
  Proof.
    revert ts; induction ns as [|n ns IH]; intros [|t ts]; cbn [zip_fields length]; auto.
    - cbn [Nat.max]. f_equal. induction ts as [|u ts IHt]; [reflexivity|]. cbn [length]. now rewrite IHt.
    - rewrite IH. cbn [length]. lia.
    - rewrite IH. reflexivity.
  Qed.
  Lemma refs_length n : length (ref_columns n) = n.
  Proof. unfold ref_columns. now rewrite map_length, seq_length. Qed.
  Lemma emit_eq c : get_emit c = match c with Some c => rc_emit c | None => None end.
  Proof. reflexivity. Qed.

  Lemma emitted_width r : written_width reg r = emitted (view_of reg op e r).
  Proof.
    revert r. apply (prel_ind2 (fun r => written_width reg r = emitted (view_of reg op e r))).
    - intros r. cbn [written_width view_of emitted]. unfold rel_emit. cbn [rel_common_of].
      assert (length (read_columns op e r) = match rd_schema r with
        | Some s => max (length (ns_names s)) (match ns_struct s with Some (ts, _, _) => length ts | None => 0 end)
        | None => 1 end) as Hc.
      { unfold read_columns. destruct (rd_schema r) as [sch|]; [|reflexivity]. rewrite zip_length.
        destruct (ns_struct sch) as [[[ts v] n]|]; reflexivity. }
      unfold read_header, hd_emitted. destruct (rd_type r); cbn [hd_emit hd_cols]; rewrite Hc; reflexivity.
    - intros c i x a IH. cbn [written_width view_of emitted]. unfold rel_emit, hd_emitted. cbn [rel_common_of filter_header hd_emit hd_cols].
      rewrite refs_length. unfold get_emit. destruct i; cbn [opt_P Rels.width] in *; [rewrite IH|]; reflexivity.
    - intros c i xs a IH. cbn [written_width view_of emitted]. unfold rel_emit, hd_emitted. cbn [rel_common_of project_header hd_emit hd_cols].
      rewrite app_length, refs_length, map_length. unfold get_emit. destruct i; cbn [opt_P Rels.width] in *; [rewrite IH|]; reflexivity.
    - intros c i xs gs ms a IH. cbn [written_width view_of emitted]. unfold rel_emit, hd_emitted, aggregate_header.
      pose proof (grouping_keys xs gs) as K. destruct (grouping_values op e xs gs) as [ks sets]. cbn [fst] in K. subst ks.
      cbn [rel_common_of hd_emit hd_cols]. rewrite app_length, map_length, measure_functions, map_length. reflexivity.
    - intros c i ss a IH. cbn [written_width view_of emitted]. unfold rel_emit, hd_emitted. cbn [rel_common_of sort_header hd_emit hd_cols].
      rewrite refs_length. unfold get_emit. destruct i; cbn [opt_P Rels.width] in *; [rewrite IH|]; reflexivity.
    - intros c i n o a IH. cbn [written_width view_of emitted]. unfold rel_emit, hd_emitted. cbn [rel_common_of fetch_header hd_emit hd_cols].
      rewrite refs_length. unfold get_emit. destruct i; cbn [opt_P Rels.width] in *; [rewrite IH|]; reflexivity.
    - intros c l r x p t a IHl IHr. cbn [written_width view_of emitted]. unfold rel_emit, hd_emitted.
      cbn [rel_common_of join_header hd_emit hd_cols]. rewrite refs_length, joined_eq. unfold get_emit.
      destruct l, r; cbn [opt_P Rels.width] in *; rewrite ?IHl, ?IHr; reflexivity.
    - intros c l o a IH. cbn [written_width view_of emitted]. unfold rel_emit, hd_emitted.
      cbn [rel_common_of set_header hd_emit hd_cols]. rewrite refs_length. unfold get_emit. rewrite map_map.
      assert (map (written_width reg) l = map (fun x => emitted (view_of reg op e x)) l) as E.
      { apply map_ext_in. rewrite Forall_forall in IH. exact IH. }
      rewrite E. destruct l as [|x l]; cbn [map]; [destruct c as [[[[|m]|] h]|]; reflexivity|].
      cbn [length]. rewrite map_length. reflexivity.
    - intros c l r a IHl IHr. cbn [written_width view_of emitted]. unfold rel_emit, hd_emitted.
      cbn [rel_common_of cross_header hd_emit hd_cols]. rewrite refs_length. unfold get_emit.
      destruct l, r; cbn [opt_P Rels.width] in *; rewrite ?IHl, ?IHr; reflexivity.
    - intros c d. cbn [written_width view_of emitted]. unfold extension_header, message_width.
      destruct d as [d|]; [|reflexivity]. destruct (decode_with_type reg XtRelation d []) as [[n a]|x|p]; unfold hd_emitted; cbn [hd_emit hd_cols];
        rewrite ?map_length; reflexivity.
    - intros c d i IH. cbn [written_width view_of emitted]. unfold extension_header, message_width.
      destruct d as [d|]; [|reflexivity].
      assert (match i with Some i0 => [written_width reg i0] | None => [] end =
        match match i with Some r => Some (view_of reg op e r) | None => None end with Some v => [emitted v] | None => [] end) as E
        by (destruct i; cbn [opt_P] in IH; [now rewrite IH|reflexivity]).
      rewrite E.
      destruct (decode_with_type reg XtRelation d _) as [[n a]|x|p]; unfold hd_emitted; cbn [hd_emit hd_cols];
        rewrite ?map_length; reflexivity.
    - intros c d l IH. cbn [written_width view_of emitted]. unfold extension_header, message_width.
      destruct d as [d|]; [|reflexivity]. rewrite map_map.
      assert (map (written_width reg) l = map (fun x => emitted (view_of reg op e x)) l) as E.
      { apply map_ext_in. rewrite Forall_forall in IH. exact IH. }
      rewrite E.
      destruct (decode_with_type reg XtRelation d _) as [[n a]|x|p]; unfold hd_emitted; cbn [hd_emit hd_cols];
        rewrite ?map_length; reflexivity.
    - reflexivity.
    - reflexivity.
  Qed.

  (** ** Headers *)
  Definition shown (h : header) (j : nat) : Prop :=
    op_show_emit op = true \/ forall m, hd_emit h = Some (EmEmit m) -> In (Z.of_nat j) m.
  Lemma pan_shown s h : (exists o, In o (shown_columns op h) /\ pan s o) <->
    exists j o, nth_error (hd_cols h) j = Some o /\ pan s o /\ shown h j.
  Proof.
    unfold shown_columns, shown.
    assert (K : (exists o, In o (hd_cols h) /\ pan s o) <-> exists j o, nth_error (hd_cols h) j = Some o /\ pan s o).
    { split.
      - intros (o & Ho & H). apply In_nth_error in Ho as (j & Hj). eauto.
      - intros (j & o & Hj & H). apply nth_error_In in Hj. eauto. }
    destruct (op_show_emit op).
    - rewrite K. split; [intros (j & o & Hj & H); exists j, o; auto|intros (j & o & Hj & H & _); eauto].
    - destruct (hd_emit h) as [[|m]|] eqn:E.
      + rewrite K. split; [|intros (j & o & Hj & H & _); eauto].
        intros (j & o & Hj & H); exists j, o. split; [exact Hj|]. split; [exact H|]. right. discriminate.
      + rewrite pan_map. split.
        * intros (i & Hi & H). unfold zget in H. destruct (i <? 0)%Z eqn:L0; [destruct H|].
          destruct (nth_error (hd_cols h) (Z.to_nat i)) as [o|] eqn:N; [|destruct H]. exists (Z.to_nat i), o.
          split; [exact N|]. split; [exact H|]. right. intros m' [= <-]. rewrite Z2Nat.id by lia. exact Hi.
        * intros (j & o & Hj & H & [S|S]); [discriminate S|]. specialize (S m eq_refl). exists (Z.of_nat j). split; [exact S|].
          unfold zget. replace (Z.of_nat j <? 0)%Z with false by lia. now rewrite Nat2Z.id, Hj.
      + rewrite K. split; [|intros (j & o & Hj & H & _); eauto].
        intros (j & o & Hj & H); exists j, o. split; [exact Hj|]. split; [exact H|]. right. discriminate.
  Qed.
  Definition pan_args (s : string) (a : option rel_args) : Prop :=
    match a with
    | None => False
    | Some (RaInline p n) | Some (RaRows p n) => (exists o, In o p /\ pan s o) \/ (exists x : list N * out, In x n /\ pan s (snd x))
    end.
  Lemma pan_named s n : (exists o, In o (map named_out n) /\ pan s o) <-> exists x : list N * out, In x n /\ pan s (snd x).
  Proof.
    rewrite pan_map. unfold named_out. split; intros (x & Hx & H); exists x; (split; [exact Hx|]).
    - apply pan_app in H as [[]|H]; exact H.
    - apply pan_app. now right.
  Qed.
  Lemma pan_in_app s (a b : list out) :
    (exists o, In o (a ++ b) /\ pan s o) <-> (exists o, In o a /\ pan s o) \/ (exists o, In o b /\ pan s o).
  Proof.
    split.
    - intros (o & Ho & H). apply in_app_iff in Ho as [Ho|Ho]; eauto.
    - intros [(o & Ho & H)|(o & Ho & H)]; exists o; (split; [apply in_app_iff; auto|exact H]).
  Qed.
  Lemma pan_arguments s p n : pan s (arguments_out p n) <-> pan_args s (Some (RaInline p n)).
  Proof.
    cbn [pan_args]. rewrite <- pan_named, <- pan_in_app, <- (pan_sep s (L ", ")). unfold arguments_out. destruct p, n; try reflexivity.
  Qed.
  Lemma pan_rows s d b l : pan s (row_lines op d b l) <-> exists o, In o l /\ pan s o.
  Proof.
    assert (R : forall b o, pan s (row_line op d b o) <-> pan s o).
    { intros b' o. unfold row_line. rewrite !pan_app. split; [intros [[]|[H|[]]]; exact H|tauto]. }
    induction l as [|x l IH]; [split; [intros []|intros (o & [] & _)]|]. destruct l as [|y l].
    - cbn [row_lines]. rewrite R. split; [intros H; exists x; split; [now left|exact H]|intros (o & [->|[]] & H); exact H].
    - change (row_lines op d b (x :: y :: l)) with (row_line op d true x +++ row_lines op d b (y :: l)). rewrite pan_app, R, IH. split.
      + intros [H|(o & Ho & H)]; [exists x; split; [now left|exact H]|exists o; split; [now right|exact H]].
      + intros (o & [<-|Ho] & H); [now left|right; eauto].
  Qed.
  Definition pan_cols (s : string) (h : header) : Prop :=
    exists j o, nth_error (hd_cols h) j = Some o /\ pan s o /\ shown h j.
  (** Explicitly listed columns are plain. *)
  Definition plain (h : header) : Prop := hd_explicit h = true -> Forall none (hd_cols h).
  Lemma pan_clause s h : plain h -> (pan s (output_clause op h) <-> pan_cols s h).
  Proof.
    intros P. unfold output_clause. destruct (hd_explicit h) eqn:X.
    - specialize (P X). rewrite Forall_forall in P. rewrite !pan_app, pan_sep. split.
      + intros [[]|[(o & Ho & H)|H]]; [now apply P in H|]. unfold emit_suffix_out in H. destruct (hd_emit h) as [[|m]|]; try destruct H.
        apply pan_app in H as [[]|H]. apply pan_sep in H as (o & Ho & H). apply in_map_iff in Ho as (i & <- & _). destruct H.
      + intros (j & o & Hj & H & _). apply nth_error_In in Hj. now apply P in H.
    - rewrite pan_app, pan_sep, pan_shown. unfold pan_cols. split; [intros [[]|H]; exact H|auto].
  Qed.
  Lemma pan_header s d h : plain h ->
    (pan s (header_out op d h) <-> pan s (hd_name h) \/ pan_args s (hd_args h) \/ pan_cols s h).
  Proof.
    intros P. unfold header_out. rewrite !pan_app.
    assert (T : forall t, pan s (txt t) <-> False) by (intros t; split; [intros []|intros []]).
    rewrite !T. destruct (hd_args h) as [[p n|p n]|].
    - rewrite !pan_app, T, pan_arguments, (pan_clause s h P). tauto.
    - rewrite !pan_app, !T, !pan_rows, pan_named, (pan_clause s h P). cbn [pan_args]. tauto.
    - rewrite pan_sep, pan_shown. cbn [pan_args]. fold (pan_cols s h). tauto.
  Qed.
  Definition pan_h (s : string) (h : header) : Prop :=
    pan s (hd_name h) \/ pan_args s (hd_args h) \/ pan_cols s h \/ exists o, In o (hd_addenda h) /\ pan s o.
  Lemma pan_view s d h cs : plain h ->
    (pan s (view_out op d (View h cs)) <-> pan_h s h \/ exists v, In (Some v) cs /\ pan s (view_out op (S d) v)).
  Proof.
    intros P. cbn [view_out]. rewrite !pan_app, (pan_header s d h P), !pan_fold, !pan_map. unfold pan_h.
    assert (A : (exists a, In a (hd_addenda h) /\ pan s (txt ([c_nl] ++ indent_text op (S d)) +++ a)) <->
      exists o, In o (hd_addenda h) /\ pan s o).
    { split; intros (o & Ho & H); exists o; (split; [exact Ho|]); [apply pan_app in H as [[]|H]; exact H|apply pan_app; now right]. }
    assert (C : (exists c, In c cs /\ pan s match c with Some v => txt [c_nl] +++ view_out op (S d) v | None => onil end) <->
      exists v, In (Some v) cs /\ pan s (view_out op (S d) v)).
    { split.
      - intros ([v|] & Hv & H); [|destruct H]. exists v. split; [exact Hv|]. apply pan_app in H as [[]|H]. exact H.
      - intros (v & Hv & H). exists (Some v). split; [exact Hv|]. apply pan_app. now right. }
    rewrite A, C. tauto.
  Qed.

  (** ** Relations *)
  (** A crash of the relation itself. *)
  Definition own (s : string) (r : prel) : Prop :=
    (s = date_crash /\ exists x, expr_written reg op x r /\ bad x) \/
    exists t d ws, message_written reg t d ws r /\ bad_message F reg s t d ws.
  Lemma crashes_own s r : write_crashes reg op s r <-> own s r \/ exists i, rel_input i r /\ write_crashes reg op s i.
  Proof.
    split.
    - intros H. inversion H; subst.
      + left. left. split; [reflexivity|]. exists x. split; [assumption|]. exists l. auto.
      + left. right. exists t, d, widths. split; [assumption|]. right. split; [reflexivity|]. exists a. split; [assumption|].
        split; [exists l; auto|assumption].
      + left. right. exists t, d, widths. split; [assumption|]. now left.
      + right. eauto.
    - intros [[(-> & x & W & l & H & O)|(t & d & ws & W & [H|(-> & a & H & (l & Hl & O) & T)])]|(i & Hi & H)].
      + eapply wc_date; eauto.
      + eapply wc_handler; eauto.
      + eapply wc_argument; eauto.
      + eapply wc_input; eauto.
  Qed.

  (** The messages beside a relation. *)
  Definition beside (s : string) (a : option advext) : Prop :=
    (exists d, In d (match a with Some a => opt_list (ae_enhancement a) | None => [] end) /\ bad_message F reg s XtEnhancement d []) \/
    (exists d, In d (match a with Some a => ae_optimizations a | None => [] end) /\ bad_message F reg s XtOptimization d []).
  (** The messages of a relation that is neither an extension nor a table of one. *)
  Lemma messages_beside s r : rel_table r = [] ->
    match r with RExtLeaf _ _ | RExtSingle _ _ _ | RExtMulti _ _ _ => False | _ => True end ->
    ((exists t d ws, message_written reg t d ws r /\ bad_message F reg s t d ws) <-> beside s (rel_adv r)).
  Proof.
    intros T N. split.
    - intros (t & d & ws & W & B). inversion W; subst; try contradiction N.
      + left. exists d. auto.
      + right. exists d. auto.
      + rewrite T in *. contradiction.
    - intros [(d & Hd & B)|(d & Hd & B)]; do 3 eexists; (split; [|exact B]); constructor; exact Hd.
  Qed.
  Lemma no_refs s n j o : nth_error (ref_columns n) j = Some o -> pan s o -> False.
  Proof.
    intros H P. apply nth_error_In in H. unfold ref_columns in H. apply in_map_iff in H as (i & <- & _). destruct P.
  Qed.
  Lemma pan_enum s l z a b : pan s (enum_out l z a b) <-> False.
  Proof.
    unfold enum_out, missing. split; [|intros []]. destruct (enum_name l z); [intros []|]. destruct (_ =? _)%Z; intros [].
  Qed.
  Lemma pan_tuple s l : pan s (tuple_out l) <-> exists o, In o l /\ pan s o.
  Proof. unfold tuple_out. rewrite !pan_app, pan_sep. split; [intros [[]|[H|[]]]; exact H|auto]. Qed.

  Lemma pan_h_txt s n args cols em ex a :
    pan_h s (mk_header (txt n) args cols em ex (adv_lines reg op e a)) <->
    (pan_args s args \/ pan_cols s (mk_header (txt n) args cols em ex (adv_lines reg op e a))) \/ beside s a.
  Proof.
    unfold pan_h. cbn [hd_name hd_args hd_addenda]. rewrite (pan_adv U F reg op e We). fold (beside s a).
    split; [intros [[]|H]; tauto|tauto].
  Qed.
  (** A date outside the calendar among the expressions written. *)
  Definition dated (s : string) (r : prel) : Prop := s = date_crash /\ exists x, expr_written reg op x r /\ bad x.
  Lemma own_plain s r : rel_table r = [] ->
    match r with RExtLeaf _ _ | RExtSingle _ _ _ | RExtMulti _ _ _ => False | _ => True end ->
    (own s r <-> dated s r \/ beside s (rel_adv r)).
  Proof. intros T N. unfold own. rewrite (messages_beside s r T N). reflexivity. Qed.
  Lemma plain_h n args cols em ad : plain (mk_header n args cols em false ad).
  Proof. intros H. discriminate H. Qed.
  Lemma refs_cols s n args k em ex ad : pan_cols s (mk_header n args (ref_columns k) em ex ad) <-> False.
  Proof. split; [|intros []]. intros (j & o & Hj & H & _). eapply no_refs; eauto. Qed.

  Lemma own_filter s c n i x a : pan_h s (filter_header reg op e c n x a) <-> own s (RFilter c i x a).
  Proof.
    unfold filter_header. rewrite pan_h_txt, own_plain, refs_cols by (reflexivity || exact I). cbn [rel_adv pan_args In].
    assert (E : (exists o, (opt_expr_out op e FUnimplemented "FilterRel" x = o \/ False) /\ pan s o) <-> dated s (RFilter c i x a)).
    { split.
      - intros (o & [<-|[]] & H). apply pan_opt_expr in H as (-> & y & -> & B); [|exact We]. split; [reflexivity|].
        exists y. split; [constructor|exact B].
      - intros (-> & y & W & B). inversion W; subst. eexists. split; [now left|]. apply pan_opt_expr; [exact We|].
        split; [reflexivity|exists y; auto]. }
    rewrite E. split; [|tauto]. intros [[[H|(z & [] & _)]|[]]|H]; auto.
  Qed.
  Lemma own_sort s c n i ss a : pan_h s (sort_header reg op e c n ss a) <-> own s (RSort c i ss a).
  Proof.
    unfold sort_header. rewrite pan_h_txt, own_plain, refs_cols by (reflexivity || exact I). cbn [rel_adv pan_args].
    rewrite pan_map.
    assert (E : (exists f, In f ss /\ pan s (sort_field_out op e f)) <-> dated s (RSort c i ss a)).
    { unfold sort_field_out. split.
      - intros (f & Hf & H). apply pan_tuple in H as (o & [<-|[<-|[]]] & H).
        + apply pan_opt_expr in H as (-> & y & E & B); [|exact We]. split; [reflexivity|].
          exists y. split; [econstructor; eauto|exact B].
        + exfalso. unfold sort_kind_out, missing in H. destruct (sf_kind f) as [[d|k]|]; try destruct H. now apply pan_enum in H.
      - intros (-> & y & W & B). inversion W; subst. eexists. split; [eassumption|]. apply pan_tuple. eexists. split; [now left|].
        apply pan_opt_expr; [exact We|]. split; [reflexivity|exists y; auto]. }
    rewrite E. split; [|tauto]. intros [[[H|(z & [] & _)]|[]]|H]; auto.
  Qed.
  Lemma pan_fetch s n m : (exists z, In z (fetch_arg op e n m) /\ pan s (snd z)) <-> s = date_crash /\ exists x, m = Some (FmExpr x) /\ bad x.
  Proof.
    unfold fetch_arg. destruct m as [[x|z]|].
    - split.
      + intros (y & [<-|[]] & H). cbn [snd fetch_mode_out] in H. apply (pan_expr U F op e We) in H as [-> B]. eauto.
      + intros (-> & y & [= <-] & B). eexists. split; [now left|]. now apply pan_expr.
    - split; [intros (y & [<-|[]] & H); destruct H|intros (_ & x & [=] & _)].
    - split; [intros (y & [] & _)|intros (_ & x & [=] & _)].
  Qed.
  Lemma own_fetch s c n i k o a : pan_h s (fetch_header reg op e c n k o a) <-> own s (RFetch c i k o a).
  Proof.
    unfold fetch_header. rewrite pan_h_txt, own_plain, refs_cols by (reflexivity || exact I). cbn [rel_adv pan_args].
    assert (E : (exists x, In x (fetch_arg op e "limit" k ++ fetch_arg op e "offset" o) /\ pan s (snd x)) <-> dated s (RFetch c i k o a)).
    { split.
      - intros (z & Hz & H). apply in_app_iff in Hz as [Hz|Hz].
        + assert (s = date_crash /\ exists x, k = Some (FmExpr x) /\ bad x) as (-> & x & -> & B) by (apply (pan_fetch s "limit"); eauto).
          split; [reflexivity|]. exists x. split; [constructor|exact B].
        + assert (s = date_crash /\ exists x, o = Some (FmExpr x) /\ bad x) as (-> & x & -> & B) by (apply (pan_fetch s "offset"); eauto).
          split; [reflexivity|]. exists x. split; [constructor|exact B].
      - intros (-> & y & W & B). inversion W; subst.
        + assert (exists z, In z (fetch_arg op e "limit" (Some (FmExpr y))) /\ pan date_crash (snd z)) as (z & Hz & H) by (apply pan_fetch; eauto).
          exists z. split; [apply in_app_iff; now left|exact H].
        + assert (exists z, In z (fetch_arg op e "offset" (Some (FmExpr y))) /\ pan date_crash (snd z)) as (z & Hz & H) by (apply pan_fetch; eauto).
          exists z. split; [apply in_app_iff; now right|exact H]. }
    rewrite E. split; [|tauto]. intros [[[(z & [] & _)|H]|[]]|H]; auto.
  Qed.
  Lemma own_join s c n m l r x p t a : pan_h s (join_header reg op e c n m x p t a) <-> own s (RJoin c l r x p t a).
  Proof.
    unfold join_header. rewrite pan_h_txt, own_plain, refs_cols by (reflexivity || exact I). cbn [rel_adv pan_args].
    match goal with |- ((?A \/ ?B) \/ False) \/ ?C <-> ?D => assert (A \/ B <-> dated s (RJoin c l r x p t a)) as E end; [|tauto].
    split.
    - intros [(o & [<-|[<-|[]]] & H)|(z & Hz & H)].
      + now apply pan_enum in H.
      + apply pan_opt_expr in H as (-> & y & -> & B); [|exact We]. split; [reflexivity|]. exists y. split; [constructor|exact B].
      + destruct p as [y|]; [|destruct Hz]. destruct Hz as [<-|[]]. cbn [snd] in H. apply (pan_expr U F op e We) in H as [-> B].
        split; [reflexivity|]. exists y. split; [constructor|exact B].
    - intros (-> & y & W & B). inversion W; subst.
      + left. eexists. split; [right; now left|]. apply pan_opt_expr; [exact We|]. split; [reflexivity|exists y; auto].
      + right. eexists. split; [now left|]. now apply (pan_expr U F op e We).
  Qed.
  Lemma own_set s c ws l o a : pan_h s (set_header reg op e c ws o a) <-> own s (RSet c l o a).
  Proof.
    unfold set_header. rewrite pan_h_txt, own_plain, refs_cols by (reflexivity || exact I). cbn [rel_adv pan_args].
    split.
    - intros [[[(z & [<-|[]] & H)|(z & [] & _)]|[]]|H]; auto. now apply pan_enum in H.
    - intros [(-> & y & W & B)|H]; [inversion W|auto].
  Qed.
  Lemma own_cross s c n l r a : pan_h s (cross_header reg op e c n a) <-> own s (RCross c l r a).
  Proof.
    unfold cross_header. rewrite pan_h_txt, own_plain, refs_cols by (reflexivity || exact I). cbn [rel_adv pan_args].
    split; [tauto|]. intros [(-> & y & W & B)|H]; [inversion W|auto].
  Qed.
  Lemma own_project s c i xs a : pan_h s (project_header reg op e c (input_width reg i) xs a) <-> own s (RProject c i xs a).
  Proof.
    unfold project_header. rewrite pan_h_txt, own_plain by (reflexivity || exact I). cbn [rel_adv pan_args].
    match goal with |- (False \/ ?B) \/ ?C <-> ?D => assert (B <-> dated s (RProject c i xs a)) as E end; [|tauto].
    split.
    - intros (j & o & Hj & H & S). cbn [hd_cols] in Hj.
      destruct (Nat.lt_ge_cases j (input_width reg i)) as [L|L].
      + rewrite nth_error_app1 in Hj by (rewrite refs_length; exact L). exfalso. eapply no_refs; eauto.
      + rewrite nth_error_app2 in Hj by (rewrite refs_length; exact L). rewrite refs_length in Hj.
        rewrite nth_error_map in Hj. destruct (nth_error xs (j - input_width reg i)) as [x|] eqn:N; [|discriminate Hj].
        injection Hj as <-. apply (pan_expr U F op e We) in H as [-> B]. split; [reflexivity|]. exists x. split; [|exact B].
        eapply ew_project; [exact N|]. replace (input_width reg i + (j - input_width reg i)) with j by lia. exact S.
    - intros (-> & y & W & B). inversion W; subst. eexists (input_width reg i + j), _. cbn [hd_cols].
      rewrite nth_error_app2 by (rewrite refs_length; lia). rewrite refs_length.
      replace (input_width reg i + j - input_width reg i) with j by lia.
      match goal with K : nth_error xs j = _ |- _ => rewrite (map_nth_error _ _ _ K) end. split; [reflexivity|].
      split; [now apply (pan_expr U F op e We)|assumption].
  Qed.

  Lemma pan_gargs s sets : (exists o, In o (grouping_args sets) /\ pan s o) <-> exists g o, In g sets /\ In o g /\ pan s o.
  Proof.
    assert (K : (exists o, In o (map (fun g => match g with [] => txt (L "_") | _ => tuple_out g end) sets) /\ pan s o) <->
      exists g o, In g sets /\ In o g /\ pan s o).
    { rewrite pan_map. split.
      - intros (g & Hg & H). destruct g as [|x g]; [destruct H|]. apply pan_tuple in H as (o & Ho & H). eauto.
      - intros (g & o & Hg & Ho & H). exists g. split; [exact Hg|]. destruct g as [|x g]; [destruct Ho|]. apply pan_tuple. eauto. }
    destruct sets as [|g [|g' sets]]; [exact K| |destruct g; exact K]. destruct g as [|x g]; cbn [grouping_args].
    - split; [intros (o & [<-|[]] & H); destruct H|intros (g & o & [<-|[]] & [] & _)].
    - destruct g as [|y g].
      + split; [intros (o & Ho & H); exists [x], o; repeat split; auto; now left|intros (g & o & [<-|[]] & Ho & H); eauto].
      + split; [intros (o & Ho & H); exists (x :: y :: g), o; repeat split; auto; now left|intros (g0 & o & [<-|[]] & Ho & H); eauto].
  Qed.
  Lemma pan_sets s xs gs : (exists g o, In g (snd (grouping_values op e xs gs)) /\ In o g /\ pan s o) <->
    s = date_crash /\ exists x, bad x /\ exists g, In g gs /\
      ((old_groups xs gs = true /\ In x (gr_exprs g)) \/
       (old_groups xs gs = false /\ exists k, In k (gr_refs g) /\ nth_error xs (N.to_nat k) = Some x)).
  Proof.
    unfold grouping_values. rewrite <- old_groups_eq. destruct (old_groups xs gs) eqn:O; cbn [snd].
    - split.
      + intros (l & o & Hl & Ho & H). apply in_map_iff in Hl as (g & <- & Hg). apply in_map_iff in Ho as (x & <- & Hx).
        apply (pan_expr U F op e We) in H as [-> B]. split; [reflexivity|]. exists x. split; [exact B|]. exists g. split; [exact Hg|]. now left.
      + intros (-> & x & B & g & Hg & [[_ Hx]|[[=] _]]). exists (map (expr_out op e) (gr_exprs g)), (expr_out op e x).
        split; [now apply (in_map (fun g => map (expr_out op e) (gr_exprs g)))|].
        split; [now apply in_map|now apply (pan_expr U F op e We)].
    - set (f := fun g : grouping => map (fun i => match nth_error xs (N.to_nat i) with
                                             | Some x => expr_out op e x
                                             | None => missing FInvalid "AggregateRel" end) (gr_refs g)).
      assert (K : (exists g o, In g (map f gs) /\ In o g /\ pan s o) <->
        s = date_crash /\ exists x, bad x /\ exists g, In g gs /\
      ((false = true /\ In x (gr_exprs g)) \/
       (false = false /\ exists k, In k (gr_refs g) /\ nth_error xs (N.to_nat k) = Some x))).
      { split.
        - intros (l & o & Hl & Ho & H). apply in_map_iff in Hl as (g & <- & Hg). apply in_map_iff in Ho as (k & <- & Hk).
          destruct (nth_error xs (N.to_nat k)) as [x|] eqn:N; [|destruct H].
          apply (pan_expr U F op e We) in H as [-> B]. split; [reflexivity|]. exists x. split; [exact B|]. exists g. split; [exact Hg|].
          right. eauto.
        - intros (-> & x & B & g & Hg & [[[=] _]|(_ & k & Hk & N)]). exists (f g), (expr_out op e x).
          split; [now apply in_map|]. split; [|now apply (pan_expr U F op e We)].
          apply in_map_iff. exists k. rewrite N. auto. }
      destruct gs as [|g gs]; [|exact K]. split; [intros (l & o & [<-|[]] & [] & _)|intros (_ & x & _ & g & [] & _)].
  Qed.
  Lemma own_aggregate s c i xs gs ms a : pan_h s (aggregate_header reg op e c xs gs ms a) <-> own s (RAggregate c i xs gs ms a).
  Proof.
    unfold aggregate_header. pose proof (grouping_keys xs gs) as K. pose proof (pan_sets s xs gs) as S.
    destruct (grouping_values op e xs gs) as [ks sets]. cbn [fst snd] in K, S. subst ks.
    rewrite pan_h_txt, own_plain by (reflexivity || exact I). cbn [rel_adv pan_args]. rewrite pan_gargs, S.
    match goal with |- ((?A \/ ?A') \/ ?B) \/ ?C <-> ?D => assert ((A \/ A') \/ B <-> dated s (RAggregate c i xs gs ms a)) as E end; [|tauto].
    split.
    - intros [[(-> & x & B & g & Hg & [[O Hx]|(O & k & Hk & N)])|(z & [] & _)]|(j & o & Hj & H & Sh)].
      + split; [reflexivity|]. exists x. split; [eapply ew_old; eauto|exact B].
      + split; [reflexivity|]. exists x. split; [eapply ew_group; eauto|exact B].
      + cbn [hd_cols] in Hj. destruct (Nat.lt_ge_cases j (length (keys xs gs))) as [L|L].
        * rewrite nth_error_app1 in Hj by (rewrite map_length; exact L). rewrite nth_error_map in Hj.
          destruct (nth_error (keys xs gs) j) as [x|] eqn:N; [|discriminate Hj]. injection Hj as <-.
          apply (pan_expr U F op e We) in H as [-> B]. split; [reflexivity|]. exists x. split; [|exact B].
          unfold keys in N. destruct (old_groups xs gs) eqn:O.
          { apply nth_error_In, dedup_from, in_concat in N as (l & Hl & Hx). apply in_map_iff in Hl as (g & <- & Hg).
            eapply ew_old; eauto. }
          { eapply ew_key; [exact N|exact Sh]. }
        * rewrite nth_error_app2 in Hj by (rewrite map_length; exact L). rewrite map_length, measure_functions, nth_error_map in Hj.
          destruct (nth_error (functions ms) (j - length (keys xs gs))) as [f|] eqn:N; [|discriminate Hj]. injection Hj as <-.
          apply (pan_aggfn U F op e We) in H as (-> & x & Hx & B). split; [reflexivity|]. exists x. split; [|exact B].
          eapply ew_measure; [exact N|exact Hx|]. replace (length (keys xs gs) + (j - length (keys xs gs))) with j by lia. exact Sh.
    - intros (-> & y & W & B). inversion W; subst.
      + left. left. split; [reflexivity|]. exists y. split; [exact B|]. eauto 8.
      + left. left. split; [reflexivity|]. exists y. split; [exact B|]. eauto 10.
      + assert (old_groups xs gs = false) as O.
        { destruct xs; [destruct j; discriminate|reflexivity]. }
        right. exists j, (expr_out op e y). cbn [hd_cols]. unfold keys. rewrite O. split.
        * match goal with K : nth_error xs j = _ |- _ => rewrite nth_error_app1 by (rewrite map_length; apply nth_error_Some; congruence);
            now rewrite (map_nth_error _ _ _ K) end.
        * split; [now apply (pan_expr U F op e We)|assumption].
      + right. exists (length (keys xs gs) + j), (aggfn_out op e f). cbn [hd_cols].
        rewrite nth_error_app2 by (rewrite map_length; lia). rewrite map_length, measure_functions.
        replace (length (keys xs gs) + j - length (keys xs gs)) with j by lia.
        match goal with K : nth_error (functions ms) j = _ |- _ => rewrite (map_nth_error _ _ _ K) end. split; [reflexivity|].
        split; [|assumption]. apply (pan_aggfn U F op e We). eauto.
  Qed.

  Lemma read_none r : Forall none (read_columns op e r).
  Proof.
    unfold read_columns. destruct (rd_schema r) as [sch|].
    - eapply Pzip; try exact We; try exact none_txt; try exact none_app; try apply none_push; exact none_fail.
    - constructor; [apply none_fail|constructor].
  Qed.
  Lemma none_cols s n args r em ex ad : pan_cols s (mk_header n args (read_columns op e r) em ex ad) <-> False.
  Proof.
    split; [|intros []]. intros (j & o & Hj & H & _). apply nth_error_In in Hj. pose proof (read_none r) as N.
    rewrite Forall_forall in N. now apply N in H.
  Qed.
  Lemma plain_read r : plain (read_header reg op e r).
  Proof.
    intros _. pose proof (read_none r) as N. unfold read_header. destruct (rd_type r); exact N.
  Qed.
  Lemma own_read s r : pan_h s (read_header reg op e r) <-> own s (RRead r).
  Proof.
    assert (Q : (forall d, rd_type r <> ReadExtension d) -> rel_table (RRead r) = []).
    { intros H. cbn [rel_table]. destruct (rd_type r) eqn:T; auto. now specialize (H detail). }
    assert (D : (forall rows, rd_type r <> ReadVirtual rows) -> ~ dated s (RRead r)).
    { intros H (_ & x & W & _). inversion W; subst; eapply H; eassumption. }
    unfold read_header. destruct (rd_type r) as [names|rows|d| |] eqn:T.
    - rewrite pan_h_txt, none_cols, own_plain; [|apply Q; congruence|exact I]. cbn [rel_adv pan_args].
      split; [intros [[[(o & [<-|[]] & [])|(z & [] & _)]|[]]|H]; auto|]. intros [H|H]; [|auto]. apply D in H; [contradiction|congruence].
    - clear D.
      set (tuples := map _ rows). set (named := match rd_filter r with Some f => [(L "filter", expr_out op e f)] | None => [] end).
      set (positional := match tuples, named with [], _ :: _ => [txt (L "_")] | _, _ => tuples end).
      rewrite pan_h_txt, none_cols, own_plain; [|apply Q; congruence|exact I]. cbn [rel_adv].
      match goal with |- (?A \/ False) \/ ?C <-> ?E => assert (A <-> (exists o, In o positional /\ pan s o) \/ (exists x, In x named /\ pan s (snd x))) as -> end.
      { destruct (negb _ && _); reflexivity. }
      assert (P1 : (exists o, In o positional /\ pan s o) <-> exists o, In o tuples /\ pan s o).
      { unfold positional. destruct tuples, named; try reflexivity. split; [intros (o & [<-|[]] & [])|intros (o & [] & _)]. }
      rewrite P1.
      match goal with |- (?A \/ False) \/ ?C <-> ?E => assert (A <-> dated s (RRead r)) as K end; [|tauto].
      unfold tuples. rewrite pan_map. split.
      + intros [(row & Hr & H)|(z & Hz & H)].
        * apply pan_tuple in H as (o & Ho & H). apply in_map_iff in Ho as (x & <- & Hx). apply (pan_expr U F op e We) in H as [-> B].
          split; [reflexivity|]. exists x. split; [eapply ew_row; eauto|exact B].
        * unfold named in Hz. destruct (rd_filter r) as [f|] eqn:Ef; [|destruct Hz]. destruct Hz as [<-|[]]. cbn [snd] in H.
          apply (pan_expr U F op e We) in H as [-> B]. split; [reflexivity|]. exists f. split; [eapply ew_rows; eauto|exact B].
      + intros (-> & x & W & B). inversion W; subst.
        * left. match goal with K : rd_type r = ReadVirtual ?l |- _ => rewrite T in K; injection K as <- end.
          exists row. split; [assumption|]. apply pan_tuple. exists (expr_out op e x). split; [now apply in_map|now apply (pan_expr U F op e We)].
        * right. unfold named. match goal with K : rd_filter r = _ |- _ => rewrite K end. eexists. split; [now left|].
          now apply (pan_expr U F op e We).
    - specialize (D ltac:(congruence)). unfold pan_h. cbn [hd_name hd_args hd_addenda pan_args]. rewrite none_cols.
      unfold own. fold (dated s (RRead r)).
      assert (X : (exists o, In o (table_line reg op e d :: adv_lines reg op e (rd_adv r)) /\ pan s o) <->
        pan s (table_line reg op e d) \/ exists o, In o (adv_lines reg op e (rd_adv r)) /\ pan s o).
      { split; [intros (o & [<-|Ho] & H); eauto|intros [H|(o & Ho & H)]; eexists; (split; [|exact H]); [now left|now right]]. }
      rewrite X, (pan_table U F reg op e We), (pan_adv U F reg op e We). fold (beside s (rd_adv r)). split.
      + intros [[]|[[]|[[]|[(d' & -> & B)|B]]]]; right.
        * exists XtTable, d', []. split; [|exact B]. constructor. cbn [rel_table]. rewrite T. now left.
        * destruct B as [(d' & Hd & B)|(d' & Hd & B)]; do 3 eexists; (split; [|exact B]); constructor; exact Hd.
      + intros [H|(t & d' & ws & W & B)]; [contradiction|]. right. right. right. inversion W; subst.
        * right. left. eauto.
        * right. right. eauto.
        * left. match goal with K : In d' (rel_table _) |- _ => cbn [rel_table] in K; rewrite T in K; destruct d as [d|]; [destruct K as [->|[]]|destruct K] end.
          eauto.
    - rewrite pan_h_txt, none_cols, own_plain; [|apply Q; congruence|exact I]. cbn [rel_adv pan_args]. unfold missing.
      split; [intros [[[(o & [<-|[]] & [])|(z & [] & _)]|[]]|H]; auto|]. intros [H|H]; [|auto]. apply D in H; [contradiction|congruence].
    - rewrite pan_h_txt, none_cols, own_plain; [|apply Q; congruence|exact I]. cbn [rel_adv pan_args]. unfold missing.
      split; [intros [[[(o & [<-|[]] & [])|(z & [] & _)]|[]]|H]; auto|]. intros [H|H]; [|auto]. apply D in H; [contradiction|congruence].
  Qed.

  Lemma pan_extension s k d ws : pan_h s (extension_header reg op e k d ws) <-> exists d', d = Some d' /\ bad_message F reg s XtRelation d' ws.
  Proof.
    unfold extension_header. destruct d as [d|]; cycle 1.
    { split; [|intros (d' & [=] & _)]. intros [[]|[[]|[(j & o & Hj & H & _)|(o & [] & _)]]].
      destruct j as [|[|j]]; cbn in Hj; [injection Hj as <-; destruct H|discriminate|discriminate]. }
    assert (M : (exists d', Some d = Some d' /\ bad_message F reg s XtRelation d' ws) <-> bad_message F reg s XtRelation d ws).
    { split; [intros (d' & [= <-] & H); exact H|eauto]. }
    rewrite M. clear M. unfold bad_message. destruct (decode_message reg XtRelation d ws) as (M1 & M2 & M3).
    destruct (decode_with_type reg XtRelation d ws) as [[n a]|x|p] eqn:D.
    - assert (forall a', message reg XtRelation d ws (Ok a') -> a' = a) as U1.
      { intros a' H. apply M3 in H as (n' & H). now injection H. }
      assert (~ message reg XtRelation d ws (Panic s)) as NP by (intros H; apply M2 in H; discriminate H).
      specialize (M1 n a eq_refl). unfold pan_h. cbn [hd_name hd_args hd_addenda pan_args].
      rewrite pan_map.
      assert (N1 : (exists x, In x (map (fun p : list N * xvalue => (fst p, xvalue_out op e (snd p))) (xa_named a)) /\ pan s (snd x)) <->
        exists p, In p (xa_named a) /\ pan s (xvalue_out op e (snd p))).
      { split; [intros (x & Hx & H); apply in_map_iff in Hx as (p & <- & Hp); eauto|].
        intros (p & Hp & H). exists (fst p, xvalue_out op e (snd p)).
        split; [now apply (in_map (fun p : list N * xvalue => (fst p, xvalue_out op e (snd p))))|exact H]. }
      rewrite N1.
      match goal with |- _ \/ _ \/ pan_cols s ?h \/ _ <-> _ =>
        assert (C : pan_cols s h <-> exists c, In c (xa_columns a) /\ pan s (xcolumn_out op e c)) end.
      { rewrite <- pan_map. unfold pan_cols, shown. cbn [hd_cols hd_emit]. split.
        - intros (j & o & Hj & H & _). apply nth_error_In in Hj. eauto.
        - intros (o & Ho & H). apply In_nth_error in Ho as (j & Hj). exists j, o. split; [exact Hj|]. split; [exact H|]. right. discriminate. }
      rewrite C. split.
      + intros [[]|[[(v & Hv & H)|(v & Hv & H)]|[(v & Hv & H)|(o & [] & _)]]]; right.
        * apply (pan_value U F op e We) in H as [-> B]. split; [reflexivity|]. exists a. split; [exact M1|]. split; [|now left].
          apply bad_args_iff. left. eauto.
        * apply (pan_value U F op e We) in H as [-> B]. split; [reflexivity|]. exists a. split; [exact M1|]. split; [|now left].
          apply bad_args_iff. right. left. eauto.
        * apply (pan_column U F op e We) in H as (-> & x & E & B). split; [reflexivity|]. exists a. split; [exact M1|]. split; [|now left].
          apply bad_args_iff. right. right. eauto.
      + intros [H|(-> & a' & H & B & _)]; [contradiction|]. apply U1 in H as ->. right.
        apply bad_args_iff in B as [(v & Hv & B)|[(v & Hv & B)|(c & x & Hc & E & B)]].
        * left. left. exists v. split; [exact Hv|]. now apply (pan_value U F op e We).
        * left. right. exists v. split; [exact Hv|]. now apply (pan_value U F op e We).
        * right. left. exists c. split; [exact Hc|]. apply (pan_column U F op e We). eauto.
    - split.
      + intros [[]|[[]|[(j & o & Hj & H & _)|(o & [] & _)]]].
        destruct j as [|[|j]]; cbn in Hj; [injection Hj as <-; destruct H|discriminate|discriminate].
      + intros [H|(_ & a' & H & _)]; [apply M2 in H; discriminate H|apply M3 in H as (n' & H); discriminate H].
    - split.
      + intros [H|[[]|[(j & o & Hj & H & _)|(o & [] & _)]]].
        * apply pan_panic in H as ->. left. now apply M2.
        * destruct j; discriminate Hj.
      + intros [H|(_ & a' & H & _)]; [|apply M3 in H as (n' & H); discriminate H]. apply M2 in H. injection H as ->. left. now left.
  Qed.
  Lemma plain_extension k d ws : plain (extension_header reg op e k d ws).
  Proof.
    unfold extension_header. destruct d as [d|]; [|intros [=]]. destruct (decode_with_type reg XtRelation d ws) as [[n a]|x|p]; intros [=].
  Qed.
  Lemma own_extension s r d ws :
    (match r with
     | RExtLeaf _ d' => d = d' /\ ws = []
     | RExtSingle _ d' i => d = d' /\ ws = map (written_width reg) (opt_list i)
     | RExtMulti _ d' l => d = d' /\ ws = map (written_width reg) l
     | _ => False end) ->
    (own s r <-> exists d', d = Some d' /\ bad_message F reg s XtRelation d' ws).
  Proof.
    intros H. unfold own. split.
    - intros [(_ & x & W & _)|(t & d' & ws' & W & B)]; [inversion W; subst; contradiction H|].
      inversion W; subst; try (destruct H as [-> ->]; eauto; fail).
      all: try (destruct r; try contradiction H; match goal with K : In _ _ |- _ => destruct K end).
    - intros (d' & -> & B). right. destruct r; try contradiction H; destruct H as [<- ->]; do 3 eexists; (split; [|exact B]); constructor.
  Qed.

  (** ** All relations *)
  Lemma pan_rel s r : forall depth, pan s (rel_out reg op e depth r) <-> write_crashes reg op s r.
  Proof.
    unfold rel_out. revert r.
    assert (One : forall (i : option prel), opt_P (fun i => forall depth, pan s (view_out op depth (view_of reg op e i)) <-> write_crashes reg op s i) i ->
      forall depth, (exists v, match i with Some r => Some (view_of reg op e r) | None => None end = Some v /\ pan s (view_out op depth v)) <->
        exists x, i = Some x /\ write_crashes reg op s x).
    { intros [i|] IH depth; cbn [opt_P] in IH.
      - split; [intros (v & [= <-] & H); apply IH in H; eauto|intros (x & [= <-] & H); eexists; split; [reflexivity|now apply IH]].
      - split; [intros (v & [=] & _)|intros (x & [=] & _)]. }
    assert (Many : forall l, Forall (fun i => forall depth, pan s (view_out op depth (view_of reg op e i)) <-> write_crashes reg op s i) l ->
      forall depth, (exists v, In (Some v) (map Some (map (view_of reg op e) l)) /\ pan s (view_out op depth v)) <->
        exists x, In x l /\ write_crashes reg op s x).
    { intros l IH depth. rewrite Forall_forall in IH. split.
      - intros (v & Hv & H). rewrite map_map in Hv. apply in_map_iff in Hv as (x & [= <-] & Hx). apply IH in H; eauto.
      - intros (x & Hx & H). eexists. split; [rewrite map_map; apply in_map_iff; eexists; split; [reflexivity|exact Hx]|now apply IH]. }
    assert (W : forall i, Rels.width match i with Some r => Some (view_of reg op e r) | None => None end = input_width reg i).
    { intros [i|]; [|reflexivity]. cbn [Rels.width input_width]. symmetry. apply emitted_width. }
    assert (S1 : forall (v : option view) P, (exists w, In (Some w) [v] /\ P w) <-> exists w, v = Some w /\ P w).
    { intros v P. split; intros (w & Hw & H); exists w; (split; [|exact H]); [destruct Hw as [->|[]]; reflexivity|now left]. }
    assert (S2 : forall (v w : option view) P, (exists u, In (Some u) [v; w] /\ P u) <-> (exists u, v = Some u /\ P u) \/ (exists u, w = Some u /\ P u)).
    { intros v w P. split.
      - intros (u & [->|[->|[]]] & H); eauto.
      - intros [(u & -> & H)|(u & -> & H)]; exists u; (split; [|exact H]); cbn; auto. }
    apply (prel_ind2 (fun r => forall depth, pan s (view_out op depth (view_of reg op e r)) <-> write_crashes reg op s r)).
    - intros r depth. cbn [view_of]. rewrite pan_view by apply plain_read. rewrite crashes_own, own_read.
      split; (intros [H|(v & H & _)]; [now left|]); [destruct H|inversion H].
    - intros c i x a IH depth. cbn [view_of]. rewrite pan_view by apply plain_h. rewrite crashes_own, (own_filter s c _ i x a), S1, (One i IH).
      split; (intros [H|(v & H & K)]; [now left|right]); [subst i; exists v; split; [constructor|exact K]|inversion H; subst; eauto].
    - intros c i x a IH depth. cbn [view_of]. rewrite pan_view by apply plain_h. rewrite crashes_own, W, (own_project s c i x a), S1, (One i IH).
      split; (intros [H|(v & H & K)]; [now left|right]); [subst i; exists v; split; [constructor|exact K]|inversion H; subst; eauto].
    - intros c i xs gs ms a IH depth. cbn [view_of]. rewrite pan_view.
      2: { unfold aggregate_header. destruct (grouping_values op e xs gs). apply plain_h. }
      rewrite crashes_own, (own_aggregate s c i xs gs ms a), S1, (One i IH).
      split; (intros [H|(v & H & K)]; [now left|right]); [subst i; exists v; split; [constructor|exact K]|inversion H; subst; eauto].
    - intros c i x a IH depth. cbn [view_of]. rewrite pan_view by apply plain_h. rewrite crashes_own, (own_sort s c _ i x a), S1, (One i IH).
      split; (intros [H|(v & H & K)]; [now left|right]); [subst i; exists v; split; [constructor|exact K]|inversion H; subst; eauto].
    - intros c i n o a IH depth. cbn [view_of]. rewrite pan_view by apply plain_h. rewrite crashes_own, (own_fetch s c _ i n o a), S1, (One i IH).
      split; (intros [H|(v & H & K)]; [now left|right]); [subst i; exists v; split; [constructor|exact K]|inversion H; subst; eauto].
    - intros c l r x p t a IHl IHr depth. cbn [view_of]. rewrite pan_view by apply plain_h.
      rewrite crashes_own, (own_join s c _ _ l r x p t a), S2, (One l IHl), (One r IHr). split.
      + intros [H|[(v & -> & K)|(v & -> & K)]]; [now left|right|right]; exists v; (split; [|exact K]); constructor.
      + intros [H|(v & H & K)]; [now left|right]. inversion H; subst; eauto.
    - intros c l o a IH depth. cbn [view_of]. rewrite pan_view by apply plain_h. rewrite crashes_own, (own_set s c _ l o a), (Many l IH).
      split; (intros [H|(v & H & K)]; [now left|right]); [exists v; split; [now constructor|exact K]|inversion H; subst; eauto].
    - intros c l r a IHl IHr depth. cbn [view_of]. rewrite pan_view by apply plain_h.
      rewrite crashes_own, (own_cross s c _ l r a), S2, (One l IHl), (One r IHr). split.
      + intros [H|[(v & -> & K)|(v & -> & K)]]; [now left|right|right]; exists v; (split; [|exact K]); constructor.
      + intros [H|(v & H & K)]; [now left|right]. inversion H; subst; eauto.
    - intros c d depth. cbn [view_of]. rewrite pan_view by apply plain_extension.
      rewrite crashes_own, pan_extension, (own_extension s (RExtLeaf c d) d []) by auto.
      split; (intros [H|(v & H & _)]; [now left|]); [destruct H|inversion H].
    - intros c d i IH depth. cbn [view_of]. rewrite pan_view by apply plain_extension.
      rewrite crashes_own, pan_extension, (own_extension s (RExtSingle c d i) d (map (written_width reg) (opt_list i))) by auto.
      rewrite S1, (One i IH).
      assert (match match i with Some r => Some (view_of reg op e r) | None => None end with Some v => [emitted v] | None => [] end =
        map (written_width reg) (opt_list i)) as -> by (destruct i as [i|]; [cbn; now rewrite emitted_width|reflexivity]).
      split; (intros [H|(v & H & K)]; [now left|right]); [subst i; exists v; split; [constructor|exact K]|inversion H; subst; eauto].
    - intros c d l IH depth. cbn [view_of]. rewrite pan_view by apply plain_extension.
      rewrite crashes_own, pan_extension, (own_extension s (RExtMulti c d l) d (map (written_width reg) l)) by auto.
      rewrite (Many l IH).
      assert (map emitted (map (view_of reg op e) l) = map (written_width reg) l) as ->
        by (rewrite map_map; apply map_ext; intros i; now rewrite emitted_width).
      split; (intros [H|(v & H & K)]; [now left|right]); [exists v; split; [now constructor|exact K]|inversion H; subst; eauto].
    - intros v depth. cbn [view_of]. rewrite pan_view by apply plain_h. split.
      + intros [[[]|[[]|[(j & o & Hj & _)|(o & [] & _)]]]|(w & [] & _)]. destruct j; discriminate Hj.
      + intros H. apply crashes_own in H as [H|(i & H & _)]; [|inversion H]. apply own_plain in H; [|reflexivity|exact I].
        destruct H as [(_ & x & H & _)|[(d & [] & _)|(d & [] & _)]]. inversion H.
    - intros depth. cbn [view_of]. rewrite pan_view by apply plain_h. split.
      + intros [[[]|[[]|[(j & o & Hj & _)|(o & [] & _)]]]|(w & [] & _)]. destruct j; discriminate Hj.
      + intros H. apply crashes_own in H as [H|(i & H & _)]; [|inversion H]. apply own_plain in H; [|reflexivity|exact I].
        destruct H as [(_ & x & H & _)|[(d & [] & _)|(d & [] & _)]]. inversion H.
  Qed.
  Lemma pan_plan_rel s p : pan s (plan_rel_out reg op e p) <->
    exists r, (p = PRel r \/ exists ns, p = PRoot ns (Some r)) /\ write_crashes reg op s r.
  Proof.
    destruct p as [r|ns i|]; cbn [plan_rel_out].
    - rewrite pan_rel. split; [intros H; exists r; auto|intros (r' & [E|(ns & E)] & K); [now injection E as ->|discriminate E]].
    - rewrite pan_app. split.
      + intros [[]|H]. destruct i as [r|]; [|destruct H]. apply pan_app in H as [[]|H]. apply pan_rel in H. exists r. split; [right; eauto|exact H].
      + intros (r & [E|(ns' & E)] & K); [discriminate E|]. injection E as <- ->. right. apply pan_app. right. now apply pan_rel.
    - split; [intros []|intros (r & [E|(ns & E)] & _); discriminate E].
  Qed.
End Rels.

Lemma pan_format (U : Unicode) (F : Floats) reg op p s : In s (o_panics (format reg op p)) <-> plan_crashes reg op s p.
Proof.
  fold (pan s (format reg op p)). unfold format. pose proof (wf_from_extensions (pl_urns _ p) (pl_decls _ p)) as We.
  destruct (from_extensions (pl_urns _ p) (pl_decls _ p)) as [e errs]. cbn [fst] in We. unfold relations_out.
  rewrite !pan_app, pan_sep, pan_map. unfold plan_crashes. split.
  - intros [[]|[[]|[[]|[[]|[[[]|(q & Hq & H)]|[]]]]]]. apply (pan_plan_rel U F reg op e We) in H as (r & [->|(ns & ->)] & H); exists r; (split; [|exact H]); eauto.
  - intros (r & [Hr|(ns & Hr)] & H); right; right; right; right; left; right; eexists; (split; [exact Hr|]);
      apply (pan_plan_rel U F reg op e We); exists r; (split; [|exact H]); eauto.
Qed.
