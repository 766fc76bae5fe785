(** The errors of formatting relations and plans. *)
From Coq Require Import String List NArith ZArith Bool Lia.
From Verif Require Import Base BaseFacts Names SimpleExt SimpleExtFacts Out Anchors Types TypesFacts Calendar Literals Exprs
  ExprsFacts ExprEq ExtArgs Registry SpecRegistry Rels SpecRels SpecAddenda Plan Structural SpecLits SpecVisible SpecNotation SpecFormat
  OutClosed SpecWriteCrash WriteCrash WriteCrashRels SpecWriteErrors WriteErrors.
Import ListNotations.
Local Open Scope string_scope.
Local Open Scope list_scope.
Local Open Scope nat_scope.

Section Rels.
  Context (U : Unicode) (F : Floats).
  Variables (reg : registry) (op : options) (e : exts).
  Hypothesis We : wf_exts e.

  (** ** Headers *)
  (** An error of a column that is shown. *)
  Definition err_cols (er : ferr) (em : option emit_kind) (cols : list out) : Prop :=
    exists j o, nth_error cols j = Some o /\ err er o /\ (op_show_emit op = true \/ forall m, em = Some (EmEmit m) -> In (Z.of_nat j) m).
  (** A chosen column that does not exist. *)
  Definition bad_emit (er : ferr) (em : option emit_kind) (n : nat) : Prop :=
    er = FPlan FInvalid "Emitted" /\ op_show_emit op = false /\
    exists m k, em = Some (EmEmit m) /\ In k m /\ ~ (0 <= k < Z.of_nat n)%Z.
  Lemma err_nth er (l : list out) : (exists o, In o l /\ err er o) <-> exists j o, nth_error l j = Some o /\ err er o.
  Proof.
    split.
    - intros (o & Ho & H). apply In_nth_error in Ho as (j & Hj). eauto.
    - intros (j & o & Hj & H). apply nth_error_In in Hj. eauto.
  Qed.
  Lemma err_shown er h : (exists o, In o (shown_columns op h) /\ err er o) <->
    err_cols er (hd_emit h) (hd_cols h) \/ bad_emit er (hd_emit h) (length (hd_cols h)).
  Proof.
    unfold shown_columns, err_cols, bad_emit. destruct (op_show_emit op).
    - rewrite err_nth. split; [intros (j & o & Hj & H); left; exists j, o; auto|].
      intros [(j & o & Hj & H & _)|(_ & [=] & _)]; eauto.
    - assert (D : hd_emit h = None \/ hd_emit h = Some EmDirect \/ exists m, hd_emit h = Some (EmEmit m))
        by (destruct (hd_emit h) as [[|m]|]; eauto).
      assert (K : (hd_emit h = None \/ hd_emit h = Some EmDirect) -> ((exists o, In o (hd_cols h) /\ err er o) <->
        (exists j o, nth_error (hd_cols h) j = Some o /\ err er o /\ (false = true \/ (forall m, hd_emit h = Some (EmEmit m) -> In (Z.of_nat j) m))) \/
        er = FPlan FInvalid "Emitted" /\ false = false /\
        (exists m k, hd_emit h = Some (EmEmit m) /\ In k m /\ ~ (0 <= k < Z.of_nat (length (hd_cols h)))%Z))).
      { intros E. rewrite err_nth. split.
        - intros (j & o & Hj & H). left. exists j, o. split; [exact Hj|]. split; [exact H|]. right. intros m Em. destruct E; congruence.
        - intros [(j & o & Hj & H & _)|(_ & _ & m & k & Em & _)]; [eauto|]. destruct E; congruence. }
      destruct D as [E|[E|(m & E)]]; [rewrite <- K by auto; now rewrite E|rewrite <- K by auto; now rewrite E|clear K]. rewrite E, err_map. split.
      + intros (i & Hi & H). unfold zget in H. destruct (i <? 0)%Z eqn:L0.
        { right. apply err_fail in H as ->. split; [reflexivity|]. split; [reflexivity|]. exists m, i. split; [reflexivity|]. split; [exact Hi|lia]. }
        destruct (nth_error (hd_cols h) (Z.to_nat i)) as [o|] eqn:N.
        * left. exists (Z.to_nat i), o. split; [exact N|]. split; [exact H|]. right. intros m' [= <-]. rewrite Z2Nat.id by lia. exact Hi.
        * right. apply err_fail in H as ->. split; [reflexivity|]. split; [reflexivity|]. exists m, i. split; [reflexivity|]. split; [exact Hi|].
          apply nth_error_None in N. lia.
      + intros [(j & o & Hj & H & [S|S])|(-> & _ & m' & k & [= <-] & Hk & R)]; [discriminate S| |].
        * specialize (S m eq_refl). exists (Z.of_nat j). split; [exact S|].
          unfold zget. replace (Z.of_nat j <? 0)%Z with false by lia. now rewrite Nat2Z.id, Hj.
        * exists k. split; [exact Hk|]. unfold zget. destruct (k <? 0)%Z eqn:L0; [now apply err_fail|].
          destruct (nth_error (hd_cols h) (Z.to_nat k)) as [o|] eqn:N; [|now apply err_fail].
          exfalso. apply R. assert (Z.to_nat k < length (hd_cols h)) by (apply nth_error_Some; congruence). lia.
  Qed.
  Definition err_args (er : ferr) (a : option rel_args) : Prop :=
    match a with
    | None => False
    | Some (RaInline p n) | Some (RaRows p n) => (exists o, In o p /\ err er o) \/ (exists x : list N * out, In x n /\ err er (snd x))
    end.
  Lemma err_named er n : (exists o, In o (map named_out n) /\ err er o) <-> exists x : list N * out, In x n /\ err er (snd x).
  Proof.
    rewrite err_map. unfold named_out. split; intros (x & Hx & H); exists x; (split; [exact Hx|]).
    - apply err_app in H as [[]|H]; exact H.
    - apply err_app. now right.
  Qed.
  Lemma err_in_app er (a b : list out) :
    (exists o, In o (a ++ b) /\ err er o) <-> (exists o, In o a /\ err er o) \/ (exists o, In o b /\ err er o).
  Proof.
    split.
    - intros (o & Ho & H). apply in_app_iff in Ho as [Ho|Ho]; eauto.
    - intros [(o & Ho & H)|(o & Ho & H)]; exists o; (split; [apply in_app_iff; auto|exact H]).
  Qed.
  Lemma err_arguments er p n : err er (arguments_out p n) <-> err_args er (Some (RaInline p n)).
  Proof.
    cbn [err_args]. rewrite <- err_named, <- err_in_app, <- (err_sep er (L ", ")). unfold arguments_out. destruct p, n; try reflexivity.
  Qed.
  Lemma err_rows er d b l : err er (row_lines op d b l) <-> exists o, In o l /\ err er o.
  Proof.
    assert (R : forall b o, err er (row_line op d b o) <-> err er o).
    { intros b' o. unfold row_line. rewrite !err_app. split; [intros [[]|[H|[]]]; exact H|tauto]. }
    induction l as [|x l IH]; [split; [intros []|intros (o & [] & _)]|]. destruct l as [|y l].
    - cbn [row_lines]. rewrite R. split; [intros H; exists x; split; [now left|exact H]|intros (o & [->|[]] & H); exact H].
    - change (row_lines op d b (x :: y :: l)) with (row_line op d true x +++ row_lines op d b (y :: l)). rewrite err_app, R, IH. split.
      + intros [H|(o & Ho & H)]; [exists x; split; [now left|exact H]|exists o; split; [now right|exact H]].
      + intros (o & [<-|Ho] & H); [now left|right; eauto].
  Qed.
  Definition err_columns (er : ferr) (h : header) : Prop :=
    if hd_explicit h then exists o, In o (hd_cols h) /\ err er o
    else err_cols er (hd_emit h) (hd_cols h) \/ bad_emit er (hd_emit h) (length (hd_cols h)).
  Lemma err_clause er h : err er (output_clause op h) <-> err_columns er h.
  Proof.
    unfold output_clause, err_columns. destruct (hd_explicit h).
    - rewrite !err_app, err_sep. split; [|tauto]. intros [[]|[H|H]]; [exact H|exfalso].
      unfold emit_suffix_out in H. destruct (hd_emit h) as [[|m]|]; try destruct H.
      apply err_app in H as [[]|H]. apply err_sep in H as (o & Ho & H). apply in_map_iff in Ho as (i & <- & _). destruct H.
    - rewrite err_app, err_sep, err_shown. split; [intros [[]|H]; exact H|auto].
  Qed.
  Definition listed (h : header) : Prop := hd_args h = None -> hd_explicit h = false.
  Lemma err_header er d h : listed h ->
    (err er (header_out op d h) <-> err er (hd_name h) \/ err_args er (hd_args h) \/ err_columns er h).
  Proof.
    intros P. unfold header_out. rewrite !err_app, !err_txt. destruct (hd_args h) as [[p n|p n]|] eqn:A.
    - rewrite !err_app, err_txt, err_arguments, (err_clause er h). tauto.
    - rewrite !err_app, !err_txt, !err_rows, err_named, (err_clause er h). cbn [err_args]. tauto.
    - rewrite err_sep, err_shown. cbn [err_args]. unfold err_columns. rewrite (P A). tauto.
  Qed.
  Definition err_h (er : ferr) (h : header) : Prop :=
    err er (hd_name h) \/ err_args er (hd_args h) \/ err_columns er h \/ exists o, In o (hd_addenda h) /\ err er o.
  Lemma err_view er d h cs : listed h ->
    (err er (view_out op d (View h cs)) <-> err_h er h \/ exists v, In (Some v) cs /\ err er (view_out op (S d) v)).
  Proof.
    intros P. cbn [view_out]. rewrite !err_app, (err_header er d h P), !err_fold, !err_map. unfold err_h.
    assert (A : (exists a, In a (hd_addenda h) /\ err er (txt ([c_nl] ++ indent_text op (S d)) +++ a)) <->
      exists o, In o (hd_addenda h) /\ err er o).
    { split; intros (o & Ho & H); exists o; (split; [exact Ho|]); [apply err_app in H as [[]|H]; exact H|apply err_app; now right]. }
    assert (C : (exists c, In c cs /\ err er match c with Some v => txt [c_nl] +++ view_out op (S d) v | None => onil end) <->
      exists v, In (Some v) cs /\ err er (view_out op (S d) v)).
    { split.
      - intros ([v|] & Hv & H); [|destruct H]. exists v. split; [exact Hv|]. apply err_app in H as [[]|H]. exact H.
      - intros (v & Hv & H). exists (Some v). split; [exact Hv|]. apply err_app. now right. }
    rewrite A, C. tauto.
  Qed.

  (** ** Relations *)
  Definition own_error (er : ferr) (r : prel) : Prop := rel_error op e reg er r \/ message_error op e reg er r.
  Lemma error_own er r : write_error op e reg er r <-> own_error er r \/ exists i, rel_input i r /\ write_error op e reg er i.
  Proof.
    split.
    - intros H. unfold own_error. inversion H; subst; eauto.
    - intros [[H|H]|(i & Hi & H)]; [now apply we_rel|now apply we_message|eapply we_input; eauto].
  Qed.
  Lemma own_error_plain er r : match r with RRead _ | RExtLeaf _ _ | RExtSingle _ _ _ | RExtMulti _ _ _ => False | _ => True end ->
    (own_error er r <-> rel_error op e reg er r \/ beside_error U F reg op e er (rel_adv r)).
  Proof.
    intros N. unfold own_error. assert (message_error op e reg er r <-> beside_error U F reg op e er (rel_adv r)) as ->; [|reflexivity].
    split.
    - intros H. inversion H; subst; try contradiction N; [left|right]; eauto.
    - intros [(d & Hd & H)|(d & Hd & H)]; [eapply me_enhancement|eapply me_optimization]; eauto.
  Qed.
  Lemma no_refs_err er n j o : nth_error (ref_columns n) j = Some o -> err er o -> False.
  Proof.
    intros H P. apply nth_error_In in H. unfold ref_columns in H. apply in_map_iff in H as (i & <- & _). destruct P.
  Qed.
  Lemma enum_none l z : enum_name l z = None <-> unnamed l z.
  Proof.
    unfold unnamed. induction l as [|[k n] l IH]; cbn [enum_name In]; [tauto|]. destruct (Z.eqb_spec k z) as [->|N].
    - split; [discriminate|]. intros H. exfalso. apply (H n). now left.
    - rewrite IH. split; [intros H m [[= ? _]|K]; [contradiction|now apply H in K]|intros H m K; apply (H m); now right].
  Qed.
  Lemma err_enum er l z a b : err er (enum_out l z a b) <-> number_error er l z a b.
  Proof.
    unfold enum_out, number_error, missing. rewrite <- enum_none. destruct (enum_name l z).
    - rewrite err_txt. split; [intros []|intros [[=] _]].
    - destruct (Z.eqb_spec z 0); rewrite err_fail; tauto.
  Qed.
  Lemma err_tuple er l : err er (tuple_out l) <-> exists o, In o l /\ err er o.
  Proof. unfold tuple_out. rewrite !err_app, err_sep. split; [intros [[]|[H|[]]]; exact H|auto]. Qed.

  Lemma err_h_txt er n args cols em a :
    err_h er (mk_header (txt n) args cols em false (adv_lines reg op e a)) <->
    (err_args er args \/ err_cols er em cols \/ bad_emit er em (length cols)) \/ beside_error U F reg op e er a.
  Proof.
    unfold err_h, err_columns. cbn [hd_name hd_args hd_addenda hd_explicit hd_cols hd_emit]. rewrite (err_adv U F reg op e We).
    split; [intros [[]|H]; tauto|tauto].
  Qed.
  Lemma listed_h n args cols em ad : listed (mk_header n args cols em false ad).
  Proof. intros _. reflexivity. Qed.
  Lemma refs_err er em k : err_cols er em (ref_columns k) <-> False.
  Proof. split; [|intros []]. intros (j & o & Hj & H & _). eapply no_refs_err; eauto. Qed.
  Lemma emit_intro er r : ~ is_named r -> ~ is_extension r -> bad_emit er (rel_emit r) (direct_width reg r) -> rel_error op e reg er r.
  Proof. intros H1 H2 (E & S & m & k & Em & Hk & R). eapply re_emit; eauto. Qed.
  Lemma emit_elim er r m k : op_show_emit op = false -> rel_emit r = Some (EmEmit m) -> In k m ->
    ~ (0 <= k < Z.of_nat (direct_width reg r))%Z -> er = FPlan FInvalid "Emitted" -> bad_emit er (rel_emit r) (direct_width reg r).
  Proof. intros. unfold bad_emit. eauto 10. Qed.

  Lemma own_err_filter er c i x a : err_h er (filter_header reg op e c (input_width reg i) x a) <-> own_error er (RFilter c i x a).
  Proof.
    unfold filter_header. rewrite err_h_txt, own_error_plain, refs_err, refs_length by exact I. cbn [rel_adv err_args].
    match goal with |- ?A \/ ?B <-> ?D \/ ?B => assert (A <-> D) as ->; [|reflexivity] end. split.
    - intros [[(o & [<-|[]] & H)|(z & [] & _)]|[[]|H]].
      + apply (err_opt_expr U F op e We) in H. destruct x as [x|]; [eapply re_expr; [constructor|exact H]|now apply re_filter].
      + apply emit_intro; cbn; auto.
    - intros H. inversion H; subst.
      + match goal with K : expr_written _ _ _ _ |- _ => inversion K; subst end. left. left. eexists. split; [now left|]. now apply (err_opt_expr U F op e We).
      + right. right. eapply (emit_elim _ (RFilter c i x a)); eauto.
      + left. left. eexists. split; [now left|]. now apply (err_opt_expr U F op e We).
  Qed.
  Lemma err_sort_kind er k : err er (sort_kind_out k) <->
    (forall z, k = Some (SkDirection z) -> unnamed sort_directions z) /\ er = FPlan FInvalid "SortKind".
  Proof.
    unfold sort_kind_out, missing. destruct k as [[z|f]|].
    - rewrite err_enum. unfold number_error. split.
      + intros [N [[_ E]|[_ E]]]; (split; [intros z' [= <-]; exact N|exact E]).
      + intros [N E]. split; [now apply N|]. destruct (Z.eq_dec z 0); auto.
    - rewrite err_fail. split; [intros ->; split; [discriminate|reflexivity]|tauto].
    - rewrite err_fail. split; [intros ->; split; [discriminate|reflexivity]|tauto].
  Qed.
  Lemma own_err_sort er c i ss a : err_h er (sort_header reg op e c (input_width reg i) ss a) <-> own_error er (RSort c i ss a).
  Proof.
    unfold sort_header. rewrite err_h_txt, own_error_plain, refs_err, refs_length by exact I. cbn [rel_adv err_args]. rewrite err_map.
    match goal with |- ?A \/ ?B <-> ?D \/ ?B => assert (A <-> D) as ->; [|reflexivity] end. unfold sort_field_out.
    assert (In1 : forall f, In f ss -> (match sf_expr f with Some x => expr_error op e er x | None => er = FPlan FUnimplemented "SortField" end) ->
      exists a, In a ss /\ err er (tuple_out [opt_expr_out op e FUnimplemented "SortField" (sf_expr a); sort_kind_out (sf_kind a)])).
    { intros f Hf H. exists f. split; [exact Hf|]. apply err_tuple. eexists. split; [now left|]. now apply (err_opt_expr U F op e We). }
    split.
    - intros [[(f & Hf & H)|(z & [] & _)]|[[]|H]].
      + apply err_tuple in H as (o & [<-|[<-|[]]] & H).
        * apply (err_opt_expr U F op e We) in H. destruct (sf_expr f) as [x|] eqn:E; [eapply re_expr; [econstructor; eauto|exact H]|eapply re_sort; eauto].
        * apply err_sort_kind in H as [H E]. eapply re_direction; eauto.
      + apply emit_intro; cbn; auto.
    - intros H. inversion H; subst.
      + match goal with K : expr_written _ _ _ _ |- _ => inversion K; subst end. left. left. eapply In1; [eassumption|].
        match goal with K : sf_expr _ = _ |- _ => now rewrite K end.
      + right. right. eapply (emit_elim _ (RSort c i ss a)); eauto.
      + left. left. eapply In1; [eassumption|]. match goal with K : sf_expr _ = _ |- _ => now rewrite K end.
      + left. left. eexists. split; [eassumption|]. apply err_tuple. eexists. split; [right; now left|]. apply err_sort_kind. auto.
  Qed.
  Lemma err_fetch er n m : (exists z, In z (fetch_arg op e n m) /\ err er (snd z)) <-> exists x, m = Some (FmExpr x) /\ expr_error op e er x.
  Proof.
    unfold fetch_arg. destruct m as [[x|z]|].
    - split.
      + intros (y & [<-|[]] & H). cbn [snd fetch_mode_out] in H. apply (err_expr U F op e We) in H. eauto.
      + intros (y & [= <-] & B). eexists. split; [now left|]. now apply (err_expr U F op e We).
    - split; [intros (y & [<-|[]] & H); destruct H|intros (x & [=] & _)].
    - split; [intros (y & [] & _)|intros (x & [=] & _)].
  Qed.
  Lemma own_err_fetch er c i k o a : err_h er (fetch_header reg op e c (input_width reg i) k o a) <-> own_error er (RFetch c i k o a).
  Proof.
    unfold fetch_header. rewrite err_h_txt, own_error_plain, refs_err, refs_length by exact I. cbn [rel_adv err_args].
    match goal with |- ?A \/ ?B <-> ?D \/ ?B => assert (A <-> D) as ->; [|reflexivity] end. split.
    - intros [[(z & [] & _)|(z & Hz & H)]|[[]|H]].
      + apply in_app_iff in Hz as [Hz|Hz].
        * assert (exists x, k = Some (FmExpr x) /\ expr_error op e er x) as (x & -> & B) by (apply (err_fetch er "limit"); eauto).
          eapply re_expr; [apply ew_limit|exact B].
        * assert (exists x, o = Some (FmExpr x) /\ expr_error op e er x) as (x & -> & B) by (apply (err_fetch er "offset"); eauto).
          eapply re_expr; [apply ew_offset|exact B].
      + apply emit_intro; cbn; auto.
    - intros H. inversion H; subst.
      + left. right. match goal with K : expr_written _ _ _ _ |- _ => inversion K; subst end.
        * assert (exists z, In z (fetch_arg op e "limit" (Some (FmExpr x))) /\ err er (snd z)) as (z & Hz & K) by (apply err_fetch; eauto).
          exists z. split; [apply in_app_iff; now left|exact K].
        * assert (exists z, In z (fetch_arg op e "offset" (Some (FmExpr x))) /\ err er (snd z)) as (z & Hz & K) by (apply err_fetch; eauto).
          exists z. split; [apply in_app_iff; now right|exact K].
      + right. right. eapply (emit_elim _ (RFetch c i k o a)); eauto.
  Qed.
  Lemma own_err_join er c l r x p t a : err_h er (join_header reg op e c (input_width reg l) (input_width reg r) x p t a) <-> own_error er (RJoin c l r x p t a).
  Proof.
    unfold join_header. rewrite err_h_txt, own_error_plain, refs_err, refs_length, <- joined_eq by exact I. cbn [rel_adv err_args].
    match goal with |- ?A \/ ?B <-> ?D \/ ?B => assert (A <-> D) as ->; [|reflexivity] end. split.
    - intros [[(o & [<-|[<-|[]]] & H)|(z & Hz & H)]|[[]|H]].
      + apply err_enum in H. now apply re_join_type.
      + apply (err_opt_expr U F op e We) in H. destruct x as [x|]; [eapply re_expr; [apply ew_join|exact H]|now apply re_join].
      + destruct p as [y|]; [|destruct Hz]. destruct Hz as [<-|[]]. cbn [snd] in H. apply (err_expr U F op e We) in H.
        eapply re_expr; [apply ew_post|exact H].
      + apply emit_intro; cbn; auto.
    - intros H. inversion H; subst.
      + left. match goal with K : expr_written _ _ _ _ |- _ => inversion K; subst end.
        * left. eexists. split; [right; now left|]. now apply (err_opt_expr U F op e We).
        * right. eexists. split; [now left|]. now apply (err_expr U F op e We).
      + right. right. eapply (emit_elim _ (RJoin c l r x p t a)); eauto.
      + left. left. eexists. split; [right; now left|]. now apply (err_opt_expr U F op e We).
      + left. left. eexists. split; [now left|]. now apply err_enum.
  Qed.
  Lemma own_err_set er c l o a : err_h er (set_header reg op e c (map (written_width reg) l) o a) <-> own_error er (RSet c l o a).
  Proof.
    unfold set_header. rewrite err_h_txt, own_error_plain, refs_err, refs_length by exact I. cbn [rel_adv err_args].
    assert (match map (written_width reg) l with [] => 0 | _ => list_sum (map (written_width reg) l) / length (map (written_width reg) l) end =
      direct_width reg (RSet c l o a)) as -> by (cbn [direct_width]; rewrite map_length; destruct l; reflexivity).
    match goal with |- ?A \/ ?B <-> ?D \/ ?B => assert (A <-> D) as ->; [|reflexivity] end. split.
    - intros [[(z & [<-|[]] & H)|(z & [] & _)]|[[]|H]].
      + apply err_enum in H. now apply re_set.
      + apply emit_intro; cbn [is_named is_extension]; auto.
    - intros H. inversion H; subst.
      + match goal with K : expr_written _ _ _ _ |- _ => inversion K end.
      + right. right. eapply (emit_elim _ (RSet c l o a)); eauto.
      + left. left. eexists. split; [now left|]. now apply err_enum.
  Qed.
  Lemma own_err_cross er c l r a : err_h er (cross_header reg op e c (input_width reg l + input_width reg r) a) <-> own_error er (RCross c l r a).
  Proof.
    unfold cross_header. rewrite err_h_txt, own_error_plain, refs_err, refs_length by exact I. cbn [rel_adv err_args].
    match goal with |- ?A \/ ?B <-> ?D \/ ?B => assert (A <-> D) as ->; [|reflexivity] end. split.
    - intros [[]|[[]|H]]. apply emit_intro; cbn; auto.
    - intros H. inversion H; subst.
      + match goal with K : expr_written _ _ _ _ |- _ => inversion K end.
      + right. right. eapply (emit_elim _ (RCross c l r a)); eauto.
  Qed.
  Lemma own_err_project er c i xs a : err_h er (project_header reg op e c (input_width reg i) xs a) <-> own_error er (RProject c i xs a).
  Proof.
    unfold project_header. rewrite err_h_txt, own_error_plain, app_length, refs_length, map_length by exact I. cbn [rel_adv err_args].
    match goal with |- ?A \/ ?B <-> ?D \/ ?B => assert (A <-> D) as ->; [|reflexivity] end. split.
    - intros [[]|[(j & o & Hj & H & S)|H]]; [|apply emit_intro; cbn; auto].
      destruct (Nat.lt_ge_cases j (input_width reg i)) as [L|L].
      + rewrite nth_error_app1 in Hj by (rewrite refs_length; exact L). exfalso. eapply no_refs_err; eauto.
      + rewrite nth_error_app2 in Hj by (rewrite refs_length; exact L). rewrite refs_length in Hj.
        rewrite nth_error_map in Hj. destruct (nth_error xs (j - input_width reg i)) as [x|] eqn:N; [|discriminate Hj].
        injection Hj as <-. apply (err_expr U F op e We) in H. eapply re_expr; [|exact H].
        eapply ew_project; [exact N|]. replace (input_width reg i + (j - input_width reg i)) with j by lia. exact S.
    - intros H. inversion H; subst.
      + match goal with K : expr_written _ _ _ _ |- _ => inversion K; subst end. right. left. eexists (input_width reg i + j), _.
        rewrite nth_error_app2 by (rewrite refs_length; lia). rewrite refs_length.
        replace (input_width reg i + j - input_width reg i) with j by lia.
        match goal with K : nth_error xs j = _ |- _ => rewrite (map_nth_error _ _ _ K) end. split; [reflexivity|].
        split; [now apply (err_expr U F op e We)|assumption].
      + right. right. eapply (emit_elim _ (RProject c i xs a)); eauto.
  Qed.

  Lemma err_gargs er sets : (exists o, In o (grouping_args sets) /\ err er o) <-> exists g o, In g sets /\ In o g /\ err er o.
  Proof.
    assert (K : (exists o, In o (map (fun g => match g with [] => txt (L "_") | _ => tuple_out g end) sets) /\ err er o) <->
      exists g o, In g sets /\ In o g /\ err er o).
    { rewrite err_map. split.
      - intros (g & Hg & H). destruct g as [|x g]; [destruct H|]. apply err_tuple in H as (o & Ho & H). eauto.
      - intros (g & o & Hg & Ho & H). exists g. split; [exact Hg|]. destruct g as [|x g]; [destruct Ho|]. apply err_tuple. eauto. }
    destruct sets as [|g [|g' sets]]; [exact K| |destruct g; exact K]. destruct g as [|x g]; cbn [grouping_args].
    - split; [intros (o & [<-|[]] & H); destruct H|intros (g & o & [<-|[]] & [] & _)].
    - destruct g as [|y g].
      + split; [intros (o & Ho & H); exists [x], o; repeat split; auto; now left|intros (g & o & [<-|[]] & Ho & H); eauto].
      + split; [intros (o & Ho & H); exists (x :: y :: g), o; repeat split; auto; now left|intros (g0 & o & [<-|[]] & Ho & H); eauto].
  Qed.
  Lemma err_sets er xs gs : (exists g o, In g (snd (grouping_values op e xs gs)) /\ In o g /\ err er o) <->
    (exists x, expr_error op e er x /\ exists g, In g gs /\
      ((old_groups xs gs = true /\ In x (gr_exprs g)) \/
       (old_groups xs gs = false /\ exists k, In k (gr_refs g) /\ nth_error xs (N.to_nat k) = Some x))) \/
    (er = FPlan FInvalid "AggregateRel" /\ old_groups xs gs = false /\
      exists g k, In g gs /\ In k (gr_refs g) /\ length xs <= N.to_nat k).
  Proof.
    unfold grouping_values. rewrite <- old_groups_eq. destruct (old_groups xs gs) eqn:O; cbn [snd].
    - split.
      + intros (l & o & Hl & Ho & H). apply in_map_iff in Hl as (g & <- & Hg). apply in_map_iff in Ho as (x & <- & Hx).
        apply (err_expr U F op e We) in H. left. exists x. split; [exact H|]. exists g. split; [exact Hg|]. now left.
      + intros [(x & B & g & Hg & [[_ Hx]|[[=] _]])|(_ & [=] & _)]. exists (map (expr_out op e) (gr_exprs g)), (expr_out op e x).
        split; [now apply (in_map (fun g => map (expr_out op e) (gr_exprs g)))|].
        split; [now apply in_map|now apply (err_expr U F op e We)].
    - set (f := fun g : grouping => map (fun i => match nth_error xs (N.to_nat i) with
                                             | Some x => expr_out op e x
                                             | None => missing FInvalid "AggregateRel" end) (gr_refs g)).
      assert (K : (exists g o, In g (map f gs) /\ In o g /\ err er o) <->
        (exists x, expr_error op e er x /\ exists g, In g gs /\
      ((false = true /\ In x (gr_exprs g)) \/
       (false = false /\ exists k, In k (gr_refs g) /\ nth_error xs (N.to_nat k) = Some x))) \/
        (er = FPlan FInvalid "AggregateRel" /\ false = false /\ exists g k, In g gs /\ In k (gr_refs g) /\ length xs <= N.to_nat k)).
      { split.
        - intros (l & o & Hl & Ho & H). apply in_map_iff in Hl as (g & <- & Hg). apply in_map_iff in Ho as (k & <- & Hk).
          destruct (nth_error xs (N.to_nat k)) as [x|] eqn:N.
          + apply (err_expr U F op e We) in H. left. exists x. split; [exact H|]. exists g. split; [exact Hg|]. right. eauto.
          + apply err_fail in H as ->. right. split; [reflexivity|]. split; [reflexivity|]. exists g, k. repeat split; auto. now apply nth_error_None.
        - intros [(x & B & g & Hg & [[[=] _]|(_ & k & Hk & N)])|(-> & _ & g & k & Hg & Hk & N)].
          + exists (f g), (expr_out op e x). split; [now apply in_map|]. split; [|now apply (err_expr U F op e We)].
            apply in_map_iff. exists k. rewrite N. auto.
          + exists (f g), (missing FInvalid "AggregateRel"). split; [now apply in_map|]. split; [|now apply err_fail].
            apply in_map_iff. exists k. apply nth_error_None in N. rewrite N. auto. }
      destruct gs as [|g gs]; [|exact K]. split; [intros (l & o & [<-|[]] & [] & _)|].
      intros [(x & _ & g & [] & _)|(_ & _ & g & k & [] & _)].
  Qed.
  Lemma own_err_aggregate er c i xs gs ms a : err_h er (aggregate_header reg op e c xs gs ms a) <-> own_error er (RAggregate c i xs gs ms a).
  Proof.
    unfold aggregate_header. pose proof (grouping_keys U F op e xs gs) as K. pose proof (err_sets er xs gs) as S.
    destruct (grouping_values op e xs gs) as [ks sets]. cbn [fst snd] in K, S. subst ks.
    rewrite err_h_txt, own_error_plain by exact I. rewrite (measure_functions U F op e ms). rewrite app_length, !map_length.
    cbn [rel_adv err_args]. rewrite err_gargs, S.
    match goal with |- ?A \/ ?B <-> ?D \/ ?B => assert (A <-> D) as ->; [|reflexivity] end. split.
    - intros [[[(x & B & g & Hg & [[O Hx]|(O & k & Hk & N)])|(-> & O & g & k & Hg & Hk & N)]|(z & [] & _)]|[(j & o & Hj & H & Sh)|H]].
      + eapply re_expr; [eapply ew_old; eauto|exact B].
      + eapply re_expr; [eapply ew_group; eauto|exact B].
      + eapply re_group; eauto.
      + destruct (Nat.lt_ge_cases j (length (keys xs gs))) as [L|L].
        * rewrite nth_error_app1 in Hj by (rewrite map_length; exact L). rewrite nth_error_map in Hj.
          destruct (nth_error (keys xs gs) j) as [x|] eqn:N; [|discriminate Hj]. injection Hj as <-.
          apply (err_expr U F op e We) in H. eapply re_expr; [|exact H].
          unfold keys in N. destruct (old_groups xs gs) eqn:O.
          { apply nth_error_In, dedup_from, in_concat in N as (l & Hl & Hx). apply in_map_iff in Hl as (g & <- & Hg).
            eapply ew_old; eauto. }
          { eapply ew_key; [exact N|exact Sh]. }
        * rewrite nth_error_app2 in Hj by (rewrite map_length; exact L). rewrite map_length, nth_error_map in Hj.
          destruct (nth_error (functions ms) (j - length (keys xs gs))) as [f|] eqn:N; [|discriminate Hj]. injection Hj as <-.
          apply (err_aggfn U F op e We) in H. eapply re_measure; [exact N| |exact H].
          replace (length (keys xs gs) + (j - length (keys xs gs))) with j by lia. exact Sh.
      + apply emit_intro; cbn; auto.
    - assert (M : forall j f, nth_error (functions ms) j = Some f -> column_written op (RAggregate c i xs gs ms a) (length (keys xs gs) + j) ->
        call_error op e er (af_ref f) (af_args f) (af_out f) ->
        err_cols er (get_emit c) (map (expr_out op e) (keys xs gs) ++ map (aggfn_out op e) (functions ms))).
      { intros j f N W B. exists (length (keys xs gs) + j), (aggfn_out op e f).
        rewrite nth_error_app2 by (rewrite map_length; lia). rewrite map_length.
        replace (length (keys xs gs) + j - length (keys xs gs)) with j by lia. rewrite (map_nth_error _ _ _ N). split; [reflexivity|].
        split; [now apply (err_aggfn U F op e We)|exact W]. }
      intros H. inversion H; subst.
      + match goal with K : expr_written _ _ _ _ |- _ => inversion K; subst end.
        * left. left. left. exists x. split; [assumption|]. eauto 8.
        * left. left. left. exists x. split; [assumption|]. eauto 10.
        * assert (old_groups xs gs = false) as O by (destruct xs; [destruct j; discriminate|reflexivity]).
          right. left. exists j, (expr_out op e x). unfold keys. rewrite O. split.
          -- match goal with K : nth_error xs j = _ |- _ => rewrite nth_error_app1 by (rewrite map_length; apply nth_error_Some; congruence);
               now rewrite (map_nth_error _ _ _ K) end.
          -- split; [now apply (err_expr U F op e We)|assumption].
        * right. left. eapply M; eauto. eapply ce_value; eauto.
      + right. left. eapply M; eauto.
      + right. right. eapply (emit_elim _ (RAggregate c i xs gs ms a)); eauto.
      + left. left. right. eauto 10.
  Qed.

  (** ** Reads *)
  Lemma err_field er n t : err er (field_out op e n t) <-> (n = None /\ er = FPlan FInvalid "Name") \/ type_error_in e "Type" er t.
  Proof.
    unfold field_out. rewrite !err_app, err_txt, (err_type_in op e We). destruct n; cbn [oexpect]; rewrite ?err_txt, ?err_fail.
    - split; [intros [[]|[[]|H]]; auto|]. intros [[[=] _]|H]; auto.
    - split; [intros [H|[[]|H]]; auto|]. intros [[_ H]|H]; auto.
  Qed.
  Lemma zip_nth ns ts : forall j, nth_error (zip_fields op e ns ts) j =
    if j <? max (length ns) (length ts) then Some (field_out op e (nth_error ns j) (nth_error ts j)) else None.
  Proof.
    assert (T : forall ts j, nth_error ((fix go l := match l with [] => [] | t :: r => field_out op e None (Some t) :: go r end) ts) j =
      if j <? length ts then Some (field_out op e None (nth_error ts j)) else None).
    { clear. induction ts as [|t ts IH]; intros [|j]; cbn [nth_error length]; try reflexivity. rewrite IH. reflexivity. }
    assert (E' : forall j, nth_error (@nil ptype) j = None) by (intros []; reflexivity).
    revert ts. induction ns as [|n ns IH]; intros [|t ts] j; cbn [zip_fields length].
    - destruct j; reflexivity.
    - destruct j as [|j]; [reflexivity|]. cbn [nth_error]. rewrite T. reflexivity.
    - destruct j as [|j]; [reflexivity|]. cbn [nth_error]. rewrite IH, E'. cbn [length Nat.max]. rewrite Nat.max_0_r. reflexivity.
    - destruct j as [|j]; [reflexivity|]. cbn [nth_error]. rewrite IH. reflexivity.
  Qed.
  Lemma read_length r : length (read_columns op e r) = direct_width reg (RRead r).
  Proof.
    unfold read_columns. cbn [direct_width]. destruct (rd_schema r) as [s|]; [|reflexivity]. rewrite (zip_length U op e).
    destruct (ns_struct s) as [[[ts v] n]|]; reflexivity.
  Qed.
  (** Column [j] of a read has an error. *)
  Definition field_error (er : ferr) (r : read_rel) (j : nat) : Prop :=
    (rd_schema r = None /\ j = 0 /\ er = FPlan FUnimplemented "ReadRel") \/
    (exists s, rd_schema r = Some s /\ j < direct_width reg (RRead r) /\
      ((column_name s j = None /\ er = FPlan FInvalid "Name") \/ type_error_in e "Type" er (column_type s j))).
  Lemma read_nth er r j : (exists o, nth_error (read_columns op e r) j = Some o /\ err er o) <-> field_error er r j.
  Proof.
    unfold field_error, read_columns, column_name, column_type. cbn [direct_width]. destruct (rd_schema r) as [s|].
    - rewrite zip_nth.
      assert (match ns_struct s with Some (ts, _, _) => length ts | None => 0 end =
        length match ns_struct s with Some (t, _, _) => t | None => [] end) as -> by (destruct (ns_struct s) as [[[ts v] n]|]; reflexivity).
      split.
      + intros (o & Hj & H). destruct (Nat.ltb_spec j (max (length (ns_names s)) (length match ns_struct s with Some (t, _, _) => t | None => [] end))) as [L|L]; [|discriminate Hj].
        injection Hj as <-. apply err_field in H. right. exists s. auto.
      + intros [([=] & _)|(s' & [= <-] & L & H)]. apply Nat.ltb_lt in L. rewrite L. eexists. split; [reflexivity|]. now apply err_field.
    - split.
      + intros (o & Hj & H). destruct j as [|[|j]]; try discriminate Hj. injection Hj as <-. apply err_fail in H. left. auto.
      + intros [(_ & -> & E)|(s & [=] & _)]. eexists. split; [reflexivity|]. now apply err_fail.
  Qed.
  Lemma err_cols_read er em r : err_cols er em (read_columns op e r) <->
    exists j, field_error er r j /\ (op_show_emit op = true \/ forall m, em = Some (EmEmit m) -> In (Z.of_nat j) m).
  Proof.
    unfold err_cols. split.
    - intros (j & o & Hj & H & S). exists j. split; [|exact S]. apply read_nth. eauto.
    - intros (j & H & S). apply read_nth in H as (o & Hj & H). eauto.
  Qed.
  Lemma field_intro er r j : field_error er r j -> is_named (RRead r) \/ column_written op (RRead r) j -> rel_error op e reg er (RRead r).
  Proof.
    intros [(S & -> & E)|(s & S & L & H)] W; [now apply re_no_schema|]. eapply re_field; eauto.
  Qed.
  Lemma message_read er r : message_error op e reg er (RRead r) <->
    beside_error U F reg op e er (rd_adv r) \/ exists d, rd_type r = ReadExtension d /\ addendum_error op e reg er XtTable d.
  Proof.
    split.
    - intros H. inversion H; subst; [left; left; eauto|left; right; eauto|right; eauto].
    - intros [[(d & Hd & H)|(d & Hd & H)]|(d & T & H)]; [eapply me_enhancement|eapply me_optimization|eapply me_table]; eauto.
  Qed.
  Lemma rel_error_read er r : rel_error op e reg er (RRead r) <->
    (exists x, expr_written reg op x (RRead r) /\ expr_error op e er x) \/
    (~ is_named (RRead r) /\ bad_emit er (rel_emit (RRead r)) (direct_width reg (RRead r))) \/
    (exists j, field_error er r j /\ (is_named (RRead r) \/ column_written op (RRead r) j)) \/
    ((rd_type r = ReadOther \/ rd_type r = ReadNone) /\ er = FPlan FUnimplemented "ReadRel").
  Proof.
    split.
    - intros H. inversion H; subst.
      + left. eauto.
      + right. left. split; [assumption|]. eapply emit_elim; eauto.
      + right. right. left. exists 0. split; [|assumption]. left. auto.
      + right. right. left. exists j. split; [|assumption]. right. eauto.
      + right. right. right. auto.
    - intros [(x & W & H)|[[N H]|[(j & H & W)|[T E]]]].
      + eapply re_expr; eauto.
      + apply emit_intro; auto.
      + eapply field_intro; eauto.
      + now apply re_read.
  Qed.
  Lemma listed_read r : listed (read_header reg op e r).
  Proof. unfold listed, read_header. destruct (rd_type r); try discriminate; reflexivity. Qed.
  Lemma read_written er r : (~ is_named (RRead r)) ->
    (err_cols er (get_emit (rd_common r)) (read_columns op e r) <->
     exists j, field_error er r j /\ (is_named (RRead r) \/ column_written op (RRead r) j)).
  Proof.
    intros N. rewrite err_cols_read. split; intros (j & H & W); exists j; (split; [exact H|]); [right; exact W|destruct W; [contradiction|assumption]].
  Qed.
  Lemma own_err_read er r : err_h er (read_header reg op e r) <-> own_error er (RRead r).
  Proof.
    unfold own_error. rewrite rel_error_read, message_read.
    assert (D : (forall rows, rd_type r <> ReadVirtual rows) -> forall x, ~ expr_written reg op x (RRead r)).
    { intros H x W. inversion W; subst; eapply H; eassumption. }
    unfold read_header. destruct (rd_type r) as [names|rows|d| |] eqn:T.
    - specialize (D ltac:(discriminate)). unfold err_h. cbn [hd_name hd_args hd_addenda err_args]. rewrite (err_adv U F reg op e We), err_txt.
      assert (NM : is_named (RRead r)) by (cbn [is_named]; rewrite T; exact I).
      match goal with |- _ \/ _ \/ err_columns er ?h \/ _ <-> _ => assert (C : err_columns er h <-> exists j, field_error er r j) end.
      { unfold err_columns. cbn [hd_explicit hd_emit hd_cols].
        assert (A : (exists o, In o (read_columns op e r) /\ err er o) <-> exists j, field_error er r j).
        { rewrite err_nth. split; [intros (j & o & Hj & H); exists j; apply read_nth; eauto|].
          intros (j & H). apply read_nth in H as (o & Hj & H). eauto. }
        destruct (get_emit (rd_common r)) as [[|m]|] eqn:Em; [| exact A|]; rewrite <- A, err_nth; unfold err_cols, bad_emit; split.
        - intros [(j & o & Hj & H & _)|(_ & _ & m & k & [=] & _)]; eauto.
        - intros (j & o & Hj & H). left. exists j, o. split; [exact Hj|]. split; [exact H|]. right. discriminate.
        - intros [(j & o & Hj & H & _)|(_ & _ & m & k & [=] & _)]; eauto.
        - intros (j & o & Hj & H). left. exists j, o. split; [exact Hj|]. split; [exact H|]. right. discriminate. }
      rewrite C. split.
      + intros [[]|[[(o & [<-|[]] & [])|(z & [] & _)]|[(j & H)|H]]]; [left; right; right; left; eauto|right; left; exact H].
      + intros [[(x & W & _)|[[NN _]|[(j & H & _)|[[E|E] _]]]]|[H|(d & [=] & _)]]; try discriminate E; try (now apply D in W); try contradiction; eauto 8.
    - clear D.
      set (tuples := map _ rows). set (named := match rd_filter r with Some f => [(L "filter", expr_out op e f)] | None => [] end).
      set (positional := match tuples, named with [], _ :: _ => [txt (L "_")] | _, _ => tuples end).
      assert (NM : ~ is_named (RRead r)) by (cbn [is_named]; rewrite T; auto).
      rewrite err_h_txt, read_length, (read_written er r NM).
      match goal with |- (?A \/ _) \/ ?C <-> ?E => assert (A <-> (exists o, In o positional /\ err er o) \/ (exists x, In x named /\ err er (snd x))) as -> end.
      { destruct (negb _ && _); reflexivity. }
      assert (P1 : (exists o, In o positional /\ err er o) <-> exists o, In o tuples /\ err er o).
      { unfold positional. destruct tuples, named; try reflexivity. split; [intros (o & [<-|[]] & [])|intros (o & [] & _)]. }
      rewrite P1. unfold tuples. rewrite err_map.
      match goal with |- ((?A \/ ?B) \/ _) \/ _ <-> _ => assert (K : A \/ B <-> exists x, expr_written reg op x (RRead r) /\ expr_error op e er x) end.
      { split.
        - intros [(row & Hr & H)|(z & Hz & H)].
          + apply err_tuple in H as (o & Ho & H). apply in_map_iff in Ho as (x & <- & Hx). apply (err_expr U F op e We) in H.
            exists x. split; [eapply ew_row; eauto|exact H].
          + unfold named in Hz. destruct (rd_filter r) as [f|] eqn:Ef; [|destruct Hz]. destruct Hz as [<-|[]]. cbn [snd] in H.
            apply (err_expr U F op e We) in H. exists f. split; [eapply ew_rows; eauto|exact H].
        - intros (x & W & B). inversion W; subst.
          + left. match goal with K : rd_type r = ReadVirtual ?l |- _ => rewrite T in K; injection K as <- end.
            exists row. split; [assumption|]. apply err_tuple. exists (expr_out op e x). split; [now apply in_map|now apply (err_expr U F op e We)].
          + right. unfold named. match goal with K : rd_filter r = _ |- _ => rewrite K end. eexists. split; [now left|].
            now apply (err_expr U F op e We). }
      rewrite K. change (get_emit (rd_common r)) with (rel_emit (RRead r)). split.
      + intros [[H|[H|H]]|H]; auto 8.
      + intros [[H|[[_ H]|[H|[[E|E] _]]]]|[H|(d & [=] & _)]]; try discriminate E; auto 8.
    - specialize (D ltac:(discriminate)). unfold err_h, err_columns. cbn [hd_name hd_args hd_addenda err_args hd_explicit hd_emit hd_cols].
      assert (NM : ~ is_named (RRead r)) by (cbn [is_named]; rewrite T; auto).
      rewrite read_length, (read_written er r NM), err_txt. change (get_emit (rd_common r)) with (rel_emit (RRead r)).
      assert (X : (exists o, In o (table_line reg op e d :: adv_lines reg op e (rd_adv r)) /\ err er o) <->
        addendum_error op e reg er XtTable d \/ beside_error U F reg op e er (rd_adv r)).
      { rewrite <- (err_table U F reg op e We), <- (err_adv U F reg op e We).
        split; [intros (o & [<-|Ho] & H); eauto|intros [H|(o & Ho & H)]; eexists; (split; [|exact H]); [now left|now right]]. }
      rewrite X. split.
      + intros [[]|[[]|[[H|H]|[H|H]]]]; eauto 8.
      + intros [[(x & W & _)|[[_ H]|[H|[[E|E] _]]]]|[H|(d' & [= <-] & H)]]; try discriminate E; try (now apply D in W); auto 8.
    - specialize (D ltac:(discriminate)).
      assert (NM : ~ is_named (RRead r)) by (cbn [is_named]; rewrite T; auto).
      rewrite err_h_txt, read_length, (read_written er r NM). cbn [err_args]. change (get_emit (rd_common r)) with (rel_emit (RRead r)). split.
      + intros [[[(o & [<-|[]] & H)|(z & [] & _)]|[H|H]]|H]; [apply err_fail in H| | |]; auto 10.
      + intros [[(x & W & _)|[[_ H]|[H|[_ ->]]]]|[H|(d' & [=] & H)]]; try (now apply D in W); auto 8.
        left. left. left. eexists. split; [now left|now apply err_fail].
    - specialize (D ltac:(discriminate)).
      assert (NM : ~ is_named (RRead r)) by (cbn [is_named]; rewrite T; auto).
      rewrite err_h_txt, read_length, (read_written er r NM). cbn [err_args]. change (get_emit (rd_common r)) with (rel_emit (RRead r)). split.
      + intros [[[(o & [<-|[]] & H)|(z & [] & _)]|[H|H]]|H]; [apply err_fail in H| | |]; auto 10.
      + intros [[(x & W & _)|[[_ H]|[H|[_ ->]]]]|[H|(d' & [=] & H)]]; try (now apply D in W); auto 8.
        left. left. left. eexists. split; [now left|now apply err_fail].
  Qed.

  (** ** Extension relations *)
  Lemma err_extension er k d ws : err_h er (extension_header reg op e k d ws) <-> extension_error op e reg er d ws.
  Proof.
    unfold extension_header.
    assert (One : forall n, err_h er (mk_header (txt n) None [missing FInvalid "extension"] None false []) <-> er = FPlan FInvalid "extension").
    { intros n. unfold err_h, err_columns, err_cols, bad_emit. cbn [hd_name hd_args hd_addenda err_args hd_explicit hd_emit hd_cols]. split.
      - intros [[]|[[]|[[(j & o & Hj & H & _)|(_ & _ & m & i & [=] & _)]|(o & [] & _)]]].
        destruct j as [|[|j]]; try discriminate Hj. injection Hj as <-. now apply err_fail in H.
      - intros ->. right. right. left. left. exists 0. eexists. split; [reflexivity|]. split; [now apply err_fail|]. right. discriminate. }
    destruct d as [d|]; cycle 1.
    { rewrite One. split; [apply ee_absent|]. intros H. now inversion H. }
    destruct (decode_with_type reg XtRelation d ws) as [[n a]|x|p] eqn:D.
    - assert (~ undecodable reg XtRelation d ws) as ND by (rewrite undecodable_iff; intros (x & H); congruence).
      pose proof (message_ok reg XtRelation d ws n a D) as M.
      assert (E : extension_error op e reg er (Some d) ws <-> args_error op e er a).
      { split.
        - intros H. inversion H; subst; [contradiction|]. match goal with K : message _ _ _ _ _ |- _ => apply M in K as -> end. assumption.
        - intros H. eapply ee_args; [now apply M|exact H]. }
      rewrite E, (args_iff U F op e). unfold err_h, err_columns, err_cols, bad_emit. cbn [hd_name hd_args hd_addenda err_args hd_explicit hd_emit hd_cols].
      rewrite err_map. split.
      + intros [[]|[[(v & Hv & H)|(v & Hv & H)]|[[(j & o & Hj & H & _)|(_ & _ & m & i & [=] & _)]|(o & [] & _)]]].
        * apply (err_value U F op e We) in H. eauto.
        * apply in_map_iff in Hv as (q & <- & Hq). cbn [snd] in H. apply (err_value U F op e We) in H. eauto.
        * apply nth_error_In in Hj. apply in_map_iff in Hj as (c & <- & Hc). apply (err_column U F op e We) in H. eauto.
      + intros [(v & Hv & H)|[(q & Hq & H)|(c & Hc & H)]].
        * right. left. left. exists v. split; [exact Hv|]. now apply (err_value U F op e We).
        * right. left. right. eexists. split; [apply in_map_iff; exists q; split; [reflexivity|exact Hq]|]. now apply (err_value U F op e We).
        * right. right. left. left. apply In_nth_error in Hc as (j & Hj). exists j, (xcolumn_out op e c).
          split; [now apply map_nth_error|]. split; [now apply (err_column U F op e We)|]. right. discriminate.
    - rewrite One. assert (ND : undecodable reg XtRelation d ws) by (rewrite undecodable_iff; eauto). split.
      + intros E. now apply ee_undecodable.
      + intros H. inversion H; subst; [reflexivity|]. exfalso. destruct ND as [ND _]. eapply ND; eauto.
    - split.
      + intros [[]|[[]|[[(j & o & Hj & _)|(_ & _ & m & i & [=] & _)]|(o & [] & _)]]]. destruct j; discriminate Hj.
      + intros H. exfalso. inversion H; subst.
        * match goal with K : undecodable _ _ _ _ |- _ => apply undecodable_iff in K as (x & K) end. congruence.
        * eapply message_panic; eauto.
  Qed.
  Lemma listed_extension k d ws : listed (extension_header reg op e k d ws).
  Proof.
    unfold extension_header. destruct d as [d|]; [|intros _; reflexivity].
    destruct (decode_with_type reg XtRelation d ws) as [[n a]|x|p]; intros _; reflexivity.
  Qed.
  Lemma own_err_extension er r d ws :
    (match r with
     | RExtLeaf _ d' => d = d' /\ ws = []
     | RExtSingle _ d' i => d = d' /\ ws = map (written_width reg) (opt_list i)
     | RExtMulti _ d' l => d = d' /\ ws = map (written_width reg) l
     | _ => False end) ->
    (own_error er r <-> extension_error op e reg er d ws).
  Proof.
    intros H. unfold own_error. split.
    - intros [K|K].
      + exfalso. inversion K; subst; try contradiction H.
        * match goal with K : expr_written _ _ _ _ |- _ => inversion K; subst; contradiction H end.
        * destruct r; try contradiction H; match goal with K : ~ is_extension _ |- _ => now apply K end.
      + inversion K; subst; try (destruct H as [-> ->]; assumption); exfalso.
        all: try contradiction H; destruct r; try contradiction H; match goal with K : In _ _ |- _ => destruct K end.
    - intros K. right. destruct r; try contradiction H; destruct H as [<- ->]; constructor; exact K.
  Qed.

  (** ** All relations *)
  Lemma err_rel er r : forall depth, err er (rel_out reg op e depth r) <-> write_error op e reg er r.
  Proof.
    unfold rel_out. revert r.
    assert (One : forall (i : option prel), opt_P (fun i => forall depth, err er (view_out op depth (view_of reg op e i)) <-> write_error op e reg er i) i ->
      forall depth, (exists v, match i with Some r => Some (view_of reg op e r) | None => None end = Some v /\ err er (view_out op depth v)) <->
        exists x, i = Some x /\ write_error op e reg er x).
    { intros [i|] IH depth; cbn [opt_P] in IH.
      - split; [intros (v & [= <-] & H); apply IH in H; eauto|intros (x & [= <-] & H); eexists; split; [reflexivity|now apply IH]].
      - split; [intros (v & [=] & _)|intros (x & [=] & _)]. }
    assert (Many : forall l, Forall (fun i => forall depth, err er (view_out op depth (view_of reg op e i)) <-> write_error op e reg er i) l ->
      forall depth, (exists v, In (Some v) (map Some (map (view_of reg op e) l)) /\ err er (view_out op depth v)) <->
        exists x, In x l /\ write_error op e reg er x).
    { intros l IH depth. rewrite Forall_forall in IH. split.
      - intros (v & Hv & H). rewrite map_map in Hv. apply in_map_iff in Hv as (x & [= <-] & Hx). apply IH in H; eauto.
      - intros (x & Hx & H). eexists. split; [rewrite map_map; apply in_map_iff; eexists; split; [reflexivity|exact Hx]|now apply IH]. }
    assert (W : forall i, Rels.width match i with Some r => Some (view_of reg op e r) | None => None end = input_width reg i).
    { intros [i|]; [|reflexivity]. cbn [Rels.width input_width]. symmetry. apply (emitted_width U F). }
    assert (Ws : forall l, map emitted (map (view_of reg op e) l) = map (written_width reg) l).
    { intros l. rewrite map_map. apply map_ext. intros i. now rewrite (emitted_width U F reg op e). }
    assert (S1 : forall (v : option view) P, (exists w, In (Some w) [v] /\ P w) <-> exists w, v = Some w /\ P w).
    { intros v P. split; intros (w & Hw & H); exists w; (split; [|exact H]); [destruct Hw as [->|[]]; reflexivity|now left]. }
    assert (S2 : forall (v w : option view) P, (exists u, In (Some u) [v; w] /\ P u) <-> (exists u, v = Some u /\ P u) \/ (exists u, w = Some u /\ P u)).
    { intros v w P. split.
      - intros (u & [->|[->|[]]] & H); eauto.
      - intros [(u & -> & H)|(u & -> & H)]; exists u; (split; [|exact H]); cbn; auto. }
    apply (prel_ind2 (fun r => forall depth, err er (view_out op depth (view_of reg op e r)) <-> write_error op e reg er r)).
    - intros r depth. cbn [view_of]. rewrite err_view by apply listed_read. rewrite error_own, own_err_read.
      split; (intros [H|(v & H & _)]; [now left|]); [destruct H|inversion H].
    - intros c i x a IH depth. cbn [view_of]. rewrite err_view by apply listed_h. rewrite error_own, W, (own_err_filter er c i x a), S1, (One i IH).
      split; (intros [H|(v & H & K)]; [now left|right]); [subst i; exists v; split; [constructor|exact K]|inversion H; subst; eauto].
    - intros c i x a IH depth. cbn [view_of]. rewrite err_view by apply listed_h. rewrite error_own, W, (own_err_project er c i x a), S1, (One i IH).
      split; (intros [H|(v & H & K)]; [now left|right]); [subst i; exists v; split; [constructor|exact K]|inversion H; subst; eauto].
    - intros c i xs gs ms a IH depth. cbn [view_of]. rewrite err_view.
      2: { unfold aggregate_header. destruct (grouping_values op e xs gs). apply listed_h. }
      rewrite error_own, (own_err_aggregate er c i xs gs ms a), S1, (One i IH).
      split; (intros [H|(v & H & K)]; [now left|right]); [subst i; exists v; split; [constructor|exact K]|inversion H; subst; eauto].
    - intros c i x a IH depth. cbn [view_of]. rewrite err_view by apply listed_h. rewrite error_own, W, (own_err_sort er c i x a), S1, (One i IH).
      split; (intros [H|(v & H & K)]; [now left|right]); [subst i; exists v; split; [constructor|exact K]|inversion H; subst; eauto].
    - intros c i n o a IH depth. cbn [view_of]. rewrite err_view by apply listed_h. rewrite error_own, W, (own_err_fetch er c i n o a), S1, (One i IH).
      split; (intros [H|(v & H & K)]; [now left|right]); [subst i; exists v; split; [constructor|exact K]|inversion H; subst; eauto].
    - intros c l r x p t a IHl IHr depth. cbn [view_of]. rewrite err_view by apply listed_h.
      rewrite error_own, !W, (own_err_join er c l r x p t a), S2, (One l IHl), (One r IHr). split.
      + intros [H|[(v & -> & K)|(v & -> & K)]]; [now left|right|right]; exists v; (split; [|exact K]); constructor.
      + intros [H|(v & H & K)]; [now left|right]. inversion H; subst; eauto.
    - intros c l o a IH depth. cbn [view_of]. rewrite err_view by apply listed_h. rewrite error_own, Ws, (own_err_set er c l o a), (Many l IH).
      split; (intros [H|(v & H & K)]; [now left|right]); [exists v; split; [now constructor|exact K]|inversion H; subst; eauto].
    - intros c l r a IHl IHr depth. cbn [view_of]. rewrite err_view by apply listed_h.
      rewrite error_own, !W, (own_err_cross er c l r a), S2, (One l IHl), (One r IHr). split.
      + intros [H|[(v & -> & K)|(v & -> & K)]]; [now left|right|right]; exists v; (split; [|exact K]); constructor.
      + intros [H|(v & H & K)]; [now left|right]. inversion H; subst; eauto.
    - intros c d depth. cbn [view_of]. rewrite err_view by apply listed_extension.
      rewrite error_own, err_extension, (own_err_extension er (RExtLeaf c d) d []) by auto.
      split; (intros [H|(v & H & _)]; [now left|]); [destruct H|inversion H].
    - intros c d i IH depth. cbn [view_of]. rewrite err_view by apply listed_extension.
      rewrite error_own, err_extension, (own_err_extension er (RExtSingle c d i) d (map (written_width reg) (opt_list i))) by auto.
      rewrite S1, (One i IH).
      assert (match match i with Some r => Some (view_of reg op e r) | None => None end with Some v => [emitted v] | None => [] end =
        map (written_width reg) (opt_list i)) as -> by (destruct i as [i|]; [cbn; now rewrite (emitted_width U F reg op e)|reflexivity]).
      split; (intros [H|(v & H & K)]; [now left|right]); [subst i; exists v; split; [constructor|exact K]|inversion H; subst; eauto].
    - intros c d l IH depth. cbn [view_of]. rewrite err_view by apply listed_extension.
      rewrite error_own, err_extension, (own_err_extension er (RExtMulti c d l) d (map (written_width reg) l)) by auto.
      rewrite (Many l IH), Ws.
      split; (intros [H|(v & H & K)]; [now left|right]); [exists v; split; [now constructor|exact K]|inversion H; subst; eauto].
    - intros v depth. cbn [view_of]. rewrite err_view by apply listed_h. rewrite error_own, own_error_plain by exact I. split.
      + intros [[H|[[]|[[(j & o & Hj & _)|(_ & _ & m & k & [=] & _)]|(o & [] & _)]]]|(w & [] & _)]; [|destruct j; discriminate Hj].
        apply err_fail in H. left. left. now apply re_other.
      + intros [[H|[(d & [] & _)|(d & [] & _)]]|(i & H & _)]; [|inversion H]. left. left. apply err_fail. inversion H; subst; auto.
        * match goal with K : expr_written _ _ _ _ |- _ => inversion K end.
        * discriminate.
    - intros depth. cbn [view_of]. rewrite err_view by apply listed_h. rewrite error_own, own_error_plain by exact I. split.
      + intros [[H|[[]|[[(j & o & Hj & _)|(_ & _ & m & k & [=] & _)]|(o & [] & _)]]]|(w & [] & _)]; [|destruct j; discriminate Hj].
        apply err_fail in H. left. left. now apply re_none.
      + intros [[H|[(d & [] & _)|(d & [] & _)]]|(i & H & _)]; [|inversion H]. left. left. apply err_fail. inversion H; subst; auto.
        * match goal with K : expr_written _ _ _ _ |- _ => inversion K end.
        * discriminate.
  Qed.
  Lemma err_plan_rel er p : err er (plan_rel_out reg op e p) <->
    (p = PRNone /\ er = FPlan FInvalid "PlanRelType") \/
    exists r, (p = PRel r \/ exists ns, p = PRoot ns (Some r)) /\ write_error op e reg er r.
  Proof.
    destruct p as [r|ns i|]; cbn [plan_rel_out].
    - rewrite err_rel. split; [intros H; right; exists r; auto|].
      intros [[[=] _]|(r' & [E|(ns & E)] & K)]; [now injection E as ->|discriminate E].
    - rewrite err_app. split.
      + intros [[]|H]. destruct i as [r|]; [|destruct H]. apply err_app in H as [[]|H]. apply err_rel in H. right. exists r. split; [right; eauto|exact H].
      + intros [[[=] _]|(r & [E|(ns' & E)] & K)]; [discriminate E|]. injection E as <- ->. right. apply err_app. right. now apply err_rel.
    - unfold missing. rewrite err_fail. split; [intros ->; auto|intros [[_ E]|(r & [E|(ns & E)] & _)]; [exact E|discriminate E|discriminate E]].
  Qed.
End Rels.

Lemma err_format (U : Unicode) (F : Floats) reg op p er : In er (o_errs (format reg op p)) <-> plan_error reg op p er.
Proof.
  fold (err er (format reg op p)). unfold format, plan_error. pose proof (wf_from_extensions (pl_urns _ p) (pl_decls _ p)) as We.
  destruct (from_extensions (pl_urns _ p) (pl_decls _ p)) as [e errs]. cbn [fst] in We. unfold relations_out.
  rewrite !err_app, !err_txt, err_sep, err_map.
  assert (err er (mk_out [] (map FInsert errs) [] []) <-> exists x, In x errs /\ er = FInsert x) as ->.
  { unfold err. cbn [o_errs]. rewrite in_map_iff. split; intros (x & H1 & H2); exists x; auto. }
  split.
  - intros [H|[[]|[[]|[[]|[[[]|(q & Hq & H)]|[]]]]]]; [now left|right].
    apply (err_plan_rel U F reg op e We) in H as [[-> E]|(r & [->|(ns & ->)] & H)]; [auto|right|right]; exists r; (split; [|exact H]); eauto.
  - intros [H|[[Hq ->]|(r & [Hr|(ns & Hr)] & H)]]; [now left|right; right; right; right; left; right..]; eexists; (split; [eassumption|]);
      apply (err_plan_rel U F reg op e We); [now left|right|right]; exists r; (split; [|exact H]); eauto.
Qed.
