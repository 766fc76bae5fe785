(** Whole relations and the relations of a plan. *)
From Coq Require Import String List NArith ZArith Bool Lia.
From Verif Require Import Base Names SimpleExt SimpleExtFacts Out Types Literals Exprs ExprEq ExtArgs Registry SpecRegistry Rels Structural Plan
  OutClosed Props_Aggregate SpecAggregate SpecMeaning MeaningFacts SpecText SpecNotation NotationBase NotationTypes NotationLits NotationExprs SpecLayout
  LayoutRels LayoutHeads.
Import ListNotations.
Local Open Scope string_scope.
Local Open Scope list_scope.
Local Open Scope nat_scope.

Lemma full_lines op d word args out ls : full_line op d word args out ls -> ls <> [].
Proof. intros (a & o & _ & _ & ->). discriminate. Qed.
Lemma bare_lines op d word cols k ls : bare_line op d word cols k ls -> ls <> [].
Proof. intros (s & _ & ->). discriminate. Qed.
Lemma long_lines op d word args out ls : long_line op d word args out ls -> ls <> [].
Proof. intros (a & o & _ & _ & ->). discriminate. Qed.
Lemma emitted_iff h cols : Forall2 means (hd_cols h) cols -> hd_emitted h = emitted_width cols (hd_emit h).
Proof. intros H. unfold hd_emitted, emitted_width. destruct (hd_emit h) as [[|m]|]; auto; now induction H; cbn; auto. Qed.
Lemma nonempty {A} (l m : list A) : l <> [] -> l ++ m <> [].
Proof. now destruct l. Qed.
Lemma joined_width_iff t l r w : joined_width t l r w <-> w = join_width t l r.
Proof.
  unfold join_width.
  assert (D : forall z, In t [z] \/ ~ In t [z]) by (intros z; cbn; destruct (Z.eq_dec z t); tauto).
  split.
  - intros H. destruct H as [H|H|H|H|H].
    + destruct H as [<-|[<-|[<-|[]]]]; reflexivity.
    + destruct H as [<-|[<-|[<-|[]]]]; reflexivity.
    + subst. cbn. lia.
    + subst. cbn. lia.
    + assert (N : forall z, In z (left_joins ++ right_joins ++ [11; 12]%Z) -> (t =? z)%Z = false) by (intros z Hz; apply Z.eqb_neq; intros ->; contradiction).
      rewrite !N by (cbn; tauto). reflexivity.
  - intros ->. destruct (Z.eqb_spec t 5) as [->|N5]; [apply jw_left; cbn; tauto|]. destruct (Z.eqb_spec t 6) as [->|N6]; [apply jw_left; cbn; tauto|].
    destruct (Z.eqb_spec t 7) as [->|N7]; [apply jw_left; cbn; tauto|]. destruct (Z.eqb_spec t 8) as [->|N8]; [apply jw_right; cbn; tauto|].
    destruct (Z.eqb_spec t 9) as [->|N9]; [apply jw_right; cbn; tauto|]. destruct (Z.eqb_spec t 10) as [->|N10]; [apply jw_right; cbn; tauto|]. cbn [orb].
    destruct (Z.eqb_spec t 11) as [->|N11]; [rewrite Nat.add_1_r; now apply jw_left_mark|]. destruct (Z.eqb_spec t 12) as [->|N12]; [rewrite Nat.add_1_r; now apply jw_right_mark|].
    apply jw_both. cbn. intuition congruence.
Qed.

Ltac enum_lists := let p := fresh in intros p; match goal with |- In _ ?a <-> In _ ?b => let a' := eval vm_compute in a in let b' := eval vm_compute in b in change (In p a' <-> In p b') end; cbn [In]; tauto.

Section Tree.
  Context `{U : Unicode} `{F : Floats}.
  Context (reg : registry) (op : options) (e : exts) (W : wf_exts e).

  (** What is written before the inputs. *)
  Definition top_out (d : nat) (h : header) : out :=
    header_out op d h +++ fold_right oapp onil (map (fun a => txt ([c_nl] ++ indent_text op (S d)) +++ a) (hd_addenda h)).
  Lemma top_iff d h l (P : list (list N) -> Prop) s :
    (forall s, clean (header_out op d h) s <-> exists ls, P ls /\ s = join nl ls) -> (forall ls, P ls -> ls <> []) -> means_addenda reg op e (hd_addenda h) l ->
    clean (top_out d h) s <-> exists x a, P x /\ addenda_lines reg op e d l a /\ s = join nl (x ++ a).
  Proof.
    intros H N A. unfold top_out. rewrite clean_app. setoid_rewrite H. setoid_rewrite (addenda_iff reg op e d _ _ _ A). split.
    - intros (? & ? & (x & Hx & ->) & (a & Ha & ->) & ->). exists x, a. split; [exact Hx|]. split; [exact Ha|]. symmetry. apply join_below. now apply N.
    - intros (x & a & Hx & Ha & ->). do 2 eexists. split; [exists x; split; [exact Hx|reflexivity]|]. split; [exists a; split; [exact Ha|reflexivity]|]. apply join_below. now apply N.
  Qed.

  Definition head (r : prel) (ws : list nat) : header :=
    match r with
    | RRead r => read_header reg op e r
    | RFilter c _ x adv => filter_header reg op e c (nth 0 ws 0) x adv
    | RProject c _ xs adv => project_header reg op e c (nth 0 ws 0) xs adv
    | RAggregate c _ g gs ms adv => aggregate_header reg op e c g gs ms adv
    | RSort c _ l adv => sort_header reg op e c (nth 0 ws 0) l adv
    | RFetch c _ n o adv => fetch_header reg op e c (nth 0 ws 0) n o adv
    | RJoin c _ _ x p t adv => join_header reg op e c (nth 0 ws 0) (nth 1 ws 0) x p t adv
    | RSet c _ o adv => set_header reg op e c ws o adv
    | RCross c _ _ adv => cross_header reg op e c (nth 0 ws 0 + nth 1 ws 0) adv
    | RExtLeaf _ d => extension_header reg op e "ExtensionLeaf" d ws
    | RExtSingle _ d _ => extension_header reg op e "ExtensionSingle" d ws
    | RExtMulti _ d _ => extension_header reg op e "ExtensionMulti" d ws
    | ROther _ | RNone => mk_header (missing FUnimplemented "Rel") None [] None false []
    end.

  (** A header and the lines of its relation. *)
  Definition head_spec (r : prel) (ws : list nat) : Prop :=
    (forall d s, clean (top_out d (head r ws)) s <-> exists w ls, head_shown reg op e d r ws w ls /\ s = join nl ls) /\
    (forall d w ls, head_shown reg op e d r ws w ls -> w = hd_emitted (head r ws) /\ ls <> []).

  Lemma read_iff r : head_spec (RRead r) [].
  Proof.
    pose proof (read_columns_iff op e W r) as C. cbn [head].
    assert (E1 : hd_cols (read_header reg op e r) = read_columns op e r) by (unfold read_header; destruct (rd_type r); reflexivity).
    assert (E2 : hd_emit (read_header reg op e r) = emit_of (rd_common r)) by (unfold read_header; destruct (rd_type r); reflexivity).
    assert (C' : Forall2 means (hd_cols (read_header reg op e r)) (read_fields op e r)) by (rewrite E1; exact C).
    assert (NE : forall d ls, read_line op e d r ls -> ls <> []).
    { intros d ls H. destruct H; eauto using full_lines, bare_lines, long_lines. }
    split.
    - intros d s. change (head (RRead r) []) with (read_header reg op e r). transitivity (exists x a, read_line op e d r x /\ addenda_lines reg op e d (table_addendum r ++ addenda (rd_adv r)) a /\ s = join nl (x ++ a)).
      2: { split; [intros (x & a & H1 & H2 & ->); do 2 eexists; split; [apply hs_read; eassumption|reflexivity]|].
           intros (w & ls & H & ->). inversion H; subst. eauto. }
      destruct (rd_type r) as [names|rows|[x|]| |] eqn:T.
      + assert (Nm : hd_name (read_header reg op e r) = txt (L "Read")) by (unfold read_header; now rewrite T).
        assert (Ar : hd_args (read_header reg op e r) = Some (RaInline [txt (join (L ".") (map show_name names))] [])) by (unfold read_header; now rewrite T).
        assert (A : means_args ([txt (join (L ".") (map show_name names))] ++ map named_out []) [(None, table_text names)]) by (apply Forall2_cons; [apply means_table|constructor]).
        assert (X : hd_explicit (read_header reg op e r) = match emit_of (rd_common r) with Some (EmEmit _) => true | _ => false end) by (unfold read_header; now rewrite T).
        apply top_iff; [|apply NE|].
        * intros t. destruct (emit_of (rd_common r)) as [[|m]|] eqn:M.
          -- rewrite (full_iff op d _ _ _ _ _ (plain_output op (read_fields op e r) (emit_of (rd_common r))) t Nm Ar A) by (rewrite M, <- E2; now apply plain_iff).
             split; intros (ls & H & ->); exists ls; (split; [|reflexivity]); [eapply rl_named; eauto; congruence|].
             inversion H as [n' m' ? A1 A2 A3|n' ? A1 A2 A3|? ? A1|? ? A1|? ? A1]; subst; congruence.
          -- rewrite (full_iff op d _ _ _ _ _ (mapped_output (read_fields op e r) m) t Nm Ar A) by (apply (mapped_iff op _ _ m); auto).
             split; intros (ls & H & ->); exists ls; (split; [|reflexivity]); [eapply rl_mapped; eauto|].
             inversion H as [n' m' ? A1 A2 A3|n' ? A1 A2 A3|? ? A1|? ? A1|? ? A1]; subst; congruence.
          -- rewrite (full_iff op d _ _ _ _ _ (plain_output op (read_fields op e r) (emit_of (rd_common r))) t Nm Ar A) by (rewrite M, <- E2; now apply plain_iff).
             split; intros (ls & H & ->); exists ls; (split; [|reflexivity]); [eapply rl_named; eauto; congruence|].
             inversion H as [n' m' ? A1 A2 A3|n' ? A1 A2 A3|? ? A1|? ? A1|? ? A1]; subst; congruence.
        * unfold read_header, table_addendum. rewrite T. apply adv_iff; auto.
      + set (tuples := map (fun row => tuple_out (map (expr_out op e) row)) rows).
        set (named := match rd_filter r with Some f => [(L "filter", expr_out op e f)] | None => [] end).
        set (positional := match tuples, named with [], _ :: _ => [txt (L "_")] | _, _ => tuples end).
        assert (A : means_args (positional ++ map named_out named) (row_arguments op e r rows)).
        { unfold row_arguments. apply Forall2_app.
          - assert (T' : means_args tuples (bare_arguments (map (fun row => tuple_text (map (expression op e) row)) rows))).
            { apply bare_args, Forall2_same. intros row. apply means_tuple. apply Forall2_same. now apply means_expr. }
            unfold positional, named. destruct rows as [|row rows].
            + destruct (rd_filter r); [apply Forall2_cons; [apply means_txt|constructor]|exact T'].
            + destruct (rd_filter r); exact T'.
          - unfold named. destruct (rd_filter r); cbn [SpecLayout.named map]; [|constructor]. apply Forall2_cons; [apply named_iff; now apply means_expr|constructor]. }
        assert (X : hd_explicit (read_header reg op e r) = false) by (unfold read_header; now rewrite T).
        assert (O : means (output_clause op (read_header reg op e r)) (plain_output op (read_fields op e r) (emit_of (rd_common r)))) by (rewrite <- E2; now apply plain_iff).
        assert (Nm : hd_name (read_header reg op e r) = txt (L "Read:Virtual")) by (unfold read_header; now rewrite T).
        assert (Ad : means_addenda reg op e (hd_addenda (read_header reg op e r)) (table_addendum r ++ addenda (rd_adv r))).
        { unfold read_header, table_addendum. rewrite T. now apply adv_iff. }
        apply top_iff; [|apply NE|exact Ad]. intros t.
        destruct (negb (Nat.eqb (length rows) 0) && (op_vt_threshold op <=? N.of_nat (length rows))%N) eqn:B.
        * assert (Ar : hd_args (read_header reg op e r) = Some (RaRows positional named)).
          { unfold read_header. rewrite T. cbn [hd_args]. rewrite B. reflexivity. }
          rewrite (long_iff op d _ _ _ _ _ _ t Nm Ar A O). apply andb_true_iff in B as [B1 B2]. apply negb_true_iff, Nat.eqb_neq in B1. apply N.leb_le in B2.
          split; intros (ls & H & ->); exists ls; (split; [|reflexivity]).
          -- eapply rl_long; eauto. intros ->. now apply B1.
          -- inversion H as [? ? ? A1|? ? A1|rows' ? A1 A2 A3|rows' ? A1 A2 A3 A4|? ? A1]; subst; try congruence.
             replace rows' with rows in * by congruence. destruct A2 as [->|A2]; [now destruct B1|lia].
        * assert (Ar : hd_args (read_header reg op e r) = Some (RaInline positional named)).
          { unfold read_header. rewrite T. cbn [hd_args]. rewrite B. reflexivity. }
          rewrite (full_iff op d _ _ _ _ _ _ t Nm Ar A O).
          assert (B' : rows = [] \/ (N.of_nat (length rows) < op_vt_threshold op)%N).
          { apply andb_false_iff in B as [B|B]; [left; apply negb_false_iff, Nat.eqb_eq in B; now apply length_zero_iff_nil|right; now apply N.leb_gt in B]. }
          split; intros (ls & H & ->); exists ls; (split; [|reflexivity]).
          -- eapply rl_short; eauto.
          -- inversion H as [? ? ? A1|? ? A1|rows' ? A1 A2 A3|rows' ? A1 A2 A3 A4|? ? A1]; subst; try congruence.
             replace rows' with rows in * by congruence. destruct B' as [->|B']; [now destruct A2|lia].
      + apply top_iff; [|apply NE|].
        * intros t. assert (Nm : hd_name (read_header reg op e r) = txt (L "Read:Extension")) by (unfold read_header; now rewrite T).
          assert (Ar : hd_args (read_header reg op e r) = None) by (unfold read_header; now rewrite T).
          rewrite (bare_iff op d _ _ _ t Nm Ar C'), E2. split; intros (ls & H & ->); exists ls; (split; [|reflexivity]); [eapply rl_extension; eauto|].
          inversion H as [? ? ? A1|? ? A1|? ? A1|? ? A1|? ? A1 A2]; subst; try congruence.
        * unfold read_header, table_addendum. rewrite T. cbn [app hd_addenda]. apply Forall2_cons; [|now apply adv_iff]. unfold table_line. now apply means_addendum.
      + split.
        * unfold top_out, read_header. rewrite T. cbn [hd_addenda map fold_right]. intros H. exfalso. apply clean_app in H as (? & ? & _ & H & _).
          apply clean_app in H as (? & ? & H & _ & _). apply clean_before in H as (? & H & _). unfold table_line, addendum_out in H. apply clean_before in H as (? & H & _).
          apply clean_before in H as (? & H & _). apply clean_after in H as (? & H & _). now apply clean_fail in H.
        * intros (x & a & H & _). inversion H; congruence.
      + split.
        * unfold top_out, read_header. rewrite T. intros H. exfalso. apply clean_app in H as (? & ? & H & _). unfold header_out in H. cbn [hd_name hd_args] in H.
          do 3 apply clean_before in H as (? & H & _). apply clean_after in H as (? & H & _). apply clean_app in H as (? & ? & H & _). unfold arguments_out, missing in H. cbn [osep app map] in H. now apply clean_fail in H.
        * intros (x & a & H & _). inversion H; congruence.
      + split.
        * unfold top_out, read_header. rewrite T. intros H. exfalso. apply clean_app in H as (? & ? & H & _). unfold header_out in H. cbn [hd_name hd_args] in H.
          do 3 apply clean_before in H as (? & H & _). apply clean_after in H as (? & H & _). apply clean_app in H as (? & ? & H & _). unfold arguments_out, missing in H. cbn [osep app map] in H. now apply clean_fail in H.
        * intros (x & a & H & _). inversion H; congruence.
    - intros d w ls H. change (head (RRead r) []) with (read_header reg op e r). inversion H; subst. split; [rewrite <- E2; symmetry; now apply emitted_iff|]. eapply nonempty, NE. eassumption.
  Qed.

  (** A relation whose lines are given by one rule. *)
  Lemma one_rule r ws cols k l (P : nat -> list (list N) -> Prop) :
    Forall2 means (hd_cols (head r ws)) cols -> hd_emit (head r ws) = k ->
    (forall d s, clean (header_out op d (head r ws)) s <-> exists ls, P d ls /\ s = join nl ls) -> (forall d ls, P d ls -> ls <> []) ->
    means_addenda reg op e (hd_addenda (head r ws)) l ->
    (forall d w ls, head_shown reg op e d r ws w ls <-> exists x a, w = emitted_width cols k /\ ls = x ++ a /\ P d x /\ addenda_lines reg op e d l a) ->
    head_spec r ws.
  Proof.
    intros C <- H N A R. split.
    - intros d s. rewrite (top_iff d _ l (P d) s (H d) (N d) A). setoid_rewrite R. split.
      + intros (x & a & Hx & Ha & ->). do 2 eexists. split; [exists x, a; eauto|reflexivity].
      + intros (w & ls & (x & a & _ & -> & Hx & Ha) & ->). eauto.
    - intros d w ls K. apply R in K as (x & a & -> & -> & Hx & Ha). split; [symmetry; now apply emitted_iff|]. eapply nonempty, N, Hx.
  Qed.

  Ltac rule := intros ? ? ?; split;
    [let K := fresh in intros K; inversion K; subst; do 2 eexists; split; [reflexivity|]; split; [reflexivity|]; split; eassumption
    |intros (? & ? & -> & -> & ? & ?); econstructor; eassumption].
  Lemma filter_iff c i x adv n : head_spec (RFilter c i x adv) [n].
  Proof.
    apply (one_rule _ _ (references n) (emit_of c) (addenda adv)
      (fun d => full_line op d (L "Filter") [(None, optional op e x)] (plain_output op (references n) (emit_of c)))).
    - apply columns_refs.
    - reflexivity.
    - intros d s. cbv beta; eapply full_iff; [reflexivity|reflexivity|apply Forall2_cons; [now apply means_opt|constructor]|]. apply plain_iff; [apply columns_refs|reflexivity].
    - intros d ls. apply full_lines.
    - now apply adv_iff.
    - rule.
  Qed.
  Lemma project_iff c i xs adv n : head_spec (RProject c i xs adv) [n].
  Proof.
    assert (C : Forall2 means (hd_cols (head (RProject c i xs adv) [n])) (references n ++ map (expression op e) xs)).
    { apply Forall2_app; [apply columns_refs|]. apply Forall2_same. now apply means_expr. }
    apply (one_rule _ _ _ (emit_of c) (addenda adv) (fun d => bare_line op d (L "Project") (references n ++ map (expression op e) xs) (emit_of c)) C).
    - reflexivity.
    - intros d s. cbv beta. eapply bare_iff; [reflexivity|reflexivity|exact C].
    - intros d ls. apply bare_lines.
    - now apply adv_iff.
    - rule.
  Qed.
  Lemma aggregate_iff c i gexprs groups ms adv n : head_spec (RAggregate c i gexprs groups ms adv) [n].
  Proof.
    destruct (groupings_iff op e W gexprs groups) as (sets & G & S). pose proof (fun xs sets' => proj1 (G xs sets')) as G1. pose proof (proj2 (G _ _) (conj eq_refl eq_refl)) as G2.
    assert (E : head (RAggregate c i gexprs groups ms adv) [n] = mk_header (txt (L "Aggregate")) (Some (RaInline (grouping_args (snd (grouping_values op e gexprs groups))) []))
      (map (expr_out op e) (fst (grouping_values op e gexprs groups)) ++ measure_outs op e ms) (get_emit c) false (adv_lines reg op e adv)).
    { cbn [head]. unfold aggregate_header. now destruct (grouping_values op e gexprs groups). }
    destruct (grouping_values op e gexprs groups) as [xs os]. cbn [fst snd] in *.
    assert (C : Forall2 means (hd_cols (head (RAggregate c i gexprs groups ms adv) [n])) (map (expression op e) xs ++ measures op e ms)).
    { rewrite E. apply Forall2_app; [|now apply measures_iff]. apply Forall2_same. now apply means_expr. }
    apply (one_rule _ _ _ (emit_of c) (addenda adv)
      (fun d => full_line op d (L "Aggregate") (set_arguments sets) (plain_output op (map (expression op e) xs ++ measures op e ms) (emit_of c))) C).
    - now rewrite E.
    - intros d s. rewrite E in *. cbv beta; eapply full_iff; [reflexivity|reflexivity|cbn [map]; rewrite app_nil_r; now apply set_args_iff|]. now apply plain_iff.
    - intros d ls. apply full_lines.
    - rewrite E. now apply adv_iff.
    - intros d w ls. split.
      + intros K. inversion K as [| | |? ? ? ? ? ? ? xs' sets' h a K1 K2 K3| | | | | | | |]; subst. apply G1 in K1 as [-> ->]. exists h, a. auto.
      + intros (x & a & -> & -> & K & K'). now apply (hs_aggregate reg op e d c i gexprs groups ms adv n xs sets).
  Qed.
  Lemma sort_iff c i sorts adv n : head_spec (RSort c i sorts adv) [n].
  Proof.
    apply (one_rule _ _ (references n) (emit_of c) (addenda adv)
      (fun d => full_line op d (L "Sort") (bare_arguments (map (fun f => tuple_text [optional op e (sf_expr f); direction (sf_kind f)]) sorts)) (plain_output op (references n) (emit_of c)))).
    - apply columns_refs.
    - reflexivity.
    - intros d s. cbv beta; eapply full_iff; [reflexivity|reflexivity| |apply plain_iff; [apply columns_refs|reflexivity]].
      cbn [map]. rewrite app_nil_r. apply bare_args, Forall2_same. intros f. apply means_tuple. apply Forall2_cons; [now apply means_opt|]. apply Forall2_cons; [|constructor].
      destruct (sf_kind f) as [[z|z]|]; cbn [sort_kind_out direction]; try apply means_fail. apply enum_iff; [now enum_lists|]. cbn. repeat constructor; cbn; intuition discriminate.
    - intros d ls. apply full_lines.
    - now apply adv_iff.
    - rule.
  Qed.
  Lemma bound_iff n m : means_args (map named_out (fetch_arg op e n m)) (bound op e n m).
  Proof.
    destruct m as [[x|z]|]; cbn [fetch_arg fetch_mode_out bound map]; [| |constructor]; (apply Forall2_cons; [apply named_iff|constructor]).
    - now apply means_expr.
    - intros s. rewrite clean_txt. symmetry. apply numeral_iff.
  Qed.
  Lemma fetch_iff c i limit offset adv n : head_spec (RFetch c i limit offset adv) [n].
  Proof.
    apply (one_rule _ _ (references n) (emit_of c) (addenda adv)
      (fun d => full_line op d (L "Fetch") (bound op e "limit" limit ++ bound op e "offset" offset) (plain_output op (references n) (emit_of c)))).
    - apply columns_refs.
    - reflexivity.
    - intros d s. cbv beta; eapply full_iff; [reflexivity|reflexivity| |apply plain_iff; [apply columns_refs|reflexivity]].
      cbn [app]. rewrite map_app. apply Forall2_app; apply bound_iff.
    - intros d ls. apply full_lines.
    - now apply adv_iff.
    - rule.
  Qed.
  Lemma join_iff c l r x post t adv m n : head_spec (RJoin c l r x post t adv) [m; n].
  Proof.
    set (w := join_width t m n).
    apply (one_rule _ _ (references w) (emit_of c) (addenda adv)
      (fun d => full_line op d (L "Join") (bare_arguments [enum_text proto_join_types t; optional op e x] ++ named op e "post_filter" post) (plain_output op (references w) (emit_of c)))).
    - apply columns_refs.
    - reflexivity.
    - intros d s. cbv beta; eapply full_iff; [reflexivity|reflexivity| |apply plain_iff; [apply columns_refs|reflexivity]].
      apply Forall2_app.
      + apply bare_args. apply Forall2_cons; [|apply Forall2_cons; [now apply means_opt|constructor]]. apply enum_iff; [now enum_lists|]. cbn. repeat constructor; cbn; intuition discriminate.
      + destruct post as [y|]; cbn [named map]; [|constructor]. apply Forall2_cons; [apply named_iff; now apply means_expr|constructor].
    - intros d ls. apply full_lines.
    - now apply adv_iff.
    - intros d w' ls. split.
      + intros K. inversion K as [| | | | | |? ? ? ? ? ? ? ? ? w'' h a K1 K2 K3| | | | |]; subst. apply joined_width_iff in K1 as ->. exists h, a. auto.
      + intros (h & a & -> & -> & K & K'). apply (hs_join reg op e d c l r x post t adv m n w); auto. now apply joined_width_iff.
  Qed.
  Lemma set_iff c l o adv ws : head_spec (RSet c l o adv) ws.
  Proof.
    assert (E : head (RSet c l o adv) ws = mk_header (txt (L "Set")) (Some (RaInline [enum_out set_ops o "SetOp" "SetRel"] [])) (ref_columns (average ws)) (get_emit c) false (adv_lines reg op e adv)).
    { cbn [head]. unfold set_header, average. now destruct ws. }
    apply (one_rule _ _ (references (average ws)) (emit_of c) (addenda adv)
      (fun d => full_line op d (L "Set") [(None, enum_text proto_set_ops o)] (plain_output op (references (average ws)) (emit_of c)))); rewrite ?E.
    - apply columns_refs.
    - reflexivity.
    - intros d s. cbv beta; eapply full_iff; [reflexivity|reflexivity| |apply plain_iff; [apply columns_refs|reflexivity]].
      apply Forall2_cons; [|constructor]. apply enum_iff; [now enum_lists|]. cbn. repeat constructor; cbn; intuition discriminate.
    - intros d ls. apply full_lines.
    - now apply adv_iff.
    - rule.
  Qed.
  Lemma cross_iff c l r adv m n : head_spec (RCross c l r adv) [m; n].
  Proof.
    apply (one_rule _ _ (references (m + n)) (emit_of c) (addenda adv) (fun d => bare_line op d (L "Cross") (references (m + n)) (emit_of c))).
    - apply columns_refs.
    - reflexivity.
    - intros d s. cbv beta. eapply bare_iff; [reflexivity|reflexivity|apply columns_refs].
    - intros d ls. apply bare_lines.
    - now apply adv_iff.
    - rule.
  Qed.

  (** Extension relations. *)
  Lemma extension_iff kind x ws d s : clean (top_out d (extension_header reg op e kind x ws)) s <->
    exists y name args h, x = Some y /\ extension_line reg op e d kind y ws name args h /\ s = join nl h.
  Proof.
    unfold extension_header.
    destruct x as [y|].
    2: { split; [|intros (y & name & args & h & H & _); discriminate]. intros H. exfalso. unfold top_out in H. apply clean_app in H as (? & ? & H & _). unfold header_out in H. cbn [hd_name hd_args shown_columns hd_emit hd_cols] in H.
         do 3 apply clean_before in H as (? & H & _). apply clean_after in H as (? & H & _). unfold shown_columns, missing in H. cbn [hd_emit hd_cols] in H. destruct (op_show_emit op); cbn [osep] in H; now apply clean_fail in H. }
    destruct (decode_with_type reg XtRelation y ws) as [[name a]|err|p] eqn:E.
    - apply decoded_iff in E.
      set (h0 := mk_header _ _ _ _ _ _).
      assert (C : Forall2 means (hd_cols h0) (map (xcolumn_text op e) (xa_columns a))) by (apply Forall2_same; now apply means_xcolumn).
      assert (T : forall s, clean (header_out op d h0) s <-> exists ls, full_line op d (L kind ++ L ":" ++ name) (xarguments op e a) (plain_output op (map (xcolumn_text op e) (xa_columns a)) None) ls /\ s = join nl ls).
      { intros t. eapply full_iff; [reflexivity|reflexivity|now apply xarguments_iff|]. now apply (plain_iff op h0). }
      unfold top_out. cbn [h0 hd_addenda map fold_right]. rewrite clean_app. setoid_rewrite T. setoid_rewrite clean_nil. split.
      + intros (? & ? & (ls & K & ->) & -> & ->). exists y, name, a, ls. split; [reflexivity|]. split; [now constructor|]. now rewrite app_nil_r.
      + intros (y' & name' & a' & ls & [= <-] & K & ->). inversion K as [? ? ? ? ? ? K1 K2]; subst. apply decoded_iff in K1, E. rewrite E in K1. injection K1 as <- <-.
        exists (join nl ls), []. rewrite app_nil_r. split; [now exists ls|]. auto.
    - split.
      + intros H. exfalso. unfold top_out in H. apply clean_app in H as (? & ? & H & _). unfold header_out in H. cbn [hd_name hd_args] in H.
        do 3 apply clean_before in H as (? & H & _). apply clean_after in H as (? & H & _). unfold shown_columns, missing in H. cbn [hd_emit hd_cols] in H. destruct (op_show_emit op); cbn [osep] in H; now apply clean_fail in H.
      + intros (y' & name' & a' & ls & [= <-] & K & ->). inversion K as [? ? ? ? ? ? K1 K2]; subst. apply decoded_iff in K1. congruence.
    - split.
      + intros H. exfalso. unfold top_out in H. apply clean_app in H as (? & ? & H & _). unfold header_out in H. cbn [hd_name hd_args] in H.
        apply clean_before in H as (? & H & _). apply clean_app in H as (? & ? & H & _). now apply clean_panic in H.
      + intros (y' & name' & a' & ls & [= <-] & K & ->). inversion K as [? ? ? ? ? ? K1 K2]; subst. apply decoded_iff in K1. congruence.
  Qed.
  Lemma extension_width kind y ws d name args h : extension_line reg op e d kind y ws name args h ->
    length (xa_columns args) = hd_emitted (extension_header reg op e kind (Some y) ws) /\ h <> [].
  Proof.
    intros H. inversion H as [? ? ? ? ? ? K1 K2]; subst. split; [|eauto using full_lines]. apply decoded_iff in K1. unfold extension_header. rewrite K1. unfold hd_emitted. cbn [hd_emit hd_cols]. now rewrite map_length.
  Qed.
  Lemma head_iff r ws : length ws = length (inputs r) -> head_spec r ws.
  Proof.
    intros Hw. assert (H0 : length (inputs r) = 0 -> ws = []) by (intros H; apply length_zero_iff_nil; congruence).
    assert (H1 : length (inputs r) = 1 -> exists n, ws = [n]).
    { intros H. destruct ws as [|n [|]]; cbn [length] in Hw; try congruence. now exists n. }
    assert (H2 : length (inputs r) = 2 -> exists m n, ws = [m; n]).
    { intros H. destruct ws as [|m [|n [|]]]; cbn [length] in Hw; try congruence. now exists m, n. }
    destruct r as [r|c i x a|c i xs a|c i g gs ms a|c i l a|c i n o a|c l r x p t a|c l o a|c l r a|c x|c x i|c x l|v|].
    - rewrite H0 by reflexivity. apply read_iff.
    - destruct H1 as (n & ->); [reflexivity|]. apply filter_iff.
    - destruct H1 as (n & ->); [reflexivity|]. apply project_iff.
    - destruct H1 as (n & ->); [reflexivity|]. apply aggregate_iff.
    - destruct H1 as (n & ->); [reflexivity|]. apply sort_iff.
    - destruct H1 as (k & ->); [reflexivity|]. apply fetch_iff.
    - destruct H2 as (m & n & ->); [reflexivity|]. apply join_iff.
    - apply set_iff.
    - destruct H2 as (m & n & ->); [reflexivity|]. apply cross_iff.
    - rewrite H0 by reflexivity. split.
      + intros d s. cbn [head]. rewrite extension_iff. split.
        * intros (y & name & args & h & -> & H & ->). do 2 eexists. split; [eapply hs_leaf; exact H|reflexivity].
        * intros (w & ls & H & ->). inversion H; subst. do 4 eexists. split; [reflexivity|]. split; [eassumption|reflexivity].
      + intros d w ls H. inversion H; subst. now apply (extension_width "ExtensionLeaf" x0 [] d name args).
    - split.
      + intros d s. cbn [head]. rewrite extension_iff. split.
        * intros (y & name & args & h & -> & H & ->). do 2 eexists. split; [eapply hs_single; exact H|reflexivity].
        * intros (w & ls & H & ->). inversion H; subst. do 4 eexists. split; [reflexivity|]. split; [eassumption|reflexivity].
      + intros d w ls H. inversion H; subst. eapply extension_width. eassumption.
    - split.
      + intros d s. cbn [head]. rewrite extension_iff. split.
        * intros (y & name & args & h & -> & H & ->). do 2 eexists. split; [eapply hs_multi; exact H|reflexivity].
        * intros (w & ls & H & ->). inversion H; subst. do 4 eexists. split; [reflexivity|]. split; [eassumption|reflexivity].
      + intros d w ls H. inversion H; subst. eapply extension_width. eassumption.
    - split; [|intros d w ls H; inversion H]. intros d s. split; [|intros (w & ls & H & _); inversion H].
      intros H. exfalso. unfold top_out in H. apply clean_app in H as (? & ? & H & _). unfold header_out in H. cbn [head hd_name] in H.
      apply clean_before in H as (? & H & _). apply clean_app in H as (? & ? & H & _). now apply clean_fail in H.
    - split; [|intros d w ls H; inversion H]. intros d s. split; [|intros (w & ls & H & _); inversion H].
      intros H. exfalso. unfold top_out in H. apply clean_app in H as (? & ? & H & _). unfold header_out in H. cbn [head hd_name] in H.
      apply clean_before in H as (? & H & _). apply clean_app in H as (? & ? & H & _). now apply clean_fail in H.
  Qed.

  (** *** Trees *)

  Definition kids_out (d : nat) (l : list (option prel)) : out :=
    fold_right oapp onil (map (fun i => match i with Some r => txt [c_nl] +++ rel_out reg op e d r | None => onil end) l).
  Definition widths (l : list (option prel)) : list nat := map (fun i => match i with Some r => emitted (view_of reg op e r) | None => 0 end) l.
  Lemma oapp_nil_r o : o +++ onil = o.
  Proof. destruct o. unfold oapp, onil. cbn. now rewrite !app_nil_r. Qed.
  Lemma oapp_assoc a b c : (a +++ b) +++ c = a +++ (b +++ c).
  Proof. unfold oapp. cbn. now rewrite !app_assoc. Qed.
  Lemma rel_out_eq d r : rel_out reg op e d r = top_out d (head r (widths (inputs r))) +++ kids_out (S d) (inputs r)
    /\ emitted (view_of reg op e r) = hd_emitted (head r (widths (inputs r))).
  Proof.
    assert (M : forall l, map Some (map (view_of reg op e) l) = map (fun r => Some (view_of reg op e r)) l) by (intros; apply map_map).
    assert (K : forall (l : list prel) k, fold_right oapp onil (map (fun c => match c with Some v => txt [c_nl] +++ view_out op k v | None => onil end) (map Some (map (view_of reg op e) l))) = kids_out k (map Some l)).
    { intros l k. unfold kids_out. now rewrite !map_map. }
    assert (Wd : forall l, map emitted (map (view_of reg op e) l) = widths (map Some l)) by (intros l; unfold widths; now rewrite !map_map).
    unfold rel_out. destruct r as [r|c i x a|c i xs a|c i g gs ms a|c i l a|c i n o a|c l r x p t a|c l o a|c l r a|c x|c x i|c x l|v|];
      cbn [view_of inputs head emitted view_out]; (split; [unfold top_out; rewrite oapp_assoc; f_equal|]).
    all: try reflexivity.
    all: try (destruct i; reflexivity).
    all: try (destruct l, r; reflexivity).
    - now rewrite Wd.
    - rewrite Wd. now rewrite K.
    - now rewrite Wd.
    - now rewrite Wd.
    - rewrite Wd. now rewrite K.
    - now rewrite Wd.
  Qed.
  Definition rel_spec (r : prel) : Prop :=
    (forall d s, clean (rel_out reg op e d r) s <-> exists w ls, rel_shown reg op e d r w ls /\ s = join nl ls) /\
    (forall d w ls, rel_shown reg op e d r w ls -> w = emitted (view_of reg op e r) /\ ls <> []).
  Lemma inputs_iff l : Forall (opt_P rel_spec) l ->
    (forall d s, clean (kids_out d l) s <-> exists ws ls, inputs_shown reg op e d l ws ls /\ s = below ls) /\
    (forall d ws ls, inputs_shown reg op e d l ws ls -> ws = widths l).
  Proof.
    induction 1 as [|i l Hi Hl [IH1 IH2]].
    - split.
      + intros d s. unfold kids_out. cbn [map fold_right]. rewrite clean_nil. split; [intros ->; do 2 eexists; split; [constructor|reflexivity]|].
        intros (ws & ls & H & ->). inversion H; subst. reflexivity.
      + intros d ws ls H. now inversion H; subst.
    - destruct i as [r|].
      + destruct Hi as [R1 R2]. split.
        * intros d s. change (kids_out d (Some r :: l)) with ((txt [c_nl] +++ rel_out reg op e d r) +++ kids_out d l). rewrite clean_app. setoid_rewrite clean_before. setoid_rewrite R1. setoid_rewrite IH1. split.
          -- intros (? & ? & (? & (w & h & H & ->) & ->) & (ws & ls & H' & ->) & ->). exists (w :: ws), (h ++ ls). split; [now constructor|].
             rewrite below_app, (below_join h) by now apply R2 in H. reflexivity.
          -- intros (ws & ls & H & ->). inversion H as [| |? ? w h ? ws' ls' H1 H2]; subst. do 2 eexists. split; [eexists; split; [do 2 eexists; split; [exact H1|reflexivity]|reflexivity]|].
             split; [do 2 eexists; split; [exact H2|reflexivity]|]. rewrite below_app, (below_join h) by now apply R2 in H1. reflexivity.
        * intros d ws ls H. inversion H as [| |? ? w h ? ws' ls' H1 H2]; subst. cbn [widths map]. apply R2 in H1 as [-> _]. f_equal. now apply IH2 in H2.
      + split.
        * intros d s. replace (kids_out d (None :: l)) with (kids_out d l) by (unfold kids_out; cbn [map fold_right]; now destruct (fold_right oapp onil _)). rewrite IH1. split.
          -- intros (ws & ls & H & ->). exists (0 :: ws), ls. split; [now constructor|reflexivity].
          -- intros (ws & ls & H & ->). inversion H; subst. eauto.
        * intros d ws ls H. inversion H; subst. cbn [widths map]. f_equal. eapply IH2. eassumption.
  Qed.
  Lemma rel_node r : Forall (opt_P rel_spec) (inputs r) -> rel_spec r.
  Proof.
    intros H. apply inputs_iff in H as [I1 I2].
    destruct (head_iff r (widths (inputs r))) as [H1 H2]; [unfold widths; now rewrite map_length|].
    assert (X : forall d w ls, rel_shown reg op e d r w ls <-> exists h k ws, head_shown reg op e d r (widths (inputs r)) w h /\ inputs_shown reg op e (S d) (inputs r) ws k /\ ls = h ++ k).
    { intros d w ls. split.
      - intros K. inversion K as [? ? ws ? h k K1 K2]; subst. exists h, k, ws. rewrite <- (I2 _ _ _ K1). auto.
      - intros (h & k & ws & K1 & K2 & ->). econstructor; [exact K2|]. now rewrite (I2 _ _ _ K2). }
    split.
    - intros d s. rewrite (proj1 (rel_out_eq d r)), clean_app. setoid_rewrite H1. setoid_rewrite I1. setoid_rewrite X. split.
      + intros (? & ? & (w & h & K1 & ->) & (ws & k & K2 & ->) & ->). exists w, (h ++ k). split; [exists h, k, ws; auto|]. symmetry. apply join_below. now apply H2 in K1.
      + intros (w & ls & (h & k & ws & K1 & K2 & ->) & ->). do 2 eexists. split; [do 2 eexists; split; [exact K1|reflexivity]|].
        split; [do 2 eexists; split; [exact K2|reflexivity]|]. apply join_below. now apply H2 in K1.
    - intros d w ls K. apply X in K as (h & k & ws & K1 & K2 & ->). rewrite (proj2 (rel_out_eq d r)). apply H2 in K1 as [-> K1]. split; [reflexivity|]. now apply nonempty.
  Qed.
  Lemma rel_iff r : rel_spec r.
  Proof.
    assert (S : forall l, Forall rel_spec l -> Forall (opt_P rel_spec) (map Some l)) by (intros l H; induction H; constructor; auto).
    revert r. apply prel_ind2; intros; apply rel_node; cbn [inputs]; auto.
    destruct i; cbn [opt_list map]; auto.
  Qed.
  Lemma plan_rel_iff p s : clean (plan_rel_out reg op e p) s <-> exists ls, plan_rel_shown reg op e p ls /\ s = join nl ls.
  Proof.
    destruct p as [r|names i|]; cbn [plan_rel_out].
    - rewrite (proj1 (rel_iff r)). split.
      + intros (w & ls & H & ->). exists ls. split; [now apply ps_rel in H|reflexivity].
      + intros (ls & H & ->). inversion H; subst. eauto.
    - assert (I : Forall (opt_P rel_spec) [i]) by (constructor; [destruct i; cbn; auto using rel_iff|constructor]). apply inputs_iff in I as [I _].
      assert (E : (match i with Some r => txt [c_nl] +++ rel_out reg op e 1 r | None => onil end) = kids_out 1 [i]) by (unfold kids_out; cbn [map fold_right]; now rewrite oapp_nil_r).
      rewrite E, clean_before. setoid_rewrite I. split.
      + intros (y & (ws & ls & H & ->) & ->). eexists. split; [apply (ps_root reg op e names i (map show_name names) ws ls); [now apply means_names|exact H]|].
        change ((L "Root[" ++ listed (map show_name names) ++ L "]") :: ls) with ([L "Root[" ++ listed (map show_name names) ++ L "]"] ++ ls). rewrite join_below by discriminate. reflexivity.
      + intros (ls & H & ->). inversion H as [|? ? ns ws ls' H1 H2]; subst. apply means_names in H1 as ->. eexists. split; [do 2 eexists; split; [exact H2|reflexivity]|].
        change ((L "Root[" ++ listed (map show_name names) ++ L "]") :: ls') with ([L "Root[" ++ listed (map show_name names) ++ L "]"] ++ ls'). now rewrite join_below by discriminate.
    - unfold missing. rewrite clean_fail. split; [tauto|]. intros (ls & H & _). inversion H.
  Qed.
End Tree.
