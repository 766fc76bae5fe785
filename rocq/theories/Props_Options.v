(** C53: what each display option controls. *)
From Coq Require Import String List NArith ZArith Bool Lia.
From Verif Require Import Base BaseFacts Names SimpleExt SimpleExtFacts FromExtFacts Out Anchors Types TypesFacts Calendar Literals
  Exprs ExprsFacts ExtArgs Registry Rels Lines ExtLines Tree Structural Version Plan SpecNames SpecLiterals SpecRels SpecOptions OptionsFacts.
Import ListNotations.
Local Open Scope string_scope.
Local Open Scope list_scope.
Local Open Scope nat_scope.

Section Literal.
  Context `(U : Unicode) `(F : Floats).
  (** ** Binary literals: hexadecimal digits that give the bytes back, or a placeholder. *)
  Lemma unhex_hex b : Forall (fun x => (x < 256)%N) b -> unhex (concat (map hex2 b)) = Some b.
  Proof.
    induction 1 as [|x b Hx _ IH]; [reflexivity|]. cbn [map concat hex2 app unhex]. rewrite IH.
    assert (K : forall d, (d < 16)%N -> hex_value (hex_digit d) = Some d).
    { intros d Hd. unfold hex_digit, hex_value. destruct (N.ltb_spec d 10).
      - rewrite (proj2 (N.leb_le 48 _)), (proj2 (N.leb_le _ 57)) by lia. cbn [andb]. f_equal. lia.
      - rewrite (proj2 (N.leb_le 48 _)), (proj2 (N.leb_gt _ 57)), (proj2 (N.leb_le 97 _)), (proj2 (N.leb_le _ 102)) by lia.
        cbn [andb]. f_equal. lia. }
    rewrite !K by (apply N.mod_lt; lia). f_equal. f_equal.
    rewrite (N.mod_small (x / 16) 16) by (apply N.div_lt_upper_bound; lia). symmetry. apply N.div_mod. lia.
  Qed.

  Theorem C53_binaries op e b n v : Forall (fun x => (x < 256)%N) b ->
    exists h t, unhex h = Some b /\
      o_text (literal_out (with_binaries op true) e (mk_lit (Some (LBinary b)) n v)) = L "0x" ++ h ++ t /\
      o_text (literal_out (with_binaries op false) e (mk_lit (Some (LBinary b)) n v)) = L "{binary}" ++ t /\
      (t = [] \/ exists t', t = L ":binary" ++ t').
  Proof.
    intros Hb. exists (concat (map hex2 b)).
    exists (if match op_literal_types op with VNever => false | VAlways => true | VRequired => n || false end
            then suffix_text (LBinary b) n else []).
    split; [now apply unhex_hex|]. unfold literal_out. cbn [l_type l_nullable litval_out is_default_for_syntax negb].
    rewrite !o_text_app. cbn [op_literal_types with_binaries].
    destruct (op_literal_types op), n; cbn; rewrite ?app_nil_r; repeat split; auto;
      right; eexists; reflexivity.
  Qed.

  (** ** Literal types: never, always, or unless the text alone tells the type.
      The documentation of the option does not list binary literals among those
      left bare; the code leaves them bare. *)
  Theorem C53_literal_types op e l t : literal_type l = Some t ->
    literal_out (with_types op VAlways) e l =
      literal_out (with_types op VNever) e l +++ txt (L ":") +++ type_out op e t /\
    literal_out (with_types op VRequired) e l =
      literal_out (with_types op (if untyped l then VNever else VAlways)) e l.
  Proof.
    destruct l as [[v|] n w]; [|discriminate]. unfold literal_type. cbn [l_type l_nullable]. intros E.
    assert (K : txt (L ":") +++ type_out op e t = txt (suffix_text v n)).
    { destruct v; cbn [value_type] in E; try discriminate E; injection E as <-;
        unfold type_out, textify_type, params_out, null_out, var_out, suffix_text, suffix_parts; destruct n; cbn;
        rewrite <- ?app_assoc, ?app_nil_r; cbn; rewrite ?app_nil_r; try reflexivity;
        unfold interval_units; destruct (iv_mode i) as [[]|]; cbn; rewrite ?app_nil_r; reflexivity. }
    assert (N : forall x, v <> LNull x) by (intros x ->; discriminate E).
    assert (L : forall q, literal_out (with_types op q) e (mk_lit (Some v) n w) = litval_out op v +++
                  if match q with VNever => false | VAlways => true | VRequired => n || negb (is_default_for_syntax v) end
                  then txt (suffix_text v n) else onil).
    { intros q. unfold literal_out. cbn [l_type l_nullable op_literal_types with_types].
      change (litval_out (with_types op q) v) with (litval_out op v). destruct v; try reflexivity. now destruct (N t0). }
    rewrite !L, K. split.
    - unfold oapp, onil, txt. cbn. now rewrite !app_nil_r.
    - f_equal. unfold untyped. cbn [l_type l_nullable].
      destruct v; cbn [is_default_for_syntax negb]; destruct n; reflexivity.
  Qed.

  (** Nulls always show their type. *)
  Theorem C53_null_types op e t n w q :
    o_text (literal_out (with_types op q) e (mk_lit (Some (LNull t)) n w)) = L "null:" ++ o_text (type_out op e t).
  Proof.
    unfold literal_out. cbn [l_type]. rewrite !o_text_app. cbn [o_text txt litval_out].
    now rewrite (same_type (with_types op q) op eq_refl e t).
  Qed.
End Literal.

(** ** Anchors: always with name and signature, or never and with the base name only. *)
Theorem C53_anchors op us ds k a u n :
  decl_get (fst (from_extensions us ds)) k a = Some (u, n) ->
  o_text (ref_out (with_anchors op VAlways) (fst (from_extensions us ds)) k a) = n ++ L "#" ++ show_N a /\
  (exists b, up_to 58%N b n /\ o_text (ref_out (with_anchors op VNever) (fst (from_extensions us ds)) k a) = b).
Proof.
  intros Hd. rewrite !(ref_out_spec _ _ _ _ _ _ (wf_from_extensions us ds) Hd). split; [reflexivity|].
  exists (cn_base n). split; [|cbn; now rewrite app_nil_r].
  assert (K : forall c l, contains_char c l = false -> ~ In c l).
  { intros c l. induction l as [|x l IH]; cbn; [tauto|]. intros H [->|Hi]; apply orb_false_iff in H as [H1 H2]; [now rewrite N.eqb_refl in H1|now apply IH]. }
  unfold up_to, cn_base. destruct (split_at_char c_colon n) as [[b r]|] eqn:E.
  - apply split_at_char_spec in E as [-> Hb]. split; [now apply K|]. right. now exists r.
  - apply split_at_char_none in E. split; [now apply K|]. now left.
Qed.

Section Plan.
  Context `(U : Unicode) `(F : Floats).
  Variable reg : registry.

  (** ** Indentation: the text is a list of lines, each with a number of
      indentations before it; nothing else depends on the option. *)
  Lemma version_blocked v : blocked (fun i => version_lines i v).
  Proof.
    destruct v as [v|]; cbn [version_lines]; [|apply blocked_nil]. destruct (version_is_default v); [apply blocked_nil|].
    assert (K : forall k x, blocked (fun i => version_detail i k x)).
    { intros k x. unfold version_detail. destruct x; [apply blocked_nil|].
      apply (blocked_map (fun a : list N => k ++ L ": " ++ trim a) [n :: x]). }
    apply blocked_cons, blocked_app; apply K.
  Qed.
  Lemma exts_blocked e : blocked (fun i => exts_lines i e).
  Proof.
    unfold exts_lines. destruct (exts_is_empty e); [apply blocked_nil|]. apply blocked_cons.
    assert (K : forall k, blocked (fun i => kind_lines i e k)).
    { intros k. unfold kind_lines. destruct (filter _ (e_decls e)) as [|x l]; [apply blocked_nil|]. apply blocked_cons.
      eapply blocked_ext; [|apply (blocked_map (fun y : (N * kind) * (N * list N) =>
        let '((a, _), (u, n)) := y in L "#" ++ pad3 (show_N a) ++ L " @" ++ pad3 (show_N u) ++ L ": " ++ n) (x :: l))].
      intros i. apply map_ext. intros [[a k'] [u n]]. reflexivity. }
    apply blocked_app; [|repeat apply blocked_app; apply K].
    destruct (e_urns e) as [|x l]; [apply blocked_nil|]. apply blocked_cons.
    apply (blocked_map (fun y : N * list N => L "@" ++ pad3 (show_N (fst y)) ++ L ": " ++ snd y) (x :: l)).
  Qed.

  Theorem C53_indent op p :
    exists ls, forall i,
      o_text (format reg (with_indent op i) p) = laid i ls /\
      o_errs (format reg (with_indent op i) p) = o_errs (format reg op p) /\
      o_toks (format reg (with_indent op i) p) = o_toks (format reg op p) /\
      o_panics (format reg (with_indent op i) p) = o_panics (format reg op p).
  Proof.
    assert (T : exists ls, forall i, o_text (format reg (with_indent op i) p) = laid i ls).
    { unfold format. destruct (from_extensions (pl_urns _ p) (pl_decls _ p)) as [e errs].
      destruct (blocked_lines _ (version_blocked (pl_version _ p))) as (l1 & H1).
      destruct (blocked_lines _ (exts_blocked e)) as (l2 & H2).
      assert (exists l3, forall i, o_text (relations_out (with_indent op i) reg e (pl_rels _ p)) ++ [c_nl] = laid i l3) as (l3 & H3).
      { unfold relations_out. destruct (pl_rels _ p) as [|q l] eqn:E.
        - exists [(0, hdr_plan); (0, [])]. intros i. cbn. reflexivity.
        - destruct (sep_lined U F reg op e (q :: l) ltac:(discriminate)) as (ls & x & H).
          exists ((0, hdr_plan) :: ls ++ [x]). intros i. rewrite o_text_app, H. change (laid i (?a :: ?b)) with (laid i ([a] ++ b)).
          rewrite !laid_app, !laid_one. unfold lay. cbn [o_text txt fst snd repeat concat]. cbn [app]. now rewrite <- !app_assoc. }
      exists (l1 ++ l2 ++ (if exts_is_empty e then [] else [(0, [])]) ++ l3). intros i.
      rewrite !o_text_app. cbn [o_text txt op_indent with_indent]. rewrite H1, H2, H3, !laid_app. cbn [app].
      do 2 f_equal. now destruct (exts_is_empty e). }
    destruct T as (ls & T). exists ls. intros i. split; [apply T|].
    assert (R : same_rest (format reg (with_indent op i) p) (format reg (with_indent op (op_indent op)) p)).
    { unfold format. destruct (from_extensions (pl_urns _ p) (pl_decls _ p)) as [e errs].
      do 4 (apply rest_app; [first [apply rest_refl|apply rest_txt]|]). apply rest_app; [|apply rest_refl].
      unfold relations_out. apply rest_app; [apply rest_refl|]. apply rest_sep. intros q _. apply rest_plan_rel. }
    destruct op; exact R.
  Qed.

  (** ** The row limit matters only to virtual tables between the two limits. *)
  Theorem C53_threshold op t t' p :
    (forall x n, in_plan_rels x (pl_rels _ p) -> virtual_rows x = Some n -> same_side t t' n) ->
    format reg (with_threshold op t) p = format reg (with_threshold op t') p.
  Proof.
    intros H. unfold format. destruct (from_extensions (pl_urns _ p) (pl_decls _ p)) as [e errs].
    do 4 f_equal. f_equal. unfold relations_out. do 2 f_equal. apply map_ext_in. intros q Hq.
    assert (K : forall r, In r (plan_inputs q) -> view_of reg (with_threshold op t) e r = view_of reg (with_threshold op t') e r).
    { intros r Hr. apply same_view; try reflexivity. intros x n Hx Hn. apply (H x n); auto. exists q, r. auto. }
    destruct q as [r|ns [r|]|]; cbn [plan_rel_out plan_inputs opt_list] in *; unfold rel_out; try reflexivity;
      rewrite (K r) by (now left); rewrite (view_agree (with_threshold op t) (with_threshold op t')) by reflexivity; reflexivity.
  Qed.

  (** A virtual table with at least so many rows is laid out with one row on a
      line, others with the rows on the line of the relation. *)
  Definition row_text (op : options) (e : exts) (row : list pexpr) : list N :=
    L "(" ++ join (L ", ") (map (fun x => o_text (expr_out op e x)) row) ++ L ")".
  Theorem C53_rows op e d r rows : rd_type r = ReadVirtual rows -> rows <> [] ->
    let ind k := concat (repeat (op_indent op) k) in
    ((op_vt_threshold op <= N.of_nat (length rows))%N ->
       exists rest, o_text (rel_out reg op e d (RRead r)) = ind d ++ L "Read:Virtual[" ++ [c_nl]
         ++ join (L "," ++ [c_nl]) (map (fun row => ind (S d) ++ L "- " ++ row_text op e row) rows) ++ rest) /\
    ((N.of_nat (length rows) < op_vt_threshold op)%N ->
       exists rest, o_text (rel_out reg op e d (RRead r)) = ind d ++ L "Read:Virtual["
         ++ join (L ", ") (map (row_text op e) rows) ++ rest).
  Proof.
    intros E Hn ind.
    assert (T : forall row, o_text (tuple_out (map (expr_out op e) row)) = row_text op e row).
    { intros row. unfold tuple_out, row_text. rewrite !o_text_app, osep_text, map_map. reflexivity. }
    unfold rel_out. cbn [view_of view_out]. unfold read_header. rewrite E.
    set (named := match rd_filter r with Some f => [(L "filter", expr_out op e f)] | None => [] end).
    set (tuples := map (fun row => tuple_out (map (expr_out op e) row)) rows).
    assert (Et : match tuples, named with [], _ :: _ => [txt (L "_")] | _, _ => tuples end = tuples)
      by (unfold tuples; destruct rows; [congruence|reflexivity]).
    assert (El : Nat.eqb (length rows) 0 = false) by (destruct rows; [congruence|reflexivity]).
    cbv zeta. rewrite Et, El. cbn [negb andb]. unfold header_out. cbn [hd_args hd_name]. split; intros H.
    - rewrite (proj2 (N.leb_le _ _) H).
      assert (K : forall b l, l <> [] -> exists rest, o_text (row_lines op d b l) =
                    join (L "," ++ [c_nl]) (map (fun o => ind (S d) ++ L "- " ++ o_text o) l) ++ rest).
      { clear. intros b l. induction l as [|o l IH]; [congruence|]. intros _. destruct l as [|o' l].
        - cbn [row_lines map join]. unfold row_line. rewrite !o_text_app. cbn [o_text txt]. eexists. rewrite <- !app_assoc. reflexivity.
        - destruct (IH ltac:(discriminate)) as (rest & IH'). exists rest.
          change (row_lines op d b (o :: o' :: l)) with (row_line op d true o +++ row_lines op d b (o' :: l)).
          rewrite o_text_app, IH'. cbn [map join]. unfold row_line. rewrite !o_text_app. cbn [o_text txt]. unfold indent_text, ind.
          rewrite <- !app_assoc. reflexivity. }
      destruct (K (negb (length named =? 0)) tuples) as (rest & K'); [unfold tuples; destruct rows; [congruence|discriminate]|].
      rewrite !o_text_app, K'. unfold tuples. rewrite map_map. rewrite (map_ext _ _ (fun row => f_equal (fun x => ind (S d) ++ L "- " ++ x) (T row))).
      eexists. cbn [o_text txt]. rewrite <- !app_assoc. reflexivity.
    - rewrite (proj2 (N.leb_gt _ _) H). unfold arguments_out.
      assert (K : exists rest, o_text (osep (L ", ") (tuples ++ map named_out named)) = join (L ", ") (map (row_text op e) rows) ++ rest).
      { rewrite osep_text, map_app. unfold tuples. rewrite map_map, (map_ext _ _ T).
        assert (forall l l' : list (list N), exists rest, join (L ", ") (l ++ l') = join (L ", ") l ++ rest) as J.
        { clear. intros l l'. destruct l' as [|b l']; [exists []; now rewrite !app_nil_r|]. induction l as [|a l [rest IH]].
          - eexists. reflexivity.
          - destruct l as [|a' l]; [eexists; cbn [app join]; reflexivity|]. exists rest.
            change (join (L ", ") ((a :: a' :: l) ++ b :: l')) with (a ++ L ", " ++ join (L ", ") ((a' :: l) ++ b :: l')).
            rewrite IH. cbn [join]. now rewrite <- !app_assoc. }
        apply J. }
      destruct K as (rest & K). assert (Ea : forall q, match tuples, named with [], [] => q | _, _ => osep (L ", ") (tuples ++ map named_out named) end =
                            osep (L ", ") (tuples ++ map named_out named)) by (unfold tuples; destruct rows; [congruence|reflexivity]).
      rewrite Ea, !o_text_app, K. eexists. cbn [o_text txt]. rewrite <- !app_assoc. reflexivity.
  Qed.
End Plan.

(** ** Examples and a refutation *)
From Verif Require Import SpecLines LineView Props_Ext.
Section Examples.
  Local Existing Instance ascii_tables.
  Local Existing Instance toy_floats.
  Definition ox_row (z : Z) : list pexpr := [ELit (mk_lit (Some (LI64 z)) false 0)].
  Definition ox_table (n : nat) (m : list Z) : pplan :=
    mk_plan plan_rel (Some (mk_version 0 42 0 (L "me") [])) (to_extension_urns ex_exts) (to_extension_declarations ex_exts)
      [PRel (RFilter (Some (mk_common (Some (EmEmit m)) false))
         (Some (RRead (mk_read None (Some (mk_named_struct [L "a"] (Some ([TSimple SI64 NRequired 0], 0%N, NRequired)))) None
                 (ReadVirtual (map (fun k => ox_row (Z.of_nat k)) (seq 0 n))) None false)))
         (Some (ELit (mk_lit (Some (LBinary [0; 171; 255]%N)) true 0))) None)].

  (** [show_emit] is documented as showing the mapping instead of the columns; in
      fact the mapping is lost: plans that differ in it have the same text. *)
  Theorem C53_emit_refuted : exists p p', p <> p' /\
    o_errs (format registry_new (with_emit opts_default true) p) = [] /\
    o_text (format registry_new (with_emit opts_default true) p) = o_text (format registry_new (with_emit opts_default true) p') /\
    o_text (format registry_new (with_emit opts_default false) p) <> o_text (format registry_new (with_emit opts_default false) p').
  Proof.
    exists (ox_table 1 [0; 0]%Z), (ox_table 1 []%Z). split; [discriminate|]. split; [vm_compute; reflexivity|].
    split; vm_compute; [reflexivity|congruence].
  Qed.

  (** A plan with every kind of line, whose table has as many rows as the limit. *)
  Example C53_layout :
    o_text (format registry_new (with_indent opts_default (L "....")) (ox_table 3 [0]%Z)) = unl (map L [
      "=== Version 0.42.0";
      "....producer: me";
      "=== Extensions";
      "URNs:";
      "....@  1: urn:a";
      "....@  2: urn:b";
      "Functions:";
      "....# 10 @  1: add:i64_i64";
      "....# 11 @  2: add:i64_i64";
      "....# 12 @  1: add";
      "....# 13 @  1: count:";
      "Types:";
      "....# 10 @  1: json";
      "";
      "=== Plan";
      "Filter[{binary}:binary? => $0]";
      "....Read:Virtual[";
      "........- (0),";
      "........- (1),";
      "........- (2)";
      "........- => a:i64]"]).
  Proof. vm_compute. reflexivity. Qed.
  Example C53_inline :
    last (text_lines (o_text (format registry_new (with_threshold opts_default 4) (ox_table 3 [0]%Z)))) []
      = L "  Read:Virtual[(0), (1), (2) => a:i64]" /\
    format registry_new (with_threshold opts_default 4) (ox_table 3 [0]%Z) = format registry_new (with_threshold opts_default 1000) (ox_table 3 [0]%Z).
  Proof.
    split.
    - vm_compute. reflexivity.
    - apply C53_threshold. intros x n (q & r & [<-|[]] & [<-|[]] & Hx) Hn.
      inversion Hx; subst; [discriminate|]. destruct H as [<-|[]]. inversion H0; subst; [|destruct H]. injection Hn as <-. right. lia.
  Qed.
  (** A binary literal, with the digits and the type. *)
  Example C53_literals :
    o_text (literal_out (with_binaries opts_default true) exts_empty (mk_lit (Some (LBinary [0; 171; 255]%N)) false 0)) = L "0x00abff" /\
    o_text (literal_out (with_binaries opts_verbose false) exts_empty (mk_lit (Some (LBinary [0; 171; 255]%N)) true 0)) = L "{binary}:binary?" /\
    literal_type (mk_lit (Some (LPrecisionTime 3 5)) true 0) = Some (TPrec PkTime 3 NNullable 0) /\
    o_text (literal_out (with_types opts_default VRequired) exts_empty (mk_lit (Some (LPrecisionTime 3 5)) true 0))
      = L "'00:00:00.005':precisiontime?<3>" /\
    o_text (literal_out (with_types opts_default VNever) exts_empty (mk_lit (Some (LPrecisionTime 3 5)) true 0)) = L "'00:00:00.005'".
  Proof. repeat split; vm_compute; reflexivity. Qed.
  Example C53_references :
    o_text (ref_out (with_anchors opts_default VAlways) ex_exts KFunction 10) = L "add:i64_i64#10" /\
    o_text (ref_out (with_anchors opts_default VNever) ex_exts KFunction 10) = L "add".
  Proof. split; vm_compute; reflexivity. Qed.
End Examples.
