(** C11, C12, C13: loading extension declarations and resolving names. *)
From Coq Require Import String List NArith ZArith Bool.
From Verif Require Import Base Peg Names OMap SimpleExt SpecExt Out Anchors SimpleExtFacts FromExtFacts
  AnchorsFacts.
Import ListNotations.

(** A table that loading declarations can produce. *)
Definition loaded (e : exts) : Prop := exists us ds, fst (from_extensions us ds) = e.

Lemma loaded_wf e : loaded e -> wf_exts e.
Proof. intros (us & ds & <-). apply wf_from_extensions. Qed.

(** C11.  Whatever the lists of declarations, the table holds, for every kind and
    anchor, the first acceptable declaration, and for every URN anchor the first
    URN. *)
Theorem C11_first_declaration_wins :
  forall (us : list urn_decl) (ds : list (option ext_decl)) (k : kind) (a : N),
    decl_get (fst (from_extensions us ds)) k a = first_decl k a ds /\
    urn_get (fst (from_extensions us ds)) a = first_urn a us.
Proof. split; [apply from_extensions_get | apply from_extensions_urn]. Qed.
Print Assumptions C11_first_declaration_wins.

(** An error is reported exactly when the declarations are not clean. *)
Theorem C11_errors_iff_not_clean :
  forall us ds, snd (from_extensions us ds) = [] <-> clean_decls us ds.
Proof. exact from_extensions_clean. Qed.
Print Assumptions C11_errors_iff_not_clean.

(** C12.  Every reference to a declared function, written with anchors shown when
    required or always, is read back from the text and resolves to the same
    declaration: same anchor, same URN, same full name. *)
Theorem C12_function_reference_round_trip :
  forall (op : options) (e : exts) (a u : N) (n rest : list N),
    loaded e ->
    op_anchors op <> VNever ->
    decl_get e KFunction a = Some (u, n) ->
    fn_name_ok n = true ->
    (Z.of_N a <= u32_max)%Z ->
    o_errs (ref_out op e KFunction a) = [] /\
    exists c anchor r,
      g_function_reference (o_text (ref_out op e KFunction a) ++ L "(" ++ rest) = Some (c, L "(" ++ rest) /\
      anchor_value (fr_anchor c) = Ok anchor /\
      resolve_function e (fr_name c) anchor = Ok r /\
      rf_anchor r = a /\ rf_urn r = u /\ rf_name r = n.
Proof.
  intros op e a u n rest W%loaded_wf Hop Hd Hn Ha.
  rewrite (ref_out_spec _ _ _ _ _ _ W Hd). split; [reflexivity|].
  destruct (resolve_shown op e a u n W Hop Hd) as (r & Er & Hr).
  exists (mk_fref (shown_name op e KFunction a n) (option_map show_N (shown_anchor op e KFunction a n)) None),
    (shown_anchor op e KFunction a n), r.
  split; [|split; [|split; [exact Er|exact Hr]]].
  - cbn [txt o_text]. rewrite <- app_assoc. apply function_reference_app.
    unfold shown_name. destruct (op_anchors op), (base_uniq e KFunction a n); auto using fn_name_ok_base.
  - cbn [fr_anchor]. unfold shown_anchor. destruct (op_anchors op); cbn; auto.
    + destruct (_ || _); cbn; auto. apply anchor_value_show. now apply Z.leb_le.
    + apply anchor_value_show. now apply Z.leb_le.
Qed.
Print Assumptions C12_function_reference_round_trip.

(** C13.  A name without an anchor resolves only when it is unambiguous: no other
    declared function carries it.  A name with a colon stands for the full name,
    one without for the part before the colon. *)
Theorem C13_resolution_unambiguous :
  forall (e : exts) (name : list N) (r : resolved),
    loaded e ->
    resolve_function e name None = Ok r ->
    decl_get e KFunction (rf_anchor r) = Some (rf_urn r, rf_name r) /\
    (if contains_char c_colon name then rf_name r = name else cn_base (rf_name r) = name) /\
    forall a u n,
      decl_get e KFunction a = Some (u, n) ->
      (if contains_char c_colon name then n = name else cn_base n = name) ->
      a = rf_anchor r.
Proof.
  intros e name r W%loaded_wf H. unfold resolve_function in H.
  destruct (contains_char c_colon name) eqn:Ec.
  - destruct (find_by_name e KFunction name) as [a| |] eqn:Ef; cbn in H; try discriminate.
    apply find_by_name_ok in Ef as [(u & Hd) Ho]; auto.
    rewrite (lookup_function_spec _ _ _ _ W Hd) in H. injection H as <-. cbn. split; auto. split; auto.
    intros a' u' n' Hd' ->. destruct (N.eq_dec a' a) as [|Hne]; auto. exfalso. apply Ho.
    exists a', u', name. repeat split; auto. apply BaseFacts.streqb_refl.
  - destruct (find_by_base_name e KFunction name) as [a| |] eqn:Ef; cbn in H; try discriminate.
    apply find_by_base_name_ok in Ef as [(u & n & Hd & Hm) Ho]; auto.
    rewrite (lookup_function_spec _ _ _ _ W Hd) in H. injection H as <-. cbn. split; auto.
    rewrite cn_matches_base in Hm by auto. apply BaseFacts.streqb_eq in Hm. split; auto.
    intros a' u' n' Hd' Hb. destruct (N.eq_dec a' a) as [|Hne]; auto. exfalso. apply Ho.
    exists a', u', n'. repeat split; auto. rewrite cn_matches_base by auto. subst. rewrite Hb.
    apply BaseFacts.streqb_refl.
Qed.
Print Assumptions C13_resolution_unambiguous.

(** A name with an anchor resolves to that anchor or not at all. *)
Theorem C13_anchor_decides :
  forall (e : exts) (name : list N) (a : N) (r : resolved),
    loaded e ->
    resolve_function e name (Some a) = Ok r ->
    rf_anchor r = a /\ decl_get e KFunction a = Some (rf_urn r, rf_name r) /\
    (if contains_char c_colon name then rf_name r = name else cn_base (rf_name r) = name).
Proof.
  intros e name a r W%loaded_wf H. unfold resolve_function in H.
  destruct (find_by_anchor e KFunction a) as [[u n]| |] eqn:Ef; cbn in H; try discriminate.
  unfold find_by_anchor in Ef. destruct (decl_get e KFunction a) as [x|] eqn:Hd; [|discriminate].
  injection Ef as ->.
  destruct (cn_matches n name) eqn:Em; cbn in H; [|discriminate].
  rewrite (lookup_function_spec _ _ _ _ W Hd) in H. injection H as <-. cbn. split; auto. split; auto.
  unfold cn_matches in Em. destruct (contains_char c_colon name); now apply BaseFacts.streqb_eq.
Qed.
Print Assumptions C13_anchor_decides.

(** ** The hypotheses are met *)

Definition ex_us : list urn_decl := [mk_urn 1 (L "urn:a"); mk_urn 2 (L "urn:b"); mk_urn 1 (L "urn:c")].
Definition ex_ds : list (option ext_decl) :=
  [Some (mk_decl KFunction 1 10 (L "add:i64_i64"));
   Some (mk_decl KFunction 2 11 (L "add:i64_i64"));
   Some (mk_decl KFunction 1 12 (L "add"));
   Some (mk_decl KFunction 1 13 (L "count:"));
   Some (mk_decl KType 1 10 (L "u!json"));
   Some (mk_decl KFunction 2 10 (L "sub"));
   None].
Definition ex_exts : exts := fst (from_extensions ex_us ex_ds).

Example ex_first_wins :
  decl_get ex_exts KFunction 10 = Some (1%N, L "add:i64_i64") /\
  decl_get ex_exts KType 10 = Some (1%N, L "json") /\
  urn_get ex_exts 1 = Some (L "urn:a") /\
  snd (from_extensions ex_us ex_ds) =
    [DuplicateUrnAnchor 1 (L "urn:a") (L "urn:c");
     DuplicateAnchor KFunction 10 (L "add:i64_i64") (L "sub"); MissingMappingType].
Proof. vm_compute. auto. Qed.

Example ex_loaded : loaded ex_exts.
Proof. now exists ex_us, ex_ds. Qed.

(** The four ways a reference is written when anchors are shown as required. *)
Example ex_reference_texts :
  o_text (ref_out opts_default ex_exts KFunction 10) = L "add:i64_i64#10" /\
  o_text (ref_out opts_default ex_exts KFunction 12) = L "add#12" /\
  o_text (ref_out opts_default ex_exts KFunction 13) = L "count" /\
  o_text (ref_out opts_verbose ex_exts KFunction 13) = L "count:#13".
Proof. vm_compute. auto. Qed.
Example ex_names_ok :
  fn_name_ok (L "add:i64_i64") = true /\ fn_name_ok (L "count:") = true /\
  fn_name_ok (L "f:u!json_str") = true /\ fn_name_ok (L "f:_x") = false.
Proof. vm_compute. auto. Qed.
Example ex_resolves : exists r, resolve_function ex_exts (L "count") None = Ok r /\ rf_anchor r = 13%N.
Proof. eexists; split; vm_compute; reflexivity. Qed.
Example ex_ambiguous :
  resolve_function ex_exts (L "add") None = Err (DuplicateName KFunction (L "add")).
Proof. vm_compute. auto. Qed.

(** With anchors never shown an overloaded name cannot be read back. *)
Theorem C12_never_refuted :
  exists op e a u n, loaded e /\ op_anchors op = VNever /\ decl_get e KFunction a = Some (u, n) /\
    fn_name_ok n = true /\
    resolve_function e (o_text (ref_out op e KFunction a)) None = Err (DuplicateName KFunction (L "add")).
Proof.
  exists (mk_options VNever VRequired false false (L "  ") 3), ex_exts, 10%N, 1%N, (L "add:i64_i64").
  split; [exact ex_loaded|]. vm_compute. auto.
Qed.
Print Assumptions C12_never_refuted.
