(** C10, C31: the sections before the plan. *)
From Coq Require Import String List NArith ZArith Bool Lia.
From Verif Require Import Base SimpleExt SpecExt SimpleExtFacts ExtLines SpecExtLines Lines Tree Structural SpecLines
  StructuralFacts LineView Version PreambleFacts ExtReadFacts FromExtFacts Props_Ext Props_Structural.
Import ListNotations.

(** ** C10 *)

(** The lines written for a table, each ended by a newline, are read back as
    the table.  [wf_exts] is the invariant of the two ordered maps. *)
Theorem C10_extensions_round_trip : forall R A root node e, wf_exts e -> exts_writable e = true ->
  exists p, parse_text R A root node (ps_new R A) (unl (exts_lines (L "  ") e)) = Ok p /\ xp_exts (ps_ext _ _ p) = e.
Proof.
  intros R A root node e W Hw.
  destruct (exts_steps e R A root node (ps_new R A) 1 W Hw) as (st & x & Hs & Hr & Hx); [cbn; lia|reflexivity|].
  destruct (prest_psteps R A root node (exts_lines (L "  ") e) [] (ps_new R A) 1 _ (unl (exts_lines (L "  ") e)) ltac:(rewrite app_nil_r; apply text_lines_unl, exts_nl_free; exact Hw) Hs eq_refl)
    as (rest & Hrest & Hp).
  { left. destruct st; cbn in Hr; try reflexivity; lia. }
  apply first_line_nil in Hrest. subst rest. rewrite prest_nil in Hp.
  eexists. split; [exact Hp|exact Hx].
Qed.

(** Whatever text was read, the table it left can be written (and so read back). *)
Theorem C10_read_tables_writable : forall R A root node s p,
  parse_text R A root node (ps_new R A) s = Ok p ->
  wf_exts (xp_exts (ps_ext _ _ p)) /\ exts_writable (xp_exts (ps_ext _ _ p)) = true.
Proof.
  intros R A root node s p H.
  apply (prest_fine R A root node (text_lines s) _ (ps_new R A) 1 s p (le_n _) eq_refl H).
  split; [apply wf_empty|reflexivity].
Qed.

Theorem C10_read_write_read : forall R A root node s p,
  parse_text R A root node (ps_new R A) s = Ok p ->
  exists p', parse_text R A root node (ps_new R A) (unl (exts_lines (L "  ") (xp_exts (ps_ext _ _ p)))) = Ok p'
    /\ xp_exts (ps_ext _ _ p') = xp_exts (ps_ext _ _ p).
Proof.
  intros R A root node s p H. destruct (C10_read_tables_writable _ _ _ _ _ _ H). now apply C10_extensions_round_trip.
Qed.

(** A table with a padded and an unpadded anchor, two kinds, and a signature. *)
Definition c10_exts : exts := fst (from_extensions
  [mk_urn 1 (L "https://a.b/c.yaml"); mk_urn 4294967295 (L "urn:x")]
  [Some (mk_decl KFunction 1 7 (L "add:i64_i64")); Some (mk_decl KFunction 4294967295 12345 (L "count:"));
   Some (mk_decl KType 1 7 (L "point"))]).
Example c10_writable : wf_exts c10_exts /\ exts_writable c10_exts = true.
Proof. split; [apply wf_from_extensions|vm_compute; reflexivity]. Qed.
Example c10_lines : nth 6 (exts_lines (L "  ") c10_exts) [] = L "  #12345 @4294967295: count:".
Proof. vm_compute. reflexivity. Qed.

(** Without the condition on names and URNs the section does not come back: a URN with a space. *)
Theorem C10_urn_with_space_refuted : exists e, wf_exts e /\
  forall p, parse_text _ _ ex_root ex_node (ps_new _ _) (unl (exts_lines (L "  ") e)) <> Ok p.
Proof.
  exists (mk_exts [(1%N, L "a b")] []). split.
  - exact (wf_from_extensions [mk_urn 1 (L "a b")] []).
  - intros p. vm_compute. discriminate.
Qed.

(** ** C31 *)

(** A version is read back with its strings trimmed, and is [None] when it was
    [None] or entirely empty. *)
Theorem C31_version_round_trip : forall R A root node (v : option version),
  (forall w, v = Some w ->
     (v_major w <= 4294967295 /\ v_minor w <= 4294967295 /\ v_patch w <= 4294967295)%N /\
     contains_char 10 (trim (v_producer w)) = false /\ contains_char 10 (trim (v_git w)) = false) ->
  exists p, parse_text R A root node (ps_new R A) (unl (version_lines (L "  ") v)) = Ok p /\
    ps_version _ _ p =
      match v with
      | None => None
      | Some (mk_version 0 0 0 [] []) => None
      | Some w => Some (mk_version (v_major w) (v_minor w) (v_patch w) (trim (v_producer w)) (trim (v_git w)))
      end.
Proof.
  intros R A root node v Hv.
  assert (Hw : match v with Some v => version_writable v | None => true end = true).
  { destruct v as [w|]; auto. destruct (Hv w eq_refl) as ((H1 & H2 & H3) & H4 & H5). unfold version_writable, is_u32.
    change c_nl with 10%N. rewrite H4, H5. apply N.leb_le in H1, H2, H3. now rewrite H1, H2, H3. }
  destruct (version_steps v R A root node (ps_new R A) 1 Hw eq_refl eq_refl) as (st & Hs & Hr).
  destruct (prest_psteps R A root node (version_lines (L "  ") v) [] (ps_new R A) 1 _ (unl (version_lines (L "  ") v)) ltac:(rewrite app_nil_r; apply text_lines_unl, version_nl_free; exact Hw) Hs eq_refl)
    as (rest & Hrest & Hp).
  { left. destruct st; cbn in Hr; try reflexivity; lia. }
  apply first_line_nil in Hrest. subst rest. rewrite prest_nil in Hp. eexists. split; [exact Hp|].
  cbn [ps_version]. destruct v as [[[|a] [|b] [|c] [|pr prs] [|g gs]]|]; reflexivity.
Qed.

Definition c31_version : version := mk_version 4294967295 0 12 (L "data: dog ") (L "0aef").
Example c31_lines : version_lines (L "  ") (Some c31_version) =
  [L "=== Version 4294967295.0.12"; L "  producer: data: dog"; L "  git_hash: 0aef"].
Proof. vm_compute. reflexivity. Qed.

(** The version and extension sections together, in front of any further lines. *)
Theorem C31_C10_preamble : forall R A root node v e s rest_lines,
  match v with Some w => version_writable w | None => true end = true ->
  wf_exts e -> exts_writable e = true ->
  text_lines s = version_lines (L "  ") v ++ exts_lines (L "  ") e ++ rest_lines ->
  exists p rest, text_lines rest = rest_lines /\ ps_version _ _ p = version_read v /\ xp_exts (ps_ext _ _ p) = e /\
    ps_state _ _ p <> SPlan /\ ps_tree _ _ p = builder_empty /\
    parse_text R A root node (ps_new R A) s =
    prest R A root node p (1 + N.of_nat (length (version_lines (L "  ") v ++ exts_lines (L "  ") e))) rest.
Proof.
  intros R A root node v e s rl Hv W Hw E.
  destruct (version_steps v R A root node (ps_new R A) 1 Hv eq_refl eq_refl) as (st & Hs & Hr).
  destruct (exts_steps e R A root node (mk_parser R A st (version_read v) xp_default builder_empty)
    (1 + N.of_nat (length (version_lines (L "  ") v))) W Hw Hr eq_refl) as (st' & x & Hs' & Hr' & Hx).
  assert (Ha : psteps R A root node (ps_new R A) 1 (version_lines (L "  ") v ++ exts_lines (L "  ") e) =
    Ok (mk_parser R A st' (version_read v) x builder_empty)).
  { rewrite psteps_app, Hs. cbn [rbind ps_new ps_ext ps_tree]. exact Hs'. }
  rewrite app_assoc in E.
  destruct (prest_psteps R A root node _ _ _ _ _ _ E Ha eq_refl) as (rest & Hrest & Hp).
  { left. destruct st'; cbn in Hr'; try reflexivity; lia. }
  exists (mk_parser R A st' (version_read v) x builder_empty), rest. repeat split; auto.
  destruct st'; cbn in *; try discriminate; lia.
Qed.

(** A producer with a line break is read as further lines: here as the plan header. *)
Theorem C31_producer_with_newline_refuted : exists v p,
  parse_text _ _ ex_root ex_node (ps_new _ _) (unl (version_lines (L "  ") (Some v))) = Ok p /\
  ps_version _ _ p <> Some v /\ ps_state _ _ p = SPlan.
Proof.
  exists (mk_version 1 0 0 (L "x" ++ [10%N] ++ L "=== Plan") []). eexists. split; [vm_compute; reflexivity|].
  split; [discriminate|reflexivity].
Qed.
