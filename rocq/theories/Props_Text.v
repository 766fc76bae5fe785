(** C55: the parser gives the plan a text means. *)
From Coq Require Import String List NArith ZArith Bool Lia Sorted Permutation.
From Verif Require Import Base BaseFacts Peg Names SpecNames OMap SimpleExt SimpleExtFacts Out Lines SpecLines SpecLiterals Literals
  Registry SpecRegistry Rels RelGrammar Tree SpecTree Structural Plan Pest SpecGrammar Types Exprs LineView SpecOptions SpecPlan Props_Plan Props_Registry
  Props_Literals SpecMeaning MeaningFacts SpecText TextFacts TextDecls TextRun TextPlan.
Import ListNotations.
Local Open Scope string_scope.
Local Open Scope list_scope.
Local Open Scope nat_scope.

(** A text is read to a plan exactly if it means that plan. *)
Theorem C55_texts : forall (F : Floats) reg s p, parse reg s = Ok p <-> text_means reg s p.
Proof. intros F reg s p. split; [apply text_sound|apply text_complete]. Qed.

(** No text means two plans, and a text that means none is not read. *)
Theorem C55_one_plan : forall (F : Floats) reg s p p', text_means reg s p -> text_means reg s p' -> p = p'.
Proof. intros F reg s p p' H H'. apply C55_texts in H, H'. congruence. Qed.
Theorem C55_no_plan : forall (F : Floats) reg s,
  (forall p, ~ text_means reg s p) <-> (exists e, parse reg s = Err e) \/ (exists m, parse reg s = Panic m).
Proof.
  intros F reg s. split.
  - intros H. destruct (parse reg s) as [p|e|m] eqn:E; eauto. apply C55_texts in E. now apply H in E.
  - intros H p Hp. apply C55_texts in Hp. destruct H as [(e & H)|(m & H)]; congruence.
Qed.

(** The text written for a clean plan means that plan. *)
Theorem C55_written_texts : forall (U : Unicode) (F : Floats) reg op p,
  ascii_sane U -> readable_options op -> plan_writable reg op p -> text_means reg (o_text (format reg op p)) p.
Proof. intros U F reg op p Ha Ho Hp. apply C55_texts. now apply C01_text_is_read_back. Qed.

(** The order of declarations says nothing: an extension section may be replaced by one
    with the same entries in another order, if each declaration still comes after its
    URN. *)
Lemma table_order es es' e : Permutation es es' -> table_of es e -> table_of es' e.
Proof.
  intros P (H1 & H2 & H3 & H4). split; [exact H1|]. split; [exact H2|]. split.
  - intros a n. rewrite H3. split; apply Permutation_in; auto using Permutation_sym.
  - intros a k u n. rewrite H4. split; apply Permutation_in; auto using Permutation_sym.
Qed.
Theorem C55_declaration_order : forall (F : Floats) reg s s' blanks vls els els' pls v es es' trees,
  text_lines s = blanks ++ vls ++ els ++ pls -> text_lines s' = blanks ++ vls ++ els' ++ pls ->
  Forall white blanks -> version_section vls v -> plan_section pls trees ->
  extension_section els es -> extension_section els' es' -> coherent es -> coherent es' -> Permutation es es' ->
  forall p, parse reg s = Ok p <-> parse reg s' = Ok p.
Proof.
  assert (G : forall (F : Floats) reg s s' blanks vls els els' pls v es es' trees,
    text_lines s = blanks ++ vls ++ els ++ pls -> text_lines s' = blanks ++ vls ++ els' ++ pls ->
    Forall white blanks -> version_section vls v -> plan_section pls trees ->
    extension_section els es -> extension_section els' es' -> coherent es -> coherent es' -> Permutation es es' ->
    forall p, parse reg s = Ok p -> parse reg s' = Ok p).
  { intros F reg s s' blanks vls els els' pls v es es' trees E E' W V Pl X X' C C' P p H.
    destruct (coherent_adds es C) as (e & A). assert (A' : adds exts_empty es' e).
    { apply adds_iff. split; [exact C'|]. apply (table_order es); auto. now apply adds_iff. }
    destruct (text_run s _ _ _ _ _ _ _ _ E W V X A Pl) as (q & R & R1 & R2 & R3).
    destruct (text_run s' _ _ _ _ _ _ _ _ E' W V X' A' Pl) as (q' & R' & R1' & R2' & R3').
    apply prest_lrun in R, R'. unfold parse, parse_plan, parse_text in *.
    unfold StructuralFacts.prest in R, R'. rewrite R in H. rewrite R'. cbn [rbind] in *. unfold build_plan in *.
    apply rbind_ok in H as (rels & Hr & H). rewrite R2 in *. rewrite R2', R1', <- R1. apply rlist_iff in Hr.
    assert (Hr' : Base.rlist (RelRead.build_plan_rel reg e) (finish (ps_tree _ _ q')) = Ok rels).
    { apply rlist_iff. eapply trees_unnumber; [|exact Hr]. congruence. }
    rewrite Hr'. exact H. }
  intros F reg s s' blanks vls els els' pls v es es' trees E E' W V Pl X X' C C' P p. split; eapply G; eauto using Permutation_sym.
Qed.

(** ** Examples *)
Section Examples.
  #[local] Existing Instance ascii_tables.
  #[local] Existing Instance toy_floats.

  Definition tx (ls : list string) : list N := unl (map L ls).

  (** By the rules, not by running the parser: of two producers the last counts, and the
      value may contain a colon. *)
  Ltac is_white := repeat (constructor; [vm_compute; tauto|]); constructor.
  Ltac not_in := vm_compute; intuition discriminate.
  Lemma level_of d l t : indented l = (d, t) -> at_level d l t.
  Proof. now intros H; apply indented_iff. Qed.
  Definition tx_version : list (list N) := map L ["=== Version  0.42.1 "; "  producer: a"; ""; "  producer : me: x  "].
  Example ex_version : version_section tx_version (Some (mk_version 0 42 1 (L "me: x") [])).
  Proof.
    assert (Nat : forall s n, digits s -> decimal s = Z.of_N n -> hd 0%N s <> 45%N -> (Z.of_N n < 2 ^ 32)%Z -> natural s n).
    { intros s n H1 H2 H3 H4. split; [|auto]. rewrite <- H2. now constructor. }
    assert (D : forall l, forallb (fun c => (48 <=? c) && (c <=? 57))%N l = true -> l <> [] -> digits l).
    { intros l H1 H2. split; auto. apply Forall_forall. intros c Hc. rewrite forallb_forall in H1. specialize (H1 c Hc).
      apply andb_true_iff in H1 as [A B]. apply N.leb_le in A, B. split; auto. }
    apply vs_some with (a := 0%N) (b := 42%N) (c := 1%N) (ws := map L ["  producer: a"; "  producer : me: x  "]).
    - exists (L " "), (L " "), (L "0"), (L "42"), (L "1"). split; [reflexivity|]. split; [is_white|]. split; [is_white|].
      repeat (split; [apply Nat; [apply D; [reflexivity|discriminate]|reflexivity|discriminate|reflexivity]|]).
      apply Nat; [apply D; [reflexivity|discriminate]|reflexivity|discriminate|reflexivity].
    - cbn [map]. apply on_keep; [intros H; inversion_clear H as [|? ? _ H1]; inversion_clear H1 as [|? ? _ H2]; inversion_clear H2 as [|? ? H3 _]; revert H3; not_in|].
      apply on_skip; [intros H; apply H; constructor|].
      apply on_keep; [intros H; inversion_clear H as [|? ? _ H1]; inversion_clear H1 as [|? ? _ H2]; inversion_clear H2 as [|? ? H3 _]; revert H3; not_in|constructor].
    - cbn [map]. apply de_producer with (value := L "a").
      + exists (L "producer: a"), [], [], (L " "). split; [apply level_of; reflexivity|]. split; [reflexivity|].
        split; [constructor|]. split; [constructor|]. split; [is_white|]. intros c r [= <- <-]. not_in.
      + apply de_producer with (value := L "me: x"); [|constructor].
        exists (L "producer : me: x"), [], (L " "), (L " "). split; [apply level_of; reflexivity|]. split; [reflexivity|].
        split; [constructor|]. split; [is_white|]. split; [is_white|]. intros c r [= <- <-]. not_in.
  Qed.

  (** A whole text, its declarations out of order, and the plan it means. *)
  Definition tx_lines (decls : list string) : list string :=
    ["  "; "=== Version 0.42.1"; "  producer: me"; "=== Extensions"] ++ decls ++
    ["=== Plan"; "Root[x]"; "  Filter[gt($0, 10):boolean => $0]"; ""; "    Read[t => x:i64]"].
  Definition tx_decls : list string := ["URNs:"; "  @2: b"; "Functions:"; "  #11 @2: lt"; "URNs:"; "  @1: a"; ""; "Functions:"; "  #10 @1: gt:any_any"].
  Definition tx_decls' : list string := ["URNs:"; "  @1: a"; "  @2: b"; "Functions:"; "  #10 @1: gt:any_any"; "  #11 @2: lt"].
  Definition tx_plan : pplan := match parse registry_new (tx (tx_lines tx_decls)) with Ok p => p | _ => mk_plan _ None [] [] [] end.
  Example ex_text : text_means registry_new (tx (tx_lines tx_decls)) tx_plan /\
    pl_urns _ tx_plan = [mk_urn 1 (L "a"); mk_urn 2 (L "b")] /\
    pl_decls _ tx_plan = [Some (mk_decl KFunction 1 10 (L "gt:any_any")); Some (mk_decl KFunction 2 11 (L "lt"))] /\
    match pl_rels _ tx_plan with [PRoot [x] (Some (RFilter _ (Some (RRead _)) (Some (EFunc 10 [_; _] [] _)) None))] => x = L "x" | _ => False end.
  Proof. split; [apply C55_texts|]; vm_compute; repeat split. Qed.
  Example ex_order : parse registry_new (tx (tx_lines tx_decls')) = Ok tx_plan.
  Proof. vm_compute. reflexivity. Qed.

  (** Entries in two orders. *)
  Definition tx_entries : list entry :=
    [inl (mk_urn 2 (L "b")); inr (mk_decl KFunction 2 11 (L "lt")); inl (mk_urn 1 (L "a")); inr (mk_decl KFunction 1 10 (L "gt:any_any"))].
  Definition tx_entries' : list entry :=
    [inl (mk_urn 1 (L "a")); inl (mk_urn 2 (L "b")); inr (mk_decl KFunction 1 10 (L "gt:any_any")); inr (mk_decl KFunction 2 11 (L "lt"))].
  Lemma urn_read l u : fst (indented l) = 1 -> ExtLines.parse_urn_declaration (snd (indented l)) = Ok u -> urn_line l u.
  Proof.
    intros H1 H2. destruct (indented l) as [d t] eqn:E. cbn in H1, H2. subst d. apply indented_iff in E.
    now apply (urn_line_iff l t).
  Qed.
  Lemma decl_read k l d s : fst (indented l) = 1 ->
    ExtLines.parse_declaration k (snd (indented l)) = Ok (mk_decl k (d_urn d) (d_anchor d) s) ->
    norm_name k s = Some (d_name d) -> d_kind d = k -> declaration_line k l d.
  Proof.
    intros H1 H2 H3 H4. destruct (indented l) as [i t] eqn:E. cbn in H1, H2. subst i. apply indented_iff in E.
    apply (declaration_line_iff k l t); auto. split; eauto.
  Qed.
  Ltac urn := apply urn_read; vm_compute; reflexivity.
  Ltac decl s := apply (decl_read _ _ _ s); vm_compute; reflexivity.
  Ltac level := apply level_of; vm_compute; reflexivity.
  Ltac only_lines := apply only_filter with (f := fun l => negb (blank l)); [intros l; unfold written_line; now rewrite negb_true_iff, blank_false|vm_compute; reflexivity].
  Lemma tx_section : extension_section (map L ("=== Extensions" :: tx_decls)) tx_entries.
  Proof.
    apply (es_some (L "=== Extensions") _
      [map L ["URNs:"; "  @2: b"]; map L ["Functions:"; "  #11 @2: lt"]; map L ["URNs:"; "  @1: a"]; map L ["Functions:"; "  #10 @1: gt:any_any"]]
      [[inl (mk_urn 2 (L "b"))]; [inr (mk_decl KFunction 2 11 (L "lt"))]; [inl (mk_urn 1 (L "a"))]; [inr (mk_decl KFunction 1 10 (L "gt:any_any"))]]).
    - level.
    - only_lines.
    - constructor; [apply (su_urns _ _ [mk_urn 2 (L "b")]); [level|constructor; [urn|constructor]]|].
      constructor; [apply (su_functions _ _ [mk_decl KFunction 2 11 (L "lt")]); [level|constructor; [decl (L "lt")|constructor]]|].
      constructor; [apply (su_urns _ _ [mk_urn 1 (L "a")]); [level|constructor; [urn|constructor]]|].
      constructor; [apply (su_functions _ _ [mk_decl KFunction 1 10 (L "gt:any_any")]); [level|constructor; [decl (L "gt:any_any")|constructor]]|constructor].
  Qed.
  Lemma tx_section' : extension_section (map L ("=== Extensions" :: tx_decls')) tx_entries'.
  Proof.
    apply (es_some (L "=== Extensions") _
      [map L ["URNs:"; "  @1: a"; "  @2: b"]; map L ["Functions:"; "  #10 @1: gt:any_any"; "  #11 @2: lt"]]
      [[inl (mk_urn 1 (L "a")); inl (mk_urn 2 (L "b"))]; [inr (mk_decl KFunction 1 10 (L "gt:any_any")); inr (mk_decl KFunction 2 11 (L "lt"))]]).
    - level.
    - only_lines.
    - constructor; [apply (su_urns _ _ [mk_urn 1 (L "a"); mk_urn 2 (L "b")]); [level|constructor; [urn|constructor; [urn|constructor]]]|].
      constructor; [apply (su_functions _ _ [mk_decl KFunction 1 10 (L "gt:any_any"); mk_decl KFunction 2 11 (L "lt")]); [level|constructor; [decl (L "gt:any_any")|constructor; [decl (L "lt")|constructor]]]|constructor].
  Qed.
  Lemma tx_coherent : coherent tx_entries /\ coherent tx_entries'.
  Proof.
    unfold tx_entries, tx_entries'. split.
    - change (coherent ((([] ++ [inl (mk_urn 2 (L "b"))]) ++ [inr (mk_decl KFunction 2 11 (L "lt"))]) ++ [inl (mk_urn 1 (L "a"))] ++ [inr (mk_decl KFunction 1 10 (L "gt:any_any"))])).
      rewrite app_assoc. rewrite !coherent_snoc. split; [split; [split; [split|]|]|].
      + repeat split; intros; exfalso; match goal with H : [] = ?a ++ _ |- _ => now destruct a end.
      + intros v [].
      + split; [intros f [H|[]]; discriminate|]. eexists. split; [left; reflexivity|reflexivity].
      + intros v [H|[H|[]]]; [injection H as <-; discriminate|discriminate].
      + split; [intros f [H|[H|[H|[]]]]; try discriminate; injection H as <-; discriminate|]. eexists. split; [right; right; left; reflexivity|reflexivity].
    - change (coherent ((([] ++ [inl (mk_urn 1 (L "a"))]) ++ [inl (mk_urn 2 (L "b"))]) ++ [inr (mk_decl KFunction 1 10 (L "gt:any_any"))] ++ [inr (mk_decl KFunction 2 11 (L "lt"))])).
      rewrite app_assoc. rewrite !coherent_snoc. split; [split; [split; [split|]|]|].
      + repeat split; intros; exfalso; match goal with H : [] = ?a ++ _ |- _ => now destruct a end.
      + intros v [].
      + intros v [H|[]]; injection H as <-; discriminate.
      + split; [intros f [H|[H|[]]]; discriminate|]. eexists. split; [left; reflexivity|reflexivity].
      + split; [intros f [H|[H|[H|[]]]]; try discriminate; injection H as <-; discriminate|]. eexists. split; [right; left; reflexivity|reflexivity].
  Qed.
  Lemma tx_permuted : Permutation tx_entries tx_entries'.
  Proof.
    unfold tx_entries, tx_entries'. eapply Permutation_trans; [apply (Permutation_app_comm [_; _] [_; _])|]. cbn [app].
    constructor. apply (perm_trans (l' := [inl (mk_urn 2 (L "b")); inr (mk_decl KFunction 1 10 (L "gt:any_any")); inr (mk_decl KFunction 2 11 (L "lt"))]));
      [apply perm_swap|reflexivity].
  Qed.

  Example ex_reordered : forall reg p,
    parse reg (unl (L " " :: tx_version ++ map L ("=== Extensions" :: tx_decls))) = Ok p <->
    parse reg (unl (L " " :: tx_version ++ map L ("=== Extensions" :: tx_decls'))) = Ok p.
  Proof.
    intros reg. refine (C55_declaration_order _ reg _ _ [L " "] tx_version (map L ("=== Extensions" :: tx_decls))
      (map L ("=== Extensions" :: tx_decls')) [] _ tx_entries tx_entries' []
      _ _ _ ex_version pl_none tx_section tx_section' (proj1 tx_coherent) (proj2 tx_coherent) tx_permuted);
      [vm_compute; reflexivity|vm_compute; reflexivity|].
    constructor; [is_white|constructor].
  Qed.

  (** Texts that mean nothing: a section out of order, an anchor given twice, a
      declaration before its URN, a dashed line without a relation above it. *)
  Example ex_no_text : Forall (fun ls => forall p, ~ text_means registry_new (tx ls) p) [
    ["=== Plan"; "Read[t => x:i64]"; "=== Extensions"];
    ["=== Extensions"; "URNs:"; "  @1: a"; "  @1: b"];
    ["=== Extensions"; "Functions:"; "  #10 @1: f"; "URNs:"; "  @1: a"];
    ["=== Plan"; "- Read[t => x:i64]"];
    ["Read[t => x:i64]"];
    ["=== Version 1.2"];
    ["=== Version 1.2.3"; "  author: me"]].
  Proof. repeat (apply Forall_cons; [intros p H; apply C55_texts in H; vm_compute in H; discriminate|]). constructor. Qed.
  (** Dashes continue a line one level deeper, and only if no line comes between. *)
  Example ex_dash :
    (exists p, text_means registry_new (tx ["=== Plan"; "Read:Virtual["; "  - (1)"; "  - => a:i64]"]) p) /\
    (forall p, ~ text_means registry_new (tx ["=== Plan"; "Read:Virtual["; ""; "  - (1)"; "  - => a:i64]"]) p) /\
    (forall p, ~ text_means registry_new (tx ["=== Plan"; "Read:Virtual["; "    - (1)"; "    - => a:i64]"]) p).
  Proof.
    split.
    - destruct (parse registry_new (tx ["=== Plan"; "Read:Virtual["; "  - (1)"; "  - => a:i64]"])) as [p|e|m] eqn:E;
        [|vm_compute in E; discriminate|vm_compute in E; discriminate].
      exists p. now apply C55_texts.
    - split; intros p H; apply C55_texts in H; vm_compute in H; discriminate.
  Qed.
  (** The text of a clean plan. *)
  Example ex_written :
    text_means (run_regs ex_history) (o_text (format (run_regs ex_history) opts_default px_plan)) px_plan.
  Proof.
    apply C55_written_texts; [exact ascii_tables_sane|repeat split; discriminate|].
    apply plan_clean_writable. exact px_clean.
  Qed.
End Examples.
