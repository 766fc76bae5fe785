(** C57: relations and whole plans are written in their layout, and what has none is
    reported. *)
From Coq Require Import String List NArith ZArith Bool Lia.
From Verif Require Import Base BaseFacts Names SpecNames SimpleExt SimpleExtFacts Out Anchors Types Calendar
  SpecLiterals Literals Exprs ExtArgs Registry Rels Structural Plan SpecRegistry SpecMeaning SpecText SpecNotation NotationBase NotationExprs
  SpecLayout LayoutRels LayoutHeads LayoutTree LayoutPlan Props_Ext Props_Registry Props_Plan Props_Notation.
Import ListNotations.
Local Open Scope string_scope.
Local Open Scope list_scope.
Local Open Scope nat_scope.

(** A relation at level [d], its lines joined by newlines. *)
Theorem C57_relations : forall (U : Unicode) (F : Floats) reg op e, loaded e -> forall r d s,
  written_as (rel_out reg op e d r) s <-> exists w ls, rel_shown reg op e d r w ls /\ s = join [10%N] ls.
Proof. intros U F reg op e H r d s. apply rel_iff. now apply loaded_wf. Qed.
Theorem C57_plan_relations : forall (U : Unicode) (F : Floats) reg op e, loaded e -> forall p s,
  written_as (plan_rel_out reg op e p) s <-> exists ls, plan_rel_shown reg op e p ls /\ s = join [10%N] ls.
Proof. intros U F reg op e H p s. apply plan_rel_iff. now apply loaded_wf. Qed.
Theorem C57_plans : forall (U : Unicode) (F : Floats) reg op p s, written_as (format reg op p) s <-> plan_text reg op p s.
Proof. intros U F reg op p s. apply plan_text_iff. Qed.
(** There is a complaint exactly about the plans that no text shows, and no plan is
    shown by two texts. *)
Theorem C57_complaints : forall (U : Unicode) (F : Floats) reg op p,
  complained (format reg op p) <-> ~ exists s, plan_text reg op p s.
Proof. intros U F reg op p. apply complained_iff. apply C57_plans. Qed.
Theorem C57_one_text : forall (U : Unicode) (F : Floats) reg op p s s', plan_text reg op p s -> plan_text reg op p s' -> s = s'.
Proof. intros U F reg op p s s' K K'. apply C57_plans in K as (_ & _ & <-), K' as (_ & _ & <-); auto. Qed.

(** The lines of a relation at level [d] are those it has at level 0, behind [d]
    indentations. *)
Lemma indentation_add op d k : indentation op (d + k) = indentation op d ++ indentation op k.
Proof. induction d as [|d IH]; cbn [Nat.add indentation app]; [reflexivity|]. now rewrite IH, app_assoc. Qed.
Section Depth.
  Context `{U : Unicode} `{F : Floats}.
  Context (reg : registry) (op : options) (e : exts).
  Definition deeper (d : nat) (ls : list (list N)) : list (list N) := map (fun l => indentation op d ++ l) ls.
  Lemma deeper_app d a b : deeper d (a ++ b) = deeper d a ++ deeper d b.
  Proof. apply map_app. Qed.
  Lemma full_deeper d k word args out ls : full_line op k word args out ls -> full_line op (d + k) word args out (deeper d ls).
  Proof. intros (a & o & H & H' & ->). exists a, o. split; [exact H|]. split; [exact H'|]. unfold deeper. cbn [map]. now rewrite indentation_add, <- app_assoc. Qed.
  Lemma bare_deeper d k word cols em ls : bare_line op k word cols em ls -> bare_line op (d + k) word cols em (deeper d ls).
  Proof. intros (s & H & ->). exists s. split; [exact H|]. unfold deeper. cbn [map]. now rewrite indentation_add, <- app_assoc. Qed.
  Lemma long_deeper d k word args out ls : long_line op k word args out ls -> long_line op (d + k) word args out (deeper d ls).
  Proof.
    intros (ss & o & H & H' & ->). exists ss, o. split; [exact H|]. split; [exact H'|]. unfold deeper. rewrite plus_n_Sm. cbn [map]. rewrite !indentation_add, <- app_assoc. f_equal.
    rewrite map_map. apply map_ext. intros x. now rewrite app_assoc.
  Qed.
  Lemma addenda_deeper d k l ls : addenda_lines reg op e k l ls -> addenda_lines reg op e (d + k) l (deeper d ls).
  Proof. intros (ss & H & ->). exists ss. split; [exact H|]. unfold deeper. rewrite map_map, plus_n_Sm. apply map_ext. intros x. now rewrite indentation_add, app_assoc. Qed.
  Lemma read_deeper d k r ls : read_line op e k r ls -> read_line op e (d + k) r (deeper d ls).
  Proof.
    intros H. destruct H; [eapply rl_mapped|eapply rl_named|eapply rl_short|eapply rl_long|eapply rl_extension]; eauto using full_deeper, bare_deeper, long_deeper.
  Qed.
  Lemma extension_deeper d k kind x ws name args ls : extension_line reg op e k kind x ws name args ls -> extension_line reg op e (d + k) kind x ws name args (deeper d ls).
  Proof. intros H. inversion H; subst. constructor; auto using full_deeper. Qed.
  Lemma head_deeper d k r ws w ls : head_shown reg op e k r ws w ls -> head_shown reg op e (d + k) r ws w (deeper d ls).
  Proof.
    intros H. destruct H; rewrite ?deeper_app; try (econstructor; eauto using full_deeper, bare_deeper, addenda_deeper, read_deeper, extension_deeper; fail).
  Qed.
  Scheme rel_shown_min := Minimality for rel_shown Sort Prop with inputs_shown_min := Minimality for inputs_shown Sort Prop.
  Lemma rel_deeper d k r w ls : rel_shown reg op e k r w ls -> rel_shown reg op e (d + k) r w (deeper d ls).
  Proof.
    revert k r w ls. apply (rel_shown_min _ _ reg op e (fun k r w ls => rel_shown reg op e (d + k) r w (deeper d ls)) (fun k l ws ls => inputs_shown reg op e (d + k) l ws (deeper d ls))).
    - intros k r ws w h ls _ IH H. rewrite deeper_app. rewrite <- plus_n_Sm in IH. econstructor; [exact IH|]. now apply head_deeper.
    - intros k. constructor.
    - intros k l ws ls _ IH. now constructor.
    - intros k r w h l ws ls _ IH _ IH'. rewrite deeper_app. now constructor.
  Qed.
End Depth.
Theorem C57_depth : forall (U : Unicode) (F : Floats) reg op e, loaded e -> forall r d ls w,
  rel_shown reg op e 0 r w ls ->
  written_as (rel_out reg op e 0 r) (join [10%N] ls) /\
  written_as (rel_out reg op e d r) (join [10%N] (map (fun l => concat (repeat (op_indent op) d) ++ l) ls)).
Proof.
  intros U F reg op e H r d ls w K. split; apply (C57_relations U F reg op e H); [eauto|].
  exists w, (deeper op d ls). split; [rewrite <- (Nat.add_0_r d) at 1; now apply rel_deeper|].
  f_equal. unfold deeper. apply map_ext. intros l. f_equal. clear. induction d as [|d IH]; cbn [repeat concat indentation]; [reflexivity|]. now rewrite IH.
Qed.

(** ** Examples *)
Section Examples.
  #[local] Existing Instance ascii_tables.
  #[local] Existing Instance toy_floats.

  (** By the rules of the layout, not by running the writer: a read with a schema of one
      column under a filter without a mapping. *)
  Definition lx_options : options := mk_options VRequired VRequired false true (L "  ") 5.
  Definition lx_table : read_rel :=
    mk_read None (Some (mk_named_struct [L "a b"] (Some ([TSimple SI64 NNullable 0], 0%N, NRequired)))) None (ReadNamed [L "db"; L "t"]) None false.
  Definition lx_read : prel := RRead lx_table.
  Definition lx_filter (x : option pexpr) : prel := RFilter None (Some lx_read) x None.
  Lemma lx_loaded : loaded no_exts. Proof. apply no_loaded. Qed.
  Example lx_filtered : rel_shown registry_new lx_options no_exts 0 (lx_filter (Some (ELit (mk_lit (Some (LBool true)) false 0)))) 1
    [L "Filter[true => $0]"; L "  Read[db.t => ""a b"":i64?]"].
  Proof.
    apply (rs_rel registry_new lx_options no_exts 0 (lx_filter _) [1] 1 [L "Filter[true => $0]"] [L "  Read[db.t => ""a b"":i64?]"]).
    - apply (in_some registry_new lx_options no_exts 1 lx_read 1 [L "  Read[db.t => ""a b"":i64?]"] [] [] []); [|constructor].
      apply (rs_rel registry_new lx_options no_exts 1 lx_read [] 1 [L "  Read[db.t => ""a b"":i64?]"] []); [constructor|].
      refine (hs_read registry_new lx_options no_exts 1 lx_table [L "  Read[db.t => ""a b"":i64?]"] [] _ _); [|exists []; split; constructor].
      eapply rl_named; [reflexivity|discriminate|]. exists (L "db.t"), (L "=> ""a b"":i64?"). split; [|split; [|reflexivity]].
      + exists [L "db.t"]. split; [|reflexivity]. constructor; [|constructor]. exists [L "db"; L "t"]. split; [|reflexivity]. apply means_names. reflexivity.
      + exists (L """a b"":i64?"). split; [|reflexivity]. apply (co_all _ _ _ [L """a b"":i64?"]); [right; discriminate|]. constructor; [|constructor].
        exists (L "a b"), (TSimple SI64 NNullable 0), (L """a b"""), (L "i64?"). split; [reflexivity|]. split; [reflexivity|]. split; [now apply name_text_iff|]. split; [|reflexivity].
        apply C56_types; [apply no_loaded|]. vm_compute. repeat split.
    - refine (hs_filter registry_new lx_options no_exts 0 None _ _ None 1 [L "Filter[true => $0]"] [] _ _); [|exists []; split; constructor].
      exists (L "true"), (L "=> $0"). split; [|split; [|reflexivity]].
      + exists [L "true"]. split; [|reflexivity]. constructor; [|constructor]. apply C56_expressions; [apply no_loaded|]. vm_compute. repeat split.
      + exists (L "$0"). split; [|reflexivity]. apply (co_all _ _ _ [L "$0"]); [right; discriminate|]. constructor; [|constructor].
        exists 0%Z. split; [split; [unfold i32; lia|exists 0%Z; reflexivity]|]. exists (L "0"). split; [constructor|reflexivity].
  Qed.
  (** A filter without a condition has no text and is reported. *)
  Example lx_unfiltered : ~ exists s, plan_text registry_new lx_options (mk_plan _ None [] [] [PRel (lx_filter None)]) s.
  Proof.
    intros (s & es & e & vls & els & bs & _ & _ & _ & _ & _ & H & _). inversion H as [|? b ? ? H1 _]; subst. inversion H1 as [? ? ? H2|]; subst.
    inversion H2 as [? ? ws ? h ls H3 H4]; subst. inversion H4 as [|? ? ? ? ? ? ? H5 H6| | | | | | | | | |]; subst. destruct H5 as (x & y & (ss & H5 & _) & _).
    inversion H5 as [|? ? ? ? H7]; subst. exact H7.
  Qed.
  Example lx_reported : complained (format registry_new lx_options (mk_plan _ None [] [] [PRel (lx_filter None)])).
  Proof. apply C57_complaints, lx_unfiltered. Qed.
  (** The whole plan of Props_Plan.v: every kind of section, six kinds of relation and an
      extension. *)
  Example lx_plan : exists s, plan_text (run_regs ex_history) opts_default px_plan s /\ length s = 883.
  Proof. eexists. split; [apply C57_plans; split; [vm_compute; reflexivity|split; [vm_compute; reflexivity|reflexivity]]|]. vm_compute. reflexivity. Qed.
End Examples.
