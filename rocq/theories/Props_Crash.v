(** Properties of crashes while a text is read. *)
From Coq Require Import String List NArith ZArith Bool Lia.
From Verif Require Import Base Names Literals Registry Structural StructuralFacts RelGrammar RelRead Plan SpecCrash CrashFacts.
Import ListNotations.
Local Open Scope string_scope.
Local Open Scope list_scope.

(** ** C28: parsing never crashes *)

(** Every crash is at one of the places of SpecCrash.v or inside a handler of the
    registry.  In particular the assertions on quotes, escapes, join types, set
    operations, interval units and the version section never fail. *)
Theorem C28_parse_crashes_partial : forall (F : Floats) reg s m,
  parse reg s = Panic m ->
  In m crash_sites \/ exists t name args, parse_with_type reg t name args = Panic m.
Proof.
  intros F reg s m H.
  enough (G : pan (any_site reg) (parse reg s)) by (rewrite H in G; exact G).
  unfold parse, parse_plan. apply pan_bind.
  - apply site_any. apply (prest_pan rline acst read_root read_node read_root_total read_node_total (ps_new _ _) 1 s). discriminate.
  - intros p Hp. unfold build_plan. apply pan_bind; [|intros; exact I]. apply pan_list.
    eapply Forall_impl; [|apply (read_tree_whole s p Hp)]. intros n. apply build_plan_rel_pan.
Qed.

Definition crash_text (ls : list string) : list N := concat (map (fun l => L l ++ [10%N]) ls).
(** A text for each of the places. *)
Definition crash_texts : list (string * list string) :=
  [ ("RuleIter dropped with pending pairs", ["=== Plan"; "Filter[f():i64 => $0]"; "  Read[t => a:i64]"]);
    ("field index is not an i32", ["=== Plan"; "Filter[$0 => $2147483648]"; "  Read[t => a:i64]"]);
    ("integer literal is not an i64", ["=== Plan"; "Project[9223372036854775808]"; "  Read[t => a:i64]"]);
    ("extension integer is not an i64", ["=== Plan"; "ExtensionLeaf:X[9223372036854775808]"]);
    ("anchor is not a u32", ["=== Extensions"; "URNs:"; "  @ 4294967296: a:b"]);
    ("type exists in parser but not implemented in code", ["=== Plan"; "Read[t => a:u8]"]);
    ("not implemented: map_type", ["=== Plan"; "Read[t => a:map<i64, i64>]"]);
    ("not implemented: struct_type", ["=== Plan"; "Read[t => a:struct<i64>]"]);
    ("not implemented: integer", ["=== Plan"; "Read[t => a:foo<1>]"]);
    ("not implemented: name", ["=== Plan"; "Read[t => a:foo<""x y"">]"]);
    ("assertion failed: pairs.as_str() == s", ["=== Extensions"; "URNs:"; "  @ 1: a b"]) ].

(** Without handlers the crashes are exactly these. *)
Theorem C28_crash_sites : forall (F : Floats) m,
  (exists s, parse registry_new s = Panic m) <-> In m crash_sites.
Proof.
  intros F m. split.
  - intros (s & H). destruct (C28_parse_crashes_partial F registry_new s m H) as [G|(t & name & args & G)]; [exact G|].
    unfold parse_with_type in G. cbn in G. destruct t; discriminate.
  - intros H. change crash_sites with (map fst crash_texts) in H. apply in_map_iff in H as ([m' t] & E & H). cbn [fst] in E. subst m'.
    exists (crash_text t). unfold crash_texts in H.
    repeat (destruct H as [H|H]; [injection H as <- <-; vm_compute; reflexivity|]). destruct H.
Qed.
(** So parsing does crash, even on texts of the grammar. *)
Theorem C28_parse_total_refuted : forall F : Floats, exists s m, parse registry_new s = Panic m.
Proof. intros F. exists (crash_text ["=== Plan"; "Filter[f():i64 => $0]"; "  Read[t => a:i64]"]). eexists. vm_compute. reflexivity. Qed.
