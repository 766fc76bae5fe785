(** Properties of the line an error is reported for: it is the first without a meaning. *)
From Coq Require Import String List NArith ZArith Bool Lia.
From Verif Require Import Base Peg Lines SpecLines Names SimpleExt SimpleExtFacts Types Literals Exprs Registry Rels RelGrammar RelRead Tree SpecTree Structural Plan CrashFacts Props_Crash
  SpecMeaning SpecText Props_Text SpecCrashes Props_Crashes SpecBlame BlameFacts BlameText.
Import ListNotations.
Local Open Scope string_scope.
Local Open Scope list_scope.

(** ** C65: an error is exactly what SpecBlame.v says about the line it blames *)

Theorem C65_texts : forall (F : Floats) reg s n c,
  (exists d, parse reg s = Err d /\ error_line d = n /\ complaint_of d = c) <->
  (forall m, ~ text_crashes reg s m) /\ (opening_blamed s n c \/ plan_blamed s n c \/ relation_blamed reg s n c).
Proof.
  intros F reg s n c. split.
  - intros (d & Hd & <- & <-). split; [intros m H; apply C64_texts in H; congruence|]. now apply text_blame.
  - intros [Hc H]. assert (Hp : forall m, parse reg s <> Panic m) by (intros m E; apply C64_texts in E; now apply Hc in E).
    destruct H as [H|[H|H]]; [now apply opening_wrong|now apply plan_wrong|now apply relation_wrong].
Qed.

(** So the meaning of a text, its crash and the line blamed for it exclude each other,
    and there is always one of them. *)
Theorem C65_one_outcome : forall (F : Floats) reg s,
  let wrong n c := (forall m, ~ text_crashes reg s m) /\ (opening_blamed s n c \/ plan_blamed s n c \/ relation_blamed reg s n c) in
  ((exists p, text_means reg s p) \/ (exists m, text_crashes reg s m) \/ exists n c, wrong n c)
  /\ (forall n c n' c', wrong n c -> wrong n' c' -> n = n' /\ c = c')
  /\ (forall p n c, text_means reg s p -> ~ wrong n c).
Proof.
  intros F reg s wrong. split; [|split].
  - destruct (parse reg s) as [p|d|m] eqn:E.
    + left. exists p. now apply C55_texts.
    + right. right. exists (error_line d), (complaint_of d). apply C65_texts. eauto.
    + right. left. exists m. now apply C64_texts.
  - intros n c n' c' H H'. apply C65_texts in H as (d & Hd & <- & <-). apply C65_texts in H' as (d' & Hd' & <- & <-).
    assert (d' = d) by congruence. now subst.
  - intros p n c H H'. apply C55_texts in H. apply C65_texts in H' as (d & Hd & _). congruence.
Qed.

(** A group of lines of the plan that does not continue it is refused whatever the
    registry knows and whatever stands in front of it in the plan means: no relation is
    built before all lines are read. *)
Theorem C65_lines_before_relations : forall (F : Floats) reg s n c,
  plan_blamed s n c -> exists d, parse reg s = Err d /\ error_line d = n /\ complaint_of d = c.
Proof. intros F reg s n c H. now apply plan_wrong. Qed.

(** ** Examples *)

Definition blame_text (ls : list string) : list N := crash_text ls.
Lemma read_blame `{Floats} s n c : (exists d, parse registry_new s = Err d /\ error_line d = n /\ complaint_of d = c) ->
  (exists p, parse_text rline acst read_root read_node (ps_new _ _) s = Ok p) -> relation_blamed registry_new s n c.
Proof.
  intros E (p & P). apply C65_texts in E as [Hc [G|[G|G]]]; [| |exact G]; exfalso.
  - apply opening_stuck in G as [(d & G & _)|(m & G)]; congruence.
  - apply plan_stuck in G as (d' & G & _). congruence.
Qed.
(** Lines are read before relations, so the last line is blamed here.  *)
Definition three_wrong : list N := blame_text ["=== Plan"; "Project[f():i64]"; "  Project[g():i64]"; "    Read[t => a:i64]"; "Read[t"].
Example C65_lines_first : forall F : Floats, plan_blamed three_wrong 5 Unreadable.
Proof.
  intros F. assert (E : exists d, parse registry_new three_wrong = Err d /\ error_line d = 5%N /\ complaint_of d = Unreadable)
    by (eexists; split; [vm_compute; reflexivity|split; reflexivity]).
  apply C65_texts in E as [_ [H|[H|H]]]; auto; exfalso.
  - destruct H as (b & l & rest & v & e & _ & _ & _ & _ & _ & H). unfold opening_complaint, header_complaint in H. cbv zeta in H. intuition discriminate.
  - apply relation_read in H as (p' & H). vm_compute in H. discriminate.
Qed.
(** Inputs are read before what is made of them: without the last line its input is
    blamed. *)
Definition two_wrong : list N := blame_text ["=== Plan"; "Project[f():i64]"; "  Project[g():i64]"; "    Read[t => a:i64]"].
Example C65_inputs_first : forall F : Floats, relation_blamed registry_new two_wrong 3 Unreadable.
Proof.
  intros F. apply read_blame; eexists; [split; [vm_compute; reflexivity|split; reflexivity]|vm_compute; reflexivity].
Qed.
(** Addenda come before their relation, and are blamed by their own lines. *)
Definition addendum_wrong : list N := blame_text ["=== Plan"; "Project[f():i64]"; "  + Enh:Hint[]"; "  Read[t => a:i64]"].
Example C65_addenda : forall F : Floats, relation_blamed registry_new addendum_wrong 3 (Unregistered (L "Hint")).
Proof.
  intros F. apply read_blame; eexists; [split; [vm_compute; reflexivity|split; reflexivity]|vm_compute; reflexivity].
Qed.
(** A line of the declarations. *)
Definition declaration_wrong : list N := blame_text [""; "=== Extensions"; "URNs:"; "  @ 1: u"; "Functions:"; "  # 1 @ x: f"; "=== Plan"; "Read["].
Example C65_declarations : forall F : Floats, opening_blamed declaration_wrong 6 Undeclared.
Proof.
  intros F. assert (E : exists d, parse registry_new declaration_wrong = Err d /\ error_line d = 6%N /\ complaint_of d = Undeclared)
    by (eexists; split; [vm_compute; reflexivity|split; reflexivity]).
  apply C65_texts in E as [_ [H|[H|H]]]; auto; exfalso.
  - destruct H as (b & h & ks & k & ks' & v & e & trees & _ & _ & _ & _ & _ & _ & _ & H). unfold plan_complaint, header_complaint in H. cbv zeta in H. intuition discriminate.
  - apply relation_read in H as (p' & H). vm_compute in H. discriminate.
Qed.
(** In front of all sections the level of the line is reported in place of its number. *)
Definition nothing_opened : list N := blame_text [""; ""; "      hello"].
Example C65_sectionless : forall F : Floats, opening_blamed nothing_opened 3 Sectionless
  /\ exists d, parse registry_new (blame_text [""; ""; ""; ""; "  hello"]) = Err d /\ error_line d = 1%N.
Proof.
  intros F. split; [|eexists; split; [vm_compute; reflexivity|reflexivity]].
  assert (E : exists d, parse registry_new nothing_opened = Err d /\ error_line d = 3%N /\ complaint_of d = Sectionless)
    by (eexists; split; [vm_compute; reflexivity|split; reflexivity]).
  apply C65_texts in E as [_ [H|[H|H]]]; auto; exfalso.
  - destruct H as (b & h & ks & k & ks' & _ & _ & _ & El & _ & Hh & _).
    assert (Hi : In h (text_lines nothing_opened)) by (rewrite El; apply in_or_app; right; left; reflexivity).
    apply TextFacts.indented_iff in Hh. vm_compute in Hi. repeat (destruct Hi as [<-|Hi]; [vm_compute in Hh; discriminate|]). destruct Hi.
  - apply relation_read in H as (p' & H). vm_compute in H. discriminate.
Qed.
