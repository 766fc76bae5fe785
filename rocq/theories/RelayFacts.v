(** Reading a text in pieces, and reading it in another layout. *)
From Coq Require Import String List NArith ZArith Bool Lia PeanoNat Sorting.Sorted.
From Verif Require Import Base BaseFacts Peg Out SimpleExt ExtLines Lines SpecLines LinesFacts SpecChunks Tree SpecTree TreeFacts
  Structural StructuralFacts LineView ReadFacts ParsedFacts.
Import ListNotations.
Local Open Scope nat_scope.

Lemma fresh_chunk_app plan l b after : starts_fresh after = true ->
  lines_chunk plan l (b ++ after) = (fst (lines_chunk plan l b), snd (lines_chunk plan l b) ++ after).
Proof.
  intros H. unfold lines_chunk. destruct plan; [|reflexivity]. induction b as [|x b IH].
  - cbn [app]. rewrite fresh_take by exact H. reflexivity.
  - cbn [app take_while]. destruct (is_cont (fst (indented l)) x); [|reflexivity]. rewrite IH.
    destruct (take_while (is_cont (fst (indented l))) b). reflexivity.
Qed.

Section Parser.
  Variables R A : Type.
  Variable root : list N -> pres (R + A).
  Variable node : list N -> pres (R + A).
  Notation parser := (Structural.parser R A).
  Notation in_plan := (Structural.in_plan R A).
  Notation step := (StructuralFacts.step R A root node).
  Notation prest := (StructuralFacts.prest R A root node).

  (** A text is read line by line, so it can be cut in front of any line that does
      not continue the one before. *)
  Lemma prest_split before : forall after p n s, text_lines s = before ++ after -> starts_fresh after = true ->
    exists rest, text_lines rest = after /\
      prest p n s = rbind (prest p n (unl before)) (fun p' => prest p' (n + N.of_nat (length before)) rest).
  Proof.
    remember (length before) as k eqn:Ek. revert before Ek.
    induction k as [k IH] using (well_founded_induction Wf_nat.lt_wf). intros before Ek after p n s E Hf.
    destruct before as [|l b].
    - exists s. split; [exact E|]. cbn [length] in Ek. subst k. cbn [unl map concat]. rewrite prest_nil. cbn [rbind]. f_equal. lia.
    - assert (Hfree : Forall nl_free (l :: b)).
      { pose proof (text_lines_free s) as H. rewrite E in H. apply Forall_app in H. apply H. }
      pose proof (text_lines_unl _ Hfree) as Eu.
      destruct (prest_lines R A root node p n s l (b ++ after) E) as (r1 & Hr1 & _ & E1).
      destruct (prest_lines R A root node p n (unl (l :: b)) l b Eu) as (r2 & Hr2 & _ & E2).
      rewrite (fresh_chunk_app (in_plan p) l b after Hf) in E1, Hr1. cbn [fst snd] in E1, Hr1.
      set (c := lines_chunk (in_plan p) l b) in *.
      pose proof (chunk_app (in_plan p) l b) as Ha. fold c in Ha.
      assert (Hlen : S (length (fst c)) + length (snd c) = k).
      { subst k. apply (f_equal (@length _)) in Ha. rewrite app_length in Ha. exact Ha. }
      (* the rest of the first part does not depend on the text chosen for it *)
      destruct (step p n (unl (l :: fst c))) as [p1| |] eqn:Es.
      + cbn [rbind] in E1, E2.
        destruct (IH (length (snd c)) ltac:(lia) (snd c) eq_refl after p1 (n + N.of_nat (S (length (fst c))))%N r1 Hr1 Hf) as (rest & Hrest & E3).
        destruct (IH (length (snd c)) ltac:(lia) (snd c) eq_refl [] p1 (n + N.of_nat (S (length (fst c))))%N r2) as (rest' & Hrest' & E4).
        { now rewrite app_nil_r. }
        { reflexivity. }
        apply first_line_nil in Hrest'. subst rest'.
        exists rest. split; [exact Hrest|]. rewrite E1, E2, E3, E4.
        destruct (prest p1 (n + N.of_nat (S (length (fst c)))) (unl (snd c))) as [p2| |]; cbn [rbind]; [|reflexivity..].
        rewrite prest_nil. cbn [rbind]. f_equal. lia.
      + cbn [rbind] in E1, E2. exists (unl after). split.
        { apply text_lines_unl. pose proof (text_lines_free s) as H. rewrite E in H. apply Forall_app in H. apply H. }
        now rewrite E1, E2.
      + cbn [rbind] in E1, E2. exists (unl after). split.
        { apply text_lines_unl. pose proof (text_lines_free s) as H. rewrite E in H. apply Forall_app in H. apply H. }
        now rewrite E1, E2.
  Qed.

  (** After a plan header that was accepted the parser is in the plan section. *)
  Lemma header_in_plan before p : Forall nl_free before -> prest (ps_new R A) 1 (unl before) = Ok p ->
    (exists h, In h before /\ trim_end h = L "=== Plan") -> in_plan p = true.
  Proof.
    intros Hfree H (h & Hin & Hh). apply parse_headers in H as (rs & E & Hs & Hl).
    assert (In (Some 3) (map Some rs)) as Hi.
    { rewrite <- E. apply in_map_iff. exists h. split.
      - unfold header_section. rewrite Hh. reflexivity.
      - unfold headers. rewrite text_lines_unl by exact Hfree. apply filter_In. split; [exact Hin|].
        destruct (trim_end_by_split is_ws h) as (w & Ew & _). fold (trim_end h) in Ew. rewrite Hh in Ew. now rewrite Ew. }
    apply in_map_iff in Hi as (x & [= ->] & Hx).
    assert (St : StronglySorted lt rs) by (apply Sorted_StronglySorted; [intros x y z; lia|]; now inversion Hs).
    assert (Hle : forall d, last rs d >= 3).
    { clear - Hx St. induction St as [|a l St IH Hf]; intros d; [contradiction|]. rewrite last_cons. destruct Hx as [->|Hx]; [|auto].
      destruct l as [|b l _] using rev_ind; [cbn; lia|]. rewrite last_last. rewrite Forall_forall in Hf.
      assert (3 < b) by (apply Hf, in_app_iff; right; now left). lia. }
    unfold Structural.in_plan. specialize (Hle (section_rank (ps_state R A (ps_new R A)))). rewrite <- Hl in Hle.
    destruct (ps_state R A p); cbn in Hle; reflexivity || lia.
  Qed.

  (** Two groups of lines that are read alike. *)
  Definition same_group (k k' : list (list N)) : Prop :=
    blank (group_text k) = false /\ blank (group_text k') = false /\
    fst (indented (group_text k)) = fst (indented (group_text k')) /\
    root (snd (indented (group_text k))) = root (snd (indented (group_text k'))) /\
    node (snd (indented (group_text k))) = node (snd (indented (group_text k'))).

  Lemma prest_group k after p n s : fresh_group k -> starts_fresh after = true -> blank (group_text k) = false -> in_plan p = true ->
    text_lines s = k ++ after ->
    exists rest, text_lines rest = after /\ prest p n s =
      rbind (lift_plan n (match fst (indented (group_text k)) with O => root (snd (indented (group_text k))) | _ => node (snd (indented (group_text k))) end))
        (fun x => rbind (lift_tree n (add_line (ps_tree R A p) (fst (indented (group_text k))) (to_lnode R A n x)))
           (fun t => prest (mk_parser R A SPlan (ps_version R A p) (ps_ext R A p) t) (n + N.of_nat (length k)) rest)).
  Proof.
    intros G Hf B Hp E. pose proof (group_header k G) as S.
    destruct (fresh_chunk R A root node k [] G (Forall_nil _)) as (l & cs & -> & Ec). cbn [concat] in Ec. rewrite app_nil_r in Ec.
    destruct (prest_lines R A root node p n s l (cs ++ after) E) as (rest & Hr & _ & Er).
    rewrite (fresh_chunk_app (in_plan p) l cs after Hf) in Hr, Er. rewrite Hp, Ec in Hr. rewrite Hp, Ec in Er. cbn [fst snd app] in Hr, Er.
    exists rest. split; [exact Hr|]. rewrite Er. clear Er. change group_text with unl in *. unfold StructuralFacts.step. rewrite B. unfold Structural.parse_line.
    destruct (indented (unl (l :: cs))) as [i t] eqn:Ei. cbn [fst snd].
    replace (match i with 0 => starts_with (L "===") t | S _ => false end) with false.
    2: { destruct i; [|reflexivity]. destruct (starts_with (L "===") t) eqn:E1; [|reflexivity]. destruct (header_indented _ _ Ei E1). congruence. }
    unfold Structural.in_plan in Hp. destruct (ps_state R A p); try discriminate.
    destruct (lift_plan n _) as [x| |]; cbn [rbind]; [|reflexivity..].
    destruct (lift_tree n _) as [y| |]; cbn [rbind]; reflexivity.
  Qed.

  Theorem same_group_same before k k' after s s' : fresh_group k -> fresh_group k' -> same_group k k' -> starts_fresh after = true ->
    (exists h, In h before /\ trim_end h = L "=== Plan") ->
    text_lines s = before ++ k ++ after -> text_lines s' = before ++ k' ++ after ->
    norm (unnumber_parser R A) (parse_text R A root node (ps_new R A) s) =
    norm (unnumber_parser R A) (parse_text R A root node (ps_new R A) s').
  Proof.
    intros G G' (B & B' & Hi & Hr & Hn) Hf Hh E E'.
    change (norm (unnumber_parser R A) (prest (ps_new R A) 1 s) = norm (unnumber_parser R A) (prest (ps_new R A) 1 s')).
    assert (Hfree : Forall nl_free before).
    { pose proof (text_lines_free s) as H. rewrite E in H. apply Forall_app in H. apply H. }
    assert (Fk : forall k, fresh_group k -> starts_fresh (k ++ after) = true).
    { intros [|l k0] [_ H]; [contradiction|]. cbn. now rewrite (proj1 H). }
    destruct (prest_split before (k ++ after) (ps_new R A) 1 s E (Fk _ G)) as (r & Er & ->).
    destruct (prest_split before (k' ++ after) (ps_new R A) 1 s' E' (Fk _ G')) as (r' & Er' & ->).
    destruct (prest (ps_new R A) 1 (unl before)) as [p| |] eqn:Ep; cbn [rbind]; [|reflexivity..].
    pose proof (header_in_plan before p Hfree Ep Hh) as Hp.
    set (n := (1 + N.of_nat (length before))%N). clearbody n.
    destruct (prest_group k after p n r G Hf B Hp Er) as (q & Hq & ->). destruct (prest_group k' after p n r' G' Hf B' Hp Er') as (q' & Hq' & ->).
    rewrite <- Hi, <- Hr, <- Hn. destruct (lift_plan n _) as [x| |]; cbn [rbind]; [|reflexivity..].
    destruct (lift_tree n _) as [t| |]; cbn [rbind]; [|reflexivity..].
    eapply prest_tidied; [apply le_n|reflexivity|]. rewrite Hq, Hq'. clear. induction after; constructor; auto.
  Qed.
End Parser.
