(** Facts about whole relation trees. *)
From Coq Require Import String List NArith ZArith Bool Lia.
From Verif Require Import Base BaseFacts Peg PegFacts Names SimpleExt Out Anchors Types Literals Exprs ExprEq ExtArgs Registry
  Rels RelGrammar RelRead Tree Structural ExtReadFacts SpecRels RelReadFacts SpecTree TreeFacts
  Lines SpecLines SpecChunks LinesFacts StructuralFacts LineView ReadFacts Plan Props_Structural.
Import ListNotations.
Local Open Scope list_scope.

(** Every relation line of a tree. *)
Fixpoint all_lines (P : rline -> Prop) (n : rnode rline acst) : Prop :=
  let '(RNode y _ _ cs) := n in P y /\ fold_right (fun c Q => all_lines P c /\ Q) True cs.

Lemma fold_and_Forall {A} (P : A -> Prop) l : fold_right (fun c Q => P c /\ Q) True l <-> Forall P l.
Proof.
  split; induction l as [|x l IH]; cbn; intros H; auto.
  - destruct H. constructor; auto.
  - inversion H; subst. auto.
Qed.

Section Trees.
  Context `{F : Floats}.
  Variable reg : registry.
  Variable e : exts.

  Lemma lift_plan_ok {A} n (x : pres A) a : lift_plan n x = Ok a -> x = Ok a.
  Proof. destruct x; cbn; congruence. Qed.

  (** Induction over the way relations are built. *)
  Lemma build_rel_ind (Good : rline -> Prop) (P : prel -> nat -> Prop) :
    (forall y line ads cs r w, Good y -> Forall (fun c => P (fst c) (snd c)) cs ->
       parse_relation reg e y line ads cs = Ok (r, w) -> P r w) ->
    forall n r w, all_lines Good n -> build_rel reg e n = Ok (r, w) -> P r w.
  Proof.
    intros Hs. induction n as [y line ads cs IH] using rnode_ind2. intros r w [Hg Hc] H. cbn [build_rel] in H.
    apply fold_and_Forall in Hc.
    apply rbind_ok in H as (l & Hl & H). apply rbind_ok in H as (ads' & _ & H).
    apply (Hs y line ads' l r w Hg); [|exact H]. clear - IH Hl Hc. apply rlist_ok_inv in Hl.
    induction Hl as [|c [r1 w1] cs l Hcr Hl IHl]; constructor.
    - inversion IH; inversion Hc; subst. cbn. auto.
    - inversion IH; inversion Hc; subst. auto.
  Qed.

  Lemma build_plan_rel_ind (Good : rline -> Prop) (P : prel -> Prop) :
    (forall n r w, all_lines Good n -> build_rel reg e n = Ok (r, w) -> P r) ->
    forall n p, all_lines Good n -> build_plan_rel reg e n = Ok p ->
      exists i, plan_inputs p = [i] /\ P i.
  Proof.
    intros Hs [y line ads cs] p Hg H.
    destruct (match y with YRoot _ => true | _ => false end) eqn:Ey.
    - destruct y; try discriminate. cbn [build_plan_rel] in H. destruct ads as [|[a l] ads]; [|discriminate].
      apply rbind_ok in H as (ns & Hn & H). destruct cs as [|c [|c' cs]]; try discriminate.
      apply rbind_ok in H as ([i w] & Hi & H). injection H as <-. exists i. split; auto.
      cbn in Hg. eapply Hs; [|eauto]. tauto.
    - assert (Hb : (let? p := build_rel reg e (RNode y line ads cs) in Ok (PRel (fst p))) = Ok p).
      { destruct y; try discriminate; exact H. }
      apply rbind_ok in Hb as ([i w] & Hi & Hb). injection Hb as <-. exists i. split; auto. eapply Hs; eauto.
  Qed.

  Lemma parse_relation_inputs y line ads cs r w : parse_relation reg e y line ads cs = Ok (r, w) ->
    inputs r = map fst cs /\ arity_ok r.
  Proof.
    assert (Hk : forall y (adv : option advext), match y with YRoot _ | YExtRead _ | YExt _ _ _ _ => False | _ => True end ->
              lower_rel e y cs adv = Ok (r, w) -> inputs r = map fst cs /\ arity_ok r).
    { clear. intros y adv Hy H. destruct y; cbn in Hy; try tauto; cbn [lower_rel] in H.
      - destruct cs; [|discriminate]. apply rbind_ok in H as (ns & _ & H).
        apply rbind_ok in H as ([[? ?] ?] & _ & H). injection H as <- <-. split; reflexivity.
      - destruct cs; [|discriminate]. apply rbind_ok in H as (? & _ & H). apply rbind_ok in H as (? & _ & H).
        apply rbind_ok in H as (? & _ & H). injection H as <- <-. split; reflexivity.
      - apply rbind_ok in H as (i & Hi & H). apply one_child_ok in Hi as [w' ->].
        apply rbind_ok in H as (? & _ & H). apply rbind_ok in H as (? & _ & H). injection H as <- <-. split; reflexivity.
      - apply rbind_ok in H as (i & Hi & H). apply one_child_ok in Hi as [w' ->].
        apply rbind_ok in H as (? & _ & H). injection H as <- <-. split; reflexivity.
      - apply rbind_ok in H as (i & Hi & H). apply one_child_ok in Hi as [w' ->].
        apply rbind_ok in H as (? & _ & H). destruct (build_grouping_fields _) as [gs xs].
        apply rbind_ok in H as (? & _ & H). injection H as <- <-. split; reflexivity.
      - apply rbind_ok in H as (i & Hi & H). apply one_child_ok in Hi as [w' ->].
        apply rbind_ok in H as (? & _ & H). apply rbind_ok in H as (? & _ & H). injection H as <- <-. split; reflexivity.
      - apply rbind_ok in H as (i & Hi & H). apply one_child_ok in Hi as [w' ->].
        apply rbind_ok in H as (? & _ & H). apply rbind_ok in H as (? & _ & H).
        apply rbind_ok in H as (? & _ & H). apply rbind_ok in H as (? & _ & H). injection H as <- <-. split; reflexivity.
      - apply rbind_ok in H as (i & Hi & H). apply two_children_ok in Hi as (w1 & w2 & ->).
        apply rbind_ok in H as (? & _ & H). apply rbind_ok in H as (? & _ & H).
        apply rbind_ok in H as (? & _ & H). apply rbind_ok in H as (? & _ & H). injection H as <- <-. split; reflexivity.
      - destruct cs as [|c [|d cs]]; try discriminate. destruct (forallb _ _); [|discriminate].
        apply rbind_ok in H as (? & _ & H). apply rbind_ok in H as (? & _ & H). injection H as <- <-.
        split; [reflexivity|]. cbn. lia.
      - apply rbind_ok in H as (i & Hi & H). apply two_children_ok in Hi as (w1 & w2 & ->).
        apply rbind_ok in H as (? & _ & H). injection H as <- <-. split; reflexivity. }
    intros H. unfold parse_relation in H. destruct y; try (
      apply rbind_ok in H as (adv & _ & H); apply lift_plan_ok in H; revert H; apply Hk; exact I).
    - apply rbind_ok in H as (adv & _ & H); apply lift_plan_ok in H. discriminate.
    - apply rbind_ok in H as (p & _ & H); apply lift_plan_ok in H. destruct cs; [|discriminate].
      apply rbind_ok in H as (? & _ & H). injection H as <- <-. split; reflexivity.
    - destruct ads; [|discriminate]. apply rbind_ok in H as (a & _ & H).
      destruct (child_count_ok k (length cs)) eqn:Ec; [|discriminate].
      apply rbind_ok in H as (d & _ & H). injection H as <- _. destruct k; cbn [child_count_ok] in Ec.
      + destruct cs; [|discriminate]. split; reflexivity.
      + destruct cs as [|c [|? ?]]; try discriminate. split; reflexivity.
      + split; [reflexivity|exact I].
  Qed.

  (** A property of every relation below, from one of every step. *)
  Lemma build_all (Good : rline -> Prop) (Q : prel -> Prop) :
    (forall y line ads cs r w, Good y -> parse_relation reg e y line ads cs = Ok (r, w) -> Q r) ->
    forall n r w, all_lines Good n -> build_rel reg e n = Ok (r, w) -> forall x, subrel x r -> Q x.
  Proof.
    intros Hs. apply (build_rel_ind Good (fun r _ => forall x, subrel x r -> Q x)).
    intros y line ads cs r w Hg Hc H x Hx. inversion Hx as [|r' i Hi Hx']; subst.
    - eapply Hs; eauto.
    - apply parse_relation_inputs in H as [E _]. rewrite E in Hi. apply in_map_iff in Hi as (c & <- & Hin).
      rewrite Forall_forall in Hc. eapply Hc; eauto.
  Qed.

  (** ** Widths *)

  Lemma make_emit_cases m n : make_emit m n = EmDirect /\ length m = n \/ make_emit m n = EmEmit m.
  Proof.
    unfold make_emit. destruct (Nat.eqb_spec (length m) n); cbn [andb]; [|auto]. destruct (identity_from 0 m); auto.
  Qed.
  Lemma parse_emit_cases refs n k w : parse_emit refs n = Ok (k, w) ->
    k = EmDirect /\ w = n \/ exists m, k = EmEmit m /\ w = length m.
  Proof.
    intros H. apply parse_emit_ok in H as (m & _ & -> & ->). destruct (make_emit_cases m n) as [[-> E]| ->]; eauto.
  Qed.

  Lemma columns_emit r k w m : rel_emit r = Some k -> k = EmEmit m -> w = length m -> columns r w.
  Proof. intros H -> ->. now apply col_emit. Qed.

  Lemma lower_rel_columns y cs adv r w : Forall (fun c => columns (fst c) (snd c)) cs ->
    lower_rel e y cs adv = Ok (r, w) -> columns r w /\ set_widths_ok r.
  Proof.
    intros Hc H.
    assert (He : forall refs, line_refs y = Some refs -> exists k, rel_emit r = Some k /\
              (k = EmDirect /\ w = offered y (map snd cs) \/ exists m, k = EmEmit m /\ w = length m)).
    { intros refs Hy. destruct (lower_rel_emit e y refs cs adv r w Hy H) as (k & Hp & Hk). exists k. split; auto.
      now apply parse_emit_cases in Hp. }
    destruct y; cbn [lower_rel] in H; try discriminate; cbn [line_refs offered] in He.
    - destruct cs; [|discriminate]. apply rbind_ok in H as (ns & _ & H).
      apply rbind_ok in H as ([[cols common] n] & Ho & H). injection H as <- <-. split; [|exact I].
      unfold lower_output in Ho. destruct o as [c|c refs].
      + apply rbind_ok in Ho as (cols' & _ & Ho). injection Ho as <- <- <-.
        rewrite <- (map_length fst cols').
        apply (col_read (mk_read direct_common (Some (build_named_struct cols')) None (ReadNamed ns) adv false) (build_named_struct cols')); reflexivity.
      + apply rbind_ok in Ho as (cols' & _ & Ho). destruct refs as [refs|].
        * apply rbind_ok in Ho as (m & _ & Ho). injection Ho as <- <- <-. now apply col_emit.
        * injection Ho as <- <- <-. rewrite <- (map_length fst cols').
          apply (col_read (mk_read direct_common (Some (build_named_struct cols')) None (ReadNamed ns) adv false) (build_named_struct cols')); reflexivity.
    - destruct cs; [|discriminate]. apply rbind_ok in H as (f & _ & H). apply rbind_ok in H as (rs & _ & H).
      apply rbind_ok in H as (cols' & _ & H). injection H as <- <-. split; [|exact I].
      rewrite <- (map_length fst cols').
      apply (col_read (mk_read direct_common (Some (build_named_struct cols')) f (ReadVirtual rs) adv false) (build_named_struct cols')); reflexivity.
    - apply rbind_ok in H as (i & Hi & H). apply one_child_ok in Hi as [w' ->].
      apply rbind_ok in H as (? & _ & H). apply rbind_ok in H as (? & _ & H). injection H as <- <-. split; [|exact I].
      destruct (He _ eq_refl) as (k & Hk & [[-> ->]|(m & -> & ->)]); [|now apply col_emit].
      inversion Hc; subst. cbn. rewrite Nat.add_0_r. apply col_filter; auto.
    - apply rbind_ok in H as (i & Hi & H). apply one_child_ok in Hi as [w' ->].
      apply rbind_ok in H as ([xs m] & _ & H). cbn [fst snd] in H. injection H as <- <-. split; [|exact I].
      destruct (make_emit_cases m (total [(i, w')] + length xs)) as [[E1 E2]|E1].
      + rewrite E1, E2. cbn. rewrite Nat.add_0_r. apply col_project; [reflexivity|]. now inversion Hc.
      + rewrite E1. now apply col_emit.
    - apply rbind_ok in H as (i & Hi & H). apply one_child_ok in Hi as [w' ->].
      apply rbind_ok in H as (? & _ & H). destruct (build_grouping_fields _) as [gs xs].
      apply rbind_ok in H as ([ms m] & _ & H). cbn [fst snd] in H. injection H as <- <-. split; [|exact I].
      destruct (make_emit_cases m (length xs + length ms)) as [[E1 E2]|E1].
      + rewrite E1, E2. now apply col_aggregate.
      + rewrite E1. now apply col_emit.
    - apply rbind_ok in H as (i & Hi & H). apply one_child_ok in Hi as [w' ->].
      apply rbind_ok in H as (? & _ & H). apply rbind_ok in H as (? & _ & H). injection H as <- <-. split; [|exact I].
      destruct (He _ eq_refl) as (k & Hk & [[-> ->]|(m & -> & ->)]); [|now apply col_emit].
      inversion Hc; subst. cbn. rewrite Nat.add_0_r. apply col_sort; auto.
    - apply rbind_ok in H as (i & Hi & H). apply one_child_ok in Hi as [w' ->].
      apply rbind_ok in H as (? & _ & H). apply rbind_ok in H as (? & _ & H).
      apply rbind_ok in H as (? & _ & H). apply rbind_ok in H as (? & _ & H). injection H as <- <-. split; [|exact I].
      destruct (He _ eq_refl) as (k & Hk & [[-> ->]|(m & -> & ->)]); [|now apply col_emit].
      inversion Hc; subst. cbn. rewrite Nat.add_0_r. apply col_fetch; auto.
    - apply rbind_ok in H as (i & Hi & H). apply two_children_ok in Hi as (w1 & w2 & ->).
      apply rbind_ok in H as (? & _ & H). apply rbind_ok in H as (? & _ & H).
      apply rbind_ok in H as (? & _ & H). apply rbind_ok in H as (? & _ & H). injection H as <- <-. split; [|exact I].
      destruct (He _ eq_refl) as (k & Hk & [[-> ->]|(m & -> & ->)]); [|now apply col_emit].
      inversion Hc as [|? ? ? Hc']; inversion Hc'; subst. cbn. rewrite Nat.add_0_r. apply col_join; auto.
    - destruct cs as [|c [|d cs]]; try discriminate. destruct (forallb _ _) eqn:Ef; [|discriminate].
      apply rbind_ok in H as (? & _ & H). apply rbind_ok in H as (? & _ & H). injection H as <- <-.
      split.
      + destruct (He _ eq_refl) as (k & Hk & [[-> ->]|(m & -> & ->)]); [|now apply col_emit].
        inversion Hc; subst. cbn. apply col_set; auto.
      + exists (snd c). rewrite forallb_forall in Ef. apply Forall_forall. intros q Hq.
        change (In q (map fst (c :: d :: cs))) in Hq. apply in_map_iff in Hq as (z & <- & Hz). rewrite Forall_forall in Hc. specialize (Hc z Hz).
        specialize (Ef z Hz). apply Nat.eqb_eq in Ef. now rewrite <- Ef.
    - apply rbind_ok in H as (i & Hi & H). apply two_children_ok in Hi as (w1 & w2 & ->).
      apply rbind_ok in H as (? & _ & H). injection H as <- <-. split; [|exact I].
      destruct (He _ eq_refl) as (k & Hk & [[-> ->]|(m & -> & ->)]); [|now apply col_emit].
      inversion Hc as [|? ? ? Hc']; inversion Hc'; subst. cbn. rewrite Nat.add_0_r. apply col_cross; auto.
  Qed.

  Lemma parse_relation_columns y line ads cs r w : Forall (fun c => columns (fst c) (snd c)) cs ->
    parse_relation reg e y line ads cs = Ok (r, w) -> columns r w /\ set_widths_ok r.
  Proof.
    intros Hc H. unfold parse_relation in H. destruct y; try (
      apply rbind_ok in H as (adv & _ & H); apply lift_plan_ok in H; revert H; now apply lower_rel_columns).
    - apply rbind_ok in H as (p & _ & H); apply lift_plan_ok in H. destruct cs; [|discriminate].
      apply rbind_ok in H as (cols' & _ & H). injection H as <- <-. split; [|exact I].
      rewrite <- (map_length fst cols').
      apply (col_read (mk_read direct_common (Some (build_named_struct cols')) None (ReadExtension (Some (fst p))) (snd p) false) (build_named_struct cols')); reflexivity.
    - destruct ads; [|discriminate]. apply rbind_ok in H as (a & _ & H).
      destruct (child_count_ok k (length cs)); [|discriminate].
      apply rbind_ok in H as (d & _ & H). injection H as <- _. destruct k; split; try exact I; constructor.
  Qed.

  Lemma build_rel_fine n r w : build_rel reg e n = Ok (r, w) ->
    columns r w /\ forall x, subrel x r -> arity_ok x /\ set_widths_ok x.
  Proof.
    apply (build_rel_ind (fun _ => True)
             (fun r w => columns r w /\ forall x, subrel x r -> arity_ok x /\ set_widths_ok x)).
    2: { clear. induction n as [y line ads cs IH] using rnode_ind2. cbn. split; auto. now apply fold_and_Forall. }
    clear. intros y line ads cs r w _ Hc H.
    destruct (parse_relation_inputs _ _ _ _ _ _ H) as [Hi Ha].
    apply parse_relation_columns in H as [H1 H2].
    2: { eapply Forall_impl; [|exact Hc]. cbn. tauto. }
    split; auto. intros x Hx. inversion Hx as [|r' i Hin Hx']; subst; auto.
    rewrite Hi in Hin. apply in_map_iff in Hin as (c & <- & Hin).
    rewrite Forall_forall in Hc. apply (Hc c Hin). auto.
  Qed.
End Trees.

Section Texts.
  Context `{F : Floats}.

  (** The lines of an accepted text were read by the grammar. *)
  Definition readable (y : rline) : Prop := exists s, read_root s = Ok (inl y) \/ read_node s = Ok (inl y).

  Lemma flatten_lines (P : rline -> Prop) n : forall d,
    Forall (fun x => match snd x with LRel y _ => P y | LAdd _ _ => True end) (flatten d n) -> all_lines P n.
  Proof.
    induction n as [y line ads cs IH] using rnode_ind2. intros d H. cbn [flatten all_lines] in *.
    inversion H as [|? ? H1 H2]; subst. split; auto. apply fold_and_Forall.
    apply Forall_app in H2 as [_ H2]. clear H H1. revert IH H2. induction cs as [|c cs IHc]; intros IH H2; constructor.
    - inversion IH; subst. cbn in H2. apply Forall_app in H2 as [H2 _]. eauto.
    - inversion IH; subst. cbn in H2. apply Forall_app in H2 as [_ H2]. auto.
  Qed.

  Lemma accepted_lines s p : parse_text rline acst read_root read_node (ps_new _ _) s = Ok p ->
    Forall (all_lines readable) (finish (ps_tree _ _ p)).
  Proof.
    intros H. apply C16_no_line_lost in H.
    destruct (ps_state rline acst p);
      try (destruct H as [-> _]; constructor).
    destruct H as (b & h & ks & _ & _ & _ & H2). unfold flatten_all in H2.
    assert (Hf : Forall (fun x : nat * lnode rline acst => match snd x with LRel y _ => readable y | LAdd _ _ => True end)
                   (concat (map (flatten 0) (finish (ps_tree _ _ p))))).
    { clear - H2. induction H2 as [|k x ks1 xs Hr H2 IH]; constructor; auto.
      destruct Hr as (_ & y & Hy & ->). destruct y as [y|a]; auto. unfold readable.
      exists (snd (indented (group_text (snd k)))). destruct (fst x =? 0)%nat; auto. }
    clear H2. induction (finish (ps_tree _ _ p)) as [|n l IH]; constructor.
    - cbn in Hf. apply Forall_app in Hf as [Hf _]. now apply flatten_lines in Hf.
    - cbn in Hf. apply Forall_app in Hf as [_ Hf]. auto.
  Qed.

  Lemma parse_all (Q : prel -> Prop) reg s p :
    (forall e n r w, all_lines readable n -> build_rel reg e n = Ok (r, w) -> Q r) ->
    parse reg s = Ok p -> Forall (fun q => exists i, plan_inputs q = [i] /\ Q i) (pl_rels _ p).
  Proof.
    intros Hs H. unfold parse, parse_plan in H. apply rbind_ok in H as (ps & Hps & H).
    apply accepted_lines in Hps. unfold build_plan in H. apply rbind_ok in H as (rels & Hr & H).
    injection H as <-. cbn [pl_rels]. apply rlist_ok_inv in Hr.
    induction Hr as [|n q ns rels Hq Hr IH]; constructor.
    - inversion Hps; subst. eapply (build_plan_rel_ind reg _ readable); eauto.
    - inversion Hps; subst. auto.
  Qed.
End Texts.
