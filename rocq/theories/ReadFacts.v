(** What an accepted text looks like. *)
From Coq Require Import String List NArith ZArith Bool Lia PeanoNat ZifyBool ZifyN.
From Verif Require Import Base BaseFacts SimpleExt Out ExtLines Lines LinesFacts SpecLines Tree SpecTree TreeFacts Structural StructuralFacts LineView.
Import ListNotations.

Lemma take_while_spec {X} (f : X -> bool) l :
  Forall (fun x => f x = true) (fst (take_while f l)) /\
  match snd (take_while f l) with [] => True | x :: _ => f x = false end.
Proof.
  induction l as [|x l [I1 I2]]; cbn; auto. destruct (f x) eqn:E; cbn; auto.
  destruct (take_while f l). cbn in *. auto.
Qed.
Lemma take_while_exact {X} (f : X -> bool) a b :
  Forall (fun x => f x = true) a -> match b with [] => True | x :: _ => f x = false end -> take_while f (a ++ b) = (a, b).
Proof.
  intros Ha Hb. induction Ha as [|x a Hx Ha IH]; cbn.
  - now apply take_while_none.
  - now rewrite Hx, IH.
Qed.

Lemma chunk_group plan l ls : line_group (l :: fst (lines_chunk plan l ls)).
Proof.
  unfold lines_chunk. destruct plan; [|constructor]. cbn.
  eapply Forall_impl; [|apply take_while_spec]. unfold is_cont. cbn. intros c H. bool_hyps.
  split; auto. apply Nat.eqb_eq in H. lia.
Qed.
Lemma chunk_app plan l ls : (l :: fst (lines_chunk plan l ls)) ++ snd (lines_chunk plan l ls) = l :: ls.
Proof. unfold lines_chunk. destruct plan; auto. cbn. now rewrite take_while_app. Qed.

Section Parser.
  Variables R A : Type.
  Variable parse_root : list N -> pres (R + A).
  Variable parse_node : list N -> pres (R + A).
  Notation parser := (parser R A).
  Notation parse_line := (parse_line R A parse_root parse_node).
  Notation in_plan := (in_plan R A).
  Notation step := (step R A parse_root parse_node).
  Notation prest := (prest R A parse_root parse_node).
  Notation ps_tree := (ps_tree R A).
  Notation ps_state := (ps_state R A).

  (** A numbered group read as a node of the tree. *)
  Definition reads_as (k : N * list (list N)) (x : nat * lnode R A) : Prop :=
    fst x = fst (indented (group_text (snd k))) /\
    exists y, (if (fst x =? 0)%nat then parse_root else parse_node) (snd (indented (group_text (snd k)))) = Ok y /\
      snd x = match y with inl r => LRel r (fst k) | inr a => LAdd a (fst k) end.

  Lemma lift_tree_ok {X} n (x : res tree_error X) a : lift_tree n x = Ok a -> x = Ok a.
  Proof. destruct x as [|[]|]; cbn; congruence. Qed.

  Lemma step_plan p n k p' : in_plan p = true -> step p n (group_text k) = Ok p' ->
    in_plan p' = true /\
    if written (n, k) then exists x, reads_as (n, k) x /\ add_line (ps_tree p) (fst x) (snd x) = Ok (ps_tree p')
    else p' = p.
  Proof.
    intros Hp. unfold StructuralFacts.step, written. cbn [snd]. destruct (blank (group_text k)); cbn [negb].
    - intros [= <-]. auto.
    - intros H. destruct (parse_line_state _ _ _ _ _ _ _ _ H) as [(_ & _ & S3)|(S1 & S2 & _)].
      { unfold Structural.in_plan in Hp. destruct (ps_state p); try discriminate. destruct (ps_state p'); cbn in S3; lia. }
      split. { unfold Structural.in_plan in *. now rewrite S2. }
      unfold Structural.parse_line in H. destruct (indented (group_text k)) as [i s] eqn:Ei.
      assert (Eh : match i with 0 => starts_with (L "===") s | _ => false end = false).
      { destruct i; auto. destruct (starts_with (L "===") s) eqn:E; auto. destruct (header_indented _ _ Ei E). congruence. }
      rewrite Eh in H. unfold Structural.in_plan in Hp. destruct (Structural.ps_state R A p); try discriminate.
      apply rbind_ok in H as (y & Hy & H). apply rbind_ok in H as (t & Ht & [= <-]).
      exists (i, to_lnode R A n y). unfold reads_as. cbn [fst snd]. rewrite Ei. cbn [fst snd].
      split; [split; auto|].
      + exists y. split.
        * destruct i; cbn [Nat.eqb]; destruct (_ s); cbn in Hy; congruence.
        * now destruct y.
      + now apply lift_tree_ok in Ht.
  Qed.

  Lemma step_plan_ok p n k x t : in_plan p = true -> written (n, k) = true -> reads_as (n, k) x ->
    add_line (ps_tree p) (fst x) (snd x) = Ok t ->
    starts_with (L "===") (group_text k) = false ->
    step p n (group_text k) = Ok (mk_parser _ _ SPlan (ps_version _ _ p) (ps_ext _ _ p) t).
  Proof.
    intros Hp Hw (Hi & y & Hy & Hx) Ha Hh. unfold StructuralFacts.step. unfold written in Hw. cbn [snd] in *.
    destruct (blank (group_text k)); [discriminate|]. unfold Structural.parse_line.
    destruct (indented (group_text k)) as [i s] eqn:Ei.
    assert (Eh : match i with 0 => starts_with (L "===") s | _ => false end = false).
    { destruct i; auto. destruct (starts_with (L "===") s) eqn:E; auto. destruct (header_indented _ _ Ei E). congruence. }
    rewrite Eh. unfold Structural.in_plan in Hp. destruct (Structural.ps_state R A p); try discriminate.
    cbn [fst snd] in *. rewrite Hi in *.
    assert (E1 : lift_plan n (match i with 0 => parse_root s | _ => parse_node s end) = Ok y).
    { destruct i; cbn [Nat.eqb] in Hy; rewrite Hy; reflexivity. }
    rewrite E1. cbn [rbind].
    assert (E2 : snd x = to_lnode R A n y) by (rewrite Hx; now destruct y).
    rewrite <- E2, Ha. reflexivity.
  Qed.

  Lemma group_text_unl k : group_text k = unl k.
  Proof. reflexivity. Qed.

  Lemma prest_plan ls : forall p n s p', text_lines s = ls -> in_plan p = true -> prest p n s = Ok p' ->
    in_plan p' = true /\ exists ks nodes, concat ks = ls /\ Forall line_group ks /\
      Forall2 reads_as (filter written (number_groups n ks)) nodes /\
      add_lines (ps_tree p) nodes = Ok (ps_tree p').
  Proof.
    induction ls as [ls IH] using (well_founded_induction (Wf_nat.well_founded_ltof _ (@length (list N)))).
    unfold Wf_nat.ltof in IH. intros p n s p' E Hp H. destruct ls as [|l ls].
    - apply first_line_nil in E. subst. rewrite prest_nil in H. injection H as <-. split; auto.
      exists [], []. repeat constructor.
    - destruct (prest_lines R A parse_root parse_node p n s l ls E) as (rest & Hr & _ & Er). rewrite Er in H. clear Er.
      rewrite Hp in *. apply rbind_ok in H as (p1 & H1 & H2).
      pose proof (chunk_app true l ls) as Ha. pose proof (chunk_group true l ls) as Hg.
      set (k := l :: fst (lines_chunk true l ls)) in *.
      destruct (step_plan p n k p1 Hp H1) as [Hp1 Hs].
      destruct (IH (snd (lines_chunk true l ls))) with (p := p1) (n := (n + N.of_nat (length k))%N) (s := rest) (p' := p')
        as (Hp' & ks & nodes & K1 & K2 & K3 & K4); auto.
      { rewrite <- Ha. unfold k. cbn. rewrite app_length. lia. }
      split; auto. exists (k :: ks).
      destruct (written (n, k)) eqn:Ew.
      + destruct Hs as (x & Hx & Hx2). exists (x :: nodes). cbn [concat number_groups filter add_lines]. rewrite K1, Ew.
        repeat split; auto. destruct x as [d y]. cbn [fst snd] in Hx2. now rewrite Hx2.
      + exists nodes. cbn [concat number_groups filter]. rewrite K1, Ew. subst p1. auto.
  Qed.

  (** Before the plan section the tree is not touched. *)
  Lemma step_before p n raw p1 : in_plan p = false -> step p n raw = Ok p1 ->
    ps_tree p1 = ps_tree p /\ (in_plan p1 = true -> trim_end raw = L "=== Plan").
  Proof.
    intros Hp. unfold StructuralFacts.step. destruct (blank raw); [intros [= <-]; split; congruence|].
    intros H. unfold Structural.parse_line in H. destruct (indented raw) as [i s] eqn:Ei.
    destruct (match i with 0 => starts_with (L "===") s | _ => false end) eqn:Eh.
    - destruct i; [|discriminate]. destruct (header_indented _ _ Ei Eh) as [Hr ->]. 
      apply rbind_ok in H as ([st v] & Hs & H). cbn [fst snd] in H. destruct (_ <=? _); [discriminate|]. injection H as <-.
      cbn. split; auto. unfold Structural.in_plan. cbn. unfold parse_section_header in Hs.
      destruct (streqb (trim_end raw) hdr_extensions); [injection Hs as <- <-; discriminate|].
      destruct (streqb (trim_end raw) hdr_plan) eqn:Ep; [intros _; now apply streqb_eq in Ep|].
      destruct (strip_prefix _ _); [|discriminate]. destruct (match l with [] => _ | _ => _ end); [|discriminate].
      apply rmap_ok in Hs as (? & _ & [= -> ->]). discriminate.
    - unfold Structural.in_plan in Hp |- *. destruct (Structural.ps_state R A p) eqn:Es; try discriminate.
      + destruct i; [|discriminate]. destruct (trim s); [|discriminate]. injection H as <-. rewrite Es. split; [auto|discriminate].
      + destruct i as [|[|i]]; [destruct (trim s); [|discriminate]| |discriminate].
        * injection H as <-. rewrite Es. split; [auto|discriminate].
        * apply rbind_ok in H as (? & _ & [= <-]). cbn. split; [auto|discriminate].
      + apply rbind_ok in H as (? & _ & [= <-]). cbn. split; [auto|discriminate].
  Qed.

  Lemma prest_before ls : forall p n s p', text_lines s = ls -> in_plan p = false -> prest p n s = Ok p' ->
    (in_plan p' = false /\ ps_tree p' = ps_tree p) \/
    exists before hdr after rest p1, ls = before ++ hdr :: after /\ trim_end hdr = L "=== Plan" /\
      text_lines rest = after /\ in_plan p1 = true /\ ps_tree p1 = ps_tree p /\
      prest p1 (n + N.of_nat (S (length before))) rest = Ok p'.
  Proof.
    induction ls as [|l ls IH]; intros p n s p' E Hp H.
    - apply first_line_nil in E. subst. rewrite prest_nil in H. injection H as <-. auto.
    - destruct (prest_lines R A parse_root parse_node p n s l ls E) as (rest & Hr & _ & Er). rewrite Er in H. clear Er.
      rewrite Hp in *. cbn [lines_chunk fst snd length] in *. apply rbind_ok in H as (p1 & H1 & H2).
      destruct (step_before _ _ _ _ Hp H1) as [Ht Hl].
      destruct (in_plan p1) eqn:Hp1.
      + right. exists [], l, ls, rest, p1. specialize (Hl eq_refl).
        cbn [unl map concat] in Hl. unfold trim_end in Hl. rewrite app_nil_r, trim_end_by_drop in Hl by auto. auto 8.
      + destruct (IH p1 (n + N.of_nat 1)%N rest p' Hr Hp1 H2) as [[I1 I2]|(b & h & a & r & p2 & I1 & I2 & I3 & I4 & I5 & I6)].
        * left. split; congruence.
        * right. exists (l :: b), h, a, r, p2. split; [rewrite I1; reflexivity|]. split; auto. split; auto. split; auto. split; [congruence|].
          replace (n + N.of_nat (S (length (l :: b))))%N with (n + N.of_nat 1 + N.of_nat (S (length b)))%N by (cbn [length]; lia).
          exact I6.
  Qed.

  Lemma accepted_shape s p' : parse_text R A parse_root parse_node (ps_new R A) s = Ok p' ->
    (in_plan p' = false /\ finish (ps_tree p') = []) \/
    (in_plan p' = true /\ exists before hdr ks, text_lines s = before ++ hdr :: concat ks /\ trim_end hdr = L "=== Plan" /\
      Forall line_group ks /\
      Forall2 reads_as (filter written (number_groups (2 + N.of_nat (length before)) ks)) (flatten_all (finish (ps_tree p')))).
  Proof.
    intros H. change (prest (ps_new R A) 1 s = Ok p') in H.
    destruct (prest_before _ (ps_new R A) 1%N s p' eq_refl eq_refl H) as [[H1 H2]|(b & h & a & r & p1 & I1 & I2 & I3 & I4 & I5 & I6)].
    - left. split; auto. now rewrite H2.
    - right. destruct (prest_plan _ _ _ _ _ I3 I4 I6) as (Hp & ks & nodes & K1 & K2 & K3 & K4). split; auto.
      exists b, h, ks. rewrite K1. repeat split; auto.
      rewrite I5 in K4. cbn in K4. apply add_lines_flatten in K4. cbn in K4. rewrite K4.
      replace (2 + N.of_nat (length b))%N with (1 + N.of_nat (S (length b)))%N by lia. exact K3.
  Qed.

  (** The converse: lines in groups, none of whose first lines is a continuation. *)
  Definition fresh_group (k : list (list N)) : Prop :=
    line_group k /\ match k with [] => False | l :: _ => continuation l = false /\ starts_with (L "===") l = false end.

  Lemma fresh_chunk k ks : fresh_group k -> Forall fresh_group ks ->
    exists l cs, k = l :: cs /\ lines_chunk true l (cs ++ concat ks) = (cs, concat ks).
  Proof.
    intros [Hg Hf] Hks. destruct k as [|l cs]; [contradiction|]. exists l, cs. split; auto. unfold lines_chunk.
    apply take_while_exact.
    - eapply Forall_impl; [|exact Hg]. cbv beta. unfold is_cont, continuation. intros c [-> ->]. rewrite andb_true_r.
      apply Nat.eqb_eq. lia.
    - destruct Hks as [|k' ks [_ H] _]; cbn; auto. destruct k' as [|x k']; [contradiction|]. cbn.
      now apply continuation_cont.
  Qed.

  Lemma group_header k : fresh_group k -> starts_with (L "===") (group_text k) = false.
  Proof.
    intros [_ H]. destruct k as [|l cs]; [contradiction|]. destruct H as [_ H].
    cbn [group_text map concat]. rewrite <- app_assoc.
    assert (G : forall p l r, forallb (fun c => negb (is_ws c)) p = true -> starts_with p (l ++ 10%N :: r) = true -> starts_with p l = true).
    { unfold starts_with. induction p as [|x p IH]; intros l0 r; auto. cbn [forallb]. intros Hp. bool_hyps.
      destruct l0 as [|y l0]; cbn [app strip_prefix].
      - destruct (N.eqb_spec x 10); [|discriminate]. subst. discriminate.
      - destruct (x =? y)%N; [eauto|discriminate]. }
    destruct (starts_with (L "===") (l ++ _)) eqn:E; auto. apply G in E; [congruence|reflexivity].
  Qed.

  Lemma prest_groups ks : forall p n s nodes t, text_lines s = concat ks -> in_plan p = true ->
    Forall fresh_group ks -> Forall2 reads_as (filter written (number_groups n ks)) nodes ->
    add_lines (ps_tree p) nodes = Ok t ->
    exists p', prest p n s = Ok p' /\ in_plan p' = true /\ ps_tree p' = t /\
      ps_version _ _ p' = ps_version _ _ p /\ ps_ext _ _ p' = ps_ext _ _ p.
  Proof.
    induction ks as [|k ks IH]; intros p n s nodes t E Hp Hk Hr Ha.
    - apply first_line_nil in E. subst. exists p. rewrite prest_nil. cbn in Hr. inversion Hr; subst. cbn in Ha.
      injection Ha as <-. auto.
    - inversion_clear Hk as [|? ? Hk1 Hk2].
      destruct (fresh_chunk k ks Hk1 Hk2) as (l & cs & -> & Hc).
      cbn [concat app] in E. destruct (prest_lines R A parse_root parse_node p n s _ _ E) as (rest & Hrest & _ & ->).
      rewrite Hp, Hc in *. cbn [fst snd] in *. rewrite <- group_text_unl.
      cbn [number_groups filter] in Hr. destruct (written (n, l :: cs)) eqn:Ew.
      + inversion Hr as [|? x ? nodes' Hx Hr']; subst. destruct x as [d y]. cbn [add_lines] in Ha.
        destruct (add_line (ps_tree p) d y) as [t1| |] eqn:Ea; try discriminate.
        rewrite (step_plan_ok p n (l :: cs) (d, y) t1 Hp Ew Hx Ea (group_header _ Hk1)). cbn [rbind].
        apply (IH (mk_parser _ _ SPlan (ps_version _ _ p) (ps_ext _ _ p) t1) _ rest nodes' t Hrest eq_refl Hk2 Hr' Ha).
      + unfold StructuralFacts.step. unfold written in Ew. cbn [snd] in Ew. apply negb_false_iff in Ew. rewrite Ew. cbn [rbind].
        eapply IH; eauto.
  Qed.

  (** ** Errors *)
  Lemma prest_err p n s e : prest p n s = Err e ->
    exists before raw rest p', s = before ++ raw ++ rest /\ blank raw = false /\
      parse_line p' (n + breaks before) raw = Err e.
  Proof.
    induction p, n, s as [p n|p n s Hs IH] using (prest_ind R A parse_root parse_node); [discriminate|].
    intros H. rewrite prest_step in H by auto. pose proof (take_chunk_split (in_plan p) s) as E.
    destruct (take_chunk (in_plan p) s) as [raw rest]. cbn [fst snd] in *.
    destruct (step p n raw) as [p1|e1|x1] eqn:E1; cbn [rbind] in H; try discriminate.
    - destruct (IH p1 eq_refl H) as (b & r & re & p' & I1 & I2 & I3). exists (raw ++ b), r, re, p'.
      rewrite <- E, I1, <- app_assoc. repeat split; auto. rewrite breaks_app, N.add_assoc. exact I3.
    - injection H as ->. exists [], raw, rest, p. cbn [app breaks]. rewrite N.add_0_r. unfold StructuralFacts.step in E1.
      destruct (blank raw) eqn:B; [discriminate|]. auto.
  Qed.

  Lemma next_number_err n ps e : next_number n ps = Err e -> error_line e = n.
  Proof. unfold next_number. destruct ps as [|[|c r] ps]; try (intros [= <-]; auto). destruct (parse_u32 _); [discriminate|]. now intros [= <-]. Qed.
  Lemma rbind_err {E X Y} (x : res E X) (f : X -> res E Y) e : rbind x f = Err e ->
    x = Err e \/ exists a, x = Ok a /\ f a = Err e.
  Proof. destruct x; cbn; intros H; try discriminate; eauto. left. congruence. Qed.
  Lemma version_header_err n r e : parse_version_header n r = Err e -> error_line e = n.
  Proof.
    unfold parse_version_header. intros H. apply rbind_err in H as [H|(x & _ & H)]; [now apply next_number_err in H|].
    apply rbind_err in H as [H|(y & _ & H)]; [now apply next_number_err in H|].
    apply rbind_err in H as [H|(z & _ & H)]; [now apply next_number_err in H|].
    destruct (snd z); [discriminate|]. now injection H as <-.
  Qed.
  Lemma parse_line_err p n raw e : parse_line p n raw = Err e ->
    error_line e = n \/ (ps_state p = SInitial /\ starts_with (L "===") raw = false /\ e = EInitial (N.of_nat (fst (indented raw)))).
  Proof.
    unfold Structural.parse_line. destruct (indented raw) as [i s] eqn:Ei. cbn [fst].
    destruct (match i with 0 => _ | _ => _ end) eqn:Eh.
    - intros H. left. apply rbind_err in H as [H|([st v] & _ & H)].
      + unfold parse_section_header in H. destruct (streqb _ _); [discriminate|]. destruct (streqb _ _); [discriminate|].
        destruct (strip_prefix _ _); [|now injection H as <-]. destruct (match l with [] => _ | _ => _ end); [|now injection H as <-].
        apply rbind_err in H as [H|(? & _ & H)]; [|discriminate]. now apply version_header_err in H.
      + destruct (_ <=? _); [|discriminate]. now injection H as <-.
    - destruct (Structural.ps_state R A p) eqn:Es; intros H.
      + right. split; auto. split.
        { destruct (starts_with (L "===") raw) eqn:E; auto. apply indented_header in E as [E E'].
          rewrite Ei in E. injection E as -> ->. congruence. }
        destruct i; [destruct (trim s); [discriminate|]|]; now injection H as <-.
      + left. destruct i as [|[|i]].
        * destruct (trim s); [discriminate|]. now injection H as <-.
        * apply rbind_err in H as [H|(? & _ & H)]; [|discriminate]. unfold parse_version_detail in H.
          destruct (split_at_char _ _) as [[? ?]|]; [|now injection H as <-]. destruct (Structural.ps_version R A p); [|discriminate].
          destruct (streqb _ _); [discriminate|]. destruct (streqb _ _); [discriminate|]. now injection H as <-.
        * now injection H as <-.
      + left. apply rbind_err in H as [H|(? & _ & H)]; [|discriminate]. destruct (ext_parse_line _ _); cbn in H; try discriminate.
        now injection H as <-.
      + left. clear Eh. apply rbind_err in H as [H|(y & _ & H)].
        * destruct (match i with 0 => _ | _ => _ end); cbn in H; try discriminate. now injection H as <-.
        * apply rbind_err in H as [H|(? & _ & H)]; [|discriminate].
          destruct (add_line _ _ _) as [|[]|]; cbn in H; try discriminate; now injection H as <-.
  Qed.
End Parser.
