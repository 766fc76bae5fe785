(** The tree builder inverts flattening. *)
From Coq Require Import String List NArith ZArith Bool Lia.
From Verif Require Import Base BaseFacts Tree SpecTree.
Import ListNotations.

Section S.
  Variables R A : Type.
  Notation node := (rnode R A).
  Notation bld := (builder R A).

  Section Ind.
    Variable P : node -> Prop.
    Hypothesis H : forall r l ads cs, Forall P cs -> P (RNode r l ads cs).
    Fixpoint rnode_ind2 (n : node) : P n :=
      match n with
      | RNode r l ads cs =>
          H r l ads cs ((fix go (cs : list node) : Forall P cs :=
            match cs with [] => Forall_nil P | c :: cs => Forall_cons c (rnode_ind2 c) (go cs) end) cs)
      end.
  End Ind.

  Lemma add_lines_app (b : bld) l1 l2 :
    add_lines b (l1 ++ l2) = rbind (add_lines b l1) (fun b' => add_lines b' l2).
  Proof.
    revert b; induction l1 as [|[d n] l1 IH]; intros b; cbn [app add_lines]; auto.
    destruct (add_line b d n); cbn; auto.
  Qed.

  Lemma at_depth_spec k d f m (n n' : node) (x : list (nat * lnode R A)) :
    (forall p p', f p = Ok p' -> flatten (k + d) p' = flatten (k + d) p ++ x) ->
    at_depth d f m n = Ok n' -> flatten k n' = flatten k n ++ x.
  Proof.
    revert k n n'; induction d as [|d IH]; intros k n n' Hf.
    - cbn [at_depth]. intros E. apply Hf in E. now rewrite PeanoNat.Nat.add_0_r in E.
    - cbn [at_depth]. destruct n as [r l ads cs]. destruct (rev cs) as [|last before] eqn:E; [discriminate|].
      intros H. apply rbind_ok in H as (last' & Hl & [= <-]).
      assert (Ec : cs = rev before ++ [last]).
      { rewrite <- (rev_involutive cs), E. reflexivity. }
      cbn [flatten]. rewrite Ec, !map_app, !concat_app. cbn [map concat]. rewrite !app_nil_r.
      rewrite (IH (S k) last last').
      + cbn [app]. now rewrite <- !app_assoc.
      + intros p p' Hp. replace (S k + d) with (k + S d) by lia. auto.
      + exact Hl.
  Qed.

  Lemma flatten_all_app (f g : list node) : flatten_all (f ++ g) = flatten_all f ++ flatten_all g.
  Proof. unfold flatten_all. now rewrite map_app, concat_app. Qed.

  Lemma add_line_flatten (b b' : bld) d n : add_line b d n = Ok b' ->
    flatten_all (finish b') = flatten_all (finish b) ++ [(d, n)].
  Proof.
    unfold add_line, finish. destruct n as [r l|a l], d as [|d].
    - intros [= <-]. cbn [b_current b_completed]. now rewrite flatten_all_app.
    - unfold at_current. destruct (b_current b) as [n|]; [|discriminate]. intros H.
      apply rbind_ok in H as (n' & Hn & [= <-]). cbn [b_current b_completed].
      rewrite !flatten_all_app, <- app_assoc. f_equal. unfold flatten_all. cbn [map concat]. rewrite !app_nil_r.
      eapply at_depth_spec; [|exact Hn]. intros [r0 l0 ads cs] p' [= <-].
      cbn [flatten]. rewrite map_app, concat_app. cbn [map concat flatten app]. now rewrite <- app_assoc.
    - discriminate.
    - unfold at_current. destruct (b_current b) as [n|]; [|discriminate]. intros H.
      apply rbind_ok in H as (n' & Hn & [= <-]). cbn [b_current b_completed].
      rewrite !flatten_all_app, <- app_assoc. f_equal. unfold flatten_all. cbn [map concat]. rewrite !app_nil_r.
      eapply at_depth_spec; [|exact Hn]. intros [r0 l0 ads cs] p'. unfold push_addendum.
      destruct cs; [|discriminate]. intros [= <-]. cbn [flatten map concat].
      rewrite map_app, !app_nil_r. reflexivity.
  Qed.

  Lemma add_lines_flatten (b b' : bld) ls : add_lines b ls = Ok b' ->
    flatten_all (finish b') = flatten_all (finish b) ++ ls.
  Proof.
    revert b; induction ls as [|[d n] ls IH]; intros b; cbn [add_lines].
    - intros [= <-]. now rewrite app_nil_r.
    - destruct (add_line b d n) as [b1| |] eqn:E; try discriminate. intros H. apply IH in H.
      apply add_line_flatten in E. rewrite H, E, <- app_assoc. reflexivity.
  Qed.

  (** Attaching a whole subtree. *)
  Definition push (d : nat) (m : node) (b : bld) : res tree_error bld :=
    match d with
    | O => Ok (mk_builder (Some m) (finish b))
    | S d' => at_current d' (push_child m) TNoParent b
    end.

  Lemma at_depth_inside d f miss (m : node) n n' :
    at_depth d (push_child m) TNoParent n = Ok n' ->
    at_depth (S d) f miss n' = rbind (f m) (fun m' => at_depth d (push_child m') TNoParent n).
  Proof.
    revert n n'; induction d as [|d IH]; intros n n'.
    - cbn [at_depth]. destruct n as [r l ads cs]. intros [= <-]. rewrite rev_app_distr. cbn [rev app].
      rewrite rev_involutive. destruct (f m); auto.
    - cbn [at_depth]. destruct n as [r l ads cs]. destruct (rev cs) as [|last before]; [discriminate|].
      intros H. apply rbind_ok in H as (last' & Hl & [= <-]). rewrite rev_app_distr. cbn [rev app].
      rewrite rev_involutive. pose proof (IH _ _ Hl) as I. cbn [at_depth] in I. rewrite I.
      destruct (f m) as [m'| |]; cbn [rbind]; auto.
  Qed.

  Lemma at_current_inside d f miss (m : node) b b' :
    push d m b = Ok b' -> at_current d f miss b' = rbind (f m) (fun m' => push d m' b).
  Proof.
    unfold push, at_current. destruct d as [|d].
    - intros [= <-]. cbn. destruct (f m); auto.
    - destruct (b_current b) as [n|]; [|discriminate]. intros H.
      apply rbind_ok in H as (n' & Hn & [= <-]). cbn [b_current b_completed].
      rewrite (at_depth_inside _ _ _ _ _ _ Hn). destruct (f m); auto.
  Qed.

  Lemma at_depth_any d (m m' : node) n n1 : at_depth d (push_child m) TNoParent n = Ok n1 ->
    exists n2, at_depth d (push_child m') TNoParent n = Ok n2.
  Proof.
    revert n n1; induction d as [|d IH]; intros [r l ads cs] n1; cbn [at_depth]; [cbn; eauto|].
    destruct (rev cs) as [|x y]; [discriminate|]. intros H. apply rbind_ok in H as (z & Hz & _).
    destruct (IH _ _ Hz) as (n2 & ->). cbn; eauto.
  Qed.
  Lemma push_any d (m m' : node) b b1 : push d m b = Ok b1 -> exists b2, push d m' b = Ok b2.
  Proof.
    unfold push, at_current. destruct d as [|d]; [eauto|]. destruct (b_current b) as [n|]; [|discriminate].
    intros H. apply rbind_ok in H as (n' & Hn & _). destruct (at_depth_any _ _ m' _ _ Hn) as (n2 & ->). cbn; eauto.
  Qed.

  Lemma add_line_rel (b : bld) d r l : add_line b d (LRel r l) = push d (RNode r l [] []) b.
  Proof. destruct d; reflexivity. Qed.

  Lemma add_lines_node (n : node) : forall d b b0, push d n b = Ok b0 -> add_lines b (flatten d n) = Ok b0.
  Proof.
    induction n as [r l ads cs IH] using rnode_ind2. intros d b b0 H0.
    cbn [flatten add_lines]. rewrite add_line_rel.
    destruct (push_any _ _ (RNode r l [] []) _ _ H0) as (b1 & H1). rewrite H1.
    (* the addenda *)
    assert (Ha : forall ads' b1, push d (RNode r l ads' []) b = Ok b1 ->
              add_lines b1 (map (fun a => (S d, LAdd (fst a) (snd a))) ads) = push d (RNode r l (ads' ++ ads) []) b).
    { clear. induction ads as [|[a k] ads IHa]; intros ads' b1 H; cbn [map add_lines].
      - now rewrite app_nil_r.
      - cbn [add_line fst snd]. rewrite (at_current_inside _ _ _ _ _ _ H). cbn [push_addendum rbind].
        destruct (push_any _ _ (RNode r l (ads' ++ [(a, k)]) []) _ _ H) as (b2 & H2). rewrite H2.
        rewrite (IHa _ _ H2), <- app_assoc. reflexivity. }
    rewrite add_lines_app, (Ha [] b1 H1). cbn [app].
    destruct (push_any _ _ (RNode r l ads []) _ _ H0) as (b2 & H2). rewrite H2. cbn [rbind]. clear Ha H1 b1.
    (* the children *)
    assert (Hc : forall cs' b2, push d (RNode r l ads cs') b = Ok b2 ->
              add_lines b2 (concat (map (flatten (S d)) cs)) = push d (RNode r l ads (cs' ++ cs)) b).
    { clear H0 H2 b2. induction cs as [|c cs IHc]; intros cs' b2 H2; cbn [map concat add_lines].
      - now rewrite app_nil_r.
      - inversion IH as [|? ? Hc Hcs]; subst. rewrite add_lines_app.
        assert (E : push (S d) c b2 = push d (RNode r l ads (cs' ++ [c])) b).
        { cbn [push]. rewrite (at_current_inside _ _ _ _ _ _ H2). reflexivity. }
        destruct (push_any _ _ (RNode r l ads (cs' ++ [c])) _ _ H2) as (b3 & H3).
        rewrite (Hc (S d) b2 b3) by now rewrite E. cbn [rbind].
        rewrite (IHc Hcs _ _ H3), <- app_assoc. reflexivity. }
    rewrite (Hc [] b2 H2). exact H0.
  Qed.

  Lemma add_lines_forest (f : list node) : forall b, exists b',
    add_lines b (flatten_all f) = Ok b' /\ finish b' = finish b ++ f.
  Proof.
    induction f as [|n f IH]; intros b.
    - exists b. now rewrite app_nil_r.
    - change (flatten_all (n :: f)) with (flatten 0 n ++ flatten_all f).
      rewrite add_lines_app, (add_lines_node n 0 b (mk_builder (Some n) (finish b)) eq_refl). cbn [rbind].
      destruct (IH (mk_builder (Some n) (finish b))) as (b' & E & F). exists b'. split; auto.
      rewrite F. unfold finish at 1. cbn. now rewrite <- app_assoc.
  Qed.

  Theorem add_lines_iff ls (f : list node) :
    (exists b, add_lines builder_empty ls = Ok b /\ finish b = f) <-> flatten_all f = ls.
  Proof.
    split.
    - intros (b & H & <-). apply add_lines_flatten in H. rewrite H. reflexivity.
    - intros <-. destruct (add_lines_forest f builder_empty) as (b & H & F). exists b. split; auto.
  Qed.

  Lemma at_depth_no_panic d f m (n : node) p :
    (forall n q, f n <> Panic q) -> at_depth d f m n <> Panic p.
  Proof.
    intros Hf. revert n p; induction d as [|d IH]; intros [r l ads cs] p; cbn [at_depth]; auto.
    destruct (rev cs); [discriminate|]. destruct (at_depth d f m r0) eqn:E; cbn; try discriminate.
    exfalso. eapply IH. exact E.
  Qed.
  Lemma add_line_no_panic (b : bld) d n p : add_line b d n <> Panic p.
  Proof.
    unfold add_line, at_current. destruct n, d; try discriminate; destruct (b_current b) as [n|]; try discriminate.
    - destruct (at_depth d _ _ n) eqn:E; try discriminate. exfalso. eapply at_depth_no_panic; [|exact E].
      now intros [] q.
    - destruct (at_depth d _ _ n) eqn:E; try discriminate. exfalso. eapply at_depth_no_panic; [|exact E].
      intros [? ? ? [|]] q; discriminate.
  Qed.

  (** ** Accepted depths *)
  Fixpoint spine (n : node) : nat :=
    let '(RNode _ _ _ cs) := n in
    S ((fix last_spine (l : list node) : nat :=
          match l with [] => 0 | [x] => spine x | _ :: r => last_spine r end) cs).
  Lemma spine_snoc r l ads cs (c : node) : spine (RNode r l ads (cs ++ [c])) = S (spine c).
  Proof.
    cbn [spine]. f_equal. induction cs as [|x cs IH]; auto. cbn [app]. destruct (cs ++ [c]) eqn:E; auto.
    now apply app_eq_nil in E as [_ E].
  Qed.
  Lemma at_depth_child d (c : node) n : 
    (exists n', at_depth d (push_child c) TNoParent n = Ok n' /\ spine n' = S d + spine c) <-> d < spine n.
  Proof.
    revert n; induction d as [|d IH]; intros [r l ads cs]; cbn [at_depth].
    - split; [cbn; lia|]. intros _. cbn [push_child]. eexists; split; [reflexivity|]. now rewrite spine_snoc.
    - destruct cs as [|x cs] using rev_ind; [cbn; split; [intros (? & ? & _); discriminate|lia]|].
      rewrite rev_app_distr. cbn [rev app]. rewrite spine_snoc, rev_involutive. clear IHcs. split.
      + intros (n' & H & _). apply rbind_ok in H as (x' & Hx & _).
        enough (d < spine x) by lia. apply IH. exists x'. split; auto.
        clear - Hx. revert x x' Hx. induction d as [|d IHd]; intros [r l ads cs] x'; cbn [at_depth].
        * intros [= <-]. now rewrite spine_snoc.
        * destruct cs as [|y cs] using rev_ind; [discriminate|]. rewrite rev_app_distr. cbn [rev app]. intros H.
          apply rbind_ok in H as (y' & Hy & [= <-]). rewrite spine_snoc. apply IHd in Hy. lia.
      + intros H. destruct (IH x) as [_ IH2]. destruct IH2 as (x' & -> & Hs); [lia|]. cbn [rbind].
        eexists; split; [reflexivity|]. rewrite spine_snoc. lia.
  Qed.
  Lemma at_depth_add d (a : A * N) n :
    (exists n', at_depth d (push_addendum a) TAddendumNoParent n = Ok n' /\ spine n' = S d) <-> spine n = S d.
  Proof.
    revert n; induction d as [|d IH]; intros [r l ads cs]; cbn [at_depth].
    - destruct cs as [|x cs] using rev_ind.
      + cbn. split; auto. intros _. eexists; split; reflexivity.
      + rewrite spine_snoc. split.
        * intros (n' & H & _). cbn in H. destruct cs; discriminate.
        * intros H. exfalso. destruct x. cbn in H. lia.
    - destruct cs as [|x cs] using rev_ind; [cbn; split; [intros (? & ? & _); discriminate|discriminate]|].
      rewrite rev_app_distr. cbn [rev app]. rewrite spine_snoc, rev_involutive. clear IHcs. split.
      + intros (n' & H & Hs). apply rbind_ok in H as (x' & Hx & [= <-]). rewrite spine_snoc in Hs.
        f_equal. apply IH. exists x'. split; auto.
      + intros [= H]. apply IH in H as (x' & -> & Hs). cbn [rbind]. eexists; split; [reflexivity|].
        rewrite spine_snoc. lia.
  Qed.
  Definition bspine (b : bld) : nat := match b_current b with Some n => spine n | None => 0 end.
  Lemma at_depth_child_ok d (c : node) n n' : at_depth d (push_child c) TNoParent n = Ok n' -> spine n' = S d + spine c /\ d < spine n.
  Proof.
    intros H. assert (G : d < spine n).
    { revert n n' H. induction d as [|d IHd]; intros [r l ads cs] n'; cbn [at_depth]; [cbn; lia|].
      destruct cs as [|y cs] using rev_ind; [discriminate|]. rewrite rev_app_distr. cbn [rev app]. intros H.
      apply rbind_ok in H as (y' & Hy & _). rewrite spine_snoc. apply IHd in Hy. lia. }
    split; auto. apply (at_depth_child d c) in G as (n2 & H2 & Hs). congruence.
  Qed.
  Lemma at_depth_add_ok d (a : A * N) n n' : at_depth d (push_addendum a) TAddendumNoParent n = Ok n' -> spine n' = S d /\ spine n = S d.
  Proof.
    intros H. assert (G : spine n = S d).
    { revert n n' H. induction d as [|d IHd]; intros [r l ads cs] n'; cbn [at_depth].
      - destruct cs; [reflexivity|discriminate].
      - destruct cs as [|y cs] using rev_ind; [discriminate|]. rewrite rev_app_distr. cbn [rev app]. intros H.
        apply rbind_ok in H as (y' & Hy & _). rewrite spine_snoc. apply IHd in Hy. lia. }
    split; auto. apply (at_depth_add d a) in G as (n2 & H2 & Hs). congruence.
  Qed.

  Lemma add_lines_depths ls : forall b : bld,
    (exists b', add_lines b ls = Ok b') <-> depths_ok (bspine b) ls.
  Proof.
    induction ls as [|[d x] ls IH]; intros b; cbn [add_lines depths_ok]; [split; eauto|].
    destruct x as [r l|a l].
    - destruct d as [|d].
      + cbn [add_line]. rewrite IH. cbn. split; [intros; split; [lia|assumption]|tauto].
      + cbn [add_line]. unfold at_current, bspine. destruct (b_current b) as [n|].
        * destruct (at_depth d (push_child (RNode r l [] [])) TNoParent n) as [n'|e|q] eqn:E; cbn [rbind].
          -- rewrite IH. cbn [bspine b_current]. apply at_depth_child_ok in E as [E1 E2]. unfold bspine. cbn [b_current].
             rewrite E1. cbn [spine]. replace (S d + 1) with (S (S d)) by lia. split; [intros; split; [lia|auto]|tauto].
          -- split; [intros (? & ?); discriminate|]. intros [H _]. apply (at_depth_child d (RNode r l [] [])) in H as (n' & H & _). congruence.
          -- split; [intros (? & ?); discriminate|]. intros [H _]. apply (at_depth_child d (RNode r l [] [])) in H as (n' & H & _). congruence.
        * split; [intros (? & ?); discriminate|lia].
    - destruct d as [|d].
      + cbn. split; [intros (? & ?); discriminate|lia].
      + cbn [add_line]. unfold at_current, bspine. destruct (b_current b) as [n|].
        * destruct (at_depth d (push_addendum (a, l)) TAddendumNoParent n) as [n'|e|q] eqn:E; cbn [rbind].
          -- rewrite IH. apply at_depth_add_ok in E as [E1 E2]. unfold bspine. cbn [b_current].
             rewrite E1, E2. split; [intros; repeat split; auto; lia|tauto].
          -- split; [intros (? & ?); discriminate|]. intros [H _]. symmetry in H. apply (at_depth_add d (a, l)) in H as (n' & H & _). congruence.
          -- split; [intros (? & ?); discriminate|]. intros [H _]. symmetry in H. apply (at_depth_add d (a, l)) in H as (n' & H & _). congruence.
        * split; [intros (? & ?); discriminate|lia].
  Qed.

  (** The relation an addendum belongs to. *)
  Lemma depths_owner_gen l1 : forall lim d (a : A) m l2,
    depths_ok (R := R) lim (l1 ++ (d, LAdd a m) :: l2) ->
    0 < d /\
    ((d = lim /\ exists ads, l1 = map (fun x => (d, LAdd (fst x) (snd x))) ads) \/
     exists d' l0 r ln ads, d = S d' /\ l1 = l0 ++ (d', LRel r ln) :: map (fun x => (S d', LAdd (fst x) (snd x))) ads).
  Proof.
    induction l1 as [|[d1 x] l1 IH]; intros lim d a m l2 H.
    - cbn in H. destruct H as (-> & H & _). split; auto. left. split; auto. now exists [].
    - cbn [app depths_ok] in H. destruct x as [r ln|a1 n1].
      + destruct H as [H1 H2]. apply IH in H2 as [Hd [[-> (ads & ->)]|(d' & l0 & r' & ln' & ads & -> & ->)]]; split; auto; right.
        * exists d1, [], r, ln, ads. auto.
        * exists d', ((d1, LRel r ln) :: l0), r', ln', ads. auto.
      + destruct H as (-> & H1 & H2). apply IH in H2 as [Hd [[-> (ads & ->)]|(d' & l0 & r' & ln' & ads & -> & ->)]]; split; auto.
        * left. split; auto. now exists ((a1, n1) :: ads).
        * right. exists d', ((lim, LAdd a1 n1) :: l0), r', ln', ads. auto.
  Qed.
  Lemma depths_owner l1 d (a : A) m l2 : depths_ok (R := R) 0 (l1 ++ (d, LAdd a m) :: l2) ->
    exists d' l0 r ln ads, d = S d' /\ l1 = l0 ++ (d', LRel r ln) :: map (fun x => (S d', LAdd (fst x) (snd x))) ads.
  Proof. intros H. apply depths_owner_gen in H as [Hd [[-> _]|H]]; auto. lia. Qed.

  (** ** The addenda of a node *)
  Definition rel_first (ls : list (nat * lnode R A)) : Prop :=
    match ls with (_, LAdd _ _) :: _ => False | _ => True end.
  Lemma leading_app ls1 ls2 : rel_first ls2 -> leading_addenda (ls1 ++ ls2) = leading_addenda ls1.
  Proof.
    intros H. induction ls1 as [|[d [r l|a l]] ls1 IH]; cbn; auto.
    - destruct ls2 as [|[d [r l|a l]] ls2]; auto. contradiction.
    - now rewrite IH.
  Qed.
  Lemma leading_map d (ads : list (A * N)) ls : rel_first ls ->
    leading_addenda (map (fun x => (d, LAdd (fst x) (snd x))) ads ++ ls) = map (fun x => (d, x)) ads.
  Proof.
    intros H. rewrite leading_app by auto. induction ads as [|[a l] ads IH]; cbn; auto. now rewrite IH.
  Qed.
  Lemma rel_first_flatten k (cs : list node) : rel_first (concat (map (flatten k) cs)).
  Proof. destruct cs as [|[r l ads cs'] cs]; cbn; auto. Qed.

  Definition finds (x : nat * (R * N)) (rest : list (nat * lnode R A)) (n : node) : Prop :=
    let '(d, (r, ln)) := x in
    exists ads cs, subnode (RNode r ln ads cs) n /\ leading_addenda rest = map (fun y => (S d, y)) ads.

  Lemma forest_finds k (cs : list node) l1 d r ln rest :
    (forall c, In c cs -> forall k l1 d r ln rest, flatten k c = l1 ++ (d, LRel r ln) :: rest -> finds (d, (r, ln)) rest c) ->
    concat (map (flatten k) cs) = l1 ++ (d, LRel r ln) :: rest ->
    exists c, In c cs /\ finds (d, (r, ln)) rest c.
  Proof.
    revert l1. induction cs as [|c cs IH]; intros l1 Hc H; [destruct l1; discriminate|].
    assert (Hc' : forall c, In c cs -> forall k l1 d r ln rest, flatten k c = l1 ++ (d, LRel r ln) :: rest -> finds (d, (r, ln)) rest c).
    { intros c0 Hin. apply Hc. now right. }
    cbn [map concat] in H. apply app_eq_app in H as (l & [[H1 H2]|[H1 H2]]).
    - destruct l as [|x l].
      + destruct (IH [] Hc') as (c' & Hin & Hf).
        { symmetry. exact H2. }
        exists c'. split; auto. now right.
      + cbn [app] in H2. injection H2 as <- ->. exists c. split; [now left|].
        destruct (Hc c (or_introl eq_refl) _ _ _ _ _ _ H1) as (ads & cs' & Hs & Hl). exists ads, cs'. split; auto.
        rewrite leading_app; auto. apply rel_first_flatten.
    - destruct (IH l Hc') as (c' & Hin & Hf); auto.
      exists c'. split; auto. now right.
  Qed.
  Lemma node_finds (n : node) : forall k l1 d r ln rest, flatten k n = l1 ++ (d, LRel r ln) :: rest -> finds (d, (r, ln)) rest n.
  Proof.
    induction n as [r0 l0 ads0 cs0 IH] using rnode_ind2. intros k l1 d r ln rest H. cbn [flatten] in H.
    destruct l1 as [|x l1].
    - cbn [app] in H. injection H as <- <- <- <-. exists ads0, cs0. split; [constructor|].
      apply leading_map, rel_first_flatten.
    - cbn [app] in H. injection H as <- H.
      assert (G : exists l1', concat (map (flatten (S k)) cs0) = l1' ++ (d, LRel r ln) :: rest).
      { clear IH. revert l1 H. induction ads0 as [|a ads0 IHa]; intros l1 H; [eauto|].
        cbn [map app] in H. destruct l1; cbn [app] in H; injection H; intros; try discriminate. eauto. }
      destruct G as (l1' & G). apply forest_finds in G as (c & Hin & Hf).
      + destruct Hf as (ads & cs & Hs & Hl). exists ads, cs. split; auto. econstructor; eauto.
      + intros c Hin. rewrite Forall_forall in IH. now apply IH.
  Qed.
  Lemma lines_find (f : list node) l1 d r ln rest : flatten_all f = l1 ++ (d, LRel r ln) :: rest ->
    exists n ads cs, In n f /\ subnode (RNode r ln ads cs) n /\ leading_addenda rest = map (fun y => (S d, y)) ads.
  Proof.
    intros H. apply forest_finds in H as (n & Hin & ads & cs & Hs & Hl); [eauto 8|].
    intros. eapply node_finds; eauto.
  Qed.
End S.
