(** Relations are read without a look into their inputs. *)
From Coq Require Import String List NArith ZArith Bool Lia PeanoNat.
From Verif Require Import Base BaseFacts Peg PegFacts Names SimpleExt Out Anchors Types Literals Exprs ExprEq ExtArgs Registry
  Rels RelGrammar RelRead Tree Structural ExtReadFacts SpecRels RelReadFacts TreeFacts RelTreeFacts Plan SpecBlocks.
Import ListNotations.
Local Open Scope string_scope.
Local Open Scope list_scope.
Local Open Scope nat_scope.

Lemma inputs_with r l : length l = length (inputs r) -> inputs (with_inputs r l) = l.
Proof.
  destruct r; cbn [SpecRels.inputs with_inputs]; auto;
    repeat match goal with o : option prel |- _ => destruct o end; cbn [app length];
    destruct l as [|x1 [|x2 [|x3 l]]]; cbn; intros; auto; try discriminate; try lia.
Qed.

Section Inputs.
  Context `{F : Floats}.
  Variables (reg : registry) (e : exts).

  Definition other (cs : list (prel * nat)) (p : prel * nat) : prel * nat := (with_inputs (fst p) (map fst cs), snd p).

  Lemma forallb_snd v (cs : list (prel * nat)) : forallb (fun d => Nat.eqb (snd d) v) cs = forallb (fun w => Nat.eqb w v) (map snd cs).
  Proof. induction cs; cbn; congruence. Qed.

  (** The widths of the inputs decide; the inputs themselves are only passed on. *)
  Lemma lower_rel_other y cs cs' adv : map snd cs = map snd cs' ->
    lower_rel e y cs' adv = rmap (other cs') (lower_rel e y cs adv).
  Proof.
    intros H. assert (Ht : total cs' = total cs) by (unfold total; now rewrite H).
    assert (Hf : forall v, forallb (fun d => Nat.eqb (snd d) v) cs' = forallb (fun d => Nat.eqb (snd d) v) cs)
      by (intros v; now rewrite !forallb_snd, H).
    destruct cs as [|[r1 w1] [|[r2 w2] [|[r3 w3] cs]]], cs' as [|[s1 v1] [|[s2 v2] [|[s3 v3] cs']]]; try discriminate H;
    destruct y; cbn [lower_rel]; rewrite ?Ht; try reflexivity;
    cbn [one_child two_children rbind fst snd];
    try (cbn [map snd] in H; injection H as ?; subst);
    rewrite ?Hf; try match goal with |- context [forallb ?f ?l] => destruct (forallb f l); [|reflexivity] end;
    repeat match goal with
    | |- context [build_grouping_fields ?s] => destruct (build_grouping_fields s)
    | |- context [rbind ?x _] => destruct x as [?| |]; cbn [rbind rmap]; try reflexivity
    | p : (_ * _ * _)%type |- _ => destruct p as [[? ?] ?]; cbn [rbind rmap fst snd]
    end; reflexivity.
  Qed.

  Lemma lift_plan_rmap {A B} line (f : A -> B) (x : pres A) : lift_plan line (rmap f x) = rmap f (lift_plan line x).
  Proof. destruct x; reflexivity. Qed.

  Lemma parse_relation_other y line ads cs cs' : map snd cs = map snd cs' ->
    parse_relation reg e y line ads cs' = rmap (other cs') (parse_relation reg e y line ads cs).
  Proof.
    intros H. assert (Hl : length cs' = length cs) by (rewrite <- (map_length snd cs'), <- H; apply map_length).
    unfold parse_relation. destruct y;
      try (destruct (standard_addenda reg ads); cbn [rbind rmap]; try reflexivity;
           rewrite <- lift_plan_rmap; f_equal; now apply lower_rel_other).
    - destruct (extension_read_addenda reg line ads); cbn [rbind rmap]; try reflexivity.
      rewrite <- lift_plan_rmap; f_equal. destruct cs, cs'; try discriminate Hl; try reflexivity.
      destruct (lower_columns e cols); reflexivity.
    - destruct ads; [|reflexivity]. destruct (lift_plan line (lower_invocation e args cols)); cbn [rbind rmap]; try reflexivity.
      rewrite Hl. destruct (child_count_ok k (length cs)) eqn:Ec; [|reflexivity].
      destruct (resolve reg XtRelation line _ _); cbn [rbind rmap]; try reflexivity.
      destruct k; reflexivity.
  Qed.

  Lemma rlist_app {A B} (f : A -> res perror B) xs n ys :
    rlist f (xs ++ n :: ys) =
      let? a := rlist f xs in let? b := f n in let? c := rlist f ys in Ok (a ++ b :: c).
  Proof.
    induction xs as [|x xs IH]; cbn [app rlist rbind].
    - reflexivity.
    - rewrite IH. destruct (f x); cbn [rbind]; try reflexivity. destruct (rlist f xs); cbn [rbind]; try reflexivity.
      destruct (f n); cbn [rbind]; try reflexivity. destruct (rlist f ys); reflexivity.
  Qed.

  (** What is around an input is read from the width of the input alone. *)
  Lemma build_context T : node_context T -> forall w,
    (exists C w', rel_context C /\ forall n r, build_rel reg e n = Ok (r, w) -> build_rel reg e (T n) = Ok (C r, w')) \/
    (exists er, (forall p, er <> Ok p) /\ forall n r, build_rel reg e n = Ok (r, w) -> build_rel reg e (T n) = er).
  Proof.
    induction 1 as [|y l ads xs T ys HT IH]; intros w.
    - left. exists (fun r => r), w. split; [constructor|auto].
    - destruct (rlist (build_rel reg e) xs) as [cxs|er|er] eqn:Ex.
      2, 3: right; eexists; split; [|intros n r Hn; cbn [build_rel]; rewrite rlist_app, Ex; cbn [rbind]; reflexivity];
            discriminate.
      destruct (IH w) as [(C & w' & HC & HB)|(er & Hne & HB)].
      2: { right. exists (match er with Ok _ => Panic "" | Err x => Err x | Panic x => Panic x end). split.
           - destruct er; discriminate.
           - intros n r Hn. cbn [build_rel]. rewrite rlist_app, Ex. cbn [rbind]. rewrite (HB n r Hn).
             destruct er as [q| |]; [destruct (Hne q eq_refl)|reflexivity|reflexivity]. }
      destruct (rlist (build_rel reg e) ys) as [cys|er|er] eqn:Ey.
      2, 3: right; eexists; split;
            [|intros n r Hn; cbn [build_rel]; rewrite rlist_app, Ex; cbn [rbind]; rewrite (HB n r Hn), Ey; cbn [rbind]; reflexivity];
            discriminate.
      destruct (rlist (lower_addendum e) ads) as [as'|er|er] eqn:Ea.
      2, 3: right; eexists; split;
            [|intros n r Hn; cbn [build_rel]; rewrite rlist_app, Ex; cbn [rbind]; rewrite (HB n r Hn), Ey; cbn [rbind];
              rewrite Ea; cbn [rbind]; reflexivity];
            discriminate.
      assert (Hall : forall n r, build_rel reg e n = Ok (r, w) -> build_rel reg e (RNode y l ads (xs ++ T n :: ys)) =
                rmap (other (cxs ++ (C r, w') :: cys)) (parse_relation reg e y l as' (cxs ++ (RNone, w') :: cys))).
      { intros n r Hn. cbn [build_rel]. rewrite rlist_app, Ex. cbn [rbind]. rewrite (HB n r Hn), Ey. cbn [rbind].
        rewrite Ea. cbn [rbind]. apply parse_relation_other. now rewrite !map_app. }
      destruct (parse_relation reg e y l as' (cxs ++ (RNone, w') :: cys)) as [[r0 w0]|er|er] eqn:Ep.
      + left. exists (fun x => with_inputs r0 (map fst cxs ++ C x :: map fst cys)), w0. split.
        * constructor; auto. apply parse_relation_inputs in Ep as [-> _].
          rewrite !map_length, app_length. reflexivity.
        * intros n r Hn. rewrite (Hall n r Hn). cbn [rmap other fst snd]. unfold other. cbn [fst snd]. now rewrite map_app.
      + right. exists (Err er). split; [discriminate|]. intros n r Hn. now rewrite (Hall n r Hn).
      + right. exists (Panic er). split; [discriminate|]. intros n r Hn. now rewrite (Hall n r Hn).
  Qed.
End Inputs.
