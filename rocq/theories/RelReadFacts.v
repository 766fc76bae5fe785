(** Facts about reading relations. *)
From Coq Require Import String List NArith ZArith Bool Lia.
From Verif Require Import Base BaseFacts Peg PegFacts Names SimpleExt Out Anchors Types Literals Exprs ExprEq ExtArgs Registry
  Rels RelGrammar RelRead Tree Structural ExtReadFacts SpecRels.
Import ListNotations.
Local Open Scope list_scope.

Lemma guard_drop_ok {E A} (x : res E A) a : guard_drop x = Ok a -> x = Ok a.
Proof. destruct x; cbn; congruence. Qed.

(** ** Emits *)

Lemma wrap_index i : (Z.of_nat i < column_limit)%Z -> wrap_i32 (Z.of_nat i) = Z.of_nat i.
Proof. unfold column_limit. intros H. apply wrap_i32_id. unfold in_range, i32_min, i32_max. apply andb_true_iff. split; lia. Qed.

Lemma identity_from_spec l i : (Z.of_nat (i + length l) <= column_limit)%Z ->
  identity_from i l = true <-> l = map Z.of_nat (seq i (length l)).
Proof.
  revert i. induction l as [|z l IH]; intros i H; cbn [identity_from length seq map]; [tauto|]. cbn [length] in H.
  rewrite wrap_index by lia. rewrite andb_true_iff, Z.eqb_eq, IH by lia. split.
  - intros [-> ->]. f_equal. now rewrite map_length, seq_length.
  - intros [= -> E]. auto.
Qed.

Lemma make_emit_spec m n : (Z.of_nat n <= column_limit)%Z ->
  emit_columns (make_emit m n) n = m /\ (make_emit m n = EmDirect <-> m = map Z.of_nat (seq 0 n)).
Proof.
  intros H. unfold make_emit. destruct (Nat.eqb_spec (length m) n) as [E|E]; cbn [andb].
  - destruct (identity_from 0 m) eqn:Ei.
    + apply identity_from_spec in Ei; [|cbn; lia]. rewrite E in Ei. cbn. split; [now symmetry|]. tauto.
    + cbn. split; auto. split; [discriminate|]. intros Em.
      assert (identity_from 0 m = true); [|congruence]. apply identity_from_spec; [cbn; lia|]. now rewrite E.
  - cbn. split; auto. split; [discriminate|]. intros ->. now rewrite map_length, seq_length in E.
Qed.

Lemma field_index_ok s z : field_index s = Ok z -> ref_value s z.
Proof.
  unfold field_index, ref_value. intros H. apply unwrap_ok in H. unfold parse_i32, parse_int in H.
  destruct (read_Z s); [|discriminate]. destruct (in_range _ _ _); congruence.
Qed.

Lemma Forall2_imp {A B} (P Q : A -> B -> Prop) l m :
  (forall a b, P a b -> Q a b) -> Forall2 P l m -> Forall2 Q l m.
Proof. induction 2; constructor; auto. Qed.
Lemma Forall2_len {A B} (P : A -> B -> Prop) l m : Forall2 P l m -> length l = length m.
Proof. induction 1; cbn; congruence. Qed.

Lemma parse_emit_ok refs n k w : parse_emit refs n = Ok (k, w) ->
  exists m, Forall2 ref_value refs m /\ k = make_emit m n /\ w = length m.
Proof.
  unfold parse_emit. intros H. apply rbind_ok in H as (m & Hm & H). exists m.
  unfold output_mapping in Hm. apply rlist_ok_inv in Hm. split.
  - eapply Forall2_imp; [|apply Hm]. intros; now apply field_index_ok.
  - split; congruence.
Qed.

Section Read.
  Context `{F : Floats}.
  Variable reg : registry.
  Variable e : exts.

  Lemma total_widths cs : total cs = list_sum (map snd cs).
  Proof. reflexivity. Qed.

  Lemma one_child_ok what cs i : one_child what cs = Ok i -> exists w, cs = [(i, w)].
  Proof. destruct cs as [|[r w] [|? ?]]; cbn; try discriminate. intros [= <-]. eauto. Qed.
  Lemma two_children_ok what cs p : two_children what cs = Ok p ->
    exists w w', cs = [(fst p, w); (snd p, w')].
  Proof. destruct cs as [|[r w] [|[r' w'] [|? ?]]]; cbn; try discriminate. intros [= <-]. cbn. eauto. Qed.

  (** The emit of the lines that end in a reference list. *)
  Lemma lower_rel_emit y refs cs adv r w : line_refs y = Some refs -> lower_rel e y cs adv = Ok (r, w) ->
    exists k, parse_emit refs (offered y (map snd cs)) = Ok (k, w) /\ rel_emit r = Some k.
  Proof.
    intros Hy. unfold lower_rel. destruct y; cbn in Hy; try discriminate; injection Hy as <-; cbn [offered].
    all: try change (list_sum (map snd cs)) with (total cs).
    - intros H. apply rbind_ok in H as (i & _ & H). apply rbind_ok in H as (x' & _ & H).
      apply rbind_ok in H as ([k w'] & Hp & H). exists k. cbn in H. injection H as <- <-. split; auto.
    - intros H. apply rbind_ok in H as (i & _ & H). apply rbind_ok in H as (x' & _ & H).
      apply rbind_ok in H as ([k w'] & Hp & H). exists k. cbn in H. injection H as <- <-. split; auto.
    - intros H. apply rbind_ok in H as (i & _ & H). apply rbind_ok in H as (x' & _ & H).
      apply rbind_ok in H as ([k w'] & Hp & H). apply rbind_ok in H as (? & _ & H). apply rbind_ok in H as (? & _ & H).
      exists k. cbn in H. injection H as <- <-. split; auto.
    - intros H. apply rbind_ok in H as (i & _ & H). apply rbind_ok in H as (x' & _ & H).
      apply rbind_ok in H as (x2 & _ & H). apply rbind_ok in H as (x3 & _ & H).
      apply rbind_ok in H as ([k w'] & Hp & H). exists k. cbn in H. injection H as <- <-. split; auto.
    - destruct cs as [|c [|d cs]]; try discriminate. destruct (forallb _ _); [|discriminate].
      intros H. apply rbind_ok in H as (i & _ & H). apply rbind_ok in H as ([k w'] & Hp & H).
      exists k. cbn in H. injection H as <- <-. split; auto.
    - intros H. apply rbind_ok in H as (i & _ & H). apply rbind_ok in H as ([k w'] & Hp & H).
      exists k. cbn in H. injection H as <- <-. split; auto.
  Qed.

  (** ** Projects *)

  Lemma lower_project_ok n l : forall before xs m,
    lower_project e n (length before) l = Ok (xs, m) ->
    (Z.of_nat (n + length before + length l) <= column_limit)%Z ->
    Forall2 (fun c x => lower_expr e c = Ok x) (project_exprs l) xs /\
    Forall2 (fun a z => match a with
                        | PaRef s => ref_value s z
                        | PaExpr c => exists x, lower_expr e c = Ok x /\
                                        project_column n (before ++ xs) z = Some (inr x)
                        end) l m.
  Proof.
    induction l as [|a l IH]; intros before xs m H Hn; cbn [lower_project] in H.
    - injection H as <- <-. split; constructor.
    - cbn [length] in Hn. destruct a as [s|c].
      + apply rbind_ok in H as (i & Hi & H). apply rbind_ok in H as ([xs' m'] & Hr & H). cbn [fst snd] in H.
        injection H as <- <-. apply IH in Hr as [H1 H2]; [|lia]. split; [exact H1|].
        constructor; auto. now apply field_index_ok.
      + apply rbind_ok in H as (x & Hx & H). apply rbind_ok in H as ([xs' m'] & Hr & H). cbn [fst snd] in H.
        injection H as <- <-. specialize (IH (before ++ [x]) xs' m').
        rewrite app_length in IH. cbn [length] in IH. rewrite Nat.add_1_r in IH.
        apply IH in Hr as [H1 H2]; [|lia]. rewrite <- app_assoc in H2. cbn [app] in H2.
        split; [now constructor|]. constructor; auto. exists x. split; auto.
        rewrite <- Nat2Z.inj_add, wrap_index by lia. unfold project_column.
        replace (Z.of_nat (n + length before) <? Z.of_nat n)%Z with false by lia.
        rewrite Nat2Z.id. replace (n + length before - n) with (length before) by lia.
        rewrite nth_error_app2, Nat.sub_diag by lia. reflexivity.
  Qed.

  (** ** Aggregates *)

  Lemma first_pos_spec x l i : match first_pos i x l with
    | Some j => i <= j < i + length l /\ nth_error l (j - i) = Some x
    | None => ~ In x l
    end.
  Proof.
    revert i. induction l as [|y l IH]; intros i; cbn [first_pos length]; [tauto|].
    destruct (pexpr_eqb x y) eqn:E.
    - apply pexpr_eqb_eq in E as ->. split; [lia|]. now rewrite Nat.sub_diag.
    - apply pexpr_eqb_neq in E. specialize (IH (S i)). destruct (first_pos (S i) x l) as [j|].
      + destruct IH as [H1 H2]. split; [lia|]. replace (j - i) with (S (j - S i)) by lia. exact H2.
      + intros [H|H]; [congruence|auto].
  Qed.
  Lemma last_pos_spec x l i : match last_pos i x l with
    | Some j => i <= j < i + length l /\ nth_error l (j - i) = Some x
    | None => ~ In x l
    end.
  Proof.
    revert i. induction l as [|y l IH]; intros i; cbn [last_pos length]; [tauto|].
    specialize (IH (S i)). destruct (last_pos (S i) x l) as [j|].
    - destruct IH as [H1 H2]. split; [lia|]. replace (j - i) with (S (j - S i)) by lia. exact H2.
    - destruct (pexpr_eqb x y) eqn:E.
      + apply pexpr_eqb_eq in E as ->. split; [lia|]. now rewrite Nat.sub_diag.
      + apply pexpr_eqb_neq in E. intros [H|H]; [congruence|auto].
  Qed.

  Definition first_step (seen : list pexpr) (x : pexpr) : list pexpr :=
    if existsb (pexpr_eqb x) seen then seen else seen ++ [x].
  Lemma existsb_in x l : existsb (pexpr_eqb x) l = true <-> In x l.
  Proof.
    rewrite existsb_exists. split.
    - intros (y & H & E). apply pexpr_eqb_eq in E as ->. auto.
    - intros H. exists x. split; auto. apply pexpr_eqb_refl.
  Qed.
  Lemma intern_spec xs x : intern xs x = (first_step xs x, snd (intern xs x)) /\
    nth_error (first_step xs x) (N.to_nat (snd (intern xs x))) = Some x.
  Proof.
    unfold intern, first_step. pose proof (first_pos_spec x xs 0) as H. destruct (first_pos 0 x xs) as [j|].
    - destruct H as [H1 H2]. rewrite Nat.sub_0_r in H2.
      assert (existsb (pexpr_eqb x) xs = true) as ->. { apply existsb_in. eapply nth_error_In; eauto. }
      cbn [fst snd]. rewrite Nat2N.id. auto.
    - assert (existsb (pexpr_eqb x) xs = false) as ->.
      { apply not_true_is_false. now rewrite existsb_in. }
      cbn [fst snd]. rewrite Nat2N.id, nth_error_app2, Nat.sub_diag by lia. auto.
  Qed.
  Lemma first_step_nodup xs x : NoDup xs -> NoDup (first_step xs x).
  Proof.
    unfold first_step. intros H. destruct (existsb (pexpr_eqb x) xs) eqn:E; auto.
    apply NoDup_rev in H. rewrite <- (rev_involutive (xs ++ [x])). apply NoDup_rev. rewrite rev_app_distr. cbn.
    constructor; auto. rewrite <- in_rev, <- existsb_in. congruence.
  Qed.
  Lemma first_step_prefix xs x : exists t, first_step xs x = xs ++ t.
  Proof. unfold first_step. destruct (existsb _ _); [exists []; now rewrite app_nil_r|eauto]. Qed.
  Lemma firsts_prefix l xs : exists t, fold_left first_step l xs = xs ++ t.
  Proof.
    revert xs. induction l as [|x l IH]; intros xs; cbn [fold_left]; [exists []; now rewrite app_nil_r|].
    destruct (IH (first_step xs x)) as [t Ht]. destruct (first_step_prefix xs x) as [u Hu].
    rewrite Ht, Hu, <- app_assoc. eauto.
  Qed.
  Lemma firsts_nodup l xs : NoDup xs -> NoDup (fold_left first_step l xs).
  Proof. revert xs. induction l as [|x l IH]; intros xs H; cbn [fold_left]; auto. apply IH. now apply first_step_nodup. Qed.

  Definition at_pos (xs : list pexpr) (x : pexpr) (i : N) : Prop := nth_error xs (N.to_nat i) = Some x.
  Lemma at_pos_app xs t x i : at_pos xs x i -> at_pos (xs ++ t) x i.
  Proof. unfold at_pos. intros H. rewrite nth_error_app1; auto. apply nth_error_Some. congruence. Qed.

  Lemma intern_set_spec l : forall xs ys is, intern_set xs l = (ys, is) ->
    ys = fold_left first_step l xs /\ Forall2 (at_pos ys) l is.
  Proof.
    induction l as [|x l IH]; intros xs ys is H; cbn [intern_set fold_left] in *.
    - injection H as <- <-. split; constructor.
    - destruct (intern_spec xs x) as [E Hp]. destruct (intern xs x) as [zs i]. cbn [snd] in *.
      injection E as ->. destruct (intern_set (first_step xs x) l) as [ws js] eqn:Ew. injection H as <- <-.
      apply IH in Ew as [-> Hf]. split; auto. constructor; auto.
      destruct (firsts_prefix l (first_step xs x)) as [t Ht]. rewrite Ht. now apply at_pos_app.
  Qed.
  Lemma intern_sets_spec l : forall xs ys gs, intern_sets xs l = (ys, gs) ->
    ys = fold_left first_step (concat l) xs /\
    Forall2 (fun s g => gr_exprs g = [] /\ Forall2 (at_pos ys) s (gr_refs g)) l gs.
  Proof.
    induction l as [|s l IH]; intros xs ys gs H; cbn [intern_sets concat] in *.
    - injection H as <- <-. split; constructor.
    - rewrite fold_left_app. destruct (intern_set xs s) as [zs is] eqn:Es.
      apply intern_set_spec in Es as [-> Hs].
      destruct (intern_sets (fold_left first_step s xs) l) as [ws hs] eqn:Ew. injection H as <- <-.
      apply IH in Ew as [-> Hf]. split; auto. constructor; auto. split; auto. cbn [gr_refs].
      eapply Forall2_imp; [|apply Hs]. intros x i Hi.
      destruct (firsts_prefix (concat l) (fold_left first_step s xs)) as [t Ht]. rewrite Ht. now apply at_pos_app.
  Qed.
  Lemma build_grouping_fields_spec sets groups gexprs : build_grouping_fields sets = (groups, gexprs) ->
    gexprs = firsts (concat sets) /\ NoDup gexprs /\
    Forall2 (fun s g => gr_exprs g = [] /\ Forall2 (at_pos gexprs) s (gr_refs g)) sets groups.
  Proof.
    unfold build_grouping_fields. destruct (intern_sets [] sets) as [ys gs] eqn:E. intros [= <- <-].
    apply intern_sets_spec in E as [E1 E2]. split; [exact E1|]. split; [|exact E2]. rewrite E1. apply firsts_nodup. constructor.
  Qed.

  Lemma lower_outputs_ok gexprs l : forall before ms m,
    lower_outputs e gexprs (length before) l = Ok (ms, m) ->
    (Z.of_nat (length gexprs + length before + length l) <= column_limit)%Z ->
    exists items, ms = measures_of items /\
      Forall2 (fun c i => exists x, lower_expr e c = Ok x /\
                 match i with
                 | inl y => y = x /\ In x gexprs
                 | inr m => ~ In x gexprs /\ exists f a t fn, c = XCall f a t /\
                              lower_measure e (f, a, t) = Ok fn /\ m = mk_measure (Some fn) None
                 end) l items /\
      Forall2 (fun i z => aggregate_column gexprs (before ++ ms) z = Some i) items m.
  Proof.
    induction l as [|c l IH]; intros before ms m H Hn; cbn [lower_outputs] in H.
    - injection H as <- <-. exists []. repeat split; constructor.
    - cbn [length] in Hn. apply rbind_ok in H as (x & Hx & H).
      pose proof (last_pos_spec x gexprs 0) as Hp. destruct (last_pos 0 x gexprs) as [j|].
      + destruct Hp as [H1 H2]. rewrite Nat.sub_0_r in H2.
        apply rbind_ok in H as ([ms' m'] & Hr & H). cbn [fst snd] in H. injection H as <- <-.
        apply IH in Hr as (items & -> & Hi & Hz); [|lia]. exists (inl x :: items). split; [reflexivity|].
        split; constructor; auto.
        * exists x. split; auto. split; auto. eapply nth_error_In; eauto.
        * rewrite wrap_index by lia. unfold aggregate_column. replace (Z.of_nat j <? 0)%Z with false by lia.
          rewrite Nat2Z.id, nth_error_app1 by (rewrite map_length; lia). now rewrite nth_error_map, H2.
      + destruct c as [| |f a t| |]; try discriminate.
        apply rbind_ok in H as (fn & Hf & H). apply rbind_ok in H as ([ms' m'] & Hr & H). cbn [fst snd] in H.
        injection H as <- <-. specialize (IH (before ++ [mk_measure (Some fn) None]) ms' m').
        rewrite app_length in IH. cbn [length] in IH. rewrite Nat.add_1_r in IH.
        apply IH in Hr as (items & -> & Hi & Hz); [|lia]. rewrite <- app_assoc in Hz. cbn [app] in Hz.
        exists (inr (mk_measure (Some fn) None) :: items). split; [reflexivity|]. split; constructor; auto.
        * exists x. split; auto. split; auto. exists f, a, t, fn. auto.
        * rewrite <- Nat2Z.inj_add, wrap_index by lia. unfold aggregate_column.
          match goal with |- context [(?z <? 0)%Z] => replace (z <? 0)%Z with false by lia end.
          rewrite Nat2Z.id, nth_error_app2, map_length by (rewrite map_length; lia).
          replace (length gexprs + length before - length gexprs) with (length before) by lia.
          rewrite nth_error_map, nth_error_app2, Nat.sub_diag by lia. reflexivity.
  Qed.
End Read.
