(** A tree of pairs stands for at most one value. *)
From Coq Require Import String List NArith Bool Lia Arith.
From Verif Require Import Base BaseFacts Names Anchors Types Literals Exprs ExtArgs Registry RelGrammar Pest SpecGrammar.
Import ListNotations.
Local Open Scope string_scope.
Local Open Scope list_scope.
Local Open Scope nat_scope.

Definition functional {A B} (v : A -> B -> Prop) : Prop := forall t a b, v t a -> v t b -> a = b.

Lemma fun_leaf nm : functional (fun t s => t = leaf nm s).
Proof. intros t a b -> [= ->]. reflexivity. Qed.
Lemma fun_node {A} nm (v : list tree -> A -> Prop) : functional v -> functional (is_node nm v).
Proof. intros H t a b (x & ch & -> & Ha) (y & ch' & [= <- <-] & Hb). eauto. Qed.
Lemma fun_one {A} (v : tree -> A -> Prop) : functional v -> functional (one v).
Proof. intros H t a b (x & -> & Ha) (y & [= <-] & Hb). eauto. Qed.
Lemma fun_forall {A} (v : tree -> A -> Prop) : functional v -> functional (Forall2 v).
Proof.
  intros H t a b Ha. revert b. induction Ha; intros b Hb; inversion Hb; subst; auto. f_equal; eauto.
Qed.
Lemma fun_maybe {A} (v : tree -> A -> Prop) : functional v -> functional (maybe (one v)).
Proof.
  intros H t [a|] [b|]; cbn; intros Ha Hb; auto.
  - f_equal. eapply fun_one; eauto.
  - destruct Ha as (? & -> & _). discriminate.
  - destruct Hb as (? & -> & _). discriminate.
Qed.
Lemma fun_name : functional name_pairs.
Proof.
  intros t [a|a] [b|b]; cbn; intros (x & ch & -> & ->) (y & ch' & [= <- <-] & E); try discriminate;
    injection E as ->; reflexivity.
Qed.
Lemma fun_integer nm : functional (integer_pairs nm).
Proof. apply fun_node. intros t a b -> [= ->]. reflexivity. Qed.

(** Optional anchors between other pairs. *)
Lemma maybe_cases {A} (v : tree -> A -> Prop) ts o : maybe (one v) ts o ->
  ts = [] /\ o = None \/ exists t a, ts = [t] /\ o = Some a /\ v t a.
Proof. destruct o as [a|]; cbn; [|auto]. intros (t & -> & H). right. eauto. Qed.
Ltac anchors :=
  repeat match goal with
  | H : maybe (one _) _ _ |- _ => apply maybe_cases in H as [(? & ?)|(? & ? & ? & ? & ?)]; subst
  end.
Lemma integer_node nm t s : integer_pairs nm t s -> exists x ch, t = Node nm x ch.
Proof. intros (x & ch & -> & _). eauto. Qed.

Lemma fun_fref : functional fref_pairs.
Proof.
  apply fun_node. intros ch f g (a & u & -> & Ha & Hu) (a' & u' & E & Ha' & Hu').
  destruct f as [n1 f1 g1], g as [n2 f2 g2]; cbn in *. anchors; try discriminate; cbn in E;
    repeat match goal with H : integer_pairs _ _ _ |- _ => unfold integer_pairs, is_node in H end;
    repeat match goal with H : exists _, _ |- _ => destruct H | H : _ /\ _ |- _ => destruct H end; subst;
    try discriminate; injection E; intros; subst; congruence.
Qed.
Lemma fun_null : functional null_pairs.
Proof. intros t [] [] -> [=]; reflexivity || discriminate. Qed.
Lemma fun_litval : functional litval_pairs.
Proof. intros t [] [] -> [=]; subst; reflexivity || discriminate. Qed.

(** ** Nested pairs *)

Fixpoint size (t : tree) : nat :=
  match t with
  | Node _ _ ch => S ((fix go (l : list tree) : nat := match l with [] => 0 | u :: l => size u + go l end) ch)
  end.
Fixpoint sizes (l : list tree) : nat := match l with [] => 0 | u :: l => size u + sizes l end.
Lemma size_node n x ch : size (Node n x ch) = S (sizes ch).
Proof. cbn [size]. f_equal. Qed.
Lemma sizes_app l m : sizes (l ++ m) = sizes l + sizes m.
Proof. induction l; cbn [app sizes]; lia. Qed.
Lemma size_in t ts : In t ts -> size t <= sizes ts.
Proof. induction ts as [|u ts IH]; cbn [In sizes]; [tauto|]. intros [->|H]; [lia|]. specialize (IH H). lia. Qed.
Lemma fun_forall_in {A} (v : tree -> A -> Prop) ts a b :
  (forall t, In t ts -> forall a b, v t a -> v t b -> a = b) -> Forall2 v ts a -> Forall2 v ts b -> a = b.
Proof.
  intros H Ha. revert b. induction Ha; intros b Hb; inversion Hb; subst; auto.
  f_equal; [eapply H; eauto; now left|]. apply IHHa; auto. intros u Hu. apply H. now right.
Qed.
Lemma prec_rule_inj k l : prec_rule k = prec_rule l -> k = l.
Proof. destruct k, l; auto; discriminate. Qed.

Ltac same_anchors :=
  anchors;
  repeat match goal with H : integer_pairs _ _ _ |- _ => unfold integer_pairs, is_node in H end;
  repeat match goal with H : exists _, _ |- _ => destruct H | H : _ /\ _ |- _ => destruct H end; subst;
  cbn [app] in *; try discriminate;
  repeat match goal with H : _ :: _ = _ :: _ |- _ => injection H; clear H; intros; subst end; try discriminate.

Ltac measure :=
  try match goal with H : In ?t ?l |- _ => pose proof (size_in t l H) end;
  repeat (rewrite ?size_node, ?sizes_app in *; cbn [sizes] in * ); lia.
Ltac same_null :=
  repeat match goal with n : nullability |- _ => destruct n end; try discriminate.

Lemma fun_type_n n : forall t, size t < n ->
  (forall a b, type_pairs t a -> type_pairs t b -> a = b) /\ (forall a b, param_pairs t a -> param_pairs t b -> a = b).
Proof.
  induction n as [|n IH]; intros t Hs; [lia|].
  assert (IT : forall t, size t < n -> forall a b, type_pairs t a -> type_pairs t b -> a = b) by (intros; now apply (IH t0)).
  assert (IP : forall ts a b, sizes ts < n -> Forall2 param_pairs ts a -> Forall2 param_pairs ts b -> a = b).
  { intros ts a b Hn. apply fun_forall_in. intros u Hu. apply IH. pose proof (size_in _ _ Hu). lia. }
  clear IH. split; intros a b Ha Hb.
  - destruct Ha; inversion Hb; subst; clear Hb;
    try (match goal with H : context [prec_rule ?k] |- _ => is_var k; destruct k; discriminate H end);
    try (match goal with H : null_pairs ?t _, H' : null_pairs ?t _ |- _ =>
           pose proof (fun_null _ _ _ H H'); subst end).
    + reflexivity.
    + f_equal. eapply IT; [|eassumption|eassumption]. measure.
    + f_equal; (eapply IT; [|eassumption|eassumption]); measure.
    + f_equal; (eapply IP; [|eassumption|eassumption]); measure.
    + destruct k, k0; try discriminate; reflexivity.
    + reflexivity.
    + unfold null_pairs in *. same_anchors; same_null; reflexivity.
    + exfalso. unfold null_pairs in *. same_anchors.
    + exfalso. unfold null_pairs in *. same_anchors.
    + unfold null_pairs in *. same_anchors; same_null; do 2 f_equal; (eapply IP; [|eassumption|eassumption]); measure.
  - destruct Ha as [x t c Ht|x s|x t c Ht]; inversion Hb; subst; clear Hb.
    + f_equal. eapply IT; [|eassumption|eassumption]. measure.
    + inversion Ht.
    + inversion Ht; subst; destruct n0; match goal with H : name_pairs _ _ |- _ => destruct H as (? & ? & ? & ?); discriminate end.
    + match goal with H : type_pairs _ _ |- _ => inversion H end.
    + reflexivity.
    + match goal with H : name_pairs _ ?n |- _ => destruct n; destruct H as (? & ? & ? & ?); discriminate end.
    + match goal with H : type_pairs _ _ |- _ => inversion H; subst end;
        destruct c; destruct Ht as (? & ? & ? & ?); discriminate.
    + destruct c; destruct Ht as (? & ? & ? & ?); discriminate.
    + f_equal. eapply fun_name; eassumption.
Qed.
Lemma fun_type : functional type_pairs.
Proof. intros t. exact (proj1 (fun_type_n (S (size t)) t (le_n _))). Qed.
Lemma fun_param : functional param_pairs.
Proof. intros t. exact (proj2 (fun_type_n (S (size t)) t (le_n _))). Qed.

Lemma fun_behavior : functional (fun t (k : N) => t = leaf "cast_failure_behavior" [k]).
Proof. intros t a b -> [=]. auto. Qed.
Lemma type_node t c : type_pairs t c -> exists x ch, t = Node "type" x ch.
Proof. intros H; destruct H; eauto. Qed.
Lemma expr_node t c : expr_pairs t c -> exists x ch, t = Node "expression" x ch.
Proof. intros H; destruct H; eauto. Qed.

Lemma fun_expr_n n : forall t, size t < n -> forall a b, expr_pairs t a -> expr_pairs t b -> a = b.
Proof.
  induction n as [|n IH]; intros t Hs a b Ha Hb; [lia|].
  assert (IP : forall ts a b, sizes ts < n -> Forall2 expr_pairs ts a -> Forall2 expr_pairs ts b -> a = b).
  { intros ts l l' Hn. apply fun_forall_in. intros u Hu. apply IH. pose proof (size_in _ _ Hu). lia. }
  destruct Ha; inversion Hb; subst; clear Hb;
    try (match goal with H : integer_pairs _ _ _ |- _ => destruct H as (? & ? & ? & ?); discriminate end).
  - match goal with H : ?l ++ [?t] = _ ++ [_] |- _ => apply app_inj_tail in H as [<- <-] end. f_equal.
    + eapply fun_forall_in; [|eassumption|eassumption].
      intros u Hu [p q] [p' q'] (z & e & f & -> & E1 & E2) (z' & e' & f' & [= <- <- <-] & E1' & E2'). cbn in *.
      f_equal; (eapply IH; [|eassumption|eassumption]); measure.
    + eapply IH; [|eassumption|eassumption]. measure.
  - match goal with H : _ ++ [?u] = _ ++ [?v] |- _ => apply app_inj_tail in H as [<- <-] end. f_equal.
    + eapply IH; [|eassumption|eassumption]. measure.
    + eapply (fun_maybe _ fun_behavior); eassumption.
    + eapply fun_type; eassumption.
  - f_equal.
    + eapply fun_fref; eassumption.
    + eapply IP; [|eassumption|eassumption]. measure.
    + eapply fun_type; eassumption.
  - f_equal. eapply fun_integer; eassumption.
  - do 2 f_equal; [eapply fun_litval; eassumption|eapply (fun_maybe _ fun_type); eassumption].
Qed.
Lemma fun_expr : functional expr_pairs.
Proof. intros t. exact (fun_expr_n (S (size t)) t (le_n _)). Qed.

Lemma fun_xarg_n n : forall t, size t < n -> forall a b, xarg_pairs t a -> xarg_pairs t b -> a = b.
Proof.
  induction n as [|n IH]; intros t Hs a b Ha Hb; [lia|].
  assert (IP : forall ts a b, sizes ts < n -> Forall2 xarg_pairs ts a -> Forall2 xarg_pairs ts b -> a = b).
  { intros ts l l' Hn. apply fun_forall_in. intros u Hu. apply IH. pose proof (size_in _ _ Hu). lia. }
  destruct Ha; inversion Hb; subst; clear Hb;
    repeat match goal with H : expr_pairs _ _ |- _ => pose proof (expr_node _ _ H) as (? & ? & ?); revert H end;
    intros; subst;
    try (match goal with H : integer_pairs _ _ _ |- _ => destruct H as (? & ? & ? & ?); discriminate end);
    try discriminate; try reflexivity; f_equal.
  - eapply fun_litval; eassumption.
  - eapply fun_integer; eassumption.
  - eapply fun_expr; eassumption.
  - eapply IP; [|eassumption|eassumption]. measure.
Qed.
Lemma fun_xarg : functional xarg_pairs.
Proof. intros t. exact (fun_xarg_n (S (size t)) t (le_n _)). Qed.

(** ** Lines *)

(** [fun_pair]: the views of the parts are functional, so is the view of the whole. *)
Ltac nodes :=
  repeat match goal with
  | H : is_node _ _ _ _ |- _ => destruct H as (? & ? & ? & H)
  | H : one _ _ _ |- _ => destruct H as (? & ? & H)
  | H : exists _, _ |- _ => destruct H
  | H : _ /\ _ |- _ => destruct H
  | H : Node _ _ _ = Node _ _ _ |- _ => injection H; clear H; intros; subst
  | H : leaf _ _ = leaf _ _ |- _ => injection H; clear H; intros; subst
  | H : _ :: _ = _ :: _ |- _ => injection H; clear H; intros; subst
  | H : [] = _ :: _ |- _ => discriminate H
  | H : _ :: _ = [] |- _ => discriminate H
  | H : ?x = _ |- _ => is_var x; subst x
  end.
Ltac agree := first
  [ assumption | reflexivity | eapply fun_name; eassumption | eapply fun_type; eassumption | eapply fun_expr; eassumption
  | eapply fun_xarg; eassumption | eapply fun_integer; eassumption
  | eapply (fun_forall _ fun_name); eassumption | eapply (fun_forall _ fun_expr); eassumption
  | eapply (fun_forall _ fun_xarg); eassumption | eapply (fun_forall _ (fun_integer _)); eassumption ].

Lemma fun_xnamed : functional xnamed_pairs.
Proof. intros t [a b] [c d] Ha Hb. unfold xnamed_pairs in *. nodes. cbn in *. f_equal; agree. Qed.
Lemma fun_xargs : functional xargs_pairs.
Proof.
  apply fun_node. intros ch [a b] [c d] Ha Hb. cbn in *.
  destruct Ha as [([-> | ->] & E)|[((t & -> & Ha) & E)|[(p & q & -> & Ha & Hq)|((t & -> & Ha) & E)]]];
  destruct Hb as [([F|F] & E')|[((t' & F & Hb) & E')|[(p' & q' & F & Hb & Hq')|((t' & F & Hb) & E')]]];
    nodes; try congruence;
    repeat match goal with H : _ = leaf _ _ |- _ => discriminate H | H : leaf _ _ = _ |- _ => discriminate H end;
    f_equal; first [agree | eapply (fun_forall _ fun_xnamed); eassumption].
Qed.
Lemma fun_column : functional column_pairs.
Proof. intros t [a b] [c d] Ha Hb. unfold column_pairs in *. nodes. cbn in *. f_equal; agree. Qed.
Lemma fun_columns : functional columns_pairs.
Proof. apply fun_node, fun_forall, fun_column. Qed.
Lemma fun_references : functional references_pairs.
Proof. apply fun_node, fun_forall, fun_integer. Qed.
Lemma fun_expressions : functional expressions_pairs.
Proof. apply fun_node, fun_forall, fun_expr. Qed.

(** Views of different rules do not meet. *)
Lemma node_name {A} nm (v : list tree -> A -> Prop) t a : is_node nm v t a -> exists x ch, t = Node nm x ch.
Proof. intros (x & ch & -> & _). eauto. Qed.
Lemma leaf_name nm s t : t = leaf nm s -> exists x ch, t = Node nm x ch.
Proof. intros ->. unfold leaf. eauto. Qed.
Ltac root_of H := first [apply expr_node in H | apply type_node in H | apply leaf_name in H | apply node_name in H].
Ltac clash Ha Hb :=
  exfalso; root_of Ha; root_of Hb; destruct Ha as (? & ? & ->); destruct Hb as (? & ? & Hb); discriminate Hb.

Lemma fun_xcolumn : functional xcolumn_pairs.
Proof.
  apply fun_node, fun_one. intros t [a|a|a] [b|b|b] Ha Hb; try solve [clash Ha Hb]; f_equal;
    [eapply fun_column; eassumption|agree|agree].
Qed.
Lemma fun_output : functional output_pairs.
Proof.
  apply fun_node, fun_one. intros t [a|a o] [b|b p] Ha Hb; try solve [clash Ha Hb].
  - f_equal. revert Ha Hb. apply fun_node, fun_one, fun_columns.
  - nodes. f_equal; [eapply fun_columns; eassumption|eapply (fun_maybe _ fun_references); eassumption].
Qed.
Lemma empty_node t : empty_pair t -> exists x ch, t = Node "empty" x ch.
Proof. intros ->. unfold leaf. eauto. Qed.
(** A list or [_]. *)
Lemma fun_or_empty {A} (v : tree -> list A -> Prop) nm : functional v -> nm <> "empty" ->
  (forall t l, v t l -> exists x ch, t = Node nm x ch) ->
  functional (fun t l => v t l \/ empty_pair t /\ l = []).
Proof.
  intros H Hn Hv t a b [Ha|[Ea ->]] [Hb|[Eb ->]]; eauto.
  - apply Hv in Ha as (? & ? & ->). apply empty_node in Eb as (? & ? & [= ? ? ?]). congruence.
  - apply Hv in Hb as (? & ? & ->). apply empty_node in Ea as (? & ? & [= ? ? ?]). congruence.
Qed.
Lemma fun_row : functional row_pairs.
Proof.
  apply fun_node. intros ch a b [[-> ->]|Ha] [[F ->]|Hb]; auto.
  - destruct Hb as (? & ? & _). discriminate.
  - destruct Ha as (? & -> & _). discriminate.
  - revert Ha Hb. apply fun_one, fun_expressions.
Qed.
Lemma fun_rows : functional rows_pairs.
Proof.
  apply fun_node, fun_one, (fun_or_empty _ "virtual_row_list"); [|discriminate|].
  - apply fun_node, fun_forall, fun_row.
  - intros t l H. now apply node_name in H.
Qed.
Lemma fun_grouping_set : functional grouping_set_pairs.
Proof.
  apply fun_node, fun_one, (fun_or_empty _ "expression_list"); [|discriminate|].
  - apply fun_expressions.
  - intros t l H. now apply node_name in H.
Qed.
Lemma fun_group_by : functional group_by_pairs.
Proof.
  apply fun_node, fun_one. intros t [a|a] [b|b] Ha Hb; try solve [clash Ha Hb]; f_equal.
  - revert Ha Hb. apply fun_node, fun_forall, fun_grouping_set.
  - eapply fun_expressions; eassumption.
Qed.
Lemma fun_sort_field : functional sort_field_pairs.
Proof. apply fun_node. intros ch [a b] [c d] Ha Hb. nodes. cbn in *. subst. f_equal; agree. Qed.
Lemma fun_fetch_value : functional fetch_value_pairs.
Proof.
  apply fun_node, fun_one. intros t [a|a] [b|b] Ha Hb; try solve [clash Ha Hb]; f_equal; [|agree].
  subst t. now injection Hb.
Qed.
Lemma fun_fetch_arg : functional fetch_arg_pairs.
Proof.
  apply fun_node. intros ch [a b] [c d] (v & -> & Ha) (v' & [= E <-] & Hb). cbn in *. subst. f_equal.
  eapply fun_fetch_value; eassumption.
Qed.
Lemma fun_project_arg : functional project_arg_pairs.
Proof.
  apply fun_node, fun_one. intros t [a|a] [b|b] Ha Hb; try solve [clash Ha Hb]; f_equal; agree.
Qed.

Lemma fun_relation : functional relation_pairs.
Proof.
  intros t y z Hy Hz. destruct y, z; try solve [clash Hy Hz]; cbn [relation_pairs] in *.
  - f_equal. revert Hy Hz. apply fun_node, fun_one, fun_node, fun_forall, fun_name.
  - destruct Hy as (? & ? & -> & n & u & -> & H1 & H2), Hz as (? & ? & [= <- <-] & n' & u' & [= <- <-] & H3 & H4).
    f_equal; [|eapply fun_output; eassumption]. revert H1 H3. apply fun_node, fun_forall, fun_name.
  - f_equal. revert Hy Hz. apply fun_node, fun_one, fun_columns.
  - destruct Hy as (? & ? & -> & r & f & c & -> & H1 & H2 & H3), Hz as (? & ? & [= <- <-] & r' & f' & c' & [= <- E] & H4 & H5 & H6).
    assert (f' = f /\ c' = c) as [-> ->].
    { change [c; leaf "EOI" []] with ([c] ++ [leaf "EOI" []]) in E.
      change [c'; leaf "EOI" []] with ([c'] ++ [leaf "EOI" []]) in E. rewrite !app_assoc in E.
      apply app_inj_tail in E as [E _]. now apply app_inj_tail in E. }
    f_equal; [eapply fun_rows; eassumption| |eapply fun_columns; eassumption].
    revert H2 H5. apply fun_maybe, fun_node, fun_one, fun_expr.
  - nodes. f_equal; first [agree|eapply fun_references; eassumption].
  - f_equal. revert Hy Hz. apply fun_node, fun_one, fun_node, fun_forall, fun_project_arg.
  - destruct Hy as (? & ? & -> & n & u & -> & H1 & H2), Hz as (? & ? & [= <- <-] & n' & u' & [= <- <-] & H3 & H4).
    f_equal; [eapply fun_group_by; eassumption|]. revert H2 H4. apply fun_node, fun_forall, fun_expr.
  - destruct Hy as (? & ? & -> & n & u & -> & H1 & H2), Hz as (? & ? & [= <- <-] & n' & u' & [= <- <-] & H3 & H4).
    f_equal; [|eapply fun_references; eassumption]. revert H1 H3. apply fun_node, fun_forall, fun_sort_field.
  - destruct Hy as (? & ? & -> & n & u & -> & H1 & H2), Hz as (? & ? & [= <- <-] & n' & u' & [= <- <-] & H3 & H4).
    f_equal; [|eapply fun_references; eassumption]. revert H1 H3.
    apply (fun_or_empty _ "fetch_named_arg_list"); [apply fun_node, fun_forall, fun_fetch_arg|discriminate|].
    intros t l H. now apply node_name in H.
  - destruct Hy as (? & ? & -> & a & p & b & -> & H1 & H2 & H3), Hz as (? & ? & [= <- <-] & a' & p' & b' & [= -> <- E] & H4 & H5 & H6).
    apply app_inj_tail in E as [<- <-]. f_equal; [agree| |eapply fun_references; eassumption].
    revert H2 H5. apply fun_maybe, fun_node, fun_one, fun_expr.
  - nodes. f_equal; first [agree|eapply fun_references; eassumption].
  - f_equal. revert Hy Hz. apply fun_node, fun_one, fun_references.
  - destruct Hy as (? & ? & -> & n & a & c & -> & H1 & H2 & H3), Hz as (? & ? & [= <- <-] & n' & a' & c' & [= <- <- <-] & H4 & H5 & H6).
    destruct H1 as (? & ? & -> & u & -> & H1), H4 as (? & ? & [= <- <-] & u' & [= E <-] & H4).
    f_equal.
    + destruct k, k0; try discriminate; reflexivity.
    + agree.
    + eapply fun_xargs; eassumption.
    + destruct H3 as [[-> ->]|H3], H6 as [[F ->]|H6]; auto.
      * destruct H6 as (? & ? & _). discriminate.
      * destruct H3 as (? & -> & _). discriminate.
      * revert H3 H6. apply fun_one, fun_node, fun_forall, fun_xcolumn.
Qed.
Lemma fun_addendum : functional addendum_pairs.
Proof.
  intros t [k n a] [k' n' a'] (? & ? & -> & s & u & v & -> & E & H1 & H2)
    (? & ? & [= <- <-] & s' & u' & v' & [= <- <- <-] & E' & H3 & H4).
  f_equal; [|agree|eapply fun_xargs; eassumption].
  destruct k, k'; cbn in *; congruence.
Qed.
Lemma addendum_node t a : addendum_pairs t a -> exists x ch, t = Node "addendum" x ch.
Proof. destruct a. apply node_name. Qed.
Lemma relation_not_addendum t y : relation_pairs t y -> (exists x ch, t = Node "addendum" x ch) -> False.
Proof. intros H (? & ? & ->). destruct y; root_of H; destruct H as (? & ? & H); discriminate. Qed.
Lemma fun_line : functional line_pairs.
Proof.
  intros t [a|a] [b|b] Ha Hb; cbn in *.
  - f_equal. eapply fun_relation; eassumption.
  - elim (relation_not_addendum _ _ Ha (addendum_node _ _ Hb)).
  - elim (relation_not_addendum _ _ Hb (addendum_node _ _ Ha)).
  - f_equal. eapply fun_addendum; eassumption.
Qed.
Lemma fun_plan_node : functional node_pairs.
Proof. intros t a b [_ Ha] [_ Hb]. revert Ha Hb. apply fun_node, fun_one, fun_line. Qed.
Lemma fun_top : functional top_pairs.
Proof.
  apply fun_node, fun_one. intros t a b [[Ra Ha]|[Ra Ha]] [[Rb Hb]|[Rb Hb]].
  - eapply fun_line; eassumption.
  - exfalso. destruct a as [[]|]; try discriminate. cbn in Ha. root_of Ha. root_of Hb.
    destruct Ha as (? & ? & ->), Hb as (? & ? & Hb). discriminate.
  - exfalso. destruct b as [[]|]; try discriminate. cbn in Hb. root_of Ha. root_of Hb.
    destruct Ha as (? & ? & ->), Hb as (? & ? & Hb). discriminate.
  - revert Ha Hb. apply fun_node, fun_one, fun_line.
Qed.
Lemma fun_urn_declaration : functional urn_declaration_pairs.
Proof. apply fun_node. intros ch [a b] [c d] (x & -> & Ha) (y & [= <- E] & Hb). cbn in *. subst. f_equal. agree. Qed.
Lemma fun_simple_extension : functional simple_extension_pairs.
Proof.
  apply fun_node. intros ch [[a b] e] [[c d] f] (x & u & -> & Ha & Hu) (y & v & [= <- <- E] & Hb & Hv). cbn in *.
  subst. repeat f_equal; agree.
Qed.
Lemma fun_duration : functional duration_pairs.
Proof.
  apply fun_node. intros ch [[a b] e] [[c d] f] (x & y & z & -> & H1 & H2 & H3) (x' & y' & z' & E & H4 & H5 & H6).
  cbn in *. rewrite !app_assoc in E. apply app_inj_tail in E as [E _].
  destruct a, c, b, d, e, f; cbn [maybe] in *; nodes; subst; cbn in *; try discriminate;
    repeat match goal with H : integer_pairs _ _ _ |- _ => destruct H as (? & ? & ? & ?) end; nodes; cbn in *; try discriminate; try congruence.
  all: destruct p as [p1 p2], p0 as [q1 q2]; cbn in *; congruence.
Qed.
