(** What relation lines read from a text look like. *)
From Coq Require Import String List NArith ZArith Bool Lia.
From Verif Require Import Base BaseFacts Peg PegFacts PegYields Names SimpleExt Out Anchors Types Literals Exprs ExprsFacts ExprEq ExtArgs
  Registry Rels RelGrammar RelRead Tree Structural ExtReadFacts SpecRels RelReadFacts RelTreeFacts Plan.
Import ListNotations.
Local Open Scope list_scope.

(** ** Numbers *)

Lemma float_integer s x : g_float s = Some x -> g_integer s <> None.
Proof.
  unfold g_float, g_integer. intros H. apply pbind_inv in H as (m & r & Hm & H). apply pbind_inv in H as (d & r' & Hd & _).
  rewrite (pbind_some _ _ _ _ _ _ Hm eq_refl). rewrite (pbind_some _ _ _ _ _ _ Hd eq_refl). discriminate.
Qed.

(** The text of a number literal starts an integer. *)
Lemma litval_number s v r : g_litval s = Some (v, r) -> g_integer s = None ->
  match v with CFloat _ | CInt _ => False | _ => True end.
Proof.
  unfold g_litval. intros H Hi. unfold palt, pmap, pbind in H.
  destruct (g_float s) as [[f r']|] eqn:Ef. { apply float_integer in Ef. congruence. }
  rewrite Hi in H. destruct (g_boolean s) as [[b r']|]. { now injection H as <- <-. }
  destruct (g_string_literal s) as [[b r']|]. { now injection H as <- <-. }
  destruct (g_null s) as [[b r']|]; [|discriminate]. now injection H as <- <-.
Qed.

Lemma expr_F_number ex s c r : expr_F ex s = Some (c, r) -> g_integer s = None ->
  match c with XLit (CFloat _, _) | XLit (CInt _, _) => False | _ => True end.
Proof.
  intros H Hi. unfold expr_F in H.
  apply palt_inv in H as [E1|[_ H]].
  { unfold g_if_then in E1. repeat (apply pthen_inv in E1 as (? & ? & _ & E1)).
    apply pbind_inv in E1 as (? & ? & _ & E1). repeat (apply pthen_inv in E1 as (? & ? & _ & E1)).
    apply pbind_inv in E1 as (? & ? & _ & E1). repeat (apply pthen_inv in E1 as (? & ? & _ & E1)).
    apply pret_inv in E1. injection E1 as -> _. exact I. }
  apply palt_inv in H as [E2|[_ H]].
  { unfold g_cast in E2. repeat (apply pthen_inv in E2 as (? & ? & _ & E2)).
    apply pbind_inv in E2 as (? & ? & _ & E2). repeat (apply pthen_inv in E2 as (? & ? & _ & E2)).
    apply pbind_inv in E2 as (? & ? & _ & E2). repeat (apply pthen_inv in E2 as (? & ? & _ & E2)).
    apply pbind_inv in E2 as (? & ? & _ & E2). apply pret_inv in E2. injection E2 as -> _. exact I. }
  apply palt_inv in H as [E|[_ H]]. { apply pmap_inv in E as ([[f a] t] & _ & ->). exact I. }
  apply palt_inv in H as [E|[_ H]]. { apply pmap_inv in E as (x & _ & ->). exact I. }
  apply pmap_inv in H as ([v t] & El & ->). unfold g_literal in El. apply pbind_inv in El as (v' & r1 & Hv & El).
  apply pbind_inv in El as (t' & r2 & _ & El). apply pret_inv in El. injection El as -> _ _.
  now apply litval_number in Hv.
Qed.

(** The values of a Fetch. *)
Definition fetch_value_ok (v : fvc) : Prop :=
  match v with
  | FvInt _ => True
  | FvExpr c => match c with XLit (CFloat _, _) | XLit (CInt _, _) => False | _ => True end
  end.
Lemma fetch_value_yields : yields fetch_value_ok g_fetch_value.
Proof.
  intros s v r H. unfold g_fetch_value in H. apply palt_inv in H as [H|[Hi H]].
  { apply pmap_inv in H as (i & _ & ->). exact I. }
  apply pmap_none_inv in Hi. apply pmap_inv in H as (c & Hc & ->). cbn.
  rewrite g_expr_eq in Hc. eapply expr_F_number; eauto.
Qed.

Definition fetch_line_ok (y : rline) : Prop :=
  match y with
  | YFetch args _ => Forall (fun a => fetch_value_ok (snd a)) args
  | _ => True
  end.

Ltac other_line := repeat first
  [ apply yields_then | eapply yields_bind; [apply yields_true|intros ? _] | apply yields_ret; exact I ].

Lemma fetch_line_yields : yields fetch_line_ok g_relation.
Proof.
  assert (Ho : forall p : peg rline, yields (fun y => match y with YFetch _ _ => False | _ => True end) p ->
            yields fetch_line_ok p).
  { intros p. apply yields_imp. intros []; cbn; tauto. }
  unfold g_relation. repeat apply yields_alt.
  all: unfold g_ext_read, g_virtual, g_read, g_filter, g_project, g_aggregate, g_sort, g_join, g_set, g_cross, g_ext;
    try solve [apply Ho; other_line].
  unfold g_fetch. do 2 apply yields_then.
  eapply yields_bind with (P := Forall (fun a => fetch_value_ok (snd a))).
  { apply yields_alt.
    - apply yields_sep1. unfold g_fetch_arg. eapply yields_bind; [apply yields_true|intros n _].
      do 3 apply yields_then. eapply yields_bind; [apply fetch_value_yields|]. intros v Hv. apply yields_ret. exact Hv.
    - eapply yields_map; [apply yields_true|]. intros _ _. constructor. }
  intros args Ha. apply yields_then. eapply yields_bind; [apply yields_true|intros refs _]. apply yields_then.
  apply yields_ret. exact Ha.
Qed.

Lemma readable_yields (P : rline -> Prop) : yields P g_relation -> (forall l, P (YRoot l)) ->
  forall y, readable y -> P y.
Proof.
  intros Hr Hroot y (s & H).
  assert (Hn : forall s r, g_node s = Some (inl y, r) -> P y).
  { intros s' r Hn. unfold g_node in Hn. apply palt_inv in Hn as [Hn|[_ Hn]].
    - apply pmap_inv in Hn as (z & Hz & [= ->]). eauto.
    - apply pmap_inv in Hn as (z & Hz & Ez). discriminate. }
  destruct H as [H|H].
  - unfold read_root in H. destruct (g_top s) as [[x r]|] eqn:E; [|discriminate].
    assert (x = inl y) by congruence. subst x. unfold g_top in E. apply palt_inv in E as [E|[_ E]]; [|eauto].
    apply pmap_inv in E as (z & Eg & [= ->]). unfold g_root in Eg.
    do 2 apply pthen_inv in Eg as (? & ? & _ & Eg). apply pbind_inv in Eg as (l & ? & _ & Eg).
    apply pthen_inv in Eg as (? & ? & _ & Eg). apply pret_inv in Eg. injection Eg as -> _. auto.
  - unfold read_node in H. destruct (g_node s) as [[x r]|] eqn:E; [|discriminate].
    assert (x = inl y) by congruence. subst x. eauto.
Qed.

Section Fetch.
  Context `{F : Floats}.
  Variable e : exts.

  Lemma lower_literal_number c l : lower_literal e c = Ok l -> is_number l = true ->
    match fst c with CFloat _ | CInt _ => True | _ => False end.
  Proof.
    unfold lower_literal. intros H Hn. apply rbind_ok in H as (t & _ & H).
    destruct (fst c); auto.
    - unfold to_boolean_literal in H. destruct t as [[[] ? ?| | | | | | | | | | | | |]|];
        try discriminate; injection H as <-; discriminate.
    - unfold to_string_literal in H. apply rbind_ok in H as (x & _ & H).
      destruct t as [[[] ? ?|[] ? ? ?|o ? ?| | | | | | | | | | |]|]; try (injection H as <-; discriminate);
        try (apply rbind_ok in H as (? & _ & H); injection H as <-; discriminate).
      destruct (match o with Some p => prec_of_units p | None => None end); [|discriminate].
      apply rbind_ok in H as (? & _ & H). injection H as <-. discriminate.
    - unfold to_null_literal in H. destruct t; [|discriminate]. injection H as <-. discriminate.
  Qed.

  Lemma lower_fetch_ok what v m : fetch_value_ok v -> lower_fetch_value e what v = Ok m -> bound_ok (Some m).
  Proof.
    destruct v as [s|c]; cbn [lower_fetch_value fetch_value_ok]; intros Hv H.
    - destruct (parse_i64 s) as [z|]; [|discriminate]. destruct (Z.ltb_spec z 0); [discriminate|].
      injection H as <-. intros _. exists z. split; [reflexivity|lia].
    - apply rmap_ok in H as (x & Hx & ->). cbn. destruct x as [l| | | | | |]; auto. intros Hn. exfalso.
      destruct c as [| | | |c]; cbn [lower_expr] in Hx.
      1-3: repeat (apply rbind_ok in Hx as (? & _ & Hx)); discriminate.
      + apply rmap_ok in Hx as (? & _ & Hx). discriminate.
      + apply rmap_ok in Hx as (l' & Hl & [= <-]). apply lower_literal_number in Hl; auto. destruct c as [[] ?]; auto.
  Qed.
End Fetch.
