(** Property C52: the arguments a handler converts are what the text says. *)
From Coq Require Import String List NArith ZArith Bool Lia.
From Verif Require Import Base BaseFacts Peg PegFacts PegYields Names NamesFacts SimpleExt Out Anchors Types Literals SpecLiterals LiteralsFacts
  Exprs SpecExprs ExprsFacts ExtArgs ExtArgsFacts ExtReadFacts Registry SpecRegistry PestFacts GrammarFacts.
Import ListNotations.
Local Open Scope string_scope.
Local Open Scope list_scope.
Local Open Scope nat_scope.
Local Open Scope peg_scope.

(** ** Scalars as texts *)

Lemma digits_read d r : digits_text d -> hd_not is_digit r = true -> pwhile1 is_digit (d ++ r) = Some (d, r).
Proof. intros [H1 H2] Hr. now apply pwhile1_app. Qed.
Lemma digits_head d : digits_text d -> exists c t, d = c :: t /\ is_digit c = true.
Proof. intros [H1 H2]. destruct d as [|c t]; [congruence|]. cbn in H2. apply andb_true_iff in H2 as [H2 _]. eauto. Qed.
Lemma digits_no_minus d r : digits_text d -> ptok (L "-") (d ++ r) = None.
Proof.
  intros H. destruct (digits_head d H) as (c & t & -> & Hc). apply (ptok_none_hd [] 45%N). cbn [app hd_not].
  destruct (N.eqb_spec 45 c); auto. subst. discriminate.
Qed.

Lemma int_read s r : int_text s -> hd_not is_digit r = true -> g_integer (s ++ r) = Some (s, r).
Proof.
  intros [H|(d & -> & H)] Hr; unfold g_integer.
  - eapply pbind_some; [apply popt_none, digits_no_minus, H|]. eapply pbind_some; [now apply digits_read|]. reflexivity.
  - eapply pbind_some; [apply popt_some; reflexivity|]. eapply pbind_some; [now apply digits_read|]. reflexivity.
Qed.
Lemma int_not_float s : int_text s -> g_float s = None.
Proof.
  intros [H|(d & -> & H)]; unfold g_float.
  - eapply pbind_some; [apply popt_none; rewrite <- (app_nil_r s); apply digits_no_minus, H|].
    rewrite <- (app_nil_r s). eapply pbind_some; [now apply digits_read|]. reflexivity.
  - eapply pbind_some; [apply popt_some; reflexivity|]. rewrite <- (app_nil_r d).
    eapply pbind_some; [now apply digits_read|]. reflexivity.
Qed.
Lemma float_read s : float_text s -> g_float s = Some (s, []).
Proof.
  intros (i & f & -> & Hi & Hf). unfold g_float. destruct Hi as [H|(d & -> & H)].
  - eapply pbind_some; [apply popt_none, digits_no_minus, H|]. eapply pbind_some; [now apply digits_read|].
    eapply pthen_some; [apply (ptok_app (L "."))|]. rewrite <- (app_nil_r f) at 1. eapply pbind_some; [now apply digits_read|]. reflexivity.
  - eapply pbind_some; [apply popt_some; reflexivity|]. eapply pbind_some; [now apply digits_read|].
    eapply pthen_some; [apply (ptok_app (L "."))|]. rewrite <- (app_nil_r f) at 1. eapply pbind_some; [now apply digits_read|]. reflexivity.
Qed.
Lemma pwhile1_digits s d r : pwhile1 is_digit s = Some (d, r) -> s = d ++ r /\ digits_text d.
Proof.
  unfold pwhile1. destruct (span is_digit s) as [x y] eqn:E. apply span_spec in E as (-> & H & _).
  destruct x; [discriminate|]. intros [= <- <-]. split; auto. split; [discriminate|exact H].
Qed.
Lemma int_inv s t r : g_integer s = Some (t, r) -> s = t ++ r /\ int_text t.
Proof.
  intros H. unfold g_integer in H. apply pbind_inv in H as (m & r1 & Hm & H). apply popt_inv in Hm.
  apply pbind_inv in H as (d & r2 & Hd & H). apply pwhile1_digits in Hd as [-> Hd]. apply pret_inv in H. injection H as -> ->.
  destruct m.
  - apply ptok_spec in Hm. subst s. split; [reflexivity|]. right. eauto.
  - destruct Hm as [_ <-]. split; [reflexivity|]. now left.
Qed.
Lemma float_inv s t r : g_float s = Some (t, r) -> s = t ++ r /\ float_text t.
Proof.
  intros H. unfold g_float in H. apply pbind_inv in H as (m & r1 & Hm & H). apply popt_inv in Hm.
  apply pbind_inv in H as (d & r2 & Hd & H). apply pwhile1_digits in Hd as [-> Hd]. apply pthen_inv in H as (u & r3 & Hp & H).
  apply ptok_spec in Hp. subst r2. apply pbind_inv in H as (f & r4 & Hf & H). apply pwhile1_digits in Hf as [-> Hf].
  apply pret_inv in H. injection H as -> ->. destruct m.
  - apply ptok_spec in Hm. subst s. split; [cbn; now rewrite <- app_assoc|]. exists (45%N :: d), f. split; auto. split; auto. right. eauto.
  - destruct Hm as [_ <-]. split; [now rewrite <- app_assoc|]. exists d, f. split; auto. split; auto. now left.
Qed.

(** ** Arguments as texts *)

Lemma litval_inv s c : g_litval s = Some (c, []) ->
  match c with
  | CFloat t => s = t /\ float_text t
  | CInt t => s = t /\ int_text t
  | CBool t => s = t /\ (t = L "true" \/ t = L "false")
  | CStr t => s = t /\ g_string_literal t = Some (t, [])
  | CNull => s = L "null"
  end.
Proof.
  unfold g_litval. intros H. apply palt_inv in H as [H|[_ H]].
  { apply pmap_inv in H as (t & H & ->). apply float_inv in H as [-> H]. now rewrite app_nil_r. }
  apply palt_inv in H as [H|[_ H]].
  { apply pmap_inv in H as (t & H & ->). apply int_inv in H as [-> H]. now rewrite app_nil_r. }
  apply palt_inv in H as [H|[_ H]].
  { apply pmap_inv in H as (t & H & ->). unfold g_boolean in H. cbn [ptoks] in H.
    apply palt_inv in H as [H|[_ H]].
    - apply pmap_inv in H as (u & H & ->). apply ptok_spec in H. subst s. split; auto.
    - apply palt_inv in H as [H|[_ H]]; [|discriminate]. apply pmap_inv in H as (u & H & ->). apply ptok_spec in H. subst s. split; auto. }
  apply palt_inv in H as [H|[_ H]].
  { apply pmap_inv in H as (t & H & ->). pose proof H as H0. apply g_quoted_split in H as [-> _]. rewrite app_nil_r in *. auto. }
  apply pmap_inv in H as (u & H & ->). apply ptok_spec in H. subst s. reflexivity.
Qed.

Lemma xarg_inv s c : g_xarg s = Some (c, []) ->
  match c with
  | VEnum t => s = L "&" ++ t /\ is_identifier t = true
  | VLit l => g_litval s = Some (l, [])
  | VRef t => s = L "$" ++ t /\ int_text t
  | VExpr x => g_expr s = Some (x, []) /\ (forall l, g_litval s <> Some (l, [])) /\ g_reference s = None
  | VTuple _ => g_expr s = None
  end.
Proof.
  rewrite g_xarg_eq. unfold xarg_F. intros H. apply palt_inv in H as [H|[_ H]].
  { apply pmap_inv in H as (t & H & ->). unfold g_enum_value in H. apply pthen_inv in H as (u & r & H1 & H). apply ptok_spec in H1. subst s.
    apply g_identifier_spec in H as (-> & H & _). now rewrite app_nil_r. }
  assert (K : forall l, g_litval s = Some (l, []) -> g_parameter_literal s = Some (l, [])).
  { intros l Hl. unfold g_parameter_literal. eapply pbind_some; [exact Hl|]. reflexivity. }
  apply palt_inv in H as [H|[N1 H]].
  { apply pmap_inv in H as (t & H & ->). unfold g_parameter_literal in H. apply pbind_inv in H as (l & r & H1 & H).
    apply pthen_inv in H as (u & r' & H2 & H). unfold pnot in H2. destruct (ptok (L ":") r); [discriminate|]. injection H2 as <- <-.
    apply pret_inv in H. injection H as -> <-. exact H1. }
  apply pmap_none_inv in N1. apply palt_inv in H as [H|[N2 H]].
  { apply pmap_inv in H as (t & H & ->). unfold g_reference in H. apply pthen_inv in H as (u & r & H1 & H). apply ptok_spec in H1. subst s.
    apply int_inv in H as (-> & H). now rewrite app_nil_r. }
  apply pmap_none_inv in N2. apply palt_inv in H as [H|[N3 H]].
  { apply pmap_inv in H as (t & H & ->). split; [exact H|]. split; [|exact N2]. intros l Hl. apply K in Hl. congruence. }
  apply pmap_none_inv in N3. apply pmap_inv in H as (t & H & ->). exact N3.
Qed.

Lemma xarg_lit s l : hd_not (N.eqb 38) s = true -> g_litval s = Some (l, []) -> g_xarg s = Some (VLit l, []).
Proof.
  intros H1 H. rewrite g_xarg_eq. unfold xarg_F. apply palt_r; [apply pmap_none; now apply enum_none|].
  apply palt_l, pmap_some. unfold g_parameter_literal. eapply pbind_some; [exact H|]. reflexivity.
Qed.
Lemma lit_int s : int_text s -> g_litval s = Some (CInt s, []).
Proof.
  intros H. unfold g_litval. apply palt_r; [now apply pmap_none, int_not_float|]. apply palt_l, pmap_some.
  rewrite <- (app_nil_r s) at 1. now apply int_read.
Qed.
Lemma lit_float s : float_text s -> g_litval s = Some (CFloat s, []).
Proof. intros H. unfold g_litval. apply palt_l, pmap_some. now apply float_read. Qed.
Lemma lit_bool (b : bool) : g_litval (if b then L "true" else L "false") = Some (CBool (if b then L "true" else L "false"), []).
Proof. now destruct b. Qed.
Lemma lit_string s : g_string_literal s = Some (s, []) -> g_litval s = Some (CStr s, []).
Proof.
  intros H. destruct s as [|c s]; [discriminate|]. assert (c = c_sq) as ->.
  { cbn in H. destruct (N.eqb_spec c c_sq); auto. discriminate. }
  destruct (num_none c_sq s) as [N1 N2]; [reflexivity|discriminate|].
  unfold g_litval. apply palt_r; [now apply pmap_none|]. apply palt_r; [now apply pmap_none|]. apply palt_r; [reflexivity|].
  now apply palt_l, pmap_some.
Qed.
Lemma int_head s : int_text s -> hd_not (N.eqb 38) s = true.
Proof.
  intros [H|(d & -> & H)]; [|reflexivity]. destruct (digits_head s H) as (c & t & -> & Hc). cbn [hd_not].
  destruct (N.eqb_spec 38 c); auto. subst. discriminate.
Qed.
Lemma float_head s : float_text s -> hd_not (N.eqb 38) s = true.
Proof.
  intros (i & f & -> & Hi & _). destruct Hi as [H|(d & -> & H)]; [|reflexivity].
  destruct (digits_head i H) as (c & t & -> & Hc). cbn [app hd_not]. destruct (N.eqb_spec 38 c); auto. subst. discriminate.
Qed.
Lemma string_head s : g_string_literal s = Some (s, []) -> hd_not (N.eqb 38) s = true.
Proof.
  destruct s as [|c s]; [reflexivity|]. cbn. destruct (N.eqb_spec c c_sq) as [->|]; [reflexivity|discriminate].
Qed.

(** A literal without a type is an expression on its own. *)
Lemma litval_expr s l : g_litval s = Some (l, []) -> g_expr s = Some (XLit (l, None), []).
Proof.
  intros H. assert (G : g_literal s = Some ((l, None), [])).
  { unfold g_literal. eapply pbind_some; [exact H|]. reflexivity. }
  assert (K : not_other s).
  { pose proof (litval_inv s l H) as I.
    assert (W : In s [L "true"; L "false"; L "null"] -> not_other s).
    { intros Hw. rewrite <- (app_nil_r s). now apply not_other_word. }
    assert (Hd : (exists c t, s = c :: t /\ lit_head c = true) -> not_other s).
    { intros (c & t & -> & Hc). now apply not_other_head. }
    destruct l as [t|t|t|t|].
    - destruct I as [-> (i & f & -> & Hi & _)]. apply Hd. destruct Hi as [Hi|(d & -> & Hi)].
      + destruct (digits_head i Hi) as (c & u & -> & Hc). eexists _, _. split; [reflexivity|]. unfold lit_head. now rewrite Hc.
      + eexists _, _. split; reflexivity.
    - destruct I as [-> Hi]. apply Hd. destruct Hi as [Hi|(d & -> & Hi)].
      + destruct (digits_head t Hi) as (c & u & -> & Hc). eexists _, _. split; [reflexivity|]. unfold lit_head. now rewrite Hc.
      + eexists _, _. split; reflexivity.
    - destruct I as [-> [-> | ->]]; apply W; cbn; auto.
    - destruct I as [-> Ht]. apply Hd. destruct t as [|c t]; [discriminate|]. cbn in Ht. destruct (N.eqb_spec c c_sq) as [->|]; [|discriminate].
      eexists _, _. split; reflexivity.
    - subst s. apply W. cbn; auto. }
  destruct K as (H1 & H2 & H3 & H4). rewrite g_expr_eq. unfold expr_F. apply palt_r; [exact H1|]. apply palt_r; [exact H2|].
  apply palt_r; [now apply pmap_none|]. apply palt_r; [now apply pmap_none|]. now apply pmap_some.
Qed.
Lemma ref_expr t : int_text t -> g_expr (L "$" ++ t) = Some (XRef t, []).
Proof.
  intros H. rewrite g_expr_eq. unfold expr_F. apply palt_r; [reflexivity|]. apply palt_r; [reflexivity|]. apply palt_r; [reflexivity|].
  apply palt_l, pmap_some. unfold g_reference. eapply pthen_some; [apply (ptok_app (L "$"))|].
  rewrite <- (app_nil_r t) at 1. now apply int_read.
Qed.
Lemma expr_ref s t : g_expr s = Some (XRef t, []) -> g_reference s = Some (t, []).
Proof.
  rewrite g_expr_eq. unfold expr_F. intros H.
  apply palt_inv in H as [E|[_ H]].
  { exfalso. unfold g_if_then in E. repeat (apply pthen_inv in E as (? & ? & _ & E)).
    apply pbind_inv in E as (? & ? & _ & E). repeat (apply pthen_inv in E as (? & ? & _ & E)).
    apply pbind_inv in E as (? & ? & _ & E). repeat (apply pthen_inv in E as (? & ? & _ & E)). apply pret_inv in E. discriminate. }
  apply palt_inv in H as [E|[_ H]].
  { exfalso. unfold g_cast in E. repeat (apply pthen_inv in E as (? & ? & _ & E)).
    apply pbind_inv in E as (? & ? & _ & E). repeat (apply pthen_inv in E as (? & ? & _ & E)).
    apply pbind_inv in E as (? & ? & _ & E). repeat (apply pthen_inv in E as (? & ? & _ & E)).
    apply pbind_inv in E as (? & ? & _ & E). apply pret_inv in E. discriminate. }
  apply palt_inv in H as [E|[_ H]].
  { apply pmap_inv in E as ([[? ?] ?] & _ & E). discriminate. }
  apply palt_inv in H as [E|[_ H]].
  { apply pmap_inv in E as (u & H & E). injection E as <-. exact H. }
  apply pmap_inv in H as (u & _ & E). discriminate.
Qed.

Section Conversions.
  Context (F : Floats) (e : exts).

  (** ** C52 *)

  (** A handler that asks for an expression gets what the same text is as an
      expression elsewhere in a plan, and is refused exactly when the text is no
      expression: the scalars written without a type are widened to the literals
      they would be anywhere else. *)
  Theorem C52_expressions : forall s v, argument_read e s v ->
    forall x, as_expr v = Ok x <-> expression_read e s x.
  Proof.
    intros s v (c & Hc & Hv) x. pose proof (xarg_inv s c Hc) as I. unfold expression_read.
    destruct c as [t|l|t|y|l]; cbn [lower_xarg] in Hv.
    - injection Hv as <-. cbn [as_expr]. split; [discriminate|]. intros (c & G & _). exfalso. destruct I as [-> _].
      now rewrite expr_none in G.
    - rewrite (litval_expr s l I). destruct l as [t|t|t|t|]; cbn [lower_parameter] in Hv.
      + injection Hv as <-. cbn [as_expr]. split.
        * intros [= <-]. eexists. split; [reflexivity|]. reflexivity.
        * intros (c & [= <-] & G). cbn in G. injection G as <-. reflexivity.
      + apply rmap_ok in Hv as (z & Hz & ->). cbn [as_expr]. split.
        * intros [= <-]. eexists. split; [reflexivity|]. cbn. unfold to_int_literal. apply unwrap_ok in Hz. rewrite Hz. reflexivity.
        * intros (c & [= <-] & G). cbn in G. unfold to_int_literal in G. apply unwrap_ok in Hz. rewrite Hz in G. cbn in G.
          injection G as <-. reflexivity.
      + injection Hv as <-. cbn [as_expr]. split.
        * intros [= <-]. eexists. split; [reflexivity|]. reflexivity.
        * intros (c & [= <-] & G). cbn in G. injection G as <-. reflexivity.
      + apply rmap_ok in Hv as (z & Hz & ->). cbn [as_expr]. split.
        * intros [= <-]. eexists. split; [reflexivity|]. cbn [lower_expr]. unfold lower_literal. cbn [snd fst rbind]. unfold to_string_literal. rewrite Hz. reflexivity.
        * intros (c & [= <-] & G). cbn [lower_expr] in G. unfold lower_literal in G. cbn [snd fst rbind] in G. unfold to_string_literal in G.
          rewrite Hz in G. cbn in G. injection G as <-. reflexivity.
      + injection Hv as <-. cbn [as_expr]. split; [discriminate|]. intros (c & [= <-] & G). discriminate.
    - destruct I as [-> Ht]. rewrite (ref_expr t Ht). apply rmap_ok in Hv as (z & Hz & ->). cbn [as_expr]. split.
      + intros [= <-]. eexists. split; [reflexivity|]. cbn [lower_expr]. now rewrite Hz.
      + intros (c & [= <-] & G). cbn [lower_expr] in G. rewrite Hz in G. cbn in G. now injection G as <-.
    - destruct I as (G & _ & _). apply rmap_ok in Hv as (z & Hz & ->). cbn [as_expr]. rewrite G. split.
      + intros [= <-]. eauto.
      + intros (c & [= <-] & G'). congruence.
    - apply rmap_ok in Hv as (z & Hz & ->). cbn [as_expr]. rewrite I. split; [discriminate|]. intros (c & G' & _). discriminate.
  Qed.

  (** A handler that asks for an integer, a float, a boolean, a string, an enum or
      a column number gets it exactly when the text is one, with the value it
      spells.  A typed literal such as [5:i32] is none of them. *)
  Theorem C52_scalars : forall s v, argument_read e s v ->
    (forall z, as_i64 v = Ok z <-> int_text s /\ parse_i64 s = Some z) /\
    (forall f, as_f64 v = Ok f <-> float_text s /\ read64 s = f) /\
    (forall b, as_bool v = Ok b <-> s = if b then L "true" else L "false") /\
    (forall t, as_string v = Ok t <-> g_string_literal s = Some (s, []) /\ unescape_string (E := perr) c_sq s = Ok t) /\
    (forall t, as_enum v = Ok t <-> s = L "&" ++ t /\ is_identifier t = true) /\
    (forall i, as_reference v = Ok i <-> exists t, s = L "$" ++ t /\ int_text t /\ parse_i32 t = Some i).
  Proof.
    intros s v (c & Hc & Hv). pose proof (xarg_inv s c Hc) as I.
    assert (CI : int_text s -> c = VLit (CInt s)).
    { intros H. pose proof (xarg_lit s _ (int_head s H) (lit_int s H)). congruence. }
    assert (CF : float_text s -> c = VLit (CFloat s)).
    { intros H. pose proof (xarg_lit s _ (float_head s H) (lit_float s H)). congruence. }
    assert (CB : forall b : bool, s = (if b then L "true" else L "false") -> c = VLit (CBool s)).
    { intros b H. pose proof (lit_bool b) as H1. rewrite <- H in H1. pose proof (fun H0 => xarg_lit s _ H0 H1) as H2.
      rewrite H2 in Hc; [congruence|]. subst s. now destruct b. }
    assert (CS : g_string_literal s = Some (s, []) -> c = VLit (CStr s)).
    { intros H. pose proof (xarg_lit s _ (string_head s H) (lit_string s H)). congruence. }
    assert (CE : forall t, s = L "&" ++ t -> is_identifier t = true -> c = VEnum t).
    { intros t -> H. rewrite g_xarg_eq in Hc. unfold xarg_F in Hc.
      assert (G : pmap VEnum g_enum_value (L "&" ++ t) = Some (VEnum t, [])).
      { apply pmap_some. unfold g_enum_value. eapply pthen_some; [apply (ptok_app (L "&"))|].
        rewrite <- (app_nil_r t) at 1. now apply g_identifier_app. }
      unfold palt in Hc. rewrite G in Hc. congruence. }
    assert (CR : forall t, s = L "$" ++ t -> int_text t -> c = VRef t).
    { intros t -> H. rewrite g_xarg_eq in Hc. unfold xarg_F in Hc.
      assert (G : pmap VRef g_reference (L "$" ++ t) = Some (VRef t, [])).
      { apply pmap_some. unfold g_reference. eapply pthen_some; [apply (ptok_app (L "$"))|].
        rewrite <- (app_nil_r t) at 1. now apply int_read. }
      apply palt_inv in Hc as [Hc|[_ Hc]]; [discriminate|]. apply palt_inv in Hc as [Hc|[_ Hc]]; [discriminate|].
      unfold palt in Hc. rewrite G in Hc. congruence. }
    assert (LV : forall l, c = VLit l -> g_litval s = Some (l, [])) by (intros l ->; exact I).
    split; [|split; [|split; [|split; [|split]]]].
    - intros z. split.
      + destruct c as [t|[t|t|t|t|]|t|y|l]; cbn [lower_xarg lower_parameter] in Hv;
          try (apply rmap_ok in Hv as (w & Hw & ->)); try (injection Hv as <-); try discriminate.
        intros [= ->]. apply unwrap_ok in Hw. apply litval_inv in I as [-> I]. auto.
      + intros [Hi Hz]. rewrite (CI Hi) in Hv. cbn [lower_xarg lower_parameter] in Hv. rewrite Hz in Hv. cbn in Hv. now injection Hv as <-.
    - intros f. split.
      + destruct c as [t|[t|t|t|t|]|t|y|l]; cbn [lower_xarg lower_parameter] in Hv;
          try (apply rmap_ok in Hv as (w & Hw & ->)); try (injection Hv as <-); try discriminate.
        intros [= <-]. apply litval_inv in I as [-> I]. auto.
      + intros [Hi <-]. rewrite (CF Hi) in Hv. cbn [lower_xarg lower_parameter] in Hv. now injection Hv as <-.
    - intros b. split.
      + destruct c as [t|[t|t|t|t|]|t|y|l]; cbn [lower_xarg lower_parameter] in Hv;
          try (apply rmap_ok in Hv as (w & Hw & ->)); try (injection Hv as <-); try discriminate.
        intros [= <-]. apply litval_inv in I as [-> [-> | ->]]; reflexivity.
      + intros Hb. rewrite (CB b Hb) in Hv. cbn [lower_xarg lower_parameter] in Hv. injection Hv as <-. subst s. now destruct b.
    - intros x. split.
      + destruct c as [t|[t|t|t|t|]|t|y|l]; cbn [lower_xarg lower_parameter] in Hv;
          try (apply rmap_ok in Hv as (w & Hw & ->)); try (injection Hv as <-); try discriminate.
        intros [= <-]. apply litval_inv in I as [-> I]. auto.
      + intros [Hi Hx]. rewrite (CS Hi) in Hv. cbn [lower_xarg lower_parameter] in Hv. rewrite Hx in Hv. cbn in Hv. now injection Hv as <-.
    - intros x. split.
      + destruct c as [t|[t|t|t|t|]|t|y|l]; cbn [lower_xarg lower_parameter] in Hv;
          try (apply rmap_ok in Hv as (w & Hw & ->)); try (injection Hv as <-); try discriminate.
        intros [= <-]. exact I.
      + intros [Hi Hx]. rewrite (CE x Hi Hx) in Hv. cbn in Hv. now injection Hv as <-.
    - intros i. split.
      + destruct c as [t|[t|t|t|t|]|t|y|l]; cbn [lower_xarg lower_parameter] in Hv;
          try (apply rmap_ok in Hv as (w & Hw & ->)); try (injection Hv as <-); try discriminate.
        * intros [= <-]. apply unwrap_ok in Hw. exists t. tauto.
        * destruct I as (G & _ & N). intros A. exfalso.
          assert (exists t, y = XRef t) as (t & ->).
          { destruct y as [ifs els|y b ty|f args ty|t|l]; cbn [lower_expr] in Hw; eauto;
              repeat (apply rbind_ok in Hw as (? & _ & Hw)); try (apply rmap_ok in Hw as (? & _ & ->)); try (injection Hw as <-); discriminate. }
          apply expr_ref in G. congruence.
      + intros (t & Hs & Ht & Hi). rewrite (CR t Hs Ht) in Hv. cbn [lower_xarg] in Hv. unfold field_index in Hv. rewrite Hi in Hv.
        cbn in Hv. now injection Hv as <-.
  Qed.

  (** The column number of a value decides the value, up to the root of the
      reference, which the text cannot express: the parts a nested reference
      would select below the column are never dropped. *)
  Theorem C52_references : forall v i, as_reference v = Ok i <->
    exists f, v = XExpr (ESel f) /\ field_reference i = mk_fieldref (fr_ref f) RootRef.
  Proof.
    intros v i. unfold field_reference. split.
    - intros H. destruct v; try discriminate. destruct x; try discriminate. destruct f as [[[z [c|]| |]| |] r]; try discriminate.
      injection H as <-. eexists. split; reflexivity.
    - intros ([r o] & -> & [= <-]). reflexivity.
  Qed.
End Conversions.

(** ** Examples *)

(** The same text as a number of a handler's configuration and as an expression,
    a typed literal, a column, a tuple. *)
Example C52_examples :
  argument_read (H := toy_floats) exts_empty (L "-12") (XInteger (-12)) /\
  as_expr (XInteger (-12)) = Ok (ELit (mk_lit (Some (LI64 (-12))) false 0)) /\
  argument_read (H := toy_floats) exts_empty (L "5:i32") (XExpr (ELit (mk_lit (Some (LI32 5)) false 0))) /\
  as_i64 (XExpr (ELit (mk_lit (Some (LI32 5)) false 0))) = Err XInvalidType /\
  argument_read (H := toy_floats) exts_empty (L "$7") (XExpr (ESel (field_reference 7))) /\
  as_reference (XExpr (ESel (field_reference 7))) = Ok 7%Z /\
  argument_read (H := toy_floats) exts_empty (L "true") (XBoolean true) /\
  argument_read (H := toy_floats) exts_empty (L "($1, &up)") (XTuple [XExpr (ESel (field_reference 1)); XEnum (L "up")]).
Proof. repeat split; try (eexists; split; [vm_compute; reflexivity|vm_compute; reflexivity]). Qed.
