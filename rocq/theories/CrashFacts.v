(** Where panics of the parser come from. *)
From Coq Require Import String List NArith ZArith Bool Lia PeanoNat.
From Verif Require Import Base BaseFacts Peg PegFacts Names NamesFacts SimpleExt Out Anchors Types SpecTypes TypesFacts Lines Tree SpecTree TreeFacts
  Calendar Literals Exprs ExprsFacts ExtArgs ExtArgsFacts Registry Rels RelGrammar RelRead PegYields SpecLines
  ExtLines Structural StructuralFacts LineView ReadFacts ParsedFacts Plan OutClosed SpecCrash.
Import ListNotations.
Local Open Scope string_scope.
Local Open Scope list_scope.
Local Open Scope nat_scope.
Local Open Scope peg_scope.

(** ** Panics of results *)

Definition pan {E X} (P : string -> Prop) (x : res E X) : Prop := match x with Panic m => P m | _ => True end.

Section Pan.
  Variable P : string -> Prop.
  Lemma pan_ok {E X} (v : X) : pan P (E := E) (Ok v). Proof. exact I. Qed.
  Lemma pan_err {E X} (d : E) : pan P (X := X) (Err d). Proof. exact I. Qed.
  Lemma pan_bind {E X Y} (x : res E X) (f : X -> res E Y) : pan P x -> (forall v, x = Ok v -> pan P (f v)) -> pan P (rbind x f).
  Proof. destruct x; cbn; auto. Qed.
  Lemma pan_map {E X Y} (f : X -> Y) (x : res E X) : pan P x -> pan P (rmap f x).
  Proof. destruct x; cbn; auto. Qed.
  Lemma pan_list {E X Y} (f : X -> res E Y) l : Forall (fun x => pan P (f x)) l -> pan P (rlist f l).
  Proof. induction 1; cbn [rlist]; [exact I|]. apply pan_bind; auto. intros v _. apply pan_bind; [auto|intros w _; exact I]. Qed.
  Lemma pan_guard {E X} (x : res E X) : P "RuleIter dropped with pending pairs" -> pan P x -> pan P (guard_drop x).
  Proof. destruct x; cbn; auto. Qed.
  Lemma pan_unwrap {E X} m (o : option X) : (o = None -> P m) -> pan P (E := E) (unwrap m o).
  Proof. destruct o; cbn; auto. Qed.
  Lemma pan_params {X Y} (f : X -> pres Y) l : P "RuleIter dropped with pending pairs" ->
    Forall (fun x => pan P (f x)) l -> pan P (params_loop f l).
  Proof.
    intros HP. induction 1 as [|x l Hx _ IH]; cbn [params_loop]; [exact I|]. apply pan_bind.
    - destruct l; [exact Hx|now apply pan_guard].
    - intros v _. apply pan_bind; [auto|intros w _; exact I].
  Qed.
  Lemma pan_clauses {X Y} (f : X -> pres Y) l : P "RuleIter dropped with pending pairs" ->
    Forall (fun x => pan P (f x)) l -> pan P (clauses_loop f l).
  Proof.
    intros HP. induction 1 as [|x l Hx _ IH]; cbn [clauses_loop]; [exact I|]. apply pan_bind; [now apply pan_guard|].
    intros v _. apply pan_bind; [auto|intros w _; exact I].
  Qed.
  Lemma pan_lift_plan {X} n (x : pres X) : pan P x -> pan P (lift_plan n x).
  Proof. destruct x; cbn; auto. Qed.
End Pan.
Ltac pan_step := first [exact I | apply pan_bind; [|intros ? ?] | apply pan_map | apply pan_lift_plan | progress cbv beta].
Ltac sites := cbn; repeat (first [left; reflexivity | right]).

Notation csite := (fun m => In m crash_sites).

(** ** Quoted text *)

Lemma quoted_unescape E q b : q <> c_bs -> forall s t, quoted_rest q s = Some (b, t) -> exists x, @unescape_loop E q b = Ok x.
Proof.
  intros Hq. enough (G : forall n s b t, length s <= n -> quoted_rest q s = Some (b, t) -> exists x, @unescape_loop E q b = Ok x).
  { intros s t. now apply (G (length s)). }
  clear b. induction n as [|n IH]; intros [|c s] b t Hn H; cbn [length] in Hn; try lia; try discriminate. cbn [quoted_rest] in H.
  destruct (N.eqb_spec c c_bs) as [->|Hc].
  - destruct s as [|x s]; [discriminate|]. destruct (quoted_rest q s) as [[b' t']|] eqn:Er; [|discriminate]. injection H as <- <-.
    destruct (IH s b' t') as (v & Ev); [cbn [length] in Hn; lia|exact Er|]. cbn [unescape_loop].
    destruct (N.eqb_spec c_bs q) as [E1|_]; [congruence|]. rewrite N.eqb_refl, Ev. cbn [rmap]. eauto.
  - destruct (N.eqb_spec c q) as [->|Hc'].
    + injection H as <- _. cbn [unescape_loop]. rewrite N.eqb_refl. eauto.
    + destruct (quoted_rest q s) as [[b' t']|] eqn:Er; [|discriminate]. injection H as <- <-.
      destruct (IH s b' t') as (v & Ev); [lia|exact Er|]. cbn [unescape_loop].
      destruct (N.eqb_spec c q) as [E1|_]; [congruence|]. destruct (N.eqb_spec c c_bs) as [E1|_]; [congruence|]. rewrite Ev. cbn [rmap]. eauto.
Qed.
(** Text between quotes, from the first to the last of them. *)
Definition quoted_whole (q : N) (s : list N) : Prop := exists b t, s = q :: b /\ exists r, quoted_rest q r = Some (b, t).
Lemma yields_quoted q : yields (quoted_whole q) (g_quoted q).
Proof.
  intros s a r H. unfold g_quoted in H. destruct s as [|c s]; [discriminate|]. destruct (N.eqb_spec c q) as [->|]; [|discriminate].
  destruct (quoted_rest q s) as [[b t]|] eqn:E; [|discriminate]. injection H as <- <-. unfold quoted_whole. eauto.
Qed.
Lemma unescape_whole E P q s : q <> c_bs -> quoted_whole q s -> pan P (@unescape_string E q s).
Proof.
  intros Hq (b & t & -> & r & H). cbn [unescape_string]. rewrite N.eqb_refl. destruct (quoted_unescape E q b Hq r t H) as (x & ->). exact I.
Qed.

Definition nm_whole (n : nm) : Prop := match n with NQuoted s => quoted_whole c_dq s | NIdent _ => True end.
Lemma yields_name : yields nm_whole g_name.
Proof.
  unfold g_name. apply yields_alt.
  - eapply yields_map; [apply yields_true|]. intros a _. exact I.
  - eapply yields_map; [apply yields_quoted|]. intros a H. exact H.
Qed.
Lemma lower_name_pan {E} P n : nm_whole n -> pan P (@lower_name E n).
Proof. destruct n; cbn [lower_name nm_whole]; [intros; exact I|]. intros H. now apply unescape_whole. Qed.
Definition lit_whole (c : litc) : Prop := match c with CStr s => quoted_whole c_sq s | _ => True end.
Lemma yields_litval : yields lit_whole g_litval.
Proof.
  unfold g_litval. repeat apply yields_alt; try (eapply yields_map; [apply yields_true|]; intros a _; exact I).
  eapply yields_map; [apply yields_quoted|]. intros a H. exact H.
Qed.

(** ** Expressions as read *)

Fixpoint ewhole (c : ecst) : Prop :=
  match c with
  | XIf ifs els => ifs <> [] /\ fold_right (fun p acc => ewhole (fst p) /\ ewhole (snd p) /\ acc) True ifs /\ ewhole els
  | XCast x _ _ => ewhole x
  | XCall _ args _ => fold_right (fun x acc => ewhole x /\ acc) True args
  | XRef _ => True
  | XLit c => lit_whole (fst c)
  end.
Fixpoint xwhole (c : xacst) : Prop :=
  match c with
  | VEnum _ | VRef _ => True
  | VLit c => lit_whole c
  | VExpr c => ewhole c
  | VTuple l => fold_right (fun x acc => xwhole x /\ acc) True l
  end.
Lemma fold_all {X} (P : X -> Prop) l : fold_right (fun x acc => P x /\ acc) True l <-> Forall P l.
Proof. induction l as [|x l IH]; cbn; [split; auto|]. rewrite IH. split; [intros []; auto|inversion 1; auto]. Qed.
Lemma fold_all2 {X} (P : X -> Prop) (l : list (X * X)) :
  fold_right (fun p acc => P (fst p) /\ P (snd p) /\ acc) True l <-> Forall (fun p => P (fst p) /\ P (snd p)) l.
Proof. induction l as [|x l IH]; cbn; [split; auto|]. rewrite IH. split; [intros (? & ? & ?); auto|inversion 1; tauto]. Qed.

Lemma yields_pfix {A} (P : A -> Prop) F : (forall p, yields P p -> yields P (F p)) -> forall n, yields P (pfix F n).
Proof. intros H n. induction n; cbn [pfix]; [apply yields_fail|auto]. Qed.
Lemma yields_prun {A} (P : A -> Prop) F : (forall p, yields P p -> yields P (F p)) -> yields P (prun F).
Proof. intros H s a r E. eapply (yields_pfix P F H); exact E. Qed.

(** ** Induction over concrete syntax *)

Section Ind.
  Variable P : ecst -> Prop.
  Hypothesis HI : forall ifs els, Forall (fun p => P (fst p) /\ P (snd p)) ifs -> P els -> P (XIf ifs els).
  Hypothesis HC : forall x b t, P x -> P (XCast x b t).
  Hypothesis HF : forall f args t, Forall P args -> P (XCall f args t).
  Hypothesis HR : forall s, P (XRef s).
  Hypothesis HL : forall c, P (XLit c).
  Fixpoint ecst_ind2 (c : ecst) : P c :=
    match c with
    | XIf ifs els =>
        HI ifs els ((fix go l : Forall (fun p => P (fst p) /\ P (snd p)) l :=
          match l with [] => Forall_nil _ | p :: r => Forall_cons p (conj (ecst_ind2 (fst p)) (ecst_ind2 (snd p))) (go r) end) ifs) (ecst_ind2 els)
    | XCast x b t => HC x b t (ecst_ind2 x)
    | XCall f args t =>
        HF f args t ((fix go l : Forall P l := match l with [] => Forall_nil _ | x :: r => Forall_cons x (ecst_ind2 x) (go r) end) args)
    | XRef s => HR s
    | XLit c => HL c
    end.
End Ind.
Section XInd.
  Variable P : xacst -> Prop.
  Hypothesis HE : forall s, P (VEnum s).
  Hypothesis HL : forall c, P (VLit c).
  Hypothesis HR : forall s, P (VRef s).
  Hypothesis HX : forall c, P (VExpr c).
  Hypothesis HT : forall l, Forall P l -> P (VTuple l).
  Fixpoint xacst_ind2 (c : xacst) : P c :=
    match c with
    | VEnum s => HE s
    | VLit c => HL c
    | VRef s => HR s
    | VExpr c => HX c
    | VTuple l => HT l ((fix go l : Forall P l := match l with [] => Forall_nil _ | x :: r => Forall_cons x (xacst_ind2 x) (go r) end) l)
    end.
End XInd.

Ltac skips := repeat first [ apply yields_then | apply yields_ret ].
Ltac skip1 := eapply yields_bind; [apply yields_true|intros ? _].

Lemma yields_some {A} (P : A -> Prop) (p : peg A) : yields P p -> yields (fun l => l <> [] /\ Forall P l) (pplus p).
Proof.
  intros H s l r E. split; [|eapply yields_plus; eauto]. intros ->. unfold pplus in E.
  unfold pbind in E. destruct (p s) as [[x r']|]; [|discriminate]. destruct (pstar p r') as [[xs r'']|]; discriminate.
Qed.
Lemma yields_expr : yields ewhole g_expr.
Proof.
  apply yields_prun. intros ex Hex. unfold expr_F. repeat apply yields_alt.
  - unfold g_if_then. skips. eapply yields_bind with (P := fun l => l <> [] /\ Forall (fun p => ewhole (fst p) /\ ewhole (snd p)) l).
    + apply yields_some. eapply yields_bind with (P := fun p => ewhole (fst p) /\ ewhole (snd p)).
      * unfold g_if_clause. eapply yields_bind; [exact Hex|]. intros a Ha. skips. eapply yields_bind; [exact Hex|]. intros b Hb. skips. cbn. auto.
      * intros a Ha. skips. exact Ha.
    + intros l Hl. skips. eapply yields_bind; [exact Hex|]. intros y Hy. skips. cbn [ewhole]. rewrite fold_all2. tauto.
  - unfold g_cast. skips. eapply yields_bind; [exact Hex|]. intros x Hx. skips. skip1. skips. skip1. skips. exact Hx.
  - eapply yields_map with (P := fun c : callc => Forall ewhole (snd (fst c))).
    + unfold g_function_call. skip1. skips. eapply yields_bind with (P := Forall ewhole).
      * unfold g_argument_list. skips. eapply yields_bind; [apply yields_sep0, Hex|]. intros l Hl. skips. exact Hl.
      * intros l Hl. skips. skip1. skips. exact Hl.
    + intros [[f a] t] H. cbn [ewhole]. rewrite fold_all. exact H.
  - eapply yields_map; [apply yields_true|]. intros a _. exact I.
  - eapply yields_map with (P := fun c => lit_whole (fst c)); [|intros a H; exact H].
    unfold g_literal. eapply yields_bind; [apply yields_litval|]. intros v Hv. skip1. skips. exact Hv.
Qed.
Lemma yields_xarg : yields xwhole g_xarg.
Proof.
  apply yields_prun. intros arg Ha. unfold xarg_F. repeat apply yields_alt.
  - eapply yields_map; [apply yields_true|]. intros a _. exact I.
  - eapply yields_map with (P := lit_whole); [|intros a H; exact H]. unfold g_parameter_literal.
    eapply yields_bind; [apply yields_litval|]. intros v Hv. skips. exact Hv.
  - eapply yields_map; [apply yields_true|]. intros a _. exact I.
  - eapply yields_map; [apply yields_expr|]. intros a H. exact H.
  - eapply yields_map with (P := Forall xwhole); [|intros l Hl; cbn [xwhole]; now rewrite fold_all].
    unfold g_tuple. repeat apply yields_alt.
    + skips. constructor.
    + skips. eapply yields_bind; [exact Ha|]. intros a H. skips. auto.
    + skips. eapply yields_bind; [exact Ha|]. intros a H. eapply yields_bind; [apply yields_plus, yields_then, Ha|].
      intros l Hl. skips. auto.
Qed.
Definition xargs_whole (c : xargsc) : Prop := Forall xwhole (fst c) /\ Forall (fun p => nm_whole (fst p) /\ xwhole (snd p)) (snd c).
Lemma yields_xnamed : yields (fun p => nm_whole (fst p) /\ xwhole (snd p)) g_xnamed.
Proof.
  unfold g_xnamed. eapply yields_bind; [apply yields_name|]. intros n Hn. skips. eapply yields_bind; [apply yields_xarg|]. intros v Hv. skips. auto.
Qed.
Lemma yields_xargs : yields xargs_whole g_xargs.
Proof.
  unfold g_xargs. repeat apply yields_alt.
  - eapply yields_map; [apply yields_true|]. intros a _. split; constructor.
  - eapply yields_bind; [apply yields_sep1, yields_xarg|]. intros p Hp.
    eapply yields_bind; [apply yields_opt, yields_then, yields_sep1, yields_xnamed|]. intros n Hn. skips. split; [exact Hp|]. destruct n; [exact Hn|constructor].
  - eapply yields_map; [apply yields_sep1, yields_xnamed|]. intros l Hl. split; [constructor|exact Hl].
  - skips. split; constructor.
Qed.

(** ** Lines as read *)

Definition cols_whole (l : list colc) : Prop := Forall (fun c => nm_whole (fst c)) l.
Definition xcol_whole (c : xcolc) : Prop :=
  match c with KNamed c => nm_whole (fst c) | KRef _ => True | KExpr c => ewhole c end.
Definition opt_whole (o : option ecst) : Prop := match o with Some c => ewhole c | None => True end.
Definition line_whole (y : rline) : Prop :=
  match y with
  | YRoot l => Forall nm_whole l
  | YRead t o => Forall nm_whole t /\ match o with OImplicit c | ODirect c _ => cols_whole c end
  | YExtRead c => cols_whole c
  | YVirtual rows f c => Forall (Forall ewhole) rows /\ opt_whole f /\ cols_whole c
  | YFilter x _ => ewhole x
  | YProject l => Forall (fun a => match a with PaRef _ => True | PaExpr c => ewhole c end) l
  | YAggregate g l => match g with GSets s => Forall (Forall ewhole) s | GList s => Forall ewhole s end /\ Forall ewhole l
  | YSort l _ => Forall (fun p => ewhole (fst p)) l
  | YFetch l _ => Forall (fun p => match snd p with FvInt _ => True | FvExpr c => ewhole c end) l
  | YJoin t x p _ => In t join_toks /\ ewhole x /\ opt_whole p
  | YSet o _ => In o set_toks
  | YCross _ => True
  | YExt _ n a c => nm_whole n /\ xargs_whole a /\ Forall xcol_whole c
  end.
Lemma yields_columns : yields cols_whole g_columns.
Proof.
  unfold g_columns. apply yields_sep0. unfold g_named_column. eapply yields_bind; [apply yields_name|]. intros n Hn. skips. skip1. skips. exact Hn.
Qed.
Lemma yields_expression_list : yields (Forall ewhole) g_expression_list.
Proof.
  unfold g_expression_list. eapply yields_bind; [apply yields_expr|]. intros x Hx. skips.
  eapply yields_bind; [apply yields_star; skips; apply yields_expr|]. intros l Hl. skips. auto.
Qed.
Lemma yields_root : yields line_whole g_root.
Proof. unfold g_root. skips. eapply yields_bind; [apply yields_sep0, yields_name|]. intros l Hl. skips. exact Hl. Qed.
Lemma yields_output : yields (fun o => match o with OImplicit c | ODirect c _ => cols_whole c end) g_output.
Proof.
  unfold g_output. apply yields_alt.
  - eapply yields_map with (P := cols_whole); [|intros a H; exact H]. skips. apply yields_columns.
  - skips. eapply yields_bind; [apply yields_columns|]. intros c Hc. skip1. skips. exact Hc.
Qed.
Lemma yields_relation : yields line_whole g_relation.
Proof.
  unfold g_relation. repeat apply yields_alt.
  - unfold g_ext_read. skips. eapply yields_bind; [apply yields_columns|]. intros c Hc. skips. exact Hc.
  - unfold g_virtual. skips. eapply yields_bind with (P := Forall (Forall ewhole)).
    { unfold g_virtual_rows. apply yields_alt; [|eapply yields_map; [apply yields_true|]; intros a _; constructor].
      apply yields_sep1. unfold g_virtual_row. skips. eapply yields_bind; [apply yields_opt, yields_expression_list|].
      intros l Hl. skips. destruct l; [exact Hl|constructor]. }
    intros r Hr. eapply yields_bind with (P := opt_whole).
    { apply (yields_opt ewhole). skips. unfold g_virtual_filter. skips. apply yields_expr. }
    intros f Hf. skips. eapply yields_bind; [apply yields_columns|]. intros c Hc. skips. cbn. auto.
  - unfold g_read. skips. eapply yields_bind; [apply yields_sep1, yields_name|]. intros t Ht. skips.
    eapply yields_bind; [apply yields_output|]. intros o Ho. skips. cbn. auto.
  - unfold g_filter. skips. eapply yields_bind; [apply yields_expr|]. intros x Hx. skips. skip1. skips. exact Hx.
  - unfold g_project. skips. eapply yields_bind with (P := Forall (fun a => match a with PaRef _ => True | PaExpr c => ewhole c end)).
    { apply yields_sep0. unfold g_project_arg. apply yields_alt; [eapply yields_map; [apply yields_true|]; intros a _; exact I|].
      eapply yields_map; [apply yields_expr|]. intros a H. exact H. }
    intros l Hl. skips. exact Hl.
  - unfold g_aggregate. skips. eapply yields_bind with (P := fun g => match g with GSets s => Forall (Forall ewhole) s | GList s => Forall ewhole s end).
    { assert (Hs : yields (Forall ewhole) g_grouping_set).
      { unfold g_grouping_set. apply yields_alt; [|eapply yields_map; [apply yields_true|]; intros a _; constructor].
        skips. eapply yields_bind; [apply yields_expression_list|]. intros l Hl. skips. exact Hl. }
      unfold g_group_by. apply yields_alt.
      - eapply yields_bind; [exact Hs|]. intros x Hx. skips. eapply yields_bind; [apply yields_star; skips; exact Hs|]. intros l Hl. skips. auto.
      - eapply yields_map; [apply yields_expression_list|]. intros a H. exact H. }
    intros g Hg. skips. eapply yields_bind; [apply yields_sep0, yields_expr|]. intros o Ho. skips. cbn. auto.
  - unfold g_sort. skips. eapply yields_bind with (P := Forall (fun p => ewhole (fst p))).
    { apply yields_sep0. unfold g_sort_field. skips. eapply yields_bind; [apply yields_expr|]. intros x Hx. skips. skip1. skips. exact Hx. }
    intros l Hl. skips. skip1. skips. exact Hl.
  - unfold g_fetch. skips. eapply yields_bind with (P := Forall (fun p => match snd p with FvInt _ => True | FvExpr c => ewhole c end)).
    { apply yields_alt; [|eapply yields_map; [apply yields_true|]; intros a _; constructor].
      apply yields_sep1. unfold g_fetch_arg. skip1. skips.
      eapply yields_bind with (P := fun v => match v with FvInt _ => True | FvExpr c => ewhole c end).
      - unfold g_fetch_value. apply yields_alt; [eapply yields_map; [apply yields_true|]; intros a0 _; exact I|].
        eapply yields_map; [apply yields_expr|]. intros a0 H. exact H.
      - intros v Hv. skips. exact Hv. }
    intros l Hl. skips. skip1. skips. exact Hl.
  - unfold g_join. skips. eapply yields_bind; [apply yields_toks|]. intros t Ht. skips. eapply yields_bind; [apply yields_expr|]. intros x Hx.
    eapply yields_bind with (P := opt_whole). { apply (yields_opt ewhole). skips. unfold g_post_filter. skips. apply yields_expr. }
    intros p Hp. skips. skip1. skips. cbn [line_whole]. auto.
  - unfold g_set. skips. eapply yields_bind; [apply yields_toks|]. intros t Ht. skips. skip1. skips. exact Ht.
  - unfold g_cross. skips. skip1. skips. exact I.
  - unfold g_ext. skip1. skips. eapply yields_bind; [apply yields_name|]. intros n Hn. skips. eapply yields_bind; [apply yields_xargs|]. intros x Hx.
    eapply yields_bind with (P := fun o => match o with Some c => Forall xcol_whole c | None => True end).
    { apply yields_opt. skips. unfold g_xcolumns. apply yields_sep0. unfold g_xcolumn. repeat apply yields_alt.
      - eapply yields_map with (P := fun c => nm_whole (fst c)); [|intros c H; exact H].
        unfold g_named_column. eapply yields_bind; [apply yields_name|]. intros m Hm. skips. skip1. skips. exact Hm.
      - eapply yields_map; [apply yields_true|]. intros c _. exact I.
      - eapply yields_map; [apply yields_expr|]. intros c H. exact H. }
    intros c Hc. skips. cbn [line_whole]. repeat split; auto; [apply Hx..|]. destruct c; [exact Hc|constructor].
Qed.
Definition acst_whole (a : acst) : Prop := match a with Acst _ n x => nm_whole n /\ xargs_whole x end.
Lemma yields_addendum : yields acst_whole g_addendum.
Proof.
  unfold g_addendum. skips. skip1. skips. eapply yields_bind; [apply yields_name|]. intros n Hn. skips.
  eapply yields_bind; [apply yields_xargs|]. intros x Hx. skips. cbn. auto.
Qed.
Definition any_whole (x : rline + acst) : Prop := match x with inl y => line_whole y | inr a => acst_whole a end.
Lemma yields_node : yields any_whole g_node.
Proof.
  unfold g_node. apply yields_alt.
  - eapply yields_map; [apply yields_relation|]. intros a H. exact H.
  - eapply yields_map; [apply yields_addendum|]. intros a H. exact H.
Qed.
Lemma yields_top : yields any_whole g_top.
Proof. unfold g_top. apply yields_alt; [|apply yields_node]. eapply yields_map; [apply yields_root|]. intros a H. exact H. Qed.
Lemma node_whole s x : read_node s = Ok x -> any_whole x.
Proof. unfold read_node. destruct (g_node s) as [[y r]|] eqn:E; [|discriminate]. intros [= <-]. eapply yields_node; eauto. Qed.
Lemma root_whole s x : read_root s = Ok x -> any_whole x.
Proof. unfold read_root. destruct (g_top s) as [[y r]|] eqn:E; [|discriminate]. intros [= <-]. eapply yields_top; eauto. Qed.
(** Below the top of a tree there is no Root. *)
Definition not_root (y : rline) : Prop := match y with YRoot _ => False | _ => True end.
Lemma yields_not_root : yields not_root g_relation.
Proof.
  unfold g_relation. repeat apply yields_alt;
    unfold g_ext_read, g_virtual, g_read, g_filter, g_project, g_aggregate, g_sort, g_fetch, g_join, g_set, g_cross, g_ext;
    repeat first [apply yields_then | skip1 | apply yields_ret; exact I].
Qed.
Lemma node_not_root s y : read_node s = Ok (inl y) -> not_root y.
Proof.
  unfold read_node. destruct (g_node s) as [[x r]|] eqn:E; [|discriminate]. intros [= ->]. unfold g_node in E.
  apply palt_inv in E as [E|[_ E]].
  - apply pmap_inv in E as (z & E & [= ->]). eapply yields_not_root; eauto.
  - apply pmap_inv in E as (z & E & H). discriminate.
Qed.

(** ** Trees as read *)

Fixpoint sub_whole (n : rnode rline acst) : Prop :=
  let '(RNode y _ ads cs) := n in
  not_root y /\ line_whole y /\ Forall (fun a => acst_whole (fst a)) ads /\ fold_right (fun c acc => sub_whole c /\ acc) True cs.
Definition tree_whole (n : rnode rline acst) : Prop :=
  let '(RNode y _ ads cs) := n in line_whole y /\ Forall (fun a => acst_whole (fst a)) ads /\ Forall sub_whole cs.
Definition lnode_whole (x : nat * lnode rline acst) : Prop :=
  match snd x with
  | LRel y _ => line_whole y /\ (fst x <> 0 -> not_root y)
  | LAdd a _ => acst_whole a
  end.
Lemma Forall_concat_map {X Y} (P : Y -> Prop) (f : X -> list Y) l : Forall P (concat (map f l)) -> Forall (fun x => Forall P (f x)) l.
Proof. induction l as [|x l IH]; cbn [map concat]; intros H; constructor; apply Forall_app in H as [H1 H2]; auto. Qed.
Lemma flatten_ads_whole d (ads : list (acst * N)) : Forall lnode_whole (map (fun a => (d, LAdd (fst a) (snd a))) ads) -> Forall (fun a => acst_whole (fst a)) ads.
Proof. intros H. rewrite Forall_map in H. exact H. Qed.
Lemma flatten_whole n : forall d, Forall lnode_whole (flatten (S d) n) -> sub_whole n.
Proof.
  induction n as [y line ads cs IH] using rnode_ind2. intros d H. cbn [flatten sub_whole] in *. inversion H as [|? ? H0 H3]; subst.
  destruct (H0 : line_whole y /\ (S d <> 0 -> not_root y)) as [H1 H2].
  apply Forall_app in H3 as [H3 H4]. apply flatten_ads_whole in H3. apply Forall_concat_map in H4.
  split; [apply H2; discriminate|]. split; [exact H1|]. split; [exact H3|]. apply fold_all. rewrite Forall_forall in *. eauto.
Qed.
Lemma flatten_top n : Forall lnode_whole (flatten 0 n) -> tree_whole n.
Proof.
  destruct n as [y line ads cs]. intros H. cbn [flatten tree_whole] in *. inversion H as [|? ? H0 H3]; subst.
  destruct (H0 : line_whole y /\ (0 <> 0 -> not_root y)) as [H1 _].
  apply Forall_app in H3 as [H3 H4]. apply flatten_ads_whole in H3. apply Forall_concat_map in H4.
  split; [exact H1|]. split; [exact H3|]. eapply Forall_impl; [|exact H4]. intros c. apply flatten_whole.
Qed.
Lemma read_tree_whole s p : parse_text rline acst read_root read_node (ps_new _ _) s = Ok p -> Forall tree_whole (finish (ps_tree _ _ p)).
Proof.
  intros H. destruct (accepted_shape _ _ _ _ s p H) as [[_ E]|(_ & before & h & ks & _ & _ & _ & Hr)]; [rewrite E; constructor|].
  assert (G : Forall lnode_whole (flatten_all (finish (ps_tree _ _ p)))).
  { clear - Hr. induction Hr as [|k [d x] ks' xs (_ & y & Hy & Ex) _ IH]; constructor; [|exact IH]. cbn [fst snd] in *. unfold lnode_whole. cbn [snd fst].
    destruct d; cbn [Nat.eqb] in Hy.
    - apply root_whole in Hy. destruct y; subst x; cbn in *; [split; [exact Hy|congruence]|exact Hy].
    - pose proof (node_whole _ _ Hy) as Hw. destruct y; subst x; cbn in *; [|exact Hw]. split; [exact Hw|]. intros _. eapply node_not_root; eauto. }
  unfold flatten_all in G. apply Forall_concat_map in G. eapply Forall_impl; [|exact G]. intros n. apply flatten_top.
Qed.

(** ** Lowering *)

Lemma total_pan {E X} P (x : res E X) : (forall p, x <> Panic p) -> pan P x.
Proof. intros H. destruct x as [| |p]; cbn; auto. destruct (H p eq_refl). Qed.
Lemma lift_missing_pan {X} k (x : res missing_ref X) P : pan P x -> pan P (lift_missing k x).
Proof. destruct x; cbn; auto. Qed.
Lemma find_by_name_pan e k n P : pan P (find_by_name e k n).
Proof. unfold find_by_name. destruct (anchors_where _ _ _) as [|? []]; exact I. Qed.
Lemma find_by_base_name_pan e k n P : pan P (find_by_base_name e k n).
Proof. unfold find_by_base_name. destruct (anchors_where _ _ _) as [|? []]; exact I. Qed.
Lemma resolve_function_pan e n a P : pan P (resolve_function e n a).
Proof.
  unfold resolve_function. apply pan_bind.
  - destruct a; [apply pan_bind; [apply total_pan; intros; apply find_by_anchor_total|intros v _; destruct (cn_matches _ _); exact I]|].
    destruct (contains_char _ _); [apply find_by_name_pan|apply find_by_base_name_pan].
  - intros v _. apply total_pan. intros. apply lookup_function_total.
Qed.
Lemma validate_pan e k a n P : pan P (get_and_validate_anchor e k a n).
Proof.
  assert (G : pan P (match a with
      | Some a => let? un := lift_missing (kind_name k) (find_by_anchor e k a) in
          if streqb (snd un) n || streqb (cn_base (snd un)) n then Ok a else Err (PLookup (kind_name k) (Mismatched k n a))
      | None => lift_missing (kind_name k) (find_by_name e k n) end)).
  { destruct a; [|apply lift_missing_pan, find_by_name_pan]. apply pan_bind; [apply lift_missing_pan, total_pan; intros; apply find_by_anchor_total|].
    intros v _. destruct (_ || _); exact I. }
  unfold get_and_validate_anchor. destruct k; [|exact G..]. apply pan_map, lift_missing_pan, resolve_function_pan.
Qed.
Lemma anchor_pan o : pan csite (anchor_value o).
Proof. destruct o; cbn [anchor_value]; [|exact I]. apply pan_map, pan_unwrap. intros _. sites. Qed.
Lemma precision_pan s P : pan P (parse_precision s).
Proof. unfold parse_precision. destruct (parse_i32 s); [destruct (in_range _ _ _)|]; exact I. Qed.
Lemma lower_type_pan e c : pan csite (lower_type e c).
Proof.
  apply (tcst_ind2 (fun c => pan csite (lower_type e c)) (fun c => pan csite (lower_param e c))); intros; cbn [lower_type lower_param].
  - destruct (simple_kind s); [exact I|sites].
  - now apply pan_map.
  - sites.
  - sites.
  - apply pan_map, precision_pan.
  - apply pan_map, precision_pan.
  - apply pan_bind; [apply anchor_pan|intros ? _]. apply pan_bind; [apply anchor_pan|intros ? _]. apply pan_bind.
    + destruct ps as [l|]; [|exact I]. apply pan_params; [sites|auto].
    + intros ? _. apply pan_bind; [apply validate_pan|]. intros; exact I.
  - now apply pan_map.
  - sites.
  - sites.
Qed.

Lemma prec_of_unit_toks u : In u [L "ms"; L "us"; L "ns"; L "ps"] -> prec_of_unit u <> None.
Proof. intros [<-|[<-|[<-|[<-|[]]]]]; vm_compute; discriminate. Qed.
Lemma yields_interval : yields (fun d : durc => match snd d with Some (_, u) => In u [L "ms"; L "us"; L "ns"; L "ps"] | None => True end) g_interval_duration.
Proof.
  set (Q := fun p : list N * list N => In (snd p) [L "ms"; L "us"; L "ns"; L "ps"]).
  assert (Hs : yields Q g_duration_subseconds).
  { unfold g_duration_subseconds. skip1. eapply yields_bind; [apply yields_toks|]. intros u Hu. skips. exact Hu. }
  assert (Ho : yields (fun o => match o with Some p => Q p | None => True end) (popt (ptok (L " ") ;;; g_duration_subseconds))).
  { apply yields_opt, yields_then, Hs. }
  unfold g_interval_duration. eapply yields_bind with (P := fun d : durc => match snd d with Some (_, u) => In u [L "ms"; L "us"; L "ns"; L "ps"] | None => True end).
  - repeat apply yields_alt.
    + skip1. skip1. eapply yields_bind; [exact Ho|]. intros [[i u]|] Hu; skips; exact Hu.
    + skip1. eapply yields_bind; [exact Ho|]. intros [[i u]|] Hu; skips; exact Hu.
    + eapply yields_bind; [exact Hs|]. intros [i u] Hu. skips. exact Hu.
  - intros a Ha. skips. exact Ha.
Qed.
Lemma duration_pan o P : pan P (duration_number o).
Proof. destruct o; exact I. Qed.
Lemma parse_interval_pan s p P : pan P (parse_interval s p).
Proof.
  unfold parse_interval. destruct (g_interval_duration s) as [[[[d c] u] r]|] eqn:E; [|exact I].
  apply yields_interval in E. cbn [snd] in E.
  apply pan_bind; [destruct d; [apply duration_pan|exact I]|intros ? _].
  apply pan_bind; [destruct c; [apply duration_pan|exact I]|intros ? _].
  apply pan_bind; [|intros; exact I].
  destruct u as [[t unit]|]; [|exact I]. apply pan_bind.
  - apply pan_unwrap. intros H. now apply prec_of_unit_toks in E.
  - intros ? _. destruct (_ =? _)%Z; [apply duration_pan|exact I].
Qed.
Lemma check_precision_pan p P : pan P (check_supported_precision p).
Proof. unfold check_supported_precision. destruct (prec_of_units p) as [[]|]; exact I. Qed.
Lemma units_pan d p P : pan P (duration_to_units d p).
Proof. unfold duration_to_units. destruct p; try (destruct (in_range _ _ _); [|exact I]); try exact I; destruct (_ =? _)%Z; exact I. Qed.
Lemma parse_timestamp_pan s p P : pan P (parse_timestamp s p).
Proof.
  unfold parse_timestamp. apply pan_bind; [apply check_precision_pan|intros ? _]. destruct (first_match _ _); [apply units_pan|exact I].
Qed.
Lemma parse_time_pan s p P : pan P (parse_time s p).
Proof. unfold parse_time. apply pan_bind; [apply check_precision_pan|intros ? _]. destruct (first_match _ _); [apply units_pan|exact I]. Qed.
Lemma parse_date_pan s P : pan P (parse_date_to_days s).
Proof. unfold parse_date_to_days. destruct (first_match _ _); exact I. Qed.

Section Lower.
  Context `{F : Floats}.

  Lemma lower_literal_pan e c : lit_whole (fst c) -> pan csite (lower_literal e c).
  Proof.
    intros H. unfold lower_literal. apply pan_bind.
    { destruct (snd c); [|exact I]. apply pan_map, lower_type_pan. }
    intros t _. destruct (fst c); cbn [lit_whole] in H.
    - unfold to_float_literal. destruct t as [[[] ? ?| | | | | | | | | | | | |]|]; exact I.
    - unfold to_int_literal. apply pan_bind; [apply pan_unwrap; intros _; sites|]. intros z _. destruct t as [[[] ? ?| | | | | | | | | | | | |]|]; exact I.
    - unfold to_boolean_literal. destruct t as [[[] ? ?| | | | | | | | | | | | |]|]; exact I.
    - unfold to_string_literal. apply pan_bind; [apply unescape_whole; [discriminate|exact H]|]. intros x _.
      destruct t as [[[] ? ?|[] ? ? ?|o ? ?| | | | | | | | | | |]|]; try exact I;
        try (apply pan_bind; [first [apply parse_date_pan|apply parse_time_pan|apply parse_timestamp_pan]|intros; exact I]).
      destruct (match o with Some p => prec_of_units p | None => None end); [|exact I]. apply pan_bind; [apply parse_interval_pan|intros; exact I].
    - unfold to_null_literal. destruct t; exact I.
  Qed.
  Lemma field_index_pan s : pan csite (field_index s).
  Proof. apply pan_unwrap. intros _. sites. Qed.
  Lemma fref_pan f : pan csite (fref_values f).
  Proof. unfold fref_values. apply pan_bind; [apply anchor_pan|intros ? _]. apply pan_bind; [apply anchor_pan|intros; exact I]. Qed.
  Lemma lower_expr_pan e c : ewhole c -> pan csite (lower_expr e c).
  Proof.
    induction c as [ifs els IH1 IH2|x b t IH|f args t IH|s|c] using ecst_ind2; cbn [ewhole lower_expr]; intros H.
    - destruct H as (_ & H1 & H2). apply fold_all2 in H1. apply pan_bind.
      + apply pan_clauses; [sites|]. rewrite Forall_forall in *. intros p Hp. destruct (IH1 p Hp), (H1 p Hp).
        apply pan_bind; [auto|intros ? _]. apply pan_bind; [auto|intros; exact I].
      + intros ? _. apply pan_bind; [auto|intros; exact I].
    - apply pan_bind; [auto|intros ? _]. apply pan_bind; [apply lower_type_pan|intros; exact I].
    - apply fold_all in H. apply pan_bind; [apply fref_pan|intros ? _]. apply pan_bind.
      + apply pan_list. rewrite Forall_forall in *. intros x Hx. apply pan_map. auto.
      + intros ? _. apply pan_bind; [apply lower_type_pan|intros ? _]. apply pan_bind; [apply validate_pan|intros; exact I].
    - apply pan_map, field_index_pan.
    - now apply pan_map, lower_literal_pan.
  Qed.
  Lemma lower_measure_pan e f args t : Forall ewhole args -> pan csite (lower_measure e (f, args, t)).
  Proof.
    intros H. cbn [lower_measure]. apply pan_bind; [apply fref_pan|intros ? _]. apply pan_bind.
    - apply pan_list. eapply Forall_impl; [|exact H]. intros x Hx. now apply pan_map, lower_expr_pan.
    - intros ? _. apply pan_bind; [apply lower_type_pan|intros ? _]. apply pan_bind; [apply validate_pan|intros; exact I].
  Qed.
  Lemma lower_exprs_pan e l : Forall ewhole l -> pan csite (lower_exprs e l).
  Proof. intros H. apply pan_list. eapply Forall_impl; [|exact H]. intros x. apply lower_expr_pan. Qed.
  Lemma lower_opt_pan e o : opt_whole o -> pan csite (lower_opt_expr e o).
  Proof. destruct o; cbn; [|intros; exact I]. intros H. now apply pan_map, lower_expr_pan. Qed.
  Lemma lower_columns_pan e l : cols_whole l -> pan csite (lower_columns e l).
  Proof.
    intros H. apply pan_list. eapply Forall_impl; [|exact H]. intros [n t] Hn. unfold lower_column. cbn [fst snd] in *.
    apply pan_bind; [now apply lower_name_pan|intros ? _]. apply pan_bind; [apply lower_type_pan|intros; exact I].
  Qed.
  Lemma lower_xarg_pan e c : xwhole c -> pan csite (lower_xarg e c).
  Proof.
    induction c as [s|c|s|c|l IH] using xacst_ind2; cbn [xwhole lower_xarg]; intros H.
    - exact I.
    - destruct c; cbn [lower_parameter lit_whole] in *; try exact I.
      + apply pan_map, pan_unwrap. intros _. sites.
      + apply pan_map, unescape_whole; [discriminate|exact H].
    - apply pan_map, field_index_pan.
    - now apply pan_map, lower_expr_pan.
    - apply fold_all in H. apply pan_map, pan_list. rewrite Forall_forall in *. auto.
  Qed.
  Lemma lower_xargs_pan e c : xargs_whole c -> pan csite (lower_xargs e c).
  Proof.
    intros [H1 H2]. unfold lower_xargs. apply pan_bind.
    - apply pan_list. eapply Forall_impl; [|exact H1]. intros x. apply lower_xarg_pan.
    - intros ? _. apply pan_bind; [|intros; exact I]. apply pan_list. eapply Forall_impl; [|exact H2]. intros [n x] [Hn Hx]. unfold lower_xnamed. cbn [fst snd] in *.
      apply pan_bind; [now apply lower_name_pan|intros ? _]. apply pan_bind; [now apply lower_xarg_pan|intros; exact I].
  Qed.
  Lemma lower_xcolumn_pan e c : xcol_whole c -> pan csite (lower_xcolumn e c).
  Proof.
    destruct c as [[n t]|s|c]; cbn [xcol_whole lower_xcolumn fst]; intros H.
    - apply pan_bind; [now apply lower_name_pan|intros ? _]. apply pan_bind; [apply lower_type_pan|intros; exact I].
    - apply pan_map, field_index_pan.
    - now apply pan_map, lower_expr_pan.
  Qed.
  Lemma parse_emit_pan refs n : pan csite (parse_emit refs n).
  Proof. unfold parse_emit. apply pan_bind; [|intros; exact I]. apply pan_list. apply Forall_forall. intros x _. apply field_index_pan. Qed.
  Lemma lower_outputs_pan e g l : forall k, Forall ewhole l -> pan csite (lower_outputs e g k l).
  Proof.
    induction l as [|c l IH]; intros k H; cbn [lower_outputs]; [exact I|]. inversion H; subst.
    apply pan_bind; [now apply lower_expr_pan|intros x _]. destruct (last_pos 0 x g).
    - apply pan_bind; [auto|intros; exact I].
    - destruct c; try exact I. apply pan_bind; [apply lower_measure_pan, fold_all; assumption|intros ? _]. apply pan_bind; [auto|intros; exact I].
  Qed.
  Lemma lower_project_pan e n l : forall k, Forall (fun a => match a with PaRef _ => True | PaExpr c => ewhole c end) l -> pan csite (lower_project e n k l).
  Proof.
    induction l as [|[s|c] l IH]; intros k H; cbn [lower_project]; [exact I|..]; inversion H; subst.
    - apply pan_bind; [apply field_index_pan|intros ? _]. apply pan_bind; [auto|intros; exact I].
    - apply pan_bind; [now apply lower_expr_pan|intros ? _]. apply pan_bind; [auto|intros; exact I].
  Qed.
  Lemma one_child_pan P what cs : pan P (one_child what cs).
  Proof. destruct cs as [|? []]; exact I. Qed.
  Lemma two_children_pan P what cs : pan P (two_children what cs).
  Proof. destruct cs as [|? [|? []]]; exact I. Qed.
  Lemma fetch_opt_pan e what l k : Forall (fun p : list N * fvc => match snd p with FvInt _ => True | FvExpr c => ewhole c end) l ->
    pan csite (lower_fetch_opt e what (imap_get k l)).
  Proof.
    intros H. destruct (imap_get k l) as [v|] eqn:E; cbn [lower_fetch_opt]; [|exact I].
    assert (Hv : match v with FvInt _ => True | FvExpr c => ewhole c end).
    { clear - E H. revert E. induction H as [|[k' w] l0 Hw H IH]; intros E; [discriminate|]. cbn [imap_get] in E. destruct (streqb k k').
      - injection E as E. subst w. exact Hw.
      - now apply IH. }
    apply pan_map. destruct v; cbn [lower_fetch_value]; [|now apply pan_map, lower_expr_pan].
    destruct (parse_i64 _); [destruct (_ <? _)%Z|]; exact I.
  Qed.
  Lemma join_toks_known t : In t join_toks -> enum_number join_types (tl t) <> None.
  Proof. intros H. repeat (destruct H as [<-|H]; [vm_compute; discriminate|]). destruct H. Qed.
  Lemma set_toks_known t : In t set_toks -> enum_number set_ops (tl t) <> None.
  Proof. intros H. repeat (destruct H as [<-|H]; [vm_compute; discriminate|]). destruct H. Qed.

  Lemma lower_rel_pan e y cs adv : line_whole y -> not_root y -> match y with YExtRead _ | YExt _ _ _ _ => False | _ => True end ->
    pan csite (lower_rel e y cs adv).
  Proof.
    intros H Hn Ho. destruct y; try contradiction; cbn [line_whole lower_rel] in *.
    - destruct H as [H1 H2]. destruct cs; [|exact I]. apply pan_bind.
      + apply pan_list. eapply Forall_impl; [|exact H1]. intros n. apply lower_name_pan.
      + intros ? _. apply pan_bind; [|intros [[? ?] ?] _; exact I]. destruct o; cbn [lower_output].
        * apply pan_bind; [now apply lower_columns_pan|intros; exact I].
        * apply pan_bind; [apply pan_guard; [sites|now apply lower_columns_pan]|intros ? _]. destruct refs; [|exact I].
          apply pan_bind; [|intros; exact I]. apply pan_list, Forall_forall. intros x _. apply field_index_pan.
    - destruct H as (H1 & H2 & H3). destruct cs; [|exact I]. apply pan_bind; [apply pan_guard; [sites|now apply lower_opt_pan]|intros ? _].
      apply pan_bind; [|intros ? _; apply pan_bind; [now apply lower_columns_pan|intros; exact I]].
      apply pan_list. eapply Forall_impl; [|exact H1]. intros l. apply lower_exprs_pan.
    - apply pan_bind; [apply one_child_pan|intros ? _]. apply pan_bind; [apply pan_guard; [sites|now apply lower_expr_pan]|intros ? _].
      apply pan_bind; [apply parse_emit_pan|intros; exact I].
    - apply pan_bind; [apply one_child_pan|intros ? _]. apply pan_bind; [now apply lower_project_pan|intros; exact I].
    - destruct H as [H1 H2]. apply pan_bind; [apply one_child_pan|intros ? _]. apply pan_bind.
      + destruct g; cbn [lower_groups].
        * apply pan_list. eapply Forall_impl; [|exact H1]. intros x. apply lower_exprs_pan.
        * apply pan_bind; [now apply lower_exprs_pan|intros; exact I].
      + intros sets _. destruct (build_grouping_fields sets). apply pan_bind; [now apply lower_outputs_pan|intros; exact I].
    - apply pan_bind; [apply one_child_pan|intros ? _]. apply pan_bind; [|intros ? _; apply pan_bind; [apply parse_emit_pan|intros; exact I]].
      apply pan_list. eapply Forall_impl; [|exact H]. intros p Hp. unfold lower_sort_field. apply pan_bind; [apply pan_guard; [sites|now apply lower_expr_pan]|].
      intros ? _. destruct (enum_number _ _); exact I.
    - apply pan_bind; [apply one_child_pan|intros ? _]. apply pan_bind; [apply pan_guard; [sites|destruct (has_duplicate args); exact I]|intros ? _].
      apply pan_bind; [apply parse_emit_pan|intros ? _]. apply pan_bind; [now apply fetch_opt_pan|intros ? _].
      apply pan_bind; [now apply fetch_opt_pan|intros; exact I].
    - destruct H as (H1 & H2 & H3). apply pan_bind; [apply two_children_pan|intros ? _]. apply pan_bind.
      { apply pan_unwrap. intros E. now apply join_toks_known in H1. }
      intros ? _. apply pan_bind; [apply pan_guard; [sites|now apply lower_expr_pan]|intros ? _].
      apply pan_bind; [apply pan_guard; [sites|now apply lower_opt_pan]|intros ? _]. apply pan_bind; [apply parse_emit_pan|intros; exact I].
    - destruct cs as [|c [|d cs]]; try exact I. destruct (forallb _ _); [|exact I]. apply pan_bind.
      { apply pan_unwrap. intros E. now apply set_toks_known in H. }
      intros ? _. apply pan_bind; [apply parse_emit_pan|intros; exact I].
    - apply pan_bind; [apply two_children_pan|intros ? _]. apply pan_bind; [apply parse_emit_pan|intros; exact I].
  Qed.

  (** ** Trees *)

  Variable reg : registry.
  (** Panics of the handlers themselves. *)
  Definition handler_panic (m : string) : Prop := exists t name args, parse_with_type reg t name args = Panic m.
  Definition any_site (m : string) : Prop := In m crash_sites \/ handler_panic m.
  Lemma site_any {E X} (x : res E X) : pan csite x -> pan any_site x.
  Proof. destruct x; cbn [pan]; unfold any_site; auto. Qed.
  Lemma resolve_pan t n name args : pan any_site (resolve reg t n name args).
  Proof. unfold resolve. destruct (parse_with_type reg t name args) as [|[]|m] eqn:E; try exact I. right. unfold handler_panic. eauto. Qed.
  Lemma standard_loop_pan l : forall enh opts, pan any_site (standard_loop reg l enh opts).
  Proof.
    induction l as [|a l IH]; intros enh opts; cbn [standard_loop]; [exact I|]. destruct (ai_kind a); try exact I.
    - destruct enh; [exact I|]. apply pan_bind; [apply resolve_pan|auto].
    - apply pan_bind; [apply resolve_pan|auto].
  Qed.
  Lemma standard_addenda_pan l : pan any_site (standard_addenda reg l).
  Proof. unfold standard_addenda. apply pan_bind; [apply standard_loop_pan|]. intros [[|] [|]] _; exact I. Qed.
  Lemma extension_addenda_pan n l : pan any_site (extension_read_addenda reg n l).
  Proof.
    unfold extension_read_addenda. destruct (filter is_table l) as [|a [|b r]]; try exact I. apply pan_bind; [apply resolve_pan|intros ? _].
    apply pan_bind; [apply standard_addenda_pan|intros; exact I].
  Qed.
  Lemma parse_relation_pan e y n l cs : line_whole y -> not_root y -> pan any_site (parse_relation reg e y n l cs).
  Proof.
    intros H Hn.
    assert (G : match y with YExtRead _ | YExt _ _ _ _ => False | _ => True end ->
      pan any_site (let? adv := standard_addenda reg l in lift_plan n (lower_rel e y cs adv))).
    { intros Ho. apply pan_bind; [apply standard_addenda_pan|intros adv _]. apply pan_lift_plan, site_any. now apply lower_rel_pan. }
    unfold parse_relation. destruct y; try (apply G; exact I); clear G.
    - apply pan_bind; [apply extension_addenda_pan|intros p _]. apply pan_lift_plan. destruct cs; [|exact I].
      apply pan_bind; [apply site_any; now apply lower_columns_pan|intros; exact I].
    - destruct H as (H1 & H2 & H3). destruct l; [|exact I]. apply pan_bind.
      + apply pan_lift_plan, site_any. unfold lower_invocation. apply pan_bind; [now apply lower_xargs_pan|intros ? _].
        apply pan_bind; [|intros; exact I]. apply pan_list. eapply Forall_impl; [|exact H3]. intros c. apply lower_xcolumn_pan.
      + intros a _. destruct (child_count_ok _ _); [|exact I]. apply pan_bind; [apply resolve_pan|intros; exact I].
  Qed.
  Lemma build_rel_pan e n : sub_whole n -> pan any_site (build_rel reg e n).
  Proof.
    induction n as [y line ads cs IH] using rnode_ind2. cbn [sub_whole build_rel]. intros (H1 & H2 & H3 & H4). apply fold_all in H4.
    apply pan_bind.
    - apply pan_list. rewrite Forall_forall in *. auto.
    - intros ? _. apply pan_bind; [|intros ? _; now apply parse_relation_pan].
      apply pan_list. eapply Forall_impl; [|exact H3]. intros [[k n x] m] [Hn Hx]. cbn [lower_addendum]. apply pan_lift_plan, site_any.
      apply pan_bind; [now apply lower_name_pan|intros ? _]. apply pan_bind; [now apply lower_xargs_pan|intros; exact I].
  Qed.
  Lemma build_plan_rel_pan e n : tree_whole n -> pan any_site (build_plan_rel reg e n).
  Proof.
    destruct n as [y line ads cs]. intros (H1 & H2 & H3).
    assert (G : not_root y -> pan any_site (let? p := build_rel reg e (RNode y line ads cs) in Ok (PRel (fst p)))).
    { intros Hy. apply pan_bind; [|intros; exact I]. apply build_rel_pan. cbn [sub_whole]. rewrite fold_all. auto. }
    destruct y; try (apply G; exact I). clear G. cbn [build_plan_rel]. destruct ads as [|[a l] ads]; [|exact I].
    apply pan_bind.
    - apply pan_lift_plan, pan_list. eapply Forall_impl; [|exact H1]. intros n. apply lower_name_pan.
    - intros ? _. destruct cs as [|c [|]]; try exact I. inversion H3; subst. apply pan_bind; [now apply build_rel_pan|intros; exact I].
  Qed.
End Lower.

(** ** Lines *)

Lemma lift_tree_pan P {X} n (x : res tree_error X) : pan P x -> pan P (lift_tree n x).
Proof. destruct x as [|[]|]; cbn; auto. Qed.
Lemma lift_ext_pan P {X} n (x : res ext_error X) : pan P x -> pan P (lift_ext n x).
Proof. destruct x; cbn; auto. Qed.
Lemma lift_message_pan P {X} (x : pres X) : pan P x -> pan P (lift_message x).
Proof. destruct x; cbn; auto. Qed.
Lemma lift_insert_pan P x : pan P (lift_insert x).
Proof. destruct x as [? []]; exact I. Qed.
Lemma subsection_pan P x i s : pan P (parse_subsection x i s).
Proof. unfold parse_subsection. destruct i; [|exact I]. repeat (destruct (streqb _ _); [exact I|]). exact I. Qed.
Lemma ext_line_pan x il : pan csite (ext_parse_line x il).
Proof.
  destruct il as [i s]. cbn [ext_parse_line]. destruct s as [|c s]; [exact I|]. destruct (xp_state x) as [| |k].
  - apply subsection_pan.
  - destruct i as [|[|i]]; [apply subsection_pan| |exact I]. apply pan_bind; [|intros ? _; apply pan_bind; [apply lift_insert_pan|intros; exact I]].
    apply lift_message_pan. unfold parse_urn_declaration. destruct (g_urn_declaration (c :: s)) as [[[a u] []]|]; [|sites|exact I].
    apply pan_map, pan_unwrap. intros _. sites.
  - destruct i as [|[|i]]; [apply subsection_pan| |exact I]. apply pan_bind; [|intros ? _; apply pan_bind; [apply lift_insert_pan|intros; exact I]].
    apply lift_message_pan. unfold parse_declaration. destruct (g_simple_extension (c :: s)) as [[[[a u] n] []]|]; [|sites|exact I].
    apply pan_bind; [apply pan_unwrap; intros _; sites|intros ? _]. apply pan_bind; [apply pan_unwrap; intros _; sites|intros ? _].
    destruct (_ && _); [exact I|]. destruct (_ && _); exact I.
Qed.
Lemma next_number_pan P n ps : pan P (next_number n ps).
Proof. unfold next_number. destruct ps as [|l ps]; [exact I|]. destruct l; [exact I|]. destruct (parse_u32 _); exact I. Qed.
Lemma version_header_pan P n s : pan P (parse_version_header n s).
Proof. unfold parse_version_header. do 3 (apply pan_bind; [apply next_number_pan|intros ? _]). destruct (snd _); exact I. Qed.

Section Texts.
  Variables R A : Type.
  Variable root : list N -> pres (R + A).
  Variable node : list N -> pres (R + A).
  Hypothesis Hroot : forall s m, root s <> Panic m.
  Hypothesis Hnode : forall s m, node s <> Panic m.
  Notation parser := (Structural.parser R A).
  (** In the version section there is a version. *)
  Definition versioned (p : parser) : Prop := ps_state _ _ p = SVersion -> ps_version _ _ p <> None.
  Lemma parse_line_versioned p n l p' : versioned p -> parse_line R A root node p n l = Ok p' -> versioned p'.
  Proof.
    unfold versioned, parse_line. intros V. destruct (indented l) as [i t]. destruct (match i with 0 => _ | _ => _ end).
    - intros H. apply rbind_ok in H as ([st v] & H1 & H). cbn [fst snd] in *. destruct (Nat.leb_spec (section_rank st) (section_rank (ps_state R A p))); [discriminate|].
      injection H as <-. cbn [ps_state ps_version]. intros ->. unfold parse_section_header in H1.
      destruct (streqb _ _); [discriminate|]. destruct (streqb _ _); [discriminate|]. destruct (strip_prefix _ _); [|discriminate].
      destruct (match l0 with [] => _ | _ => _ end); [|discriminate]. apply rmap_ok in H1 as (w & _ & [= ->]). discriminate.
    - destruct (ps_state R A p) eqn:Es.
      + destruct i; [|discriminate]. destruct (trim t); [|discriminate]. intros [= <-]. rewrite Es. exact V.
      + destruct i as [|[|i]]; [destruct (trim t); [|discriminate]| |discriminate].
        * intros [= <-]. rewrite Es. exact V.
        * intros H. apply rbind_ok in H as (v & _ & H). injection H as <-. discriminate.
      + intros H. apply rbind_ok in H as (v & _ & H). injection H as <-. discriminate.
      + intros H. apply rbind_ok in H as (v & _ & H). apply rbind_ok in H as (v' & _ & H). injection H as <-. discriminate.
  Qed.
  Lemma parse_line_pan p n l : versioned p -> pan csite (parse_line R A root node p n l).
  Proof.
    unfold versioned, parse_line. intros V. destruct (indented l) as [i t]. destruct (match i with 0 => _ | _ => _ end).
    - apply pan_bind.
      + unfold parse_section_header. destruct (streqb _ _); [exact I|]. destruct (streqb _ _); [exact I|]. destruct (strip_prefix _ _); [|exact I].
        destruct (match l0 with [] => _ | _ => _ end); [|exact I]. apply pan_map, version_header_pan.
      + intros v _. destruct (_ <=? _)%nat; exact I.
    - destruct (ps_state R A p) eqn:Es.
      + destruct i; [|exact I]. destruct (trim t); exact I.
      + specialize (V eq_refl). destruct i as [|[|i]]; [destruct (trim t); exact I| |exact I]. apply pan_bind; [|intros; exact I].
        unfold parse_version_detail. destruct (split_at_char _ _) as [[k v]|]; [|exact I]. destruct (ps_version R A p); [|congruence].
        destruct (streqb _ _); [exact I|]. destruct (streqb _ _); exact I.
      + apply pan_bind; [apply lift_ext_pan, ext_line_pan|intros; exact I].
      + apply pan_bind; [apply pan_lift_plan|intros ? _].
        * apply total_pan. intros m. destruct i; [apply Hroot|apply Hnode].
        * apply pan_bind; [|intros; exact I]. apply lift_tree_pan, total_pan. intros m. apply add_line_no_panic.
  Qed.
  Lemma prest_pan p n s : versioned p -> pan csite (prest R A root node p n s).
  Proof.
    apply (prest_ind R A root node (fun p n s => versioned p -> pan csite (prest R A root node p n s))); clear p n s.
    - intros p n _. rewrite prest_nil. exact I.
    - intros p n s Hs IH V. rewrite prest_step by exact Hs. unfold step in *. apply pan_bind.
      + destruct (blank _); [exact I|]. now apply parse_line_pan.
      + intros p' H. apply IH; [exact H|]. destruct (blank _); [injection H as <-; exact V|]. eapply parse_line_versioned; eauto.
  Qed.
End Texts.
Lemma read_root_total s m : read_root s <> Panic m.
Proof. unfold read_root. destruct (g_top s) as [[]|]; discriminate. Qed.
Lemma read_node_total s m : read_node s <> Panic m.
Proof. unfold read_node. destruct (g_node s) as [[]|]; discriminate. Qed.
