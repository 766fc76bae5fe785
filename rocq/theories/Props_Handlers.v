(** C68: which handlers formatting consults. *)
From Coq Require Import String List NArith ZArith Bool Lia.
From Verif Require Import Base Names SpecNames SimpleExt Out Types Literals SpecLiterals Exprs ExtArgs Registry SpecRegistry Rels
  SpecRels SpecAddenda Plan Structural SpecLits SpecVisible SpecFormat Lines Tree TreeFacts RelGrammar RelRead OutClosed Props_Registry Props_Plan.
Import ListNotations.
Local Open Scope string_scope.
Local Open Scope list_scope.
Local Open Scope nat_scope.

(** ** Specification *)

(** The messages a relation holds itself, each with the kind of handler it needs. *)
Definition held (r : prel) : list (xtype * any) :=
  map (pair XtEnhancement) (rel_enhancement r) ++ map (pair XtOptimization) (rel_optimizations r) ++
  map (pair XtTable) (rel_table r) ++
  match r with RExtLeaf _ d | RExtSingle _ d _ | RExtMulti _ d _ => map (pair XtRelation) (opt_list d) | _ => [] end.
(** The messages a plan holds. *)
Definition held_in (p : pplan) (t : xtype) (d : any) : Prop :=
  exists r, in_plan_rels r (pl_rels _ p) /\ In (t, d) (held r).
(** The name and the handler that a registry has for a kind and type URL, if any. *)
Definition handler_for (reg : registry) (t : xtype) (url : list N) : option (list N * extension) :=
  match hget (t, url) (rg_urls reg) with
  | Some n => match hget (t, n) (rg_handlers reg) with Some h => Some (n, h) | None => None end
  | None => None
  end.

(** ** Proof *)

Section Same.
  Context {U : Unicode} {F : Floats}.
  Variables (reg reg' : registry) (op : options) (e : exts).
  Definition same (t : xtype) (d : any) : Prop := handler_for reg t (any_url d) = handler_for reg' t (any_url d).
  Definition agrees (r : prel) : Prop := forall t d, In (t, d) (held r) -> same t d.

  Lemma decode_same t d ws : same t d ->
    decode_with_type reg t d ws = decode_with_type reg' t d ws \/
    exists x y, decode_with_type reg t d ws = Err x /\ decode_with_type reg' t d ws = Err y.
  Proof.
    unfold same, handler_for, decode_with_type.
    destruct (hget (t, any_url d) (rg_urls reg)) as [n|], (hget (t, any_url d) (rg_urls reg')) as [n'|];
      try (destruct (hget (t, n) (rg_handlers reg)) as [h|]); try (destruct (hget (t, n') (rg_handlers reg')) as [h'|]);
      intros E; try discriminate E; try (right; eexists; eexists; split; reflexivity).
    injection E as -> ->. now left.
  Qed.
  Lemma addendum_same s t d : same t d ->
    addendum_out op e s (decode_with_type reg t d []) = addendum_out op e s (decode_with_type reg' t d []).
  Proof. intros H. destruct (decode_same t d [] H) as [->|(x & y & -> & ->)]; reflexivity. Qed.
  Lemma extension_same k d ws : (forall m, In m (opt_list d) -> same XtRelation m) ->
    extension_header reg op e k d ws = extension_header reg' op e k d ws.
  Proof.
    destruct d as [d|]; [|reflexivity]. intros H. unfold extension_header.
    destruct (decode_same XtRelation d ws) as [->|(x & y & -> & ->)]; try reflexivity. apply H. now left.
  Qed.
  Lemma adv_same r : agrees r -> adv_lines reg op e (rel_adv r) = adv_lines reg' op e (rel_adv r).
  Proof.
    unfold agrees, held, rel_enhancement, rel_optimizations, adv_lines. destruct (rel_adv r) as [a|]; [|reflexivity]. intros H. f_equal.
    - destruct (ae_enhancement a) as [d|]; [|reflexivity]. f_equal. apply addendum_same, H. apply in_or_app. left. now left.
    - apply map_ext_in. intros d I. apply addendum_same, H. apply in_or_app. right. apply in_or_app. left. now apply in_map.
  Qed.
  Lemma table_same r d : agrees (RRead r) -> rd_type r = ReadExtension d -> table_line reg op e d = table_line reg' op e d.
  Proof.
    intros H E. unfold table_line. destruct d as [d|]; [|reflexivity]. apply addendum_same, H. unfold held, rel_table. rewrite E.
    apply in_or_app. right. apply in_or_app. right. apply in_or_app. left. now left.
  Qed.
  Lemma relation_same r : agrees r -> forall d, In d (match r with RExtLeaf _ d | RExtSingle _ d _ | RExtMulti _ d _ => opt_list d | _ => [] end) ->
    same XtRelation d.
  Proof.
    intros H d I. apply H. unfold held. apply in_or_app. right. apply in_or_app. right. apply in_or_app. right.
    destruct r; try destruct I; now apply in_map.
  Qed.
  Lemma read_same r : agrees (RRead r) -> read_header reg op e r = read_header reg' op e r.
  Proof.
    intros H. pose proof (adv_same _ H) as A. cbn [rel_adv] in A. pose proof (fun d => table_same r d H) as T.
    unfold read_header. rewrite A. destruct (rd_type r); try reflexivity. now rewrite (T _ eq_refl).
  Qed.

  Definition below (r : prel) : Prop := forall x, subrel x r -> agrees x.
  Lemma below_input i r : In i (inputs r) -> below r -> below i.
  Proof. intros I H x S. apply H. eapply subrel_input; eauto. Qed.
  Definition view_same (r : prel) : Prop := below r -> view_of reg op e r = view_of reg' op e r.
  Definition child_view (g : registry) (o : option prel) : option view :=
    match o with Some r => Some (view_of g op e r) | None => None end.
  Lemma child_same o r : below r -> opt_P view_same o -> incl (opt_list o) (inputs r) -> child_view reg o = child_view reg' o.
  Proof.
    destruct o as [i|]; [|reflexivity]. cbn. intros H P I. f_equal. apply P. eapply below_input; [|exact H]. apply I. now left.
  Qed.
  Lemma children_same l r : below r -> Forall view_same l -> incl l (inputs r) ->
    map (view_of reg op e) l = map (view_of reg' op e) l.
  Proof.
    intros H P I. apply map_ext_in. intros i Hi. rewrite Forall_forall in P. apply P; [exact Hi|]. eapply below_input; [|exact H]. auto.
  Qed.
  Lemma view_of_same r : view_same r.
  Proof.
    apply (prel_ind2 view_same); unfold view_same; intros; match goal with B : below ?r |- _ =>
      pose proof (B r (subrel_self r)) as G; pose proof (adv_same r G) as A; cbn [rel_adv] in A; pose proof (relation_same r G) as X; cbn beta iota in X end;
      cbn [view_of]; try reflexivity.
    - now rewrite read_same.
    - fold (child_view reg i) (child_view reg' i). rewrite (child_same i _ H0 H (incl_refl _)). unfold filter_header. now rewrite A.
    - fold (child_view reg i) (child_view reg' i). rewrite (child_same i _ H0 H (incl_refl _)). unfold project_header. now rewrite A.
    - fold (child_view reg i) (child_view reg' i). rewrite (child_same i _ H0 H (incl_refl _)). unfold aggregate_header. now rewrite A.
    - fold (child_view reg i) (child_view reg' i). rewrite (child_same i _ H0 H (incl_refl _)). unfold sort_header. now rewrite A.
    - fold (child_view reg i) (child_view reg' i). rewrite (child_same i _ H0 H (incl_refl _)). unfold fetch_header. now rewrite A.
    - fold (child_view reg l) (child_view reg' l) (child_view reg r0) (child_view reg' r0).
      rewrite (child_same l _ H1 H (incl_appl _ (incl_refl _))), (child_same r0 _ H1 H0 (incl_appr _ (incl_refl _))).
      unfold join_header. now rewrite A.
    - rewrite (children_same l _ H0 H (incl_refl _)). unfold set_header. now rewrite A.
    - fold (child_view reg l) (child_view reg' l) (child_view reg r0) (child_view reg' r0).
      rewrite (child_same l _ H1 H (incl_appl _ (incl_refl _))), (child_same r0 _ H1 H0 (incl_appr _ (incl_refl _))).
      unfold cross_header. now rewrite A.
    - now rewrite (extension_same _ d [] X).
    - fold (child_view reg i) (child_view reg' i). rewrite (child_same i _ H0 H (incl_refl _)). now rewrite (extension_same _ d _ X).
    - rewrite (children_same l _ H0 H (incl_refl _)). now rewrite (extension_same _ d _ X).
  Qed.
  Lemma plan_rel_same q : (forall i, In i (plan_inputs q) -> below i) -> plan_rel_out reg op e q = plan_rel_out reg' op e q.
  Proof.
    destruct q as [r|ns [r|]|]; cbn [plan_inputs plan_rel_out opt_list]; intros H; try reflexivity; unfold rel_out;
      rewrite (view_of_same r); try reflexivity; apply H; now left.
  Qed.
End Same.

(** Two registries that have the same handlers for the messages a plan holds format it
    the same: the text, the errors and the crashes. *)
Theorem C68_handlers : forall (U : Unicode) (F : Floats) reg reg' op p,
  (forall t d, held_in p t d -> handler_for reg t (any_url d) = handler_for reg' t (any_url d)) ->
  format reg op p = format reg' op p.
Proof.
  intros U F reg reg' op p H. unfold format. destruct (from_extensions (pl_urns _ p) (pl_decls _ p)) as [e l].
  assert (R : relations_out op reg e (pl_rels _ p) = relations_out op reg' e (pl_rels _ p)); [|now rewrite R].
  unfold relations_out. do 2 f_equal. apply map_ext_in. intros q Q. apply plan_rel_same. intros i I x S t d D.
  apply H. exists x. split; [exists q, i; auto|exact D].
Qed.
(** So a plan that holds no message is formatted the same whatever is registered. *)
Theorem C68_no_messages : forall (U : Unicode) (F : Floats) reg reg' op p,
  (forall t d, ~ held_in p t d) -> format reg op p = format reg' op p.
Proof. intros U F reg reg' op p H. apply C68_handlers. intros t d D. destruct (H t d D). Qed.

(** ** Parsing *)

Section Read.
  Context {F : Floats}.
  Variables (reg reg' : registry).
  Hypothesis Handlers : forall t n, hget (t, n) (rg_handlers reg) = hget (t, n) (rg_handlers reg').
  Lemma rlist_same {E A B} (f g : A -> res E B) l : Forall (fun x => f x = g x) l -> rlist f l = rlist g l.
  Proof. induction 1 as [|x l H _ IH]; [reflexivity|]. cbn [rlist]. now rewrite H, IH. Qed.
  Lemma resolve_same t line n a : resolve reg t line n a = resolve reg' t line n a.
  Proof. unfold resolve, parse_with_type. now rewrite Handlers. Qed.
  Lemma standard_loop_same l : forall enh opts, standard_loop reg l enh opts = standard_loop reg' l enh opts.
  Proof.
    induction l as [|a l IH]; intros enh opts; [reflexivity|]. cbn [standard_loop]. unfold resolve_addendum. rewrite resolve_same.
    destruct (ai_kind a); try reflexivity; [destruct enh; [reflexivity|]|]; destruct (resolve reg' _ _ _ _); cbn [rbind]; auto.
  Qed.
  Lemma standard_same l : standard_addenda reg l = standard_addenda reg' l.
  Proof. unfold standard_addenda. now rewrite standard_loop_same. Qed.
  Lemma relation_read_same e y line ads cs : parse_relation reg e y line ads cs = parse_relation reg' e y line ads cs.
  Proof.
    unfold parse_relation. destruct y; rewrite ?standard_same; try reflexivity.
    - unfold extension_read_addenda. destruct (filter is_table ads) as [|a [|]]; try reflexivity.
      unfold resolve_addendum. now rewrite resolve_same, standard_same.
    - destruct ads; [|reflexivity]. destruct (lift_plan _ _); try reflexivity. cbn [rbind]. now rewrite resolve_same.
  Qed.
  Lemma build_rel_same e n : build_rel reg e n = build_rel reg' e n.
  Proof.
    induction n as [y line ads cs IH] using rnode_ind2. cbn [build_rel]. rewrite (rlist_same _ _ _ IH).
    destruct (rlist _ cs); try reflexivity. cbn [rbind]. destruct (rlist _ ads); try reflexivity. cbn [rbind]. apply relation_read_same.
  Qed.
  Lemma build_plan_rel_same e n : build_plan_rel reg e n = build_plan_rel reg' e n.
  Proof.
    destruct n as [y line ads cs]. unfold build_plan_rel. destruct y; try (now rewrite build_rel_same).
    destruct ads as [|[? ?] ?]; [|reflexivity]. destruct (lift_plan _ _); try reflexivity. cbn [rbind].
    destruct cs as [|c [|]]; try reflexivity. now rewrite build_rel_same.
  Qed.
End Read.

(** Parsing finds handlers by kind and name only: registries with the same handlers
    under every name give the same plan, error or crash, whatever type URLs they know. *)
Theorem C68_parse : forall (F : Floats) reg reg' s,
  (forall t n, hget (t, n) (rg_handlers reg) = hget (t, n) (rg_handlers reg')) -> parse reg s = parse reg' s.
Proof.
  intros F reg reg' s H. unfold parse, parse_plan.
  match goal with |- rbind ?a _ = rbind ?b _ => change b with a; destruct a as [q| |] end; try reflexivity.
  cbn [rbind]. unfold build_plan. erewrite rlist_same; [reflexivity|]. apply Forall_forall. intros n _. now apply build_plan_rel_same.
Qed.

(** ** Examples *)
Section Examples.
  #[local] Existing Instance ascii_tables.
  #[local] Existing Instance toy_floats.

  (** A relation that holds a message, and registries that have the same handler for it,
      one of them with the type URL taken for another kind as well. *)
  Definition hx_message : any := mk_any (L "u/1") (L ":path").
  Definition hx_plan : pplan :=
    mk_plan _ None [] [] [PRoot [] (Some (RFilter None (Some (RExtLeaf None (Some hx_message))) None None))].
  Definition hx_few : registry := run_regs [(XtRelation, ex_handler "Scan" "u/1")].
  Definition hx_many : registry :=
    run_regs [(XtEnhancement, ex_handler "Hint" "u/1"); (XtRelation, ex_handler "Other" "u/2"); (XtRelation, ex_handler "Scan" "u/1")].
  Lemma hx_held t d : held_in hx_plan t d -> t = XtRelation /\ d = hx_message.
  Proof.
    intros (r & (q & i & [<-|[]] & [<-|[]] & S) & D). inversion S as [|? ? I S1]; subst; [destruct D|].
    destruct I as [<-|[]]. inversion S1 as [|? ? I S2]; subst; [|destruct I]. destruct D as [[= <- <-]|[]]. auto.
  Qed.
  Example hx_same : handler_for hx_few XtRelation (L "u/1") = Some (L "Scan", ex_handler "Scan" "u/1") /\
    length (rg_urls hx_few) = 1 /\ length (rg_urls hx_many) = 3 /\
    format hx_few opts_default hx_plan = format hx_many opts_default hx_plan.
  Proof.
    split; [reflexivity|]. split; [vm_compute; reflexivity|]. split; [vm_compute; reflexivity|].
    apply (C68_handlers ascii_tables toy_floats). intros t d H. apply hx_held in H as [-> ->]. reflexivity.
  Qed.
  Example hx_held_here : held_in hx_plan XtRelation hx_message.
  Proof.
    exists (RExtLeaf None (Some hx_message)). split; [|now left].
    eexists. eexists. split; [now left|]. split; [now left|]. eapply subrel_input; [now left|]. apply subrel_self.
  Qed.
  (** Without the handler it is formatted otherwise. *)
  Example hx_other : o_text (format hx_few opts_default hx_plan) <> o_text (format registry_new opts_default hx_plan).
  Proof. vm_compute. discriminate. Qed.
  (** A plan that holds no message. *)
  Definition hx_plain : pplan := mk_plan _ None [] [] [PRoot [] (Some (RFilter None None (Some ENone) None)); PRel RNone].
  Example hx_plain_holds_none : forall t d, ~ held_in hx_plain t d.
  Proof.
    intros t d (r & (q & i & [<-|[<-|[]]] & [<-|[]] & S) & D); inversion S as [|? ? I S1]; subst; try destruct D; destruct I.
  Qed.
  (** The same handler under the same name, known by another type URL: a text is read
      the same. *)
  Definition hx_renamed : registry := mk_registry (rg_handlers hx_few) [].
  Example hx_parsed : forall s, parse hx_few s = parse hx_renamed s.
  Proof. intros s. apply C68_parse. reflexivity. Qed.
  Example hx_parsed_text : exists p, parse hx_few (L "=== Plan" ++ [c_nl] ++ L "ExtensionLeaf:Scan['p']") = Ok p /\ held_in p XtRelation (mk_any (L "u/1") (L ":p")).
  Proof.
    eexists. split; [vm_compute; reflexivity|]. exists (RExtLeaf direct_common (Some (mk_any (L "u/1") (L ":p")))). split; [|now left].
    eexists. eexists. split; [now left|]. split; [now left|]. apply subrel_self.
  Qed.
End Examples.
Print Assumptions C68_handlers.
Print Assumptions C68_no_messages.
Print Assumptions C68_parse.
