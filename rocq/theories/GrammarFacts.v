(** The readers against the grammar, rule by rule. *)
From Coq Require Import String List NArith Bool Lia Arith.
From Verif Require Import Base BaseFacts Peg PegFacts Names NamesFacts Anchors AnchorsFacts Types TypesFacts
  Literals Exprs ExprsFacts ExtLines ExtArgs ExtArgsFacts Registry RelGrammar ConsumedFacts Pest PestFacts
  PestText SpecGrammar.
Import ListNotations.
Local Open Scope string_scope.
Local Open Scope list_scope.
Local Open Scope nat_scope.
Local Open Scope peg_scope.

(** ** The text that a reader takes *)

Definition spell (t a : list N) : Prop := a = t.

Lemma spells_ret {A} (R : list N -> A -> Prop) a : R [] a -> spells R (pret a).
Proof. intros H s b r [= <- <-]. now exists []. Qed.
Lemma spells_map {A B} (R1 : list N -> A -> Prop) (R : list N -> B -> Prop) f p :
  spells R1 p -> (forall t a, R1 t a -> R t (f a)) -> spells R (pmap f p).
Proof.
  intros Hp H s b r E. unfold pmap in E. destruct (p s) as [[a q]|] eqn:Ep; [|discriminate].
  injection E as <- <-. apply Hp in Ep as (t & -> & H1). eauto.
Qed.
Lemma spells_alt {A} (R : list N -> A -> Prop) p q : spells R p -> spells R q -> spells R (palt p q).
Proof. intros Hp Hq s a r E. unfold palt in E. destruct (p s) as [[b z]|] eqn:Ep; [injection E as <- <-|]; eauto. Qed.
Lemma spells_opt {A} (R : list N -> A -> Prop) p : spells R p ->
  spells (fun t o => match o with Some a => R t a | None => t = [] end) (popt p).
Proof.
  intros Hp s a r E. unfold popt in E. destruct (p s) as [[b z]|] eqn:Ep; injection E as <- <-; [eauto|now exists []].
Qed.
Lemma spells_tok t : spells (fun u _ => u = t) (ptok t).
Proof. intros s a r E. apply ptok_spec in E. eauto. Qed.
Lemma spells_char f : spells (fun t c => t = [c]) (pchar f).
Proof. intros [|c s] a r E; cbn in E; [discriminate|]. destruct (f c); [injection E as <- <-; now exists [c]|discriminate]. Qed.
Lemma spells_while f : spells spell (pwhile f).
Proof. intros s a r [= E]. apply span_spec in E as (-> & _). now exists a. Qed.
Lemma spells_while1 f : spells spell (pwhile1 f).
Proof.
  intros s a r E. unfold pwhile1 in E. destruct (span f s) as [[|c b] q] eqn:Es; [discriminate|].
  injection E as <- <-. apply span_spec in Es as (-> & _). now exists (c :: b).
Qed.
Lemma spells_toks l : spells spell (ptoks l).
Proof.
  induction l as [|t l IH]; cbn [ptoks]; [intros s a r [=]|]. apply spells_alt; auto.
  eapply spells_map; [apply spells_tok|]. now intros ? ? ->.
Qed.
Lemma spells_star {A} (R : list N -> A -> Prop) p : spells R p ->
  spells (fun t l => exists ts, t = concat ts /\ Forall2 R ts l) (pstar p).
Proof.
  intros Hp s l r [= E]. revert l r E. generalize (length s) as n. intros n. revert s.
  induction n as [|n IH]; intros s l r E; cbn in E.
  - injection E as <- <-. exists []. split; auto. now exists [].
  - destruct (p s) as [[a q]|] eqn:Ep; [|injection E as <- <-; exists []; split; auto; now exists []].
    destruct (pstar_n n p q) as [l' r'] eqn:En. injection E as <- <-.
    apply Hp in Ep as (t & -> & Ht). apply IH in En as (u & -> & ts & -> & F).
    exists (t ++ concat ts). split; [apply app_assoc|]. exists (t :: ts). split; auto.
Qed.

Ltac sp_known :=
  match goal with
  | E : pchar _ _ = Some _ |- _ => apply spells_char in E
  | E : pwhile _ _ = Some _ |- _ => apply spells_while in E
  | E : pwhile1 _ _ = Some _ |- _ => apply spells_while1 in E
  | E : ptoks _ _ = Some _ |- _ => apply spells_toks in E
  | H : spells _ ?p, E : ?p _ = Some _ |- _ => apply H in E
  end.
Ltac sp_step :=
  match goal with
  | E : pbind ?p ?f ?s = Some _ |- _ =>
      unfold pbind at 1 in E; let F := fresh "F" in destruct (p s) as [[? ?]|] eqn:F; [|discriminate E]
  | E : pthen ?p ?f ?s = Some _ |- _ =>
      unfold pthen, pbind at 1 in E; let F := fresh "F" in destruct (p s) as [[? ?]|] eqn:F; [|discriminate E]
  | E : pmap ?f ?p ?s = Some _ |- _ =>
      unfold pmap at 1 in E; let F := fresh "F" in destruct (p s) as [[? ?]|] eqn:F; [|discriminate E]
  | E : palt ?p ?q ?s = Some _ |- _ =>
      unfold palt at 1 in E; let F := fresh "F" in destruct (p s) as [[? ?]|] eqn:F
  | E : popt ?p ?s = Some _ |- _ =>
      unfold popt at 1 in E; let F := fresh "F" in destruct (p s) as [[? ?]|] eqn:F
  | E : pret _ _ = Some _ |- _ => unfold pret in E
  | E : ptok _ _ = Some _ |- _ => apply ptok_spec in E
  | E : Some _ = Some _ |- _ => injection E; clear E; intros; subst
  | E : None = Some _ |- _ => discriminate E
  | E : exists t, _ = t ++ _ /\ _ |- _ => destruct E as (? & ? & ?)
  | E : spell _ _ |- _ => unfold spell in E
  | _ => sp_known
  end.
Ltac sp_all :=
  intros ? ? ? ?; repeat sp_step; subst; unfold spell in *;
  first [exists []; split; [reflexivity|]|eexists; split; [rewrite ?app_assoc; reflexivity|]]; cbn [app]; rewrite <- ?app_assoc; auto.

Lemma spells_identifier : spells spell g_identifier.
Proof. unfold g_identifier. sp_all. Qed.
Lemma spells_integer : spells spell g_integer.
Proof. unfold g_integer. sp_all. Qed.
Lemma spells_float : spells spell g_float.
Proof. unfold g_float. sp_all. Qed.
Lemma spells_quoted q : spells spell (g_quoted q).
Proof.
  assert (K : forall n s a r, length s <= n -> quoted_rest q s = Some (a, r) -> s = a ++ r).
  { induction n as [|n IH]; intros [|c s] a r L E; try (cbn in *; (lia || discriminate)).
    cbn [quoted_rest] in E. cbn in L. destruct (c =? c_bs)%N.
    - destruct s as [|x s]; [discriminate|]. destruct (quoted_rest q s) as [[b t]|] eqn:Eq; [|discriminate].
      injection E as <- <-. cbn in *. apply IH in Eq; [now subst|lia].
    - destruct (c =? q)%N; [now injection E as <- <-|].
      destruct (quoted_rest q s) as [[b t]|] eqn:Eq; [|discriminate].
      injection E as <- <-. apply IH in Eq; [now subst|lia]. }
  intros [|c s] a r E; cbn in E; [discriminate|]. destruct (c =? q)%N; [|discriminate].
  destruct (quoted_rest q s) as [[b t]|] eqn:Eq; [|discriminate]. injection E as <- <-.
  exists (c :: b). split; [|reflexivity]. cbn. f_equal. eapply K; eauto.
Qed.
Lemma spells_short_arg_name : spells spell g_short_arg_name.
Proof. unfold g_short_arg_name. sp_all. Qed.
Lemma spells_short_arg_type : spells spell g_short_arg_type.
Proof. pose proof spells_short_arg_name. unfold g_short_arg_type. sp_all. Qed.
Lemma spells_argument_signature : spells spell g_argument_signature.
Proof.
  pose proof spells_short_arg_type as H. unfold g_argument_signature.
  assert (K : spells (fun t a => t = 95%N :: a) (ptok (L "_") ;;; g_short_arg_type)) by sp_all.
  apply spells_star in K. sp_all. match goal with H : exists ts, _ |- _ => destruct H as (ts & -> & F) end. f_equal.
  induction F as [|t x ts xs E F IH]; cbn in *; [reflexivity|]. subst. cbn. now rewrite IH.
Qed.
Lemma spells_signature_suffix : spells spell g_signature_suffix.
Proof. pose proof spells_argument_signature. unfold g_signature_suffix. sp_all. Qed.
Lemma spells_function_signature : spells spell g_function_signature.
Proof. pose proof spells_identifier. pose proof spells_signature_suffix. unfold g_function_signature. sp_all. Qed.
Lemma spells_simple_extension_name : spells spell g_simple_extension_name.
Proof. pose proof spells_function_signature. unfold g_simple_extension_name. sp_all. Qed.
Lemma spells_null_suffix : spells (fun t n => t = null_text n) g_null_suffix.
Proof. unfold g_null_suffix. sp_all. Qed.

(** ** Rules *)

(** The definition of a rule. *)
Ltac the_rule nm :=
  let b := eval vm_compute in (lookup the_grammar nm) in
  lazymatch b with
  | Some (?k, ?x) => exact (eq_refl : lookup the_grammar nm = Some (k, x))
  end.

Section Rules.
  Variable w : list N.
  Notation rd := (reads the_grammar w).

  Lemma rd_any at_ n : rd at_ n quiet_v (pchar (fun _ => true)) QAny.
  Proof. intros [|c s] _; cbn; [constructor|]. exists []. split; [constructor|reflexivity]. Qed.

  Lemma rd_while at_ n f x : rd at_ n quiet_v (pchar f) x -> rd at_ n quiet_v (pwhile f) (QStar x).
  Proof.
    intros H s. unfold pwhile. induction s as [|c s IH]; intros Hs; cbn [span].
    - exists []. split; [|reflexivity]. constructor. specialize (H [] Hs). exact H.
    - pose proof (H _ Hs) as Hc. cbn in Hc. destruct (f c) eqn:E.
      + destruct Hc as (ts & D & ->). cbn in Hs. specialize (IH ltac:(lia)).
        destruct (span f s) as [a r]. destruct IH as (us & D' & ->).
        exists []. split; [|reflexivity]. now apply (d_star _ _ _ _ _ [] s [] r).
      + exists []. split; [|reflexivity]. now constructor.
  Qed.
  Lemma rd_while1 at_ n f x : rd at_ n quiet_v (pchar f) x -> rd at_ n quiet_v (pwhile1 f) (QPlus x).
  Proof.
    intros H s Hs. unfold pwhile1. destruct s as [|c s]; cbn [span].
    - constructor. apply d_seq_no1. exact (H [] Hs).
    - pose proof (H _ Hs) as Hc. cbn in Hc. destruct (f c) eqn:E.
      + destruct Hc as (ts & D & ->). cbn in Hs. pose proof (rd_while at_ n f x H s ltac:(lia)) as Hw.
        unfold pwhile in Hw. destruct (span f s) as [a r]. destruct Hw as (us & D' & ->).
        exists []. split; [|reflexivity]. constructor. now apply (d_seq _ _ _ _ _ _ [] s [] r).
      + constructor. now apply d_seq_no1.
  Qed.

  Lemma rd_digit at_ n : rd at_ n quiet_v (pchar is_digit) (QClass [(48, 57)%N]).
  Proof. apply reads_char. intros c. unfold is_digit, in_class. cbn. now rewrite orb_false_r. Qed.
  Lemma rd_alpha at_ n : rd at_ n quiet_v (pchar is_alpha) (QClass [(97, 122)%N; (65, 90)%N]).
  Proof.
    apply reads_char. intros c. unfold is_alpha, is_upper, is_lower, in_class. cbn.
    now rewrite orb_false_r, orb_comm.
  Qed.
  Lemma rd_alnum at_ n : rd at_ n quiet_v (pchar is_alnum) (QClass [(97, 122)%N; (65, 90)%N; (48, 57)%N]).
  Proof.
    apply reads_char. intros c. unfold is_alnum, is_alpha, is_digit, is_upper, is_lower, in_class. cbn.
    rewrite orb_false_r. rewrite (orb_comm (_ && _) (_ && _)), orb_assoc. reflexivity.
  Qed.
  Lemma rd_idchar at_ n : rd at_ n quiet_v (pchar is_idchar)
    (QAlt (QClass [(97, 122)%N; (65, 90)%N; (48, 57)%N]) (QTok [95%N])).
  Proof.
    intros s Hs. pose proof (rd_alnum at_ n s Hs) as H. destruct s as [|c s]; cbn in *.
    - apply d_alt_r; auto. constructor. discriminate.
    - unfold is_idchar. destruct (is_alnum c); cbn in *.
      + destruct H as (ts & D & ->). exists []. split; [|reflexivity]. now constructor.
      + destruct (c =? c_under)%N eqn:E.
        * apply N.eqb_eq in E. subst. exists []. split; [|reflexivity]. apply d_alt_r; auto.
          exact (d_tok _ _ at_ [95%N] s).
        * apply N.eqb_neq in E. apply d_alt_r; auto. constructor. intros r [= -> _]. now apply E.
  Qed.

  Lemma rd_space at_ n : rd at_ n quiet_v (pchar (fun c => (c =? c_sp)%N)) (QRef "whitespace").
  Proof.
    eapply reads_silent; [the_rule "whitespace"|]. intros [|c s] Hs; cbn.
    - constructor. discriminate.
    - destruct (c =? c_sp)%N eqn:E.
      + apply N.eqb_eq in E. subst. exists []. split; [|reflexivity]. exact (d_tok _ _ at_ [32%N] s).
      + apply N.eqb_neq in E. constructor. intros r [= -> _]. now apply E.
  Qed.
  Lemma rd_sp at_ n : rd at_ n quiet_v sp (QRef "sp").
  Proof.
    eapply reads_silent; [the_rule "sp"|]. unfold sp. eapply reads_weaken; [apply reads_map, rd_while, rd_space|].
    now intros ts a (b & H & ->).
  Qed.
  Lemma rd_newline at_ n : rd at_ n quiet_v g_newline (QAlt (QTok [10%N]) (QAlt (QTok [13; 10]%N) (QTok [13%N]))).
  Proof.
    unfold g_newline. eapply reads_weaken; [repeat apply reads_alt; apply reads_tok|]. cbn. tauto.
  Qed.
  Lemma rd_toks at_ n l x : l <> [] -> x = fold_with QAlt (map QTok l) -> rd at_ n quiet_v (ptoks l) x.
  Proof.
    intros Hl ->. induction l as [|t l IH]; [congruence|]. cbn [ptoks map]. destruct l as [|u l].
    - cbn. intros s Hs. pose proof (reads_tok the_grammar w at_ n t s Hs) as H. unfold palt, pmap.
      destruct (ptok t s) as [[y r]|]; auto.
    - change (fold_with QAlt (QTok t :: map QTok (u :: l))) with (QAlt (QTok t) (fold_with QAlt (map QTok (u :: l)))).
      eapply reads_weaken; [apply reads_alt; [apply reads_map, reads_tok|apply IH; discriminate]|].
      intros ts a [(b & H & _)|H]; exact H.
  Qed.
End Rules.

(** Follow the structure of a reader and of an expression; [rd_lemma] knows the rules that
    are done. *)
Ltac rd_lemma0 :=
  first [ apply rd_any | apply rd_digit | apply rd_alpha | apply rd_alnum | apply rd_idchar | apply rd_space
        | apply rd_sp | apply rd_newline | apply reads_eoi
        | apply rd_while; rd_lemma0 | apply rd_while1; rd_lemma0 ].
Ltac rd_lemma := fail.

Ltac fetch_rule lem :=
  lazymatch goal with
  | |- reads _ _ _ _ _ _ (QRef ?nm) => eapply lem; [the_rule nm|..]
  end.

Ltac rd_step :=
  lazymatch goal with
  | |- reads _ _ _ _ _ (pthen ?p ?q) _ => change (pthen p q) with (pbind p (fun _ => q)); rd_step
  | |- reads _ _ _ _ _ (pbind (pbind _ (fun _ => pret _)) _) _ => apply reads_assoc_ret; cbv beta
  | |- reads _ _ _ _ _ (pbind (pbind _ _) _) _ => apply reads_assoc; cbv beta
  | |- reads _ _ _ _ _ (pbind (pthen ?p ?q) _) _ =>
      change (pthen p q) with (pbind p (fun _ => q)); cbv beta
  | |- reads _ _ _ _ _ (pbind comma_sp ?f) _ =>
      change (pbind comma_sp f) with (pbind (pthen sp (pthen (ptok (L ",")) sp)) f)
  | |- reads _ _ _ _ _ (pbind arrow ?f) _ =>
      change (pbind arrow f) with (pbind (pthen sp (pthen (ptok (L "=>")) sp)) f)
  | |- reads _ _ _ _ _ (pbind (pret _) _) _ => apply reads_ret_l; cbv beta
  | |- reads _ _ _ _ _ (pbind _ _) (QSeq _ _) =>
      first [ eapply reads_bind_lt; [solve [peg_shrink]| |intro; cbv beta]
            | eapply reads_bind; [|intro; cbv beta] ]
  | |- reads _ _ _ _ _ (pmap _ _) _ => eapply reads_map
  | |- reads _ _ _ _ _ (palt (palt _ _) _) _ => apply reads_alt_assoc
  | |- reads _ _ _ _ _ (palt _ _) (QAlt _ _) => eapply reads_alt
  | |- reads _ _ _ _ _ (popt _) (QOpt _) => eapply reads_opt
  | |- reads _ _ _ _ _ (pnot _) (QNot _) => eapply reads_not
  | |- reads _ _ _ _ _ (ptok _) (QTok _) => apply reads_tok
  | |- reads _ _ _ _ _ (ptok_ci _) (QTokCI _) => apply reads_tok_ci; first [reflexivity|assumption]
  | |- reads _ _ _ _ _ (ptoks _) (QAlt _ _) => apply rd_toks; [discriminate|reflexivity]
  | |- reads _ _ _ _ _ (palt _ (pret _)) (QOpt _) => eapply reads_default
  | |- reads _ _ _ _ _ (pbind _ (fun _ => pret _)) _ => eapply reads_last
  end.
Ltac rd_go :=
  first [ solve [rd_lemma0]
        | solve [rd_lemma]
        | match goal with H : reads _ _ _ _ _ ?p ?x |- reads _ _ _ _ _ ?p ?x => exact H end
        | match goal with H : forall n, reads _ _ _ n _ ?p ?x |- reads _ _ _ _ _ ?p ?x => apply H end
        | rd_step; [rd_go..]
        | idtac ].

(** The parts of a view. *)
Ltac view_step :=
  match goal with
  | H : seq_v _ _ _ _ |- _ => destruct H as (? & ? & ? & ? & ? & ?)
  | H : map_v _ _ _ _ |- _ => destruct H as (? & ? & ?)
  | H : quiet_v _ _ |- _ => unfold quiet_v in H
  | H : one _ _ _ |- _ => destruct H as (? & ? & ?)
  | H : is_node _ _ _ _ |- _ => destruct H as (? & ? & ? & ?)
  | H : _ /\ _ |- _ => destruct H
  | H : exists _, _ |- _ => destruct H
  | H : maybe _ _ (Some _) |- _ => cbn [maybe] in H
  | H : maybe _ _ None |- _ => cbn [maybe] in H
  | H : ?x = _ |- _ => is_var x; subst x
  end.
Ltac views := repeat view_step; cbn [app] in *; rewrite ?app_nil_r.

Definition word (nm : string) (t : tree) (s : list N) : Prop := t = leaf nm s.

Section Words.
  Variable w : list N.
  Notation rd := (reads the_grammar w).

  Lemma word_rule n nm v (p : peg (list N)) x : lookup the_grammar nm = Some (QAtomic, x) -> spells spell p ->
    rd true n v p x -> rd false n (one (word nm)) p (QRef nm).
  Proof.
    intros L Hs H. eapply reads_weaken.
    - eapply (reads_leaf the_grammar w n nm QAtomic spell v); eauto; discriminate.
    - intros ts a (t & -> & text & -> & E). red in E. subst. exists (leaf nm text). split; [reflexivity|constructor].
  Qed.
  (** A rule that is not atomic but has no inner rules. *)
  Lemma choice_rule n nm l : lookup the_grammar nm = Some (QNormal, fold_with QAlt (map QTok l)) -> l <> [] ->
    rd false n (one (word nm)) (ptoks l) (QRef nm).
  Proof.
    intros Hl Hn. eapply reads_weaken.
    - eapply (reads_leaf the_grammar w n nm QNormal spell quiet_v);
        [exact Hl|discriminate|apply spells_toks|now apply rd_toks|now intros ts a H _].
    - intros ts a (t & -> & text & -> & E). red in E. subst. exists (leaf nm text). split; [reflexivity|constructor].
  Qed.

  Lemma rd_identifier_in n : rd true n quiet_v g_identifier (QRef "identifier").
  Proof. fetch_rule reads_inner. unfold g_identifier. rd_go. Qed.
  Lemma rd_identifier n : rd false n (one (word "identifier")) g_identifier (QRef "identifier").
  Proof. fetch_rule word_rule; [apply spells_identifier|]. unfold g_identifier. rd_go. Qed.
  Lemma rd_integer n : rd false n (one (word "integer")) g_integer (QRef "integer").
  Proof. fetch_rule word_rule; [apply spells_integer|]. unfold g_integer. rd_go. Qed.
  Lemma rd_float n : rd false n (one (word "float")) g_float (QRef "float").
  Proof. fetch_rule word_rule; [apply spells_float|]. unfold g_float. rd_go. Qed.
  Lemma rd_boolean n : rd false n (one (word "boolean")) g_boolean (QRef "boolean").
  Proof. fetch_rule word_rule; [apply spells_toks|]. unfold g_boolean. rd_go. Qed.
  Lemma rd_null n : rd false n (one (fun t _ => t = leaf "null" (L "null"))) g_null (QRef "null").
  Proof.
    eapply reads_weaken.
    - eapply (reads_leaf the_grammar w n "null" QAtomic (fun t _ => t = L "null") quiet_v);
        [the_rule "null"|discriminate|apply spells_tok|unfold g_null; rd_go|discriminate].
    - intros ts a (t & -> & text & -> & ->). exists (leaf "null" (L "null")). auto.
  Qed.

  (** Quoted text. *)
  Definition quoted_char (q : N) : qexp :=
    QAlt (QSeq (QTok [92%N]) QAny) (QSeq (QNot (QTok [q])) QAny).
  Lemma tok1_no at_ c d s : c <> d -> derives the_grammar w at_ (QTok [c]) (d :: s) None.
  Proof. intros H. constructor. intros r [= E _]. now apply H. Qed.
  Lemma tok1_yes at_ c s : derives the_grammar w at_ (QTok [c]) (c :: s) (Some ([], s)).
  Proof. exact (d_tok _ _ at_ [c] s). Qed.
  Lemma tok1_nil at_ c : derives the_grammar w at_ (QTok [c]) [] None.
  Proof. constructor. discriminate. Qed.
  Lemma quoted_star at_ q : q <> 92%N -> forall n s, length s <= n ->
    exists r, derives the_grammar w at_ (QStar (quoted_char q)) s (Some ([], r))
              /\ match quoted_rest q s with Some (_, t) => r = q :: t | None => r = [] end.
  Proof.
    intros Hq.
    assert (Hend : derives the_grammar w at_ (QStar (quoted_char q)) [] (Some ([], []))).
    { apply d_star_no. apply d_alt_r; [apply d_seq_no1, tok1_nil|].
      eapply d_seq_no2; [apply d_not, tok1_nil|constructor]. }
    assert (Hplain : forall c s r, c <> 92%N \/ s = [] -> c <> q ->
      derives the_grammar w at_ (QStar (quoted_char q)) s (Some ([], r)) ->
      derives the_grammar w at_ (QStar (quoted_char q)) (c :: s) (Some ([], r))).
    { intros c s r Hc Hcq D. apply (d_star _ _ _ _ _ [] s [] r); auto.
      apply d_alt_r.
      - destruct (N.eq_dec c 92) as [->|Hn].
        + destruct Hc as [Hc| ->]; [congruence|]. eapply d_seq_no2; [apply tok1_yes|constructor].
        + apply d_seq_no1, tok1_no. congruence.
      - apply (d_seq _ _ _ _ _ _ [] (c :: s) []); [apply d_not, tok1_no; congruence|constructor]. }
    induction n as [|n IH]; intros [|c s] L; cbn in L; try lia.
    - exists []. cbn. auto.
    - exists []. cbn. auto.
    - cbn [quoted_rest]. destruct (c =? c_bs)%N eqn:Eb.
      + apply N.eqb_eq in Eb. subst c. change c_bs with 92%N in *. destruct s as [|y s].
        * exists []. split; auto.
        * cbn in L. destruct (IH s ltac:(lia)) as (r & D & Hr). exists r. split.
          -- apply (d_star _ _ _ _ _ [] s [] r); auto. apply d_alt_l.
             apply (d_seq _ _ _ _ _ _ [] (y :: s) []); [apply tok1_yes|constructor].
          -- destruct (quoted_rest q s) as [[b t]|]; auto.
      + apply N.eqb_neq in Eb. destruct (c =? q)%N eqn:Eq.
        * apply N.eqb_eq in Eq. subst c. exists (q :: s). split; auto. apply d_star_no. apply d_alt_r.
          -- apply d_seq_no1, tok1_no. congruence.
          -- apply d_seq_no1. eapply d_not_no, tok1_yes.
        * apply N.eqb_neq in Eq. destruct (IH s ltac:(lia)) as (r & D & Hr). exists r. split.
          -- apply Hplain; auto.
          -- destruct (quoted_rest q s) as [[b t]|]; auto.
  Qed.
  Lemma rd_quoted at_ n q : q <> 92%N ->
    rd at_ n quiet_v (g_quoted q) (QSeq (QTok [q]) (QSeq (QStar (quoted_char q)) (QTok [q]))).
  Proof.
    intros Hq [|c s] _; cbn [g_quoted].
    - apply d_seq_no1, tok1_nil.
    - destruct (c =? q)%N eqn:E.
      + apply N.eqb_eq in E. subst c. destruct (quoted_star at_ q Hq (length s) s (le_n _)) as (r & D & Hr).
        destruct (quoted_rest q s) as [[b t]|]; subst r.
        * exists []. split; [|reflexivity]. apply (d_seq _ _ _ _ _ _ [] s []); [apply tok1_yes|].
          apply (d_seq _ _ _ _ _ _ [] (q :: t) []); [exact D|apply tok1_yes].
        * eapply d_seq_no2; [apply tok1_yes|]. eapply d_seq_no2; [exact D|apply tok1_nil].
      + apply N.eqb_neq in E. apply d_seq_no1, tok1_no. congruence.
  Qed.
  Lemma rd_string n : rd false n (one (word "string_literal")) g_string_literal (QRef "string_literal").
  Proof. fetch_rule word_rule; [apply spells_quoted|]. now apply rd_quoted. Qed.
  Lemma rd_quoted_name n : rd false n (one (word "quoted_name")) g_quoted_name (QRef "quoted_name").
  Proof. fetch_rule word_rule; [apply spells_quoted|]. now apply rd_quoted. Qed.

  Lemma rd_name n : rd false n (one name_pairs) g_name (QRef "name").
  Proof.
    eapply reads_weaken.
    - fetch_rule reads_node. unfold g_name. eapply reads_alt; apply reads_map; [apply rd_identifier|apply rd_quoted_name].
    - intros ts a H. destruct H as (t & -> & text & ch & -> & [H|H]); views; unfold word in *; subst;
        (eexists; split; [reflexivity|]); cbn; eexists _, _; split; reflexivity.
  Qed.

  (** Function signatures. *)
  Lemma rd_short_arg_name n : rd true n quiet_v g_short_arg_name (QRef "short_arg_name").
  Proof. fetch_rule reads_inner. unfold g_short_arg_name. rd_go. Qed.
  Lemma rd_short_arg_type n : rd true n quiet_v g_short_arg_type (QRef "short_arg_type").
  Proof. fetch_rule reads_inner. unfold g_short_arg_type. pose proof rd_short_arg_name. rd_go. Qed.
  Lemma rd_argument_signature n : rd true n quiet_v g_argument_signature (QRef "argument_signature").
  Proof.
    fetch_rule reads_inner. unfold g_argument_signature. pose proof rd_short_arg_type. rd_go.
    apply reads_star; [peg_shrink|]. rd_go.
  Qed.
  Lemma rd_signature_suffix n : rd true n (fun _ _ => True) g_signature_suffix
    (QOpt (QSeq (QTok [58%N]) (QOpt (QRef "argument_signature")))).
  Proof.
    unfold g_signature_suffix. pose proof rd_argument_signature. eapply reads_weaken; [rd_go|]. auto.
  Qed.
  Lemma rd_function_signature n :
    rd false n (one (word "function_signature")) g_function_signature (QRef "function_signature").
  Proof.
    fetch_rule word_rule; [apply spells_function_signature|]. unfold g_function_signature.
    pose proof rd_identifier_in. pose proof rd_signature_suffix. rd_go.
  Qed.
  Lemma rd_simple_extension_name n :
    rd false n (one (word "simple_extension_name")) g_simple_extension_name (QRef "simple_extension_name").
  Proof.
    fetch_rule word_rule; [apply spells_simple_extension_name|]. unfold g_simple_extension_name, g_function_signature.
    pose proof rd_identifier_in. pose proof rd_signature_suffix. rd_go.
  Qed.
  Lemma rd_urn n : rd false n (one (word "urn")) g_urn (QRef "urn").
  Proof.
    fetch_rule word_rule; [apply spells_while1|]. unfold g_urn. apply rd_while1.
    intros s Hs. pose proof (rd_space w true n s Hs) as H. destruct s as [|c s]; cbn in *.
    - eapply d_seq_no2; [now apply d_not|constructor].
    - destruct (c =? c_sp)%N; cbn in *.
      + destruct H as (ts & D & _). apply d_seq_no1. eapply d_not_no, D.
      + exists []. split; [|reflexivity]. apply (d_seq _ _ _ _ _ _ [] (c :: s) []); [now apply d_not|constructor].
  Qed.
  Lemma rd_enum_value n :
    rd false n (one (fun t s => t = leaf "enum_value" (38%N :: s))) g_enum_value (QRef "enum_value").
  Proof.
    eapply reads_weaken.
    - eapply (reads_leaf the_grammar w n "enum_value" QAtomic (fun t s => t = 38%N :: s));
        [the_rule "enum_value"|discriminate| | |discriminate].
      + pose proof spells_identifier. unfold g_enum_value. sp_all.
      + unfold g_enum_value. pose proof rd_identifier_in. rd_go.
    - intros ts a (t & -> & text & -> & ->). exists (leaf "enum_value" (38%N :: a)). auto.
  Qed.
End Words.

Ltac rd_lemma1 :=
  first [ apply rd_identifier | apply rd_integer | apply rd_float | apply rd_boolean | apply rd_null
        | apply rd_string | apply rd_quoted_name | apply rd_name | apply rd_function_signature
        | apply rd_simple_extension_name | apply rd_urn | apply rd_enum_value ].
Ltac rd_lemma ::= rd_lemma1.
