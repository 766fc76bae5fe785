(** How far a grammar rule looks: every rule below the relation rules consumes
    whole tokens and whole quoted texts, and never looks past an unquoted closing
    bracket. *)
From Coq Require Import String List NArith ZArith Bool Lia Arith.
From Verif Require Import Base BaseFacts Peg PegFacts Names NamesFacts Anchors Types TypesFacts Literals Exprs
  ExprsFacts ExtArgs ExtArgsFacts Registry RelGrammar.
Import ListNotations.
Local Open Scope string_scope.
Local Open Scope list_scope.
Local Open Scope nat_scope.
Local Open Scope peg_scope.

Definition c_cb : N := 93%N.
(** Characters that neither open a quotation nor close a bracket. *)
Definition plainc (c : N) : bool := negb (c =? c_dq)%N && negb (c =? c_sq)%N && negb (c =? c_cb)%N.

(** Texts in which every quotation that is opened is closed. *)
Inductive whole : list N -> Prop :=
| whole_nil : whole []
| whole_char c t : (c =? c_dq)%N = false -> (c =? c_sq)%N = false -> whole t -> whole (c :: t)
| whole_quoted q b t : q = c_dq \/ q = c_sq -> (forall r, quoted_rest q (b ++ r) = Some (b, r)) -> whole t ->
    whole (q :: b ++ t).

Lemma whole_app a b : whole a -> whole b -> whole (a ++ b).
Proof.
  induction 1; intros Hb; cbn [app]; [exact Hb| |].
  - apply whole_char; auto.
  - rewrite <- app_assoc. apply whole_quoted; auto.
Qed.
Lemma plainc_quotes c : plainc c = true -> (c =? c_dq)%N = false /\ (c =? c_sq)%N = false /\ (c =? c_cb)%N = false.
Proof. unfold plainc. destruct (c =? c_dq)%N, (c =? c_sq)%N, (c =? c_cb)%N; cbn; auto. Qed.
Lemma whole_plain t : forallb plainc t = true -> whole t.
Proof.
  induction t as [|c t IH]; cbn [forallb]; intros H; [constructor|].
  apply andb_prop in H as [H1 H2]. apply plainc_quotes in H1 as (? & ? & ?). apply whole_char; auto.
Qed.
Lemma whole_tail c t : plainc c = true -> whole (c :: t) -> whole t.
Proof.
  intros Hc H. apply plainc_quotes in Hc as (H1 & H2 & _). inversion H as [|? ? ? ? Ht|q b t' Hq ? ? E]; [exact Ht|].
  subst. destruct Hq as [->| ->]; discriminate.
Qed.

(** Reading [u], a closing bracket and [r]: the same happens whatever follows the
    bracket, and the bracket is not consumed. *)
Definition stops (r r' : list N) {A} (p : peg A) : Prop := forall u, whole u ->
  match p (u ++ c_cb :: r) with
  | Some (a, w) => exists v, w = v ++ c_cb :: r /\ whole v /\ p (u ++ c_cb :: r') = Some (a, v ++ c_cb :: r')
  | None => p (u ++ c_cb :: r') = None
  end.
Definition takes {A} (p : peg A) : Prop := forall s a r, p s = Some (a, r) -> exists t, s = t ++ r /\ whole t.
Definition tame {A} (p : peg A) : Prop := takes p /\ forall r r', stops r r' p.

(** ** Closure *)

Lemma tame_ret {A} (a : A) : tame (pret a).
Proof.
  split.
  - intros s x r [= <- <-]. exists []. split; [reflexivity|constructor].
  - intros r r' u Hu. cbn. exists u. auto.
Qed.
Lemma tame_fail {A} : tame (@pfail A).
Proof. split; [intros s a r H; discriminate|intros r r' u Hu; reflexivity]. Qed.
Lemma tame_bind {A B} (p : peg A) (f : A -> peg B) : tame p -> (forall a, tame (f a)) -> tame (pbind p f).
Proof.
  intros [Tp Sp] Hf. split.
  - intros s b r H. unfold pbind in H. destruct (p s) as [[a w]|] eqn:E; [|discriminate].
    destruct (Tp _ _ _ E) as (t & -> & Ht). destruct (proj1 (Hf a) _ _ _ H) as (t' & -> & Ht').
    exists (t ++ t'). rewrite app_assoc. split; [reflexivity|now apply whole_app].
  - intros r r' u Hu. unfold pbind. specialize (Sp r r' u Hu). destruct (p (u ++ c_cb :: r)) as [[a w]|].
    + destruct Sp as (v & -> & Hv & ->). exact (proj2 (Hf a) r r' v Hv).
    + now rewrite Sp.
Qed.
Lemma tame_then {A B} (p : peg A) (q : peg B) : tame p -> tame q -> tame (pthen p q).
Proof. intros Hp Hq. apply tame_bind; auto. Qed.
Lemma tame_map {A B} (f : A -> B) (p : peg A) : tame p -> tame (pmap f p).
Proof.
  intros [Tp Sp]. split.
  - intros s b r H. unfold pmap in H. destruct (p s) as [[a w]|] eqn:E; [|discriminate]. injection H as <- <-. eauto.
  - intros r r' u Hu. unfold pmap. specialize (Sp r r' u Hu). destruct (p (u ++ c_cb :: r)) as [[a w]|].
    + destruct Sp as (v & -> & Hv & ->). eauto.
    + now rewrite Sp.
Qed.
Lemma tame_alt {A} (p q : peg A) : tame p -> tame q -> tame (palt p q).
Proof.
  intros [Tp Sp] [Tq Sq]. split.
  - intros s b r H. unfold palt in H. destruct (p s) as [[a w]|] eqn:E; [injection H as <- <-|]; eauto.
  - intros r r' u Hu. unfold palt. specialize (Sp r r' u Hu). destruct (p (u ++ c_cb :: r)) as [[a w]|].
    + destruct Sp as (v & -> & Hv & ->). eauto.
    + rewrite Sp. exact (Sq r r' u Hu).
Qed.
Lemma tame_opt {A} (p : peg A) : tame p -> tame (popt p).
Proof.
  intros [Tp Sp]. split.
  - intros s b r H. unfold popt in H. destruct (p s) as [[a w]|] eqn:E; injection H as <- <-; eauto.
    exists []. split; [reflexivity|constructor].
  - intros r r' u Hu. unfold popt. specialize (Sp r r' u Hu). destruct (p (u ++ c_cb :: r)) as [[a w]|].
    + destruct Sp as (v & -> & Hv & ->). eauto.
    + rewrite Sp. exists u. auto.
Qed.
Lemma tame_not {A} (p : peg A) : tame p -> tame (pnot p).
Proof.
  intros [Tp Sp]. split.
  - intros s b r H. unfold pnot in H. destruct (p s) as [[a w]|] eqn:E; [discriminate|]. injection H as <- <-.
    exists []. split; [reflexivity|constructor].
  - intros r r' u Hu. unfold pnot. specialize (Sp r r' u Hu). destruct (p (u ++ c_cb :: r)) as [[a w]|].
    + destruct Sp as (v & -> & Hv & ->). reflexivity.
    + rewrite Sp. exists u. auto.
Qed.
Lemma tame_star {A} (p : peg A) : strict p -> tame p -> tame (pstar p).
Proof.
  intros Hs [Tp Sp]. split.
  - enough (G : forall n s b r, length s <= n -> pstar p s = Some (b, r) -> exists t, s = t ++ r /\ whole t)
      by (intros s b r; now apply (G (length s))).
    induction n as [|n IH]; intros s b r Hn; rewrite pstar_eq by exact Hs; destruct (p s) as [[a w]|] eqn:E;
      try (intros [= <- <-]; exists []; split; [reflexivity|constructor]).
    + apply Hs in E. lia.
    + pose proof (Hs _ _ _ E) as Hl. destruct (Tp _ _ _ E) as (t & -> & Ht).
      destruct (pstar p w) as [[l w']|] eqn:E2; [|discriminate]. intros [= <- <-].
      destruct (IH w l w') as (t' & -> & Ht'); [lia|exact E2|]. exists (t ++ t'). rewrite app_assoc.
      split; [reflexivity|now apply whole_app].
  - intros r r'. enough (G : forall n u, length u <= n -> whole u ->
      match pstar p (u ++ c_cb :: r) with
      | Some (a, w) => exists v, w = v ++ c_cb :: r /\ whole v /\ pstar p (u ++ c_cb :: r') = Some (a, v ++ c_cb :: r')
      | None => pstar p (u ++ c_cb :: r') = None
      end) by (intros u; now apply (G (length u))).
    induction n as [|n IH]; intros u Hn Hu; rewrite !(pstar_eq p _ Hs); pose proof (Sp r r' u Hu) as S1;
      destruct (p (u ++ c_cb :: r)) as [[a w]|] eqn:E; try (rewrite S1; exists u; now auto).
    + apply Hs in E as El. destruct S1 as (v & -> & _ & _). rewrite !app_length in El. destruct u; cbn in *; lia.
    + apply Hs in E as El. destruct S1 as (v & -> & Hv & ->). rewrite !app_length in El.
      specialize (IH v ltac:(lia) Hv). destruct (pstar p (v ++ c_cb :: r)) as [[l w]|].
      * destruct IH as (v' & -> & Hv' & ->). eauto.
      * now rewrite IH.
Qed.
Lemma tame_plus {A} (p : peg A) : strict p -> tame p -> tame (pplus p).
Proof.
  intros Hs Hp. unfold pplus. apply tame_bind; [exact Hp|]. intros a. apply tame_bind; [now apply tame_star|].
  intros l. apply tame_ret.
Qed.
Lemma tame_sep1 {A} sep (p : peg A) : strict (pthen sep p) -> tame sep -> tame p -> tame (psep1 sep p).
Proof.
  intros Hs Ts Tp. unfold psep1. apply tame_bind; [exact Tp|]. intros a. apply tame_bind.
  - apply tame_star; [exact Hs|now apply tame_then].
  - intros l. apply tame_ret.
Qed.
Lemma tame_sep0 {A} sep (p : peg A) : strict (pthen sep p) -> tame sep -> tame p -> tame (psep0 sep p).
Proof. intros. unfold psep0. apply tame_alt; [now apply tame_sep1|apply tame_ret]. Qed.
Lemma tame_prun {A} (F : peg A -> peg A) :
  (forall p, shrinks p -> shrinks (F p)) ->
  (forall n p q, shrinks p -> shrinks q -> agree n p q -> agree (S n) (F p) (F q)) ->
  (forall p q, shrinks p -> shrinks q -> agree 0 (F p) (F q)) ->
  (forall p, shrinks p -> tame p -> tame (F p)) -> tame (prun F).
Proof.
  intros H1 H2 H3 H. assert (G : forall n, tame (pfix F n)).
  { induction n as [|n IH]; cbn [pfix]; [apply tame_fail|]. apply H; [now apply pfix_shrinks|exact IH]. }
  split.
  - intros s a r E. exact (proj1 (G (S (length s))) s a r E).
  - intros r r' u Hu. set (n := S (length (u ++ c_cb :: r) + length (u ++ c_cb :: r'))).
    rewrite <- (pfix_prun F H1 H2 H3 n) by (unfold n; lia).
    rewrite <- (pfix_prun F H1 H2 H3 n (u ++ c_cb :: r')) by (unfold n; lia).
    exact (proj2 (G n) r r' u Hu).
Qed.

(** ** Leaves *)

Lemma strip_stops t : forallb plainc t = true -> forall r r' u, whole u ->
  match strip_prefix t (u ++ c_cb :: r) with
  | Some w => exists v, w = v ++ c_cb :: r /\ whole v /\ strip_prefix t (u ++ c_cb :: r') = Some (v ++ c_cb :: r')
  | None => strip_prefix t (u ++ c_cb :: r') = None
  end.
Proof.
  intros Ht r r'. induction t as [|x t IH]; intros u Hu; cbn [strip_prefix]; [eauto|].
  cbn [forallb] in Ht. apply andb_prop in Ht as [Hx Ht]. destruct u as [|c u]; cbn [app].
  - apply plainc_quotes in Hx as (_ & _ & ->). reflexivity.
  - destruct (N.eqb_spec x c) as [->|]; [|reflexivity]. apply IH; [exact Ht|]. eapply whole_tail; eauto.
Qed.
Lemma tame_tok t : forallb plainc t = true -> tame (ptok t).
Proof.
  intros Ht. split.
  - intros s [] r H. apply ptok_spec in H as ->. exists t. split; [reflexivity|now apply whole_plain].
  - intros r r' u Hu. unfold ptok. pose proof (strip_stops t Ht r r' u Hu) as H.
    destruct (strip_prefix t (u ++ c_cb :: r)) as [w|].
    + destruct H as (v & -> & Hv & ->). eauto.
    + now rewrite H.
Qed.
Lemma to_lower_plain x y : plainc x = true -> (x =? to_lower y)%N = true -> plainc y = true.
Proof.
  intros Hx H. apply N.eqb_eq in H. subst x. unfold plainc in *.
  destruct (N.eqb_spec y c_dq) as [->|]; [discriminate|]. destruct (N.eqb_spec y c_sq) as [->|]; [discriminate|].
  destruct (N.eqb_spec y c_cb) as [->|]; [discriminate|]. reflexivity.
Qed.
Lemma strip_ci_stops t : forallb plainc t = true -> forall r r' u, whole u ->
  match strip_prefix_ci t (u ++ c_cb :: r) with
  | Some w => exists v, w = v ++ c_cb :: r /\ whole v /\ strip_prefix_ci t (u ++ c_cb :: r') = Some (v ++ c_cb :: r')
  | None => strip_prefix_ci t (u ++ c_cb :: r') = None
  end.
Proof.
  intros Ht r r'. induction t as [|x t IH]; intros u Hu; cbn [strip_prefix_ci]; [eauto|].
  cbn [forallb] in Ht. apply andb_prop in Ht as [Hx Ht]. destruct u as [|c u]; cbn [app].
  - destruct (x =? to_lower c_cb)%N eqn:E; [|reflexivity]. now apply (to_lower_plain x c_cb Hx) in E.
  - destruct (x =? to_lower c)%N eqn:E; [|reflexivity]. apply IH; [exact Ht|]. eapply whole_tail; [|exact Hu].
    eapply to_lower_plain; eauto.
Qed.
Lemma strip_ci_takes t : forallb plainc t = true -> forall s r, strip_prefix_ci t s = Some r -> exists t', s = t' ++ r /\ whole t'.
Proof.
  intros Ht. induction t as [|x t IH]; intros s r H; cbn [strip_prefix_ci] in H.
  - injection H as <-. exists []. split; [reflexivity|constructor].
  - cbn [forallb] in Ht. apply andb_prop in Ht as [Hx Ht]. destruct s as [|c s]; [discriminate|].
    destruct (x =? to_lower c)%N eqn:E; [|discriminate]. destruct (IH Ht _ _ H) as (t' & -> & Hw).
    exists (c :: t'). split; [reflexivity|]. pose proof (to_lower_plain x c Hx E) as Hc. apply plainc_quotes in Hc as (? & ? & ?).
    now apply whole_char.
Qed.
Lemma tame_tok_ci t : forallb plainc t = true -> tame (ptok_ci t).
Proof.
  intros Ht. split.
  - intros s [] r H. unfold ptok_ci in H. destruct (strip_prefix_ci t s) as [w|] eqn:E; [|discriminate]. injection H as <-.
    now apply (strip_ci_takes t Ht).
  - intros r r' u Hu. unfold ptok_ci. pose proof (strip_ci_stops t Ht r r' u Hu) as H.
    destruct (strip_prefix_ci t (u ++ c_cb :: r)) as [w|].
    + destruct H as (v & -> & Hv & ->). eauto.
    + now rewrite H.
Qed.
Lemma tame_toks l : forallb (forallb plainc) l = true -> tame (ptoks l).
Proof.
  induction l as [|t l IH]; cbn [forallb ptoks]; intros H; [apply tame_fail|].
  apply andb_prop in H as [H1 H2]. apply tame_alt; [apply tame_map, tame_tok|]; auto.
Qed.

(** A character class without quotes and closing bracket. *)
Definition inner (f : N -> bool) : Prop := forall c, f c = true -> plainc c = true.
Lemma inner_by f : forallb (fun c => negb (f c)) [c_dq; c_sq; c_cb] = true -> inner f.
Proof.
  cbn [forallb]. intros H c Hc. unfold plainc.
  destruct (N.eqb_spec c c_dq) as [->|]; [now rewrite Hc in H|]. destruct (N.eqb_spec c c_sq) as [->|].
  { rewrite Hc in H. now rewrite andb_false_r in H. }
  destruct (N.eqb_spec c c_cb) as [->|]; [|reflexivity]. rewrite Hc in H. cbn in H. now rewrite !andb_false_r in H.
Qed.
Lemma tame_char f : inner f -> tame (pchar f).
Proof.
  intros Hf. split.
  - intros s a r H. destruct s as [|c s]; [discriminate|]. cbn [pchar] in H. destruct (f c) eqn:E; [|discriminate].
    injection H as <- <-. exists [c]. split; [reflexivity|]. apply whole_plain. cbn. now rewrite (Hf c E).
  - intros r r' u Hu. destruct u as [|c u]; cbn [app pchar].
    + destruct (f c_cb) eqn:E; [now apply Hf in E|reflexivity].
    + destruct (f c) eqn:E; [|reflexivity]. exists u. split; [reflexivity|]. split; [|reflexivity]. eapply whole_tail; eauto.
Qed.
Lemma span_stops f : inner f -> forall r u, whole u ->
  exists a v, span f (u ++ c_cb :: r) = (a, v ++ c_cb :: r) /\ whole v /\
    forall r', span f (u ++ c_cb :: r') = (a, v ++ c_cb :: r').
Proof.
  intros Hf r u. induction u as [|c u IH]; intros Hu; cbn [app span].
  - destruct (f c_cb) eqn:E; [now apply Hf in E|]. exists [], []. auto.
  - destruct (f c) eqn:E.
    + destruct (IH (whole_tail c u (Hf c E) Hu)) as (a & v & -> & Hv & H). exists (c :: a), v.
      split; [reflexivity|]. split; [exact Hv|]. intros r'. now rewrite (H r').
    + exists [], (c :: u). auto.
Qed.
Lemma span_takes f : inner f -> forall s a r, span f s = (a, r) -> s = a ++ r /\ whole a.
Proof.
  intros Hf s. induction s as [|c s IH]; intros a r H; cbn [span] in H.
  - injection H as <- <-. split; [reflexivity|constructor].
  - destruct (f c) eqn:E.
    + destruct (span f s) as [x y] eqn:E2. injection H as <- <-. destruct (IH x y eq_refl) as [-> Hw].
      split; [reflexivity|]. apply Hf in E. apply plainc_quotes in E as (? & ? & ?). now apply whole_char.
    + injection H as <- <-. split; [reflexivity|constructor].
Qed.
Lemma tame_while f : inner f -> tame (pwhile f).
Proof.
  intros Hf. split.
  - intros s a r H. unfold pwhile in H. injection H as H. destruct (span_takes f Hf s a r H). eauto.
  - intros r r' u Hu. unfold pwhile. destruct (span_stops f Hf r u Hu) as (a & v & -> & Hv & H). rewrite (H r'). eauto.
Qed.
Lemma tame_while1 f : inner f -> tame (pwhile1 f).
Proof.
  intros Hf. split.
  - intros s a r H. unfold pwhile1 in H. destruct (span f s) as [x y] eqn:E. destruct (span_takes f Hf s x y E).
    destruct x; [discriminate|]. injection H as <- <-. eauto.
  - intros r r' u Hu. unfold pwhile1. destruct (span_stops f Hf r u Hu) as (a & v & -> & Hv & H). rewrite (H r').
    destruct a; eauto.
Qed.

Lemma quoted_rest_ext q : forall s b t, quoted_rest q s = Some (b, t) -> forall r, quoted_rest q (b ++ r) = Some (b, r).
Proof.
  enough (G : forall n s b t, length s <= n -> quoted_rest q s = Some (b, t) -> forall r, quoted_rest q (b ++ r) = Some (b, r))
    by (intros s b t; now apply (G (length s))).
  induction n as [|n IH]; intros [|c s] b t Hn H r; cbn [length] in Hn; try lia; try discriminate. cbn [quoted_rest] in H.
  destruct (c =? c_bs)%N eqn:Ec.
  - destruct s as [|x s]; [discriminate|]. destruct (quoted_rest q s) as [[b' t']|] eqn:Er; [|discriminate]. injection H as <- <-.
    cbn [app quoted_rest]. rewrite Ec. rewrite (IH s b' t'); [reflexivity| |exact Er]. cbn [length] in Hn. lia.
  - destruct (c =? q)%N eqn:Eq.
    + injection H as <- <-. cbn [app quoted_rest]. now rewrite Ec, Eq.
    + destruct (quoted_rest q s) as [[b' t']|] eqn:Er; [|discriminate]. injection H as <- <-.
      cbn [app quoted_rest]. rewrite Ec, Eq. rewrite (IH s b' t'); [reflexivity| |exact Er]. lia.
Qed.
Lemma tame_quoted q : q = c_dq \/ q = c_sq -> tame (g_quoted q).
Proof.
  intros Hq. split.
  - intros s a r H. unfold g_quoted in H. destruct s as [|c s]; [discriminate|]. destruct (N.eqb_spec c q) as [->|]; [|discriminate].
    destruct (quoted_rest q s) as [[b t]|] eqn:E; [|discriminate]. injection H as <- <-.
    pose proof (quoted_rest_ext q s b t E) as Hb. apply quoted_rest_split in E as [-> _].
    exists (q :: b). split; [reflexivity|]. rewrite <- (app_nil_r b). apply whole_quoted; [exact Hq|exact Hb|constructor].
  - intros r r' u Hu. destruct Hu as [|c t H1 H2 Ht|q' b t Hq' Hb Ht]; cbn [app g_quoted].
    + destruct Hq as [->| ->]; reflexivity.
    + destruct Hq as [->| ->]; [rewrite H1|rewrite H2]; reflexivity.
    + destruct (q' =? q)%N eqn:E; [|reflexivity]. apply N.eqb_eq in E. subst q'.
      rewrite <- !app_assoc, !Hb. exists t. auto.
Qed.
Lemma tame_sp : tame sp.
Proof. unfold sp. apply tame_map, tame_while, inner_by. reflexivity. Qed.

Create HintDb tame discriminated.
#[global] Hint Resolve tame_ret tame_fail tame_sp : tame.
#[global] Hint Extern 1 (tame (ptok _)) => (apply tame_tok; reflexivity) : tame.
#[global] Hint Extern 1 (tame (ptok_ci _)) => (apply tame_tok_ci; reflexivity) : tame.
#[global] Hint Extern 1 (tame (ptoks _)) => (apply tame_toks; reflexivity) : tame.
#[global] Hint Extern 1 (tame (pchar _)) => (apply tame_char, inner_by; reflexivity) : tame.
#[global] Hint Extern 1 (tame (pwhile _)) => (apply tame_while, inner_by; reflexivity) : tame.
#[global] Hint Extern 1 (tame (pwhile1 _)) => (apply tame_while1, inner_by; reflexivity) : tame.
#[global] Hint Extern 1 (tame (g_quoted _)) => (apply tame_quoted; auto) : tame.

Ltac peg_tame :=
  intros;
  lazymatch goal with
  | |- tame ?p =>
      first [ assumption
            | solve [auto with tame nocore]
            | lazymatch p with
              | pbind _ _ => apply tame_bind
              | pthen _ _ => apply tame_then
              | pmap _ _ => apply tame_map
              | palt _ _ => apply tame_alt
              | popt _ => apply tame_opt
              | pnot _ => apply tame_not
              | pstar _ => apply tame_star; [peg_shrink|]
              | pplus _ => apply tame_plus; [peg_shrink|]
              | psep1 _ _ => apply tame_sep1; [peg_shrink| |]
              | psep0 _ _ => apply tame_sep0; [peg_shrink| |]
              end; peg_tame ]
  | |- _ => idtac
  end.

(** ** The grammar *)

Lemma tame_identifier : tame g_identifier. Proof. unfold g_identifier. peg_tame. Qed.
Lemma tame_integer : tame g_integer. Proof. unfold g_integer. peg_tame. Qed.
Lemma tame_float : tame g_float. Proof. unfold g_float. peg_tame. Qed.
Lemma tame_name : tame g_name. Proof. unfold g_name, g_quoted_name. pose proof tame_identifier. peg_tame. Qed.
#[global] Hint Resolve tame_identifier tame_integer tame_float tame_name : tame.
Lemma tame_short_arg_name : tame g_short_arg_name. Proof. unfold g_short_arg_name. peg_tame. Qed.
#[global] Hint Resolve tame_short_arg_name : tame.
Lemma tame_short_arg_type : tame g_short_arg_type. Proof. unfold g_short_arg_type. peg_tame. Qed.
#[global] Hint Resolve tame_short_arg_type : tame.
Lemma tame_function_reference : tame g_function_reference.
Proof.
  unfold g_function_reference, g_function_signature, g_signature_suffix, g_argument_signature, g_anchor, g_urn_anchor. peg_tame.
Qed.
Lemma tame_anchor : tame g_anchor. Proof. unfold g_anchor. peg_tame. Qed.
Lemma tame_urn_anchor : tame g_urn_anchor. Proof. unfold g_urn_anchor. peg_tame. Qed.
Lemma tame_null_suffix : tame g_null_suffix. Proof. unfold g_null_suffix. peg_tame. Qed.
#[global] Hint Resolve tame_function_reference tame_anchor tame_urn_anchor tame_null_suffix : tame.
Lemma tame_type : tame g_type.
Proof.
  unfold g_type. apply tame_prun.
  - intros. apply strict_shrinks. now apply type_F_strict.
  - apply type_F_agree.
  - apply type_F_agree0.
  - intros ty Hs Ht. unfold type_F, g_simple_type, g_compound_type, g_user_type, g_kw_int, g_kw, g_parameters, g_parameter. peg_tame.
Qed.
#[global] Hint Resolve tame_type : tame.
Lemma tame_litval : tame g_litval.
Proof. unfold g_litval, g_string_literal, g_boolean, g_null. peg_tame. Qed.
#[global] Hint Resolve tame_litval : tame.
Lemma tame_reference : tame g_reference. Proof. unfold g_reference. peg_tame. Qed.
#[global] Hint Resolve tame_reference : tame.
Lemma tame_expr : tame g_expr.
Proof.
  unfold g_expr. apply tame_prun.
  - intros. apply strict_shrinks. now apply expr_F_strict.
  - apply expr_F_agree.
  - apply expr_F_agree0.
  - intros ex Hs Ht. unfold expr_F, g_if_then, g_if_clause, g_cast, g_behavior, g_function_call, g_argument_list, g_literal. peg_tame.
Qed.
#[global] Hint Resolve tame_expr : tame.
Lemma tame_comma_sp : tame comma_sp. Proof. unfold comma_sp. peg_tame. Qed.
#[global] Hint Resolve tame_comma_sp : tame.
Lemma tame_xarg : tame g_xarg.
Proof.
  unfold g_xarg. apply tame_prun.
  - intros. apply strict_shrinks. now apply xarg_F_strict.
  - apply xarg_F_agree.
  - apply xarg_F_agree0.
  - intros ex Hs Ht. unfold xarg_F, g_enum_value, g_parameter_literal, g_tuple. peg_tame.
Qed.
#[global] Hint Resolve tame_xarg : tame.
Lemma tame_xargs : tame g_xargs. Proof. unfold g_xargs, g_xnamed, g_empty. peg_tame. Qed.
Lemma tame_named_column : tame g_named_column. Proof. unfold g_named_column. peg_tame. Qed.
#[global] Hint Resolve tame_xargs tame_named_column : tame.
Lemma strict_named_column' : strict g_named_column. Proof. unfold g_named_column. peg_shrink. Qed.
#[global] Hint Resolve strict_named_column' : peg.
Lemma tame_columns : tame g_columns. Proof. unfold g_columns. peg_tame. Qed.
Lemma tame_xcolumns : tame g_xcolumns. Proof. unfold g_xcolumns, g_xcolumn. peg_tame. Qed.
Lemma tame_references : tame g_references. Proof. unfold g_references. peg_tame. Qed.
Lemma tame_arrow : tame arrow. Proof. unfold arrow. peg_tame. Qed.
Lemma tame_expression_list : tame g_expression_list. Proof. unfold g_expression_list. peg_tame. Qed.
#[global] Hint Resolve tame_columns tame_xcolumns tame_references tame_arrow tame_expression_list : tame.
Lemma tame_line_cont : tame line_cont. Proof. unfold line_cont, g_newline. peg_tame. Qed.
#[global] Hint Resolve tame_line_cont : tame.

Lemma strict_expression_list : strict g_expression_list. Proof. unfold g_expression_list. peg_shrink. Qed.
#[global] Hint Resolve strict_expression_list : peg.

Lemma strict_line_cont : strict line_cont. Proof. unfold line_cont, g_newline. peg_shrink. Qed.
#[global] Hint Resolve strict_line_cont : peg.

(** ** Relation lines *)

(** A rule whose last token is the closing bracket. *)
Definition ends (r r' : list N) {A} (p : peg A) : Prop := forall u, whole u ->
  match p (u ++ c_cb :: r) with
  | Some (a, w) =>
      (w = r /\ p (u ++ c_cb :: r') = Some (a, r')) \/
      (exists v, w = v ++ c_cb :: r /\ whole v /\ p (u ++ c_cb :: r') = Some (a, v ++ c_cb :: r'))
  | None => p (u ++ c_cb :: r') = None
  end.
Definition shuts {A} (p : peg A) : Prop := forall s a r, p s = Some (a, r) -> exists t, s = t ++ c_cb :: r /\ whole t.
Definition lined {A} (p : peg A) : Prop := shuts p /\ forall r r', ends r r' p.

Lemma lined_bind {A B} (p : peg A) (f : A -> peg B) : tame p -> (forall a, lined (f a)) -> lined (pbind p f).
Proof.
  intros [Tp Sp] Hf. split.
  - intros s b r H. unfold pbind in H. destruct (p s) as [[a w]|] eqn:E; [|discriminate].
    destruct (Tp _ _ _ E) as (t & -> & Ht). destruct (proj1 (Hf a) _ _ _ H) as (t' & -> & Ht').
    exists (t ++ t'). rewrite <- app_assoc. split; [reflexivity|now apply whole_app].
  - intros r r' u Hu. unfold pbind. specialize (Sp r r' u Hu). destruct (p (u ++ c_cb :: r)) as [[a w]|].
    + destruct Sp as (v & -> & Hv & ->). exact (proj2 (Hf a) r r' v Hv).
    + now rewrite Sp.
Qed.
Lemma lined_then {A B} (p : peg A) (q : peg B) : tame p -> lined q -> lined (pthen p q).
Proof. intros Hp Hq. apply lined_bind; auto. Qed.
Lemma lined_end {A} (a : A) : lined (ptok (L "]") ;;; pret a).
Proof.
  split.
  - intros s x r H. unfold pthen, pbind, pret in H. destruct (ptok (L "]") s) as [[[] w]|] eqn:E; [|discriminate].
    injection H as <- <-. apply ptok_spec in E as ->. exists []. split; [reflexivity|constructor].
  - intros r r' u Hu. unfold pthen, pbind, pret. destruct u as [|c u]; [now left|].
    unfold ptok. change (L "]") with [c_cb]. cbn [app strip_prefix].
    destruct (N.eqb_spec c_cb c) as [<-|]; [|reflexivity]. right. exists u. split; [reflexivity|]. split; [|reflexivity].
    inversion Hu as [|? ? ? ? Ht|q b t' Hq ? ? E]; [exact Ht|]. destruct Hq; subst; discriminate.
Qed.
Lemma lined_map {A B} (f : A -> B) (p : peg A) : lined p -> lined (pmap f p).
Proof.
  intros [Tp Sp]. split.
  - intros s b r H. unfold pmap in H. destruct (p s) as [[a w]|] eqn:E; [|discriminate]. injection H as <- <-. eauto.
  - intros r r' u Hu. unfold pmap. specialize (Sp r r' u Hu). destruct (p (u ++ c_cb :: r)) as [[a w]|].
    + destruct Sp as [[-> ->]|(v & -> & Hv & ->)]; [now left|]. right. eauto.
    + now rewrite Sp.
Qed.
Lemma lined_alt {A} (p q : peg A) : lined p -> lined q -> lined (palt p q).
Proof.
  intros [Tp Sp] [Tq Sq]. split.
  - intros s b r H. unfold palt in H. destruct (p s) as [[a w]|] eqn:E; [injection H as <- <-|]; eauto.
  - intros r r' u Hu. unfold palt. specialize (Sp r r' u Hu). destruct (p (u ++ c_cb :: r)) as [[a w]|].
    + destruct Sp as [[-> ->]|(v & -> & Hv & ->)]; [now left|]. right. eauto.
    + rewrite Sp. exact (Sq r r' u Hu).
Qed.
Lemma lined_keeps {A} (p : peg A) : lined p -> forall s a r, p s = Some (a, r) ->
  exists t, s = t ++ c_cb :: r /\ forall r', p (t ++ c_cb :: r') = Some (a, r').
Proof.
  intros [Hs He] s a r H. destruct (Hs s a r H) as (t & -> & Ht). exists t. split; [reflexivity|]. intros r'.
  specialize (He r r' t Ht). rewrite H in He. destruct He as [[_ E]|(v & E & _ & _)]; [exact E|].
  apply (f_equal (@length N)) in E. rewrite app_length in E. cbn in E. lia.
Qed.

Ltac peg_lined :=
  intros;
  lazymatch goal with
  | |- lined (pthen (ptok (L "]")) (pret _)) => apply lined_end
  | |- lined (pbind _ _) => apply lined_bind; [peg_tame|]; peg_lined
  | |- lined (pthen _ _) => apply lined_then; [peg_tame|]; peg_lined
  | |- lined (pmap _ _) => apply lined_map; peg_lined
  | |- lined (palt _ _) => apply lined_alt; peg_lined
  | |- _ => idtac
  end.

(** All relations but virtual tables. *)
Definition g_relation' : peg rline :=
  g_ext_read <|> g_read <|> g_filter <|> g_project <|> g_aggregate <|> g_sort <|> g_fetch
  <|> g_join <|> g_set <|> g_cross <|> g_ext.
Lemma lined_relation' : lined g_relation'.
Proof.
  unfold g_relation'. repeat apply lined_alt.
  - unfold g_ext_read. peg_lined.
  - unfold g_read, g_table_name, g_output. peg_lined.
  - unfold g_filter. peg_lined.
  - unfold g_project, g_project_arg. peg_lined.
  - unfold g_aggregate, g_group_by, g_grouping_set, g_empty. peg_lined.
  - unfold g_sort, g_sort_field. peg_lined.
  - unfold g_fetch, g_fetch_arg, g_fetch_value, g_empty. peg_lined.
  - unfold g_join, g_post_filter. peg_lined.
  - unfold g_set. peg_lined.
  - unfold g_cross. peg_lined.
  - unfold g_ext, g_xkind. peg_lined.
Qed.
Lemma lined_addendum : lined g_addendum.
Proof. unfold g_addendum, g_addendum_type. peg_lined. Qed.
Lemma lined_root : lined g_root.
Proof. unfold g_root. peg_lined. Qed.
