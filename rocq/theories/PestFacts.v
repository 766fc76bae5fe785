(** What a reader built from the combinators has to do with a pest expression. *)
From Coq Require Import String List NArith Bool Lia Arith.
From Verif Require Import Base BaseFacts Peg PegFacts Pest.
Import ListNotations.

(** ** Derivations *)

Lemma derives_suffix G w at_ x s o : derives G w at_ x s o ->
  forall ts r, o = Some (ts, r) -> exists t, s = t ++ r.
Proof.
  induction 1; intros vs z E; try discriminate;
    try (injection E as <- <-); eauto; try solve [exists []; reflexivity].
  - now exists [c].
  - now exists [c].
  - destruct (IHderives1 _ _ eq_refl) as [t ->]. destruct (IHderives2 _ _ eq_refl) as [u ->].
    exists (t ++ u). apply app_assoc.
  - destruct (IHderives1 _ _ eq_refl) as [t ->]. destruct (IHderives2 _ _ eq_refl) as [u ->].
    exists (t ++ u). apply app_assoc.
Qed.

Lemma derives_len G w at_ x s ts r : derives G w at_ x s (Some (ts, r)) -> length r <= length s.
Proof. intros H. destruct (derives_suffix _ _ _ _ _ _ H _ _ eq_refl) as [t ->]. rewrite app_length. lia. Qed.

(** Inside an atomic rule there are no pairs. *)
Lemma derives_atomic G w at_ x s o : derives G w at_ x s o -> at_ = true ->
  forall ts r, o = Some (ts, r) -> ts = [].
Proof.
  induction 1; intros Ha vs z E; try discriminate; try (injection E as <- <-); subst; eauto.
  - destruct k; cbn; auto. eapply IHderives; eauto.
  - rewrite (IHderives1 eq_refl _ _ eq_refl), (IHderives2 eq_refl _ _ eq_refl). reflexivity.
  - rewrite (IHderives1 eq_refl _ _ eq_refl), (IHderives2 eq_refl _ _ eq_refl). reflexivity.
Qed.

Lemma same_ci_len a b : same_ci a b -> length a = length b.
Proof. unfold same_ci. intros H. apply (f_equal (@length _)) in H. now rewrite !map_length in H. Qed.

Lemma app_eq_len {A} (a b c d : list A) : a ++ b = c ++ d -> length a = length c -> b = d.
Proof.
  revert c. induction a as [|x a IH]; intros [|y c] H E; cbn in *; try discriminate; auto.
  injection H as _ H. injection E as E. eauto.
Qed.

(** A grammar matches in one way. *)
Lemma derives_unique G w at_ x s o : derives G w at_ x s o -> forall o', derives G w at_ x s o' -> o = o'.
Proof.
  induction 1; intros o' D; inversion D; subst; try reflexivity;
    try solve [exfalso; eauto]; try solve [exfalso; congruence];
    repeat match goal with
      | H1 : lookup _ _ = Some _, H2 : lookup _ _ = Some _ |- _ =>
          rewrite H1 in H2; injection H2 as <- <-
      | IH : forall o', derives _ _ ?a ?x ?s o' -> _ = o', H : derives _ _ ?a ?x ?s _ |- _ =>
          let E := fresh "E" in pose proof (IH _ H) as E; clear H;
          first [discriminate E | injection E as ? ?; subst | subst]
      | H : _ ++ _ = _ ++ _ |- _ => apply app_inv_head in H; subst
      end; try reflexivity; eauto.
  - f_equal. f_equal. symmetry. eapply app_eq_len; [eassumption|]. apply same_ci_len in H, H3. congruence.
  - exfalso. match goal with H : forall u r, _ -> _ <> _ |- _ => eapply H; eauto end.
  - exfalso. match goal with H : forall u r, _ -> _ <> _ |- _ => eapply H; eauto end.
  - exfalso. match goal with H : forall c r, _ = _ -> _ |- _ => rewrite (H _ _ eq_refl) in *; discriminate end.
  - exfalso. match goal with H : forall c r, _ = _ -> _ |- _ => rewrite (H _ _ eq_refl) in *; discriminate end.
  - match goal with H : text ++ _ = text0 ++ _ |- _ => apply app_inv_tail in H; now subst end.
Qed.

(** ** Readers and expressions *)

Section Reads.
  Variable G : grammar.
  Variable w : list N.

  (** On inputs shorter than [n], [p] succeeds exactly where [x] matches, with the same text
      left, and its value is what [v] sees in the pairs. *)
  Definition reads {A} (at_ : bool) (n : nat) (v : list tree -> A -> Prop) (p : peg A) (x : qexp) : Prop :=
    forall s, length s < n ->
    match p s with
    | Some (a, r) => exists ts, derives G w at_ x s (Some (ts, r)) /\ v ts a
    | None => derives G w at_ x s None
    end.

  (** The text that [p] takes is related to its value. *)
  Definition spells {A} (R : list N -> A -> Prop) (p : peg A) : Prop :=
    forall s a r, p s = Some (a, r) -> exists t, s = t ++ r /\ R t a.

  Definition quiet_v {A} (ts : list tree) (_ : A) : Prop := ts = [].
  Definition seq_v {A B} (v1 : list tree -> A -> Prop) (v2 : A -> list tree -> B -> Prop)
    (ts : list tree) (b : B) : Prop :=
    exists t1 t2 a, ts = t1 ++ t2 /\ v1 t1 a /\ v2 a t2 b.
  Definition map_v {A B} (f : A -> B) (v : list tree -> A -> Prop) (ts : list tree) (b : B) : Prop :=
    exists a, v ts a /\ b = f a.

  Lemma reads_le {A} at_ n m (v : list tree -> A -> Prop) p x :
    n <= m -> reads at_ m v p x -> reads at_ n v p x.
  Proof. intros L H s Hs. apply H. lia. Qed.

  Lemma reads_weaken {A} at_ n (v v' : list tree -> A -> Prop) p x :
    reads at_ n v p x -> (forall ts a, v ts a -> v' ts a) -> reads at_ n v' p x.
  Proof.
    intros H Hv s Hs. specialize (H s Hs). destruct (p s) as [[a r]|]; auto.
    destruct H as (ts & D & V). eauto.
  Qed.

  Lemma reads_ext {A} at_ n (v : list tree -> A -> Prop) p q x :
    (forall s, p s = q s) -> reads at_ n v p x -> reads at_ n v q x.
  Proof. intros E H s Hs. rewrite <- E. now apply H. Qed.

  Lemma reads_tok at_ n t : reads at_ n quiet_v (ptok t) (QTok t).
  Proof.
    intros s _. destruct (ptok t s) as [[u r]|] eqn:E.
    - apply ptok_spec in E as ->. exists []. split; [constructor|reflexivity].
    - constructor. intros r ->. now rewrite ptok_app in E.
  Qed.

  Lemma strip_prefix_ci_spec t s : forallb (fun c => negb (is_upper c)) t = true ->
    match strip_prefix_ci t s with
    | Some r => exists u, s = u ++ r /\ same_ci u t
    | None => forall u r, same_ci u t -> s <> u ++ r
    end.
  Proof.
    unfold same_ci. revert s. induction t as [|c t IH]; intros s H; cbn.
    - now exists [].
    - cbn in H. apply andb_true_iff in H as [Hc Ht]. destruct s as [|y s].
      + intros [|z u] r Hu E; cbn in *; discriminate.
      + assert (Ec : to_lower c = c) by (unfold to_lower; destruct (is_upper c); cbn in *; congruence).
        destruct (c =? to_lower y)%N eqn:Ey.
        * apply N.eqb_eq in Ey. specialize (IH s Ht). destruct (strip_prefix_ci t s) as [r|].
          -- destruct IH as (u & -> & Hu). exists (y :: u). split; auto. cbn. rewrite Ec. congruence.
          -- intros [|z u] r Hu E; cbn in *; [discriminate|]. injection E as <- ->.
             injection Hu as _ Hu. exact (IH _ _ Hu eq_refl).
        * apply N.eqb_neq in Ey. intros [|z u] r Hu E; cbn in *; [discriminate|]. injection E as <- ->.
          injection Hu as Hu _. congruence.
  Qed.
  Lemma reads_tok_ci at_ n t : forallb (fun c => negb (is_upper c)) t = true ->
    reads at_ n quiet_v (ptok_ci t) (QTokCI t).
  Proof.
    intros Ht s _. pose proof (strip_prefix_ci_spec t s Ht) as H. unfold ptok_ci.
    destruct (strip_prefix_ci t s) as [r|].
    - destruct H as (u & -> & Hu). exists []. split; [now constructor|reflexivity].
    - now constructor.
  Qed.

  Lemma reads_char at_ n f l : (forall c, f c = in_class l c) -> reads at_ n quiet_v (pchar f) (QClass l).
  Proof.
    intros E [|c s] _; cbn.
    - constructor. discriminate.
    - rewrite E. destruct (in_class l c) eqn:Ec.
      + exists []. split; [now constructor|reflexivity].
      + constructor. now intros ? ? [= <- <-].
  Qed.

  Lemma reads_eoi n : reads false n (fun ts _ => ts = [Node "EOI" [] []]) peoi QEoi.
  Proof. intros [|c s] _; cbn; [|constructor]. eexists. split; [constructor|reflexivity]. Qed.

  Lemma reads_bind {A B} at_ n v1 v2 (p : peg A) (f : A -> peg B) x y :
    reads at_ n v1 p x -> (forall a, reads at_ n (v2 a) (f a) y) ->
    reads at_ n (seq_v v1 v2) (pbind p f) (QSeq x y).
  Proof.
    intros Hp Hf s Hs. unfold pbind. specialize (Hp s Hs). destruct (p s) as [[a r]|]; [|now constructor].
    destruct Hp as (ts & D & V). pose proof (derives_len _ _ _ _ _ _ _ D).
    specialize (Hf a r ltac:(lia)). destruct (f a r) as [[b q]|]; [|eapply d_seq_no2; eauto].
    destruct Hf as (us & D' & V'). exists (ts ++ us). split; [eapply d_seq; eauto|]. exists ts, us, a. auto.
  Qed.
  Lemma reads_bind_lt {A B} at_ n v1 v2 (p : peg A) (f : A -> peg B) x y :
    strict p -> reads at_ (S n) v1 p x -> (forall a, reads at_ n (v2 a) (f a) y) ->
    reads at_ (S n) (seq_v v1 v2) (pbind p f) (QSeq x y).
  Proof.
    intros Hlt Hp Hf s Hs. unfold pbind. specialize (Hp s Hs). destruct (p s) as [[a r]|] eqn:E; [|now constructor].
    destruct Hp as (ts & D & V). apply Hlt in E.
    specialize (Hf a r ltac:(lia)). destruct (f a r) as [[b q]|]; [|eapply d_seq_no2; eauto].
    destruct Hf as (us & D' & V'). exists (ts ++ us). split; [eapply d_seq; eauto|]. exists ts, us, a. auto.
  Qed.

  Lemma reads_assoc {A B C} at_ n v (p : peg A) (q : A -> peg B) (f : B -> peg C) x :
    reads at_ n v (pbind p (fun a => pbind (q a) f)) x -> reads at_ n v (pbind (pbind p q) f) x.
  Proof. apply reads_ext. intros s. unfold pbind. destruct (p s) as [[a r]|]; auto. Qed.
  Lemma reads_assoc_ret {A B C} at_ n v (p : peg A) (g : A -> B) (f : B -> peg C) x :
    reads at_ n v (pbind p (fun a => f (g a))) x -> reads at_ n v (pbind (pbind p (fun a => pret (g a))) f) x.
  Proof. apply reads_ext. intros s. unfold pbind. destruct (p s) as [[a r]|]; auto. Qed.
  Lemma reads_ret_l {A B} at_ n v (a : A) (f : A -> peg B) x :
    reads at_ n v (f a) x -> reads at_ n v (pbind (pret a) f) x.
  Proof. apply reads_ext. reflexivity. Qed.

  Lemma reads_last {A B} at_ n v (f : A -> B) p x :
    reads at_ n v p x -> reads at_ n (map_v f v) (pbind p (fun a => pret (f a))) x.
  Proof.
    intros H s Hs. unfold pbind. specialize (H s Hs). destruct (p s) as [[a r]|]; auto.
    destruct H as (ts & D & V). exists ts. split; auto. now exists a.
  Qed.
  Lemma reads_map {A B} at_ n v (f : A -> B) p x :
    reads at_ n v p x -> reads at_ n (map_v f v) (pmap f p) x.
  Proof.
    intros H s Hs. unfold pmap. specialize (H s Hs). destruct (p s) as [[a r]|]; auto.
    destruct H as (ts & D & V). exists ts. split; auto. now exists a.
  Qed.

  Lemma reads_alt {A} at_ n v1 v2 (p q : peg A) x y :
    reads at_ n v1 p x -> reads at_ n v2 q y ->
    reads at_ n (fun ts a => v1 ts a \/ v2 ts a) (palt p q) (QAlt x y).
  Proof.
    intros Hp Hq s Hs. specialize (Hp s Hs). specialize (Hq s Hs). unfold palt.
    destruct (p s) as [[a r]|].
    - destruct Hp as (ts & D & V). exists ts. split; [now constructor|auto].
    - destruct (q s) as [[a r]|]; [|now constructor].
      destruct Hq as (ts & D & V). exists ts. split; [now constructor|auto].
  Qed.
  Lemma reads_alt_assoc {A} at_ n v (p q r : peg A) x :
    reads at_ n v (palt p (palt q r)) x -> reads at_ n v (palt (palt p q) r) x.
  Proof. apply reads_ext. intros s. unfold palt. destruct (p s) as [[a z]|]; auto. Qed.

  Lemma reads_opt {A} at_ n v (p : peg A) x :
    reads at_ n v p x -> reads at_ n (maybe v) (popt p) (QOpt x).
  Proof.
    intros H s Hs. unfold popt. specialize (H s Hs). destruct (p s) as [[a r]|].
    - destruct H as (ts & D & V). exists ts. split; [now constructor|auto].
    - exists []. split; [now constructor|reflexivity].
  Qed.
  (** An optional expression, read as a choice with a default. *)
  Lemma reads_default {A} at_ n v (p : peg A) (d : A) x :
    reads at_ n v p x ->
    reads at_ n (fun ts a => v ts a \/ ts = [] /\ a = d) (palt p (pret d)) (QOpt x).
  Proof.
    intros H s Hs. unfold palt, pret. specialize (H s Hs). destruct (p s) as [[a r]|].
    - destruct H as (ts & D & V). exists ts. split; [now constructor|auto].
    - exists []. split; [now constructor|auto].
  Qed.
  Lemma reads_alt_out {A} at_ n v (p q r : peg A) x :
    reads at_ n v (palt (palt p q) r) x -> reads at_ n v (palt p (palt q r)) x.
  Proof. apply reads_ext. intros s. unfold palt. destruct (p s) as [[a z]|]; auto. Qed.
  Lemma reads_not {A} at_ n v (p : peg A) x :
    reads at_ n v p x -> reads at_ n quiet_v (pnot p) (QNot x).
  Proof.
    intros H s Hs. unfold pnot. specialize (H s Hs). destruct (p s) as [[a r]|].
    - destruct H as (ts & D & V). econstructor. exact D.
    - exists []. split; [now constructor|reflexivity].
  Qed.

  Lemma reads_star {A} at_ n v (p : peg A) x : strict p ->
    reads at_ n v p x ->
    reads at_ n (fun ts l => exists tss, ts = concat tss /\ Forall2 v tss l) (pstar p) (QStar x).
  Proof.
    intros Hlt H s. remember (length s) as m eqn:Em. assert (Hm : length s <= m) by lia. clear Em.
    revert s Hm. induction m as [|m IH]; intros s Hm Hn.
    - destruct s; [|cbn in Hm; lia]. unfold pstar. cbn. specialize (H [] Hn).
      destruct (p []) as [[a r]|] eqn:E; [apply Hlt in E; cbn in E; lia|].
      exists []. split; [now constructor|]. now exists [].
    - rewrite pstar_eq by assumption. specialize (H s ltac:(lia)).
      destruct (p s) as [[a r]|] eqn:E.
      + destruct H as (ts & D & V). apply Hlt in E. specialize (IH r ltac:(lia) ltac:(lia)).
        unfold pstar in *. destruct (pstar_n (length r) p r) as [l q].
        destruct IH as (us & D' & tss & -> & F). exists (ts ++ concat tss). split; [eapply d_star; eauto|].
        exists (ts :: tss). cbn. auto.
      + exists []. split; [now constructor|]. now exists [].
  Qed.
  Lemma concat_nodes {A} (v : tree -> A -> Prop) tss l : Forall2 (one v) tss l -> Forall2 v (concat tss) l.
  Proof. induction 1 as [|ts a tss l (t & -> & V) _ IH]; cbn; auto. Qed.
  Lemma concat_quiet {A} tss (l : list A) : Forall2 quiet_v tss l -> concat tss = [].
  Proof. induction 1 as [|ts a tss l V _ IH]; cbn; auto. unfold quiet_v in V. now subst. Qed.
  Lemma reads_star_node {A} at_ n v (p : peg A) x : strict p ->
    reads at_ n (one v) p x -> reads at_ n (Forall2 v) (pstar p) (QStar x).
  Proof.
    intros Hlt H. eapply reads_weaken; [apply reads_star; eassumption|]. intros ts l (tss & -> & F). now apply concat_nodes.
  Qed.
  Lemma reads_plus_node {A} at_ n v (p : peg A) x : strict p ->
    reads at_ n (one v) p x -> reads at_ n (Forall2 v) (pplus p) (QPlus x).
  Proof.
    intros Hlt H. eapply reads_weaken with (v := seq_v (one v) (fun a => map_v (cons a) (Forall2 v))).
    - intros s Hs.
      pose proof (reads_bind at_ n _ _ p _ x (QStar x) H
                    (fun a => reads_last at_ n _ (cons a) _ _ (reads_star_node at_ n v p x Hlt H)) s Hs) as K.
      change (pplus p) with (pbind p (fun a => pbind (pstar p) (fun l => pret (a :: l)))).
      destruct (pbind p _ s) as [[a r]|]; [|now constructor].
      destruct K as (ts & D & V). exists ts. split; auto. now constructor.
    - intros ts l (t1 & t2 & a & -> & (t & -> & V) & l' & F & ->). cbn. now constructor.
  Qed.
  Lemma reads_sep1 {A} at_ n v (sep : peg unit) (p : peg A) x y : strict (pthen sep p) ->
    reads at_ n (one v) p x -> reads at_ n (one v) (pthen sep p) y ->
    reads at_ n (Forall2 v) (psep1 sep p) (QSeq x (QStar y)).
  Proof.
    intros Hlt Hp Hs. eapply reads_weaken with (v := seq_v (one v) (fun a => map_v (cons a) (Forall2 v))).
    - apply reads_bind; auto. intros a. apply reads_last. now apply reads_star_node.
    - intros ts l (t1 & t2 & a & -> & (t & -> & V) & l' & F & ->). cbn. now constructor.
  Qed.
  Lemma reads_sep0 {A} at_ n v (sep : peg unit) (p : peg A) x y : strict (pthen sep p) ->
    reads at_ n (one v) p x -> reads at_ n (one v) (pthen sep p) y ->
    reads at_ n (Forall2 v) (psep0 sep p) (QOpt (QSeq x (QStar y))).
  Proof.
    intros Hlt Hp Hs. eapply reads_weaken; [apply reads_default, reads_sep1; eauto|].
    intros ts l [F|[-> ->]]; auto.
  Qed.

  (** *** Rules *)

  Lemma reads_node {A} n nm v (p : peg A) x : lookup G nm = Some (QNormal, x) ->
    reads false n v p x -> reads false n (one (is_node nm v)) p (QRef nm).
  Proof.
    intros L H s Hs. specialize (H s Hs). destruct (p s) as [[a r]|].
    - destruct H as (ts & D & V). destruct (derives_suffix _ _ _ _ _ _ D _ _ eq_refl) as [t Ht].
      exists [Node nm t ts]. split; [|exists (Node nm t ts); split; auto; now exists t, ts].
      change [Node nm t ts] with (wrap false QNormal nm t ts). eapply d_ref; eauto.
    - eapply d_ref_no; eauto.
  Qed.
  (** A rule without inner pairs whose text matters. *)
  Lemma reads_leaf {A} n nm k (R : list N -> A -> Prop) (v : list tree -> A -> Prop) (p : peg A) x :
    lookup G nm = Some (k, x) -> k <> QSilent -> spells R p ->
    reads (within false k) n v p x -> (forall ts a, v ts a -> k = QNormal -> ts = []) ->
    reads false n (one (fun t a => exists text, t = Node nm text [] /\ R text a)) p (QRef nm).
  Proof.
    intros L Hk Hp H Hv s Hs. specialize (H s Hs). destruct (p s) as [[a r]|] eqn:E.
    - destruct H as (ts & D & V). destruct (Hp _ _ _ E) as (t & Ht & HR).
      assert (ts = []) as ->.
      { destruct k; cbn in *; eauto; [congruence|]. eapply derives_atomic; eauto. }
      exists [Node nm t []]. split; [|exists (Node nm t []); split; auto; now exists t].
      assert (EW : [Node nm t []] = wrap false k nm t []) by (destruct k; [reflexivity|now elim Hk|reflexivity]). rewrite EW.
      eapply d_ref; eauto.
    - eapply d_ref_no; eauto.
  Qed.
  Lemma reads_silent {A} at_ n nm v (p : peg A) x : lookup G nm = Some (QSilent, x) ->
    reads at_ n v p x -> reads at_ n v p (QRef nm).
  Proof.
    intros L H s Hs. specialize (H s Hs). destruct (p s) as [[a r]|].
    - destruct H as (ts & D & V). destruct (derives_suffix _ _ _ _ _ _ D _ _ eq_refl) as [t Ht].
      exists ts. split; auto. change ts with (wrap at_ QSilent nm t ts) at 1. eapply d_ref; eauto.
    - eapply d_ref_no; eauto.
  Qed.
  (** Any rule inside an atomic one. *)
  Lemma reads_inner {A} n nm k v (p : peg A) x : lookup G nm = Some (k, x) ->
    reads true n v p x -> reads true n quiet_v p (QRef nm).
  Proof.
    intros L H s Hs. specialize (H s Hs). destruct (p s) as [[a r]|].
    - destruct H as (ts & D & V). destruct (derives_suffix _ _ _ _ _ _ D _ _ eq_refl) as [t Ht].
      pose proof (derives_atomic _ _ _ _ _ _ D eq_refl _ _ eq_refl) as ->.
      exists []. split; [|reflexivity].
      replace (@nil tree) with (wrap true k nm t []) by now destruct k.
      eapply d_ref; eauto. now destruct k.
    - eapply d_ref_no; eauto. now destruct k.
  Qed.
End Reads.
