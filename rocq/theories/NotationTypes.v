(** Types are written as SpecNotation.v says. *)
From Coq Require Import String List NArith ZArith Bool Lia.
From Verif Require Import Base BaseFacts Peg Names SimpleExt SimpleExtFacts Out Anchors Types TypesFacts
  Literals Exprs SpecMeaning MeaningFacts SpecNotation NotationBase.
Import ListNotations.
Local Open Scope string_scope.
Local Open Scope list_scope.
Local Open Scope nat_scope.

Lemma null_iff n s : clean (null_out n) s <-> SpecNotation.null_text n s.
Proof.
  destruct n; cbn [null_out].
  - rewrite clean_after. split; [intros (y & H & _); now apply clean_push in H|]. intros H. inversion H.
  - rewrite clean_txt. split; [intros ->; constructor|]. intros H. now inversion H.
  - rewrite clean_nil. split; [intros ->; constructor|]. intros H. now inversion H.
Qed.
Lemma variation_iff op e v s : wf_exts e -> clean (var_out op e v) s <-> variation_text op e v s.
Proof.
  intros W. unfold var_out. destruct (N.eqb_spec v 0) as [->|Hv].
  - rewrite clean_nil. split; [intros ->; constructor|]. intros H. inversion H; congruence.
  - rewrite clean_before. setoid_rewrite clean_after. setoid_rewrite (reference_iff _ _ _ _ _ W). split.
    + intros (y & (z & H & ->) & ->). now constructor.
    + intros H. inversion H; subst; [congruence|]. eauto.
Qed.
Lemma params_iff l ss s : Forall2 clean l ss -> clean (params_out l) s <-> s = of_text ss.
Proof.
  intros H. destruct H as [|o x l ss Ho Hl]; cbn [params_out]; [apply clean_nil|].
  rewrite clean_before. setoid_rewrite clean_after. setoid_rewrite clean_sep.
  assert (U : forall l ss ss', Forall2 clean l ss -> Forall2 clean l ss' -> ss = ss').
  { clear. induction l as [|o l IH]; intros ss ss' H H'; inversion H; inversion H'; subst; auto. f_equal; auto.
    destruct H2 as (_ & _ & <-), H7 as (_ & _ & <-). reflexivity. }
  split.
  - intros (y & (z & (ss' & H' & ->) & ->) & ->). rewrite (U _ ss' (x :: ss) H'); auto.
  - intros ->. eexists. split; [|reflexivity]. eexists. split; [|reflexivity]. eexists. split; [|reflexivity]. auto.
Qed.
Lemma params_iff_all l s : clean (params_out l) s <-> exists ss, Forall2 clean l ss /\ s = of_text ss.
Proof.
  split.
  - intros H. assert (K : exists ss, Forall2 clean l ss).
    { destruct l as [|o l]; [exists []; constructor|]. cbn [params_out] in H. apply clean_before in H as (y & H & _).
      apply clean_after in H as (z & H & _). apply clean_sep in H as (ss & H & _). eauto. }
    destruct K as (ss & K). exists ss. split; auto. now apply (params_iff l).
  - intros (ss & K & ->). now apply (params_iff l ss).
Qed.
Lemma form_iff op e head (W0 : list N -> Prop) n v l s : wf_exts e -> (forall s, clean head s <-> W0 s) ->
  clean (head +++ null_out n +++ var_out op e v +++ params_out l) s <->
  exists w ss, W0 w /\ Forall2 clean l ss /\ type_form op e w n v ss s.
Proof.
  intros W H0. rewrite clean_app. setoid_rewrite clean_app. setoid_rewrite clean_app. setoid_rewrite H0.
  setoid_rewrite null_iff. setoid_rewrite (variation_iff _ _ _ _ W). setoid_rewrite params_iff_all. unfold type_form. split.
  - intros (w & y & Hw & (q & z & Hq & (a & b & Ha & (ss & Hs & ->) & ->) & ->) & ->). exists w, ss. split; [auto|]. split; [auto|].
    exists q, a. auto.
  - intros (w & ss & Hw & Hs & q & a & Hq & Ha & ->). eexists w, _. split; [auto|]. split; [|reflexivity].
    eexists q, _. split; [auto|]. split; [|reflexivity]. eexists a, _. split; [auto|]. split; [eauto|reflexivity].
Qed.
Lemma word_iff op e w n v l s : wf_exts e -> clean (textify_type op e w n v l) s <-> exists ss, Forall2 clean l ss /\ type_form op e w n v ss s.
Proof.
  intros W. unfold textify_type. rewrite (form_iff op e (txt w) (eq w)) by (auto; intros x; rewrite clean_txt; split; auto).
  split; [intros (w' & ss & <- & H); eauto|intros (ss & H); eauto].
Qed.
Lemma one_iff o s0 (P : list N -> Prop) : (forall s, clean o s <-> P s) -> Forall2 clean [o] s0 <-> exists x, s0 = [x] /\ P x.
Proof.
  intros H. split.
  - intros K. inversion K as [|? x ? ? K1 K2]; subst. inversion K2; subst. exists x. split; auto. now apply H.
  - intros (x & -> & K). constructor; [now apply H|constructor].
Qed.
Lemma two_iff o o' s0 (P P' : list N -> Prop) : (forall s, clean o s <-> P s) -> (forall s, clean o' s <-> P' s) ->
  Forall2 clean [o; o'] s0 <-> exists x y, s0 = [x; y] /\ P x /\ P' y.
Proof.
  intros H H'. split.
  - intros K. inversion K as [|? x ? ? K1 K2]; subst. apply (one_iff o' _ P' H') in K2 as (y & -> & K2). exists x, y. split; auto. split; auto. now apply H.
  - intros (x & y & -> & K & K'). constructor; [now apply H|]. apply (one_iff o' _ P' H'). eauto.
Qed.
Lemma num_iff z s : clean (txt (show_Z z)) s <-> numeral z s.
Proof. now rewrite clean_txt, numeral_iff. Qed.
Lemma no_params s0 : Forall2 clean [] s0 <-> s0 = [].
Proof. split; [intros H; now inversion H|intros ->; constructor]. Qed.

Lemma simple_word k : exists w, In (w, k) type_words /\ skind_name k = L w /\ forall w', In (w', k) type_words -> w' = w.
Proof.
  destruct k; eexists; (split; [cbn; tauto|]); (split; [reflexivity|]); intros w' H; cbn in H;
    repeat destruct H as [[= <-]|H]; try contradiction; try discriminate; auto.
Qed.
Lemma precision_word k : exists w, In (k, w) precision_words /\ preck_name k = L w /\ forall w', In (k, w') precision_words -> w' = w.
Proof.
  destruct k; eexists; (split; [cbn; tauto|]); (split; [reflexivity|]); intros w' H; cbn in H;
    repeat destruct H as [[= <-]|H]; try contradiction; try discriminate; auto.
Qed.
Lemma length_word k : exists w, In (k, w) length_words /\ lenk_name k = L w /\ forall w', In (k, w') length_words -> w' = w.
Proof.
  destruct k; eexists; (split; [cbn; tauto|]); (split; [reflexivity|]); intros w' H; cbn in H;
    repeat destruct H as [[= <-]|H]; try contradiction; try discriminate; auto.
Qed.

Theorem type_text_iff op e : wf_exts e -> forall t s, clean (type_out op e t) s <-> type_text op e t s.
Proof.
  intros W. apply (ptype_ind2 (fun t => forall s, clean (type_out op e t) s <-> type_text op e t s)
                              (fun p => forall s, clean (param_out op e p) s <-> param_text op e p s)).
  - intros k n v s. cbn [type_out]. rewrite (word_iff _ _ _ _ _ _ _ W). setoid_rewrite no_params. destruct (simple_word k) as (w & H1 & H2 & H3). rewrite H2. split.
    + intros (ss & -> & H). econstructor; eauto.
    + intros H. inversion H as [w' k' n' v' s' K1 K2| | | | | | | | | |]; subst. apply H3 in K1 as ->. eauto.
  - intros k p n v s. cbn [type_out]. rewrite (word_iff _ _ _ _ _ _ _ W). setoid_rewrite (one_iff _ _ _ (num_iff p)). destruct (precision_word k) as (w & H1 & H2 & H3). rewrite H2. split.
    + intros (ss & (x & -> & Hx) & H). econstructor; eauto.
    + intros H. inversion H as [|k' w' p' x n' v' s' K1 K2 K3| | | | | | | | |]; subst. apply H3 in K1 as ->. eauto.
  - intros p n v s. cbn [type_out]. rewrite (word_iff _ _ _ _ _ _ _ W). setoid_rewrite (one_iff _ _ _ (num_iff _)). split.
    + intros (ss & (x & -> & Hx) & H). econstructor; eauto.
    + intros H. inversion H; subst. eauto.
  - intros p n v s. cbn [type_out]. rewrite (word_iff _ _ _ _ _ _ _ W). setoid_rewrite (one_iff _ _ _ (num_iff _)). split.
    + intros (ss & (x & -> & Hx) & H). econstructor; eauto.
    + intros H. inversion H; subst. eauto.
  - intros k l n v s. cbn [type_out]. rewrite (word_iff _ _ _ _ _ _ _ W). setoid_rewrite (one_iff _ _ _ (num_iff l)). destruct (length_word k) as (w & H1 & H2 & H3). rewrite H2. split.
    + intros (ss & (x & -> & Hx) & H). econstructor; eauto.
    + intros H. inversion H as [| | | |k' w' p' x n' v' s' K1 K2 K3| | | | | |]; subst. apply H3 in K1 as ->. eauto.
  - intros p sc n v s. cbn [type_out]. rewrite (word_iff _ _ _ _ _ _ _ W). setoid_rewrite (two_iff _ _ _ _ _ (num_iff p) (num_iff sc)). split.
    + intros (ss & (x & y & -> & Hx & Hy) & H). econstructor; eauto.
    + intros H. inversion H; subst. eexists. split; [|eassumption]. eauto.
  - intros ts n v IH s. cbn [type_out]. rewrite (word_iff _ _ _ _ _ _ _ W). setoid_rewrite (clean_map _ _ _ _ IH). split.
    + intros (ss & Hs & H). econstructor; eauto.
    + intros H. inversion H; subst. eauto.
  - intros [t|] n v IH s; cbn [type_out]; rewrite (word_iff _ _ _ _ _ _ _ W).
    + setoid_rewrite (one_iff _ _ _ (IH t eq_refl)). split.
      * intros (ss & (x & -> & Hx) & H). econstructor; eauto.
      * intros H. inversion H; subst. eauto.
    + split; [|intros H; inversion H]. intros (ss & H & _). inversion H as [|? ? ? ? K]; subst. now apply clean_fail in K.
  - intros [a|] [b|] n v IHa IHb s; cbn [type_out]; rewrite (word_iff _ _ _ _ _ _ _ W).
    + setoid_rewrite (two_iff _ _ _ _ _ (IHa a eq_refl) (IHb b eq_refl)). split.
      * intros (ss & (x & y & -> & Hx & Hy) & H). econstructor; eauto.
      * intros H. inversion H; subst. eexists. split; [|eassumption]. eauto.
    + split; [|intros H; inversion H]. intros (ss & H & _). inversion H as [|? ? ? ? _ K]; subst. inversion K as [|? ? ? ? K']; subst. now apply clean_fail in K'.
    + split; [|intros H; inversion H]. intros (ss & H & _). inversion H as [|? ? ? ? K]; subst. now apply clean_fail in K.
    + split; [|intros H; inversion H]. intros (ss & H & _). inversion H as [|? ? ? ? K]; subst. now apply clean_fail in K.
  - intros r ps n v IH s. cbn [type_out]. unfold user_out. rewrite (form_iff op e _ _ n v _ s W (fun s => reference_iff op e KType r s W)).
    setoid_rewrite (clean_map _ _ _ _ IH). split.
    + intros (w & ss & Hw & Hs & H). econstructor; eauto.
    + intros H. inversion H; subst. eexists _, _. split; [eassumption|]. split; eassumption.
  - intros r s. cbn [type_out]. unfold user_out. rewrite (form_iff op e _ _ NRequired 0 _ s W (fun s => reference_iff op e KType r s W)).
    setoid_rewrite no_params. split.
    + intros (w & ss & Hw & -> & q & a & Hq & Ha & ->). inversion Hq; subst. inversion Ha; subst; [|congruence].
      cbn [app of_text]. rewrite app_nil_r. now constructor.
    + intros H. inversion H; subst. exists s, []. split; [auto|]. split; [auto|]. exists [], []. split; [constructor|]. split; [constructor|].
      now rewrite app_nil_r.
  - intros s. cbn [type_out]. rewrite clean_fail. split; [tauto|]. intros H. inversion H.
  - intros s. cbn [type_out]. rewrite clean_fail. split; [tauto|]. intros H. inversion H.
  - intros s. cbn [type_out]. rewrite clean_fail. split; [tauto|]. intros H. inversion H.
  - intros b s. destruct b; cbn [param_out]; rewrite clean_txt; (split; [intros ->; constructor|intros H; now inversion H]).
  - intros t IH s. cbn [param_out]. rewrite IH. split; [now constructor|]. intros H. now inversion H.
  - intros x s. cbn [param_out]. rewrite clean_txt. split; [intros ->; constructor|intros H; now inversion H].
  - intros z s. cbn [param_out]. rewrite num_iff. split; [now constructor|]. intros H. now inversion H.
  - intros x s. cbn [param_out]. rewrite clean_txt. split; [intros ->; constructor|intros H; now inversion H].
  - intros s. cbn [param_out]. rewrite clean_txt. split; [intros ->; constructor|intros H; now inversion H].
  - intros s. cbn [param_out]. unfold missing_param. rewrite clean_fail. split; [tauto|]. intros H. inversion H.
Qed.
