(** Reading crashes where the specification says: types, expressions, arguments. *)
From Coq Require Import String List NArith ZArith Bool Lia PeanoNat.
From Verif Require Import Base BaseFacts Peg Names SimpleExt SimpleExtFacts Out Anchors Types TypesFacts Calendar Literals Exprs ExprsFacts
  ExtArgs Registry Rels RelGrammar RelRead Tree CrashFacts SpecMeaning MeaningFacts MeaningExprs MeaningRels SpecCrashes.
Import ListNotations.
Local Open Scope string_scope.
Local Open Scope list_scope.
Local Open Scope nat_scope.

(** ** Results and parts *)

Definition agrees {E X} (x : res E X) (p : part) : Prop := ((exists v, x = Ok v) <-> fst p) /\ forall m, x = Panic m <-> snd p m.

Lemma rbind_panic {E X Y} (x : res E X) (f : X -> res E Y) m : rbind x f = Panic m <-> x = Panic m \/ exists v, x = Ok v /\ f v = Panic m.
Proof.
  destruct x as [v| |q]; cbn [rbind]; split.
  - intros H. right. eauto.
  - intros [H|(w & H & H')]; [discriminate|]. injection H as <-. exact H'.
  - discriminate.
  - intros [H|(w & H & H')]; discriminate.
  - intros H. left. congruence.
  - intros [H|(w & H & H')]; [congruence|discriminate].
Qed.
Lemma rmap_panic {E X Y} (f : X -> Y) (x : res E X) m : rmap f x = Panic m <-> x = Panic m.
Proof. destruct x; cbn [rmap]; split; congruence. Qed.

Lemma agrees_cons {E X Y} (x : res E X) (f : X -> res E Y) p ps :
  agrees x p -> (forall v, x = Ok v -> agrees (f v) (in_order ps)) -> agrees (rbind x f) (in_order (p :: ps)).
Proof.
  intros [H1 H2] H. split.
  - cbn [in_order fst]. split.
    + intros (w & Hw). apply rbind_ok in Hw as (v & -> & Hw). constructor; [apply H1; eauto|]. apply (H v eq_refl). eauto.
    + intros HF. inversion HF as [|? ? Hp Hps]; subst. apply H1 in Hp as (v & ->). cbn [rbind]. now apply (H v eq_refl).
  - intros m. cbn [in_order snd first_of]. rewrite rbind_panic, H2. split.
    + intros [Hm|(v & Hv & Hm)]; auto. right. split; [apply H1; eauto|]. now apply (H v Hv).
    + intros [Hm|[Hp Hm]]; auto. right. apply H1 in Hp as (v & Hv). exists v. split; auto. now apply (H v Hv).
Qed.
Lemma agrees_ret {E X} (v : X) : agrees (E := E) (Ok v) (in_order []).
Proof. split; [cbn; split; eauto|]. intros m. cbn. split; [discriminate|tauto]. Qed.
Lemma agrees_one {E X} (x : res E X) p : agrees x p -> agrees x (in_order [p]).
Proof.
  intros [H1 H2]. split; cbn [in_order fst snd first_of].
  - rewrite H1. split; [auto|]. now inversion 1.
  - intros m. rewrite H2. tauto.
Qed.
Lemma agrees_skip {E X Y} (x : res E X) (f : X -> res E Y) p : (exists v, x = Ok v) -> (forall v, x = Ok v -> agrees (f v) p) -> agrees (rbind x f) p.
Proof. intros (v & ->) H. cbn [rbind]. now apply H. Qed.
Lemma agrees_map {E X Y} (f : X -> Y) (x : res E X) p : agrees x p -> agrees (rmap f x) p.
Proof.
  intros [H1 H2]. split.
  - rewrite <- H1. split; intros (v & Hv); [apply rmap_ok in Hv as (w & -> & _)|rewrite Hv; cbn]; eauto.
  - intros m. now rewrite rmap_panic.
Qed.
Lemma agrees_guard {E X} (x : res E X) p : agrees x p -> agrees (guard_drop x) (pending p).
Proof.
  intros [H1 H2]. split; cbn [pending fst snd].
  - rewrite <- H1. destruct x; cbn [guard_drop]; split; intros (v & Hv); eauto; discriminate.
  - intros m. rewrite <- H1. destruct x as [v|d|q]; cbn [guard_drop].
    + split; [discriminate|]. intros [H|(_ & H & _)]; [now apply H2 in H|]. exfalso. eauto.
    + split.
      * intros [= <-]. right. split; auto. split; [intros (v & Hv); discriminate|]. intros m' Hm. apply H2 in Hm. discriminate.
      * intros [H|(-> & _)]; auto. apply H2 in H. discriminate.
    + rewrite (H2 m). split; auto. intros [H|(_ & _ & H)]; auto. exfalso. apply (H q). now apply H2.
Qed.
Lemma agrees_eq {E X} (x : res E X) p q : agrees x p -> (fst p <-> fst q) -> (forall m, snd p m <-> snd q m) -> agrees x q.
Proof. intros [H1 H2] Hf Hs. split; [now rewrite H1|]. intros m. now rewrite H2. Qed.
Lemma agrees_as {E X} (x : res E X) ps P : agrees x (in_order ps) -> ((exists v, x = Ok v) <-> P) -> agrees x (P, first_of ps).
Proof. intros [H1 H2] H. split; cbn [fst snd]; auto. Qed.
Lemma agrees_refused {E X} (x : res E X) P : ((exists v, x = Ok v) <-> P) -> (forall m, x <> Panic m) -> agrees x (refused P).
Proof. intros H Hn. split; auto. intros m. cbn. split; [intros E1; now apply Hn in E1|tauto]. Qed.
Lemma agrees_unwrap {E X} msg (o : option X) P : ((exists v, o = Some v) <-> P) -> agrees (E := E) (unwrap msg o) (fatal P msg).
Proof.
  intros H. split; cbn [fatal fst snd].
  - rewrite <- H. destruct o; cbn; split; intros (v & Hv); eauto; discriminate.
  - intros m. rewrite <- H. destruct o as [v|]; cbn; split; try discriminate.
    + intros [_ Hn]. destruct Hn. eauto.
    + intros [= <-]. split; auto. intros (v & Hv). discriminate.
    + intros [-> _]. reflexivity.
Qed.

Lemma first_app ps qs m : first_of (ps ++ qs) m <-> first_of ps m \/ Forall fst ps /\ first_of qs m.
Proof.
  induction ps as [|p ps IH]; cbn [first_of app].
  - split; [auto|]. tauto.
  - rewrite IH. split.
    + intros [H|[H [H'|[H' H'']]]]; auto.
    + intros [[H|[H H']]|[H H']]; auto. inversion H; subst. auto.
Qed.
Lemma agrees_app {E X Y} (x : res E X) (f : X -> res E Y) ps qs :
  agrees x (in_order ps) -> (forall v, x = Ok v -> agrees (f v) (in_order qs)) -> agrees (rbind x f) (in_order (ps ++ qs)).
Proof.
  intros H1 H2. eapply agrees_eq; [apply (agrees_cons x f (in_order ps) qs H1 H2)|..]; cbn [in_order fst snd first_of].
  - split; intros H.
    + inversion H; subst. apply Forall_app. auto.
    + apply Forall_app in H as [? ?]. constructor; auto.
  - intros m. rewrite first_app. cbn [in_order fst snd]. tauto.
Qed.
Lemma agrees_end {E X Y} (x : res E X) (k : X -> Y) p : agrees x p -> agrees (let? v := x in Ok (k v)) p.
Proof. intros H. apply (agrees_map k) in H. destruct x; exact H. Qed.
Lemma agrees_list {E X Y} (f : X -> res E Y) (g : X -> part) l : Forall (fun x => agrees (f x) (g x)) l -> agrees (rlist f l) (in_order (map g l)).
Proof.
  induction 1 as [|x l Hx _ IH]; cbn [rlist map]; [apply agrees_ret|]. apply agrees_cons; auto. intros v _.
  now apply agrees_end.
Qed.
Lemma agrees_list_with {E X Y Z} (f : X -> res E Y) (g : X -> part) l (k : list Y -> Z) :
  Forall (fun x => agrees (f x) (g x)) l -> agrees (let? ys := rlist f l in Ok (k ys)) (in_order (map g l)).
Proof. intros H. now apply agrees_end, agrees_list. Qed.
Lemma all_agree {E X Y} (f : X -> res E Y) (g : X -> part) l : (forall x, agrees (f x) (g x)) -> Forall (fun x => agrees (f x) (g x)) l.
Proof. intros H. apply Forall_forall. auto. Qed.
Lemma agrees_clauses {X Y} (f : X -> pres Y) (g : X -> part) l : Forall (fun x => agrees (f x) (g x)) l ->
  agrees (clauses_loop f l) (in_order (map (fun x => pending (g x)) l)).
Proof.
  induction 1 as [|x l Hx _ IH]; cbn [clauses_loop map]; [apply agrees_ret|]. apply agrees_cons; [now apply agrees_guard|]. intros v _.
  change ((fix go (l0 : list X) : pres (list Y) := match l0 with [] => Ok [] | x0 :: r => let? y := guard_drop (f x0) in let? ys := go r in Ok (y :: ys) end) l)
    with (clauses_loop f l).
  now apply agrees_end.
Qed.
Lemma agrees_params {X Y} (f : X -> pres Y) (g : X -> part) l : Forall (fun x => agrees (f x) (g x)) l ->
  agrees (params_loop f l) (in_order (pending_but_last (map g l))).
Proof.
  induction 1 as [|x l Hx Hl IH]; cbn [params_loop map]; [apply agrees_ret|].
  change ((fix go (l0 : list X) : pres (list Y) :=
      match l0 with [] => Ok [] | x0 :: r => let? y := match r with [] => f x0 | _ :: _ => guard_drop (f x0) end in let? ys := go r in Ok (y :: ys) end) l)
    with (params_loop f l).
  destruct l as [|x' l]; cbn [map pending_but_last].
  - apply agrees_cons; auto. intros v _. cbn [params_loop rbind]. apply agrees_ret.
  - apply agrees_cons; [now apply agrees_guard|]. intros v _. apply agrees_end. exact IH.
Qed.
(** Only the crashes. *)
Definition panics {E X} (x : res E X) (ps : list part) : Prop := forall m, x = Panic m <-> first_of ps m.
Lemma panics_cons {E X Y} (x : res E X) (f : X -> res E Y) p ps :
  agrees x p -> (forall v, x = Ok v -> panics (f v) ps) -> panics (rbind x f) (p :: ps).
Proof.
  intros [H1 H2] H m. cbn [first_of]. rewrite rbind_panic, H2. split.
  - intros [Hm|(v & Hv & Hm)]; auto. right. split; [apply H1; eauto|]. now apply (H v Hv).
  - intros [Hm|[Hp Hm]]; auto. right. apply H1 in Hp as (v & Hv). exists v. split; auto. now apply (H v Hv).
Qed.
Lemma panics_app {E X Y} (x : res E X) (f : X -> res E Y) ps qs :
  agrees x (in_order ps) -> (forall v, x = Ok v -> panics (f v) qs) -> panics (rbind x f) (ps ++ qs).
Proof. intros H1 H2 m. rewrite first_app. apply (panics_cons x f (in_order ps) qs H1 H2 m). Qed.
Lemma panics_none {E X} (x : res E X) : (forall m, x <> Panic m) -> panics x [].
Proof. intros H m. cbn. split; [intros Hm; now apply H in Hm|tauto]. Qed.
Lemma panics_ok {E X} (v : X) : panics (E := E) (Ok v) [].
Proof. apply panics_none. discriminate. Qed.
Lemma panics_skip {E X Y} (x : res E X) (f : X -> res E Y) ps : (exists v, x = Ok v) -> (forall v, x = Ok v -> panics (f v) ps) -> panics (rbind x f) ps.
Proof. intros (v & ->) H. cbn [rbind]. now apply H. Qed.
Lemma panics_quiet {E X Y} (x : res E X) (f : X -> res E Y) ps : (forall m, x <> Panic m) -> (forall v, x = Ok v -> panics (f v) []) -> ps = [] ->
  panics (rbind x f) ps.
Proof.
  intros Hx H -> m. cbn [first_of]. rewrite rbind_panic. split; [|tauto]. intros [H'|(v & Hv & H')]; [now apply Hx in H'|]. now apply (H v Hv) in H'.
Qed.
Lemma agrees_panics {E X} (x : res E X) ps : agrees x (in_order ps) -> panics x ps.
Proof. intros [_ H]. exact H. Qed.
Lemma panics_last {E X Y} (x : res E X) (k : X -> Y) p : agrees x p -> panics (let? v := x in Ok (k v)) [p].
Proof. intros H. apply panics_cons; auto. intros. apply panics_ok. Qed.

(** ** Anchors, indices, types *)

Lemma agrees_anchor a : agrees (anchor_value a) (anchor_part a).
Proof.
  split; cbn [anchor_part fatal fst snd].
  - split; intros (v & Hv); exists v; now apply anchor_iff.
  - intros m. split.
    + intros H. split.
      * destruct a as [s|]; cbn [anchor_value] in H; [|discriminate]. apply rmap_panic in H. destruct (parse_u32 s); cbn in H; congruence.
      * intros (n & Hn). apply anchor_iff in Hn. congruence.
    + intros [-> Hn]. destruct a as [s|]; [|destruct Hn; exists None; constructor]. cbn [anchor_value].
      destruct (parse_u32 s) as [z|] eqn:E; [|reflexivity]. destruct Hn. exists (Some z). apply anchor_iff. cbn [anchor_value]. now rewrite E.
Qed.
Lemma agrees_index s : agrees (field_index s) (index_part s).
Proof.
  apply agrees_unwrap. split; intros (z & Hz); exists z.
  - apply field_index_iff. unfold field_index. now rewrite Hz.
  - apply field_index_iff in Hz. unfold field_index in Hz. now apply unwrap_iff in Hz.
Qed.
Lemma agrees_indices refs : agrees (output_mapping refs) (in_order (map index_part refs)).
Proof. apply agrees_list, all_agree. intros s. apply agrees_index. Qed.

Lemma fold_some {E X} (x : res E X) (P : X -> Prop) : (forall v, x = Ok v <-> P v) -> (exists v, x = Ok v) <-> exists v, P v.
Proof. intros H. split; intros (v & Hv); exists v; now apply H. Qed.

Section Types.
  Variable e : exts.
  Hypothesis We : wf_exts e.

  Lemma validate_no_panic k a n m : get_and_validate_anchor e k a n <> Panic m.
  Proof. intros H. pose proof (validate_pan e k a n (fun _ => False)) as G. rewrite H in G. exact G. Qed.
  Lemma precision_no_panic s m : parse_precision s <> Panic m.
  Proof. intros H. pose proof (precision_pan s (fun _ => False)) as G. rewrite H in G. exact G. Qed.

  Lemma param_iff c p : lower_param e c = Ok p <-> param_means e c p.
  Proof.
    destruct c as [c|s|n]; cbn [lower_param].
    - rewrite rmap_iff. split.
      + intros (t & H & ->). constructor. now apply type_iff.
      + inversion 1; subst. eexists. split; [apply type_iff; eauto|reflexivity].
    - split; [discriminate|inversion 1].
    - split; [discriminate|inversion 1].
  Qed.
  Lemma type_crash c : forall m, lower_type e c = Panic m <-> type_crashes e c m.
  Proof.
    apply (tcst_ind2 (fun c => forall m, lower_type e c = Panic m <-> type_crashes e c m)
                     (fun c => forall m, lower_param e c = Panic m <-> param_crashes e c m)); intros; cbn [lower_type lower_param type_crashes param_crashes].
    - destruct (simple_kind s) as [k|] eqn:E.
      + split; [discriminate|]. intros [_ H]. apply simple_iff in E as (w & -> & Hw). destruct H. eauto.
      + split.
        * intros [= <-]. split; auto. intros (w & k & H1 & H2). assert (simple_kind s = Some k) by (apply simple_iff; eauto). congruence.
        * intros [-> _]. reflexivity.
    - rewrite rmap_panic. apply H.
    - split; [now intros [= <-]|now intros ->].
    - split; [now intros [= <-]|now intros ->].
    - rewrite rmap_panic. split; [intros H; now apply precision_no_panic in H|tauto].
    - rewrite rmap_panic. split; [intros H; now apply precision_no_panic in H|tauto].
    - set (qs := match ps with None => [] | Some l => _ end).
      assert (G : agrees (match ps with Some l => params_loop (lower_param e) l | None => Ok [] end) (in_order qs)).
      { destruct ps as [l|]; [|apply agrees_ret]. apply (agrees_params (lower_param e) (fun c => (exists p, param_means e c p, param_crashes e c))).
        eapply Forall_impl; [|apply H; reflexivity]. intros c0 Hc. split; cbn [fst snd]; [|exact Hc]. apply fold_some. intros v. apply param_iff. }
      rewrite rbind_panic. cbn [first_of]. rewrite <- (proj2 (agrees_anchor a)), <- (proj1 (agrees_anchor a)).
      split.
      + intros [H1|(x & H1 & H2)]; auto. right. split; eauto. rewrite rbind_panic in H2. rewrite <- (proj2 (agrees_anchor u)), <- (proj1 (agrees_anchor u)).
        destruct H2 as [H2|(y & H2 & H3)]; auto. right. split; eauto. rewrite rbind_panic in H3. destruct H3 as [H3|(ps' & H3 & H4)]; [now apply G|].
        rewrite rbind_panic in H4. destruct H4 as [H4|(r & _ & H4)]; [now apply validate_no_panic in H4|discriminate].
      + intros [H1|((x & H1) & H2)]; auto. right. exists x. split; auto. rewrite rbind_panic. rewrite <- (proj2 (agrees_anchor u)), <- (proj1 (agrees_anchor u)) in H2.
        destruct H2 as [H2|((y & H2) & H3)]; auto. right. exists y. split; auto. rewrite rbind_panic. left. now apply G.
    - rewrite rmap_panic. apply H.
    - split; [now intros [= <-]|now intros ->].
    - split; [now intros [= <-]|now intros ->].
  Qed.
  Lemma agrees_type c : agrees (lower_type e c) (type_part e c).
  Proof. split; cbn [type_part fst snd]; [|apply type_crash]. apply fold_some. intros t. now apply type_iff. Qed.
End Types.

Ltac never := let m := fresh "m" in intros m; let H := fresh "H" in intros H;
  repeat match goal with H : context [match ?t with _ => _ end] |- _ => destruct t; try discriminate H end.

Section Exprs.
  Context `{F : Floats}.
  Variable e : exts.
  Hypothesis We : wf_exts e.

  Lemma no_panic {E X} (x : res E X) : (forall P : string -> Prop, pan P x) -> forall m, x <> Panic m.
  Proof. intros H m ->. exact (H (fun _ => False)). Qed.
  Lemma string_no_panic s t : lit_whole (CStr s) -> forall m, to_string_literal s t <> Panic m.
  Proof.
    cbn [lit_whole]. intros H. apply no_panic. intros P. unfold to_string_literal. apply pan_bind; [apply unescape_whole; [discriminate|exact H]|]. intros x _.
    destruct t as [[[] ? ?|[] ? ? ?|o ? ?| | | | | | | | | | |]|]; try exact I;
      try (apply pan_bind; [first [apply parse_date_pan|apply parse_time_pan|apply parse_timestamp_pan]|intros; exact I]).
    destruct (match o with Some p => prec_of_units p | None => None end); [|exact I]. apply pan_bind; [apply parse_interval_pan|intros; exact I].
  Qed.
  Lemma agrees_i64 msg s : agrees (E := perr) (unwrap msg (parse_i64 s)) (fatal (exists z, number s z /\ i64 z) msg).
  Proof. apply agrees_unwrap. split; intros (z & Hz); exists z; now apply parse_i64_iff. Qed.
  Lemma literal_crash c : lit_whole (fst c) -> forall m, lower_literal e c = Panic m <-> literal_crashes e c m.
  Proof.
    intros Hw. change (panics (lower_literal e c) (match snd c with Some t => [type_part e t] | None => [] end ++
      match fst c with CInt s => [fatal (exists z, number s z /\ i64 z) "integer literal is not an i64"] | _ => [] end)).
    unfold lower_literal. apply panics_app.
    { destruct (snd c) as [t|]; [|apply agrees_ret]. apply agrees_map, agrees_one, agrees_type; auto. }
    intros t _. destruct (fst c) as [s|s|s|s|] eqn:Ec.
    - apply panics_none. unfold to_float_literal. destruct t as [[[] ? ?| | | | | | | | | | | | |]|]; discriminate.
    - unfold to_int_literal. apply panics_cons; [apply agrees_i64|]. intros z _. apply panics_none.
      destruct t as [[[] ? ?| | | | | | | | | | | | |]|]; discriminate.
    - apply panics_none. unfold to_boolean_literal. destruct t as [[[] ? ?| | | | | | | | | | | | |]|]; discriminate.
    - apply panics_none. now apply string_no_panic.
    - apply panics_none. unfold to_null_literal. destruct t; discriminate.
  Qed.
  Lemma expr_some c : (exists x, lower_expr e c = Ok x) <-> exists x, expr_means e c x.
  Proof. apply fold_some. intros x. now apply expr_iff. Qed.
  Lemma make_expr c : (forall m, lower_expr e c = Panic m <-> expr_crashes e c m) -> agrees (lower_expr e c) (exists x, expr_means e c x, expr_crashes e c).
  Proof. split; [apply expr_some|auto]. Qed.
  Lemma agrees_fref f : agrees (fref_values f) (in_order [anchor_part (fr_anchor f); anchor_part (fr_urn f)]).
  Proof.
    unfold fref_values. apply agrees_cons; [apply agrees_anchor|]. intros a _. apply agrees_cons; [apply agrees_anchor|]. intros u _. apply agrees_ret.
  Qed.
  Lemma expr_crash c : ewhole c -> forall m, lower_expr e c = Panic m <-> expr_crashes e c m.
  Proof.
    induction c as [ifs els IH1 IH2|c b t IH|f args t IH|s|c] using ecst_ind2; cbn [ewhole]; intros Hw; cbn [lower_expr expr_crashes].
    - destruct Hw as (_ & H1 & H2). apply fold_all2 in H1. apply panics_app.
      + apply (agrees_clauses _ (fun p => in_order [(exists x, expr_means e (fst p) x, expr_crashes e (fst p));
                                                   (exists x, expr_means e (snd p) x, expr_crashes e (snd p))])).
        rewrite Forall_forall in *. intros p Hp. destruct (IH1 p Hp) as [Ia Ib], (H1 p Hp) as [Wa Wb].
        cbv beta. apply agrees_cons; [apply make_expr; auto|]. intros a _. apply agrees_cons; [apply make_expr; auto|]. intros; apply agrees_ret.
      + intros l _. apply panics_last. apply make_expr; auto.
    - apply panics_cons; [apply make_expr; auto|]. intros x _. apply panics_last. apply agrees_type; auto.
    - apply fold_all in Hw. change (anchor_part (fr_anchor f) :: anchor_part (fr_urn f) :: ?l) with ([anchor_part (fr_anchor f); anchor_part (fr_urn f)] ++ l).
      apply panics_app; [apply agrees_fref|]. intros a _. apply panics_app.
      + apply agrees_list. rewrite Forall_forall in *. intros x Hx. apply agrees_map. apply make_expr; auto.
      + intros vs _. apply panics_cons; [apply agrees_type; auto|]. intros t' _. apply panics_quiet; auto; [intros m; apply validate_no_panic|]. intros; apply panics_ok.
    - intros m. rewrite rmap_panic. apply agrees_index.
    - intros m. rewrite rmap_panic. now apply literal_crash.
  Qed.
  Lemma agrees_expr c : ewhole c -> agrees (lower_expr e c) (expr_part e c).
  Proof. intros Hw. split; [apply expr_some|now apply expr_crash]. Qed.
  Lemma agrees_exprs l : Forall ewhole l -> agrees (lower_exprs e l) (in_order (map (expr_part e) l)).
  Proof. intros H. apply agrees_list. eapply Forall_impl; [|exact H]. intros c. apply agrees_expr. Qed.
  Lemma agrees_optional o : opt_whole o -> agrees (lower_opt_expr e o) (optional e o).
  Proof.
    destruct o as [c|]; cbn [opt_whole lower_opt_expr optional]; intros H; [now apply agrees_map, agrees_expr|].
    apply agrees_refused; [|discriminate]. split; eauto.
  Qed.
  Lemma agrees_concat {X Y} (f : X -> pres Y) (g : X -> part) ls :
    Forall (Forall (fun x => agrees (f x) (g x))) ls -> agrees (rlist (rlist f) ls) (in_order (map g (concat ls))).
  Proof.
    induction 1 as [|l ls Hl _ IH]; cbn [rlist concat map]; [apply agrees_ret|]. rewrite map_app. apply agrees_app; [now apply agrees_list|].
    intros ys _. now apply agrees_end.
  Qed.
  Lemma agrees_rows rows : Forall (Forall ewhole) rows -> agrees (rlist (lower_exprs e) rows) (in_order (map (expr_part e) (concat rows))).
  Proof.
    intros H. apply agrees_concat. eapply Forall_impl; [|exact H]. intros l Hl. eapply Forall_impl; [|exact Hl]. intros c. apply agrees_expr.
  Qed.

  (** ** Arguments *)

  Lemma name_reads {E} n : nm_whole n -> exists x, lower_name (E := E) n = Ok x.
  Proof.
    destruct n as [s|s]; cbn [nm_whole lower_name]; eauto. intros (b & t & -> & r & H). cbn [unescape_string]. rewrite N.eqb_refl.
    eapply quoted_unescape; [discriminate|exact H].
  Qed.
  Lemma argument_some c : (exists v, lower_xarg e c = Ok v) <-> exists v, argument_means e c v.
  Proof. apply fold_some. intros v. now apply argument_iff. Qed.
  Lemma argument_crash c : xwhole c -> forall m, lower_xarg e c = Panic m <-> argument_crashes e c m.
  Proof.
    induction c as [s|c|s|c|l IH] using xacst_ind2; cbn [xwhole]; intros Hw; cbn [lower_xarg argument_crashes].
    - intros m. split; [discriminate|tauto].
    - destruct c as [s|s|s|s|]; cbn [lower_parameter]; intros m.
      + split; [discriminate|tauto].
      + rewrite rmap_panic. apply agrees_i64.
      + split; [discriminate|tauto].
      + rewrite rmap_panic. split; [|tauto]. intros H. cbn [lit_whole] in Hw.
        pose proof (unescape_whole perr (fun _ => False) c_sq s ltac:(discriminate) Hw) as G. rewrite H in G. exact G.
      + split; [discriminate|tauto].
    - intros m. rewrite rmap_panic. apply agrees_index.
    - intros m. rewrite rmap_panic. now apply expr_crash.
    - apply fold_all in Hw. intros m. rewrite rmap_panic. revert m. apply agrees_panics.
      apply (agrees_list _ (fun c => (exists v, argument_means e c v, argument_crashes e c))). rewrite Forall_forall in *. intros c Hc.
      split; [apply argument_some|cbn [snd]; auto].
  Qed.
  Lemma agrees_argument c : xwhole c -> agrees (lower_xarg e c) (argument_part e c).
  Proof. intros Hw. split; [apply argument_some|now apply argument_crash]. Qed.
  Lemma agrees_arguments c : xargs_whole c -> agrees (lower_xargs e c) (in_order (argument_parts e c)).
  Proof.
    intros [H1 H2]. unfold lower_xargs, argument_parts. rewrite map_app, map_map. apply agrees_app.
    - apply agrees_list. eapply Forall_impl; [|exact H1]. intros x. apply agrees_argument.
    - intros ps _. apply agrees_list_with. eapply Forall_impl; [|exact H2]. intros [n x] [Hn Hx]. unfold lower_xnamed. cbn [fst snd] in *.
      apply agrees_skip; [now apply name_reads|]. intros v _. now apply agrees_end, agrees_argument.
  Qed.
  Lemma agrees_xcolumn c : xcol_whole c -> agrees (lower_xcolumn e c) (xcolumn_part e c).
  Proof.
    destruct c as [[n t]|s|c]; cbn [xcol_whole lower_xcolumn xcolumn_part fst snd]; intros H.
    - apply agrees_skip; [now apply name_reads|]. intros v _. apply agrees_end, agrees_type; auto.
    - apply agrees_map, agrees_index.
    - now apply agrees_map, agrees_expr.
  Qed.
  Lemma agrees_columns l : cols_whole l -> agrees (lower_columns e l) (in_order (column_parts e l)).
  Proof.
    intros H. apply agrees_list. eapply Forall_impl; [|exact H]. intros [n t] Hn. unfold lower_column. cbn [fst snd] in *.
    apply agrees_skip; [now apply name_reads|]. intros v _. apply agrees_end, agrees_type; auto.
  Qed.
End Exprs.
