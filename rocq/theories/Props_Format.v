(** Properties of formatting any plan: error placeholders and crashes. *)
From Coq Require Import String List NArith ZArith Bool Lia Permutation.
From Verif Require Import Base BaseFacts Names SpecNames SimpleExt Out Anchors Types Calendar Literals SpecLiterals Exprs
  ExtArgs Registry SpecRegistry Rels Plan Structural SpecLits OutClosed SpecFormat.
Import ListNotations.
Local Open Scope string_scope.
Local Open Scope list_scope.
Local Open Scope nat_scope.

(** ** C27: error placeholders *)

(** Every placeholder in the output stands for an error of its own among those
    reported, with that message. *)
Theorem C27_tokens_reported : forall (U : Unicode) (F : Floats) reg op p,
  exists others, Permutation (messages (format reg op p)) (o_toks (format reg op p) ++ others).
Proof.
  intros U F reg op p. apply (closed_format U F reg op (fun o => exists others, Permutation (messages o) (o_toks o ++ others))).
  - intros s. exists []. constructor.
  - intros a b (u & Hu) (v & Hv). exists (u ++ v). unfold messages in *. cbn [oapp o_toks o_errs]. rewrite map_app, Hu, Hv, <- !app_assoc.
    apply Permutation_app_head. rewrite !app_assoc. apply Permutation_app_tail, Permutation_app_comm.
  - intros e _. exists [ferr_message e]. apply Permutation_refl.
  - intros e. exists []. apply Permutation_refl.
  - exists []. constructor.
  - intros. exists []. constructor.
Qed.

Corollary C27_no_silent_token : forall (U : Unicode) (F : Floats) reg op p,
  o_errs (format reg op p) = [] -> o_toks (format reg op p) = [].
Proof.
  intros U F reg op p H. destruct (C27_tokens_reported U F reg op p) as (others & P).
  unfold messages in P. rewrite H in P. apply Permutation_nil in P. now apply app_eq_nil in P.
Qed.

(** ** C29: crashes *)

(** Formatting does not crash except for a date outside the calendar or inside an
    extension handler. *)
Theorem C29_format_crashes_partial : forall (U : Unicode) (F : Floats) reg op p s,
  In s (o_panics (format reg op p)) -> s = date_crash \/ handler_crash reg s.
Proof.
  intros U F reg op p.
  enough (Forall (fun s => s = date_crash \/ handler_crash reg s) (o_panics (format reg op p))) as H.
  { intros s Hs. rewrite Forall_forall in H. auto. }
  apply (closed_format U F reg op (fun o => Forall (fun s => s = date_crash \/ handler_crash reg s) (o_panics o)));
    try (intros; constructor).
  - intros a b Ha Hb. cbn [oapp o_panics]. apply Forall_app. auto.
  - now left.
  - constructor.
  - right. rename H into D. unfold decode_with_type in D. destruct (hget (t, any_url d) (rg_urls reg)) as [name|]; [|discriminate].
    destruct (hget (t, name) (rg_handlers reg)) as [h|] eqn:E; [|discriminate].
    exists t, name, h, d, ctx. split; auto. change (textify_detail h d ctx) with (arguments_of h d ctx) in D; destruct (arguments_of h d ctx); cbn [rbind] in D; congruence.
  - constructor.
Qed.

(** When formatting crashes over a date, the plan itself or what a handler made of a
    message in it has a date literal outside the calendar. *)
Theorem C29_crash_found : forall (U : Unicode) (F : Floats) reg op p s,
  In s (o_panics (format reg op p)) ->
  handler_crash reg s \/
  s = date_crash /\ exists l days, l_type l = Some (LDate days) /\ no_date days /\
    (in_plan l p \/ exists t name h d ctx a, hget (t, name) (rg_handlers reg) = Some h /\
                      arguments_of h d ctx = Ok a /\ in_args l a).
Proof.
  intros U F reg op p.
  set (B := fun l => in_plan l p \/ exists t name h d ctx a, hget (t, name) (rg_handlers reg) = Some h /\
                      arguments_of h d ctx = Ok a /\ in_args l a).
  set (Q := fun s => handler_crash reg s \/
    s = date_crash /\ exists l days, l_type l = Some (LDate days) /\ no_date days /\ B l).
  enough (Forall Q (o_panics (format reg op p))) as H.
  { intros s Hs. rewrite Forall_forall in H. apply H, Hs. }
  apply (lit_closed_format U F reg op (fun o => Forall Q (o_panics o)) B).
  - constructor.
  - intros a b Ha Hb. cbn [oapp o_panics]. apply Forall_app. auto.
  - constructor.
  - constructor.
  - intros l days Hl E. cbn [litval_out]. unfold days_to_date_string, date_of_days_opt.
    destruct (in_range min_days max_days days) eqn:R; [constructor|]. constructor; [|constructor].
    right. split; [reflexivity|]. exists l, days. split; [exact E|]. split; [|exact Hl].
    unfold in_range, no_date in *. change min_days with (-96465292)%Z in R. change max_days with (95026236)%Z in R. lia.
  - intros t d ctx n a l D Hl. right. unfold decode_with_type in D.
    destruct (hget (t, any_url d) (rg_urls reg)) as [name|]; [|discriminate].
    destruct (hget (t, name) (rg_handlers reg)) as [h|] eqn:E; [|discriminate].
    exists t, name, h, d, ctx, a. split; [exact E|]. split; [|exact Hl].
    change (textify_detail h d ctx) with (arguments_of h d ctx) in D; destruct (arguments_of h d ctx); cbn [rbind] in D; congruence.
  - intros t d ctx q D. constructor; [|constructor]. left. unfold decode_with_type in D.
    destruct (hget (t, any_url d) (rg_urls reg)) as [name|]; [|discriminate].
    destruct (hget (t, name) (rg_handlers reg)) as [h|] eqn:E; [|discriminate].
    exists t, name, h, d, ctx. split; auto. change (textify_detail h d ctx) with (arguments_of h d ctx) in D; destruct (arguments_of h d ctx); cbn [rbind] in D; congruence.
  - intros l Hl. now left.
Qed.

(** So with handlers that do not crash and make no such date, a plan whose dates are
    all in the calendar is formatted. *)
Corollary C29_no_crash : forall (U : Unicode) (F : Floats) reg op p,
  (forall s, ~ handler_crash reg s) ->
  (forall t name h d ctx a l days, hget (t, name) (rg_handlers reg) = Some h -> arguments_of h d ctx = Ok a ->
     in_args l a -> l_type l = Some (LDate days) -> ~ no_date days) ->
  (forall l days, in_plan l p -> l_type l = Some (LDate days) -> ~ no_date days) ->
  o_panics (format reg op p) = [].
Proof.
  intros U F reg op p H1 H2 H3. destruct (o_panics (format reg op p)) as [|s r] eqn:E; [reflexivity|exfalso].
  destruct (C29_crash_found U F reg op p s) as [H|(-> & l & days & Hl & Hn & [H|(t & name & h & d & ctx & a & Hh & Ht & Ha)])].
  - rewrite E. now left.
  - eapply H1; eauto.
  - eapply H3; eauto.
  - eapply H2; eauto.
Qed.
(** Without extensions only the plan's own dates matter. *)
Corollary C29_no_crash_default : forall (U : Unicode) (F : Floats) op p,
  (forall l days, in_plan l p -> l_type l = Some (LDate days) -> ~ no_date days) ->
  o_panics (format registry_new op p) = [].
Proof.
  intros U F op p H. apply C29_no_crash; [| |exact H].
  - intros s (t & n & h & d & ctx & E & _). discriminate E.
  - intros t n h d ctx a l days E. discriminate E.
Qed.

(** ** Examples *)
Section Examples.
  #[local] Existing Instance ascii_tables.
  #[local] Existing Instance toy_floats.

  Definition one_filter (x : pexpr) : pplan :=
    mk_plan _ None [] [] [PRel (RFilter None
      (Some (RRead (mk_read None (Some (mk_named_struct [L "a"] None)) None (ReadNamed [L "t"]) None false)))
      (Some x) None)].

  (** Two placeholders: the function and the type of column [a]. *)
  Example ex_tokens :
    o_toks (format registry_new opts_default (one_filter (EFunc 3 [] [] (Some (TSimple SI64 NRequired 0)))))
    = ["function"; "Type"] /\
    messages (format registry_new opts_default (one_filter (EFunc 3 [] [] (Some (TSimple SI64 NRequired 0)))))
    = ["function"; "Type"].
  Proof. split; vm_compute; reflexivity. Qed.

  (** C29: the first and the last day of the calendar are formatted, as is any plan
      without dates, whatever it is: here one that is mostly missing. *)
  Definition days_filter (z : Z) : pplan :=
    one_filter (EIf [(Some (ELit (mk_lit (Some (LDate z)) false 0)), None)] (Some ENone)).
  Example C29_ends : o_panics (format registry_new opts_default (days_filter (-96465292))) = [] /\
    o_panics (format registry_new opts_default (days_filter 95026236)) = [].
  Proof.
    split; apply C29_no_crash_default; intros l days (r & Hr & Hl) E;
      destruct Hr as [Hr|[ns Hr]]; cbn in Hr; destruct Hr as [[= <-]|[]];
      inversion Hl as [x ? Hx Hi|i ? Hi Hi']; subst.
    - inversion Hx; subst. inversion Hi; subst; try (match goal with H : in_expr _ ENone |- _ => inversion H end).
      cbn in H1. destruct H1 as [<-|[]]. destruct H2 as [H2|H2]; cbn in H2; [|discriminate].
      injection H2 as <-. inversion H3; subst. injection E as <-. unfold no_date. lia.
    - inversion Hi; subst. inversion Hi' as [x ? Hx Hj|j ? Hj Hj']; subst; [|inversion Hj]. inversion Hx; discriminate.
    - inversion Hx; subst. inversion Hi; subst; try (match goal with H : in_expr _ ENone |- _ => inversion H end).
      cbn in H1. destruct H1 as [<-|[]]. destruct H2 as [H2|H2]; cbn in H2; [|discriminate].
      injection H2 as <-. inversion H3; subst. injection E as <-. unfold no_date. lia.
    - inversion Hi; subst. inversion Hi' as [x ? Hx Hj|j ? Hj Hj']; subst; [|inversion Hj]. inversion Hx; discriminate.
  Qed.

  (** Every day outside the calendar crashes. *)
  Theorem C29_outside_crashes : forall z, no_date z ->
    In date_crash (o_panics (format registry_new opts_default (one_filter (ELit (mk_lit (Some (LDate z)) false 0))))).
  Proof.
    intros z H. assert (days_to_date_string z = None) as E.
    { unfold days_to_date_string, date_of_days_opt. destruct (in_range min_days max_days z) eqn:R; [|reflexivity].
      unfold in_range, no_date in *. change min_days with (-96465292)%Z in R. change max_days with (95026236)%Z in R. lia. }
    unfold one_filter. cbn -[days_to_date_string]. rewrite E. cbn. auto.
  Qed.

  (** C29 does not hold without exception: the largest day number crashes. *)
  Theorem C29_format_crashes_refuted : exists p,
    In date_crash (o_panics (format registry_new opts_default p)).
  Proof.
    exists (one_filter (ELit (mk_lit (Some (LDate 2147483647)) false 0))). vm_compute. left. reflexivity.
  Qed.
End Examples.
