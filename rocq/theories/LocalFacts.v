(** What the formatter writes is a template of what it writes for an expression inside. *)
From Coq Require Import String List NArith ZArith Bool Lia Permutation.
From Verif Require Import Base BaseFacts Names SimpleExt Out Anchors Types Calendar Literals Exprs ExtArgs Registry Rels Plan SpecLocal.
Import ListNotations.
Local Open Scope string_scope.
Local Open Scope list_scope.
Local Open Scope nat_scope.

Lemma oapp_nil_l o : onil +++ o = o. Proof. now destruct o. Qed.
Lemma oapp_nil_r o : o +++ onil = o. Proof. destruct o. unfold oapp. cbn. now rewrite !app_nil_r. Qed.
Lemma oapp_assoc a b c : (a +++ b) +++ c = a +++ b +++ c. Proof. unfold oapp. cbn. now rewrite !app_assoc. Qed.

Section Templates.
  Context {X : Type} (f : X -> out).
  Definition ofill (t : list (option out)) (o : out) : out := fold_right oapp onil (map (fun p => match p with Some x => x | None => o end) t).
  Definition tpl (g : X -> out) : Prop := exists t, forall x, g x = ofill t (f x).
  Definition tpll (g : X -> list out) : Prop := exists l, Forall tpl l /\ forall x, g x = map (fun h => h x) l.

  Lemma tpl_ext g h : (forall x, h x = g x) -> tpl g -> tpl h.
  Proof. intros E (t & H). exists t. intros x. now rewrite E. Qed.
  Lemma tpl_same o : tpl (fun _ => o).
  Proof. exists [Some o]. intros x. unfold ofill. cbn. now rewrite oapp_nil_r. Qed.
  Lemma tpl_hole : tpl f.
  Proof. exists [None]. intros x. unfold ofill. cbn. now rewrite oapp_nil_r. Qed.
  Lemma tpl_app g h : tpl g -> tpl h -> tpl (fun x => g x +++ h x).
  Proof.
    intros (t & H) (u & K). exists (t ++ u). intros x. rewrite H, K. clear. unfold ofill. rewrite map_app.
    induction t as [|p t IH]; cbn [map app fold_right]; [apply oapp_nil_l|]. now rewrite oapp_assoc, IH.
  Qed.
  Lemma tpl_sep s g : tpll g -> tpl (fun x => osep s (g x)).
  Proof.
    intros (l & H & E). eapply tpl_ext; [intros x; now rewrite E|]. clear E g. induction H as [|h l H K IH]; [exact (tpl_same onil)|].
    destruct l as [|h' l]; [exact H|]. change (tpl (fun x => h x +++ txt s +++ osep s (map (fun k => k x) (h' :: l)))).
    apply tpl_app; auto. apply tpl_app; auto. apply tpl_same.
  Qed.
  Lemma tpl_fold g : tpll g -> tpl (fun x => fold_right oapp onil (g x)).
  Proof.
    intros (l & H & E). eapply tpl_ext; [intros x; now rewrite E|]. clear E g. induction H as [|h l H K IH]; [exact (tpl_same onil)|].
    cbn [map fold_right]. now apply tpl_app.
  Qed.
  Lemma tpll_ext g h : (forall x, h x = g x) -> tpll g -> tpll h.
  Proof. intros E (t & H & K). exists t. split; auto. intros x. now rewrite E. Qed.
  Lemma tpll_same l : tpll (fun _ => l).
  Proof. exists (map (fun o _ => o) l). split; [apply Forall_map, Forall_forall; intros; apply tpl_same|]. intros x. rewrite map_map. symmetry. apply map_id. Qed.
  Lemma tpll_nil : tpll (fun _ => []). Proof. apply tpll_same. Qed.
  Lemma tpll_cons g l : tpl g -> tpll l -> tpll (fun x => g x :: l x).
  Proof. intros H (k & K & E). exists (g :: k). split; [now constructor|]. intros x. cbn [map]. now rewrite E. Qed.
  Lemma tpll_app g h : tpll g -> tpll h -> tpll (fun x => g x ++ h x).
  Proof. intros (l & H & E) (k & K & E'). exists (l ++ k). split; [now apply Forall_app|]. intros x. now rewrite map_app, E, E'. Qed.
  Lemma tpll_map {Y} (w : Y -> out) (l : list Y) (C : X -> Y) l' : tpl (fun x => w (C x)) -> tpll (fun x => map w (l ++ C x :: l')).
  Proof.
    intros H. eapply tpll_ext; [intros x; apply map_app|]. apply tpll_app; [apply tpll_same|]. cbn [map]. apply tpll_cons; auto. apply tpll_same.
  Qed.
  Lemma tpll_map2 g (w : out -> out) : tpll g -> (forall h, tpl h -> tpl (fun x => w (h x))) -> tpll (fun x => map w (g x)).
  Proof.
    intros (l & H & E) W. exists (map (fun h x => w (h x)) l). split; [apply Forall_map; eapply Forall_impl; [|exact H]; auto|].
    intros x. now rewrite E, !map_map.
  Qed.
  Lemma tpll_length g : tpll g -> exists n, forall x, length (g x) = n.
  Proof. intros (l & _ & E). exists (length l). intros x. now rewrite E, map_length. Qed.
  Lemma tpl_match_list {g : X -> list out} (a : out) (b : X -> out) : tpll g -> tpl b -> tpl (fun x => match g x with [] => a | _ => b x end).
  Proof.
    intros (l & H & E) B. destruct l as [|h l].
    - eapply tpl_ext; [|apply (tpl_same a)]. intros x. now rewrite E.
    - eapply tpl_ext; [|exact B]. intros x. now rewrite E.
  Qed.

  (** Headers. *)
  Definition tpln (n : X -> list (list N * out)) : Prop :=
    exists l, Forall (fun p : list N * (X -> out) => tpl (snd p)) l /\ forall x, n x = map (fun p => (fst p, snd p x)) l.
  Lemma tpln_same l : tpln (fun _ => l).
  Proof.
    exists (map (fun p => (fst p, fun _ => snd p)) l). split; [apply Forall_map, Forall_forall; intros; apply tpl_same|].
    intros x. rewrite map_map. cbn. symmetry. erewrite map_ext; [apply map_id|]. now intros [].
  Qed.
  Lemma tpln_one k g : tpl g -> tpln (fun x => [(k, g x)]).
  Proof. intros H. exists [(k, g)]. split; [now repeat constructor|reflexivity]. Qed.
  Lemma tpln_app g h : tpln g -> tpln h -> tpln (fun x => g x ++ h x).
  Proof. intros (l & H & E) (k & K & E'). exists (l ++ k). split; [now apply Forall_app|]. intros x. now rewrite map_app, E, E'. Qed.
  Lemma tpln_out n : tpln n -> tpll (fun x => map named_out (n x)).
  Proof.
    intros (l & H & E). exists (map (fun p x => named_out (fst p, snd p x)) l). split.
    - apply Forall_map. eapply Forall_impl; [|exact H]. intros p Hp. unfold named_out. cbn [fst snd]. apply tpl_app; auto. apply tpl_same.
    - intros x. rewrite E, !map_map. reflexivity.
  Qed.
  Lemma tpln_length n : tpln n -> exists k, forall x, length (n x) = k.
  Proof. intros (l & _ & E). exists (length l). intros x. now rewrite E, map_length. Qed.
  Lemma tpl_arguments p n : tpll p -> tpln n -> tpl (fun x => arguments_out (p x) (n x)).
  Proof.
    intros P N. pose proof (tpl_sep (L ", ") _ (tpll_app _ _ P (tpln_out _ N))) as T. unfold arguments_out.
    destruct P as (lp & _ & Ep), N as (ln & _ & En). destruct lp as [|a lp], ln as [|b ln].
    - eapply tpl_ext; [|apply (tpl_same (txt (L "_")))]. intros x. cbn beta. now rewrite Ep, En.
    - eapply tpl_ext; [|exact T]. intros x. cbn beta. now rewrite Ep, En.
    - eapply tpl_ext; [|exact T]. intros x. cbn beta. now rewrite Ep.
    - eapply tpl_ext; [|exact T]. intros x. cbn beta. now rewrite Ep.
  Qed.
  Lemma tpl_row_lines op d b g : tpll g -> tpl (fun x => row_lines op d b (g x)).
  Proof.
    intros (l & H & E). eapply tpl_ext; [intros x; now rewrite E|]. clear E g.
    assert (R : forall c h, tpl h -> tpl (fun x => row_line op d c (h x))).
    { intros c h Hh. unfold row_line. apply tpl_app; [apply tpl_same|]. apply tpl_app; auto. apply tpl_same. }
    induction H as [|h l H K IH]; [exact (tpl_same onil)|]. destruct l as [|h' l]; [now apply R|].
    change (tpl (fun x => row_line op d true (h x) +++ row_lines op d b (map (fun k => k x) (h' :: l)))). apply tpl_app; auto.
  Qed.
  Definition targs (a : X -> option rel_args) : Prop :=
    (forall x, a x = None) \/ (exists p n, tpll p /\ tpln n /\ forall x, a x = Some (RaInline (p x) (n x))) \/
    (exists p n, tpll p /\ tpln n /\ forall x, a x = Some (RaRows (p x) (n x))).
  Lemma tpl_shown op nm a g em ex ad : tpll g -> tpll (fun x => shown_columns op (mk_header nm (a x) (g x) em ex ad)).
  Proof.
    intros H. unfold shown_columns. cbn [hd_emit hd_cols]. destruct (op_show_emit op); auto. destruct em as [[|m]|]; auto.
    destruct H as (l & H & E). exists (map (fun i => match zget l i with Some h => h | None => fun _ => ofail (FPlan FInvalid "Emitted") end) m). split.
    - apply Forall_map, Forall_forall. intros i _. unfold zget. destruct (i <? 0)%Z; [apply tpl_same|]. destruct (nth_error l _) as [h|] eqn:Eh; [|apply tpl_same].
      apply nth_error_In in Eh. now apply (proj1 (Forall_forall _ _) H).
    - intros x. rewrite map_map. apply map_ext. intros i. rewrite E. unfold zget. destruct (i <? 0)%Z; auto. rewrite nth_error_map. now destruct (nth_error l _).
  Qed.
  Lemma tpl_clause op nm a g em ex ad : tpll g -> tpl (fun x => output_clause op (mk_header nm (a x) (g x) em ex ad)).
  Proof.
    intros H. unfold output_clause. cbn [hd_explicit hd_cols hd_emit]. destruct ex.
    - apply tpl_app; [apply tpl_same|]. apply tpl_app; [now apply tpl_sep|apply tpl_same].
    - apply tpl_app; [apply tpl_same|]. now apply tpl_sep, tpl_shown.
  Qed.
  Lemma tpl_header op d nm a g em ex ad : targs a -> tpll g -> tpl (fun x => header_out op d (mk_header nm (a x) (g x) em ex ad)).
  Proof.
    intros A H. unfold header_out. cbn [hd_name hd_args]. do 3 (apply tpl_app; [apply tpl_same|]). apply tpl_app; [|apply tpl_same].
    destruct A as [E|[(p & n & P & N & E)|(p & n & P & N & E)]].
    - eapply tpl_ext; [intros x; rewrite E; reflexivity|]. apply tpl_sep. now apply (tpl_shown op nm (fun _ => None)).
    - eapply tpl_ext; [intros x; rewrite E; reflexivity|]. apply tpl_app; [now apply tpl_arguments|]. apply tpl_app; [apply tpl_same|].
      eapply tpl_ext; [|exact (tpl_clause op nm (fun _ => None) g em ex ad H)]. reflexivity.
    - destruct (tpln_length n N) as (k & K). eapply tpl_ext; [intros x; rewrite E, K; reflexivity|]. apply tpl_app; [apply tpl_same|].
      apply tpl_app; [now apply tpl_row_lines|]. apply tpl_app; [apply tpl_row_lines; now apply tpln_out|]. apply tpl_app; [apply tpl_same|].
      eapply tpl_ext; [|exact (tpl_clause op nm (fun _ => None) g em ex ad H)]. reflexivity.
  Qed.
  Definition theader (h : X -> header) : Prop :=
    exists nm a g em ex ad, targs a /\ tpll g /\ forall x, h x = mk_header nm (a x) (g x) em ex ad.
  Definition tview (v : X -> view) (op : options) : Prop :=
    (exists n, forall x, emitted (v x) = n) /\ forall d, tpl (fun x => view_out op d (v x)).
  Lemma theader_same h : theader (fun _ => h).
  Proof.
    destruct h as [nm a g em ex ad]. exists nm, (fun _ => a), (fun _ => g), em, ex, ad. split; [|split; [apply tpll_same|reflexivity]].
    destruct a as [[p n|p n]|]; [right; left|right; right|now left]; exists (fun _ => p), (fun _ => n); repeat split; auto using tpll_same, tpln_same.
  Qed.
  Definition tchild (op : options) (c : X -> option view) : Prop := (exists o, forall x, c x = o) \/ (exists v, tview v op /\ forall x, c x = Some (v x)).
  Lemma tview_of op h cs : theader h -> Forall (tchild op) cs -> tview (fun x => View (h x) (map (fun c => c x) cs)) op.
  Proof.
    intros (nm & a & g & em & ex & ad & A & H & E) C. split.
    - destruct (tpll_length g H) as (n & Hn). exists (match em with Some (EmEmit m) => length m | _ => n end). intros x. cbn [emitted]. unfold hd_emitted.
      rewrite E. cbn [hd_emit hd_cols]. rewrite Hn. reflexivity.
    - intros d. eapply tpl_ext; [intros x; cbn [view_out]; rewrite E; cbn [hd_addenda]; rewrite map_map; reflexivity|].
      apply tpl_app; [now apply tpl_header|]. apply tpl_app; [apply tpl_same|]. apply tpl_fold.
      eexists (map (fun c x => match c x with Some v => txt [c_nl] +++ view_out op (S d) v | None => onil end) cs). split; [|intros x; now rewrite map_map].
      apply Forall_map. eapply Forall_impl; [|exact C]. intros c [(o & Ec)|(v & [_ V] & Ec)].
      + eapply tpl_ext; [intros x; rewrite Ec; reflexivity|apply tpl_same].
      + eapply tpl_ext; [intros x; rewrite Ec; reflexivity|]. apply tpl_app; [apply tpl_same|apply V].
  Qed.
  Lemma tchild_width op c : tchild op c -> exists n, forall x, width (c x) = n.
  Proof.
    intros [(o & E)|(v & [(n & V) _] & E)]; [exists (width o); intros x; now rewrite E|exists n; intros x; rewrite E; apply V].
  Qed.
End Templates.

Section Writing.
  Context `{U : Unicode} `{F : Floats}.
  Variables (reg : registry) (op : options) (e : exts).
  Notation f := (expr_out op e).
  Notation tpl := (tpl f).
  Notation tpll := (tpll f).
  Hint Resolve tpl_same tpl_app tpl_sep tpl_fold tpll_same tpll_cons tpll_app tpll_map tpln_same tpln_one tpln_app : tpl.

  Lemma ectx_tpl C : ectx C -> tpl (fun x => f (C x)).
  Proof.
    induction 1 as [|r l C l' os t H IH|l C y l' z H IH|l y C l' z H IH|l C H IH|b C t H IH]; cbn [expr_out].
    - apply tpl_hole.
    - apply tpl_app; [|apply tpl_same].
      assert (A : tpll (fun x => map (arg_out op e) (l ++ AValue (C x) :: l'))) by (apply tpll_map; exact IH).
      unfold invocation_out. apply tpl_app; [apply tpl_same|]. apply tpl_app; [apply tpl_same|]. apply tpl_app; [now apply tpl_sep|].
      apply tpl_app; [|auto with tpl]. destruct os as [|o os].
      + eapply tpl_ext; [|apply (tpl_same f (txt []))]. intros x. cbn beta. now destruct (map _ _).
      + eapply tpl_ext; [|apply (tpl_same f (txt (L ", ")))]. intros x. cbn beta. rewrite map_app. cbn [map]. destruct l; reflexivity.
    - apply tpl_app; [apply tpl_same|]. apply tpl_app; [|apply tpl_same]. apply tpl_fold.
      apply (tpll_map f (fun c => _) l (fun x => (Some (C x), y)) l'). cbn [fst snd]. auto 8 with tpl.
    - apply tpl_app; [apply tpl_same|]. apply tpl_app; [|apply tpl_same]. apply tpl_fold.
      apply (tpll_map f (fun c => _) l (fun x => (y, Some (C x))) l'). cbn [fst snd]. auto 8 with tpl.
    - auto 8 with tpl.
    - auto 8 with tpl.
  Qed.

  Ltac inline p n := right; left; exists p, n.
  Lemma arg_list l C l' : ectx C -> tpll (fun x => map f (l ++ C x :: l')).
  Proof. intros H. apply tpll_map. now apply ectx_tpl. Qed.
  Lemma grouping_in_place l C l' gs : ectx C -> exists sets, Forall tpll sets /\
    forall x, snd (grouping_values op e (l ++ C x :: l') gs) = map (fun s => s x) sets /\ fst (grouping_values op e (l ++ C x :: l') gs) = l ++ C x :: l'.
  Proof.
    intros H. set (pick := fun i : N => fun x => match nth_error (l ++ C x :: l') (N.to_nat i) with Some y => f y | None => missing FInvalid "AggregateRel" end).
    assert (P : forall i, tpl (pick i)).
    { intros i. unfold pick. generalize (N.to_nat i) as k. induction l as [|y l IH]; intros [|k]; cbn [app nth_error]; auto using tpl_same, ectx_tpl. }
    exists (match gs with [] => [fun _ => []] | _ => map (fun g x => map (fun i => pick i x) (gr_refs g)) gs end). split.
    - destruct gs as [|g gs]; [repeat constructor; apply tpll_same|]. apply Forall_map, Forall_forall. intros k _.
      exists (map pick (gr_refs k)). split; [apply Forall_map, Forall_forall; auto|]. intros x. now rewrite map_map.
    - intros x. unfold grouping_values. rewrite app_length. cbn [length]. rewrite Nat.add_succ_r. cbn [Nat.eqb andb fst snd].
      split; [|reflexivity]. destruct gs as [|g gs]; [reflexivity|]. rewrite map_map. reflexivity.
  Qed.
  Lemma grouping_args_tpl sets : Forall tpll sets -> tpll (fun x => grouping_args (map (fun s => s x) sets)).
  Proof.
    intros H. assert (M : tpll (fun x => map (fun g => match g with [] => txt (L "_") | _ => tuple_out g end) (map (fun s => s x) sets))).
    { exists (map (fun s x => match s x with [] => txt (L "_") | _ => tuple_out (s x) end) sets). split.
      - apply Forall_map. eapply Forall_impl; [|exact H]. intros s Hs. apply tpl_match_list; auto. unfold tuple_out. auto with tpl.
      - intros x. rewrite !map_map. apply map_ext. intros s. now destruct (s x). }
    destruct H as [|s sets Hs H]; [exact M|]. destruct H as [|s' sets Hs' H]; [|eapply tpll_ext; [|exact M]; intros x; cbn [map grouping_args]; now destruct (s x)].
    destruct Hs as ([|h l] & Hl & E).
    - eapply tpll_ext; [intros x; cbn [map grouping_args]; rewrite E; reflexivity|]. exact (tpll_same f [txt (L "_")]).
    - eapply tpll_ext; [intros x; cbn [map grouping_args]; rewrite E; reflexivity|]. exists (h :: l). split; auto.
  Qed.
  Lemma measures_app a b : measure_outs op e (a ++ b) = measure_outs op e a ++ measure_outs op e b.
  Proof. induction a as [|m a IH]; cbn [app measure_outs]; auto. destruct (ms_fn m); cbn [app]; now rewrite IH. Qed.

  Lemma targs_inline p n : tpll p -> tpln f n -> targs f (fun x => Some (RaInline (p x) (n x))).
  Proof. intros P N. right. left. exists p, n. auto. Qed.
  Lemma theader_of nm a g em ex ad : targs f a -> tpll g -> theader f (fun x => mk_header nm (a x) (g x) em ex ad).
  Proof. intros A G. exists nm, a, g, em, ex, ad. auto. Qed.
  Lemma width_of R : tview f (fun x => view_of reg op e (R x)) op -> exists n, forall x, emitted (view_of reg op e (R x)) = n.
  Proof. intros [H _]. exact H. Qed.
  Lemma tview_ext v w : (forall x, w x = v x) -> tview f v op -> tview f w op.
  Proof.
    intros E [(n & H) T]. split; [exists n; intros x; now rewrite E|]. intros d. eapply tpl_ext; [|apply T]. intros x. cbn beta. now rewrite E.
  Qed.
  Lemma same_child o : tchild f op (fun _ => o). Proof. left. exists o. reflexivity. Qed.
  Lemma one_child v : tview f v op -> tchild f op (fun x => Some (v x)). Proof. intros H. right. exists v. auto. Qed.
  Lemma map_view l (R : pexpr -> prel) l' x : map Some (map (view_of reg op e) (l ++ R x :: l')) =
    map (fun c => c x) (map (fun r _ => Some (view_of reg op e r)) l ++ (fun x => Some (view_of reg op e (R x))) :: map (fun r _ => Some (view_of reg op e r)) l').
  Proof. rewrite !map_app. cbn [map]. rewrite !map_map. reflexivity. Qed.

  Ltac kids := repeat (apply Forall_cons; [first [apply same_child|apply one_child; assumption]|]); try apply Forall_nil.

  Lemma rctx_tview R : rctx R -> tview f (fun x => view_of reg op e (R x)) op.
  Proof.
    induction 1 as [c s C t a b H|c s g l r C r' l' a b H|c i C a H|c i l C l' a H|c i l C l' gs ms a H|c i xs gs l r k C k' os t v p g l' a H
      |c i xs gs l g C l' a H|c i l C k l' a H|c i C o a H|c i n C a H|c i j C p t a H|c i j y C t a H
      |c R y a H IH|c R l a H IH|c R l gs ms a H IH|c R l a H IH|c R n o a H IH|c R j y p t a H IH|c i R y p t a H IH|c l R l' o a H IH
      |c R j a H IH|c i R a H IH|c d R H IH|c d l R l' H IH]; cbn [view_of].
    - apply (tview_of f op _ []); [|constructor]. unfold read_header, read_columns. cbn [rd_type rd_common rd_filter rd_adv rd_schema]. pose proof (ectx_tpl C H) as T.
      destruct t as [ns|rows|d| |]; try apply (theader_same f (mk_header _ _ _ _ _ _)).
      apply theader_of; [|apply tpll_same].
      assert (N : tpln f (fun x => [(L "filter", f (C x))])) by auto with tpl.
      destruct (negb _ && _); [right; right|right; left].
      + exists (fun _ => match map (fun row => tuple_out (map f row)) rows with [] => [txt (L "_")] | t => t end), (fun x => [(L "filter", f (C x))]).
        split; [apply tpll_same|]. split; [exact N|]. intros x. now destruct (map _ rows).
      + exists (fun _ => match map (fun row => tuple_out (map f row)) rows with [] => [txt (L "_")] | t => t end), (fun x => [(L "filter", f (C x))]).
        split; [apply tpll_same|]. split; [exact N|]. intros x. now destruct (map _ rows).
    - apply (tview_of f op _ []); [|constructor]. unfold read_header, read_columns. cbn [rd_type rd_common rd_filter rd_adv rd_schema].
      assert (T : tpll (fun x => map (fun row => tuple_out (map f row)) (l ++ (r ++ C x :: r') :: l'))).
      { apply tpll_map. unfold tuple_out. apply tpl_app; [apply tpl_same|]. apply tpl_app; [|apply tpl_same]. apply tpl_sep. now apply arg_list. }
      apply theader_of; [|apply tpll_same].
      set (n := match g with Some y => [(L "filter", f y)] | None => [] end).
      assert (E : forall x, match map (fun row => tuple_out (map f row)) (l ++ (r ++ C x :: r') :: l'), n with
        | [], _ :: _ => [txt (L "_")] | _, _ => map (fun row => tuple_out (map f row)) (l ++ (r ++ C x :: r') :: l') end =
        map (fun row => tuple_out (map f row)) (l ++ (r ++ C x :: r') :: l')) by (intros x; now destruct l).
      assert (E' : forall x, length (l ++ (r ++ C x :: r') :: l') = length l + S (length l')) by (intros x; now rewrite app_length).
      destruct (negb (length l + S (length l') =? 0) && (op_vt_threshold op <=? N.of_nat (length l + S (length l')))%N) eqn:B; [right; right|right; left].
      + eexists (fun x => _), (fun _ => n). split; [exact T|]. split; [apply tpln_same|]. intros x. cbn beta. now rewrite E', B, E.
      + eexists (fun x => _), (fun _ => n). split; [exact T|]. split; [apply tpln_same|]. intros x. cbn beta. now rewrite E', B, E.
    - refine (tview_of f op (fun x => filter_header reg op e c _ (Some (C x)) a) [fun _ => _] _ _); [|kids].
      apply theader_of; [|apply tpll_same]. apply (targs_inline (fun x => [f (C x)]) (fun _ => [])); auto using ectx_tpl with tpl.
    - refine (tview_of f op (fun x => project_header reg op e c _ (l ++ C x :: l') a) [fun _ => _] _ _); [|kids].
      apply theader_of; [now left|]. apply tpll_app; [apply tpll_same|]. now apply arg_list.
    - refine (tview_of f op (fun x => aggregate_header reg op e c (l ++ C x :: l') gs ms a) [fun _ => _] _ _); [|kids].
      destruct (grouping_in_place l C l' gs H) as (sets & Hs & E). unfold aggregate_header.
      exists (txt (L "Aggregate")), (fun x => Some (RaInline (grouping_args (map (fun s => s x) sets)) [])), (fun x => map f (l ++ C x :: l') ++ measure_outs op e ms), (get_emit c), false, (adv_lines reg op e a).
      split; [|split].
      + apply (targs_inline (fun x => grouping_args (map (fun s => s x) sets)) (fun _ => [])); [now apply grouping_args_tpl|apply tpln_same].
      + apply tpll_app; [now apply arg_list|apply tpll_same].
      + intros x. destruct (E x) as [E1 E2]. destruct (grouping_values op e (l ++ C x :: l') gs) as [xs ss]. cbn [fst snd] in E1, E2. now subst.
    - refine (tview_of f op (fun x => aggregate_header reg op e c xs gs (l ++ mk_measure (Some (mk_aggfn r (k ++ AValue (C x) :: k') os t v p)) g :: l') a) [fun _ => _] _ _); [|kids].
      unfold aggregate_header. destruct (grouping_values op e xs gs) as [ys sets]. apply theader_of; [apply targs_inline; auto with tpl|].
      apply tpll_app; [apply tpll_same|]. eapply tpll_ext; [intros x; apply measures_app|]. apply tpll_app; [apply tpll_same|]. cbn [measure_outs ms_fn]. apply tpll_cons; [|apply tpll_same].
      unfold aggfn_out. cbn [af_ref af_args af_opts af_out]. exact (ectx_tpl _ (ec_arg r k C k' os t H)).
    - refine (tview_of f op (fun x => aggregate_header reg op e c xs gs (l ++ mk_measure g (Some (C x)) :: l') a) [fun _ => _] _ _); [|kids].
      unfold aggregate_header. destruct (grouping_values op e xs gs) as [ys sets]. apply theader_of; [apply targs_inline; auto with tpl|].
      apply tpll_app; [apply tpll_same|]. eapply tpll_ext; [intros x; apply measures_app|]. apply tpll_app; [apply tpll_same|]. cbn [measure_outs ms_fn]. destruct g; apply tpll_same.
    - refine (tview_of f op (fun x => sort_header reg op e c _ (l ++ mk_sort_field (Some (C x)) k :: l') a) [fun _ => _] _ _); [|kids].
      apply theader_of; [|apply tpll_same]. apply (targs_inline (fun x => map (sort_field_out op e) (l ++ mk_sort_field (Some (C x)) k :: l')) (fun _ => [])); [|apply tpln_same].
      apply tpll_map. unfold sort_field_out, tuple_out. cbn [sf_expr sf_kind opt_expr_out]. auto 8 using ectx_tpl with tpl.
    - refine (tview_of f op (fun x => fetch_header reg op e c _ (Some (FmExpr (C x))) o a) [fun _ => _] _ _); [|kids].
      apply theader_of; [|apply tpll_same]. apply (targs_inline (fun _ => []) (fun x => [(L "limit", f (C x))] ++ fetch_arg op e "offset" o)); auto 8 using ectx_tpl with tpl.
    - refine (tview_of f op (fun x => fetch_header reg op e c _ n (Some (FmExpr (C x))) a) [fun _ => _] _ _); [|kids].
      apply theader_of; [|apply tpll_same]. apply (targs_inline (fun _ => []) (fun x => fetch_arg op e "limit" n ++ [(L "offset", f (C x))])); auto 8 using ectx_tpl with tpl.
    - refine (tview_of f op (fun x => join_header reg op e c _ _ (Some (C x)) p t a) [fun _ => _; fun _ => _] _ _); [|kids].
      apply theader_of; [|apply tpll_same]. apply (targs_inline (fun x => [_; f (C x)]) (fun _ => _)); auto 8 using ectx_tpl with tpl.
    - refine (tview_of f op (fun x => join_header reg op e c _ _ y (Some (C x)) t a) [fun _ => _; fun _ => _] _ _); [|kids].
      apply theader_of; [|apply tpll_same]. apply (targs_inline (fun _ => _) (fun x => [(L "post_filter", f (C x))])); auto 8 using ectx_tpl with tpl.
    - destruct (width_of R IH) as (n & W). eapply tview_ext; [intros x; cbn [width]; rewrite W; reflexivity|].
      refine (tview_of f op (fun _ => _) [fun x => Some (view_of reg op e (R x))] (theader_same _ _) _). kids.
    - destruct (width_of R IH) as (n & W). eapply tview_ext; [intros x; cbn [width]; rewrite W; reflexivity|].
      refine (tview_of f op (fun _ => _) [fun x => Some (view_of reg op e (R x))] (theader_same _ _) _). kids.
    - refine (tview_of f op (fun _ => _) [fun x => Some (view_of reg op e (R x))] (theader_same _ _) _). kids.
    - destruct (width_of R IH) as (n & W). eapply tview_ext; [intros x; cbn [width]; rewrite W; reflexivity|].
      refine (tview_of f op (fun _ => _) [fun x => Some (view_of reg op e (R x))] (theader_same _ _) _). kids.
    - destruct (width_of R IH) as (n' & W). eapply tview_ext; [intros x; cbn [width]; rewrite W; reflexivity|].
      refine (tview_of f op (fun _ => _) [fun x => Some (view_of reg op e (R x))] (theader_same _ _) _). kids.
    - destruct (width_of R IH) as (n & W). eapply tview_ext; [intros x; cbn [width]; rewrite W; reflexivity|].
      refine (tview_of f op (fun _ => _) [fun x => Some (view_of reg op e (R x)); fun _ => _] (theader_same _ _) _). kids.
    - destruct (width_of R IH) as (n & W). eapply tview_ext; [intros x; cbn [width]; rewrite W; reflexivity|].
      refine (tview_of f op (fun _ => _) [fun _ => _; fun x => Some (view_of reg op e (R x))] (theader_same _ _) _). kids.
    - destruct (width_of R IH) as (n & W). eapply tview_ext; [intros x; rewrite map_view, map_map, map_app; cbn [map]; rewrite W; reflexivity|].
      refine (tview_of f op (fun _ => _) _ (theader_same _ _) _). apply Forall_app. split; [apply Forall_map, Forall_forall; intros; apply same_child|].
      constructor; [now apply one_child|]. apply Forall_map, Forall_forall; intros; apply same_child.
    - destruct (width_of R IH) as (n & W). eapply tview_ext; [intros x; cbn [width]; rewrite W; reflexivity|].
      refine (tview_of f op (fun _ => _) [fun x => Some (view_of reg op e (R x)); fun _ => _] (theader_same _ _) _). kids.
    - destruct (width_of R IH) as (n & W). eapply tview_ext; [intros x; cbn [width]; rewrite W; reflexivity|].
      refine (tview_of f op (fun _ => _) [fun _ => _; fun x => Some (view_of reg op e (R x))] (theader_same _ _) _). kids.
    - destruct (width_of R IH) as (n & W). eapply tview_ext; [intros x; rewrite W; reflexivity|].
      refine (tview_of f op (fun _ => _) [fun x => Some (view_of reg op e (R x))] (theader_same _ _) _). kids.
    - destruct (width_of R IH) as (n & W). eapply tview_ext; [intros x; rewrite map_view, map_map, map_app; cbn [map]; rewrite W; reflexivity|].
      refine (tview_of f op (fun _ => _) _ (theader_same _ _) _). apply Forall_app. split; [apply Forall_map, Forall_forall; intros; apply same_child|].
      constructor; [now apply one_child|]. apply Forall_map, Forall_forall; intros; apply same_child.
  Qed.

  Lemma pctx_tpl P : pctx P -> tpl (fun x => relations_out op reg e (P x)).
  Proof.
    intros H. unfold relations_out. apply tpl_app; [apply tpl_same|]. apply tpl_sep. destruct H as [l R l' H|l ns R l' H]; apply rctx_tview in H as [_ H].
    - apply tpll_map. cbn [plan_rel_out]. apply H.
    - apply tpll_map. cbn [plan_rel_out]. apply tpl_app; [apply tpl_same|]. apply tpl_app; [apply tpl_same|]. apply H.
  Qed.
End Writing.
