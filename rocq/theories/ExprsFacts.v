(** Facts about expressions. *)
From Coq Require Import String List NArith ZArith Bool Lia.
From Verif Require Import Base BaseFacts Peg PegFacts Names SpecNames NamesFacts Props_Names SimpleExt Out
  Anchors SimpleExtFacts SpecExt AnchorsFacts FromExtFacts Props_Ext Types SpecTypes TypesFacts ExtReadFacts Lines Calendar Literals
  SpecLiterals LiteralsFacts Exprs SpecExprs.
Import ListNotations.
Open Scope peg_scope.

(** ** The recursion of the grammar is well founded *)

Lemma strict_litval : strict g_litval.
Proof. unfold g_litval. peg_shrink. Qed.
#[global] Hint Resolve strict_litval : peg.
Lemma strict_literal : strict g_literal.
Proof. unfold g_literal. peg_shrink. Qed.
Lemma strict_reference : strict g_reference.
Proof. unfold g_reference. peg_shrink. Qed.
#[global] Hint Resolve strict_literal strict_reference : peg.
Lemma strict_anchor' : strict g_anchor. Proof. unfold g_anchor. peg_shrink. Qed.
Lemma strict_urn_anchor' : strict g_urn_anchor. Proof. unfold g_urn_anchor. peg_shrink. Qed.
#[global] Hint Resolve strict_anchor' strict_urn_anchor' : peg.
Lemma strict_short_arg_type : strict g_short_arg_type.
Proof. unfold g_short_arg_type, g_short_arg_name. peg_shrink. Qed.
#[global] Hint Resolve strict_short_arg_type : peg.
Lemma strict_argument_signature : strict g_argument_signature.
Proof. unfold g_argument_signature. peg_shrink. Qed.
#[global] Hint Resolve strict_argument_signature : peg.
Lemma strict_function_signature : strict g_function_signature.
Proof. unfold g_function_signature, g_signature_suffix. peg_shrink. Qed.
#[global] Hint Resolve strict_function_signature : peg.
Lemma strict_function_reference : strict g_function_reference.
Proof. unfold g_function_reference. peg_shrink. Qed.
#[global] Hint Resolve strict_function_reference : peg.

Lemma strict_argument_list ex : shrinks ex -> strict (g_argument_list ex).
Proof. intros. unfold g_argument_list. peg_shrink. Qed.
Lemma strict_function_call ex : shrinks ex -> strict (g_function_call ex).
Proof. intros H. pose proof (strict_argument_list ex H). unfold g_function_call. peg_shrink. Qed.
Lemma shrinks_if_clause ex : shrinks ex -> shrinks (g_if_clause ex).
Proof. intros H. unfold g_if_clause. peg_shrink. Qed.
Lemma strict_if_then ex : shrinks ex -> strict (g_if_then ex).
Proof. intros H. pose proof (shrinks_if_clause ex H). unfold g_if_then. peg_shrink. Qed.
Lemma strict_cast ex : shrinks ex -> strict (g_cast ex).
Proof. intros H. unfold g_cast, g_behavior. peg_shrink. Qed.
Lemma expr_F_strict ex : shrinks ex -> strict (expr_F ex).
Proof.
  intros H. pose proof (strict_function_call ex H). pose proof (strict_if_then ex H). pose proof (strict_cast ex H).
  unfold expr_F. peg_shrink.
Qed.

Lemma agree_argument_list n p q : shrinks p -> shrinks q -> agree n p q ->
  agree (S n) (g_argument_list p) (g_argument_list q).
Proof. intros. unfold g_argument_list. apply agree_then_strict; [peg_shrink|peg_agree|]. peg_agree. Qed.
Lemma agree_function_call n p q : shrinks p -> shrinks q -> agree n p q ->
  agree (S n) (g_function_call p) (g_function_call q).
Proof.
  intros Hp Hq Ha. pose proof (agree_argument_list n p q Hp Hq Ha) as A.
  assert (agree n (g_argument_list p) (g_argument_list q)) by (eapply agree_le; [|exact A]; lia).
  pose proof (strict_argument_list p Hp). unfold g_function_call. apply agree_bind_strict; [peg_shrink|peg_agree|].
  intros f. peg_agree.
Qed.
Lemma agree_if_then n p q : shrinks p -> shrinks q -> agree n p q -> agree (S n) (g_if_then p) (g_if_then q).
Proof.
  intros Hp Hq Ha. pose proof (shrinks_if_clause p Hp).
  assert (agree n (g_if_clause p) (g_if_clause q)) by (unfold g_if_clause; peg_agree).
  unfold g_if_then. apply agree_then_strict; [peg_shrink|peg_agree|]. peg_agree.
Qed.
Lemma agree_cast n p q : shrinks p -> shrinks q -> agree n p q -> agree (S n) (g_cast p) (g_cast q).
Proof. intros Hp Hq Ha. unfold g_cast. apply agree_then_strict; [peg_shrink|peg_agree|]. unfold g_behavior. peg_agree. Qed.
Lemma expr_F_agree n p q : shrinks p -> shrinks q -> agree n p q -> agree (S n) (expr_F p) (expr_F q).
Proof.
  intros Hp Hq Ha. pose proof (agree_function_call n p q Hp Hq Ha). pose proof (agree_if_then n p q Hp Hq Ha).
  pose proof (agree_cast n p q Hp Hq Ha). unfold expr_F. peg_agree.
Qed.
Lemma expr_F_agree0 p q : shrinks p -> shrinks q -> agree 0 (expr_F p) (expr_F q).
Proof. intros Hp Hq [|? ?] Hs; [reflexivity|cbn in Hs; lia]. Qed.

Lemma g_expr_eq s : g_expr s = expr_F g_expr s.
Proof.
  apply prun_eq; [intros; apply strict_shrinks; now apply expr_F_strict|apply expr_F_agree|apply expr_F_agree0].
Qed.
Lemma strict_expr : strict g_expr.
Proof.
  intros s a r H. rewrite g_expr_eq in H. eapply expr_F_strict; [|exact H].
  apply prun_shrinks. intros. apply strict_shrinks. now apply expr_F_strict.
Qed.
#[global] Hint Resolve strict_expr : peg.

(** ** What a grammar consumes *)

Definition consumes {A} (f : N -> bool) (p : peg A) : Prop :=
  forall s a r, p s = Some (a, r) -> exists w, s = w ++ r /\ forallb f w = true.

Section Consumes.
  Variable f : N -> bool.
  Lemma cons_ret {A} (a : A) : consumes f (pret a).
  Proof. intros s x r [= <- <-]. now exists []. Qed.
  Lemma cons_bind {A B} (p : peg A) (g : A -> peg B) :
    consumes f p -> (forall a, consumes f (g a)) -> consumes f (pbind p g).
  Proof.
    intros Hp Hg s b r H. unfold pbind in H. destruct (p s) as [[a r']|] eqn:E; [|discriminate].
    apply Hp in E as (w & -> & Hw). apply Hg in H as (w' & -> & Hw'). exists (w ++ w').
    now rewrite app_assoc, forallb_app, Hw, Hw'.
  Qed.
  Lemma cons_then {A B} (p : peg A) (q : peg B) : consumes f p -> consumes f q -> consumes f (pthen p q).
  Proof. intros. now apply cons_bind. Qed.
  Lemma cons_map {A B} (g : A -> B) (p : peg A) : consumes f p -> consumes f (pmap g p).
  Proof.
    intros Hp s b r H. unfold pmap in H. destruct (p s) as [[a r']|] eqn:E; [|discriminate].
    injection H as _ <-. eauto.
  Qed.
  Lemma cons_alt {A} (p q : peg A) : consumes f p -> consumes f q -> consumes f (palt p q).
  Proof. intros Hp Hq s b r H. unfold palt in H. destruct (p s) as [[a r']|] eqn:E; [injection H as <- <-|]; eauto. Qed.
  Lemma cons_opt {A} (p : peg A) : consumes f p -> consumes f (popt p).
  Proof.
    intros Hp s b r H. unfold popt in H. destruct (p s) as [[a r']|] eqn:E; injection H as _ <-; eauto. now exists [].
  Qed.
  Lemma cons_tok t : forallb f t = true -> consumes f (ptok t).
  Proof. intros Ht s u r H. apply ptok_spec in H as ->. eauto. Qed.
  Lemma cons_char g : (forall c, g c = true -> f c = true) -> consumes f (pchar g).
  Proof.
    intros Hg s a r H. destruct s as [|c s]; [discriminate|]. cbn in H. destruct (g c) eqn:E; [|discriminate].
    injection H as <- <-. exists [c]. cbn. now rewrite Hg.
  Qed.
  Lemma forallb_impl (g : N -> bool) w : (forall c, g c = true -> f c = true) -> forallb g w = true -> forallb f w = true.
  Proof. intros Hg H. apply forallb_forall. intros c Hc. apply Hg. rewrite forallb_forall in H. auto. Qed.
  Lemma cons_while g : (forall c, g c = true -> f c = true) -> consumes f (pwhile g).
  Proof.
    intros Hg s a r H. unfold pwhile in H. injection H as H. apply span_spec in H as (-> & Ha & _).
    exists a. split; auto. eapply forallb_impl; eauto.
  Qed.
  Lemma cons_while1 g : (forall c, g c = true -> f c = true) -> consumes f (pwhile1 g).
  Proof.
    intros Hg s a r H. unfold pwhile1 in H. destruct (span g s) as [x y] eqn:E. apply span_spec in E as (-> & Ha & _).
    destruct x as [|c x]; [discriminate|]. injection H as <- <-. exists (c :: x). split; auto. eapply forallb_impl; eauto.
  Qed.
  Lemma cons_star {A} (p : peg A) : consumes f p -> consumes f (pstar p).
  Proof.
    intros Hp. assert (K : forall n s l r, pstar_n n p s = (l, r) -> exists w, s = w ++ r /\ forallb f w = true).
    { intros n; induction n as [|n IH]; intros s l r; cbn.
      - intros [= _ <-]. now exists [].
      - destruct (p s) as [[a r']|] eqn:E; [|intros [= _ <-]; now exists []].
        destruct (pstar_n n p r') as [l' r''] eqn:E'. intros [= _ <-]. apply Hp in E as (w & -> & Hw).
        apply IH in E' as (w' & -> & Hw'). exists (w ++ w'). now rewrite app_assoc, forallb_app, Hw, Hw'. }
    intros s l r H. unfold pstar in H. injection H as H. eauto.
  Qed.
End Consumes.

Ltac peg_consumes :=
  intros;
  lazymatch goal with
  | |- consumes _ (pbind _ _) => apply cons_bind; peg_consumes
  | |- consumes _ (pthen _ _) => apply cons_then; peg_consumes
  | |- consumes _ (pmap _ _) => apply cons_map; peg_consumes
  | |- consumes _ (palt _ _) => apply cons_alt; peg_consumes
  | |- consumes _ (popt _) => apply cons_opt; peg_consumes
  | |- consumes _ (pstar _) => apply cons_star; peg_consumes
  | |- consumes _ (pret _) => apply cons_ret
  | |- consumes _ (ptok _) => apply cons_tok; reflexivity
  | |- consumes _ (pchar _) => apply cons_char
  | |- consumes _ (pwhile _) => apply cons_while
  | |- consumes _ (pwhile1 _) => apply cons_while1
  | |- _ => idtac
  end.

Lemma function_reference_chars : consumes fr_char (pthen (pbind g_function_reference (fun f => sp ;;; pret f)) (pret tt)).
Proof.
  unfold g_function_reference, g_function_signature, g_signature_suffix, g_argument_signature, g_short_arg_type,
    g_short_arg_name, g_anchor, g_urn_anchor, g_integer, g_identifier, sp. peg_consumes.
  all: unfold fr_char; chars.
Qed.

Lemma span_fr_split w s : forallb fr_char w = true -> no_call (w ++ s) = no_call s.
Proof.
  intros Hw. unfold no_call. induction w as [|c w IH]; auto. cbn [forallb] in Hw; bool_hyps.
  cbn [app span]. rewrite H. destruct (span fr_char (w ++ s)) as [x y] eqn:E. cbn [snd] in *. auto.
Qed.

(** No call where no parenthesis can follow. *)
Lemma function_call_none ex s : no_call s = true -> g_function_call ex s = None.
Proof.
  intros H. unfold g_function_call, pbind at 1. destruct (g_function_reference s) as [[f r]|] eqn:E; [|reflexivity].
  unfold pthen at 1, pbind at 1. destruct (sp r) as [[u r']|] eqn:Es; [|reflexivity].
  assert (G : pthen (pbind g_function_reference (fun f => sp ;;; pret f)) (pret tt) s = Some (tt, r')).
  { unfold pthen, pbind. rewrite E, Es. reflexivity. }
  apply function_reference_chars in G as (w & -> & Hw). rewrite span_fr_split in H by auto.
  apply pbind_none. unfold g_argument_list. apply pthen_none, (ptok_none_hd [] 40%N).
  destruct r' as [|c r']; auto. unfold no_call in H. cbn [span] in H. cbn [hd_not].
  destruct (fr_char c) eqn:Ec.
  - destruct (N.eqb_spec 40 c) as [<-|]; [discriminate Ec|reflexivity].
  - cbn [snd hd_not] in H. now rewrite N.eqb_sym.
Qed.

Lemma no_call_app t rest : contains_char 40 t = false -> no_call rest = true -> no_call (t ++ rest) = true.
Proof.
  induction t as [|c t IH]; cbn [contains_char app]; auto. intros H Hr. apply orb_false_iff in H as [Hc Ht].
  unfold no_call in *. cbn [span]. destruct (fr_char c) eqn:Ec.
  - specialize (IH Ht Hr). destruct (span fr_char (t ++ rest)) as [x y]. exact IH.
  - cbn [snd hd_not]. now rewrite Hc.
Qed.

(** ** Types contain no parenthesis *)

Lemma idchars_no_paren s : forallb is_idchar s = true -> contains_char 40 s = false.
Proof. intros H. eapply contains_char_class; [exact H|reflexivity]. Qed.
Lemma digits_no_paren s : forallb is_digit s = true -> contains_char 40 s = false.
Proof. intros H. eapply contains_char_class; [exact H|reflexivity]. Qed.
Lemma show_Z_no_paren z : contains_char 40 (show_Z z) = false.
Proof.
  unfold show_Z. destruct (z <? 0)%Z; [cbn [contains_char]; change ((45 =? 40)%N) with false; cbn [orb]|];
    apply digits_no_paren, show_N_digits.
Qed.
Lemma null_no_paren n : contains_char 40 (null_text n) = false.
Proof. now destruct n. Qed.
Lemma anchor_no_paren a : contains_char 40 (anchor_text a) = false.
Proof.
  destruct a as [a|]; [|reflexivity]. unfold anchor_text. rewrite contains_char_app.
  rewrite (digits_no_paren (show_N a)) by apply show_N_digits. reflexivity.
Qed.
Lemma join_no_paren l : Forall (fun s => contains_char 40 s = false) l -> contains_char 40 (join (L ", ") l) = false.
Proof.
  induction 1 as [|x l Hx Hl IH]; [reflexivity|]. destruct l as [|y l]; [exact Hx|].
  change (contains_char 40 (x ++ L ", " ++ join (L ", ") (y :: l)) = false). rewrite !contains_char_app, Hx, IH. reflexivity.
Qed.
Lemma params_no_paren l : Forall (fun s => contains_char 40 s = false) l -> contains_char 40 (params_text l) = false.
Proof.
  intros H. destruct l as [|x l]; [reflexivity|]. unfold params_text.
  rewrite !contains_char_app, join_no_paren by auto. reflexivity.
Qed.

Lemma type_no_paren op e t : wf_exts e -> type_ok e t = true -> contains_char 40 (ttext op e t) = false.
Proof.
  intros W. revert t.
  apply (ptype_ind2
           (fun t => type_ok e t = true -> contains_char 40 (ttext op e t) = false)
           (fun p => match p with
                     | PType t => type_ok e t = true -> contains_char 40 (ttext op e t) = false
                     | _ => True end)); try (intros; discriminate); try (intros; exact I).
  all: unfold ttext in *; cbn [type_ok].
  - intros k n v H. apply N.eqb_eq in H as ->. cbn [type_out]. rewrite textify_type_text.
    rewrite !contains_char_app, null_no_paren. cbn [map params_text]. destruct k; reflexivity.
  - intros k p n v H. bool_hyps. apply N.eqb_eq in H0 as ->. cbn [type_out]. rewrite textify_type_text.
    rewrite !contains_char_app, null_no_paren, params_no_paren; [destruct k; reflexivity|].
    repeat constructor. apply show_Z_no_paren.
  - intros [p|] n v H; [|discriminate]. bool_hyps. apply N.eqb_eq in H0 as ->. cbn [type_out]. rewrite textify_type_text.
    rewrite !contains_char_app, null_no_paren, params_no_paren; [reflexivity|].
    repeat constructor. apply show_Z_no_paren.
  - intros [t|] n v IH H; [|discriminate]. apply andb_true_iff in H as [H0 H]. apply N.eqb_eq in H as ->.
    cbn [type_out]. rewrite textify_type_text. rewrite !contains_char_app, null_no_paren, params_no_paren; [reflexivity|].
    repeat constructor. cbn [map]. now apply IH.
  - intros r ps n v IH H. destruct (decl_get e KType r) as [[u nm]|] eqn:Ed; [|discriminate].
    bool_hyps. apply N.eqb_eq in H0 as ->. destruct (type_name_ok_ident nm) as (_ & Hid & _); [auto|].
    cbn [type_out]. rewrite (user_out_text op e r u nm n _ W Ed) by now apply ident_no_colon.
    rewrite !contains_char_app, null_no_paren, anchor_no_paren, (idchars_no_paren nm Hid), params_no_paren; [reflexivity|].
    rewrite map_map. rewrite Forall_map. apply Forall_forall. intros p Hp.
    rewrite Forall_forall in IH. specialize (IH p Hp).
    match goal with Hf : forallb _ ps = true |- _ => rewrite forallb_forall in Hf; specialize (Hf p Hp) end.
    destruct p; try discriminate. cbn [param_out]. auto.
  - intros t IH H. auto.
Qed.

(** ** Induction on expressions *)

Definition opt_all (P : pexpr -> Prop) (o : option pexpr) : Prop :=
  match o with Some z => P z | None => True end.

Section Ind.
  Variables (P : pexpr -> Prop) (Q : parg -> Prop).
  Hypothesis HL : forall l, P (ELit l).
  Hypothesis HS : forall f, P (ESel f).
  Hypothesis HF : forall r args opts t, Forall Q args -> P (EFunc r args opts t).
  Hypothesis HI : forall ifs els,
    Forall (fun c => opt_all P (fst c) /\ opt_all P (snd c)) ifs -> opt_all P els -> P (EIf ifs els).
  Hypothesis HC : forall b i t, opt_all P i -> P (ECast b i t).
  Hypothesis HO : forall v, P (EOther v).
  Hypothesis HN : P ENone.
  Hypothesis QT : forall t, Q (AType t).
  Hypothesis QV : forall x, P x -> Q (AValue x).
  Hypothesis QE : forall s, Q (AEnum s).
  Hypothesis QN : Q ANone.

  Fixpoint pexpr_ind2 (x : pexpr) : P x :=
    match x with
    | ELit l => HL l
    | ESel f => HS f
    | EFunc r args opts t =>
        HF r args opts t ((fix go l : Forall Q l :=
          match l with [] => Forall_nil _ | a :: r => Forall_cons _ (parg_ind2 a) (go r) end) args)
    | EIf ifs els =>
        HI ifs els
          ((fix go l : Forall (fun c => opt_all P (fst c) /\ opt_all P (snd c)) l :=
              match l with
              | [] => Forall_nil _
              | c :: r => Forall_cons c
                  (match c as c return opt_all P (fst c) /\ opt_all P (snd c) with (a, b) => conj
                     (match a as o return opt_all P o with Some z => pexpr_ind2 z | None => I end)
                     (match b as o return opt_all P o with Some z => pexpr_ind2 z | None => I end)
                   end) (go r)
              end) ifs)
          (match els as o return opt_all P o with Some z => pexpr_ind2 z | None => I end)
    | ECast b i t =>
        HC b i t (match i as o return opt_all P o with Some z => pexpr_ind2 z | None => I end)
    | EOther v => HO v
    | ENone => HN
    end
  with parg_ind2 (a : parg) : Q a :=
    match a with
    | AType t => QT t
    | AValue x => QV x (pexpr_ind2 x)
    | AEnum s => QE s
    | ANone => QN
    end.
End Ind.

Lemma o_text_app a b : o_text (a +++ b) = o_text a ++ o_text b.
Proof. reflexivity. Qed.

(** ** Heads *)

Definition expr_head (c : N) : bool :=
  is_alpha c || is_digit c || (c =? 45)%N || (c =? c_sq)%N || (c =? 36)%N || (c =? 40)%N.

Lemma expr_none s : hd_not expr_head s = true -> g_expr s = None.
Proof.
  intros H. rewrite g_expr_eq. unfold expr_F.
  assert (T : forall c t, expr_head c = true -> ptok (c :: t) s = None).
  { intros c t Hc. apply ptok_none_hd. destruct s as [|x s]; auto. cbn [hd_not] in *.
    destruct (N.eqb_spec c x); [subst; rewrite Hc in H; discriminate|reflexivity]. }
  apply palt_r; [apply pthen_none, T; reflexivity|].
  apply palt_r; [apply pthen_none, T; reflexivity|].
  assert (Hid : hd_not is_alpha s = true).
  { eapply hd_not_weaken; [|exact H]. unfold expr_head. intros c; cbv beta; lia. }
  apply palt_r; [apply pmap_none, pbind_none; unfold g_function_reference, g_function_signature; do 2 apply pbind_none; now apply g_identifier_none|].
  apply palt_r; [apply pmap_none, pthen_none, T; reflexivity|].
  apply pmap_none. unfold g_literal. apply pbind_none. unfold g_litval.
  assert (Hm : popt (ptok (L "-")) s = Some (None, s)) by (apply popt_none, T; reflexivity).
  assert (Hd : pwhile1 is_digit s = None).
  { apply pwhile1_none. eapply hd_not_weaken; [|exact H]. unfold expr_head. intros c; cbv beta; lia. }
  apply palt_r; [apply pmap_none; unfold g_float; eapply pbind_some; [exact Hm|now apply pbind_none]|].
  apply palt_r; [apply pmap_none; unfold g_integer; eapply pbind_some; [exact Hm|now apply pbind_none]|].
  apply palt_r.
  { apply pmap_none. unfold g_boolean. cbn [ptoks]. do 2 (apply palt_r; [apply pmap_none, T; reflexivity|]). reflexivity. }
  apply palt_r; [|apply pmap_none, T; reflexivity].
  apply pmap_none. unfold g_string_literal, g_quoted. destruct s as [|x s]; auto. cbn [hd_not] in H.
  destruct (N.eqb_spec x c_sq); [subst; discriminate|reflexivity].
Qed.

Section Facts.
  Context (U : Unicode) (F : Floats).
  Variable Hascii : ascii_sane U.
  Variables (op : options) (e : exts).
  Hypothesis W : wf_exts e.
  Hypothesis Hanc : op_anchors op <> VNever.
  Hypothesis Htyp : types_written op.

  Definition etext (x : pexpr) : list N := o_text (expr_out op e x).

  (** Texts that begin like an expression. *)
  Definition starts_expr (s : list N) : Prop := exists c r, s = c :: r /\ expr_head c = true.
  Lemma starts_not s rest (f : N -> bool) : starts_expr s -> (forall c, expr_head c = true -> f c = false) ->
    hd_not f (s ++ rest) = true.
  Proof. intros (c & r & -> & Hc) Hf. cbn [app hd_not]. now rewrite Hf. Qed.
  Lemma starts_app s t : starts_expr s -> starts_expr (s ++ t).
  Proof. intros (c & r & -> & Hc). exists c, (r ++ t). auto. Qed.

  Lemma float_head s : is_float_text s = true -> starts_expr s.
  Proof.
    unfold is_float_text. destruct s as [|c r]; [discriminate|]. intros H. exists c, r. split; auto.
    destruct (N.eqb_spec c 45) as [->|Hc]; [reflexivity|].
    destruct (split_at_char 46 (c :: r)) as [[a b]|] eqn:E; [|discriminate]. apply split_at_char_spec in E as [E _].
    destruct a as [|x a]; [discriminate|]. injection E as <- _. bool_hyps. cbn [forallb] in *. bool_hyps.
    unfold expr_head. chars.
  Qed.

  Lemma show_Z_starts z : starts_expr (show_Z z).
  Proof. destruct (show_Z_head z) as (c & r & E & Hc). exists c, r. split; auto. unfold expr_head. lia. Qed.

  Lemma litval_starts v n : value_ok e v n = true -> starts_expr (o_text (litval_out op v)).
  Proof.
    intros Hok. destruct (is_quoted v) eqn:Hq.
    - destruct (quoted_round_trip U F Hascii e v n Hok Hq) as (s & E & _ & _).
      rewrite (value_text_quoted U F op e v n s Hok E). eexists _, _. split; reflexivity.
    - destruct v; try discriminate; cbn [litval_out o_text txt value_ok] in *; try apply show_Z_starts.
      + destruct b; eexists _, _; split; reflexivity.
      + bool_hyps. now apply float_head.
      + bool_hyps. now apply float_head.
      + eexists _, _; split; reflexivity.
  Qed.

  Lemma literal_starts l : literal_ok e l = true -> starts_expr (ltext U F op e l).
  Proof.
    unfold literal_ok, ltext, literal_out. destruct (l_type l) as [v|]; [|discriminate]. intros H. bool_hyps.
    cbn [oapp o_text]. eapply starts_app, litval_starts. eassumption.
  Qed.

  Lemma ident_alpha n : is_identifier n = true -> exists c r, n = c :: r /\ is_alpha c = true.
  Proof.
    destruct n as [|c r]; [discriminate|]. cbn [is_identifier]. intros H; bool_hyps. exists c, r. split; auto.
  Qed.
  Lemma fn_name_alpha n : fn_name_ok n = true -> exists c r, n = c :: r /\ is_alpha c = true.
  Proof.
    unfold fn_name_ok. intros H. destruct (split_at_char c_colon n) as [[b s]|] eqn:E; [|now apply ident_alpha].
    apply split_at_char_spec in E as [-> _]. destruct (ident_alpha b) as (c & r & -> & Hc); [destruct s; bool_hyps; auto|].
    exists c, (r ++ c_colon :: s). auto.
  Qed.
  Lemma fn_name_starts n : fn_name_ok n = true -> starts_expr n.
  Proof.
    intros H. destruct (fn_name_alpha n H) as (c & r & -> & Hc). exists c, r. split; auto. unfold expr_head. now rewrite Hc.
  Qed.
  Lemma shown_fn_ok r n : fn_name_ok n = true -> fn_name_ok (shown_name op e KFunction r n) = true.
  Proof. intros H. unfold shown_name. destruct (op_anchors op), (base_uniq e KFunction r n); auto using fn_name_ok_base. Qed.

  (** ** Calls *)

  Definition call_text (n : list N) (a : option N) (args : list (list N)) (t : ptype) : list N :=
    n ++ anchor_text a ++ L "(" ++ join (L ", ") args ++ L ")" ++ L ":" ++ ttext op e t.

  Lemma call_out_text r args t u n : decl_get e KFunction r = Some (u, n) ->
    o_text (invocation_out op e r args [] +++ output_type_out op e (Some t)) =
      call_text (shown_name op e KFunction r n) (shown_anchor op e KFunction r n) (map o_text args) t.
  Proof.
    intros Hd. unfold invocation_out, call_text. rewrite (ref_out_spec _ _ _ _ _ _ W Hd).
    cbn [oapp o_text txt output_type_out]. rewrite osep_text. cbn [map osep].
    destruct args; rewrite <- !app_assoc; reflexivity.
  Qed.

  (** An argument as read back. *)
  Definition reads (x : list N * ecst) : Prop :=
    starts_expr (fst x) /\ forall rest, expr_follow rest = true -> g_expr (fst x ++ rest) = Some (snd x, rest).

  Lemma args_app l rest : Forall reads l ->
    g_argument_list g_expr (L "(" ++ join (L ", ") (map fst l) ++ L ")" ++ rest) = Some (map snd l, rest).
  Proof.
    intros Hl. unfold g_argument_list. eapply pthen_some; [apply ptok_app|].
    rewrite Forall_forall in Hl.
    eapply pbind_some with (a := map snd l) (r := L ")" ++ rest); [|reflexivity].
    apply (psep0_items (sp ;;; ptok (L ",") ;;; sp) g_expr (L ", ") fst snd (fun r => expr_follow r = true)).
    - apply strict_expr.
    - peg_shrink.
    - intros y r Hy Hr. now apply (Hl y Hy).
    - intros y r Hy. destruct (Hl y Hy) as [Hs _].
      eapply pthen_some; [apply sp_none; reflexivity|]. eapply pthen_some; [apply (ptok_app (L ",") (c_sp :: fst y ++ r))|].
      apply sp_one. apply starts_not; [auto|]. intros c; unfold expr_head, is_sp; chars.
    - reflexivity.
    - reflexivity.
    - reflexivity.
    - intros _. now apply expr_none.
  Qed.

  Lemma call_app n a l t ct rest : fn_name_ok n = true -> Forall reads l ->
    type_ok e t = true ->
    (forall rest, hd_not type_stop rest = true -> g_type (ttext op e t ++ rest) = Some (ct, rest)) ->
    hd_not type_stop rest = true ->
    g_function_call g_expr (call_text n a (map fst l) t ++ rest) =
      Some ((mk_fref n (option_map show_N a) None, map snd l, ct), rest).
  Proof.
    intros Hn Hl Ht Hg Hr. unfold g_function_call, call_text. rewrite <- !app_assoc.
    eapply pbind_some; [now apply function_reference_app|].
    eapply pthen_some; [apply sp_none; reflexivity|].
    eapply pbind_some; [now apply args_app|].
    eapply pthen_some; [apply ptok_app|]. eapply pthen_some.
    { apply sp_none. apply head_alpha_not; [now apply type_ok_head|]. intros; unfold is_sp; chars. }
    eapply pbind_some; [now apply Hg|]. reflexivity.
  Qed.

  (** A call is not taken for a conditional, even of a function named [if_then]. *)
  Lemma if_then_call_none n a l t rest : fn_name_ok n = true -> Forall reads l ->
    g_if_then g_expr (call_text n a (map fst l) t ++ rest) = None.
  Proof.
    intros Hn Hl. unfold g_if_then, pthen at 1, pbind at 1.
    destruct (ptok (L "if_then(") (call_text n a (map fst l) t ++ rest)) as [[u r]|] eqn:E; [|reflexivity].
    apply ptok_spec in E. unfold call_text in E. rewrite <- !app_assoc in E. rewrite (app_assoc n) in E.
    assert (Hp : contains_char 40 (n ++ anchor_text a) = false).
    { rewrite contains_char_app, anchor_no_paren, orb_false_r. eapply contains_char_class with (f := fr_char); [|reflexivity].
      pose proof (function_reference_app n None [] Hn) as G. unfold g_function_reference in G.
      pose proof (function_signature_app n (L "(") Hn eq_refl) as S.
      assert (C : consumes fr_char g_function_signature).
      { unfold g_function_signature, g_signature_suffix, g_argument_signature, g_short_arg_type, g_short_arg_name, g_identifier.
        peg_consumes. all: unfold fr_char; chars. }
      apply C in S as (w & Ew & Hw). apply app_inv_tail in Ew. now subst w. }
    assert (E1 : split_at_char 40 ((n ++ anchor_text a) ++ 40%N :: join (L ", ") (map fst l) ++ L ")" ++ L ":" ++ ttext op e t ++ rest)
      = Some (n ++ anchor_text a, join (L ", ") (map fst l) ++ L ")" ++ L ":" ++ ttext op e t ++ rest)) by now apply split_at_char_app.
    change (L "(" ++ join (L ", ") (map fst l) ++ L ")" ++ L ":" ++ ttext op e t ++ rest)
      with (40%N :: join (L ", ") (map fst l) ++ L ")" ++ L ":" ++ ttext op e t ++ rest) in E.
    rewrite E in E1. change (L "if_then(" ++ r) with (L "if_then" ++ 40%N :: r) in E1.
    rewrite (split_at_char_app 40 (L "if_then") r eq_refl) in E1.
    assert (r = join (L ", ") (map fst l) ++ L ")" ++ L ":" ++ ttext op e t ++ rest) as -> by congruence. clear E E1.
    destruct l as [|x l].
    - cbn [map join app]. eapply pthen_some; [apply sp_none; reflexivity|]. apply pbind_none. unfold pplus.
      apply pbind_none. apply pbind_none. unfold g_if_clause. apply pbind_none. now apply expr_none.
    - inversion_clear Hl as [|? ? [Hs Hx] Hr]. rewrite map_cons, join_cons, <- app_assoc.
      eapply pthen_some.
      { apply sp_none. apply starts_not; [exact Hs|]. intros c; unfold expr_head, is_sp; chars. }
      apply pbind_none. unfold pplus. apply pbind_none, pbind_none. unfold g_if_clause.
      eapply pbind_some.
      { apply Hx. destruct l; reflexivity. }
      eapply pthen_some.
      { apply sp_none. destruct l; reflexivity. }
      apply pthen_none. destruct l; reflexivity.
  Qed.

  (** ** Literals among the expressions *)

  Definition lit_head (c : N) : bool :=
    is_digit c || (c =? 45)%N || (c =? c_sq)%N.
  Definition word_value (v : litval) : bool := match v with LBool _ | LNull _ => true | _ => false end.

  Lemma value_head v n : value_ok e v n = true -> word_value v = false ->
    exists c r, o_text (litval_out op v) = c :: r /\ lit_head c = true.
  Proof.
    intros Hok Hw. destruct (is_quoted v) eqn:Hq.
    - destruct (quoted_round_trip U F Hascii e v n Hok Hq) as (s & E & _ & _).
      rewrite (value_text_quoted U F op e v n s Hok E). eexists _, _. split; reflexivity.
    - assert (FH : forall s, is_float_text s = true -> exists c r, s = c :: r /\ lit_head c = true).
      { clear. unfold is_float_text. intros [|c r]; [discriminate|]. intros H. exists c, r. split; auto.
        destruct (N.eqb_spec c 45) as [->|Hc]; [reflexivity|].
        destruct (split_at_char 46 (c :: r)) as [[a b]|] eqn:E; [|discriminate]. apply split_at_char_spec in E as [E _].
        destruct a as [|x a]; [discriminate|]. injection E as <- _. bool_hyps. cbn [forallb] in *. bool_hyps.
        unfold lit_head. chars. }
      assert (ZH : forall z, exists c r, show_Z z = c :: r /\ lit_head c = true).
      { intros z. destruct (show_Z_head z) as (c & r & E & Hc). exists c, r. split; auto. unfold lit_head. lia. }
      destruct v; try discriminate; cbn [litval_out o_text txt value_ok] in *; auto; bool_hyps; auto.
  Qed.

  Lemma literal_text v n : value_ok e v n = true ->
    exists t, ltext U F op e (mk_lit (Some v) n 0) = o_text (litval_out op v) ++ t /\
      (t = [] \/ exists ty, type_ok e ty = true /\ t = L ":" ++ ttext op e ty).
  Proof.
    intros Hok. unfold ltext, literal_out. cbn [l_type l_nullable oapp o_text].
    pose proof (suffix_is_type U F op e v n W Hok) as ST.
    eexists. split; [reflexivity|].
    destruct v; try discriminate Hok;
      try (destruct ST as (t & _ & Hty & ES); cbv zeta;
           match goal with |- o_text (if ?b then _ else _) = _ \/ _ => destruct b end; [right|left; reflexivity];
           exists t; split; [exact Hty|exact ES]).
    right. cbn [value_ok] in Hok. bool_hyps. exists t. split; [auto|reflexivity].
  Qed.

  Lemma literal_not_other l rest : literal_ok e l = true -> expr_follow rest = true ->
    g_if_then g_expr (ltext U F op e l ++ rest) = None /\ g_cast g_expr (ltext U F op e l ++ rest) = None /\
    g_function_call g_expr (ltext U F op e l ++ rest) = None /\ g_reference (ltext U F op e l ++ rest) = None.
  Proof.
    intros Hok Hr. destruct l as [[v|] n var]; [|discriminate]. unfold literal_ok in Hok. cbn [l_type l_nullable l_var] in Hok.
    apply andb_true_iff in Hok as [Hok Hv]. apply N.eqb_eq in Hv as ->.
    destruct (literal_text v n Hok) as (t & -> & Ht).
    destruct (word_value v) eqn:Hw.
    - assert (E : exists w, o_text (litval_out op v) = w /\ In w [L "true"; L "false"; L "null"]).
      { destruct v; try discriminate Hw; cbn [litval_out txt o_text]; eexists; split; try reflexivity; cbn [In]; auto.
        destruct b; auto. }
      destruct E as (w & -> & Hin).
      assert (Hc : contains_char 40 (w ++ t) = false).
      { rewrite contains_char_app. apply orb_false_iff. split.
        - cbn [In] in Hin. destruct Hin as [<-|[<-|[<-|[]]]]; reflexivity.
        - destruct Ht as [->|(ty & Hty & ->)]; [reflexivity|]. rewrite contains_char_app. apply orb_false_iff. split; [reflexivity|].
          now apply type_no_paren. }
      assert (FC : g_function_call g_expr ((w ++ t) ++ rest) = None).
      { apply function_call_none, no_call_app; auto. unfold expr_follow in Hr. now bool_hyps. }
      rewrite <- app_assoc in *.
      cbn [In] in Hin. destruct Hin as [<-|[<-|[<-|[]]]]; repeat split; auto.
    - destruct (value_head v n Hok Hw) as (c & r & -> & Hc). cbn [app].
      unfold lit_head in Hc.
      repeat split.
      + apply pthen_none, (ptok_none_hd (L "f_then(") 105%N). cbn [hd_not]. destruct (N.eqb_spec 105 c); auto; subst; discriminate.
      + apply pthen_none, (ptok_none_hd [] 40%N). cbn [hd_not]. destruct (N.eqb_spec 40 c); auto; subst; discriminate.
      + unfold g_function_call, g_function_reference, g_function_signature. do 3 apply pbind_none.
        apply g_identifier_none. cbn [hd_not]. chars.
      + apply pthen_none, (ptok_none_hd [] 36%N). cbn [hd_not]. destruct (N.eqb_spec 36 c); auto; subst; discriminate.
  Qed.

  (** ** Reading calls *)

  Lemma fref_values_shown r n : (Z.of_N r <= u32_max)%Z ->
    fref_values (mk_fref (shown_name op e KFunction r n) (option_map show_N (shown_anchor op e KFunction r n)) None) =
      Ok (shown_anchor op e KFunction r n).
  Proof.
    intros Ha. unfold fref_values. cbn [fr_anchor fr_urn]. unfold shown_anchor.
    assert (anchor_value (Some (show_N r)) = Ok (Some r)) as E by (apply anchor_value_show; now apply Z.leb_le).
    destruct (op_anchors op); cbn [option_map]; [reflexivity| |now rewrite E].
    destruct (_ || _); cbn [option_map]; [now rewrite E|reflexivity].
  Qed.
  Lemma validate_shown r u n : decl_get e KFunction r = Some (u, n) ->
    get_and_validate_anchor e KFunction (shown_anchor op e KFunction r n) (shown_name op e KFunction r n) = Ok r.
  Proof.
    intros Hd. destruct (resolve_shown op e r u n W Hanc Hd) as (x & Er & Hx & _). unfold get_and_validate_anchor.
    rewrite Er. cbn [lift_missing rmap]. now rewrite Hx.
  Qed.

  (** What the induction provides for one expression. *)
  Definition back (x : pexpr) : Prop :=
    starts_expr (etext x) /\
    exists c, lower_expr e c = Ok x /\
      forall rest, expr_follow rest = true -> g_expr (etext x ++ rest) = Some (c, rest).

  Lemma args_back args :
    Forall (fun a => match a with AValue y => back y | _ => False end) args ->
    exists l, map fst l = map o_text (map (arg_out op e) args) /\ Forall reads l /\
      rlist (fun x => rmap AValue (lower_expr e x)) (map snd l) = Ok args.
  Proof.
    induction 1 as [|a args Ha _ (l & E & Hl & Hr)].
    - exists []. repeat split; constructor.
    - destruct a as [|y| |]; try contradiction. destruct Ha as (Hs & c & Hc & G).
      exists ((etext y, c) :: l). cbn [map fst snd]. split; [now rewrite E|]. split.
      + constructor; [|exact Hl]. split; [exact Hs|exact G].
      + cbn [rlist]. rewrite Hc. cbn [rmap rbind]. now rewrite Hr.
  Qed.

  (** A call of a declared function, read back. *)
  Lemma call_back r args t : function_ok e r = true -> type_ok e t = true ->
    Forall (fun a => match a with AValue y => back y | _ => False end) args ->
    exists text f a l ct,
      o_text (invocation_out op e r (map (arg_out op e) args) [] +++ output_type_out op e (Some t)) = text /\
      starts_expr text /\
      fref_values f = Ok a /\ rlist (fun x => rmap AValue (lower_expr e x)) l = Ok args /\
      lower_type e ct = Ok t /\ get_and_validate_anchor e KFunction a (fr_name f) = Ok r /\
      forall rest,
        g_if_then g_expr (text ++ rest) = None /\ g_cast g_expr (text ++ rest) = None /\
        (hd_not type_stop rest = true -> g_function_call g_expr (text ++ rest) = Some ((f, l, ct), rest)).
  Proof.
    unfold function_ok. destruct (decl_get e KFunction r) as [[u n]|] eqn:Hd; [|discriminate].
    intros Hf Ht Hargs. bool_hyps. rename H into Hn, H0 into Hu. apply Z.leb_le in Hu.
    destruct (args_back args Hargs) as (l & El & Hl & Hr).
    destruct (type_round_trip op e t W Hanc Ht) as (ct & Hct & Gt).
    rewrite (call_out_text r (map (arg_out op e) args) t u n Hd), <- El.
    assert (Hs : fn_name_ok (shown_name op e KFunction r n) = true) by now apply shown_fn_ok.
    exists (call_text (shown_name op e KFunction r n) (shown_anchor op e KFunction r n) (map fst l) t),
      (mk_fref (shown_name op e KFunction r n) (option_map show_N (shown_anchor op e KFunction r n)) None),
      (shown_anchor op e KFunction r n), (map snd l), ct.
    split; [reflexivity|]. split; [now apply starts_app, fn_name_starts|].
    split; [now apply fref_values_shown|]. split; [exact Hr|]. split; [exact Hct|]. split; [now apply validate_shown with u|].
    intros rest. split; [now apply if_then_call_none|]. split; [|intros Hrest; now apply call_app].
    apply pthen_none, (ptok_none_hd [] 40%N). destruct (fn_name_alpha _ Hs) as (c & w & E & Hc). unfold call_text. rewrite E.
    cbn [app hd_not]. chars.
  Qed.

  (** ** Conditionals *)

  Definition clause_text (c : (list N * ecst) * (list N * ecst)) : list N :=
    fst (fst c) ++ L " -> " ++ fst (snd c) ++ L ", ".
  Definition clause_cst (c : (list N * ecst) * (list N * ecst)) : ecst * ecst := (snd (fst c), snd (snd c)).

  Lemma clause_app c rest : reads (fst c) -> reads (snd c) -> hd_not is_sp rest = true ->
    (c <- g_if_clause g_expr ;; sp ;;; ptok (L ",") ;;; sp ;;; pret c) (clause_text c ++ rest) = Some (clause_cst c, rest).
  Proof.
    intros [Hs1 H1] [Hs2 H2] Hr. unfold clause_text. rewrite <- !app_assoc. eapply pbind_some.
    - unfold g_if_clause. eapply pbind_some; [now apply H1|].
      eapply pthen_some; [apply (sp_one (L "-> " ++ fst (snd c) ++ L ", " ++ rest)); reflexivity|].
      eapply pthen_some; [apply (ptok_app (L "->") (L " " ++ fst (snd c) ++ L ", " ++ rest))|].
      eapply pthen_some; [apply (sp_one (fst (snd c) ++ L ", " ++ rest))|].
      { apply starts_not; [exact Hs2|]. intros x; unfold expr_head, is_sp; chars. }
      eapply pbind_some; [now apply H2|]. reflexivity.
    - eapply pthen_some; [apply sp_none; reflexivity|].
      eapply pthen_some; [apply (ptok_app (L ",") (L " " ++ rest))|].
      eapply pthen_some; [now apply (sp_one rest)|]. reflexivity.
  Qed.

  Lemma clauses_app x l rest : Forall (fun c => reads (fst c) /\ reads (snd c)) (x :: l) -> hd_not expr_head rest = true ->
    hd_not is_sp rest = true ->
    pplus (c <- g_if_clause g_expr ;; sp ;;; ptok (L ",") ;;; sp ;;; pret c)
      (concat (map clause_text (x :: l)) ++ rest) = Some (map clause_cst (x :: l), rest).
  Proof.
    intros Hl He Hr. assert (K : forall c r, In c (x :: l) -> hd_not is_sp (clause_text c ++ r) = true).
    { intros c r Hc. rewrite Forall_forall in Hl. destruct (Hl c Hc) as [[Hs _] _]. unfold clause_text. rewrite <- app_assoc.
      apply starts_not; [exact Hs|]. intros y; unfold expr_head, is_sp; chars. }
    unfold pplus. cbn [map concat]. rewrite <- app_assoc. inversion_clear Hl as [|? ? [Hx1 Hx2] Hl'].
    eapply pbind_some.
    { apply clause_app; auto. destruct l as [|y l]; [exact Hr|]. cbn [map concat]. rewrite <- app_assoc. apply K. cbn; auto. }
    eapply pbind_some with (a := map clause_cst l) (r := rest); [|reflexivity].
    rewrite Forall_forall in Hl'.
    apply (pstar_items _ clause_text clause_cst (fun r => hd_not is_sp r = true)).
    - unfold g_if_clause. peg_shrink.
    - intros y r Hy H. destruct (Hl' y Hy). now apply clause_app.
    - intros y r Hy. apply K. cbn; auto.
    - exact Hr.
    - apply pbind_none. unfold g_if_clause. apply pbind_none. now apply expr_none.
  Qed.

  Lemma clauses_back ifs :
    Forall (fun c => match fst c, snd c with Some a, Some b => back a /\ back b | _, _ => False end) ifs ->
    exists l,
      o_text (fold_right oapp onil
              (map (fun c : option pexpr * option pexpr =>
                      match fst c with Some y => expr_out op e y | None => ofail (FPlan FInvalid "Expression") end
                      +++ txt (L " -> ")
                      +++ match snd c with Some y => expr_out op e y | None => ofail (FPlan FInvalid "Expression") end
                      +++ txt (L ", ")) ifs)) = concat (map clause_text l) /\
      length l = length ifs /\
      Forall (fun c => reads (fst c) /\ reads (snd c)) l /\
      clauses_loop (fun p : ecst * ecst =>
                      let? a := lower_expr e (fst p) in
                      let? b := lower_expr e (snd p) in
                      Ok (Some a, Some b)) (map clause_cst l) = Ok ifs.
  Proof.
    induction 1 as [|[[a|] [b|]] ifs Hc _ (l & E & Hn & Hl & Hr)]; cbn [fst snd] in *; try contradiction.
    - exists []. repeat split; constructor.
    - destruct Hc as [(Hs1 & c1 & Hc1 & G1) (Hs2 & c2 & Hc2 & G2)].
      exists (((etext a, c1), (etext b, c2)) :: l). split; [|split; [|split]].
      + cbn [map fold_right concat fst snd]. unfold clause_text at 1. cbn [fst snd]. unfold etext.
        cbn [oapp o_text txt]. rewrite E. now rewrite <- !app_assoc.
      + cbn [length]. now rewrite Hn.
      + constructor; [split; split; auto|exact Hl].
      + cbn [map clause_cst clauses_loop fst snd]. rewrite Hc1, Hc2. cbn [rbind guard_drop]. now rewrite Hr.
  Qed.

  (** ** The round trip *)

  Lemma follow_type rest : expr_follow rest = true -> hd_not type_stop rest = true.
  Proof. unfold expr_follow. intros H. bool_hyps. now apply lit_stop_type. Qed.

  Theorem expr_back x : expr_ok e x = true -> back x.
  Proof.
    revert x. apply (pexpr_ind2 (fun x => expr_ok e x = true -> back x)
                       (fun a => match a with AValue y => expr_ok e y = true -> back y | _ => True end));
      try (intros; exact I); try (intros; discriminate).
    - intros l Hok. cbn [expr_ok] in Hok.
      split; [unfold etext; cbn [expr_out]; apply (literal_starts l Hok)|].
      assert (Hk : type_known op l = true).
      { unfold type_known. destruct (op_literal_types op) eqn:E; auto. }
      destruct (literal_round_trip U F Hascii op e l W Hanc Hok Hk) as (c & Hc & G).
      exists (XLit c). split; [cbn [lower_expr]; now rewrite Hc|]. intros rest Hr.
      destruct (literal_not_other l rest Hok Hr) as (N1 & N2 & N3 & N4).
      unfold etext. cbn [expr_out]. fold (ltext U F op e l). rewrite g_expr_eq. unfold expr_F.
      apply palt_r; [exact N1|]. apply palt_r; [exact N2|]. apply palt_r; [now apply pmap_none|].
      apply palt_r; [now apply pmap_none|]. apply pmap_some. apply G. unfold expr_follow in Hr. now bool_hyps.
    - intros [[[i [c|]| |]| |] []] Hok; try discriminate. cbn [expr_ok] in Hok.
      split; [eexists _, _; split; reflexivity|].
      exists (XRef (show_Z i)). split.
      { cbn [lower_expr]. unfold field_index. rewrite parse_i32_show by auto. reflexivity. }
      intros rest Hr. unfold etext. cbn [expr_out fieldref_out fr_root fr_ref txt o_text]. unfold ref_text. rewrite <- app_assoc.
      rewrite g_expr_eq. unfold expr_F.
      apply palt_r; [reflexivity|]. apply palt_r; [reflexivity|]. apply palt_r; [reflexivity|]. apply palt_l, pmap_some.
      unfold g_reference. eapply pthen_some; [apply (ptok_app (L "$"))|]. apply g_integer_show_Z.
      unfold expr_follow in Hr. bool_hyps. eapply hd_not_weaken; [|eassumption]. unfold lit_stop, type_stop. intros c; cbv beta. chars.
    - intros r args opts t IH Hok. cbn [expr_ok] in Hok. destruct opts; [|discriminate]. destruct t as [t|]; [|discriminate].
      bool_hyps. rename H into Hf, H1 into Ht, H0 into Ha.
      assert (Hargs : Forall (fun a => match a with AValue y => back y | _ => False end) args).
      { rewrite forallb_forall in Ha. rewrite Forall_forall in *. intros a Hin. specialize (IH a Hin). specialize (Ha a Hin).
        destruct a; try discriminate. auto. }
      destruct (call_back r args t Hf Ht Hargs) as (text & f & a & l & ct & E & Hs & H1 & H2 & H3 & H4 & G).
      assert (Et : etext (EFunc r args [] (Some t)) = text) by exact E. unfold back. rewrite Et.
      split; [exact Hs|]. exists (XCall f l ct). split.
      { cbn [lower_expr]. rewrite H1. cbn [rbind]. rewrite H2. cbn [rbind]. rewrite H3. cbn [rbind]. rewrite H4. reflexivity. }
      intros rest Hr. destruct (G rest) as (G1 & G2 & G3). rewrite g_expr_eq. unfold expr_F.
      apply palt_r; [exact G1|]. apply palt_r; [exact G2|].
      apply palt_l. eapply pmap_some with (a := (f, l, ct)). apply G3. now apply follow_type.
    - intros ifs els IHi IHe Hok. cbn [expr_ok] in Hok. destruct ifs as [|i ifs]; [discriminate|].
      destruct els as [y|]; [|discriminate]. apply andb_true_iff in Hok as [Hi Hy]. cbn [opt_all] in IHe.
      assert (Hc : Forall (fun c => match fst c, snd c with Some a, Some b => back a /\ back b | _, _ => False end) (i :: ifs)).
      { rewrite forallb_forall in Hi. rewrite Forall_forall in *. intros c Hin. specialize (IHi c Hin). specialize (Hi c Hin).
        destruct c as [[a|] [b|]]; cbn [fst snd opt_all] in *; try discriminate. bool_hyps. destruct IHi. auto. }
      destruct (clauses_back _ Hc) as (l & E & Hn & Hl & Hlo). destruct (IHe Hy) as (Hsy & cy & Hcy & Gy).
      assert (Et : etext (EIf (i :: ifs) (Some y)) = L "if_then(" ++ concat (map clause_text l) ++ L "_ -> " ++ etext y ++ L ")").
      { unfold etext at 1. cbn [expr_out]. rewrite !o_text_app. rewrite E. reflexivity. }
      unfold back. rewrite Et. split; [eexists _, _; split; reflexivity|].
      exists (XIf (map clause_cst l) cy). split.
      { cbn [lower_expr]. rewrite Hlo. cbn [rbind]. rewrite Hcy. reflexivity. }
      intros rest Hr. rewrite g_expr_eq. unfold expr_F. apply palt_l. unfold g_if_then. rewrite <- !app_assoc.
      destruct l as [|x l]; [discriminate|].
      eapply pthen_some; [apply ptok_app|]. eapply pthen_some.
      { apply sp_none. inversion_clear Hl as [|? ? [[Hs _] _] _]. cbn [map concat]. unfold clause_text at 1. rewrite <- !app_assoc.
        apply starts_not; [exact Hs|]. intros z; unfold expr_head, is_sp; chars. }
      eapply pbind_some; [apply clauses_app; [exact Hl|reflexivity|reflexivity]|].
      eapply pthen_some; [apply sp_none; reflexivity|].
      eapply pthen_some; [apply (ptok_app (L "_") (L " -> " ++ etext y ++ L ")" ++ rest))|].
      eapply pthen_some; [apply (sp_one (L "-> " ++ etext y ++ L ")" ++ rest)); reflexivity|].
      eapply pthen_some; [apply (ptok_app (L "->") (L " " ++ etext y ++ L ")" ++ rest))|].
      eapply pthen_some; [apply (sp_one (etext y ++ L ")" ++ rest))|].
      { apply starts_not; [exact Hsy|]. intros z; unfold expr_head, is_sp; chars. }
      eapply pbind_some; [now apply Gy|]. reflexivity.
    - intros b i t IH Hok. cbn [expr_ok] in Hok. destruct i as [y|]; [|discriminate]. destruct t as [t|]; [|discriminate].
      bool_hyps. rename H into Hb, H1 into Hy, H0 into Ht. cbn [opt_all] in IH. destruct (IH Hy) as (Hsy & cy & Hcy & Gy).
      destruct (type_round_trip op e t W Hanc Ht) as (ct & Hct & Gt).
      assert (B : exists bt bc, o_text (behavior_out b) = bt /\ behavior_value bc = b /\
        forall r, hd_not is_sp r = true -> hd_not (fun c => (c =? 63)%N || (c =? 33)%N) r = true ->
          popt g_behavior (bt ++ r) = Some (bc, r) /\ hd_not is_sp (bt ++ r) = true).
      { assert (b = 0 \/ b = 1 \/ b = 2)%Z as [-> |[-> | ->]] by (unfold in_range in Hb; lia).
        - exists [], None. repeat split; auto. apply popt_none. unfold g_behavior. apply palt_r.
          + apply pmap_none, (ptok_none_hd [] 63%N). eapply hd_not_weaken; [|eassumption]. intros c; cbv beta; lia.
          + apply pmap_none, (ptok_none_hd [] 33%N). eapply hd_not_weaken; [|eassumption]. intros c; cbv beta; lia.
        - exists (L "?"), (Some 63%N). repeat split; auto.
        - exists (L "!"), (Some 33%N). repeat split; auto. }
      destruct B as (bt & bc & Ebt & Ebc & GB).
      assert (Et : etext (ECast b (Some y) (Some t)) = L "(" ++ etext y ++ L ")::" ++ bt ++ ttext op e t).
      { unfold etext at 1. cbn [expr_out]. rewrite !o_text_app, Ebt. reflexivity. }
      unfold back. rewrite Et. split; [eexists _, _; split; reflexivity|].
      exists (XCast cy bc ct). split.
      { cbn [lower_expr]. rewrite Hcy. cbn [rbind]. rewrite Hct. cbn [rbind]. now rewrite Ebc. }
      intros rest Hr. rewrite g_expr_eq. unfold expr_F. apply palt_r; [reflexivity|]. apply palt_l. unfold g_cast.
      rewrite <- !app_assoc. pose proof (type_ok_head op e t W Ht) as Hh.
      assert (Hts : hd_not is_sp (ttext op e t ++ rest) = true) by (apply head_alpha_not; [exact Hh|intros; unfold is_sp; chars]).
      destruct (GB (ttext op e t ++ rest) Hts) as [GB1 GB2]; [apply head_alpha_not; [exact Hh|intros; chars]|].
      eapply pthen_some; [apply ptok_app|].
      eapply pthen_some; [apply sp_none; apply starts_not; [exact Hsy|]; intros z; unfold expr_head, is_sp; chars|].
      eapply pbind_some; [now apply Gy|].
      eapply pthen_some; [apply sp_none; reflexivity|].
      eapply pthen_some; [apply (ptok_app (L ")") (L "::" ++ bt ++ ttext op e t ++ rest))|].
      eapply pthen_some; [apply sp_none; reflexivity|].
      eapply pthen_some; [apply (ptok_app (L "::"))|].
      eapply pthen_some; [now apply sp_none|].
      eapply pbind_some; [exact GB1|].
      eapply pthen_some; [now apply sp_none|].
      eapply pbind_some; [apply Gt; now apply follow_type|]. reflexivity.
    - intros y H. exact H.
  Qed.

  (** Measures. *)
  Theorem measure_back a : aggfn_ok e a = true ->
    starts_expr (o_text (aggfn_out op e a)) /\
    exists c, lower_measure e c = Ok a /\
      forall rest, hd_not type_stop rest = true -> g_function_call g_expr (o_text (aggfn_out op e a) ++ rest) = Some (c, rest).
  Proof.
    destruct a as [r args opts t i p]. unfold aggfn_ok, aggfn_out. cbn [af_ref af_args af_opts af_out af_invocation af_phase].
    destruct opts; [|discriminate]. destruct t as [t|]; [|discriminate]. intros H. bool_hyps.
    rename H into Hf, H3 into Ht, H2 into Ha. apply Z.eqb_eq in H1 as ->, H0 as ->.
    assert (Hargs : Forall (fun a => match a with AValue y => back y | _ => False end) args).
    { rewrite forallb_forall in Ha. rewrite Forall_forall in *. intros a Hin. specialize (Ha a Hin).
      destruct a; try discriminate. now apply expr_back. }
    destruct (call_back r args t Hf Ht Hargs) as (text & f & a & l & ct & E & Hs & H1 & H2 & H3 & H4 & G).
    rewrite E. split; [exact Hs|]. exists (f, l, ct). split.
    - unfold lower_measure. rewrite H1. cbn [rbind]. rewrite H2. cbn [rbind]. rewrite H3. cbn [rbind]. rewrite H4. reflexivity.
    - intros rest Hr. now apply G.
  Qed.

  (** ** Nothing is reported *)

  Lemma prec_quiet p r s : (p =? 12)%Z = false -> match r with Ok a => Some a | _ => None end = Some s -> quiet (prec_literal_out p r).
  Proof. intros Hp Hs. destruct r; try discriminate Hs. unfold prec_literal_out. rewrite Hp. auto with quiet. Qed.

  Lemma interval_quiet i n : value_ok e (LInterval i) n = true -> interval_usual i = true -> quiet (interval_out i).
  Proof.
    cbn [value_ok]. unfold interval_usual, interval_out, interval_units. destruct (iv_mode i) as [[p|]|]; try discriminate.
    intros H Hu. bool_hyps. destruct (supported_prec p) as (q & Eq & Hq); [auto|]. rewrite Eq.
    cbv zeta.
    match goal with |- quiet ((if ?b then _ else _) +++ _) => replace b with true end.
    2: { symmetry; apply andb_true_iff; split; unfold in_range, max_interval_days in *; lia. }
    rewrite Hq. replace (10 ^ p <=? Z.abs (iv_sub i))%Z with false by lia. rewrite andb_false_r.
    apply quiet_app; [apply quiet_nil|]. unfold interval_parts. destruct (iv_sub i =? 0)%Z eqn:Es; [auto with quiet|].
    assert (exists u, prec_unit q = Some u) as (u & ->); [|auto with quiet].
    destruct q; cbn [prec_unit]; eauto. cbn [prec_units] in Hq. subst p. exfalso.
    match goal with K : _ && negb _ = false |- _ => discriminate K end.
  Qed.

  Lemma literal_quiet l : literal_ok e l = true -> literal_clean l = true -> quiet (literal_out op e l).
  Proof.
    destruct l as [[v|] n var]; [|discriminate]. unfold literal_ok, literal_clean, literal_out. cbn [l_type l_nullable l_var].
    intros H Hc. bool_hyps. rename H into Hok. apply quiet_app.
    - destruct (quoted_value v) as [s|] eqn:Eq.
      + destruct v; try discriminate Eq; cbn [litval_out quoted_value value_ok] in *; auto with quiet.
        * rewrite Eq. auto with quiet.
        * eapply prec_quiet; [reflexivity|]. exact Eq.
        * eapply prec_quiet; [reflexivity|]. exact Eq.
        * apply (interval_quiet i n); auto.
        * bool_hyps. eapply prec_quiet; [eassumption|]. exact Eq.
        * bool_hyps. eapply prec_quiet; [eassumption|]. exact Eq.
        * bool_hyps. eapply prec_quiet; [eassumption|]. exact Eq.
      + destruct (is_quoted v) eqn:Hq.
        * destruct (quoted_round_trip U F Hascii e v n Hok Hq) as (s & E & _). congruence.
        * destruct v; try discriminate; cbn [litval_out]; auto with quiet.
    - destruct v; cbv zeta; try (match goal with |- quiet (if ?b then _ else _) => destruct b end; solve [auto with quiet]).
      cbn [value_ok] in Hok. bool_hyps. apply quiet_app; [auto with quiet|]. now apply type_quiet.
  Qed.

  Lemma invocation_quiet r args t : function_ok e r = true -> type_ok e t = true -> nulls_given t = true ->
    Forall quiet args -> quiet (invocation_out op e r args [] +++ output_type_out op e (Some t)).
  Proof.
    unfold function_ok. destruct (decl_get e KFunction r) as [[u n]|] eqn:Hd; [|discriminate]. intros _ Ht Hn Ha.
    unfold invocation_out. rewrite (ref_out_spec _ _ _ _ _ _ W Hd). cbn [output_type_out].
    pose proof (type_quiet op e t W Ht Hn). cbn [map osep].
    repeat apply quiet_app; auto with quiet.
  Qed.

  Theorem expr_quiet x : expr_ok e x = true -> expr_clean x = true -> quiet (expr_out op e x).
  Proof.
    revert x. apply (pexpr_ind2 (fun x => expr_ok e x = true -> expr_clean x = true -> quiet (expr_out op e x))
                       (fun a => match a with
                                 | AValue y => expr_ok e y = true -> expr_clean y = true -> quiet (expr_out op e y)
                                 | _ => True end));
      try (intros; exact I); try (intros; discriminate).
    - intros l. now apply literal_quiet.
    - intros [[[i [c|]| |]| |] []] Hok _; try discriminate. cbn [expr_out fieldref_out fr_root fr_ref]. auto with quiet.
    - intros r args opts t IH Hok Hc. cbn [expr_ok expr_clean] in *. destruct opts; [|discriminate].
      destruct t as [t|]; [|discriminate]. bool_hyps. cbn [expr_out opt_types] in *. apply invocation_quiet; auto.
      rewrite Forall_forall in *. intros o Ho. apply in_map_iff in Ho as (a & <- & Hin). rewrite forallb_forall in *.
      repeat match goal with K : forall x, In x args -> _ |- _ => specialize (K a Hin) end.
      destruct a; try discriminate. cbn [arg_out]. auto.
    - intros ifs els IHi IHe Hok Hc. cbn [expr_ok expr_clean] in *. destruct ifs as [|i ifs]; [discriminate|].
      destruct els as [y|]; [|discriminate]. apply andb_true_iff in Hok as [Hi Hy], Hc as [Hci Hcy]. cbn [opt_all] in IHe.
      set (l := i :: ifs) in *. clearbody l.
      cbn [expr_out]. repeat apply quiet_app; auto with quiet. clear -IHi Hi Hci.
      induction IHi as [|[[a|] [b|]] l [H1 H2] _ IH]; cbn [map fold_right forallb fst snd opt_all] in *; try discriminate; [apply quiet_nil|].
      bool_hyps. apply quiet_app; auto. repeat apply quiet_app; auto with quiet.
    - intros b i t IH Hok Hc. cbn [expr_ok expr_clean] in *. destruct i as [y|]; [|discriminate]. destruct t as [t|]; [|discriminate].
      bool_hyps. cbn [opt_all opt_types expr_out oexpect] in *. repeat apply quiet_app; auto with quiet.
      + assert (b = 0 \/ b = 1 \/ b = 2)%Z as [-> |[-> | ->]] by (unfold in_range in *; lia); cbn; auto with quiet.
      + now apply type_quiet.
    - intros y H. exact H.
  Qed.

  Theorem measure_quiet a : aggfn_ok e a = true -> aggfn_clean a = true -> quiet (aggfn_out op e a).
  Proof.
    destruct a as [r args opts t i p]. unfold aggfn_ok, aggfn_clean, aggfn_out. cbn [af_ref af_args af_opts af_out af_invocation af_phase].
    destruct opts; [|discriminate]. destruct t as [t|]; [|discriminate]. intros H Hc. bool_hyps. cbn [opt_types] in *.
    apply invocation_quiet; auto. rewrite Forall_forall. intros o Ho. apply in_map_iff in Ho as (a & <- & Hin). rewrite forallb_forall in *.
    repeat match goal with K : forall x, In x args -> _ |- _ => specialize (K a Hin) end.
    destruct a; try discriminate. cbn [arg_out]. now apply expr_quiet.
  Qed.
End Facts.
