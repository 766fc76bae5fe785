(** C58: more declarations and registrations change nothing that could be read or
    written without them. *)
From Coq Require Import String List NArith ZArith Bool Lia Permutation.
From Verif Require Import Base BaseFacts Names SpecNames OMap SimpleExt SimpleExtFacts Out Types Lines SpecLines SpecLiterals Literals Exprs ExtArgs Registry SpecRegistry
  Rels RelGrammar Tree Structural Plan SpecOptions SpecPlan Props_Plan Props_Ext Props_Registry Pest SpecGrammar LineView
  SpecMeaning MeaningFacts MeaningRels SpecText TextFacts TextDecls TextRun TextPlan Props_Text SpecNotation SpecLayout LayoutPlan Props_Notation Props_Layout
  SpecMore MoreRead MoreWritten.
Import ListNotations.
Local Open Scope string_scope.
Local Open Scope list_scope.
Local Open Scope nat_scope.

(** ** Registrations *)

Definition grows (r r' : registry) : Prop :=
  (forall k h, hget k (rg_handlers r) = Some h -> hget k (rg_handlers r') = Some h) /\
  (forall k n, hget k (rg_urls r) = Some n -> hget k (rg_urls r') = Some n).
Lemma register_grows t h r : grows r (snd (register t h r)).
Proof.
  unfold register. destruct (hget (t, xe_name h) (rg_handlers r)) as [x|] eqn:E; [split; auto|].
  assert (G : (forall n, hget (t, xe_url h) (rg_urls r) = Some n -> n = xe_name h) ->
    grows r (mk_registry (hput (t, xe_name h) h (rg_handlers r)) (hput (t, xe_url h) (xe_name h) (rg_urls r)))).
  { intros Hu. split; intros k v; cbn [rg_handlers rg_urls]; rewrite hget_hput; destruct (rkey_eqb k _) eqn:Ek; auto; apply rkey_eqb_eq in Ek; subst k; intros H.
    - congruence.
    - now rewrite (Hu v H). }
  destruct (hget (t, xe_url h) (rg_urls r)) as [n|] eqn:E'; [destruct (streqb n (xe_name h)) eqn:En|]; cbn [snd].
  - apply G. intros m [= <-]. now apply streqb_eq.
  - split; auto.
  - apply G. discriminate.
Qed.
Lemma run_regs_grows l l' : grows (run_regs l) (run_regs (l ++ l')).
Proof.
  induction l' as [|[t h] l' IH] using rev_ind; [rewrite app_nil_r; split; auto|].
  rewrite app_assoc. unfold run_regs at 2. rewrite fold_left_app. cbn [fold_left fst snd]. fold (run_regs (l ++ l')).
  destruct (register_grows t h (run_regs (l ++ l'))) as [A B], IH as [C D]. split; auto.
Qed.
Lemma more_refl e : more_declared e e.
Proof. split; auto. intros k a u n a' u' n' b _ H H'. congruence. Qed.
Lemma grows_read (F : Floats) r r' s p : grows r r' -> parse r s = Ok p -> parse r' s = Ok p.
Proof.
  intros [G _] H. apply C55_texts in H as (blanks & vls & els & pls & es & trees & e & H1 & H2 & H3 & H4 & H5 & H6 & H7 & H8 & H9).
  apply C55_texts. exists blanks, vls, els, pls, es, trees, e. repeat (split; [assumption|]). split; [|exact H9].
  eapply Forall2_mono; [|exact H8]. apply plan_tree_more; [apply more_refl|]. auto.
Qed.
Lemma grows_written (U : Unicode) (F : Floats) r r' op p s : grows r r' -> written_as (format r op p) s -> written_as (format r' op p) s.
Proof.
  intros [G G'] H. apply C57_plans in H as (es & e & vls & els & bs & H1 & H2 & H3 & H4 & H5 & H6 & H7).
  apply C57_plans. exists es, e, vls, els, bs. repeat (split; [assumption|]). split; [|exact H7].
  eapply Forall2_mono; [|exact H6]. apply plan_rel_shown_more; auto. apply more_refl.
Qed.

(** What can be read or written after some registrations stays so after more of them,
    whatever these are and whether they are accepted. *)
Theorem C58_registrations_read : forall (F : Floats) l l' s p,
  parse (run_regs l) s = Ok p -> parse (run_regs (l ++ l')) s = Ok p.
Proof. intros F l l' s p. apply grows_read, run_regs_grows. Qed.
Theorem C58_registrations_written : forall (U : Unicode) (F : Floats) l l' op p s,
  written_as (format (run_regs l) op p) s -> written_as (format (run_regs (l ++ l')) op p) s.
Proof. intros U F l l' op p s. apply grows_written, run_regs_grows. Qed.

(** The order of registrations that do not clash says nothing. *)
Definition apart (a b : xtype * extension) : Prop := ~ same_name a b /\ ~ same_url a b.
Lemma apart_sym a b : apart a b -> apart b a.
Proof. intros [H K]. split; [intros [A B]; apply H; split; auto|intros [A B]; apply K; split; auto]. Qed.
Lemma pairs_permuted {A} (R : A -> A -> Prop) l l' : (forall a b, R a b -> R b a) -> Permutation l l' -> ForallOrdPairs R l -> ForallOrdPairs R l'.
Proof.
  intros S P. induction P as [|x l l' P IH|x y l|l l' l'' P IH P' IH']; intros H; auto.
  - inversion H; subst. constructor; auto. eapply Permutation_Forall; eauto.
  - inversion H as [|? ? H1 H2]; subst. inversion H2 as [|? ? H3 H4]; subst. inversion H1; subst. repeat constructor; auto.
Qed.
Lemma pairs_snoc {A} (R : A -> A -> Prop) l x : ForallOrdPairs R (l ++ [x]) -> ForallOrdPairs R l /\ forall y, In y l -> R y x.
Proof.
  induction l as [|y l IH]; cbn [app]; intros H; [split; [constructor|intros ? []]|]. inversion H as [|? ? H1 H2]; subst.
  apply IH in H2 as [K1 K2]. apply Forall_app in H1 as [H1 H3]. split; [now constructor|]. intros z [<-|Hz]; auto. now inversion H3.
Qed.
Lemma apart_accepts l : ForallOrdPairs apart l -> accepts l l.
Proof.
  induction l as [|x l IH] using rev_ind; [constructor|]. intros H. apply pairs_snoc in H as [H K]. constructor; auto.
  intros y Hy. now apply apart_sym, K.
Qed.
Lemma pairs_in {A} (R : A -> A -> Prop) l x y : (forall a b, R a b -> R b a) -> ForallOrdPairs R l -> In x l -> In y l -> x = y \/ R x y.
Proof.
  intros S H. induction H as [|z l H1 H2 IH]; [intros []|]. intros [->|Hx] [->|Hy]; auto.
  - right. now apply (proj1 (Forall_forall _ _) H1).
  - right. apply S. now apply (proj1 (Forall_forall _ _) H1).
Qed.
Lemma permuted_grows l l' : ForallOrdPairs apart l -> Permutation l l' -> grows (run_regs l) (run_regs l').
Proof.
  intros H P. pose proof (pairs_permuted apart l l' apart_sym P H) as H'.
  destruct (run_regs_holds l) as (k & A & Hh & Hu). rewrite (accepts_fun _ _ _ A (apart_accepts l H)) in *. clear k A.
  destruct (run_regs_holds l') as (k & A & Hh' & Hu'). rewrite (accepts_fun _ _ _ A (apart_accepts l' H')) in *. clear k A.
  assert (G : forall {V} (f : xtype * extension -> V) (key : xtype * extension -> rkey) kk v,
    (forall a b, In a l -> In b l -> key a = key b -> a = b) ->
    option_map f (find (fun th => rkey_eqb kk (key th)) l) = Some v -> option_map f (find (fun th => rkey_eqb kk (key th)) l') = Some v).
  { intros V f key kk v Un E. destruct (find (fun th => rkey_eqb kk (key th)) l) as [x|] eqn:Ex; [|discriminate]. injection E as <-.
    apply find_some in Ex as [Ix Ex]. apply rkey_eqb_eq in Ex. destruct (find (fun th => rkey_eqb kk (key th)) l') as [y|] eqn:Ey.
    - apply find_some in Ey as [Iy Ey]. apply rkey_eqb_eq in Ey. apply (Permutation_in _ (Permutation_sym P)) in Iy.
      cbn. f_equal. f_equal. apply Un; auto. congruence.
    - exfalso. rewrite find_none_iff in Ey. apply (Permutation_in _ P) in Ix. specialize (Ey x Ix). rewrite Ex, rkey_eqb_refl in Ey. discriminate. }
  split; intros [t n] v.
  - rewrite Hh, Hh'. apply (G _ snd (fun th => (fst th, xe_name (snd th)))). intros a b Ia Ib E. injection E as E1 E2.
    destruct (pairs_in apart l a b apart_sym H Ia Ib) as [|[N _]]; auto. destruct N. split; auto.
  - rewrite Hu, Hu'. apply (G _ (fun th => xe_name (snd th)) (fun th => (fst th, xe_url (snd th)))). intros a b Ia Ib E. injection E as E1 E2.
    destruct (pairs_in apart l a b apart_sym H Ia Ib) as [|[_ N]]; auto. destruct N. split; auto.
Qed.
Theorem C58_registration_order : forall (U : Unicode) (F : Floats) l l', ForallOrdPairs apart l -> Permutation l l' ->
  (forall s p, parse (run_regs l) s = Ok p <-> parse (run_regs l') s = Ok p) /\
  (forall op p s, written_as (format (run_regs l) op p) s <-> written_as (format (run_regs l') op p) s).
Proof.
  intros U F l l' H P. pose proof (permuted_grows l l' H P) as G.
  pose proof (permuted_grows l' l (pairs_permuted apart l l' apart_sym P H) (Permutation_sym P)) as G'.
  split; intros; split; (now apply grows_read) || now apply grows_written.
Qed.

(** ** Declarations *)

Lemma table_decl es e k a u n : table_of es e -> decl_get e k a = Some (u, n) <-> In (inr (mk_decl k u a n)) es.
Proof.
  intros T. destruct (table_wf _ _ T) as [_ W]. destruct T as (_ & _ & _ & T). rewrite <- T. unfold decl_get. now apply oget_in; auto using ord_key.
Qed.
Lemma more_tables es es' e e' : table_of es e -> table_of es' e' -> more_entries es es' -> more_declared e e'.
Proof.
  intros T T' [M N]. split.
  - intros k a [u n] H. apply (table_decl es' e'); auto. apply M. now apply (table_decl es e).
  - intros k a u n a' u' n' b H H' H0 B. apply (table_decl es e) in H; auto. apply (table_decl es' e') in H'; auto.
    apply (N _ _ b H H'); auto. intros K. apply (table_decl es e) in K; auto. congruence.
Qed.

(** If more is declared in the extension section, in whatever order, then a text that
    could be read is still read, and its version and its relations are the same. *)
Theorem C58_declarations_read : forall (F : Floats) reg s s' blanks vls els els' pls v es es' trees,
  text_lines s = blanks ++ vls ++ els ++ pls -> text_lines s' = blanks ++ vls ++ els' ++ pls ->
  Forall white blanks -> version_section vls v -> plan_section pls trees ->
  extension_section els es -> extension_section els' es' -> coherent es -> coherent es' -> more_entries es es' ->
  forall p, parse reg s = Ok p ->
  exists p', parse reg s' = Ok p' /\ pl_version _ p' = pl_version _ p /\ pl_rels _ p' = pl_rels _ p /\
    (forall u, In u (pl_urns _ p') <-> In (inl u) es') /\ (forall d, In (Some d) (pl_decls _ p') <-> In (inr d) es').
Proof.
  intros F reg s s' blanks vls els els' pls v es es' trees E E' W V Pl X X' C C' M p H.
  destruct (coherent_adds es C) as (e & A). destruct (coherent_adds es' C') as (e' & A').
  pose proof (proj2 (proj1 (adds_iff es e) A)) as T. pose proof (proj2 (proj1 (adds_iff es' e') A')) as T'.
  assert (Wf : wf_exts e) by now apply (table_wf es). assert (Wf' : wf_exts e') by now apply (table_wf es').
  destruct (text_run s _ _ _ _ _ _ _ _ E W V X A Pl) as (q & R & R1 & R2 & R3).
  destruct (text_run s' _ _ _ _ _ _ _ _ E' W V X' A' Pl) as (q' & R' & R1' & R2' & R3').
  apply prest_lrun in R, R'. unfold parse, parse_plan, parse_text in *.
  unfold StructuralFacts.prest in R, R'. rewrite R in H. rewrite R'. cbn [rbind] in *. unfold build_plan in *.
  apply rbind_ok in H as (rels & Hr & H). rewrite R2 in *. rewrite R2', R1', <- R1. apply rlist_iff in Hr.
  assert (Hr' : Base.rlist (RelRead.build_plan_rel reg e') (finish (ps_tree _ _ q')) = Ok rels).
  { apply rlist_iff. apply (trees_unnumber reg e' (finish (ps_tree _ _ q))); [congruence|].
    eapply Forall2_mono; [|exact Hr]. cbn beta. intros t r K. apply plan_tree_iff; auto. apply plan_tree_iff in K; auto.
    revert K. apply plan_tree_more; auto. now apply (more_tables es es'). }
  rewrite Hr'. cbn [rbind]. injection H as <-. eexists. split; [reflexivity|]. cbn [pl_version pl_rels pl_urns pl_decls]. split; [reflexivity|]. split; [reflexivity|].
  destruct T' as (_ & _ & T1 & T2). split.
  - intros [a n]. rewrite <- T1. unfold to_extension_urns. rewrite in_map_iff. split; [intros ([a' n'] & [= <- <-] & K); exact K|intros K; now exists (a, n)].
  - intros [k u a n]. rewrite <- T2. unfold to_extension_declarations. rewrite in_map_iff.
    split; [intros ([[a' k'] [u' n']] & [= <- <- <- <-] & K); exact K|intros K; now exists ((a, k), (u, n))].
Qed.

(** If a plan declares more, in whatever order, then its text differs in the lines of
    the extension section only. *)
Definition before_plan (vls els : list (list N)) : list N := unlines (vls ++ els ++ (if els then [] else [[]]) ++ [L "=== Plan"]).
Theorem C58_declarations_written : forall (U : Unicode) (F : Floats) reg op p p' es es' s,
  declarations (pl_urns _ p) (pl_decls _ p) es -> declarations (pl_urns _ p') (pl_decls _ p') es' -> coherent es' -> more_entries es es' ->
  pl_version _ p' = pl_version _ p -> pl_rels _ p' = pl_rels _ p -> written_as (format reg op p) s ->
  exists e e' vls els els' body, table_of es e /\ table_of es' e' /\
    SpecLayout.version_lines op (pl_version _ p) vls /\ extension_lines op e els /\ extension_lines op e' els' /\
    s = before_plan vls els ++ body /\ written_as (format reg op p') (before_plan vls els' ++ body).
Proof.
  intros U F reg op p p' es es' s D D' C' M Ev Er H. apply C57_plans in H as (es1 & e & vls & els & bs & H1 & H2 & H3 & H4 & H5 & H6 & H7).
  assert (es1 = es) as ->.
  { destruct H1 as (l & A & ->), D as (m & B & ->). f_equal. f_equal. clear - A B. revert m B. induction A as [|o d os l S A IH]; intros m B; inversion B as [|? f ? m' S' B']; subst; auto.
    f_equal; auto. destruct d as [k u a n], f as [k' u' a' n'], S as (x & E1 & S), S' as (y & E2 & S'). cbn in *. rewrite E1 in E2. injection E2 as <- <- <- <-.
    f_equal. apply stored_iff in S, S'. congruence. }
  destruct (coherent_adds es' C') as (e' & A'). pose proof (proj2 (proj1 (adds_iff es' e') A')) as T'.
  exists e, e', vls, els. eexists. exists (join [10; 10]%N (map (join [10%N]) bs) ++ [10%N]). repeat (split; [eassumption|]).
  split; [now apply extension_lines_iff|]. split; [now rewrite H7|]. apply C57_plans. exists es', e', vls. eexists. exists bs.
  repeat (split; [eassumption|]). rewrite Ev, Er. split; [exact H4|]. split; [now apply extension_lines_iff|]. split; [|reflexivity].
  eapply Forall2_mono; [|exact H6]. apply plan_rel_shown_more; auto. now apply (more_tables es es').
Qed.
Lemma pairs_snoc_iff {A} (R : A -> A -> Prop) l x : ForallOrdPairs R (l ++ [x]) <-> ForallOrdPairs R l /\ forall y, In y l -> R y x.
Proof.
  split; [apply pairs_snoc|]. intros [H K]. induction H as [|y l H1 H2 IH]; [repeat constructor|]. cbn [app]. constructor.
  - apply Forall_app. split; auto. constructor; auto. apply K. now left.
  - apply IH. intros z Hz. apply K. now right.
Qed.
Lemma coherent_lists us ds : coherent (map inl us ++ map inr ds) <->
  ForallOrdPairs (fun u v => u_anchor u <> u_anchor v) us /\
  ForallOrdPairs (fun d f => d_kind d = d_kind f -> d_anchor d <> d_anchor f) ds /\
  forall d, In d ds -> exists u, In u us /\ u_anchor u = d_urn d.
Proof.
  induction ds as [|d ds IH] using rev_ind.
  - cbn [map]. rewrite app_nil_r. assert (G : coherent (map inl us) <-> ForallOrdPairs (fun u v => u_anchor u <> u_anchor v) us).
    { induction us as [|u us IH] using rev_ind.
      - split; [constructor|]. intros _. repeat split; intros; exfalso; match goal with H : _ = ?a ++ _ |- _ => now destruct a end.
      - rewrite map_app. cbn [map]. rewrite coherent_snoc, pairs_snoc_iff, IH. split; intros [H K]; (split; [exact H|]).
        + intros y Hy. apply K. now apply in_map.
        + intros v Hv. apply in_map_iff in Hv as (w & [= ->] & Hw). now apply K. }
    rewrite G. split; [intros H; split; [exact H|split; [constructor|intros ? []]]|tauto].
  - rewrite map_app. cbn [map]. rewrite app_assoc, coherent_snoc, IH, pairs_snoc_iff. split.
    + intros ((H1 & H2 & H3) & H4 & u & Hu & Eu). split; [exact H1|]. split; [split; [exact H2|]|].
      * intros f Hf. apply H4. apply in_or_app. right. now apply in_map.
      * intros f Hf. apply in_app_iff in Hf as [Hf|[<-|[]]]; auto. exists u. split; auto. apply in_app_iff in Hu as [Hu|Hu]; apply in_map_iff in Hu as (x & Ex & Hx); congruence.
    + intros (H1 & (H2 & H2') & H3). split; [split; [exact H1|split; [exact H2|]]|split].
      * intros f Hf. apply H3. apply in_or_app. now left.
      * intros f Hf. apply in_app_iff in Hf as [Hf|Hf]; apply in_map_iff in Hf as (x & Ex & Hx); [discriminate|]. injection Ex as ->. auto.
      * destruct (H3 d) as (u & Hu & Eu); [apply in_or_app; right; now left|]. exists u. split; auto. apply in_or_app. left. now apply in_map.
Qed.
(** The order in which a plan lists its declarations says nothing. *)
Theorem C58_declaration_order_written : forall (U : Unicode) (F : Floats) reg op p p' s,
  Permutation (pl_urns _ p) (pl_urns _ p') -> Permutation (pl_decls _ p) (pl_decls _ p') ->
  pl_version _ p' = pl_version _ p -> pl_rels _ p' = pl_rels _ p ->
  written_as (format reg op p) s -> written_as (format reg op p') s.
Proof.
  intros U F reg op p p' s Pu Pd Ev Er H. apply C57_plans in H as (es & e & vls & els & bs & (l & H1 & ->) & H2 & H3 & H4 & H5 & H6 & H7).
  assert (G : exists l', Forall2 stored (pl_decls _ p') l' /\ Permutation l l').
  { clear - Pd H1. revert l H1. induction Pd as [|o ds ds' P IH|o o' ds|ds ds' ds'' P IH P' IH']; intros l H.
    - inversion H; subst. exists []. split; constructor.
    - inversion H as [|? d ? m S K]; subst. destruct (IH m K) as (l' & A & B). exists (d :: l'). split; constructor; auto.
    - inversion H as [|? d ? m S K]; subst. inversion K as [|? d' ? m' S' K']; subst. exists (d' :: d :: m'). split; [repeat constructor; auto|constructor].
    - destruct (IH l H) as (l' & A & B). destruct (IH' l' A) as (l'' & A' & B'). exists l''. split; auto. eapply Permutation_trans; eauto. }
  destruct G as (l' & D & Pl). assert (P : Permutation (map inl (pl_urns _ p) ++ map (@inr urn_decl ext_decl) l) (map inl (pl_urns _ p') ++ map inr l')).
  { apply Permutation_app; now apply Permutation_map. }
  apply C57_plans. exists (map inl (pl_urns _ p') ++ map inr l'), e, vls, els, bs. rewrite Ev, Er. split; [eexists; split; [exact D|reflexivity]|].
  split; [|split; [now apply (table_order _ _ _ P)|auto]].
  apply coherent_lists. apply coherent_lists in H2 as (C1 & C2 & C3). split; [|split].
  - revert C1. apply pairs_permuted; auto.
  - revert C2. apply pairs_permuted; auto.
  - intros d Hd. destruct (C3 d) as (u & Hu & E); [now apply (Permutation_in _ (Permutation_sym Pl))|]. exists u. split; auto. now apply (Permutation_in _ Pu).
Qed.

(** ** Examples *)
Section Examples.
  #[local] Existing Instance ascii_tables.
  #[local] Existing Instance toy_floats.
  (** The text and the entries of Props_Text.v, without the URN 2 and the function 11. *)
  Definition mx_decls : list string := ["URNs:"; "  @1: a"; "Functions:"; "  #10 @1: gt:any_any"].
  Definition mx_entries : list entry := [inl (mk_urn 1 (L "a")); inr (mk_decl KFunction 1 10 (L "gt:any_any"))].
  Definition mx_plan_lines : list (list N) := map L ["=== Plan"; "Root[x]"; "  Filter[gt($0, 10):boolean => $0]"; "    Read[t => x:i64]"].
  Definition mx_text (decls : list string) : list N := unl (map L ("=== Extensions" :: decls) ++ mx_plan_lines).
  Lemma mx_section : extension_section (map L ("=== Extensions" :: mx_decls)) mx_entries.
  Proof.
    apply (es_some (L "=== Extensions") _ [map L ["URNs:"; "  @1: a"]; map L ["Functions:"; "  #10 @1: gt:any_any"]]
      [[inl (mk_urn 1 (L "a"))]; [inr (mk_decl KFunction 1 10 (L "gt:any_any"))]]).
    - apply level_of. vm_compute. reflexivity.
    - apply TextFacts.only_filter with (f := fun l => negb (blank l)); [intros l; unfold written_line; now rewrite negb_true_iff, blank_false|vm_compute; reflexivity].
    - constructor; [apply (su_urns _ _ [mk_urn 1 (L "a")]); [apply level_of; vm_compute; reflexivity|constructor; [apply urn_read; vm_compute; reflexivity|constructor]]|].
      constructor; [apply (su_functions _ _ [mk_decl KFunction 1 10 (L "gt:any_any")]); [apply level_of; vm_compute; reflexivity|
        constructor; [apply (decl_read _ _ _ (L "gt:any_any")); vm_compute; reflexivity|constructor]]|constructor].
  Qed.
  Lemma mx_coherent : coherent mx_entries.
  Proof.
    apply (coherent_lists [mk_urn 1 (L "a")] [mk_decl KFunction 1 10 (L "gt:any_any")]). repeat split; repeat constructor.
    intros d [<-|[]]. eexists. split; [left; reflexivity|reflexivity].
  Qed.
  Lemma base_gt b : base_name (L "gt:any_any") b -> b = L "gt".
  Proof.
    intros [[_ H]|(sig & E & H)]; [destruct H; vm_compute; tauto|]. destruct b as [|c0 [|c1 [|c2 b]]].
    - discriminate.
    - discriminate.
    - cbn in E. injection E as <- <- _. reflexivity.
    - exfalso. cbn in E. injection E as <- <- <- _. apply H. cbn. tauto.
  Qed.
  Lemma mx_more : more_entries mx_entries tx_entries'.
  Proof.
    split.
    - intros x [<-|[<-|[]]]; vm_compute; tauto.
    - intros d f b Hd Hf Hn _ B. destruct Hd as [Hd|[Hd|[]]]; [discriminate|]. injection Hd as <-. apply base_gt in B as ->.
      destruct Hf as [Hf|[Hf|[Hf|[Hf|[]]]]]; try discriminate; injection Hf as <-.
      + destruct Hn. vm_compute. tauto.
      + intros [[E _]|(sig & E & _)]; discriminate.
  Qed.
  Lemma mx_trees : exists trees, plan_section mx_plan_lines trees.
  Proof.
    destruct (read_root (L "Root[x]")) as [[a|?]|?|?] eqn:Ea; try (vm_compute in Ea; discriminate).
    destruct (read_node (L "Filter[gt($0, 10):boolean => $0]")) as [[b|?]|?|?] eqn:Eb; try (vm_compute in Eb; discriminate).
    destruct (read_node (L "Read[t => x:i64]")) as [[c|?]|?|?] eqn:Ec; try (vm_compute in Ec; discriminate).
    exists [RNode a 0%N [] [RNode b 0%N [] [RNode c 0%N [] []]]].
    apply (pl_some (L "=== Plan") _ (map (fun l => [l]) (tl mx_plan_lines)) (map (fun l => [l]) (tl mx_plan_lines))).
    - apply level_of. vm_compute. reflexivity.
    - do 3 (apply (gr_group _ []); [constructor|intros ? ? E; inversion E; subst; intros K; apply continues_iff in K; vm_compute in K; discriminate|]). constructor.
    - apply only_groups. vm_compute. reflexivity.
    - repeat constructor.
      + apply (reads_means (0%N, _)). split; [reflexivity|]. eexists. split; [exact Ea|reflexivity].
      + apply (reads_means (0%N, _)). split; [reflexivity|]. eexists. split; [exact Eb|reflexivity].
      + apply (reads_means (0%N, _)). split; [reflexivity|]. eexists. split; [exact Ec|reflexivity].
  Qed.
  (** Read with fewer and with more declarations. *)
  Definition mx_plan : plan plan_rel := match parse registry_new (mx_text mx_decls) with Ok p => p | _ => mk_plan _ None [] [] [] end.
  Lemma mx_parts : pl_version _ mx_plan = None /\ pl_urns _ mx_plan = [mk_urn 1 (L "a")] /\ pl_decls _ mx_plan = [Some (mk_decl KFunction 1 10 (L "gt:any_any"))].
  Proof. vm_compute. repeat split. Qed.
  Example mx_read : exists p', parse registry_new (mx_text tx_decls') = Ok p' /\
    pl_version _ p' = pl_version _ mx_plan /\ pl_rels _ p' = pl_rels _ mx_plan /\
    (forall u, In u (pl_urns _ p') <-> In (inl u) tx_entries') /\ (forall d, In (Some d) (pl_decls _ p') <-> In (inr d) tx_entries').
  Proof.
    destruct mx_trees as (trees & T).
    refine (C58_declarations_read _ registry_new (mx_text mx_decls) (mx_text tx_decls') [] [] (map L ("=== Extensions" :: mx_decls))
      (map L ("=== Extensions" :: tx_decls')) mx_plan_lines None mx_entries tx_entries' trees _ _ (Forall_nil _) _ T mx_section tx_section' mx_coherent (proj2 tx_coherent) mx_more mx_plan _).
    - vm_compute. reflexivity.
    - vm_compute. reflexivity.
    - constructor.
    - vm_compute. reflexivity.
  Qed.
  (** The condition on the names is needed: a second function with the base name [gt]
      makes the call ambiguous. *)
  Example mx_ambiguous : forall p, parse registry_new (mx_text (mx_decls ++ ["  #11 @1: gt:i64_i64"])) <> Ok p.
  Proof. intros p H. vm_compute in H. discriminate. Qed.
  (** The same plan, written with fewer and with more declarations, and with these in
      another order. *)
  Definition mx_more_plan (urns : list urn_decl) (decls : list (option ext_decl)) : plan plan_rel := mk_plan _ None urns decls (pl_rels _ mx_plan).
  Definition mx_us : list urn_decl := [mk_urn 1 (L "a"); mk_urn 2 (L "b")].
  Definition mx_ds : list (option ext_decl) := [Some (mk_decl KFunction 1 10 (L "gt:any_any")); Some (mk_decl KFunction 2 11 (L "lt"))].
  Lemma mx_declarations : declarations [mk_urn 1 (L "a")] [Some (mk_decl KFunction 1 10 (L "gt:any_any"))] mx_entries /\ declarations mx_us mx_ds tx_entries'.
  Proof.
    assert (G : forall k u a n, norm_name k n = Some n -> stored (Some (mk_decl k u a n)) (mk_decl k u a n)).
    { intros k u a n E. exists n. split; [reflexivity|]. now apply stored_iff. }
    split; [exists [mk_decl KFunction 1 10 (L "gt:any_any")]|exists [mk_decl KFunction 1 10 (L "gt:any_any"); mk_decl KFunction 2 11 (L "lt")]];
      (split; [repeat (constructor; [apply G; reflexivity|]); constructor|reflexivity]).
  Qed.
  Example mx_written : exists body els els',
    written_as (format registry_new opts_default mx_plan) (before_plan [] els ++ body) /\
    written_as (format registry_new opts_default (mx_more_plan mx_us mx_ds)) (before_plan [] els' ++ body) /\
    written_as (format registry_new opts_default (mx_more_plan (rev mx_us) (rev mx_ds))) (before_plan [] els' ++ body).
  Proof.
    destruct mx_parts as (P1 & P2 & P3). destruct mx_declarations as (D & D'). rewrite <- P2, <- P3 in D.
    assert (W : written_as (format registry_new opts_default mx_plan) (o_text (format registry_new opts_default mx_plan))).
    { split; [vm_compute; reflexivity|]. split; [vm_compute; reflexivity|reflexivity]. }
    destruct (C58_declarations_written ascii_tables toy_floats registry_new opts_default mx_plan (mx_more_plan mx_us mx_ds) mx_entries tx_entries'
      _ D D' (proj2 tx_coherent) mx_more (eq_sym P1) eq_refl W) as (e & e' & vls & els & els' & body & _ & _ & V & _ & _ & E & W').
    rewrite P1 in V. assert (vls = []) as -> by (inversion V; auto).
    exists body, els, els'. split; [|split; [exact W'|]].
    - rewrite <- E. exact W.
    - revert W'. apply C58_declaration_order_written; cbn [mx_more_plan pl_urns pl_decls pl_version pl_rels]; auto using Permutation_rev.
  Qed.
  (** Registrations, accepted and refused, after those of Props_Plan.v. *)
  Example mx_registered : forall l s, written_as (format (run_regs ex_history) opts_default px_plan) s ->
    written_as (format (run_regs (ex_history ++ l)) opts_default px_plan) s /\
    (parse (run_regs ex_history) s = Ok px_plan -> parse (run_regs (ex_history ++ l)) s = Ok px_plan).
  Proof. intros l s H. split; [now apply C58_registrations_written|apply C58_registrations_read]. Qed.
  Example mx_registered_text : written_as (format (run_regs ex_history) opts_default px_plan) (o_text (format (run_regs ex_history) opts_default px_plan)).
  Proof. split; [vm_compute; reflexivity|]. split; [vm_compute; reflexivity|reflexivity]. Qed.
End Examples.
