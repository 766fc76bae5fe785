(** C63: the relations of a plan are read one by one. *)
From Coq Require Import String List NArith ZArith Bool Lia Permutation.
From Verif Require Import Base BaseFacts Lines SpecLines Literals SpecNames SpecLiterals Names Registry Rels Peg Out Anchors Types SimpleExt Calendar Exprs ExtArgs RelGrammar RelRead ExtReadFacts SpecRels Tree Structural StructuralFacts LineView Plan SpecMeaning SpecText
  TextFacts Props_Text Props_Meaning SpecBlocks BlocksFacts BlocksTree.
Import ListNotations.
Local Open Scope string_scope.
Local Open Scope list_scope.
Local Open Scope nat_scope.

Section Read.
  Context (F : Floats).
  Variables (reg : registry) (h0 : list (list N)) (h : list N).
  Hypothesis Hh : plan_header h.

  Lemma parse_at s ls p : text_lines s = h0 ++ h :: ls ->
    parse reg s = Ok p <-> exists v e trees rels, preamble h0 v e /\ plan_section (h :: ls) trees
      /\ Forall2 (plan_tree_means reg e) trees rels /\ p = made_plan v e rels.
  Proof. intros E. rewrite C55_texts. now apply means_at. Qed.
  Lemma trees_concat e ts rels : Forall2 (plan_tree_means reg e) (concat ts) rels <->
    exists rs, rels = concat rs /\ Forall2 (Forall2 (plan_tree_means reg e)) ts rs.
  Proof.
    revert rels. induction ts as [|t ts IH]; intros rels; cbn [concat].
    - split; [intros H; inversion H; exists []; auto|]. intros (rs & -> & H). inversion H. constructor.
    - split.
      + intros H. apply Forall2_app_inv_l in H as (a & b & Ha & Hb & ->). apply IH in Hb as (rs & -> & Hs). exists (a :: rs). auto.
      + intros (rs & -> & H). inversion H; subst. apply Forall2_app; auto. apply IH. eauto.
  Qed.

  Lemma blocks_read bs ss s p : Forall block bs -> bs <> [] -> text_lines s = h0 ++ h :: concat bs ->
    Forall2 (fun b t => text_lines t = h0 ++ h :: b) bs ss ->
    parse reg s = Ok p <-> exists ps, Forall2 (fun t q => parse reg t = Ok q) ss ps /\ Forall (same_preamble p) ps /\
      pl_rels _ p = concat (map (pl_rels _) ps).
  Proof.
    intros Hb Hn E Es. rewrite (parse_at _ _ _ E). split.
    - intros (v & e & trees & rels & Hp & Ht & Hr & ->). apply plan_concat in Ht as (ts & -> & Ht); auto. apply trees_concat in Hr as (rs & -> & Hr).
      exists (map (made_plan v e) rs). split; [|split].
      + clear - Hh Es Ht Hr Hp. revert ss Es rs Hr. induction Ht as [|b t bs ts H _ IH]; intros ss Es rs Hr; inversion Es; subst; inversion Hr; subst; cbn [map]; constructor; auto.
        apply (parse_at _ b); auto. exists v, e, t, y0. auto.
      + apply Forall_map, Forall_forall. intros r _. repeat split.
      + cbn [made_plan pl_rels]. rewrite map_map. cbn [made_plan pl_rels]. now rewrite map_id.
    - intros (ps & Hps & Hs & Er).
      assert (G : forall bs ss ps, Forall2 (fun b t => text_lines t = h0 ++ h :: b) bs ss -> Forall2 (fun t q => parse reg t = Ok q) ss ps ->
        bs <> [] -> exists v e ts rs, preamble h0 v e /\ Forall2 (fun b t => plan_section (h :: b) t) bs ts /\
          Forall2 (Forall2 (plan_tree_means reg e)) ts rs /\ ps = map (made_plan v e) rs).
      { clear - Hh. intros bs ss ps H. revert ps. induction H as [|b t bs ss H Hb IH]; intros ps Hps Hn; [congruence|].
        inversion Hps as [|? q ? qs H1 H2]; subst. apply (parse_at _ b) in H1 as (v & e & trees & rels & Hp & Ht & Hr & ->); auto.
        destruct bs as [|b' bs].
        - inversion Hb; subst. inversion H2; subst. exists v, e, [trees], [rels]. split; [exact Hp|]. repeat split; repeat constructor; auto.
        - destruct (IH qs H2) as (v' & e' & ts & rs & Hp' & Ht' & Hr' & ->); [discriminate|].
          destruct (preamble_one _ _ _ _ _ Hp Hp' rels) as [Ep Ee]. subst e'. assert (v' = v) as -> by now injection Ep.
          exists v, e, (trees :: ts), (rels :: rs). split; [exact Hp|]. split; [now constructor|]. split; [now constructor|]. reflexivity. }
      destruct (G _ _ _ Es Hps Hn) as (v & e & ts & rs & Hp & Ht & Hr & ->). exists v, e, (concat ts), (concat rs). split; [exact Hp|].
      split; [apply plan_concat; eauto|]. split; [apply trees_concat; eauto|].
      assert (Sp : same_preamble p (made_plan v e (concat rs))).
      { destruct rs as [|r rs]; [inversion Hr; subst; inversion Ht; subst; congruence|]. inversion Hs; subst. assumption. }
      destruct p as [pv pu pd pr]. destruct Sp as (S1 & S2 & S3). cbn [made_plan pl_version pl_urns pl_decls pl_rels] in *. subst.
      unfold made_plan. f_equal. rewrite map_map. cbn [made_plan pl_rels]. now rewrite map_id.
  Qed.
End Read.

(** A text whose plan section consists of blocks is read exactly if each block is, behind
    the same version and declarations; the relations are those of the blocks, in order. *)
Theorem C63_blocks (F : Floats) reg h0 h bs ss s p : plan_header h -> Forall block bs -> bs <> [] ->
  text_lines s = h0 ++ h :: concat bs -> Forall2 (fun b t => text_lines t = h0 ++ h :: b) bs ss ->
  parse reg s = Ok p <-> exists ps, Forall2 (fun t q => parse reg t = Ok q) ss ps /\ Forall (same_preamble p) ps /\
    pl_rels _ p = concat (map (pl_rels _) ps).
Proof. intros. now apply (blocks_read F reg h0 h) with (bs := bs). Qed.

(** A block with one line that is not indented is one relation. *)
Theorem C63_single (F : Floats) reg h0 h b s p : plan_header h -> single_block b -> text_lines s = h0 ++ h :: b ->
  parse reg s = Ok p -> exists r, pl_rels _ p = [r].
Proof.
  intros Hh Hb E H. apply (parse_at F reg h0 h Hh s b) in H as (v & e & trees & rels & _ & Ht & Hr & ->); auto.
  destruct (plan_single _ _ _ Hb Ht) as (t & ->). inversion Hr as [|? r ? rs _ H2]; subst. inversion H2; subst. exists r. reflexivity.
Qed.

(** So blocks can be put in another order. *)
Theorem C63_order (F : Floats) reg h0 h bs bs' s s' p : plan_header h -> Forall block bs -> Permutation bs bs' ->
  text_lines s = h0 ++ h :: concat bs -> text_lines s' = h0 ++ h :: concat bs' -> parse reg s = Ok p ->
  exists p', parse reg s' = Ok p' /\ same_preamble p p' /\ Permutation (pl_rels _ p) (pl_rels _ p').
Proof.
  intros Hh Hb P E E' H. apply (parse_at F reg h0 h Hh s (concat bs)) in H as (v & e & trees & rels & Hp & Ht & Hr & ->); auto.
  apply plan_concat in Ht as (ts & -> & Ht); auto. apply trees_concat in Hr as (rs & -> & Hr).
  assert (Hb' : Forall block bs') by (rewrite Forall_forall in *; intros b Hi; apply Hb; eapply Permutation_in; [apply Permutation_sym|]; eauto).
  assert (G : exists ts' rs', Permutation rs rs' /\ Forall2 (fun b t => plan_section (h :: b) t) bs' ts' /\
    Forall2 (Forall2 (plan_tree_means reg e)) ts' rs').
  { clear - P Ht Hr. revert ts rs Ht Hr. induction P as [|b bs bs' P IH|a b bs|b1 b2 b3 P1 IH1 P2 IH2]; intros ts rs Ht Hr.
    - inversion Ht; subst. inversion Hr; subst. exists [], []. auto.
    - inversion Ht as [|? t ? ts0 H1 H2]; subst. inversion Hr as [|? r ? rs0 H3 H4]; subst. destruct (IH _ _ H2 H4) as (ts' & rs' & I1 & I2 & I3).
      exists (t :: ts'), (r :: rs'). auto.
    - inversion Ht as [|? t ? ts0 H1 H2]; subst. inversion H2 as [|? t' ? ts1 H1' H2']; subst. inversion Hr as [|? r ? rs0 H3 H4]; subst.
      inversion H4 as [|? r' ? rs1 H3' H4']; subst. exists (t' :: t :: ts1), (r' :: r :: rs1). split; [apply perm_swap|]. split; auto.
    - destruct (IH1 _ _ Ht Hr) as (t2 & r2 & I1 & I2 & I3). destruct (IH2 _ _ I2 I3) as (t3 & r3 & J1 & J2 & J3). exists t3, r3.
      split; [now transitivity r2|auto]. }
  destruct G as (ts' & rs' & G1 & G2 & G3). exists (made_plan v e (concat rs')). split; [|split].
  - apply (parse_at F reg h0 h Hh s' (concat bs')); auto. exists v, e, (concat ts'), (concat rs'). split; [exact Hp|]. split; [apply plan_concat; eauto|].
    split; [apply trees_concat; eauto|reflexivity].
  - repeat split.
  - cbn [made_plan pl_rels]. clear - G1. induction G1; cbn [concat]; auto.
    + now apply Permutation_app_head.
    + rewrite !app_assoc. apply Permutation_app_tail, Permutation_app_comm.
    + etransitivity; eauto.
Qed.

(** ** Inputs *)

(** What is around an input, and how a failure comes out, follows from the number
    of its columns alone: the input is passed on as it was read. *)
Theorem C63_inputs (F : Floats) reg e T w : node_context T ->
  (exists K, plan_rel_context K /\ forall n r, build_rel reg e n = Ok (r, w) -> build_plan_rel reg e (T n) = Ok (K r)) \/
  (exists er, (forall p, er <> Ok p) /\ forall n r, build_rel reg e n = Ok (r, w) -> build_plan_rel reg e (T n) = er).
Proof.
  intros HT.
  assert (D : forall T', node_context T' -> (forall n r, build_rel reg e n = Ok (r, w) -> build_plan_rel reg e (T' n) = (let? p := build_rel reg e (T' n) in Ok (PRel (fst p)))) ->
    (exists K, plan_rel_context K /\ forall n r, build_rel reg e n = Ok (r, w) -> build_plan_rel reg e (T' n) = Ok (K r)) \/
    (exists er, (forall p, er <> Ok p) /\ forall n r, build_rel reg e n = Ok (r, w) -> build_plan_rel reg e (T' n) = er)).
  { intros T' HT' E. destruct (build_context reg e T' HT' w) as [(C & w' & HC & HB)|(er & Hne & HB)].
    - left. exists (fun x => PRel (C x)). split; [now constructor|]. intros n r Hn. now rewrite (E n r Hn), (HB n r Hn).
    - right. exists (let? p := er in Ok (PRel (fst p))). split.
      + destruct er as [q| |]; [destruct (Hne q eq_refl)| |]; discriminate.
      + intros n r Hn. now rewrite (E n r Hn), (HB n r Hn). }
  destruct HT as [|y l ads xs T ys HT].
  - apply (D _ nc_here). intros [y l ads cs] r Hn. destruct y; try reflexivity.
    exfalso. cbn [build_rel] in Hn. apply rbind_ok in Hn as (? & _ & Hn). apply rbind_ok in Hn as (? & _ & Hn).
    apply rbind_ok in Hn as (? & _ & Hn). discriminate.
  - destruct y as [names| | | | | | | | | | | |]; try (apply (D _ (nc_in _ l ads xs T ys HT)); reflexivity).
    cbn [build_plan_rel]. destruct ads as [|[? la] ads]; [|right; eexists; split; [|reflexivity]; discriminate].
    destruct (lift_plan l (rlist lower_name names)) as [ns|er|er]; cbn [rbind].
    2, 3: right; eexists; split; [|reflexivity]; discriminate.
    assert (Hmany : (xs <> [] \/ ys <> []) -> forall n, match xs ++ T n :: ys with
        | [c] => let? p := build_rel reg e c in Ok (PRoot ns (Some (fst p)))
        | _ => Err (EPlan l (PInvalid "root_relation")) end = Err (EPlan l (PInvalid "root_relation"))).
    { intros H n. destruct xs as [|x [|x' xs]]; [|reflexivity|reflexivity]. destruct ys; [|reflexivity]. destruct H; congruence. }
    destruct xs as [|x xs].
    2: { right. eexists. split; [|intros n r _; apply Hmany; left; discriminate]. discriminate. }
    destruct ys as [|x ys].
    2: { right. eexists. split; [|intros n r _; apply Hmany; right; discriminate]. discriminate. }
    cbn [app]. destruct (build_context reg e T HT w) as [(C & w' & HC & HB)|(er & Hne & HB)].
    + left. exists (fun x => PRoot ns (Some (C x))). split; [now constructor|]. intros n r Hn. now rewrite (HB n r Hn).
    + right. exists (let? p := er in Ok (PRoot ns (Some (fst p)))). split.
      * destruct er as [q| |]; [destruct (Hne q eq_refl)| |]; discriminate.
      * intros n r Hn. now rewrite (HB n r Hn).
Qed.

(** What is put into the place stands in the plan. *)
Theorem C63_kept K r : plan_rel_context K -> exists i, plan_inputs (K r) = [i] /\ subrel r i.
Proof.
  assert (G : forall C, rel_context C -> subrel r (C r)).
  { induction 1 as [|r0 xs C ys Hl HC IH]; [constructor|]. eapply subrel_input; [|exact IH].
    rewrite inputs_with; [apply in_or_app; right; now left|]. rewrite app_length, Hl. reflexivity. }
  intros [C HC|names C HC]; exists (C r); auto.
Qed.

(** ** Example *)

Section Example.
  #[local] Existing Instance toy_floats.
  Definition bx_head : list (list N) := map L ["=== Extensions"; "URNs:"; "  @1: /f"; "Functions:"; "  #10 @1: gt"; ""].
  Definition bx_blocks : list (list (list N)) :=
    [map L ["Root[x]"; "  Filter[gt($0, 1):boolean => $0]"; ""; "    Read[t => a:i64]"; "  "]; map L ["Read:Virtual["; "  - (1),"; "  - (2) => a:i64]"]].
  Definition bx_text (ls : list (list N)) : list N := unl (bx_head ++ L "=== Plan" :: ls).
  Lemma bx_lines ls : Forall nl_free ls -> text_lines (bx_text ls) = bx_head ++ L "=== Plan" :: ls.
  Proof. intros H. apply text_lines_unl. apply Forall_app. split; [|constructor; auto]; repeat constructor. Qed.
  Lemma level_unindented l : fst (indented l) = 0 -> snd (indented l) <> [] -> unindented l.
  Proof. intros H1 H2. exists (snd (indented l)). split; auto. pose proof (at_level_indented l) as H. now rewrite H1 in H. Qed.
  Lemma level_not l : (fst (indented l) <> 0 \/ snd (indented l) = []) -> ~ unindented l.
  Proof. intros H (t & Ht & Hn). apply indented_iff in Ht. rewrite Ht in H. cbn in H. intuition. Qed.
  Lemma bx_single : Forall single_block bx_blocks.
  Proof.
    assert (G : forall l r, fst (indented l) = 0 -> snd (indented l) <> [] ->
      Forall (fun x => fst (indented x) <> 0 \/ snd (indented x) = []) r -> single_block (l :: r)).
    { intros l r H1 H2 H3. exists l, r. split; [reflexivity|]. split; [now apply level_unindented|].
      eapply Forall_impl; [|exact H3]. intros x. apply level_not. }
    apply Forall_cons; [|apply Forall_cons; [|apply Forall_nil]]; (apply G; [reflexivity|discriminate|]);
      repeat (apply Forall_cons; [first [left; discriminate|right; reflexivity]|]); apply Forall_nil.
  Qed.
  Example C63_example : exists p r1 r2, parse registry_new (bx_text (concat bx_blocks)) = Ok p /\ pl_rels _ p = [r1; r2] /\
    (exists q, parse registry_new (bx_text (nth 0 bx_blocks [])) = Ok q /\ same_preamble p q /\ pl_rels _ q = [r1]) /\
    (exists q, parse registry_new (bx_text (nth 1 bx_blocks [])) = Ok q /\ same_preamble p q /\ pl_rels _ q = [r2]).
  Proof. eexists _, _, _. split; [vm_compute; reflexivity|]. split; [reflexivity|].
    split; (eexists; split; [vm_compute; reflexivity|]; split; [repeat split|reflexivity]). Qed.
  (** The hypotheses are met. *)
  Example C63_hypotheses : plan_header (L "=== Plan") /\ Forall block bx_blocks /\
    Forall2 (fun b t => text_lines t = bx_head ++ L "=== Plan" :: b) bx_blocks (map bx_text bx_blocks).
  Proof.
    split; [apply indented_iff; reflexivity|]. split.
    - eapply Forall_impl; [|exact bx_single]. intros b (l & r & E & H & _). exists l, r. auto.
    - repeat constructor; apply bx_lines; repeat constructor.
  Qed.

  (** [Root[x]] over [Filter[gt($1, 10):boolean => $1]] over a union of a place and a read with two columns. *)
  Definition bx_context (n : rnode rline acst) : rnode rline acst :=
    RNode (YRoot [me_name "x"]) 3 [] ([] ++ RNode (YFilter (me_gt "gt") [L "1"]) 4 []
      ([] ++ RNode (YSet (L "&UnionAll") [L "0"; L "1"]) 5 [] ([] ++ n :: [me_read]) :: []) :: []).
  Definition bx_cross (cols : list string) : rnode rline acst :=
    RNode (YCross (map L cols)) 6 [] [me_read; me_read].
  Example C63_context : node_context bx_context.
  Proof. repeat apply nc_in. apply nc_here. Qed.
  (** Two inputs with two columns come out in the same surroundings, and one with three columns does not. *)
  Example C63_inputs_example : exists r1 r2 r3 K,
    build_rel registry_new me_exts me_read = Ok (r1, 2) /\ build_rel registry_new me_exts (bx_cross ["0"; "3"]) = Ok (r2, 2) /\
    build_rel registry_new me_exts (bx_cross ["0"; "3"; "1"]) = Ok (r3, 3) /\ plan_rel_context K /\
    build_plan_rel registry_new me_exts (bx_context me_read) = Ok (K r1) /\
    build_plan_rel registry_new me_exts (bx_context (bx_cross ["0"; "3"])) = Ok (K r2) /\
    build_plan_rel registry_new me_exts (bx_context (bx_cross ["0"; "3"; "1"])) = Err (EPlan 5 (PInvalid "SetRel")).
  Proof.
    destruct (C63_inputs _ registry_new me_exts bx_context 2 C63_context) as [(K & HK & H)|(er & Hne & H)].
    - eexists _, _, _, K. split; [vm_compute; reflexivity|]. split; [vm_compute; reflexivity|]. split; [vm_compute; reflexivity|].
      split; [exact HK|]. split; [apply H; vm_compute; reflexivity|]. split; [apply H; vm_compute; reflexivity|vm_compute; reflexivity].
    - exfalso. assert (Hr : exists r, build_rel registry_new me_exts me_read = Ok (r, 2)) by (eexists; vm_compute; reflexivity).
      destruct Hr as (r & Hr). specialize (H _ _ Hr). vm_compute in H. now apply (Hne _ (eq_sym H)).
  Qed.
End Example.
