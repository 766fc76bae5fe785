(** What every accepted text leads to: the version and the trees it was read into. *)
From Coq Require Import String List NArith ZArith Bool Lia PeanoNat.
From Verif Require Import Base BaseFacts Peg Names Out SimpleExt SimpleExtFacts SpecExt ExtLinesFacts SpecExtLines Lines SpecLines LinesFacts
  ExtReadFacts SpecChunks Tree Structural StructuralFacts LineView Version PreambleFacts SpecPlan ReadFacts.
Import ListNotations.
Local Open Scope nat_scope.

Section Parser.
  Variables R A : Type.
  Variable root : list N -> pres (R + A).
  Variable node : list N -> pres (R + A).
  Notation parser := (Structural.parser R A).
  Notation in_plan := (Structural.in_plan R A).
  Notation step := (StructuralFacts.step R A root node).
  Notation prest := (StructuralFacts.prest R A root node).

  (** An invariant of the steps is one of the whole. *)
  Lemma prest_inv (I : parser -> Prop) :
    (forall p n l p', nl_free l \/ in_plan p = true -> step p n l = Ok p' -> I p -> I p') ->
    forall s p n p', prest p n s = Ok p' -> I p -> I p'.
  Proof.
    intros HI. enough (G : forall m ls p n s p', length ls <= m -> text_lines s = ls -> prest p n s = Ok p' -> I p -> I p').
    { intros s p n p'. eapply G; [apply le_n|reflexivity]. }
    intros m. induction m as [|m IH]; intros [|l ls] p n s p' Hm E H F; cbn [length] in Hm; try lia;
      try (apply first_line_nil in E; subst; rewrite prest_nil in H; congruence).
    pose proof (text_lines_free s) as Hfree. rewrite E in Hfree. inversion Hfree; subst.
    destruct (prest_lines R A root node p n s l ls E) as (rest & Hr & _ & Er). rewrite Er in H. clear Er.
    apply rbind_ok in H as (p1 & H1 & H4).
    assert (F1 : I p1).
    { destruct (in_plan p) eqn:Ep.
      - eapply HI; [right; exact Ep|exact H1|exact F].
      - cbn [lines_chunk fst unl map concat] in H1. rewrite app_nil_r, step_nl in H1.
        eapply HI; [left; exact H2|exact H1|exact F]. }
    refine (IH _ _ _ _ _ _ Hr H4 F1). pose proof (chunk_app (in_plan p) l ls) as Ha.
    apply (f_equal (@length _)) in Ha. rewrite app_length in Ha. cbn [length] in Ha. lia.
  Qed.
  Lemma parse_text_inv (I : parser -> Prop) :
    (forall p n l p', nl_free l \/ in_plan p = true -> step p n l = Ok p' -> I p -> I p') ->
    forall s p, parse_text R A root node (ps_new R A) s = Ok p -> I (ps_new R A) -> I p.
  Proof. intros HI s p H. exact (prest_inv I HI s _ _ _ H). Qed.

  (** ** Versions *)
  Definition version_fine (v : option version) : Prop :=
    match v with
    | None => True
    | Some v =>
        (v_major v <= 4294967295 /\ v_minor v <= 4294967295 /\ v_patch v <= 4294967295)%N /\
        text_kept (v_producer v) /\ text_kept (v_git v)
    end.

  Lemma next_number_bound n ps x : next_number n ps = Ok x -> (fst x <= 4294967295)%N.
  Proof.
    destruct ps as [|[|c p] ps]; try discriminate. cbn [next_number]. destruct (parse_u32 (c :: p)) eqn:E; [|discriminate].
    intros [= <-]. apply parse_u32_bound in E. now apply N.leb_le.
  Qed.
  Lemma version_header_fine n s v : parse_version_header n s = Ok v -> version_fine (Some v).
  Proof.
    unfold parse_version_header. intros H. apply rbind_ok in H as (x & Hx & H). apply rbind_ok in H as (y & Hy & H).
    apply rbind_ok in H as (z & Hz & H). destruct (snd z); [|discriminate]. injection H as <-.
    apply next_number_bound in Hx, Hy, Hz. repeat split; assumption.
  Qed.
  Lemma trim_free s : nl_free s -> nl_free (trim s).
  Proof.
    unfold trim, nl_free. intros H.
    assert (G : forall s, contains_char c_nl s = false -> contains_char c_nl (trim_start s) = false).
    { clear. induction s as [|c s IH]; intros H; [reflexivity|]. destruct (is_ws c) eqn:E.
      - rewrite trim_start_ws by exact E. apply IH. cbn [contains_char existsb] in H. now apply orb_false_iff in H.
      - now rewrite trim_start_nows by exact E. }
    assert (G2 : forall s, contains_char c_nl s = false -> contains_char c_nl (trim_end s) = false).
    { intros t Ht. destruct (trim_end_by_split is_ws t) as (w & E & _). rewrite E, contains_char_app in Ht. now apply orb_false_iff in Ht. }
    auto.
  Qed.
  Lemma version_detail_fine n v s w : nl_free s -> version_fine v -> parse_version_detail n v s = Ok w -> version_fine (Some w).
  Proof.
    intros Hs Hv H. unfold parse_version_detail in H. destruct (split_at_char c_colon s) as [[k x]|] eqn:E; [|discriminate].
    destruct v as [v|]; [|discriminate]. destruct Hv as ((B1 & B2 & B3) & P & G).
    assert (K : text_kept (trim x)).
    { apply split_at_char_spec in E as [E _]. split; [|apply trim_trim]. change (nl_free (trim x)). apply trim_free.
      unfold nl_free in *. rewrite E, contains_char_app in Hs. apply orb_false_iff in Hs as [_ Hs].
      cbn [contains_char existsb] in Hs. now apply orb_false_iff in Hs. }
    destruct (streqb (trim k) (L "producer")).
    - injection H as <-. repeat split; assumption || apply P || apply G || apply K.
    - destruct (streqb (trim k) (L "git_hash")); [|discriminate]. injection H as <-.
      repeat split; assumption || apply P || apply G || apply K.
  Qed.
  Lemma step_version p n l p' : nl_free l \/ in_plan p = true -> step p n l = Ok p' ->
    version_fine (ps_version _ _ p) -> version_fine (ps_version _ _ p').
  Proof.
    intros Hl. unfold StructuralFacts.step. destruct (blank l); [congruence|]. unfold Structural.parse_line.
    destruct (indented l) as [i s] eqn:Ei. destruct (match i with 0 => starts_with (L "===") s | _ => false end).
    - intros H F. apply rbind_ok in H as (nv & Hn & H). destruct (_ <=? _); [discriminate|]. injection H as <-. cbn [ps_version].
      unfold parse_section_header in Hn. destruct (streqb s hdr_extensions); [now injection Hn as <-|].
      destruct (streqb s hdr_plan); [now injection Hn as <-|]. destruct (strip_prefix hdr_version s); [|discriminate].
      destruct (match l0 with [] => true | c :: _ => (c =? c_sp)%N end); [|discriminate].
      apply rmap_ok in Hn as (v & Hv & ->). now apply version_header_fine in Hv.
    - destruct (ps_state R A p) eqn:Es.
      + destruct i; [destruct (trim s)|]; intros [= <-]; auto.
      + destruct i as [|[|i]]; [destruct (trim s)| |]; try discriminate; [now intros [= <-]|].
        intros H F. apply rbind_ok in H as (v & Hv & H). injection H as <-. cbn [ps_version].
        destruct Hl as [Hl|Hl]; [|unfold Structural.in_plan in Hl; rewrite Es in Hl; discriminate].
        eapply version_detail_fine; [|exact F|exact Hv]. now apply (indented_free l 1 s).
      + intros H F. apply rbind_ok in H as (x & Hx & H). now injection H as <-.
      + intros H F. apply rbind_ok in H as (x & Hx & H). apply rbind_ok in H as (t & _ & H). now injection H as <-.
  Qed.
  Lemma read_version_fine s p : parse_text R A root node (ps_new R A) s = Ok p -> version_fine (ps_version _ _ p).
  Proof.
    intros H. refine (parse_text_inv (fun p => version_fine (ps_version _ _ p)) _ s p H I). exact step_version.
  Qed.
End Parser.
