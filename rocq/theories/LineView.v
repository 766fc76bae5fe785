(** The line parser as a function of the lines of a text. *)
From Coq Require Import String List NArith ZArith Bool Lia PeanoNat ZifyBool ZifyN.
From Verif Require Import Base BaseFacts SimpleExt Out ExtLines Lines LinesFacts SpecLines Tree SpecTree TreeFacts Structural StructuralFacts.
Import ListNotations.

Fixpoint take_while {X} (f : X -> bool) (l : list X) : list X * list X :=
  match l with
  | [] => ([], [])
  | x :: r => if f x then let (a, b) := take_while f r in (x :: a, b) else ([], l)
  end.
Lemma take_while_app {X} (f : X -> bool) l : fst (take_while f l) ++ snd (take_while f l) = l.
Proof. induction l as [|x l IH]; auto. cbn. destruct (f x); auto. destruct (take_while f l). cbn in *. now rewrite IH. Qed.

Definition unl (ls : list (list N)) : list N := concat (map (fun l => l ++ [c_nl]) ls).
Definition nl_free (l : list N) : Prop := contains_char c_nl l = false.

Lemma first_line_nil s : text_lines s = [] -> s = [].
Proof. destruct s as [|c s]; auto. intros E. rewrite text_lines_first in E by discriminate. discriminate. Qed.

Lemma first_line_text s l ls : text_lines s = l :: ls ->
  s <> [] /\ text_lines (snd (first_line s)) = ls /\ nl_free l /\
  (fst (first_line s) = l ++ [c_nl] \/ fst (first_line s) = l /\ snd (first_line s) = []).
Proof.
  intros E. assert (Hs : s <> []) by (intros ->; discriminate). split; auto.
  rewrite text_lines_first in E by auto. injection E as El Els. split; auto. clear Els.
  unfold drop_nl in El. unfold first_line in *. destruct (split_at_char c_nl s) as [[a b]|] eqn:E; cbn [fst snd] in *.
  - apply split_at_char_spec in E as [-> H]. rewrite split_at_char_app in El by auto. subst a. auto.
  - rewrite E in El. subst l. apply split_at_char_none in E. auto.
Qed.

Lemma text_lines_unl ls : Forall nl_free ls -> text_lines (unl ls) = ls.
Proof.
  induction 1 as [|l ls Hl H IH]; auto. cbn [unl map concat]. rewrite <- app_assoc. cbn [app].
  fold (unl ls). rewrite text_lines_cons by auto. now rewrite IH.
Qed.

Lemma is_cont_nl base l : is_cont base (l ++ [c_nl]) = is_cont base l.
Proof. unfold is_cont. now rewrite indented_drop. Qed.
Lemma breaks_app a b : breaks (a ++ b) = (breaks a + breaks b)%N.
Proof. exact (count_nl_app a b). Qed.
Lemma breaks_none a : nl_free a -> breaks a = 0%N.
Proof. exact (count_nl_none a). Qed.
Lemma breaks_unl ls : Forall nl_free ls -> breaks (unl ls) = N.of_nat (length ls).
Proof.
  induction 1 as [|l ls Hl H IH]; auto. cbn [unl map concat]. fold (unl ls). rewrite !breaks_app, (breaks_none l Hl), IH.
  change (breaks [c_nl]) with 1%N. cbn [length]. lia.
Qed.
Lemma text_lines_free s : Forall nl_free (text_lines s).
Proof.
  remember (text_lines s) as ls eqn:E. revert s E. induction ls as [|l ls IH]; intros s E; constructor.
  - symmetry in E. now apply first_line_text in E.
  - symmetry in E. apply first_line_text in E as (_ & E & _). eauto.
Qed.

Lemma conts_view f base s : length s <= f ->
  text_lines (snd (conts f base s)) = snd (take_while (is_cont base) (text_lines s)) /\
  (fst (conts f base s) = unl (fst (take_while (is_cont base) (text_lines s))) \/
   snd (conts f base s) = [] /\ fst (conts f base s) ++ [c_nl] = unl (fst (take_while (is_cont base) (text_lines s)))).
Proof.
  revert s; induction f as [|f IH]; intros s Hl.
  - destruct s; [|cbn in Hl; lia]. auto.
  - cbn [conts]. destruct (text_lines s) as [|l ls] eqn:E.
    { apply first_line_nil in E. subst. auto. }
    pose proof (first_line_text _ _ _ E) as (Hs & Els & Hl1 & Hf).
    destruct s as [|x s]; [congruence|]. set (S := x :: s) in *. cbn [take_while].
    assert (Hc : is_cont base (fst (first_line S)) = is_cont base l).
    { destruct Hf as [->|[-> _]]; auto. apply is_cont_nl. }
    rewrite Hc. destruct (is_cont base l) eqn:Ec; cbn [fst snd]; [|auto].
    pose proof (first_line_shorter S Hs). specialize (IH (snd (first_line S)) ltac:(lia)). rewrite Els in IH.
    destruct (conts f base (snd (first_line S))) as [a b] eqn:Eco. cbn [fst snd] in IH |- *.
    destruct (take_while (is_cont base) ls) as [cs rs] eqn:Et. cbn [fst snd] in IH |- *. destruct IH as [I1 I2].
    split; auto. destruct Hf as [Hf|[Hf Hn]]; rewrite Hf.
    + destruct I2 as [->|[-> I2]].
      * left. reflexivity.
      * right. split; auto. cbn [unl map concat]. rewrite <- app_assoc, I2. reflexivity.
    + right. rewrite Hn in Els. cbn in Els. subst ls. cbn in Et. injection Et as <- <-.
      rewrite Hn in Eco. destruct f; cbn [conts] in Eco; injection Eco as <- <-; rewrite app_nil_r; split; auto;
        cbn [unl map concat]; now rewrite app_nil_r.
Qed.

(** The lines of the next chunk. *)
Definition lines_chunk (plan : bool) (l : list N) (ls : list (list N)) : list (list N) * list (list N) :=
  if plan then take_while (is_cont (fst (indented l))) ls else ([], ls).

Lemma take_chunk_view plan s l ls : text_lines s = l :: ls ->
  text_lines (snd (take_chunk plan s)) = snd (lines_chunk plan l ls) /\
  (fst (take_chunk plan s) = unl (l :: fst (lines_chunk plan l ls)) \/
   snd (take_chunk plan s) = [] /\ fst (take_chunk plan s) ++ [c_nl] = unl (l :: fst (lines_chunk plan l ls))).
Proof.
  intros E. pose proof (first_line_text _ _ _ E) as (Hs & Els & Hl1 & Hf).
  unfold take_chunk, lines_chunk. destruct (first_line s) as [fl a] eqn:Ef. cbn [fst snd] in Els, Hf.
  assert (Hi : indented fl = indented l). { destruct Hf as [->|[-> _]]; auto. now apply indented_drop. }
  destruct plan.
  - rewrite Hi. destruct (conts_view (length a) (fst (indented l)) a (le_n _)) as [C1 C2]. rewrite Els in C1, C2.
    destruct (conts _ _ a) as [c r] eqn:Ec. destruct (take_while _ ls) as [cs rs] eqn:Et. cbn [fst snd] in *. split; auto.
    destruct Hf as [->|[-> ->]].
    + destruct C2 as [->|[-> C2]]; [left; reflexivity|right]. split; auto. cbn [unl map concat]. now rewrite <- app_assoc, C2.
    + right. cbn in Ec. injection Ec as <- <-. cbn in Els. subst ls. cbn in Et. injection Et as <- <-.
      rewrite app_nil_r. split; auto. cbn [unl map concat]. now rewrite app_nil_r.
  - cbn [fst snd]. split; auto. cbn [unl map concat]. rewrite app_nil_r. destruct Hf as [->|[-> ->]]; auto.
Qed.

Section Parser.
  Variables R A : Type.
  Variable parse_root : list N -> pres (R + A).
  Variable parse_node : list N -> pres (R + A).
  Notation parser := (parser R A).
  Notation parse_line := (parse_line R A parse_root parse_node).
  Notation in_plan := (in_plan R A).
  Notation step := (step R A parse_root parse_node).
  Notation prest := (prest R A parse_root parse_node).

  Lemma blank_app a b : blank (a ++ b) = blank a && blank b.
  Proof. apply forallb_app. Qed.

  Lemma step_nl p n raw : step p n (raw ++ [c_nl]) = step p n raw.
  Proof.
    unfold StructuralFacts.step. rewrite blank_app. change (blank [c_nl]) with true. rewrite andb_true_r.
    now rewrite parse_line_drop.
  Qed.

  (** One chunk, in terms of lines. *)
  Lemma prest_lines p n s l ls : text_lines s = l :: ls ->
    exists rest, text_lines rest = snd (lines_chunk (in_plan p) l ls) /\ length rest < length s /\
    prest p n s =
      rbind (step p n (unl (l :: fst (lines_chunk (in_plan p) l ls))))
        (fun p' => prest p' (n + N.of_nat (S (length (fst (lines_chunk (in_plan p) l ls))))) rest).
  Proof.
    intros E. pose proof (first_line_text _ _ _ E) as (Hs & _).
    exists (snd (take_chunk (in_plan p) s)).
    pose proof (text_lines_free s) as Hfree. rewrite E in Hfree.
    destruct (take_chunk_view (in_plan p) s l ls E) as [V1 V2].
    split; auto. split; [now apply take_chunk_shorter|].
    rewrite prest_step by auto.
    assert (Hfr : Forall nl_free (l :: fst (lines_chunk (in_plan p) l ls))).
    { inversion_clear Hfree. constructor; auto. unfold lines_chunk. destruct (in_plan p); [|constructor].
      rewrite <- (take_while_app (is_cont (fst (indented l))) ls) in H0. now apply Forall_app in H0. }
    destruct V2 as [V2|[V3 V2]].
    - rewrite V2, (breaks_unl _ Hfr). reflexivity.
    - rewrite <- V2, step_nl. destruct (step p n _); cbn [rbind]; auto. rewrite V3. reflexivity.
  Qed.

  (** ** Line numbers do not matter *)

  Definition unnumber_lnode (x : lnode R A) : lnode R A :=
    match x with LRel r _ => LRel r 0 | LAdd a _ => LAdd a 0 end.
  Definition unnumber_builder (b : builder R A) : builder R A :=
    mk_builder (option_map unnumber (b_current b)) (map unnumber (b_completed b)).
  Definition unnumber_parser (p : parser) : parser :=
    mk_parser _ _ (ps_state _ _ p) (ps_version _ _ p) (ps_ext _ _ p) (unnumber_builder (ps_tree _ _ p)).
  Definition unline (e : perror) : perror :=
    match e with
    | EInitial _ => EInitial 0
    | EValidation _ m => EValidation 0 m
    | EExtension _ e => EExtension 0 e
    | EPlan _ e => EPlan 0 e
    | EDetail _ w => EDetail 0 w
    | EUnregistered _ x => EUnregistered 0 x
    end.
  Definition norm {X} (f : X -> X) (r : res perror X) : res perror X :=
    match r with Ok a => Ok (f a) | Err e => Err (unline e) | Panic s => Panic s end.

  Lemma at_depth_unnumber d f g m (n : rnode R A) :
    (forall n, g (unnumber n) = rmap unnumber (f n)) ->
    at_depth d g m (unnumber n) = rmap unnumber (at_depth d f m n).
  Proof.
    intros H. revert n; induction d as [|d IH]; intros n; cbn [at_depth]; auto.
    destruct n as [r l ads cs]. cbn [unnumber]. rewrite <- map_rev. destruct (rev cs) as [|x y]; auto.
    cbn [map]. rewrite IH. destruct (at_depth d f m x); cbn [rbind rmap]; auto.
    cbn [unnumber]. now rewrite map_app, map_rev.
  Qed.
  Lemma at_current_unnumber d f g m (b : builder R A) :
    (forall n, g (unnumber n) = rmap unnumber (f n)) ->
    at_current d g m (unnumber_builder b) = rmap unnumber_builder (at_current d f m b).
  Proof.
    intros H. unfold at_current, unnumber_builder at 1. cbn [b_current].
    destruct (b_current b) as [n|]; cbn [option_map]; auto.
    rewrite (at_depth_unnumber d f g m n H). destruct (at_depth d f m n); reflexivity.
  Qed.
  Lemma add_line_unnumber b d x :
    add_line (unnumber_builder b) d (unnumber_lnode x) = rmap unnumber_builder (add_line b d x).
  Proof.
    unfold add_line. destruct x as [r l|a l], d as [|d]; cbn [unnumber_lnode]; auto.
    - cbn [rmap rbind]. unfold unnumber_builder. cbn [b_current b_completed option_map unnumber map].
      do 2 f_equal. rewrite map_app. now destruct (b_current b).
    - apply at_current_unnumber. intros [r' l' ads cs]. cbn [push_child unnumber rmap rbind].
      now rewrite map_app.
    - apply at_current_unnumber. intros [r' l' ads cs]. cbn [push_addendum unnumber].
      destruct cs; cbn [map rmap rbind]; auto. cbn [unnumber]. now rewrite map_app.
  Qed.
  Lemma unnumber_unnumber (n : rnode R A) : unnumber (unnumber n) = unnumber n.
  Proof.
    induction n as [r l ads cs IH] using rnode_ind2. cbn [unnumber]. f_equal.
    - rewrite map_map. reflexivity.
    - rewrite map_map. apply map_ext_in. now apply Forall_forall.
  Qed.
  Lemma finish_unnumber b : finish (unnumber_builder b) = map unnumber (finish b).
  Proof. unfold finish. cbn. rewrite map_app. now destruct (b_current b). Qed.

  Ltac norms := cbn [rbind rmap norm unline].

  Lemma next_number_norm n m ps : norm id (next_number n ps) = norm id (next_number m ps).
  Proof. unfold next_number. destruct ps as [|[|c r] ps]; auto. destruct (parse_u32 _); auto. Qed.
  Lemma norm_bind {X Y} (x y : res perror X) (f g : X -> res perror Y) (h : Y -> Y) :
    norm id x = norm id y -> (forall a, norm h (f a) = norm h (g a)) -> norm h (rbind x f) = norm h (rbind y g).
  Proof.
    intros H Hf. destruct x, y; cbn in *; try congruence. unfold id in H. injection H as ->. auto.
  Qed.
  Lemma version_header_norm n m r : norm id (parse_version_header n r) = norm id (parse_version_header m r).
  Proof.
    unfold parse_version_header. apply norm_bind; [apply next_number_norm|intros x].
    apply norm_bind; [apply next_number_norm|intros y]. apply norm_bind; [apply next_number_norm|intros z].
    destruct (snd z); auto.
  Qed.
  Lemma version_detail_norm n m v r : norm id (parse_version_detail n v r) = norm id (parse_version_detail m v r).
  Proof.
    unfold parse_version_detail. destruct (split_at_char _ _) as [[k x]|]; auto. destruct v; auto.
    destruct (streqb _ _); auto. destruct (streqb _ _); auto.
  Qed.
  Lemma section_header_norm p q n m s : ps_version _ _ p = ps_version _ _ q ->
    norm id (parse_section_header R A p n s) = norm id (parse_section_header R A q m s).
  Proof.
    intros E. unfold parse_section_header. rewrite E. destruct (streqb _ _); auto. destruct (streqb _ _); auto.
    destruct (strip_prefix _ _) as [r|]; auto. destruct (match r with [] => _ | _ => _ end); auto.
    unfold rmap. apply norm_bind; auto. apply version_header_norm.
  Qed.

  Lemma parse_line_norm p n m raw :
    norm unnumber_parser (parse_line p n raw) = norm unnumber_parser (parse_line (unnumber_parser p) m raw).
  Proof.
    unfold Structural.parse_line. destruct (indented raw) as [i s].
    destruct (match i with 0 => _ | _ => _ end).
    - apply norm_bind; [now apply section_header_norm|]. intros [st v]. cbn [fst snd].
      cbn [unnumber_parser ps_state]. destruct (_ <=? _); auto. cbn [norm]. f_equal. unfold unnumber_parser. cbn.
      f_equal. unfold unnumber_builder. cbn. f_equal.
      + destruct (b_current _); cbn; auto. now rewrite unnumber_unnumber.
      + rewrite map_map. apply map_ext. intros; symmetry; apply unnumber_unnumber.
    - assert (Hb : forall b, unnumber_builder (unnumber_builder b) = unnumber_builder b).
      { intros b. unfold unnumber_builder. cbn. f_equal.
        - destruct (b_current _); cbn; auto. now rewrite unnumber_unnumber.
        - rewrite map_map. apply map_ext. intros; apply unnumber_unnumber. }
      destruct p as [st v x t]. cbn [unnumber_parser ps_state ps_version ps_ext ps_tree].
      assert (Hp : forall st v x, norm unnumber_parser (Ok (mk_parser R A st v x t))
                   = norm unnumber_parser (Ok (mk_parser R A st v x (unnumber_builder t)))).
      { intros. cbn [norm]. unfold unnumber_parser. cbn. now rewrite Hb. }
      destruct st.
      + destruct i; auto. destruct (trim s); auto. apply Hp.
      + destruct i as [|[|i]]; auto.
        * destruct (trim s); auto. apply Hp.
        * apply norm_bind; [apply version_detail_norm|]. intros. apply Hp.
      + apply norm_bind; [|intros; apply Hp]. destruct (ext_parse_line _ _); auto.
      + apply norm_bind. { destruct (match i with 0 => _ | _ => _ end); auto. }
        intros a.
        assert (Hn : forall b n, norm unnumber_builder (lift_tree n (add_line b i (to_lnode R A n a))) =
                 lift_tree 0 (add_line (unnumber_builder b) i (unnumber_lnode (to_lnode R A n a)))).
        { intros b k. rewrite add_line_unnumber. destruct (add_line b i _) as [|[]|]; auto. }
        assert (Hu : forall n, unnumber_lnode (to_lnode R A n a) = to_lnode R A 0 a) by (intros; destruct a; auto).
        pose proof (Hn t n) as H1. pose proof (Hn (unnumber_builder t) m) as H2.
        rewrite Hu in H1, H2. rewrite Hb in H2. rewrite <- H2 in H1.
        destruct (lift_tree n _), (lift_tree m _); cbn [norm rbind] in H1 |- *; try congruence.
        match type of H1 with Ok ?x = Ok ?y => assert (E : x = y) by congruence end.
        unfold unnumber_parser. cbn [ps_state ps_version ps_ext ps_tree]. now rewrite E.
  Qed.
  Lemma unnumber_parser_idem p : unnumber_parser (unnumber_parser p) = unnumber_parser p.
  Proof.
    unfold unnumber_parser. cbn. f_equal. unfold unnumber_builder. cbn. f_equal.
    - destruct (b_current _); cbn; auto. now rewrite unnumber_unnumber.
    - rewrite map_map. apply map_ext. intros; apply unnumber_unnumber.
  Qed.
  Lemma step_norm p q n m raw : unnumber_parser p = unnumber_parser q ->
    norm unnumber_parser (step p n raw) = norm unnumber_parser (step q m raw).
  Proof.
    intros E. unfold StructuralFacts.step. destruct (blank raw); [cbn [norm]; now rewrite E|].
    rewrite (parse_line_norm p n 0), (parse_line_norm q m 0), E. reflexivity.
  Qed.

  (** ** Tidying *)

  Lemma take_while_none {X} (f : X -> bool) l : match l with [] => True | x :: _ => f x = false end -> take_while f l = ([], l).
  Proof. destruct l as [|x l]; auto. cbn. now intros ->. Qed.

  Lemma continuation_cont base l : continuation l = false -> is_cont base l = false.
  Proof. unfold continuation, is_cont. intros ->. apply andb_false_r. Qed.
  Lemma fresh_take base ls : starts_fresh ls = true -> take_while (is_cont base) ls = ([], ls).
  Proof.
    intros H. apply take_while_none. destruct ls; auto. cbn in H. apply continuation_cont. now destruct (continuation l).
  Qed.
  Lemma blank_fresh l : blank l = true -> continuation l = false.
  Proof.
    intros H. unfold continuation, indented. assert (trim_end l = []) as -> by now apply trim_end_by_all. reflexivity.
  Qed.
  Lemma trim_continuation l l' : trim_end l = trim_end l' -> continuation l = continuation l'.
  Proof. intros E. unfold continuation. rewrite <- (indented_trim l), <- (indented_trim l'), E. reflexivity. Qed.
  Lemma tidied_fresh ls ls' : tidied ls ls' -> starts_fresh ls = true -> starts_fresh ls' = true.
  Proof.
    induction 1; cbn [starts_fresh]; intros Hf; auto.
    - now rewrite <- (trim_continuation l l').
    - now rewrite blank_fresh.
  Qed.
  Lemma trim_blank l l' : trim_end l = trim_end l' -> blank l = blank l'.
  Proof.
    intros E. unfold blank. destruct (forallb is_ws l) eqn:B, (forallb is_ws l') eqn:B'; auto.
    - apply trim_end_by_all in B. unfold trim_end in E. rewrite B in E. symmetry in E. apply trim_end_by_all in E. congruence.
    - apply trim_end_by_all in B'. unfold trim_end in E. rewrite B' in E. apply trim_end_by_all in E. congruence.
  Qed.
  Lemma step_trim p n a b : trim_end a = trim_end b -> step p n a = step p n b.
  Proof.
    intros E. unfold StructuralFacts.step. rewrite (trim_blank a b E). destruct (blank b); auto.
    unfold Structural.parse_line. now rewrite <- (indented_trim a), <- (indented_trim b), E.
  Qed.
  Lemma trim_end_nl a b : trim_end a = trim_end b -> trim_end (a ++ [c_nl]) = trim_end (b ++ [c_nl]).
  Proof. unfold trim_end. intros E. rewrite !trim_end_by_drop by reflexivity. exact E. Qed.
  Lemma trim_end_cons_app x a b : trim_end a = trim_end b -> trim_end (x ++ a) = trim_end (x ++ b).
  Proof.
    unfold trim_end. intros E. destruct (trim_end_by is_ws a) as [|c t] eqn:Ea.
    - symmetry in E. apply trim_end_by_all in Ea. apply trim_end_by_all in E. now rewrite !trim_end_by_drop.
    - rewrite !trim_end_by_app by congruence. congruence.
  Qed.

  (** The continuation lines of tidied texts agree up to trailing white space. *)
  Lemma tidied_take base ls ls' : tidied ls ls' ->
    (fst (take_while (is_cont base) ls) = [] <-> fst (take_while (is_cont base) ls') = []) /\
    trim_end (unl (fst (take_while (is_cont base) ls))) = trim_end (unl (fst (take_while (is_cont base) ls'))) /\
    tidied (snd (take_while (is_cont base) ls)) (snd (take_while (is_cont base) ls')).
  Proof.
    induction 1 as [|l ls ls' H IH|l l' ls ls' E Hf H IH|l ls ls' Hb Hf H IH].
    - cbn. repeat split; auto. constructor.
    - cbn [take_while]. destruct (is_cont base l).
      + destruct (take_while (is_cont base) ls) as [a b], (take_while (is_cont base) ls') as [a' b'].
        cbn [fst snd] in *. destruct IH as (_ & IH & IH2). split; [split; discriminate|]. split; auto.
        cbn [unl map concat]. fold (unl a) (unl a'). now apply trim_end_cons_app.
      + cbn. repeat split; auto. now constructor.
    - cbn [take_while]. assert (Hc : is_cont base l = is_cont base l').
      { unfold is_cont. now rewrite <- (indented_trim l), <- (indented_trim l'), E. }
      rewrite <- Hc. destruct (is_cont base l).
      + rewrite (fresh_take base ls Hf), (fresh_take base ls' (tidied_fresh _ _ H Hf)). cbn [fst snd].
        split; [split; discriminate|]. split; auto. cbn [unl map concat]. rewrite !app_nil_r. now apply trim_end_nl.
      + cbn. repeat split; auto. now constructor.
    - cbn [take_while]. rewrite (continuation_cont base l) by now apply blank_fresh.
      rewrite (fresh_take base ls Hf). cbn. repeat split; auto. now constructor.
  Qed.

  Lemma tidied_nil_l ls' : tidied [] ls' -> Forall (fun l => blank l = true) ls'.
  Proof. remember [] as ls. induction 1; try discriminate; auto. Qed.

  Lemma prest_blank ls : Forall (fun l => blank l = true) ls -> forall p n s, text_lines s = ls -> prest p n s = Ok p.
  Proof.
    induction 1 as [|l ls Hl H IH]; intros p n s E.
    - apply first_line_nil in E. subst. reflexivity.
    - destruct (prest_lines p n s l ls E) as (rest & Hr & _ & ->).
      assert (Hc : lines_chunk (in_plan p) l ls = ([], ls)).
      { unfold lines_chunk. destruct (in_plan p); auto. apply fresh_take. destruct ls; auto. cbn.
        inversion H. now rewrite blank_fresh. }
      rewrite Hc in Hr |- *. cbn [fst snd] in Hr |- *. unfold StructuralFacts.step at 1.
      assert (B : blank (unl [l]) = true).
      { cbn [unl map concat]. rewrite !blank_app, Hl. reflexivity. }
      rewrite B. cbn [rbind]. now apply IH.
  Qed.

  Lemma prest_tidied k : forall p q n m s s', length s + length s' <= k ->
    unnumber_parser p = unnumber_parser q -> tidied (text_lines s) (text_lines s') ->
    norm unnumber_parser (prest p n s) = norm unnumber_parser (prest q m s').
  Proof.
    induction k as [k IH] using (well_founded_induction Wf_nat.lt_wf). intros p q n m s s' Hk Hpq H.
    assert (Hin : in_plan p = in_plan q). { unfold unnumber_parser in Hpq. injection Hpq as E. intros. unfold Structural.in_plan. now rewrite E. }
    remember (text_lines s) as ls eqn:E. remember (text_lines s') as ls' eqn:E'. symmetry in E, E'.
    assert (Hgo : forall l l' r r', ls = l :: r -> ls' = l' :: r' ->
       trim_end (unl (l :: fst (lines_chunk (in_plan p) l r))) = trim_end (unl (l' :: fst (lines_chunk (in_plan p) l' r'))) ->
       tidied (snd (lines_chunk (in_plan p) l r)) (snd (lines_chunk (in_plan p) l' r')) ->
       norm unnumber_parser (prest p n s) = norm unnumber_parser (prest q m s')).
    { intros l l' r r' -> -> Ht Hr.
      destruct (prest_lines p n s l r E) as (rest & Hrest & Hlen & ->).
      destruct (prest_lines q m s' l' r' E') as (rest' & Hrest' & Hlen' & ->). rewrite <- Hin in *.
      rewrite (step_trim q m _ _ (eq_sym Ht)).
      pose proof (step_norm p q n m (unl (l :: fst (lines_chunk (in_plan p) l r))) Hpq) as Hs.
      destruct (step p n _) as [p1|e1|x1], (step q m _) as [p2|e2|x2]; cbn [norm rbind] in Hs |- *; try congruence.
      assert (Hs' : unnumber_parser p1 = unnumber_parser p2) by congruence. clear Hs. rename Hs' into Hs. eapply IH; [|reflexivity|exact Hs|]. lia. rewrite Hrest, Hrest'. exact Hr. }
    destruct H as [|l ls ls' H|l l' ls ls' Ee Hf H|l ls ls' Hb Hf H].
    - apply first_line_nil in E, E'. subst. rewrite !prest_nil. cbn [norm]. now rewrite Hpq.
    - apply (Hgo l l ls ls' eq_refl eq_refl); unfold lines_chunk; destruct (in_plan p); cbn [fst snd]; auto.
      + destruct (tidied_take (fst (indented l)) ls ls' H) as (_ & T & _). cbn [unl map concat]. now apply trim_end_cons_app.
      + now apply tidied_take.
    - assert (Hi : indented l = indented l') by now rewrite <- (indented_trim l), <- (indented_trim l'), Ee.
      pose proof (tidied_fresh _ _ H Hf) as Hf'.
      apply (Hgo l l' ls ls' eq_refl eq_refl); unfold lines_chunk; rewrite <- ?Hi; destruct (in_plan p); cbn [fst snd];
        rewrite ?(fresh_take _ ls Hf), ?(fresh_take _ ls' Hf'); cbn [fst snd]; auto;
        cbn [unl map concat]; rewrite !app_nil_r; now apply trim_end_nl.
    - (* the inserted blank line is skipped *)
      destruct (prest_lines q m s' l ls' E') as (rest' & Hrest' & Hlen' & ->).
      assert (Hc : lines_chunk (in_plan q) l ls' = ([], ls')).
      { unfold lines_chunk. destruct (in_plan q); auto. apply fresh_take. eauto using tidied_fresh. }
      rewrite Hc in *. cbn [fst snd] in *.
      assert (B : blank (unl [l]) = true). { cbn [unl map concat]. rewrite !blank_app, Hb. reflexivity. }
      unfold StructuralFacts.step at 1. rewrite B. cbn [rbind].
      eapply IH; [|reflexivity|exact Hpq|]; [lia|]. rewrite E, Hrest'. exact H.
  Qed.
End Parser.
