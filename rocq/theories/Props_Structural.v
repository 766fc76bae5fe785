(** Properties of the line-level parser, for any grammar of plan lines. *)
From Coq Require Import String List NArith ZArith Bool Lia PeanoNat ZifyBool ZifyN Sorted.
From Verif Require Import Base BaseFacts SimpleExt Out ExtLines Lines LinesFacts SpecLines SpecChunks
  Tree SpecTree TreeFacts Structural StructuralFacts LineView ReadFacts.
Import ListNotations.

(** ** A small grammar for the examples: every line is a relation, except that
    lines below the top level starting with a plus sign are addenda. *)
Definition ex_root (s : list N) : pres (list N + list N) := Ok (inl s).
Definition ex_node (s : list N) : pres (list N + list N) :=
  if starts_with (L "+") s then Ok (inr s) else Ok (inl s).
Definition ex_lines (ls : list string) : list N := concat (map (fun l => L l ++ [10%N]) ls).
Definition ex_read (s : list N) := parse_text (list N) (list N) ex_root ex_node (ps_new _ _) s.
Definition ex_text : list N := ex_lines
  ["=== Version 0.42.7"; "  producer: x"; ""; "=== Extensions"; "URNs:"; "  @  1: a:b";
   ""; "=== Plan"; "Root[a]"; "  Join"; "    + Enh:E"; "    Read"; "      - row"; ""; "    Read  "; "Other"]%string.
Example ex_text_accepted : match ex_read ex_text with Ok p => length (finish (ps_tree _ _ p)) = 2 | _ => False end.
Proof. vm_compute. reflexivity. Qed.

(** ** C14: section order *)

Theorem C14_section_order : forall R A root node s p,
  parse_text R A root node (ps_new R A) s = Ok p ->
  exists order, map header_section (headers s) = map Some order /\ StronglySorted lt order /\
                Forall (fun n => 1 <= n <= 3) order.
Proof.
  intros R A root node s p H. apply (parse_headers R A root node) in H as (rs & E & Hs & _). exists rs. split; auto.
  assert (St : StronglySorted lt (0 :: rs)).
  { apply Sorted_StronglySorted; [|exact Hs]. intros x y z. lia. }
  inversion St as [|? ? S1 S2]; subst. split; auto.
  apply Forall_forall. intros x Hx.
  assert (Hi : In (Some x) (map header_section (headers s))) by (rewrite E; now apply in_map).
  apply in_map_iff in Hi as (h & Hh & _). unfold header_section in Hh.
  destruct (streqb _ _); [injection Hh as <-; lia|]. destruct (streqb _ _); [injection Hh as <-; lia|].
  destruct (starts_with _ _); [injection Hh as <-; lia|discriminate].
Qed.
Example C14_example : map header_section (headers ex_text) = map Some [1; 2; 3].
Proof. vm_compute. reflexivity. Qed.
Example C14_example_rejected :
  match ex_read (ex_lines ["=== Plan"; "Root[a]"; "=== Extensions"]%string) with Err _ => True | _ => False end.
Proof. vm_compute. exact I. Qed.

(** Only blank lines may precede the first header. *)
Theorem C14_text_before_headers : forall R A root node s p,
  parse_text R A root node (ps_new R A) s = Ok p ->
  exists before after, text_lines s = before ++ after /\ Forall (fun l => blank l = true) before /\
    match after with [] => True | h :: _ => starts_with (L "===") h = true end.
Proof.
  intros R A root node s p' H. change (prest R A root node (ps_new R A) 1 s = Ok p') in H.
  assert (Hst : ps_state _ _ (ps_new R A) = SInitial) by reflexivity. revert H Hst.
  generalize (ps_new R A) as p, 1%N as n. remember (text_lines s) as ls eqn:E. symmetry in E. revert s E.
  induction ls as [|l ls IH]; intros s E p n H Hst; [exists [], []; auto|].
  destruct (prest_lines R A root node p n s l ls E) as (rest & Hr & _ & Er). rewrite Er in H. clear Er.
  assert (Hin : in_plan R A p = false) by (unfold in_plan; now rewrite Hst). rewrite Hin in *.
  cbn [lines_chunk fst snd] in *. apply rbind_ok in H as (p1 & H1 & H2).
  assert (Hu : unl [l] = l ++ [c_nl]) by (cbn [unl map concat]; now rewrite app_nil_r). rewrite Hu in H1.
  unfold step in H1. destruct (blank (l ++ [c_nl])) eqn:B.
  - injection H1 as <-. destruct (IH rest Hr p _ H2 Hst) as (b & a & -> & Hb & Ha).
    exists (l :: b), a. split; auto. split; auto. constructor; auto. rewrite blank_app in B. now apply andb_true_iff in B as [B _].
  - apply parse_line_state in H1 as [(S1 & _)|(S1 & _ & S3)]; [|rewrite (S3 Hst) in B; discriminate].
    rewrite starts_with_app_ws in S1 by reflexivity. exists [], (l :: ls). auto.
Qed.

(** ** C15: indentation determines the tree *)

(** Feeding the lines of any forest to the tree builder gives back that forest,
    and no other line sequence does. *)
Theorem C15_tree_round_trip : forall R A (ls : list (nat * lnode R A)) (f : list (rnode R A)),
  (exists b, add_lines builder_empty ls = Ok b /\ finish b = f) <-> ls = flatten_all f.
Proof. intros. rewrite add_lines_iff. split; auto. Qed.

(** Exactly the sequences with proper depths are accepted. *)
Theorem C15_accepted_depths : forall R A (ls : list (nat * lnode R A)),
  (exists b, add_lines builder_empty ls = Ok b) <-> depths_ok 0 ls.
Proof. intros. exact (add_lines_depths R A ls builder_empty). Qed.

(** A text whose lines are those of a forest, one group of lines per node, is
    parsed to that forest. *)
Theorem C15_text_round_trip : forall R A root node s h ks (f : list (rnode R A)),
  text_lines s = h :: concat ks -> trim_end h = L "=== Plan" ->
  Forall line_group ks ->
  Forall (fun k => match k with l :: _ => continuation l = false /\ starts_with (L "===") l = false | [] => False end) ks ->
  Forall2 (reads_as R A root node) (filter written (number_groups 2 ks)) (flatten_all f) ->
  exists p, parse_text R A root node (ps_new R A) s = Ok p /\ finish (ps_tree _ _ p) = f.
Proof.
  intros R A root node s h ks f E Hh Hg Hf Hr.
  change (parse_text R A root node (ps_new R A) s) with (prest R A root node (ps_new R A) 1 s).
  destruct (prest_lines R A root node (ps_new R A) 1 s h _ E) as (rest & Hrest & _ & ->).
  cbn [lines_chunk fst snd length in_plan ps_state ps_new] in *.
  assert (Hp : indented (unl [h]) = (0, L "=== Plan")).
  { cbn [unl map concat]. rewrite app_nil_r, indented_drop by reflexivity. rewrite <- indented_trim, Hh. reflexivity. }
  assert (Hs : step R A root node (ps_new R A) 1 (unl [h]) =
               Ok (mk_parser R A SPlan None xp_default builder_empty)).
  { unfold step. destruct (blank (unl [h])) eqn:B.
    - exfalso. cbn [unl map concat] in B. rewrite app_nil_r, blank_app in B. apply andb_true_iff in B as [B _].
      apply trim_end_by_all in B. unfold trim_end in Hh. rewrite B in Hh. discriminate.
    - unfold parse_line. rewrite Hp. reflexivity. }
  rewrite Hs. cbn [rbind]. change (1 + N.of_nat 1)%N with 2%N.
  destruct (proj2 (C15_tree_round_trip R A (flatten_all f) f) eq_refl) as (b & Hb & Hfin).
  assert (Hfresh : Forall fresh_group ks).
  { clear - Hg Hf. induction ks as [|k ks IH]; constructor; inversion Hg; inversion Hf; subst; auto. split; auto. }
  destruct (prest_groups R A root node ks (mk_parser R A SPlan None xp_default builder_empty) 2 rest (flatten_all f) b)
    as (p' & Hp' & _ & Ht & _); auto.
  exists p'. split; [exact Hp'|congruence].
Qed.
Example C15_example :
  match ex_read (ex_lines ["=== Plan"; "Root[a]"; "  Join"; "    + Enh:E"; "    Read"; "      - row"; "";
                           "    Read  "; "Other"]%string) with
  | Ok p => finish (ps_tree _ _ p) =
      [RNode (L "Root[a]") 2 []
         [RNode (L "Join") 3 [(L "+ Enh:E", 4%N)]
            [RNode (L "Read" ++ [10%N] ++ L "      - row") 5 [] []; RNode (L "Read") 8 [] []]];
       RNode (L "Other") 9 [] []]
  | _ => False
  end.
Proof. vm_compute. reflexivity. Qed.
Example C15_example_too_deep :
  match ex_read (ex_lines ["=== Plan"; "Root[a]"; "    Join"]%string) with Err e => error_line e = 3%N | _ => False end.
Proof. vm_compute. reflexivity. Qed.

(** ** C16: no line is lost *)

(** The lines after the plan header split into groups (a line with its
    continuation lines); the groups that are not blank are, in order, the nodes
    of the tree. *)
Theorem C16_no_line_lost : forall R A root node s p,
  parse_text R A root node (ps_new R A) s = Ok p ->
  match ps_state _ _ p with
  | SPlan =>
      exists before h ks, text_lines s = before ++ h :: concat ks /\ trim_end h = L "=== Plan" /\
        Forall line_group ks /\
        Forall2 (reads_as R A root node)
                (filter written (number_groups (2 + N.of_nat (length before)) ks))
                (flatten_all (finish (ps_tree _ _ p)))
  | _ => finish (ps_tree _ _ p) = [] /\ Forall (fun h => header_section h <> Some 3) (headers s)
  end.
Proof.
  intros R A root node s p H. destruct (accepted_shape R A root node s p H) as [[H1 H2]|[H1 H2]].
  - assert (G : finish (ps_tree R A p) = [] /\ Forall (fun h => header_section h <> Some 3) (headers s)).
    { split; auto. apply (parse_headers R A root node) in H as (rs & E & Hs & Hlast).
      apply Forall_forall. intros h Hh E3.
      assert (Hi : In (Some 3) (map Some rs)) by (rewrite <- E, <- E3; now apply in_map).
      apply in_map_iff in Hi as (x & [= ->] & Hx).
      assert (St : StronglySorted lt rs).
      { apply Sorted_StronglySorted; [intros x y z; lia|]. now inversion Hs. }
      assert (Hle : section_rank (ps_state R A p) = 3 \/ 3 < section_rank (ps_state R A p)).
      { rewrite Hlast. clear - Hx St. generalize (section_rank (ps_state R A (ps_new R A))) as d.
        induction St as [|a l St IH Hf]; intros d; [contradiction|]. rewrite last_cons. destruct Hx as [->|Hx]; [|auto].
        destruct l as [|b l] using rev_ind; [auto|]. right. rewrite last_last. rewrite Forall_forall in Hf. apply Hf.
        apply in_app_iff. right. now left. }
      unfold in_plan in H1. destruct (ps_state R A p); cbn in Hle; try discriminate; lia. }
    unfold in_plan in H1. destruct (ps_state R A p); auto. discriminate.
  - unfold in_plan in H1. destruct (ps_state R A p); try discriminate. exact H2.
Qed.
Example C16_example : match ex_read ex_text with
  | Ok p => map (fun x => (fst x, match snd x with LRel _ l => l | LAdd _ l => l end))
              (flatten_all (finish (ps_tree _ _ p))) =
            [(0, 9%N); (1, 10%N); (2, 11%N); (2, 12%N); (2, 15%N); (0, 16%N)]
  | _ => False end.
Proof. vm_compute. reflexivity. Qed.

(** ** C17: addenda attach to the right relation *)

(** In an accepted sequence of lines an addendum is one level below a relation
    above it, and only addenda of that same relation are in between. *)
Theorem C17_addendum_owner : forall R A (ls : list (nat * lnode R A)) b l1 d a m l2,
  add_lines builder_empty ls = Ok b -> ls = l1 ++ (d, LAdd a m) :: l2 ->
  exists d' l0 r ln ads, d = S d' /\
    l1 = l0 ++ (d', LRel r ln) :: map (fun x => (S d', LAdd (fst x) (snd x))) ads.
Proof.
  intros R A ls b l1 d a m l2 H ->. eapply depths_owner. apply C15_accepted_depths. eauto.
Qed.
(** Every relation line has a node in the tree, whose addenda are exactly the
    addendum lines that follow it, in order. *)
Theorem C17_addenda_of_relation : forall R A (ls : list (nat * lnode R A)) b l1 d r ln rest,
  add_lines builder_empty ls = Ok b -> ls = l1 ++ (d, LRel r ln) :: rest ->
  exists n ads cs, In n (finish b) /\ subnode (RNode r ln ads cs) n /\
    leading_addenda rest = map (fun y => (S d, y)) ads.
Proof.
  intros R A ls b l1 d r ln rest H ->. eapply lines_find. symmetry. apply C15_tree_round_trip. eauto.
Qed.
Example C17_example : match ex_read ex_text with
  | Ok p => match finish (ps_tree _ _ p) with
            | RNode _ _ [] [RNode j 10 [(a, 11%N)] [_; _]] :: _ => j = L "Join" /\ a = L "+ Enh:E"
            | _ => False
            end
  | _ => False end.
Proof. vm_compute. auto. Qed.
Example C17_example_rejected :
  match ex_read (ex_lines ["=== Plan"; "Root[a]"; "  Join"; "  + Enh:E"]%string) with
  | Err e => error_line e = 4%N | _ => False end.
Proof. vm_compute. reflexivity. Qed.

(** ** C18: the chunk reader loses nothing *)

Lemma merges_inv c c1 : merges c c1 -> cu_chunk c = [] -> cu_start c = cu_next c ->
  cu_chunk c1 ++ cu_rest c1 = cu_rest c /\ cu_chunk c1 <> [] /\ cu_start c1 = cu_start c /\
  (cu_rest c1 <> [] -> cu_next c1 = (cu_start c + breaks (cu_chunk c1))%N).
Proof.
  intros H Hc Hn. induction H as [c l Hp|c c1 l H IH Hp].
  - apply peek_line_spec in Hp as (P1 & P2 & P3 & _). unfold merge. cbn [cu_chunk cu_rest cu_start cu_next].
    rewrite Hc, P2, P3. cbn [app]. pose proof (first_line_split (cu_rest c)). pose proof (first_line_nonempty _ P1).
    repeat split; auto. intros Hr. apply first_line_count in Hr. rewrite breaks_count, Hr, Hn. reflexivity.
  - destruct (IH Hc Hn) as (I1 & I2 & I3 & I4). apply peek_line_spec in Hp as (P1 & P2 & P3 & _).
    unfold merge. cbn [cu_chunk cu_rest cu_start cu_next]. rewrite P2, P3.
    repeat split.
    + rewrite <- app_assoc, first_line_split. exact I1.
    + destruct (cu_chunk c1); [congruence|discriminate].
    + exact I3.
    + intros Hr. rewrite I4 by auto. apply first_line_count in Hr. rewrite breaks_app, (breaks_count (fst _)), Hr. lia.
Qed.

Theorem C18_chunks_lose_nothing : forall s ks, chunked (cu_new s 1) ks ->
  concat (map snd ks) = s /\ Forall (fun k => snd k <> []) ks /\ ks = numbered 1 (map snd ks).
Proof.
  intros s ks H. revert H. generalize 1%N as n. intros n H. remember (cu_new s n) as c eqn:E. revert s n E.
  induction H as [|c c1 ks Hm H IH]; intros s n E.
  - destruct s; [|discriminate]. cbn. auto.
  - destruct s as [|x s]; [discriminate|]. injection E as ->.
    destruct (merges_inv _ _ Hm eq_refl eq_refl) as (M1 & M2 & M3 & M4). cbn [cu_rest cu_start] in *.
    unfold cu_finish in *. cbn [fst snd] in *. destruct (IH _ _ eq_refl) as (I1 & I2 & I3).
    cbn [map concat numbered snd]. rewrite I1, M3. repeat split; auto. f_equal.
    rewrite I3 at 1. destruct (cu_rest c1) as [|y t] eqn:Et.
    + destruct ks as [|k ks]; auto. exfalso. cbn in I1. apply app_eq_nil in I1 as [I1 _]. inversion I2. auto.
    + rewrite M4 by discriminate. reflexivity.
Qed.

(** Every text can be read that way, and the parser's own policy is one. *)
Theorem C18_parser_policy : forall E plan c, match next_chunk (E := E) plan c with
  | Ok k => exists c1, merges c c1 /\ ck_raw k = fst (cu_finish c1) /\ ck_line_no k = cu_start c1 /\ ck_rest k = snd (cu_finish c1)
  | Err _ => False
  | Panic _ => cu_rest c = []
  end.
Proof.
  intros E plan c. unfold next_chunk. destruct (peek_line c) as [l|] eqn:El; [|now apply peek_line_none].
  set (c0 := merge c l). assert (Hm : merges c c0) by now constructor.
  assert (Hc : forall f base c1, merges c c1 -> merges c (merge_conts f base c1)).
  { induction f as [|f IH]; intros base c1 H1; cbn [merge_conts]; auto.
    destruct (peek_line c1) as [l1|] eqn:E1; auto. destruct (indented (ln_text l1)) as [dd bb].
    destruct (_ && _); auto. apply IH. econstructor; eauto. }
  destruct plan; eexists; (split; [|repeat split; reflexivity]); auto.
Qed.
Theorem C18_every_text_is_chunked : forall E s, exists ks, chunked (cu_new s 1) ks /\
  (s <> [] -> forall plan, exists k, next_chunk (E := E) plan (mk_cursor [] s 1 1) = Ok k).
Proof.
  intros E s. revert s. assert (G : forall m s n, length s <= m -> exists ks, chunked (cu_new s n) ks).
  { induction m as [|m IH]; intros s n Hl.
    - destruct s; [|cbn in Hl; lia]. exists []. constructor.
    - destruct s as [|x s]; [exists []; constructor|].
      destruct (next_chunk_spec (E := E) false (x :: s) n ltac:(discriminate)) as (k & Hk & _).
      pose proof (C18_parser_policy E false (mk_cursor [] (x :: s) n n)) as P. rewrite Hk in P.
      destruct P as (c1 & P1 & P2 & P3 & P4).
      pose proof (take_chunk_shorter false (x :: s) ltac:(discriminate)) as Hs. cbn [ck_rest] in P4.
      destruct (IH (snd (take_chunk false (x :: s))) k ltac:(lia)) as (ks & Hks). rewrite P4 in Hks.
      eexists. eapply chunked_next; eauto. }
  intros s. destruct (G (length s) s 1%N (le_n _)) as (ks & H). exists ks. split; auto.
  intros Hs plan. destruct (next_chunk_spec (E := E) plan s 1 Hs) as (k & Hk & _). eauto.
Qed.
Example C18_example : exists ks, chunked (cu_new (ex_lines ["a"; "  - b"; "c"]%string) 1) ks /\
  map fst ks = [1; 3]%N.
Proof.
  eexists. split.
  - eapply chunked_next.
    + eapply merges_more; [eapply merges_one; vm_compute; reflexivity|vm_compute; reflexivity].
    + eapply chunked_next; [eapply merges_one; vm_compute; reflexivity|]. constructor.
  - reflexivity.
Qed.

(** ** C32: layout *)

(** Everything but line numbers is unchanged by trailing white space, carriage
    returns and blank lines: whatever is built from the tree, if it does not
    depend on the line numbers in the tree. *)
Theorem C32_layout : forall R A Q root node (build : exts -> rnode R A -> res perror Q) s s',
  (forall e n, norm id (build e n) = norm id (build e (unnumber n))) ->
  tidied (text_lines s) (text_lines s') ->
  norm id (parse_plan R A Q root node build s) = norm id (parse_plan R A Q root node build s').
Proof.
  intros R A Q root node build s s' Hb H. unfold parse_plan.
  pose proof (prest_tidied R A root node _ (ps_new R A) (ps_new R A) 1 1 s s' (le_n _) eq_refl H) as P.
  unfold parse_text. unfold prest in P.
  destruct (parse_chunks R A root node (length s) _ _) as [p|e|x], (parse_chunks R A root node (length s') _ _) as [p'|e'|x'];
    cbn [norm rbind] in P |- *; try congruence.
  assert (E : unnumber_parser R A p = unnumber_parser R A p') by congruence. clear P.
  unfold build_plan.
  assert (E1 : ps_version _ _ p = ps_version _ _ p') by (unfold unnumber_parser in E; congruence).
  assert (E2 : ps_ext _ _ p = ps_ext _ _ p') by (unfold unnumber_parser in E; congruence).
  assert (E3 : map unnumber (finish (ps_tree _ _ p)) = map unnumber (finish (ps_tree _ _ p'))).
  { rewrite <- !finish_unnumber. f_equal. unfold unnumber_parser in E. congruence. }
  rewrite <- E1, <- E2. apply norm_bind; auto.
  revert E3. generalize (finish (ps_tree _ _ p)), (finish (ps_tree _ _ p')). clear - Hb.
  intros f. induction f as [|n f IH]; intros [|n' f'] E; try discriminate; auto.
  cbn [map] in E. injection E as E1 E2. cbn [rlist].
  apply norm_bind. { now rewrite Hb, E1, <- Hb. }
  intros a. apply norm_bind; auto.
Qed.
Example C32_example : tidied
  (text_lines (ex_lines ["=== Plan"; "Root[a]"; "  Read"; "    - row"; "X"]%string))
  (text_lines (ex_lines ["=== Plan "; ""; "Root[a]  "; "  Read"; "    - row  "; "   "; "X"; ""]%string)).
Proof.
  vm_compute. apply tidied_end; [reflexivity|reflexivity|]. apply tidied_blank; [reflexivity|reflexivity|].
  apply tidied_end; [reflexivity|reflexivity|]. apply tidied_same. apply tidied_end; [reflexivity|reflexivity|].
  apply tidied_blank; [reflexivity|reflexivity|]. apply tidied_same. apply tidied_blank; [reflexivity|reflexivity|]. constructor.
Qed.
(** The restriction on blank lines is needed: a blank line in front of a
    continuation line changes the tree. *)
Theorem C32_blank_line_in_group_refuted : exists s s',
  filter (fun l => negb (blank l)) (text_lines s) = filter (fun l => negb (blank l)) (text_lines s') /\
  match ex_read s, ex_read s' with
  | Ok p, Ok p' => map unnumber (finish (ps_tree _ _ p)) <> map unnumber (finish (ps_tree _ _ p'))
  | _, _ => False
  end.
Proof.
  exists (ex_lines ["=== Plan"; "Read"; "  - row"]%string), (ex_lines ["=== Plan"; "Read"; ""; "  - row"]%string).
  split; [reflexivity|]. vm_compute. discriminate.
Qed.

(** ** C37: error locations *)

(** An error raised while reading the lines carries the number of the first line
    of the text that was being parsed, unless no section had been opened yet. *)
Theorem C37_error_line : forall R A root node s e,
  parse_text R A root node (ps_new R A) s = Err e ->
  exists before raw after p, s = before ++ raw ++ after /\ blank raw = false /\
    parse_line R A root node p (1 + breaks before) raw = Err e /\
    (ps_state _ _ p <> SInitial \/ starts_with (L "===") raw = true -> error_line e = (1 + breaks before)%N).
Proof.
  intros R A root node s e H. change (prest R A root node (ps_new R A) 1 s = Err e) in H.
  destruct (prest_err R A root node _ _ _ _ H) as (b & raw & rest & p & E1 & E2 & E3).
  exists b, raw, rest, p. repeat split; auto. intros Hor.
  destruct (parse_line_err R A root node _ _ _ _ E3) as [|(Hs & Hh & He)]; auto. destruct Hor; congruence.
Qed.
Example C37_example :
  match ex_read (ex_lines ["=== Extensions"; ""; "  @  1: a"]%string) with Err e => error_line e = 3%N | _ => False end.
Proof. vm_compute. reflexivity. Qed.
(** Before the first section the reported number is the indentation. *)
Theorem C37_initial_line_refuted : exists s e,
  ex_read s = Err e /\ text_lines s = [[]; []; L "  x"] /\ error_line e = 1%N.
Proof.
  exists (ex_lines [""; ""; "  x"]%string). eexists. split; [vm_compute; reflexivity|]. split; reflexivity.
Qed.
