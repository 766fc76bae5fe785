(** Properties of reading relations: output mappings, child counts, bounds. *)
From Coq Require Import String List NArith ZArith Bool Lia.
From Verif Require Import Base BaseFacts Peg PegFacts PegYields Names SpecNames NamesFacts SimpleExt Out Anchors Types TypesFacts
  Literals SpecLiterals Exprs ExprEq ExtArgs Registry Rels RelGrammar RelRead Tree Structural ExtReadFacts
  SpecRels RelReadFacts RelTreeFacts RelGrammarFacts SpecTree TreeFacts Plan.
Import ListNotations.
Local Open Scope string_scope.
Local Open Scope list_scope.
Local Open Scope nat_scope.

(** ** C19: output mappings *)

(** The columns emitted by an accepted Filter, Sort, Fetch, Join, Set or Cross line
    are the written references, in order; the parser's column count is their
    number; and the output is [Direct] exactly when they are all the columns
    offered, in order. *)
Theorem C19_output_mapping : forall (F : Floats) e y refs cs adv r w,
  line_refs y = Some refs ->
  lower_rel e y cs adv = Ok (r, w) ->
  let n := offered y (map snd cs) in
  (Z.of_nat n <= column_limit)%Z ->
  exists k vs, rel_emit r = Some k /\ Forall2 ref_value refs vs /\
    emit_columns k n = vs /\ w = length vs /\
    (k = EmDirect <-> vs = map Z.of_nat (seq 0 n)).
Proof.
  intros F e y refs cs adv r w Hy H n Hn. destruct (lower_rel_emit e y refs cs adv r w Hy H) as (k & Hp & Hk).
  fold n in Hp. apply parse_emit_ok in Hp as (m & Hm & Ek & Ew). exists k, m.
  destruct (make_emit_spec m n Hn) as [H1 H2]. subst k. auto.
Qed.

(** The columns of a Read: all of them without a reference list, the written
    references with one. *)
Theorem C19_read_mapping : forall (F : Floats) e t o cs adv r w,
  lower_rel e (YRead t o) cs adv = Ok (r, w) ->
  exists k cols, rel_emit r = Some k /\ w = length (emit_columns k (length cols)) /\
    match o with
    | OImplicit c | ODirect c None => k = EmDirect /\ lower_columns e c = Ok cols
    | ODirect c (Some refs) => lower_columns e c = Ok cols /\ Forall2 ref_value refs (emit_columns k (length cols))
    end.
Proof.
  intros F e t o cs adv r w H. cbn [lower_rel] in H. destruct cs; [|discriminate].
  apply rbind_ok in H as (ns & _ & H). apply rbind_ok in H as ([[cols common] n] & Ho & H). injection H as <- <-.
  unfold lower_output in Ho. destruct o as [c|c [refs|]].
  - apply rbind_ok in Ho as (cols' & Hc & Ho). injection Ho as <- <- <-. exists EmDirect, cols'. cbn.
    rewrite map_length, seq_length. auto.
  - apply rbind_ok in Ho as (cols' & Hc & Ho). apply guard_drop_ok in Hc.
    apply rbind_ok in Ho as (m & Hm & Ho). injection Ho as <- <- <-. exists (EmEmit m), cols'. cbn.
    repeat split; auto. unfold output_mapping in Hm. apply rlist_ok_inv in Hm.
    eapply Forall2_imp; [|exact Hm]. intros; now apply field_index_ok.
  - apply rbind_ok in Ho as (cols' & Hc & Ho). apply guard_drop_ok in Hc. injection Ho as <- <- <-.
    exists EmDirect, cols'. cbn. rewrite map_length, seq_length. auto.
Qed.

(** ** C20: Project *)

(** The expressions of an accepted Project are those written, in order; the k-th
    emitted column is the written reference, or the column of the expression
    written there. *)
Theorem C20_project_mapping : forall (F : Floats) e args cs adv r w,
  lower_rel e (YProject args) cs adv = Ok (r, w) ->
  let n := list_sum (map snd cs) in
  (Z.of_nat (n + length args) <= column_limit)%Z ->
  exists k i xs, r = RProject (Some (mk_common (Some k) false)) (Some i) xs adv /\
    w = length args /\
    Forall2 (fun c x => lower_expr e c = Ok x) (project_exprs args) xs /\
    Forall2 (fun a z => match a with
                        | PaRef s => ref_value s z
                        | PaExpr c => exists x, lower_expr e c = Ok x /\ project_column n xs z = Some (inr x)
                        end)
            args (emit_columns k (n + length xs)).
Proof.
  intros F e args cs adv r w H n Hn. cbn [lower_rel] in H. apply rbind_ok in H as (i & _ & H).
  apply rbind_ok in H as ([xs m] & Hp & H). cbn [fst snd] in H. injection H as <- <-.
  change (total cs) with n in *. pose proof (lower_project_ok e n args [] xs m Hp) as [H1 H2].
  { cbn [length]. rewrite Nat.add_0_r. exact Hn. }
  exists (make_emit m (n + length xs)), i, xs. split; [reflexivity|].
  assert (Hlen : length args = length m) by now apply Forall2_len in H2.
  split; [auto|]. split; [auto|].
  assert (Hx : length xs <= length args).
  { apply Forall2_len in H1. rewrite <- H1. clear. unfold project_exprs. induction args as [|[] l IH]; cbn; lia. }
  destruct (make_emit_spec m (n + length xs)) as [-> _]; [lia|]. exact H2.
Qed.

(** ** C21: Aggregate *)

(** The grouping expressions of an accepted Aggregate are the distinct expressions
    of the written sets in the order of their first occurrence; each grouping
    lists the positions of its set's expressions. *)
Theorem C21_grouping_sets : forall (F : Floats) e g outs cs adv r w,
  lower_rel e (YAggregate g outs) cs adv = Ok (r, w) ->
  exists c i xs groups ms sets, r = RAggregate c i xs groups ms adv /\
    Forall2 (Forall2 (fun c x => lower_expr e c = Ok x)) (written_sets g) sets /\
    xs = firsts (concat sets) /\ NoDup xs /\
    Forall2 (fun s gr => gr_exprs gr = [] /\ Forall2 (fun x i => nth_error xs (N.to_nat i) = Some x) s (gr_refs gr))
            sets groups.
Proof.
  intros F e g outs cs adv r w H. cbn [lower_rel] in H. apply rbind_ok in H as (i & _ & H).
  apply rbind_ok in H as (sets & Hs & H). destruct (build_grouping_fields sets) as [groups xs] eqn:E.
  apply rbind_ok in H as ([ms m] & _ & H). cbn [fst snd] in H. injection H as <- _.
  do 5 eexists. exists sets. split; [reflexivity|].
  apply build_grouping_fields_spec in E as (E1 & E2 & E3). split; [|auto].
  destruct g as [l|l]; cbn in Hs |- *.
  - apply rlist_ok_inv in Hs. eapply Forall2_imp; [|exact Hs]. intros a b Hab. now apply rlist_ok_inv in Hab.
  - apply rbind_ok in Hs as (ys & Hy & Hs). injection Hs as <-. constructor; [|constructor]. now apply rlist_ok_inv in Hy.
Qed.

(** The k-th emitted column of an accepted Aggregate is the k-th written item: the
    grouping expression it equals, or a measure reading it; and the measures are
    those items, in order. *)
Theorem C21_output_mapping : forall (F : Floats) e g outs cs adv r w,
  lower_rel e (YAggregate g outs) cs adv = Ok (r, w) ->
  exists k i xs groups ms, r = RAggregate (Some (mk_common (Some k) false)) i xs groups ms adv /\
    ((Z.of_nat (length xs + length outs) <= column_limit)%Z ->
     w = length outs /\
     exists items, ms = measures_of items /\
       Forall2 (fun c i => exists x, lower_expr e c = Ok x /\
                  match i with
                  | inl y => y = x /\ In x xs
                  | inr m => ~ In x xs /\ exists f a t fn, c = XCall f a t /\
                               lower_measure e (f, a, t) = Ok fn /\ m = mk_measure (Some fn) None
                  end) outs items /\
       Forall2 (fun i z => aggregate_column xs ms z = Some i) items (emit_columns k (length xs + length ms))).
Proof.
  intros F e g outs cs adv r w H. cbn [lower_rel] in H. apply rbind_ok in H as (i & _ & H).
  apply rbind_ok in H as (sets & Hs & H). destruct (build_grouping_fields sets) as [groups xs] eqn:E.
  apply rbind_ok in H as ([ms m] & Ho & H). cbn [fst snd] in H. injection H as <- <-.
  do 5 eexists. split; [reflexivity|]. intros Hn.
  destruct (lower_outputs_ok e xs outs [] ms m Ho) as (items & H1 & H2 & H3).
  { cbn [length]. rewrite Nat.add_0_r. exact Hn. }
  pose proof (Forall2_len _ _ _ H2) as L2. pose proof (Forall2_len _ _ _ H3) as L3.
  split; [congruence|]. exists items. split; auto. split; auto.
  assert (Hm : length ms <= length items).
  { rewrite H1. clear. unfold measures_of. induction items as [|[] l IH]; cbn; lia. }
  destruct (make_emit_spec m (length xs + length ms)) as [-> _]; [lia|]. exact H3.
Qed.

(** ** C22: child counts *)

(** Every relation of an accepted text has the number of inputs its operator
    needs, and the inputs of a Set have one width. *)
Theorem C22_child_counts : forall (F : Floats) reg s p,
  parse reg s = Ok p ->
  Forall (fun q => length (plan_inputs q) = 1) (pl_rels _ p) /\
  forall x, in_plan_rels x (pl_rels _ p) -> arity_ok x /\ set_widths_ok x.
Proof.
  intros F reg s p H.
  assert (Hf : Forall (fun q => exists i, plan_inputs q = [i] /\ forall x, subrel x i -> arity_ok x /\ set_widths_ok x) (pl_rels _ p)).
  { apply (parse_all (fun i => forall x, subrel x i -> arity_ok x /\ set_widths_ok x) reg s p); auto.
    intros e n r w _ Hb. now apply build_rel_fine in Hb. }
  rewrite Forall_forall in Hf. split.
  - apply Forall_forall. intros q Hq. destruct (Hf q Hq) as (i & -> & _). reflexivity.
  - intros x (q & r & Hq & Hr & Hx). destruct (Hf q Hq) as (i & E & Hi). rewrite E in Hr. destruct Hr as [<-|[]]. auto.
Qed.

(** No line of an accepted text is dropped when relations are built: every line
    has its relation, with the lines below it as its inputs, in order. *)
Lemma build_rel_inputs `{F : Floats} reg e n : forall r w, build_rel reg e n = Ok (r, w) -> same_inputs n r.
Proof.
  induction n as [y line ads cs IH] using rnode_ind2. intros r w H. cbn [build_rel] in H.
  apply rbind_ok in H as (l & Hl & H). apply rbind_ok in H as (ads' & _ & H).
  apply parse_relation_inputs in H as [Hi _]. constructor. rewrite Hi. apply rlist_ok_inv in Hl. clear - IH Hl.
  induction Hl as [|c [r w] cs l Hc Hl IHl]; constructor; inversion IH; subst; cbn; eauto.
Qed.
Theorem C22_inputs_kept : forall (F : Floats) reg s p,
  parse reg s = Ok p ->
  exists ps, parse_text rline acst read_root read_node (ps_new _ _) s = Ok ps /\
    Forall2 same_plan_inputs (finish (ps_tree _ _ ps)) (pl_rels _ p).
Proof.
  intros F reg s p H. unfold parse, parse_plan in H. apply rbind_ok in H as (ps & Hps & H). exists ps. split; auto.
  unfold build_plan in H. apply rbind_ok in H as (rels & Hr & H). injection H as <-. cbn [pl_rels].
  apply rlist_ok_inv in Hr. eapply Forall2_imp; [|exact Hr]. clear. intros [y line ads cs] q H.
  assert (Ho : (let? p := build_rel reg (ExtLines.xp_exts (ps_ext rline acst ps)) (RNode y line ads cs) in Ok (PRel (fst p))) = Ok q ->
            Forall2 same_inputs [RNode y line ads cs] (plan_inputs q)).
  { intros Hb. apply rbind_ok in Hb as ([i w] & Hi & Hb). injection Hb as <-. constructor; [|constructor].
    eapply build_rel_inputs; eauto. }
  destruct y; try (now apply Ho).
  cbn [build_plan_rel] in H. destruct ads as [|[a l] ads]; [|discriminate].
  apply rbind_ok in H as (ns & Hn & H). destruct cs as [|c [|c' cs]]; try discriminate.
  apply rbind_ok in H as ([i w] & Hi & H). injection H as <-. constructor; [|constructor]. eapply build_rel_inputs; eauto.
Qed.

(** ** C33: Fetch bounds *)

(** No Fetch of an accepted text has a negative number, or any number but a
    64-bit integer, as its limit or offset. *)
Theorem C33_fetch_bounds : forall (F : Floats) reg s p x,
  parse reg s = Ok p -> in_plan_rels x (pl_rels _ p) -> bounds_ok x.
Proof.
  intros F reg s p x H (q & r & Hq & Hr & Hx).
  assert (Hf : Forall (fun q => exists i, plan_inputs q = [i] /\ forall x, subrel x i -> bounds_ok x) (pl_rels _ p)).
  { apply (parse_all (fun i => forall x, subrel x i -> bounds_ok x) reg s p); auto.
    intros e n r' w Hl Hb. apply (build_all reg e readable bounds_ok) with (n := n) (w := w); auto.
    clear. intros y line ads cs r w Hy H. apply (readable_yields fetch_line_ok fetch_line_yields) in Hy; [|intros; exact I].
    destruct r; try exact I. unfold parse_relation in H. destruct y; try (
      apply rbind_ok in H as (adv' & _ & H); apply lift_plan_ok in H; cbn [lower_rel] in H).
    all: try (repeat (apply rbind_ok in H as (? & _ & H)); discriminate).
    - destruct cs; [|discriminate]. apply rbind_ok in H as (? & _ & H). apply rbind_ok in H as ([[? ?] ?] & _ & H). discriminate.
    - destruct cs; [|discriminate]. apply rbind_ok in H as (? & _ & H). discriminate.
    - destruct cs; [|discriminate]. repeat (apply rbind_ok in H as (? & _ & H)). discriminate.
    - apply rbind_ok in H as (? & _ & H). apply rbind_ok in H as (? & _ & H). destruct (build_grouping_fields _).
      apply rbind_ok in H as (? & _ & H). discriminate.
    - apply rbind_ok in H as (i & _ & H). apply rbind_ok in H as (u & _ & H). apply rbind_ok in H as (k & _ & H).
      apply rbind_ok in H as (cn & Hc & H). apply rbind_ok in H as (of & Ho & H). injection H as _ _ <- <- _ _.
      cbn in Hy. assert (Hb : forall what n m, lower_fetch_opt e what (imap_get n args) = Ok m -> bound_ok m).
      { intros what n m Hm. destruct (imap_get n args) as [v|] eqn:Ev; cbn in Hm.
        - apply rmap_ok in Hm as (m' & Hm & ->). apply (lower_fetch_ok e what v); auto.
          clear - Hy Ev. induction args as [|[n' v'] l IH]; [discriminate|]. cbn in Ev. inversion Hy; subst.
          destruct (streqb n n'); [injection Ev as <-; auto|auto].
        - injection Hm as <-. exact I. }
      split; eauto.
    - destruct cs as [|? [|? ?]]; try discriminate. destruct (forallb _ _); [|discriminate].
      repeat (apply rbind_ok in H as (? & _ & H)). discriminate.
    - destruct ads; [|discriminate]. apply rbind_ok in H as (? & _ & H). destruct (child_count_ok _ _); [|discriminate].
      apply rbind_ok in H as (? & _ & H). destruct k; discriminate. }
  rewrite Forall_forall in Hf. destruct (Hf q Hq) as (i & E & Hi). rewrite E in Hr. destruct Hr as [<-|[]]. auto.
Qed.

(** Each of limit and offset is given at most once in an accepted Fetch, and each
    ends up where its name says: absent if not written, the number or expression
    written with that name otherwise. *)
Lemma has_duplicate_spec {V} (l : list (list N * V)) : has_duplicate l = false -> NoDup (map fst l).
Proof.
  induction l as [|[k v] l IH]; cbn; intros H; constructor; bool_hyps; auto.
  intros Hin. apply in_map_iff in Hin as ([k' v'] & <- & Hin). cbn in *.
  assert (E : existsb (fun p => streqb k' (fst p)) l = true).
  { apply existsb_exists. exists (k', v'). split; auto. apply streqb_refl. }
  congruence.
Qed.
Lemma imap_get_in {V} k v (l : list (list N * V)) : NoDup (map fst l) -> In (k, v) l -> imap_get k l = Some v.
Proof.
  induction l as [|[k' v'] l IH]; cbn; intros Hn Hi; [tauto|]. inversion Hn; subst. destruct Hi as [[= -> ->]|Hi].
  - now rewrite streqb_refl.
  - destruct (streqb k k') eqn:E; auto. apply streqb_eq in E as ->. exfalso. apply H1.
    now apply (in_map fst) in Hi.
Qed.
Lemma imap_get_none {V} k (l : list (list N * V)) : ~ In k (map fst l) -> imap_get k l = None.
Proof.
  induction l as [|[k' v'] l IH]; cbn; intros Hn; auto. destruct (streqb k k') eqn:E; auto.
  apply streqb_eq in E as ->. tauto.
Qed.

Definition written_bound `{F : Floats} (e : exts) (v : fvc) (m : fetch_mode) : Prop :=
  match v with
  | FvInt s => exists z, read_Z s = Some z /\ m = FmExpr (ELit (mk_lit (Some (LI64 z)) false 0))
  | FvExpr c => exists x, lower_expr e c = Ok x /\ m = FmExpr x
  end.
Theorem C33_fetch_names : forall (F : Floats) e args refs cs adv r w,
  lower_rel e (YFetch args refs) cs adv = Ok (r, w) ->
  NoDup (map fst args) /\
  exists c i count offset, r = RFetch c i count offset adv /\
    forall name m, In (name, m) [(L "limit", count); (L "offset", offset)] ->
      match m with
      | None => ~ In name (map fst args)
      | Some m => exists v, In (name, v) args /\ written_bound e v m
      end.
Proof.
  intros F e args refs cs adv r w H. cbn [lower_rel] in H.
  apply rbind_ok in H as (i & _ & H). apply rbind_ok in H as (u & Hu & H). apply rbind_ok in H as (k & _ & H).
  apply rbind_ok in H as (cn & Hc & H). apply rbind_ok in H as (of & Ho & H). injection H as <- _.
  destruct (has_duplicate args) eqn:Ed; [discriminate|]. apply has_duplicate_spec in Ed. split; auto.
  do 4 eexists. split; [reflexivity|].
  assert (Hb : forall what n m, lower_fetch_opt e what (imap_get n args) = Ok m ->
            match m with
            | None => ~ In n (map fst args)
            | Some m => exists v, In (n, v) args /\ written_bound e v m
            end).
  { clear - Ed. intros what n m H. destruct (imap_get n args) as [v|] eqn:Ev; cbn in H.
    - apply rmap_ok in H as (m' & H & ->). exists v. split.
      + clear - Ev. induction args as [|[n' v'] l IH]; [discriminate|]. cbn in Ev. destruct (streqb n n') eqn:E.
        * apply streqb_eq in E as ->. injection Ev as ->. now left.
        * right. auto.
      + destruct v as [s|c]; cbn in H |- *.
        * unfold parse_i64, parse_int in H. destruct (read_Z s) as [z|]; [|discriminate].
          destruct (in_range _ _ _); [|discriminate]. destruct (z <? 0)%Z; [discriminate|]. injection H as <-. eauto.
        * apply rmap_ok in H as (x & Hx & ->). eauto.
    - injection H as <-. intros Hin. apply in_map_iff in Hin as ([n' v] & E & Hin). cbn in E. subst n'.
      apply imap_get_in in Hin; auto. congruence. }
  intros name m [[= <- <-]|[[= <- <-]|[]]]; [exact (Hb _ _ _ Hc)|exact (Hb _ _ _ Ho)].
Qed.

(** ** C39: join columns *)

(** The output clause of a join lists columns of the join's documented output:
    all of them when the output is direct, those of the mapping otherwise. *)
Theorem C39_join_columns : forall (U : Unicode) (F : Floats) op reg e l r x p t adv c k name n,
  enum_name join_types t = Some name ->
  join_output name (emitted (view_of reg op e l)) (emitted (view_of reg op e r)) n ->
  (Z.of_nat n <= column_limit)%Z -> op_show_emit op = false ->
  rc_emit c = Some k -> Forall (fun z => (0 <= z < Z.of_nat n)%Z) (emit_columns k n) ->
  exists h cs, view_of reg op e (RJoin (Some c) (Some l) (Some r) x p t adv) = View h cs /\
    o_text (output_clause op h) = L "=> " ++ join (L ", ") (map (fun z => L "$" ++ show_Z z) (emit_columns k n)).
Proof.
  intros U F op reg e l r x p t adv c k name n Ht Hj Hn Hop Hk Hr.
  exists (join_header reg op e (Some c) (emitted (view_of reg op e l)) (emitted (view_of reg op e r)) x p t adv),
    [Some (view_of reg op e l); Some (view_of reg op e r)]. split; [reflexivity|].
  assert (Hw : join_width t (emitted (view_of reg op e l)) (emitted (view_of reg op e r)) = n).
  { revert Ht Hj. generalize (emitted (view_of reg op e l)) (emitted (view_of reg op e r)). intros a b Ht Hj.
    unfold join_types in Ht. cbn [enum_name] in Ht.
    repeat match type of Ht with (if (?z =? t)%Z then _ else _) = _ =>
      destruct (Z.eqb_spec z t) as [<-|]; [injection Ht as <-; inversion Hj; subst; reflexivity|] end. discriminate. }
  unfold join_header. rewrite Hw. unfold output_clause. cbn [hd_explicit get_emit].
  cbn [oapp o_text txt]. f_equal. rewrite osep_text. f_equal.
  unfold shown_columns. rewrite Hop. cbn [hd_emit hd_cols get_emit]. rewrite Hk.
  assert (Hcol : forall i, i < n -> nth_error (ref_columns n) i = Some (txt (L "$" ++ show_Z (Z.of_nat i)))).
  { intros i Hi. unfold ref_columns. rewrite nth_error_map.
    rewrite (nth_error_nth' _ 0) by now rewrite seq_length. cbn [option_map]. rewrite seq_nth by auto. cbn [Nat.add].
    rewrite wrap_index by lia. reflexivity. }
  destruct k as [|m]; cbn [emit_columns] in *.
  - unfold ref_columns. rewrite !map_map. apply map_ext_in. intros i Hi. apply in_seq in Hi.
    rewrite wrap_index by lia. reflexivity.
  - rewrite map_map. apply map_ext_in. intros z Hz. rewrite Forall_forall in Hr. specialize (Hr z Hz).
    unfold zget. replace (z <? 0)%Z with false by lia. rewrite Hcol by lia. rewrite Z2Nat.id by lia. reflexivity.
Qed.

(** ** C23: column counts *)

Lemma ref_columns_length n : length (ref_columns n) = n.
Proof. unfold ref_columns. now rewrite map_length, seq_length. Qed.
Lemma zip_fields_length `{U : Unicode} op e (l : list (list N * ptype)) :
  length (zip_fields op e (map fst l) (map snd l)) = length l.
Proof. induction l as [|[n t] l IH]; cbn; congruence. Qed.
Lemma shown_count h k n w : hd_emit h = Some k -> length (hd_cols h) = n ->
  (k = EmDirect /\ w = n \/ exists m, k = EmEmit m /\ w = length m) -> hd_emitted h = w.
Proof. unfold hd_emitted. intros -> <- [[-> ->]|(m & -> & ->)]; reflexivity. Qed.

Section Counts.
  Context `{U : Unicode} `{F : Floats}.
  Variable reg : registry.
  Variable op : options.
  Variable e' : exts.

  Lemma lower_rel_shown e y cs adv r w :
    Forall (fun c => emitted (view_of reg op e' (fst c)) = snd c) cs -> ~ narrow_join r ->
    lower_rel e y cs adv = Ok (r, w) -> emitted (view_of reg op e' r) = w.
  Proof.
    intros Hc Hj H.
    assert (He : forall refs, line_refs y = Some refs -> exists k, rel_emit r = Some k /\
              (k = EmDirect /\ w = offered y (map snd cs) \/ exists m, k = EmEmit m /\ w = length m)).
    { intros refs Hy. destruct (lower_rel_emit e y refs cs adv r w Hy H) as (k & Hp & Hk). exists k. split; auto.
      now apply parse_emit_cases in Hp. }
    destruct y; cbn [lower_rel] in H; try discriminate; cbn [line_refs offered] in He.
    - destruct cs; [|discriminate]. apply rbind_ok in H as (ns & _ & H).
      apply rbind_ok in H as ([[cols common] n] & Ho & H). injection H as <- <-.
      unfold lower_output in Ho. destruct o as [c|c refs].
      + apply rbind_ok in Ho as (cols' & _ & Ho). injection Ho as <- <- <-. apply zip_fields_length.
      + apply rbind_ok in Ho as (cols' & _ & Ho). destruct refs as [refs|].
        * apply rbind_ok in Ho as (m & _ & Ho). injection Ho as <- <- <-. reflexivity.
        * injection Ho as <- <- <-. apply zip_fields_length.
    - destruct cs; [|discriminate]. apply rbind_ok in H as (f & _ & H). apply rbind_ok in H as (rs & _ & H).
      apply rbind_ok in H as (cols' & _ & H). injection H as <- <-. apply zip_fields_length.
    - apply rbind_ok in H as (i & Hi & H). apply one_child_ok in Hi as [w' ->].
      apply rbind_ok in H as (? & _ & H). apply rbind_ok in H as (? & _ & H). injection H as <- <-.
      destruct (He _ eq_refl) as (k & Hk & Hw). inversion Hc; subst. cbn [fst snd] in *.
      eapply shown_count; [exact Hk|apply ref_columns_length|]. cbn in Hw. rewrite Nat.add_0_r in Hw. rewrite <- H1 in Hw. exact Hw.
    - apply rbind_ok in H as (i & Hi & H). apply one_child_ok in Hi as [w' ->].
      apply rbind_ok in H as ([xs m] & _ & H). cbn [fst snd] in H. injection H as <- <-. inversion Hc; subst.
      cbn [fst snd] in *. cbn [view_of emitted].
      eapply shown_count; [reflexivity|cbn [hd_cols project_header]; rewrite app_length, map_length, ref_columns_length; reflexivity|].
      cbn [width]. replace (total [(i, w')]) with w' by (cbn; lia). rewrite H1.
      destruct (make_emit_cases m (w' + length xs)) as [[E1 E2]|E1]; rewrite E1; eauto.
    - apply rbind_ok in H as (i & Hi & H). apply one_child_ok in Hi as [w' ->].
      apply rbind_ok in H as (sets & _ & H). destruct (build_grouping_fields sets) as [gs xs] eqn:Eg.
      apply rbind_ok in H as ([ms m] & Ho & H). cbn [fst snd] in H. injection H as <- <-.
      apply build_grouping_fields_spec in Eg as (_ & _ & Eg).
      cbn [view_of emitted]. unfold aggregate_header, grouping_values.
      replace (match gs with g0 :: _ => negb (length (gr_exprs g0) =? 0) | [] => false end) with false.
      2: { destruct Eg as [|s g' ? ? [Hg _] _]; auto. now rewrite Hg. }
      rewrite andb_false_r.
      eapply shown_count; [reflexivity| |].
      { cbn [hd_cols]. rewrite app_length, map_length. reflexivity. }
      assert (Hms : length (measure_outs op e' ms) = length ms).
      { clear - Ho. revert Ho. generalize 0 at 1. intros n0 Ho.
        assert (Hs : Forall (fun x => ms_fn x <> None) ms).
        { revert ms m n0 Ho. induction outs as [|c l IH]; intros ms m n0 Ho; cbn [lower_outputs] in Ho.
          - injection Ho as <- <-. constructor.
          - apply rbind_ok in Ho as (x & _ & Ho). destruct (last_pos 0 x xs).
            + apply rbind_ok in Ho as ([ms' m'] & Hr & Ho). injection Ho as <- <-. eauto.
            + destruct c; try discriminate. apply rbind_ok in Ho as (fn & _ & Ho).
              apply rbind_ok in Ho as ([ms' m'] & Hr & Ho). injection Ho as <- <-. constructor; eauto. discriminate. }
        clear - Hs. induction Hs as [|x l Hx Hs IH]; auto. cbn. destruct (ms_fn x); [|congruence]. cbn. congruence. }
      rewrite Hms. destruct (make_emit_cases m (length xs + length ms)) as [[E1 E2]|E1]; rewrite E1; eauto.
    - apply rbind_ok in H as (i & Hi & H). apply one_child_ok in Hi as [w' ->].
      apply rbind_ok in H as (? & _ & H). apply rbind_ok in H as (? & _ & H). injection H as <- <-.
      destruct (He _ eq_refl) as (k & Hk & Hw). inversion Hc; subst. cbn [fst snd] in *.
      eapply shown_count; [exact Hk|apply ref_columns_length|]. cbn in Hw. rewrite Nat.add_0_r in Hw. rewrite <- H1 in Hw. exact Hw.
    - apply rbind_ok in H as (i & Hi & H). apply one_child_ok in Hi as [w' ->].
      apply rbind_ok in H as (? & _ & H). apply rbind_ok in H as (? & _ & H).
      apply rbind_ok in H as (? & _ & H). apply rbind_ok in H as (? & _ & H). injection H as <- <-.
      destruct (He _ eq_refl) as (k & Hk & Hw). inversion Hc; subst. cbn [fst snd] in *.
      eapply shown_count; [exact Hk|apply ref_columns_length|]. cbn in Hw. rewrite Nat.add_0_r in Hw. rewrite <- H1 in Hw. exact Hw.
    - apply rbind_ok in H as (i & Hi & H). apply two_children_ok in Hi as (w1 & w2 & ->).
      apply rbind_ok in H as (jt & Hjt & H). apply rbind_ok in H as (? & _ & H).
      apply rbind_ok in H as (? & _ & H). apply rbind_ok in H as (? & _ & H). injection H as <- <-.
      destruct (He _ eq_refl) as (k & Hk & Hw). inversion Hc as [|? ? H1 Hc']; inversion Hc' as [|? ? H2]; subst. cbn [fst snd] in *.
      eapply shown_count; [exact Hk|apply ref_columns_length|]. cbn [width] in *. cbn in Hw. rewrite Nat.add_0_r in Hw.
      destruct Hw as [[-> ->]|Hw]; auto. left. split; auto.
      change (w1 + w2 = join_width jt (emitted (view_of reg op e' (fst i))) (emitted (view_of reg op e' (snd i)))). rewrite H1, H2.
      apply unwrap_ok in Hjt. cbn in Hj.
      assert (Hjt' : ~ (5 <= jt <= 12)%Z). { intros Hj2. apply Hj. split; auto. }
      unfold join_width. repeat match goal with |- context [(jt =? ?z)%Z] =>
        let E := fresh in destruct (Z.eqb_spec jt z) as [E|E]; [exfalso; lia|] end. reflexivity.
    - destruct cs as [|c [|d cs]]; try discriminate. destruct (forallb _ _) eqn:Ef; [|discriminate].
      apply rbind_ok in H as (? & _ & H). apply rbind_ok in H as (? & _ & H). injection H as <- <-.
      destruct (He _ eq_refl) as (k & Hk & Hw).
      eapply shown_count; [exact Hk|apply ref_columns_length|].
      assert (Hs : map emitted (map (view_of reg op e') (map fst (c :: d :: cs))) = map (fun _ => snd c) (c :: d :: cs)).
      { rewrite !map_map. apply map_ext_in. intros z Hz. rewrite Forall_forall in Hc. rewrite (Hc z Hz).
        rewrite forallb_forall in Ef. now apply Nat.eqb_eq, Ef. }
      match goal with |- context [list_sum ?l / _] => change l with (map emitted (map (view_of reg op e') (map fst (c :: d :: cs)))) end.
      rewrite Hs. assert (Hd : forall (l : list (prel * nat)) n, list_sum (map (fun _ => n) l) = n * length l).
      { clear. induction l as [|x l IH]; intros n; cbn; [lia|]. rewrite IH. lia. }
      rewrite Hd, map_length. rewrite Nat.div_mul by discriminate. exact Hw.
    - apply rbind_ok in H as (i & Hi & H). apply two_children_ok in Hi as (w1 & w2 & ->).
      apply rbind_ok in H as (? & _ & H). injection H as <- <-.
      destruct (He _ eq_refl) as (k & Hk & Hw). inversion Hc as [|? ? H1 Hc']; inversion Hc' as [|? ? H2]; subst. cbn [fst snd] in *.
      eapply shown_count; [exact Hk|apply ref_columns_length|]. cbn in Hw. rewrite Nat.add_0_r in Hw.
      rewrite <- H1, <- H2 in Hw. exact Hw.
  Qed.
End Counts.

(** Parser and formatter count the same columns for every accepted relation that
    has no direct semi, anti, single or mark join below it, if the extension
    handlers keep column counts.  Missing: those joins, for which the property
    fails, see [C23_column_counts_refuted]. *)
Theorem C23_column_counts_partial : forall (U : Unicode) (F : Floats) reg op e e' n r w,
  keeps_columns reg -> build_rel reg e n = Ok (r, w) -> (forall x, subrel x r -> ~ narrow_join x) ->
  emitted (view_of reg op e' r) = w.
Proof.
  intros U F reg op e e' n r w Hreg H.
  apply (build_rel_ind reg e (fun _ => True)
           (fun r w => (forall x, subrel x r -> ~ narrow_join x) -> emitted (view_of reg op e' r) = w)) with (n := n); auto.
  2: { clear. induction n as [y line ads cs IH] using rnode_ind2. cbn. split; auto. now apply fold_and_Forall. }
  clear n r w H. intros y line ads cs r w _ Hc H Hj.
  destruct (parse_relation_inputs _ _ _ _ _ _ _ _ H) as [Hi _].
  assert (Hc' : Forall (fun c => emitted (view_of reg op e' (fst c)) = snd c) cs).
  { apply Forall_forall. intros c Hin. rewrite Forall_forall in Hc. apply (Hc c Hin).
    intros x Hx. apply Hj. eapply subrel_input; eauto. rewrite Hi. now apply in_map. }
  specialize (Hj r (subrel_self r)). unfold parse_relation in H. destruct y; try (
      apply rbind_ok in H as (adv & _ & H); apply lift_plan_ok in H; revert H; now apply lower_rel_shown).
  - apply rbind_ok in H as (p & _ & H); apply lift_plan_ok in H. destruct cs; [|discriminate].
    apply rbind_ok in H as (cols' & _ & H). injection H as <- <-. apply zip_fields_length.
  - destruct ads; [|discriminate]. apply rbind_ok in H as (a & _ & H).
    destruct (child_count_ok k (length cs)) eqn:Ek; [|discriminate].
    apply rbind_ok in H as (d & Hd & H). unfold resolve in Hd.
    destruct (parse_with_type reg XtRelation (raw_name name) a) as [d'|x|] eqn:Ed; [|destruct x; discriminate|discriminate].
    assert (d' = d) by congruence. subst d'.
    assert (Hh : forall kind ws, hd_emitted (extension_header reg op e' kind (Some d) ws) = length (xa_columns a)).
    { intros kind ws. destruct (Hreg _ _ _ ws Ed) as (nm & a' & Ha & Hl). unfold extension_header. rewrite Ha.
      unfold hd_emitted. cbn. rewrite map_length. exact Hl. }
    injection H as <- <-. destruct k; cbn [create_rel view_of emitted]; auto.
Qed.

(** ** Examples *)

Section Examples.
  #[local] Existing Instance ascii_tables.
  #[local] Existing Instance toy_floats.

  Definition rel_text (ls : list string) : list N := concat (map (fun l => L l ++ [10%N]) ls).
  (** A plan with one of most relations. *)
  Definition ex_plan_text : list N := rel_text
    ["=== Extensions"; "URNs:"; "  @  1: a:b"; "Functions:"; "  # 10 @  1: add"; "  # 11 @  1: sum"; "";
     "=== Plan"; "Root[a, b, c]"; "  Aggregate[($0, $1), _, ($1, $0) => $1, sum($2):i64, $0]";
     "    Project[$1, add($0, 12):i64, $0]"; "      Join[&Left, $0 => $2, $1]";
     "        Filter[$0 => $1, $0]"; "          Fetch[offset=3, limit=10 => $0, $1]";
     "            Sort[($0, &AscNullsFirst) => $0, $1]"; "              Read[t.x => a:i64, b:string?]";
     "        Set[&UnionAll => $0, $1]"; "          Read:Virtual[(1, 2), (3, 4) => a:i64, b:i64]";
     "          Read[t.y +> a:i64, b:i64, c:i64 |> $2, $1]"].
  Definition ex_node_of (s : list N) : rnode rline acst :=
    match parse_text rline acst read_root read_node (ps_new _ _) s with
    | Ok p => match finish (ps_tree _ _ p) with n :: _ => n | [] => RNode (YCross []) 0 [] [] end
    | _ => RNode (YCross []) 0 [] []
    end.

  (** The plan is accepted, and contains relations for C22 and C33 to speak of. *)
  Example ex_accepted : exists p, parse registry_new ex_plan_text = Ok p /\ length (pl_rels _ p) = 1.
  Proof. eexists. split; [vm_compute; reflexivity|reflexivity]. Qed.

  Definition a_read : prel := RRead (mk_read direct_common (Some (mk_named_struct [L "a"; L "b"] (Some ([TSimple SI64 NRequired 0; TSimple SI64 NRequired 0], 0%N, NRequired)))) None (ReadNamed [L "t"]) None false).
  Definition no_exts : exts := exts_empty.

  (** C19: a mapping that is not the identity, and one that is. *)
  Example ex_filter : exists r,
    lower_rel no_exts (YFilter (XRef (L "0")) [L "1"; L "0"; L "1"]) [(a_read, 2)] None = Ok (r, 3) /\
    rel_emit r = Some (EmEmit [1; 0; 1]%Z).
  Proof. eexists. split; vm_compute; reflexivity. Qed.
  Example ex_cross : exists r,
    lower_rel no_exts (YCross [L "0"; L "1"; L "2"; L "3"]) [(a_read, 2); (a_read, 2)] None = Ok (r, 4) /\
    rel_emit r = Some EmDirect.
  Proof. eexists. split; vm_compute; reflexivity. Qed.
  (** C20: references and expressions in any order. *)
  Example ex_project : exists r,
    lower_rel no_exts (YProject [PaExpr (XLit (CInt (L "7"), None)); PaRef (L "1"); PaExpr (XLit (CInt (L "8"), None))])
      [(a_read, 2)] None = Ok (r, 3) /\ rel_emit r = Some (EmEmit [2; 1; 3]%Z).
  Proof. eexists. split; vm_compute; reflexivity. Qed.
  (** C21: an expression in two sets. *)
  Example ex_aggregate : exists c i ms,
    lower_rel no_exts (YAggregate (GSets [[XRef (L "1"); XRef (L "0")]; []; [XRef (L "0")]]) [XRef (L "0")])
      [(a_read, 2)] None
    = Ok (RAggregate c i [ESel (field_reference 1); ESel (field_reference 0)]
            [mk_grouping [0; 1]%N []; mk_grouping [] []; mk_grouping [1]%N []] ms None, 1).
  Proof. do 3 eexists. vm_compute. reflexivity. Qed.
  (** C33: offset before limit. *)
  Example ex_fetch : exists c i,
    lower_rel no_exts (YFetch [(L "offset", FvInt (L "3")); (L "limit", FvInt (L "10"))] [L "0"]) [(a_read, 2)] None
    = Ok (RFetch c i (Some (FmExpr (i64_literal 10))) (Some (FmExpr (i64_literal 3))) None, 1).
  Proof. do 2 eexists. vm_compute. reflexivity. Qed.
  (** C39: a semi join of two relations with two columns each. *)
  Example ex_semi_join : exists h cs,
    view_of registry_new opts_default no_exts
      (RJoin (Some (mk_common (Some EmDirect) false)) (Some a_read) (Some a_read) None None 5 None) = View h cs /\
    o_text (output_clause opts_default h) = L "=> $0, $1".
  Proof. do 2 eexists. split; [reflexivity|vm_compute; reflexivity]. Qed.
  (** C23: a plan without such joins. *)
  Example ex_counts : exists r w, build_rel registry_new no_exts (ex_node_of (rel_text
      ["=== Plan"; "Join[&Left, $0 => $2, $1, $0]"; "  Read[t => a:i64, b:i64]"; "  Read[u => a:i64]"])) = Ok (r, w) /\
    w = 3 /\ emitted (view_of registry_new opts_default no_exts r) = 3.
  Proof. do 2 eexists. split; [vm_compute; reflexivity|split; reflexivity]. Qed.
  Example ex_keeps : keeps_columns registry_new.
  Proof. intros name a d widths H. discriminate. Qed.

  (** The parser counts all columns of both inputs for a semi join, the formatter
      those of one: a text listing three columns is accepted, yields a plan that is
      written without errors, and that text, with two columns, is a different plan. *)
  Theorem C23_column_counts_refuted : exists s p n r w,
    parse registry_new s = Ok p /\ ex_node_of s = n /\ build_rel registry_new no_exts n = Ok (r, w) /\
    pl_rels _ p = [PRel r] /\
    emitted (view_of registry_new opts_default no_exts r) <> w /\
    o_errs (format registry_new opts_default p) = [] /\
    exists p', parse registry_new (o_text (format registry_new opts_default p)) = Ok p' /\ p' <> p.
  Proof.
    exists (rel_text ["=== Plan"; "Join[&LeftSemi, $0 => $0, $1, $2]"; "  Read[t => a:i64, b:i64]"; "  Read[u => a:i64]"]).
    do 4 eexists. split; [vm_compute; reflexivity|]. split; [reflexivity|]. split; [vm_compute; reflexivity|].
    split; [reflexivity|]. split; [vm_compute; discriminate|]. split; [vm_compute; reflexivity|].
    eexists. split; [vm_compute; reflexivity|]. discriminate.
  Qed.
End Examples.
