(** Reading agrees with meaning: named arguments, columns, lines of relations,
    addenda and trees. *)
From Coq Require Import String List NArith ZArith Bool Lia.
From Verif Require Import Base BaseFacts Peg Names SimpleExt SimpleExtFacts Out Anchors Types TypesFacts
  Literals LiteralsFacts Exprs ExprEq CrashFacts ExtArgs Registry SpecRegistry Rels RelGrammar Tree TreeFacts Structural RelRead
  SpecRels RelReadFacts SpecAggregate SpecMeaning MeaningFacts MeaningExprs.
Import ListNotations.
Local Open Scope string_scope.
Local Open Scope list_scope.
Local Open Scope nat_scope.

(** ** Named arguments *)

Lemma Forall2_fun {A B} (P : A -> B -> Prop) l : (forall a b c, P a b -> P a c -> b = c) ->
  forall m n, Forall2 P l m -> Forall2 P l n -> m = n.
Proof. intros H. induction l; inversion_clear 1; inversion_clear 1; f_equal; eauto. Qed.

Lemma first_names_in l ks : first_names l ks -> forall k, In k ks <-> In k l.
Proof.
  induction 1 as [|l ks k H IH Hk|l ks k H IH Hk]; intros x.
  - reflexivity.
  - rewrite !in_app_iff, IH. reflexivity.
  - rewrite in_app_iff, IH. cbn. split; [auto|]. intros [|[<-|[]]]; auto. now apply IH.
Qed.
Lemma first_names_fun l : forall ks ks', first_names l ks -> first_names l ks' -> ks = ks'.
Proof.
  induction l as [|x l IH] using rev_ind; intros ks ks' H H'.
  - inversion H; [|destruct l; discriminate..]. inversion H'; [reflexivity|destruct l; discriminate..].
  - assert (A : forall ks, first_names (l ++ [x]) ks -> exists k0, first_names l k0 /\ (~ In x k0 /\ ks = k0 ++ [x] \/ In x k0 /\ ks = k0)).
    { intros k1 H1. inversion H1 as [E|l' k0 k H2 Hk E|l' k0 k H2 Hk E].
      - destruct l; discriminate.
      - apply app_inj_tail in E as [-> ->]. exists k0. auto.
      - apply app_inj_tail in E as [-> ->]. subst. exists k1. auto. }
    destruct (A _ H) as (a & Ha & Ca), (A _ H') as (b & Hb & Cb). rewrite (IH _ _ Ha Hb) in *.
    destruct Ca as [[? ->]|[? ->]], Cb as [[? ->]|[? ->]]; tauto.
Qed.
Lemma last_value_in {V} k (l : list (list N * V)) v : last_value k l v -> In k (map fst l).
Proof. induction 1; cbn; auto. Qed.
Lemma last_value_fun {V} k (l : list (list N * V)) v w : last_value k l v -> last_value k l w -> v = w.
Proof.
  intros H. revert w. induction H as [v l H|p l v H IH]; intros w Hw.
  - inversion Hw as [v' l' H' E|p l' v' H' E]; subst; [reflexivity|]. apply last_value_in in H'. contradiction.
  - inversion Hw as [v' l' H' E|p' l' v' H' E]; subst; [|eauto]. apply last_value_in in H. contradiction.
Qed.
Lemma last_value_snoc {V} k (l : list (list N * V)) v : last_value k (l ++ [(k, v)]) v.
Proof. induction l; cbn; [now apply lv_here|now apply lv_later]. Qed.
Lemma last_value_other {V} k k' (l : list (list N * V)) v w : k <> k' -> last_value k l w -> last_value k (l ++ [(k', v)]) w.
Proof.
  intros Hn. induction 1 as [w l H|p l w H IH]; cbn.
  - apply lv_here. rewrite map_app, in_app_iff. cbn. intuition.
  - now apply lv_later.
Qed.
Lemma imap_insert_spec {V} k (v : V) m :
  (~ In k (map fst m) /\ imap_insert k v m = m ++ [(k, v)]) \/
  (In k (map fst m) /\ map fst (imap_insert k v m) = map fst m).
Proof.
  induction m as [|[k' v'] m IH]; cbn [imap_insert map fst In].
  - left. split; [tauto|reflexivity].
  - destruct (streqb k k') eqn:E.
    + apply streqb_eq in E. subst. right. auto.
    + assert (k' <> k) by (intros ->; rewrite streqb_refl in E; discriminate).
      destruct IH as [[H1 H2]|[H1 H2]].
      * left. split; [tauto|]. cbn. now rewrite H2.
      * right. split; [auto|]. cbn. now rewrite H2.
Qed.
Lemma imap_insert_vals {V} (P : list N * V -> Prop) k v m : NoDup (map fst m) -> P (k, v) ->
  Forall (fun p => fst p <> k -> P p) m -> Forall P (imap_insert k v m).
Proof.
  intros Hd Hk. induction m as [|[k' v'] m IH]; intros H; cbn [imap_insert].
  - auto.
  - inversion H as [|? ? H1 H2]; subst. inversion Hd as [|? ? H3 H4]; subst. destruct (streqb k k') eqn:E.
    + apply streqb_eq in E. subst. constructor; [assumption|]. apply Forall_forall. intros p Hp.
      rewrite Forall_forall in H2. apply (H2 p Hp). intros <-. apply H3. now apply in_map.
    + constructor; [|now apply IH]. apply H1. cbn. intros ->. rewrite streqb_refl in E. discriminate.
Qed.
Lemma first_names_nodup l ks : first_names l ks -> NoDup ks.
Proof.
  induction 1 as [|l ks k H IH Hk|l ks k H IH Hk]; [constructor| |assumption].
  apply (NoDup_Add (Add_app k ks [])). now rewrite app_nil_r.
Qed.
Lemma inserted_map {V} (l : list (list N * V)) : named_map l (fold_left (fun m kv => imap_insert (fst kv) (snd kv) m) l []).
Proof.
  induction l as [|[k v] l [H1 H2]] using rev_ind; [split; constructor|].
  rewrite fold_left_app. cbn [fold_left fst snd]. set (m := fold_left _ l []) in *. unfold named_map.
  rewrite map_app. cbn [map fst].
  assert (Hl : Forall (fun p => last_value (fst p) (l ++ [(k, v)]) (snd p)) (imap_insert k v m)).
  { apply imap_insert_vals; [eapply first_names_nodup; eauto|apply last_value_snoc|].
    apply Forall_forall. intros p Hp Hn. rewrite Forall_forall in H2. apply last_value_other; auto. }
  split; [|assumption].
  destruct (imap_insert_spec k v m) as [[Hk E]|[Hk E]].
  - rewrite E, map_app. cbn. now apply fn_new.
  - rewrite E. now apply fn_again.
Qed.
Lemma named_map_fun {V} (l m m' : list (list N * V)) : named_map l m -> named_map l m' -> m = m'.
Proof.
  intros [H1 H2] [H3 H4]. pose proof (first_names_fun _ _ _ H1 H3) as E. clear H1 H3. revert m' E H4.
  induction H2 as [|[k v] m H H' IH]; intros [|[k' v'] m'] E H4; try discriminate; [reflexivity|].
  cbn in E. injection E as -> E. inversion_clear H4 as [|? ? H5 H6]. cbn in *.
  rewrite (last_value_fun _ _ _ _ H H5). f_equal. auto.
Qed.
Lemma named_map_iff {V} (l m : list (list N * V)) :
  fold_left (fun m kv => imap_insert (fst kv) (snd kv) m) l [] = m <-> named_map l m.
Proof.
  split; [intros <-; apply inserted_map|]. intros H. eapply named_map_fun; [apply inserted_map|assumption].
Qed.

Section Read.
  Context `{F : Floats}.
  Variable reg : registry.
  Variable e : exts.
  Hypothesis Hwf : wf_exts e.

  Lemma xnamed_iff l : forall ns, rlist (lower_xnamed e) l = Ok ns <->
    exists names vs, Forall2 name_means (map fst l) names /\ Forall2 (argument_means e) (map snd l) vs /\ ns = combine names vs.
  Proof.
    intros ns. rewrite rlist_iff. split.
    - induction 1 as [|[c v] [n x] l ns H _ (names & vs & H1 & H2 & ->)]; [exists [], []; repeat split; constructor|].
      unfold lower_xnamed in H. cbn [fst snd] in H. apply rbind_ok in H as (n' & Hn & H). apply rbind_ok in H as (x' & Hx & [= <- <-]).
      apply name_iff in Hn. apply argument_iff in Hx; [|assumption]. exists (n' :: names), (x' :: vs). cbn. auto.
    - intros (names & vs & H1 & H2 & ->). revert names vs H1 H2. induction l as [|[c v] l IH]; cbn; intros names vs H1 H2.
      + inversion H1; subst. constructor.
      + inversion_clear H1 as [|? n ? names' Hn H1']. inversion_clear H2 as [|? x ? vs' Hx H2']. cbn. constructor; [|auto].
        unfold lower_xnamed. cbn [fst snd]. apply (name_iff (E := perr)) in Hn. rewrite Hn. cbn.
        apply argument_iff in Hx; [|assumption]. now rewrite Hx.
  Qed.
  Lemma xargs_iff c a : lower_xargs e c = Ok a <-> arguments_mean e c [] a.
  Proof.
    unfold lower_xargs, arguments_mean. split.
    - intros H. apply rbind_ok in H as (ps & Hp & H). apply rbind_ok in H as (ns & Hn & H). injection H as <-.
      apply xnamed_iff in Hn as (names & vs & H1 & H2 & ->). rewrite rlist_iff in Hp.
      exists ps, names, vs, (fold_left (fun m kv => imap_insert (fst kv) (snd kv) m) (combine names vs) []).
      repeat split; try assumption; [|apply inserted_map..].
      eapply Forall2_iff; [|exact Hp]. intros. symmetry. now apply argument_iff.
    - intros (ps & names & vs & m & H1 & H2 & H3 & H4 & ->).
      assert (Hp : rlist (lower_xarg e) (fst c) = Ok ps).
      { rewrite rlist_iff. eapply Forall2_iff; [|exact H1]. intros. now apply argument_iff. }
      rewrite Hp. cbn [rbind].
      rewrite (proj2 (xnamed_iff _ _) (ex_intro _ names (ex_intro _ vs (conj H2 (conj H3 eq_refl))))). cbn [rbind].
      apply named_map_iff in H4. now rewrite H4.
  Qed.
  Lemma arguments_columns c cols a : arguments_mean e c cols a <->
    exists a', arguments_mean e c [] a' /\ a = mk_xargs (xa_positional a') (xa_named a') cols.
  Proof.
    split.
    - intros (ps & names & vs & m & H1 & H2 & H3 & H4 & ->). exists (mk_xargs ps m []). split; [|reflexivity].
      exists ps, names, vs, m. auto.
    - intros (a' & (ps & names & vs & m & H1 & H2 & H3 & H4 & ->) & ->). exists ps, names, vs, m. auto.
  Qed.
  Lemma xcolumns_iff xcs cols : rlist (lower_xcolumn e) xcs = Ok cols <-> Forall2 (xcolumn_means e) xcs cols.
  Proof. rewrite rlist_iff. apply Forall2_iff. intros. now apply xcolumn_iff. Qed.
  Lemma invocation_iff args xcs a : lower_invocation e args xcs = Ok a <->
    exists cols, Forall2 (xcolumn_means e) xcs cols /\ arguments_mean e args cols a.
  Proof.
    unfold lower_invocation. split.
    - intros H. apply rbind_ok in H as (a' & Ha & H). apply rbind_ok in H as (cols & Hc & [= <-]).
      apply xargs_iff in Ha. apply xcolumns_iff in Hc. exists cols. split; [assumption|]. apply arguments_columns. eauto.
    - intros (cols & Hc & Ha). apply arguments_columns in Ha as (a' & Ha & ->).
      apply xargs_iff in Ha. apply xcolumns_iff in Hc. now rewrite Ha, Hc.
  Qed.

  (** ** Columns and mappings *)

  Lemma exprs_iff l xs : rlist (lower_expr e) l = Ok xs <-> Forall2 (expr_means e) l xs.
  Proof. rewrite rlist_iff. apply Forall2_iff. intros. now apply expr_iff. Qed.
  Lemma names_iff {E} l ns : rlist (lower_name (E := E)) l = Ok ns <-> Forall2 name_means l ns.
  Proof. rewrite rlist_iff. apply Forall2_iff. intros. apply name_iff. Qed.
  Lemma rows_iff l rs : rlist (lower_exprs e) l = Ok rs <-> Forall2 (Forall2 (expr_means e)) l rs.
  Proof. rewrite rlist_iff. apply Forall2_iff. intros. apply exprs_iff. Qed.
  Lemma column_iff c p : lower_column e c = Ok p <-> column_means e c p.
  Proof.
    unfold lower_column, column_means. split.
    - intros H. apply rbind_ok in H as (n & Hn & H). apply rbind_ok in H as (t & Ht & [= <-]). cbn.
      apply name_iff in Hn. apply type_iff in Ht; auto.
    - destruct p as [n t]. cbn. intros [Hn Ht]. apply (name_iff (E := perr)) in Hn. apply type_iff in Ht; [|assumption].
      now rewrite Hn, Ht.
  Qed.
  Lemma columns_iff l cols : lower_columns e l = Ok cols <-> Forall2 (column_means e) l cols.
  Proof. unfold lower_columns. rewrite rlist_iff. apply Forall2_iff. intros. apply column_iff. Qed.
  Lemma refs_iff refs m : output_mapping refs = Ok m <-> Forall2 index_means refs m.
  Proof. unfold output_mapping. rewrite rlist_iff. apply Forall2_iff. intros. apply field_index_iff. Qed.

  Lemma identity_iff m : forall i, identity_from i m = true <-> Forall2 position (seq i (length m)) m.
  Proof.
    induction m as [|z m IH]; intros i; cbn [identity_from length seq].
    - split; [constructor|reflexivity].
    - rewrite andb_true_iff, Z.eqb_eq, IH. unfold position. split.
      + intros [H1 H2]. constructor; [|assumption]. apply wrap_bits. now symmetry.
      + intros H. inversion_clear H as [|? ? ? ? H1 H2]. split; [|assumption]. apply wrap_bits in H1. now symmetry.
  Qed.
  Lemma emit_iff n m k : make_emit m n = k <-> emit_means n m k.
  Proof.
    assert (A : Nat.eqb (length m) n && identity_from 0 m = true <-> Forall2 position (seq 0 n) m).
    { rewrite andb_true_iff, Nat.eqb_eq, identity_iff. split; [intros [<- H]; exact H|].
      intros H. assert (length m = n) as <- by (apply Forall2_len in H; now rewrite seq_length in H). auto. }
    unfold make_emit. destruct (Nat.eqb (length m) n && identity_from 0 m) eqn:E; split.
    - intros <-. constructor. now apply A.
    - intros G. inversion_clear G as [? H|? H]; [reflexivity|]. exfalso. apply H. now apply A.
    - intros <-. constructor. intros H. apply A in H. discriminate.
    - intros G. inversion_clear G as [? H|? H]; [|reflexivity]. apply A in H. discriminate.
  Qed.
  Lemma parse_emit_iff refs n k w : parse_emit refs n = Ok (k, w) <-> references_mean n refs k w.
  Proof.
    unfold parse_emit, references_mean. split.
    - intros H. apply rbind_ok in H as (m & Hm & H). exists m. apply refs_iff in Hm. injection H as H1 H2. apply emit_iff in H1. auto.
    - intros (m & Hm & Hk & ->). apply refs_iff in Hm. apply emit_iff in Hk. rewrite Hm. cbn. now rewrite Hk.
  Qed.
  Lemma output_iff o cols c n : lower_output e o = Ok (cols, c, n) <-> exists k, c = common k /\ output_means e o cols k n.
  Proof.
    destruct o as [cs|cs refs]; cbn [lower_output].
    - split.
      + intros H. apply rbind_ok in H as (cols' & Hc & [= <- <- <-]). apply columns_iff in Hc. exists EmDirect. split; [reflexivity|now constructor].
      + intros (k & -> & H). inversion_clear H as [? ? Hc| |]. apply columns_iff in Hc. now rewrite Hc.
    - split.
      + intros H. apply rbind_ok in H as (cols' & Hc & H). apply (proj1 (guard_iff _ _)) in Hc. apply columns_iff in Hc. destruct refs as [refs|].
        * apply rbind_ok in H as (m & Hm & [= <- <- <-]). apply refs_iff in Hm. exists (EmEmit m). split; [reflexivity|now constructor].
        * injection H as <- <- <-. exists EmDirect. split; [reflexivity|now constructor].
      + intros (k & -> & H). inversion_clear H as [|? ? Hc|? ? ? m Hc Hm]; apply columns_iff in Hc; rewrite (proj2 (guard_iff _ _) Hc); cbn [rbind].
        * reflexivity.
        * apply refs_iff in Hm. now rewrite Hm.
  Qed.

  (** ** Projections and aggregations *)

  Lemma project_iff n l : forall k xs m, lower_project e n k l = Ok (xs, m) <-> project_means e (n + k) l xs m.
  Proof.
    induction l as [|[s|c] l IH]; intros k xs m; cbn [lower_project].
    - split; [intros [= <- <-]; constructor|]. now inversion_clear 1.
    - split.
      + intros H. apply rbind_ok in H as (z & Hz & H). apply rbind_ok in H as ([xs' m'] & Hp & H). injection H as <- <-.
        constructor; [now apply field_index_iff|now apply IH].
      + inversion_clear 1 as [|? ? z ? ? m' Hz Hp|]. apply field_index_iff in Hz. apply IH in Hp. now rewrite Hz, Hp.
    - split.
      + intros H. apply rbind_ok in H as (x & Hx & H). apply rbind_ok in H as ([xs' m'] & Hp & H). injection H as <- <-.
        constructor; [now apply expr_iff| |].
        * apply wrap_bits. f_equal. lia.
        * apply IH in Hp. now rewrite Nat.add_succ_r in Hp.
      + inversion_clear 1 as [| |? ? x z ? xs' m' Hx Hz Hp]. apply expr_iff in Hx; [|assumption].
        rewrite <- Nat.add_succ_r in Hp. apply IH in Hp. apply wrap_bits in Hz. rewrite Hx, Hp. cbn.
        rewrite Nat2Z.inj_add in Hz. now rewrite Hz.
  Qed.
  Lemma groups_iff g sets : lower_groups e g = Ok sets <-> Forall2 (Forall2 (expr_means e)) (written_sets g) sets.
  Proof.
    destruct g as [l|l]; cbn [lower_groups written_sets].
    - apply rows_iff.
    - split.
      + intros H. apply rbind_ok in H as (xs & Hx & [= <-]). constructor; [now apply exprs_iff|constructor].
      + intros H. inversion_clear H as [|? xs ? ? Hx H']. inversion_clear H'. apply exprs_iff in Hx. unfold lower_exprs. now rewrite Hx.
  Qed.
  Lemma grouping_iff sets gexprs groups : build_grouping_fields sets = (groups, gexprs) <->
    current_form sets gexprs groups /\ Forall (fun g => gr_exprs g = []) groups.
  Proof.
    assert (A : forall groups gexprs, build_grouping_fields sets = (groups, gexprs) ->
      current_form sets gexprs groups /\ NoDup gexprs /\ Forall (fun g => gr_exprs g = []) groups).
    { intros gs xs H. apply build_grouping_fields_spec in H as (H1 & H2 & H3). repeat split; try assumption.
      - eapply Forall2_imp; [|exact H3]. intros s g [_ H]. exact H.
      - clear -H3. induction H3 as [|? ? ? ? [H _]]; constructor; auto. }
    split; [intros H; apply A in H; tauto|]. intros [[H1 H2] H3].
    destruct (build_grouping_fields sets) as [gs xs] eqn:E. destruct (A _ _ eq_refl) as ((B1 & B2) & B3 & B4).
    assert (xs = gexprs) as -> by congruence. f_equal. clear -B2 B3 B4 H2 H3.
    revert groups H2 H3. induction B2 as [|s g sets gs Hg _ IH]; intros groups H2 H3.
    - now inversion H2.
    - inversion H2 as [|? g' ? gs' Hg' H2']; subst. inversion_clear B4 as [|? ? B5 B6]. inversion_clear H3 as [|? ? H5 H6].
      f_equal; [|now apply IH]. destruct g as [r x], g' as [r' x']. cbn in *. subst. f_equal.
      revert Hg Hg'. apply Forall2_fun. intros y i j Hi Hj. apply N2Nat.inj.
      apply (proj1 (NoDup_nth_error gexprs) B3); [|congruence]. apply nth_error_Some. congruence.
  Qed.
  Lemma measure_iff f a ct m : lower_measure e (f, a, ct) = Ok m <->
    exists r xs t, expr_means e (XCall f a ct) (EFunc r xs [] (Some t)) /\ m = mk_aggfn r xs [] (Some t) 0 0.
  Proof.
    setoid_rewrite <- (expr_iff e Hwf). cbn [lower_expr]. unfold lower_measure. split.
    - intros H. apply rbind_ok in H as (i & Hi & H). apply rbind_ok in H as (xs & Hx & H). apply rbind_ok in H as (t & Ht & H).
      apply rbind_ok in H as (r & Hr & [= <-]). exists r, xs, t. rewrite Hi. cbn [rbind]. rewrite Hx. cbn [rbind]. rewrite Ht. cbn [rbind].
      rewrite Hr. auto.
    - intros (r & xs & t & H & ->). apply rbind_ok in H as (i & Hi & H). apply rbind_ok in H as (xs' & Hx & H).
      apply rbind_ok in H as (t' & Ht & H). apply rbind_ok in H as (r' & Hr & H). injection H as -> -> ->.
      rewrite Hi. cbn [rbind]. rewrite Hx. cbn [rbind]. rewrite Ht. cbn [rbind]. now rewrite Hr.
  Qed.
  Lemma last_pos_at gexprs x i : NoDup gexprs -> last_pos 0 x gexprs = Some i <-> nth_error gexprs i = Some x.
  Proof.
    intros Hd. pose proof (last_pos_spec x gexprs 0) as H. destruct (last_pos 0 x gexprs) as [j|].
    - destruct H as [_ H]. rewrite Nat.sub_0_r in H. split.
      + intros [= <-]. exact H.
      + intros G. f_equal. apply (proj1 (NoDup_nth_error gexprs) Hd); [|congruence]. apply nth_error_Some. congruence.
    - split; [discriminate|]. intros G. apply nth_error_In in G. contradiction.
  Qed.
  Lemma outputs_iff gexprs l : NoDup gexprs -> forall k ms m,
    lower_outputs e gexprs k l = Ok (ms, m) <-> outputs_mean e gexprs (length gexprs + k) l ms m.
  Proof.
    intros Hd. induction l as [|c l IH]; intros k ms m; cbn [lower_outputs].
    - split; [intros [= <- <-]; constructor|]. now inversion_clear 1.
    - split.
      + intros H. apply rbind_ok in H as (x & Hx & H). pose proof (last_pos_spec x gexprs 0) as G.
        destruct (last_pos 0 x gexprs) as [i|] eqn:E.
        * apply rbind_ok in H as ([ms' m'] & Hp & H). injection H as <- <-. apply last_pos_at in E; [|assumption].
          apply expr_iff in Hx; [|assumption]. apply IH in Hp. eapply op_group; eauto. now apply wrap_bits.
        * destruct c as [| |f a ct| |]; try discriminate. apply rbind_ok in H as (q & Hq & H).
          apply rbind_ok in H as ([ms' m'] & Hp & H). injection H as <- <-.
          apply measure_iff in Hq as (r & xs & t & Hq & ->). pose proof Hq as Hq'. apply expr_iff in Hq'; [|assumption].
          assert (x = EFunc r xs [] (Some t)) as -> by congruence. apply IH in Hp. rewrite Nat.add_succ_r in Hp.
          apply op_measure; auto. apply wrap_bits. f_equal. lia.
      + inversion 1 as [|n c' x i z l' ms' m' Hx Hi Hz Hp|n f a ct r xs t z l' ms' m' Hx Hi Hz Hp]; subst.
        * apply expr_iff in Hx; [|assumption]. rewrite Hx. cbn [rbind]. apply last_pos_at in Hi; [|assumption]. rewrite Hi.
          apply IH in Hp. rewrite Hp. cbn. apply wrap_bits in Hz. now rewrite Hz.
        * pose proof Hx as Hx'. apply expr_iff in Hx'; [|assumption]. rewrite Hx'. cbn [rbind].
          pose proof (last_pos_spec (EFunc r xs [] (Some t)) gexprs 0) as G. destruct (last_pos 0 _ gexprs) as [j|].
          -- destruct G as [_ G]. apply nth_error_In in G. contradiction.
          -- assert (Hm : lower_measure e (f, a, ct) = Ok (mk_aggfn r xs [] (Some t) 0 0)) by (apply measure_iff; eauto).
             rewrite Hm. cbn [rbind]. rewrite <- Nat.add_succ_r in Hp. apply IH in Hp. rewrite Hp. cbn [rbind fst snd].
             apply wrap_bits in Hz. rewrite Nat2Z.inj_add in Hz. now rewrite Hz.
  Qed.

  (** ** Sorts, bounds, optional parts, names of arguments *)

  Lemma enum_number_in l s z : enum_number l s = Some z -> exists n, In (z, n) l /\ s = L n.
  Proof.
    induction l as [|[k n] l IH]; cbn; [discriminate|]. destruct (streqb s (L n)) eqn:E.
    - intros [= <-]. apply streqb_eq in E. eauto.
    - intros H. destruct (IH H) as (n' & ? & ?). eauto.
  Qed.
  Lemma enum_iff l values : forallb (fun q => existsb (fun p => streqb (L (snd q)) (camel (fst p)) && Z.eqb (fst q) (snd p)) values) l = true ->
    forallb (fun p => match enum_number l (camel (fst p)) with Some z => Z.eqb z (snd p) | None => false end) values = true ->
    forall s z, enum_number l (tl s) = Some z <-> enum_means values s z.
  Proof.
    intros A B s z. rewrite forallb_forall in A, B. unfold enum_means. split.
    - intros H. apply enum_number_in in H as (n & Hn & E). apply A in Hn. apply existsb_exists in Hn as ([m z'] & Hm & Hc).
      apply andb_true_iff in Hc as [H1 H2]. cbn [fst snd] in *. apply streqb_eq in H1. apply Z.eqb_eq in H2. subst.
      exists m. split; [assumption|]. now rewrite E.
    - intros (n & Hn & ->). apply B in Hn. cbn [fst snd] in Hn. destruct (enum_number l (camel n)); [|discriminate].
      apply Z.eqb_eq in Hn. now subst.
  Qed.
  Lemma join_iff s z : enum_number join_types (tl s) = Some z <-> enum_means proto_join_types s z.
  Proof. now apply enum_iff. Qed.
  Lemma set_iff s z : enum_number set_ops (tl s) = Some z <-> enum_means proto_set_ops s z.
  Proof. now apply enum_iff. Qed.
  Lemma direction_iff s z : enum_number sort_directions (tl s) = Some z <-> enum_means proto_sort_directions s z.
  Proof. now apply enum_iff. Qed.
  Lemma sort_iff p f : lower_sort_field e p = Ok f <-> sort_means e p f.
  Proof.
    unfold lower_sort_field, sort_means. split.
    - intros H. apply rbind_ok in H as (x & Hx & H). apply (proj1 (guard_iff _ _)) in Hx. apply expr_iff in Hx; [|assumption].
      destruct (enum_number sort_directions (tl (snd p))) as [d|] eqn:E; [|discriminate]. injection H as <-.
      apply direction_iff in E. eauto.
    - intros (x & d & Hx & Hd & ->). apply expr_iff in Hx; [|assumption]. apply direction_iff in Hd. rewrite Hx, Hd. reflexivity.
  Qed.
  Lemma sorts_iff l fs : rlist (lower_sort_field e) l = Ok fs <-> Forall2 (sort_means e) l fs.
  Proof. rewrite rlist_iff. apply Forall2_iff. intros. apply sort_iff. Qed.
  Lemma bound_iff what v m : lower_fetch_value e what v = Ok m <-> bound_means e v m.
  Proof.
    destruct v as [s|c]; cbn [lower_fetch_value].
    - split.
      + destruct (parse_i64 s) as [z|] eqn:E; [|discriminate]. apply parse_i64_iff in E as [E1 E2]. destruct (z <? 0)%Z eqn:Hz; [discriminate|].
        intros [= <-]. apply Z.ltb_ge in Hz. now constructor.
      + inversion_clear 1 as [? z Hn Hz Hi|]. assert (E : parse_i64 s = Some z) by (apply parse_i64_iff; auto). rewrite E.
        assert ((z <? 0)%Z = false) as -> by now apply Z.ltb_ge. reflexivity.
    - rewrite rmap_iff. split.
      + intros (x & Hx & ->). constructor. now apply expr_iff.
      + inversion_clear 1. eexists. rewrite expr_iff; eauto.
  Qed.
  Lemma bounds_iff what v m : lower_fetch_opt e what v = Ok m <-> option_means (bound_means e) v m.
  Proof.
    destruct v as [v|]; cbn [lower_fetch_opt].
    - rewrite rmap_iff. setoid_rewrite bound_iff. split; [intros (x & Hx & ->); now constructor|inversion_clear 1; eauto].
    - split; [intros [= <-]; constructor|now inversion_clear 1].
  Qed.
  Lemma opt_expr_iff v m : lower_opt_expr e v = Ok m <-> option_means (expr_means e) v m.
  Proof.
    destruct v as [v|]; cbn [lower_opt_expr].
    - rewrite rmap_iff. setoid_rewrite (expr_iff e Hwf). split; [intros (x & Hx & ->); now constructor|inversion_clear 1; eauto].
    - split; [intros [= <-]; constructor|now inversion_clear 1].
  Qed.
  Lemma duplicate_iff {V} (l : list (list N * V)) : has_duplicate l = false <-> NoDup (map fst l).
  Proof.
    induction l as [|[k v] l IH]; cbn [has_duplicate map fst].
    - split; [constructor|reflexivity].
    - assert (A : existsb (fun p => streqb k (fst p)) l = true <-> In k (map fst l)).
      { rewrite existsb_exists, in_map_iff. split.
        - intros (p & Hp & E). apply streqb_eq in E. eauto.
        - intros (p & <- & Hp). exists p. split; [assumption|apply streqb_refl]. }
      rewrite orb_false_iff, NoDup_cons_iff, IH, <- A, not_true_iff_false. reflexivity.
  Qed.
  Lemma argument_of_iff {V} (l : list (list N * V)) k o : NoDup (map fst l) -> imap_get k l = o <-> argument_of l k o.
  Proof.
    intros Hd. assert (A : argument_of l k (imap_get k l)).
    { clear Hd. induction l as [|[k' v] l IH]; cbn [imap_get]; [constructor; cbn; tauto|]. destruct (streqb k k') eqn:E.
      - apply streqb_eq in E. subst. constructor. now left.
      - assert (k' <> k) by (intros ->; rewrite streqb_refl in E; discriminate).
        destruct IH as [H1|w H1]; constructor; cbn; tauto. }
    split; [now intros <-|]. intros B. destruct A as [A|v A], B as [B|w B]; auto.
    - exfalso. apply A. now apply (in_map fst) in B.
    - exfalso. apply B. now apply (in_map fst) in A.
    - f_equal. induction l as [|[k' v'] l IH]; [destruct A|]. cbn in Hd. inversion_clear Hd as [|? ? H1 H2].
      destruct A as [A|A], B as [B|B].
      + congruence.
      + injection A as -> ->. exfalso. apply H1. now apply (in_map fst) in B.
      + injection B as -> ->. exfalso. apply H1. now apply (in_map fst) in A.
      + auto.
  Qed.

  (** ** Lines *)

  Lemma one_child_iff what cs i : one_child what cs = Ok i <-> exists w, cs = [(i, w)].
  Proof. split; [apply one_child_ok|]. intros (w & ->). reflexivity. Qed.
  Lemma two_children_iff what cs l r : two_children what cs = Ok (l, r) <-> exists lw rw, cs = [(l, lw); (r, rw)].
  Proof.
    split; [|intros (lw & rw & ->); reflexivity]. destruct cs as [|[a n] [|[b m] [|? ?]]]; try discriminate.
    cbn. intros [= -> ->]. eauto.
  Qed.
  Lemma total_one (i : prel) w : total [(i, w)] = w. Proof. apply Nat.add_0_r. Qed.
  Lemma total_two (l r : prel) lw rw : total [(l, lw); (r, rw)] = lw + rw. Proof. cbn. lia. Qed.
  Lemma common_emit k : emit_common k = common k. Proof. reflexivity. Qed.

  Lemma line_sound y cs adv r n : lower_rel e y cs adv = Ok (r, n) -> line_means e y cs adv r n.
  Proof.
    destruct y as [names|t o|cols|rows f cols|x refs|args|g outs|fs refs|args refs|t x p refs|o refs|refs|k c args cols];
      cbn [lower_rel]; intros H; try discriminate.
    - destruct cs; [|discriminate]. apply rbind_ok in H as (ns & Hn & H). apply rbind_ok in H as ([[cols c] w] & Ho & H).
      injection H as <- <-. apply names_iff in Hn. apply output_iff in Ho as (k & -> & Ho). now apply li_read.
    - destruct cs; [|discriminate]. apply rbind_ok in H as (f' & Hf & H). apply (proj1 (guard_iff _ _)) in Hf. apply opt_expr_iff in Hf.
      apply rbind_ok in H as (rs & Hr & H). apply rows_iff in Hr. apply rbind_ok in H as (cs' & Hc & H). apply columns_iff in Hc.
      injection H as <- <-. now apply li_virtual.
    - apply rbind_ok in H as (i & Hi & H). apply one_child_iff in Hi as (w & ->). rewrite total_one in H.
      apply rbind_ok in H as (x' & Hx & H). apply (proj1 (guard_iff _ _)) in Hx. apply expr_iff in Hx; [|assumption].
      apply rbind_ok in H as ([k n'] & Hp & H). injection H as <- <-. apply parse_emit_iff in Hp. now apply li_filter.
    - apply rbind_ok in H as (i & Hi & H). apply one_child_iff in Hi as (w & ->). rewrite total_one in H.
      apply rbind_ok in H as ([xs m] & Hp & H). injection H as <- <-. apply project_iff in Hp. rewrite Nat.add_0_r in Hp.
      eapply li_project; eauto. now apply emit_iff.
    - apply rbind_ok in H as (i & Hi & H). apply one_child_iff in Hi as (w & ->).
      apply rbind_ok in H as (sets & Hs & H). apply groups_iff in Hs. destruct (build_grouping_fields sets) as [groups gexprs] eqn:B.
      pose proof (build_grouping_fields_spec _ _ _ B) as (_ & Hd & _). apply grouping_iff in B as [B1 B2].
      apply rbind_ok in H as ([ms m] & Hp & H). injection H as <- <-. apply outputs_iff in Hp; [|assumption]. rewrite Nat.add_0_r in Hp.
      eapply li_aggregate; eauto. now apply emit_iff.
    - apply rbind_ok in H as (i & Hi & H). apply one_child_iff in Hi as (w & ->). rewrite total_one in H.
      apply rbind_ok in H as (x' & Hx & H). apply sorts_iff in Hx.
      apply rbind_ok in H as ([k n'] & Hp & H). injection H as <- <-. apply parse_emit_iff in Hp. now apply li_sort.
    - apply rbind_ok in H as (i & Hi & H). apply one_child_iff in Hi as (w & ->). rewrite total_one in H.
      apply rbind_ok in H as (u & Hu & H). destruct (has_duplicate args) eqn:D; [discriminate|]. apply duplicate_iff in D.
      apply rbind_ok in H as ([k n'] & Hp & H). apply parse_emit_iff in Hp.
      apply rbind_ok in H as (lim & Hl & H). apply rbind_ok in H as (off & Ho & H). apply bounds_iff in Hl, Ho. injection H as <- <-.
      eapply li_fetch; eauto; now apply argument_of_iff.
    - apply rbind_ok in H as ([l r'] & Hi & H). apply two_children_iff in Hi as (lw & rw & ->). rewrite total_two in H.
      apply rbind_ok in H as (jt & Hj & H). apply (proj1 (unwrap_iff _ _ _)) in Hj. apply join_iff in Hj.
      apply rbind_ok in H as (x' & Hx & H). apply (proj1 (guard_iff _ _)) in Hx. apply expr_iff in Hx; [|assumption].
      apply rbind_ok in H as (post & Hq & H). apply (proj1 (guard_iff _ _)) in Hq. apply opt_expr_iff in Hq.
      apply rbind_ok in H as ([k n'] & Hp & H). injection H as <- <-. apply parse_emit_iff in Hp. now apply li_join.
    - destruct cs as [|c [|c' cs]]; try discriminate. destruct (forallb _ (c :: c' :: cs)) eqn:A; [|discriminate].
      apply rbind_ok in H as (so & Hs & H). apply (proj1 (unwrap_iff _ _ _)) in Hs. apply set_iff in Hs.
      apply rbind_ok in H as ([k n'] & Hp & H). injection H as <- <-. apply parse_emit_iff in Hp.
      eapply li_set with (ins := c :: c' :: cs) (w := snd c); eauto; [cbn; lia|].
      apply Forall_forall. intros d Hd. rewrite forallb_forall in A. now apply Nat.eqb_eq, A.
    - apply rbind_ok in H as ([l r'] & Hi & H). apply two_children_iff in Hi as (lw & rw & ->). rewrite total_two in H.
      apply rbind_ok in H as ([k n'] & Hp & H). injection H as <- <-. apply parse_emit_iff in Hp. now apply li_cross.
  Qed.
  Lemma line_complete y cs adv r n : line_means e y cs adv r n -> lower_rel e y cs adv = Ok (r, n).
  Proof.
    destruct 1 as [t names o cols k n adv Hn Ho|rows rs f x cs cols adv Hr Hf Hc|c x refs k i w n adv Hx Hp|args xs m k i w adv Hp Hk
      |g sets gexprs groups outs ms m k i w adv Hs B1 B2 Hp Hk|fs sorts refs k i w n adv Hs Hp
      |args lim off limit offset refs k i w n adv D L1 L2 Hl Ho Hp|t jt c x p post refs k l lw r rw n adv Hj Hx Hq Hp
      |refs k l lw r rw n adv Hp|o so refs k ins w n adv Hlen Hw Hs Hp]; cbn [lower_rel].
    - apply (names_iff (E := perr)) in Hn. rewrite Hn. cbn [rbind].
      assert (E : lower_output e o = Ok (cols, common k, n)) by (apply output_iff; eauto). rewrite E. reflexivity.
    - apply opt_expr_iff in Hf. apply rows_iff in Hr. apply columns_iff in Hc. rewrite (proj2 (guard_iff _ _) Hf). cbn [rbind].
      rewrite Hr. cbn [rbind]. rewrite Hc. reflexivity.
    - apply expr_iff in Hx; [|assumption]. apply parse_emit_iff in Hp. cbn [one_child rbind]. rewrite (proj2 (guard_iff _ _) Hx), total_one. cbn [rbind].
      rewrite Hp. reflexivity.
    - cbn [one_child rbind]. rewrite total_one. rewrite <- (Nat.add_0_r w) in Hp. apply project_iff in Hp. rewrite Hp. cbn [rbind fst snd].
      apply emit_iff in Hk. rewrite Hk. reflexivity.
    - cbn [one_child rbind]. apply groups_iff in Hs. rewrite Hs. cbn [rbind].
      assert (B : build_grouping_fields sets = (groups, gexprs)) by (apply grouping_iff; auto). rewrite B.
      pose proof (build_grouping_fields_spec _ _ _ B) as (_ & Hd & _).
      rewrite <- (Nat.add_0_r (length gexprs)) in Hp. apply outputs_iff in Hp; [|assumption]. rewrite Hp. cbn [rbind fst snd].
      apply emit_iff in Hk. rewrite Hk. reflexivity.
    - cbn [one_child rbind]. apply sorts_iff in Hs. rewrite Hs, total_one. cbn [rbind]. apply parse_emit_iff in Hp. rewrite Hp. reflexivity.
    - cbn [one_child rbind]. rewrite total_one, (proj2 (duplicate_iff args) D). cbn [guard_drop rbind].
      apply parse_emit_iff in Hp. rewrite Hp. cbn [rbind].
      apply argument_of_iff in L1, L2; try assumption. rewrite L1, L2.
      rewrite (proj2 (bounds_iff _ _ _) Hl). cbn [rbind]. rewrite (proj2 (bounds_iff _ _ _) Ho). reflexivity.
    - cbn [two_children rbind fst snd]. apply join_iff in Hj. rewrite Hj. cbn [unwrap rbind].
      apply expr_iff in Hx; [|assumption]. rewrite (proj2 (guard_iff _ _) Hx). cbn [rbind].
      apply opt_expr_iff in Hq. rewrite (proj2 (guard_iff _ _) Hq). cbn [rbind]. rewrite total_two.
      apply parse_emit_iff in Hp. rewrite Hp. reflexivity.
    - cbn [two_children rbind fst snd]. rewrite total_two. apply parse_emit_iff in Hp. rewrite Hp. reflexivity.
    - destruct ins as [|c [|c' ins]]; try (cbn in Hlen; lia).
      assert (A : forallb (fun d : prel * nat => Nat.eqb (snd d) (snd c)) (c :: c' :: ins) = true).
      { apply forallb_forall. intros d Hd. rewrite Forall_forall in Hw. apply Nat.eqb_eq. rewrite (Hw d Hd), (Hw c); [reflexivity|now left]. }
      rewrite A. apply set_iff in Hs. rewrite Hs. cbn [unwrap rbind].
      assert (snd c = w) as -> by (rewrite Forall_forall in Hw; apply Hw; now left).
      apply parse_emit_iff in Hp. rewrite Hp. reflexivity.
  Qed.
  Lemma line_iff y cs adv r n : lower_rel e y cs adv = Ok (r, n) <-> line_means e y cs adv r n.
  Proof. split; [apply line_sound|apply line_complete]. Qed.

  (** ** Addenda *)

  Lemma handled_iff k line name a d : resolve reg k line name a = Ok d <-> handled reg k name a d.
  Proof.
    unfold resolve, handled, parse_with_type, payload_of. destruct (hget (k, name) (rg_handlers reg)) as [h|].
    - unfold parse_detail. split.
      + intros H. exists h. split; [reflexivity|]. destruct (args_parse (xe_from_args h) a) as [v|x|x]; cbn [rbind] in H.
        * destruct (xe_to_any h v) as [d'|x|x]; [now injection H as ->|destruct x; discriminate|discriminate].
        * destruct x; discriminate.
        * discriminate.
      + intros (h' & [= <-] & H). destruct (args_parse (xe_from_args h) a) as [v|x|x]; cbn [rbind]; try discriminate. now rewrite H.
    - split; [discriminate|]. intros (h & H & _). discriminate.
  Qed.
  Lemma lift_iff {A} line (x : pres A) a : lift_plan line x = Ok a <-> x = Ok a.
  Proof. destruct x; cbn; split; congruence. Qed.

  (** An addendum with the invocation read from it. *)
  Definition invoked (a : acst * N) (i : ainv) : Prop := lower_addendum e a = Ok i.
  Lemma invoked_kind a i : invoked a i -> forall k, xtype_eqb (ai_kind i) k = has_kind k a.
  Proof.
    unfold invoked, lower_addendum. destruct a as [[k c args] line]. intros H q. apply (proj1 (lift_iff _ _ _)) in H.
    apply rbind_ok in H as (n & Hn & H). apply rbind_ok in H as (x & Hx & [= <-]). reflexivity.
  Qed.
  Lemma resolved_iff a d : (exists i, invoked a i /\ resolve_addendum reg i = Ok d) <-> addendum_means reg e a d.
  Proof.
    unfold invoked, lower_addendum, addendum_means, resolve_addendum. destruct a as [[k c args] line]. cbn [fst]. split.
    - intros (i & H & Hr). apply (proj1 (lift_iff _ _ _)) in H. apply rbind_ok in H as (n & Hn & H). apply rbind_ok in H as (x & Hx & [= <-]).
      cbn in Hr. apply handled_iff in Hr. apply name_iff in Hn. apply xargs_iff in Hx. eauto.
    - intros (n & x & Hn & Hx & Hr). apply (name_iff (E := perr)) in Hn. apply xargs_iff in Hx.
      exists (mk_ainv k n x line). split; [|now apply handled_iff]. apply lift_iff. rewrite Hn. cbn [rbind]. now rewrite Hx.
  Qed.
  Definition inv_kind (k : xtype) (i : ainv) : bool := xtype_eqb (ai_kind i) k.
  Definition resolves (i : ainv) (d : any) : Prop := resolve_addendum reg i = Ok d.
  Lemma standard_loop_iff l : forall enh opts enh' opts', standard_loop reg l enh opts = Ok (enh', opts') <->
    Forall (fun i => inv_kind XtEnhancement i || inv_kind XtOptimization i = true) l /\
    exists es ds, Forall2 resolves (filter (inv_kind XtEnhancement) l) es /\ Forall2 resolves (filter (inv_kind XtOptimization) l) ds /\
      SpecRels.opt_list enh ++ es = SpecRels.opt_list enh' /\ opts' = opts ++ ds.
  Proof.
    induction l as [|i l IH]; intros enh opts enh' opts'; cbn [standard_loop filter].
    - split.
      + intros [= <- <-]. split; [constructor|]. exists [], []. rewrite !app_nil_r. repeat split; constructor.
      + intros (_ & es & ds & H1 & H2 & H3 & ->). inversion H1; subst. inversion H2; subst. rewrite app_nil_r in *.
        destruct enh, enh'; try discriminate; cbn in H3; congruence.
    - pose proof (eq_refl (inv_kind XtEnhancement i)) as KE. pose proof (eq_refl (inv_kind XtOptimization i)) as KO.
      unfold inv_kind in KE at 2. unfold inv_kind in KO at 2. destruct (ai_kind i) eqn:K; cbn [xtype_eqb] in KE, KO; rewrite KE, KO.
      + split; [discriminate|]. intros (H & _). inversion_clear H as [|? ? H' _]. unfold inv_kind in H'. rewrite K in H'. discriminate.
      + split; [discriminate|]. intros (H & _). inversion_clear H as [|? ? H' _]. unfold inv_kind in H'. rewrite K in H'. discriminate.
      + split.
        * destruct enh as [x|]; [discriminate|]. intros H. apply rbind_ok in H as (d & Hd & H). apply IH in H as (H0 & es & ds & H1 & H2 & H3 & ->).
          split; [constructor; [unfold inv_kind; now rewrite K|assumption]|]. exists (d :: es), ds. repeat split; auto.
        * intros (H & es & ds & H1 & H2 & H3 & ->). inversion_clear H as [|? ? _ H0]. inversion H1 as [|? d ? es' Hd H1']; subst.
          destruct enh as [x|]; [destruct enh'; discriminate|]. unfold resolves in Hd. rewrite Hd. cbn [rbind]. apply IH. split; [assumption|].
          exists es', ds. auto.
      + split.
        * intros H. apply rbind_ok in H as (d & Hd & H). apply IH in H as (H0 & es & ds & H1 & H2 & H3 & ->).
          split; [constructor; [unfold inv_kind; now rewrite K|assumption]|]. exists es, (d :: ds). rewrite <- app_assoc. repeat split; auto.
        * intros (H & es & ds & H1 & H2 & H3 & ->). inversion_clear H as [|? ? _ H0]. inversion H2 as [|? d ? ds' Hd H2']; subst.
          unfold resolves in Hd. rewrite Hd. cbn [rbind]. apply IH. split; [assumption|].
          exists es, ds'. rewrite <- app_assoc. auto.
  Qed.
  Lemma kind_filter k ads is : Forall2 invoked ads is -> Forall2 invoked (filter (has_kind k) ads) (filter (inv_kind k) is).
  Proof.
    induction 1 as [|a i ads is H _ IH]; cbn [filter]; [constructor|].
    assert (K : inv_kind k i = has_kind k a) by now apply invoked_kind. rewrite K.
    destruct (has_kind k a); [constructor|]; assumption.
  Qed.
  Lemma kinds_iff ads is : Forall2 invoked ads is ->
    Forall (fun a => has_kind XtEnhancement a || has_kind XtOptimization a = true) ads <->
    Forall (fun i => inv_kind XtEnhancement i || inv_kind XtOptimization i = true) is.
  Proof.
    induction 1 as [|a i ads is H _ IH]; [split; constructor|]. rewrite !Forall_cons_iff, IH. 
    assert (K : forall k, inv_kind k i = has_kind k a) by (intros k; now apply invoked_kind). now rewrite !K.
  Qed.
  Lemma means_resolves ads is ds : Forall2 invoked ads is -> Forall2 (addendum_means reg e) ads ds <-> Forall2 resolves is ds.
  Proof.
    intros H. revert ds. induction H as [|a i ads is H _ IH]; intros ds.
    - split; inversion_clear 1; constructor.
    - split; intros G; inversion_clear G as [|? d ? ds' Hd G']; constructor.
      + apply resolved_iff in Hd as (i' & Hi & Hd). assert (i' = i) as -> by (unfold invoked in *; congruence). exact Hd.
      + now apply IH.
      + apply resolved_iff. exists i. auto.
      + now apply IH.
  Qed.
  Lemma standard_iff ads is adv : Forall2 invoked ads is -> standard_addenda reg is = Ok adv <-> addenda_mean reg e ads adv.
  Proof.
    intros Hi. unfold standard_addenda. split.
    - intros H. apply rbind_ok in H as ([enh opts] & Hl & H). apply standard_loop_iff in Hl as (H0 & es & ds & H1 & H2 & H3 & ->).
      cbn [app SpecRels.opt_list] in H3. subst es. cbn [app] in H.
      destruct ads as [|a ads].
      + inversion Hi; subst. cbn in H1, H2. inversion H2; subst. destruct enh; [inversion H1|]. injection H as <-. now constructor.
      + assert (A : adv = Some (mk_advext enh ds)).
        { destruct enh; [now injection H|]. destruct ds; [|now injection H]. exfalso. inversion Hi as [|? i ? is' ? ?]; subst.
          cbn [filter SpecRels.opt_list] in H1, H2. inversion H0 as [|? ? Hk ?]; subst.
          destruct (inv_kind XtEnhancement i); [inversion H1|]. destruct (inv_kind XtOptimization i); [inversion H2|]. discriminate. }
        subst adv. constructor; [discriminate| | |].
        * now apply (kinds_iff _ _ Hi).
        * now apply (means_resolves _ _ _ (kind_filter _ _ _ Hi)).
        * now apply (means_resolves _ _ _ (kind_filter _ _ _ Hi)).
    - intros [->|enh opts Hn Hk He Ho].
      + inversion Hi; subst. reflexivity.
      + assert (A : standard_loop reg is None [] = Ok (enh, opts)).
        { apply standard_loop_iff. split; [now apply (kinds_iff _ _ Hi)|]. exists (SpecRels.opt_list enh), opts. repeat split.
          - now apply (means_resolves _ _ _ (kind_filter _ _ _ Hi)).
          - now apply (means_resolves _ _ _ (kind_filter _ _ _ Hi)). }
        rewrite A. cbn [rbind]. destruct enh; [reflexivity|]. destruct opts; [|reflexivity]. exfalso.
        destruct ads as [|a ads]; [congruence|]. cbn [filter SpecRels.opt_list] in He, Ho. inversion Hk as [|? ? Hk' ?]; subst.
        destruct (has_kind XtEnhancement a); [inversion He|]. destruct (has_kind XtOptimization a); [inversion Ho|]. discriminate.
  Qed.
  Lemma addenda_invoked ads adv : addenda_mean reg e ads adv -> exists is, Forall2 invoked ads is.
  Proof.
    intros [->|enh opts Hn Hk He Ho]; [now exists []|]. clear Hn.
    assert (A : Forall (fun a => exists i, invoked a i) ads).
    { apply Forall_forall. intros a Ha. rewrite Forall_forall in Hk. pose proof (Hk a Ha) as K. apply orb_true_iff in K.
      assert (B : forall k l, Forall2 (addendum_means reg e) (filter (has_kind k) ads) l -> has_kind k a = true -> exists i, invoked a i).
      { intros k l Hl Hka. assert (Hin : In a (filter (has_kind k) ads)) by (apply filter_In; auto).
        clear -Hl Hin Hwf. induction Hl as [|b d bs ds Hd _ IH]; [destruct Hin|]. destruct Hin as [->|Hin]; [|auto].
        apply resolved_iff in Hd as (i & Hi & _). eauto. }
      destruct K as [K|K]; eauto. }
    clear -A Hwf. induction A as [|a ads (i & Hi) _ (is & IH)]; [now exists []|]. exists (i :: is). auto.
  Qed.
  Lemma filter_one {A} (f : A -> bool) l a : filter f l = [a] ->
    exists before after, l = before ++ a :: after /\ f a = true /\ filter (fun x => negb (f x)) l = before ++ after.
  Proof.
    induction l as [|x l IH]; cbn [filter]; [discriminate|]. destruct (f x) eqn:E; cbn [negb].
    - intros [= -> H]. exists [], l. repeat split; auto. cbn. clear -H. induction l as [|y l IH]; [reflexivity|].
      cbn in *. destruct (f y); [discriminate|]. cbn. f_equal. auto.
    - intros H. destruct (IH H) as (b & c & -> & H1 & H2). exists (x :: b), c. repeat split; auto. cbn. now rewrite <- H2.
  Qed.
  Lemma filter_around {A} (f : A -> bool) before a after : f a = true -> Forall (fun x => f x = false) (before ++ after) ->
    filter f (before ++ a :: after) = [a] /\ filter (fun x => negb (f x)) (before ++ a :: after) = before ++ after.
  Proof.
    intros Ha H. apply Forall_app in H as [H1 H2]. rewrite !filter_app. cbn [filter]. rewrite Ha. cbn [negb].
    assert (G : forall l, Forall (fun x => f x = false) l -> filter f l = [] /\ filter (fun x => negb (f x)) l = l).
    { clear. induction 1 as [|x l Hx _ [IH1 IH2]]; [auto|]. cbn. rewrite Hx. cbn. rewrite IH2. auto. }
    destruct (G _ H1) as [-> ->], (G _ H2) as [-> ->]. auto.
  Qed.
  Lemma table_sound line ads is d adv : Forall2 invoked ads is -> extension_read_addenda reg line is = Ok (d, adv) ->
    exists before a after, ads = before ++ a :: after /\ addendum_means reg e a d /\ has_kind XtTable a = true /\
      addenda_mean reg e (before ++ after) adv.
  Proof.
    intros Hi H. unfold extension_read_addenda in H. destruct (filter is_table is) as [|i [|? ?]] eqn:E; try discriminate.
    apply rbind_ok in H as (d' & Hd & H). apply rbind_ok in H as (adv' & Hs & H). injection H as -> ->.
    apply filter_one in E as (bi & ai & -> & Ht & E). rewrite E in Hs.
    apply Forall2_app_inv_r in Hi as (before & rest & Hb & Hr & ->). inversion Hr as [|a ? after ? Ha Hr']; subst.
    exists before, a, after. repeat split.
    - apply resolved_iff. exists i. auto.
    - rewrite <- (invoked_kind _ _ Ha). exact Ht.
    - eapply standard_iff; [|exact Hs]. now apply Forall2_app.
  Qed.
  Lemma table_complete line before a after d adv : addendum_means reg e a d -> has_kind XtTable a = true ->
    addenda_mean reg e (before ++ after) adv ->
    exists is, Forall2 invoked (before ++ a :: after) is /\ extension_read_addenda reg line is = Ok (d, adv).
  Proof.
    intros Ha Hk Hm. destruct (addenda_invoked _ _ Hm) as (is & Hi). pose proof Hi as Hi'.
    apply Forall2_app_inv_l in Hi' as (bi & ai & Hb & Hc & ->). apply resolved_iff in Ha as (i & Hii & Hd).
    exists (bi ++ i :: ai). split; [apply Forall2_app; auto|]. unfold extension_read_addenda.
    destruct (filter_around is_table bi i ai) as [-> ->].
    - unfold is_table. now rewrite (invoked_kind _ _ Hii).
    - assert (K : Forall (fun a => has_kind XtEnhancement a || has_kind XtOptimization a = true) (before ++ after)).
      { destruct Hm as [->|? ? ? Hm ? ?]; [constructor|assumption]. }
      apply (kinds_iff _ _ Hi) in K. eapply Forall_impl; [|exact K]. intros x. unfold inv_kind, is_table. now destruct (ai_kind x).
    - rewrite Hd. cbn [rbind]. apply (standard_iff _ _ _ Hi) in Hm. now rewrite Hm.
  Qed.

  (** ** Trees *)

  Lemma inputs_iff k cs d : forall r, child_count_ok k (length cs) = true /\ create_rel k d cs = r <-> extension_inputs k cs d r.
  Proof.
    intros r. split.
    - intros [H <-]. destruct k; cbn in *.
      + destruct cs; [constructor|discriminate].
      + destruct cs as [|c [|? ?]]; try discriminate. constructor.
      + constructor.
    - destruct 1; auto.
  Qed.
  Lemma tree_iff t : forall r n, build_rel reg e t = Ok (r, n) <-> tree_means reg e t r n.
  Proof.
    induction t as [y line ads cs IH] using rnode_ind2.
    assert (Hcs : forall ins, rlist (build_rel reg e) cs = Ok ins <-> Forall2 (fun c p => tree_means reg e c (fst p) (snd p)) cs ins).
    { intros ins. rewrite rlist_iff. apply Forall2_iff_in. eapply Forall_impl; [|exact IH]. intros c H [r n]. apply H. }
    intros r n. cbn [build_rel]. split.
    - intros H. apply rbind_ok in H as (ins & Hins & H). apply Hcs in Hins. apply rbind_ok in H as (is & Hi & H). rewrite rlist_iff in Hi.
      change (Forall2 invoked ads is) in Hi.
      assert (S : (let? adv := standard_addenda reg is in lift_plan line (lower_rel e y ins adv)) = Ok (r, n) -> tree_means reg e (RNode y line ads cs) r n).
      { intros G. apply rbind_ok in G as (adv & Ha & G). apply (proj1 (lift_iff _ _ _)) in G. apply line_iff in G.
        apply (standard_iff _ _ _ Hi) in Ha. eapply tr_line; eauto. }
      destruct y as [names|t o|cols|rows f cols|x refs|args|g outs|fs refs|args refs|t x p refs|o refs|refs|k c args cols];
        try (apply S; exact H).
      + clear S. cbn [parse_relation] in H. apply rbind_ok in H as ([d adv] & Ht & H). apply (proj1 (lift_iff _ _ _)) in H.
        destruct ins; [|discriminate]. inversion Hins; subst. apply rbind_ok in H as (cols' & Hc & H). injection H as <- <-.
        apply columns_iff in Hc. apply (table_sound _ _ _ _ _ Hi) in Ht as (before & a & after & -> & H1 & H2 & H3).
        cbn [fst snd]. eapply tr_table; eauto.
      + clear S. cbn [parse_relation] in H. destruct is; [|discriminate]. inversion Hi; subst.
        apply rbind_ok in H as (a & Ha & H). apply (proj1 (lift_iff _ _ _)) in Ha. apply invocation_iff in Ha as (cols' & Hc & Ha).
        destruct (child_count_ok k (length ins)) eqn:C; [|discriminate]. apply rbind_ok in H as (d & Hd & H). injection H as <- <-.
        apply handled_iff in Hd. assert (xa_columns a = cols') as -> by (destruct Ha as (? & ? & ? & ? & ? & ? & ? & ? & ->); reflexivity).
        eapply tr_extension; eauto. apply inputs_iff. rewrite map_length. auto.
    - inversion 1 as [y' line' ads' adv cs' ins r' n' Hins Ha Hl|cols' cols line' a ads' before d adv Ha Hk Hm Hc
        |k c args xcs cols a d line' cs' ins r' Hins Hc Ha Hd Hr]; subst.
      + apply Hcs in Hins. rewrite Hins. cbn [rbind]. destruct (addenda_invoked _ _ Ha) as (is & Hi).
        assert (Hi' : rlist (lower_addendum e) ads = Ok is) by now apply rlist_iff. rewrite Hi'. cbn [rbind].
        apply (standard_iff _ _ _ Hi) in Ha. apply line_iff in Hl.
        destruct y; cbn [parse_relation]; try (rewrite Ha; cbn [rbind]; apply lift_iff; assumption); discriminate.
      + cbn [rlist rbind]. destruct (table_complete line _ _ _ _ _ Ha Hk Hm) as (is & Hi & Ht).
        assert (Hi' : rlist (lower_addendum e) (before ++ a :: ads') = Ok is) by now apply rlist_iff. rewrite Hi'. cbn [rbind parse_relation].
        rewrite Ht. cbn [rbind]. apply columns_iff in Hc. rewrite Hc. reflexivity.
      + apply Hcs in Hins. rewrite Hins. cbn [rbind rlist parse_relation].
        assert (Hi : lower_invocation e args xcs = Ok a) by (apply invocation_iff; eauto). rewrite Hi. cbn [lift_plan rbind].
        apply inputs_iff in Hr as [Hr1 Hr2]. rewrite map_length in Hr1. rewrite Hr1.
        change (raw_name c) with (raw c). rewrite (proj2 (handled_iff _ line _ _ _) Hd). cbn [rbind].
        assert (xa_columns a = cols) as -> by (destruct Ha as (? & ? & ? & ? & ? & ? & ? & ? & ->); reflexivity). now rewrite Hr2.
  Qed.
  Lemma plan_tree_iff t p : build_plan_rel reg e t = Ok p <-> plan_tree_means reg e t p.
  Proof.
    assert (R : forall r n, tree_means reg e t r n -> exists p, build_rel reg e t = Ok p /\ fst p = r).
    { intros r n H. apply tree_iff in H. eauto. }
    assert (S : (let? p := build_rel reg e t in Ok (PRel (fst p))) = Ok p -> plan_tree_means reg e t p).
    { intros H. apply rbind_ok in H as ([r n] & Hr & H). injection H as <-. apply tree_iff in Hr. eapply pt_rel; eauto. }
    split.
    - destruct t as [y line ads cs]. cbn [build_plan_rel]. intros H. destruct y; try (apply S; exact H).
      destruct ads as [|[? ?] ?]; [|discriminate]. apply rbind_ok in H as (ns & Hn & H). apply (proj1 (lift_iff _ _ _)) in Hn.
      apply names_iff in Hn. destruct cs as [|c [|? ?]]; try discriminate. apply rbind_ok in H as ([r n] & Hr & H). injection H as <-.
      apply tree_iff in Hr. eapply pt_root; eauto.
    - destruct 1 as [cs names line c r n Hn Hc|t r n Ht].
      + cbn [build_plan_rel]. apply (names_iff (E := perr)) in Hn. rewrite Hn. cbn [lift_plan rbind].
        apply tree_iff in Hc. rewrite Hc. reflexivity.
      + pose proof Ht as Ht'. apply tree_iff in Ht. destruct t as [y line ads cs].
        destruct y; cbn [build_plan_rel]; try (rewrite Ht; reflexivity).
        inversion Ht' as [? ? ? ? ? ? ? ? ? ? Hl| |]; subst. inversion Hl.
  Qed.
End Read.
