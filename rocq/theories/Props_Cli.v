(** C40, C41 and C42: descriptor pools and the command line. *)
From Coq Require Import String List NArith ZArith Bool Lia PeanoNat.
From Verif Require Import Utf8 Base BaseFacts Names SpecNames NamesFacts Out SimpleExt SpecExt Types Literals SpecLiterals Exprs SpecExprs ExtArgs Registry Rels
  Structural Plan SpecPlan SpecRegistry Descriptors Cli SpecCli Props_Literals Props_Exprs Props_Registry Props_Plan Props_Parse LineView SpecCli.
Import ListNotations.
Local Open Scope string_scope.
Local Open Scope list_scope.
Local Open Scope nat_scope.

(** ** C40 *)

Lemma name_in_In n l : name_in n l = true <-> In n l.
Proof.
  unfold name_in. rewrite existsb_exists. split.
  - intros (x & H & E). apply streqb_eq in E. now subst.
  - intros H. exists n. split; [exact H|apply streqb_refl].
Qed.
Lemma add_files_firsts fs : forall acc seen acc' seen',
  (forall n, In n seen <-> In n (map file_name acc)) -> add_files fs acc seen = (acc', seen') ->
  (forall n, In n seen' <-> In n (map file_name acc')) /\ exists l, acc' = acc ++ l /\ firsts acc fs l.
Proof.
  induction fs as [|f fs IH]; intros acc seen acc' seen' Hs H; cbn [add_files] in H.
  - injection H as <- <-. split; [exact Hs|]. exists []. rewrite app_nil_r. split; [reflexivity|constructor].
  - destruct (name_in (file_name f) seen) eqn:E.
    + destruct (IH _ _ _ _ Hs H) as (H1 & l & -> & Hl). split; [exact H1|]. exists l. split; [reflexivity|].
      apply firsts_old; [|exact Hl]. apply Hs. now apply name_in_In.
    + destruct (IH (acc ++ [f]) (file_name f :: seen) acc' seen') as (H1 & l & -> & Hl).
      * intros n. cbn [In]. rewrite map_app, in_app_iff, Hs. cbn [map In]. intuition.
      * exact H.
      * split; [exact H1|]. exists (f :: l). split; [now rewrite <- app_assoc|]. apply firsts_new; [|exact Hl].
        rewrite <- Hs, <- name_in_In. congruence.
Qed.
Lemma firsts_app fs e1 l1 : firsts fs e1 l1 -> forall e2 l2, firsts (fs ++ l1) e2 l2 -> firsts fs (e1 ++ e2) (l1 ++ l2).
Proof.
  induction 1 as [fs|fs f exs l Hn H IH|fs f exs l Hi H IH]; intros e2 l2 H2; cbn [app].
  - now rewrite app_nil_r in H2.
  - apply firsts_new; [exact Hn|]. apply IH. now rewrite <- app_assoc.
  - apply firsts_old; auto.
Qed.
Lemma add_blobs_firsts decode bs : forall acc seen all,
  (forall n, In n seen <-> In n (map file_name acc)) -> add_blobs decode bs acc seen = Ok all ->
  exists exs l, Forall2 (fun b e => decode b = Some e) bs exs /\ all = acc ++ l /\ firsts acc (concat exs) l.
Proof.
  induction bs as [|b bs IH]; intros acc seen all Hs H; cbn [add_blobs] in H.
  - injection H as <-. exists [], []. rewrite app_nil_r. repeat constructor.
  - destruct (decode b) as [fs|] eqn:Eb; [|discriminate]. destruct (add_files fs acc seen) as [acc' seen'] eqn:E.
    destruct (add_files_firsts _ _ _ _ _ Hs E) as (Hs' & l & -> & Hl).
    destruct (IH _ _ _ Hs' H) as (exs & l2 & F & -> & Hl2). exists (fs :: exs), (l ++ l2).
    split; [now constructor|]. split; [now rewrite <- app_assoc|]. cbn [concat]. now apply firsts_app.
Qed.

(** The pool is made of the core files, as they are, followed by the first extra file
    of every other name, in order. *)
Theorem C40_pool_files : forall decode accepts core extra all,
  build_descriptor_pool decode accepts core extra = Ok all ->
  exists fs exs l, decode core = Some fs /\ Forall2 (fun b e => decode b = Some e) extra exs /\
    all = fs ++ l /\ firsts fs (concat exs) l.
Proof.
  intros decode accepts core extra all H. unfold build_descriptor_pool in H. destruct (decode core) as [fs|] eqn:E; [|discriminate].
  apply rbind_ok in H as (x & H & A). destruct (accepts x); [|discriminate]. injection A as <-.
  destruct (add_blobs_firsts decode extra fs (map file_name fs) x) as (exs & l & F & -> & Hl); [reflexivity|exact H|].
  exists fs, exs, l. auto.
Qed.

Lemma firsts_names fs exs l : firsts fs exs l ->
  (forall f, In f l -> ~ In (file_name f) (map file_name fs)) /\ NoDup (map file_name l) /\
  (forall f, In f exs -> In (file_name f) (map file_name (fs ++ l))).
Proof.
  induction 1 as [fs|fs f exs l Hn H (I1 & I2 & I3)|fs f exs l Hi H (I1 & I2 & I3)].
  - repeat split; try constructor; intros f [].
  - repeat split.
    + intros g [<-|Hg]; [exact Hn|]. intros Hin. apply (I1 g Hg). rewrite map_app, in_app_iff. auto.
    + cbn [map]. constructor; [|exact I2]. intros Hin. apply in_map_iff in Hin as (g & Eg & Hg). apply (I1 g Hg).
      rewrite map_app, in_app_iff. right. left. now rewrite Eg.
    + intros g [<-|Hg].
      * rewrite map_app, in_app_iff. right. now left.
      * specialize (I3 g Hg). now rewrite <- app_assoc in I3.
  - repeat split; auto. intros g [<-|Hg]; [|auto]. rewrite map_app, in_app_iff. auto.
Qed.

(** If the core has no two files of one name, neither has the pool; no core file is
    lost or replaced, and every extra file is there by its name. *)
Theorem C40_no_duplicates : forall decode accepts core extra all,
  build_descriptor_pool decode accepts core extra = Ok all ->
  exists fs exs, decode core = Some fs /\ Forall2 (fun b e => decode b = Some e) extra exs /\
    (forall f, In f (concat exs) -> In (file_name f) (map file_name all)) /\
    (exists l, all = fs ++ l) /\
    (NoDup (map file_name fs) -> NoDup (map file_name all)).
Proof.
  intros decode accepts core extra all H. destruct (C40_pool_files _ _ _ _ _ H) as (fs & exs & l & Hc & F & -> & Hl).
  destruct (firsts_names _ _ _ Hl) as (H1 & H2 & H3). exists fs, exs. repeat split; auto; [now exists l|]. intros Hfs.
  rewrite map_app. clear - H1 H2 Hfs. induction fs as [|f fs IH]; [exact H2|]. cbn [map app] in *. inversion Hfs as [|? ? N D]; subst.
  constructor.
  - rewrite in_app_iff. intros [Hin|Hin]; [auto|]. apply in_map_iff in Hin as (g & E & Hg). apply (H1 g Hg). left. congruence.
  - apply IH; [|exact D]. intros g Hg Hin. apply (H1 g Hg). now right.
Qed.

(** Building fails only if some set does not decode or the pool is refused. *)
Theorem C40_failures : forall decode accepts core extra,
  (exists all, build_descriptor_pool decode accepts core extra = Ok all) <->
  exists fs exs l, decode core = Some fs /\ Forall2 (fun b e => decode b = Some e) extra exs /\
    firsts fs (concat exs) l /\ accepts (fs ++ l) = true.
Proof.
  intros decode accepts core extra. split.
  - intros (all & H). pose proof H as H0. destruct (C40_pool_files _ _ _ _ _ H) as (fs & exs & l & Hc & F & -> & Hl).
    exists fs, exs, l. repeat split; auto. unfold build_descriptor_pool in H0. rewrite Hc in H0. apply rbind_ok in H0 as (x & _ & A).
    destruct (accepts x) eqn:E; [|discriminate]. injection A as ->. exact E.
  - intros (fs & exs & l & Hc & F & Hl & A). unfold build_descriptor_pool. rewrite Hc.
    assert (G : forall bs exs, Forall2 (fun b e => decode b = Some e) bs exs -> forall acc seen, exists all, add_blobs decode bs acc seen = Ok all).
    { clear. induction 1 as [|b e bs exs H _ IH]; intros acc seen; cbn [add_blobs]; [eauto|]. rewrite H.
      destruct (add_files e acc seen) as [a s]. apply IH. }
    destruct (G extra exs F fs (map file_name fs)) as (all & E). rewrite E. cbn [rbind].
    destruct (add_blobs_firsts decode extra fs (map file_name fs) all) as (exs' & l' & F' & -> & Hl'); [reflexivity|exact E|].
    assert (exs' = exs) as -> by (clear - F F'; revert exs' F'; induction F as [|b e bs exs H _ IH]; intros exs' F'; inversion F'; subst; f_equal; [congruence|auto]).
    assert (l' = l) as ->; [|rewrite A; eauto].
    clear - Hl Hl'. revert l' Hl'. induction Hl as [fs|fs f e l H _ IH|fs f e l H _ IH]; intros l' Hl'; inversion Hl'; subst; try contradiction; try f_equal; auto.
Qed.

(** JSON input is UTF-8 whose pool can be built, even when the plain reader needs none;
    the reader through the pool gets only what the plain one refuses. *)
Theorem C40_json_read : forall (U : Unicode) (F : Floats) (K : Codecs) reg descs b p,
  read_plan FmtJson reg descs b = Ok p <->
  exists s fs exs l, (Forall (fun c => scalar c = true) s /\ b = utf8_encode s) /\
    fds_decode core_fds = Some fs /\ Forall2 (fun b e => fds_decode b = Some e) descs exs /\
    firsts fs (concat exs) l /\ pool_accepts (fs ++ l) = true /\
    (json_naive s = Some p \/ json_naive s = None /\ json_standard (fs ++ l) s = Some p).
Proof.
  intros U F K reg descs b p. cbn [read_plan]. split.
  - intros H. apply rbind_ok in H as (s & Hs & H). unfold read_text in Hs. destruct (utf8_decode b) as [t|] eqn:Eb; [|discriminate]. injection Hs as ->.
    destruct (build_descriptor_pool fds_decode pool_accepts core_fds descs) as [pool|e|m] eqn:E; try discriminate.
    destruct (C40_pool_files _ _ _ _ _ E) as (fs & exs & l & Hc & HF & -> & Hl). exists s, fs, exs, l.
    split; [apply utf8_encode_decode in Eb as [-> Es]; auto|]. split; [exact Hc|]. split; [exact HF|]. split; [exact Hl|]. split.
    + unfold build_descriptor_pool in E. rewrite Hc in E. apply rbind_ok in E as (x & _ & A). destruct (pool_accepts x) eqn:Ex; [|discriminate]. injection A as ->. exact Ex.
    + unfold parse_json in H. destruct (json_naive s) as [q|]; [left; now injection H as ->|right].
      destruct (json_standard (fs ++ l) s) as [q|]; [|discriminate]. injection H as ->. auto.
  - intros (s & fs & exs & l & Hs & Hc & HF & Hl & A & Hj). destruct Hs as [Hs ->]. unfold read_text. rewrite utf8_decode_encode by exact Hs. cbn [rbind].
    destruct (proj2 (C40_failures fds_decode pool_accepts core_fds descs)) as (all & E); [exists fs, exs, l; auto|]. rewrite E.
    destruct (C40_pool_files _ _ _ _ _ E) as (fs' & exs' & l' & Hc' & HF' & -> & Hl').
    assert (fs' = fs) as -> by congruence.
    assert (exs' = exs) as -> by (clear - HF HF'; revert exs' HF'; induction HF as [|x e bs exs H _ IH]; intros exs' F'; inversion F'; subst; f_equal; [congruence|auto]).
    assert (l' = l) as ->
      by (clear - Hl Hl'; revert l' Hl'; induction Hl as [fs|fs f e l H _ IH|fs f e l H _ IH]; intros l' Hl'; inversion Hl'; subst; try contradiction; try f_equal; auto).
    unfold parse_json. destruct Hj as [->|[-> ->]]; reflexivity.
Qed.

(** ** C41: the format of a path *)

Lemma split_nil s : path_split s <> [].
Proof. destruct s as [|c s]; cbn [path_split]; [discriminate|]. destruct (c =? 47)%N; [discriminate|]. destruct (path_split s); discriminate. Qed.
Lemma split_slash a b : path_split (a ++ 47%N :: b) = path_split a ++ path_split b.
Proof.
  induction a as [|c a IH]; cbn [app path_split]; [reflexivity|]. destruct (c =? 47)%N; [now rewrite IH|].
  rewrite IH. destruct (path_split a) as [|x l] eqn:E; [now apply split_nil in E|]. reflexivity.
Qed.
Lemma split_plain x : ~ In 47%N x -> path_split x = [x].
Proof.
  induction x as [|c x IH]; cbn [path_split In]; intros H; [reflexivity|].
  destruct (N.eqb_spec c 47) as [->|]; [tauto|]. rewrite IH by tauto. reflexivity.
Qed.
Definition slashed (l : list (list N)) : list N := concat (map (fun s => 47%N :: s) l).
Lemma split_slashed x l : ~ In 47%N x -> Forall (fun s => ~ In 47%N s) l -> path_split (x ++ slashed l) = x :: l.
Proof.
  intros Hx H. revert x Hx. induction H as [|s l Hs H IH]; intros x Hx; cbn [slashed map concat].
  - rewrite app_nil_r. now apply split_plain.
  - cbn [app]. rewrite split_slash, (split_plain x Hx). cbn [app]. f_equal. apply (IH s Hs).
Qed.
Lemma split_join s : exists x l, path_split s = x :: l /\ s = x ++ slashed l /\ ~ In 47%N x /\ Forall (fun s => ~ In 47%N s) l.
Proof.
  induction s as [|c s (x & l & E & Es & Hx & Hl)]; cbn [path_split].
  - exists [], []. repeat split; auto.
  - rewrite E. destruct (N.eqb_spec c 47) as [->|Hc].
    + exists [], (x :: l). repeat split; auto. cbn [slashed map concat app]. now rewrite Es at 1.
    + exists (c :: x), l. repeat split; auto; [cbn [app]; now rewrite Es at 1|]. cbn [In]. intuition.
Qed.
Lemma drop_while_split {A} (f : A -> bool) l : exists d, l = d ++ drop_while f l /\ forallb f d = true /\
  match drop_while f l with [] => True | x :: _ => f x = false end.
Proof.
  induction l as [|x l (d & E & H & G)]; cbn [drop_while]; [now exists []|]. destruct (f x) eqn:Ex.
  - exists (x :: d). cbn [app forallb]. rewrite Ex, H. split; [now f_equal|auto].
  - exists []. auto.
Qed.
Lemma drop_while_app {A} (f : A -> bool) d x l : forallb f d = true -> f x = false -> drop_while f (d ++ x :: l) = x :: l.
Proof.
  intros H Hx. induction d as [|y d IH]; cbn [app drop_while].
  - now rewrite Hx.
  - cbn [forallb] in H. apply andb_prop in H as [-> H]. auto.
Qed.
Lemma skipped_spec x : skipped x = true <-> x = [] \/ x = L ".".
Proof.
  unfold skipped. destruct x as [|c x]; [tauto|]. rewrite streqb_eq. split; [auto|]. intros [H|H]; [discriminate|exact H].
Qed.
Lemma slashed_app a b : slashed (a ++ b) = slashed a ++ slashed b.
Proof. unfold slashed. now rewrite map_app, concat_app. Qed.
Lemma skipped_all l : forallb skipped l = true <-> Forall (fun s => s = [] \/ s = L ".") l.
Proof.
  rewrite forallb_forall, Forall_forall. split; intros H x Hx; apply skipped_spec; auto; now apply H.
Qed.
Lemma forallb_rev {A} (f : A -> bool) l : forallb f (rev l) = forallb f l.
Proof.
  induction l as [|x l IH]; cbn [rev forallb]; [reflexivity|]. rewrite forallb_app, IH. cbn. rewrite andb_true_r. apply andb_comm.
Qed.

Lemma file_name_spec p name : path_file_name p = Some name <-> path_named p name.
Proof.
  unfold path_file_name. split.
  - destruct (drop_while_split skipped (rev (path_split p))) as (d & E & Hd & Hx).
    destruct (drop_while skipped (rev (path_split p))) as [|x l]; [discriminate|].
    destruct (streqb x (L "..")) eqn:Edd; [discriminate|]. intros [= ->]. apply streqb_neq in Edd.
    apply (f_equal (@rev _)) in E. rewrite rev_involutive, rev_app_distr in E. cbn [rev] in E. rewrite <- app_assoc in E. cbn [app] in E.
    destruct (split_join p) as (y & m & E2 & -> & Hy & Hm). rewrite E2 in E.
    assert (Hall : Forall (fun s => ~ In 47%N s) (rev l ++ name :: rev d)) by (rewrite <- E; constructor; assumption).
    apply Forall_app in Hall as [_ Hall]. inversion Hall as [|? ? Hn _]; subst.
    assert (Hs : ~ (name = [] \/ name = L ".")) by (rewrite <- skipped_spec; congruence).
    exists (match rev l with [] => [] | z :: k => z ++ slashed k ++ [47%N] end), (rev d).
    repeat split; auto; try (intros ->; apply Hs; auto; fail).
    + fold (slashed (rev d)). destruct (rev l) as [|z k]; cbn [app] in E; injection E as -> ->; [reflexivity|].
      rewrite slashed_app. cbn [slashed map concat app]. fold (slashed (rev d)). rewrite <- !app_assoc. reflexivity.
    + destruct (rev l) as [|z k]; [now left|]. right. exists (z ++ slashed k). now rewrite <- app_assoc.
    + apply skipped_all. now rewrite forallb_rev.
  - intros (dir & segs & -> & Hdir & Hn & N1 & N2 & N3 & Hsegs). fold (slashed segs).
    assert (Hs : Forall (fun s => ~ In 47%N s) segs).
    { eapply Forall_impl; [|exact Hsegs]. intros s [->| ->]; cbn; [tauto|]. intros [H|H]; [discriminate|exact H]. }
    assert (G : exists pre, path_split (dir ++ name ++ slashed segs) = pre ++ name :: segs).
    { destruct Hdir as [->|(d & ->)].
      - exists []. now apply split_slashed.
      - exists (path_split d). rewrite <- app_assoc. cbn [app]. rewrite split_slash. f_equal. now apply split_slashed. }
    destruct G as (pre & ->). rewrite rev_app_distr. cbn [rev]. rewrite <- app_assoc. cbn [app].
    rewrite drop_while_app.
    + destruct (streqb name (L "..")) eqn:E; [apply streqb_eq in E; contradiction|reflexivity].
    + rewrite forallb_rev. now apply skipped_all.
    + destruct (skipped name) eqn:E; [apply skipped_spec in E; tauto|reflexivity].
Qed.
Lemma rsplit_none s : rsplit_dot s = None <-> ~ In 46%N s.
Proof.
  induction s as [|c s IH]; cbn [rsplit_dot In]; [tauto|]. destruct (rsplit_dot s) as [[a b]|].
  - split; [discriminate|]. intros H. exfalso. assert (~ In 46%N s) by tauto. apply IH in H0. discriminate.
  - destruct (N.eqb_spec c 46) as [->|Hc]; [split; [discriminate|intros H; exfalso; apply H; auto]|].
    split; auto. intros _ [->|H]; [auto|]. now apply IH in H.
Qed.
Lemma rsplit_spec s a b : rsplit_dot s = Some (a, b) <-> s = a ++ 46%N :: b /\ ~ In 46%N b.
Proof.
  revert a b. induction s as [|c s IH]; intros a b; cbn [rsplit_dot].
  - split; [discriminate|]. intros [H _]. destruct a; discriminate.
  - destruct (rsplit_dot s) as [[a' b']|] eqn:E.
    + split.
      * intros [= <- ->]. destruct (proj1 (IH a' b) eq_refl) as [-> H]. auto.
      * intros [H Hb]. destruct a as [|c' a]; cbn [app] in H; injection H as -> H.
        -- subst s. destruct (proj1 (IH a' b') eq_refl) as [H _]. exfalso. apply Hb. rewrite H. apply in_app_iff. right. now left.
        -- assert (X : Some (a', b') = Some (a, b)) by (apply IH; auto). injection X as -> ->. reflexivity.
    + apply rsplit_none in E. destruct (N.eqb_spec c 46) as [->|Hc]; split.
      * intros [= <- <-]. auto.
      * intros [H Hb]. destruct a as [|c' a]; cbn [app] in H; [assert (s = b) by congruence; now subst|].
        assert (H' : s = a ++ 46%N :: b) by congruence. exfalso. apply E. rewrite H'. apply in_app_iff. right. now left.
      * discriminate.
      * intros [H Hb]. destruct a as [|c' a]; cbn [app] in H; [congruence|].
        assert (H' : s = a ++ 46%N :: b) by congruence. exfalso. apply E. rewrite H'. apply in_app_iff. right. now left.
Qed.

Lemma one_of_In x l : one_of x l = true <-> In x (map L l).
Proof.
  unfold one_of. rewrite existsb_exists, in_map_iff. split.
  - intros (y & H & E). apply streqb_eq in E. eauto.
  - intros (y & <- & H). exists y. split; [exact H|apply streqb_refl].
Qed.

(** The format of a path is read off the last part of it: the letters after its last
    dot, in lower case, if there is something in front of the dot. *)
Theorem C41_detected_format : forall (K : Codecs) p f,
  from_extension p = Some f <->
  exists name stem ext x, path_named p name /\ name = stem ++ L "." ++ ext /\ stem <> [] /\ ~ In 46%N ext /\
    lowercase ext = L x /\ In (x, f) extension_formats.
Proof.
  intros K p f.
  assert (T : forall ext, (if one_of (lowercase ext) ["substrait"; "txt"] then Some FmtText
    else if one_of (lowercase ext) ["json"] then Some FmtJson else if one_of (lowercase ext) ["yaml"; "yml"] then Some FmtYaml
    else if one_of (lowercase ext) ["pb"; "proto"; "protobuf"] then Some FmtProtobuf else None) = Some f <->
    exists x, lowercase ext = L x /\ In (x, f) extension_formats).
  { intros ext. generalize (lowercase ext). intros y. split.
    - destruct (one_of y ["substrait"; "txt"]) eqn:E1.
      { intros [= <-]. apply one_of_In in E1. cbn [map In] in E1. destruct E1 as [<-|[<-|[]]]; eexists; (split; [reflexivity|]); cbn; auto 10. }
      destruct (one_of y ["json"]) eqn:E2.
      { intros [= <-]. apply one_of_In in E2. cbn [map In] in E2. destruct E2 as [<-|[]]; eexists; (split; [reflexivity|]); cbn; auto 10. }
      destruct (one_of y ["yaml"; "yml"]) eqn:E3.
      { intros [= <-]. apply one_of_In in E3. cbn [map In] in E3. destruct E3 as [<-|[<-|[]]]; eexists; (split; [reflexivity|]); cbn; auto 10. }
      destruct (one_of y ["pb"; "proto"; "protobuf"]) eqn:E4; [|discriminate].
      intros [= <-]. apply one_of_In in E4. cbn [map In] in E4. destruct E4 as [<-|[<-|[<-|[]]]]; eexists; (split; [reflexivity|]); cbn; auto 10.
    - intros (x & -> & H). cbn [extension_formats In] in H.
      repeat (destruct H as [H|H]; [injection H as <- <-; reflexivity|]). destruct H. }
  unfold from_extension. destruct (streqb p (L "-")) eqn:Ep.
  - split; [discriminate|]. intros (name & stem & ext & x & (dir & segs & E & _) & -> & _). exfalso. apply streqb_eq in Ep. rewrite Ep in E.
    assert (H : In 46%N (L "-")).
    { rewrite E. apply in_app_iff. right. apply in_app_iff. left. apply in_app_iff. right. now left. }
    cbn in H. destruct H as [H|[]]. discriminate.
  - unfold path_extension. split.
    + destruct (path_file_name p) as [name|] eqn:En; [|discriminate]. apply file_name_spec in En.
      destruct (rsplit_dot name) as [[[|c stem] ext]|] eqn:Er; try discriminate. apply rsplit_spec in Er as [-> Hd].
      intros H. apply T in H as (x & Hx & Hin). exists ((c :: stem) ++ 46%N :: ext), (c :: stem), ext, x. repeat split; auto; discriminate.
    + intros (name & stem & ext & x & Hn & -> & Hs & Hd & Hx & Hin). apply file_name_spec in Hn. rewrite Hn.
      assert (Er : rsplit_dot (stem ++ L "." ++ ext) = Some (stem, ext)) by (apply rsplit_spec; auto). rewrite Er.
      destruct stem as [|c stem]; [contradiction|]. apply T. eauto.
Qed.

(** The names of formats are those documented, in any case. *)
Theorem C41_named_format : forall (K : Codecs) s f,
  format_of_name s = Some f <-> exists x, lowercase s = L x /\ In (x, f) named_formats.
Proof.
  intros K s f. unfold format_of_name. generalize (lowercase s). intros y. split.
  - destruct (one_of y ["text"]) eqn:E1.
    { intros [= <-]. apply one_of_In in E1. cbn [map In] in E1. destruct E1 as [<-|[]]; eexists; (split; [reflexivity|]); cbn; auto 10. }
    destruct (one_of y ["json"]) eqn:E2.
    { intros [= <-]. apply one_of_In in E2. cbn [map In] in E2. destruct E2 as [<-|[]]; eexists; (split; [reflexivity|]); cbn; auto 10. }
    destruct (one_of y ["yaml"]) eqn:E3.
    { intros [= <-]. apply one_of_In in E3. cbn [map In] in E3. destruct E3 as [<-|[]]; eexists; (split; [reflexivity|]); cbn; auto 10. }
    destruct (one_of y ["protobuf"; "proto"; "pb"]) eqn:E4; [|discriminate].
    intros [= <-]. apply one_of_In in E4. cbn [map In] in E4. destruct E4 as [<-|[<-|[<-|[]]]]; eexists; (split; [reflexivity|]); cbn; auto 10.
  - intros (x & -> & H). cbn [named_formats In] in H.
    repeat (destruct H as [H|H]; [injection H as <- <-; reflexivity|]). destruct H.
Qed.

(** ** C41: what a command leaves behind *)

Lemma resolve_chosen (K : Codecs) o p f : resolve_format o p = Ok f <-> chosen o p f.
Proof.
  unfold resolve_format, chosen, ok_or. destruct o as [g|].
  - split; [intros [= ->]; auto|]. intros [[= ->]|[H _]]; [reflexivity|discriminate].
  - destruct (from_extension p) as [g|].
    + split; [intros [= ->]; auto|]. intros [H|[_ [= ->]]]; [discriminate|reflexivity].
    + split; [discriminate|]. intros [H|[_ H]]; discriminate.
Qed.
Lemma streqb_sym_false a b : a <> b -> streqb a b = false.
Proof. intros H. destruct (streqb a b) eqn:E; [apply streqb_eq in E; contradiction|reflexivity]. Qed.
Lemma content_set w p c q : p <> L "-" -> content (set_file w p c) q = if streqb q p then Some c else content w q.
Proof.
  intros H. unfold content, set_file. cbn [w_files w_stdout]. destruct (streqb q (L "-")) eqn:E; [|reflexivity].
  apply streqb_eq in E. subst q. rewrite streqb_sym_false; auto.
Qed.
Lemma is_std_spec p : is_std p = true <-> p = L "-".
Proof. unfold is_std. apply streqb_eq. Qed.
Lemma is_std_false p : is_std p = false <-> p <> L "-".
Proof. rewrite <- is_std_spec. destruct (is_std p); split; congruence. Qed.

(** Opening the output, then filling it. *)
Lemma open_spec w p w' : open_writer w p = Ok w' ->
  w_room w' = w_room w /\ w_stdin w' = w_stdin w /\
  content w' p = Some (base w p) /\ (forall q, q <> p -> content w' q = content w q) /\
  (forall b, content (deliver w' p b) p = Some (base w p ++ b)) /\ (forall b q, q <> p -> content (deliver w' p b) q = content w q).
Proof.
  unfold open_writer. destruct (is_std p) eqn:E.
  - intros [= <-]. unfold deliver. rewrite E. apply is_std_spec in E. subst p. repeat split; auto.
    intros b q Hq. unfold content. cbn [w_files w_stdout]. now rewrite (streqb_sym_false q (L "-")).
  - destruct (w_creatable w p); [|discriminate]. intros [= <-]. pose proof E as E0. apply is_std_false in E0.
    unfold deliver. rewrite E. unfold base. unfold is_std in E. rewrite E.
    assert (R : streqb p p = true) by apply streqb_refl.
    repeat split; intros; rewrite ?content_set, ?R, ?streqb_sym_false by assumption; reflexivity.
Qed.
Lemma read_all_spec w o w' i : open_writer w o = Ok w' -> can_open w i = true ->
  if streqb i o && negb (is_std i) then read_all w' i = [] else input_bytes w i = Some (read_all w' i).
Proof.
  intros H Hi. destruct (open_spec _ _ _ H) as (_ & Hs & Hc & Hf & _). unfold read_all, input_bytes, can_open in *. fold (is_std i).
  destruct (is_std i) eqn:E; cbn [negb]; rewrite ?andb_false_r; [now rewrite Hs|]. rewrite andb_true_r.
  destruct (streqb i o) eqn:Ei.
  - apply streqb_eq in Ei. subst o. unfold content, base in Hc. unfold is_std in E. rewrite E in Hc. now rewrite Hc.
  - assert (Hne : i <> o) by (intros ->; rewrite streqb_refl in Ei; discriminate).
    specialize (Hf i Hne). unfold content in Hf. unfold is_std in E. rewrite E in Hf. rewrite Hf. cbn [orb] in Hi. destruct (w_files w i); [reflexivity|discriminate].
Qed.

(** A run, opened up: it stops before anything happens, or after emptying the output,
    or it converts. *)
Lemma run_cases (U : Unicode) (F : Floats) (K : Codecs) reg descs w c w' r : run_inner reg descs w c = (w', r) ->
  (w' = w /\ exit_ok r = false /\ ~ (can_open w (input_of c) = true /\ exists w1, open_writer w (output_of c) = Ok w1)) \/
  exists w1, open_writer w (output_of c) = Ok w1 /\ can_open w (input_of c) = true /\
    ((w' = w1 /\ exit_ok r = false /\ ~ (exists f t op, runs c f t op)) \/
     exists f t op ds, runs c f t op /\ (c = Validate (input_of c) (output_of c) \/ ds = descs) /\
       w' = deliver w1 (output_of c) (fst (convert_io f t op reg ds (w_room w1) (read_all w1 (input_of c)))) /\
       r = snd (convert_io f t op reg ds (w_room w1) (read_all w1 (input_of c)))).
Proof.
  unfold run_inner. intros H. destruct c as [i o from to lt|i o]; cbn [input_of output_of].
  - destruct (can_open w i) eqn:Ei; [|injection H as <- <-; left; repeat split; intros [X _]; discriminate].
    destruct (open_writer w o) as [w1|e|m] eqn:Eo; [|injection H as <- <-; left; repeat split; intros [_ [x X]]; discriminate ..].
    right. exists w1. split; [reflexivity|split; [reflexivity|]].
    destruct (resolve_format from i) as [f|e|m] eqn:Ef.
    + destruct (resolve_format to o) as [t|e|m] eqn:Et.
      * right. injection H as <- <-. exists f, t, (create_output_options lt), descs.
        split; [|auto]. unfold create_output_options. constructor; now apply resolve_chosen.
      * left. injection H as <- <-. repeat split. intros (f' & t' & op & R). inversion R; subst.
        match goal with X : chosen to o _ |- _ => apply resolve_chosen in X; congruence end.
      * left. injection H as <- <-. repeat split. intros (f' & t' & op & R). inversion R; subst.
        match goal with X : chosen to o _ |- _ => apply resolve_chosen in X; congruence end.
    + left. injection H as <- <-. repeat split. intros (f' & t' & op & R). inversion R; subst.
      match goal with X : chosen from i _ |- _ => apply resolve_chosen in X; congruence end.
    + left. injection H as <- <-. repeat split. intros (f' & t' & op & R). inversion R; subst.
      match goal with X : chosen from i _ |- _ => apply resolve_chosen in X; congruence end.
  - destruct (can_open w i) eqn:Ei; [|injection H as <- <-; left; repeat split; intros [X _]; discriminate].
    destruct (open_writer w o) as [w1|e|m] eqn:Eo; [|injection H as <- <-; left; repeat split; intros [_ [x X]]; discriminate ..].
    right. exists w1. split; [reflexivity|split; [reflexivity|]]. right. injection H as <- <-.
    exists FmtText, FmtText, opts_default, []. split; [constructor|auto].
Qed.
Lemma runs_fun (K : Codecs) c f t op f' t' op' : runs c f t op -> runs c f' t' op' -> f = f' /\ t = t' /\ op = op'.
Proof.
  intros H1 H2. inversion H1; subst; inversion H2; subst; auto. split; [|split; [|reflexivity]].
  - repeat match goal with X : chosen _ _ _ |- _ => apply resolve_chosen in X end. congruence.
  - repeat match goal with X : chosen _ _ _ |- _ => apply resolve_chosen in X end. congruence.
Qed.

(** Only the output changes, whatever happens. *)
Theorem C41_frame : forall (U : Unicode) (F : Floats) (K : Codecs) reg descs w c w' r q,
  run_inner reg descs w c = (w', r) -> q <> output_of c -> content w' q = content w q.
Proof.
  intros U F K reg descs w c w' r q H Hq. destruct (run_cases _ _ _ _ _ _ _ _ _ H) as [[-> _]|(w1 & Ho & Hi & [(-> & _)|(f & t & op & ds & _ & _ & -> & _)])].
  - reflexivity.
  - now apply (open_spec _ _ _ Ho).
  - now apply (open_spec _ _ _ Ho).
Qed.

Lemma write_then_spec room b o w r : write_then room b o = (w, r) ->
  (room = None -> w = b /\ r = Ok o) /\ (exit_ok r = true -> w = b /\ o = Success).
Proof.
  unfold write_then, write_all. destruct room as [n|].
  - destruct (Nat.leb (length b) n); intros [= <- <-]; cbn [rmap exit_ok]; (split; [discriminate|]); [|discriminate].
    destruct o; [auto|discriminate].
  - intros [= <- <-]. cbn [rmap exit_ok]. split; [auto|]. destruct o; [auto|discriminate].
Qed.

(** Converting to text writes the text even if there are formatting errors, and
    succeeds exactly if there are none. *)
Theorem C41_text_written : forall (U : Unicode) (F : Floats) (K : Codecs) reg descs w c f op b p w' r,
  runs c f FmtText op -> input_bytes w (input_of c) = Some b -> (input_of c = output_of c -> input_of c = L "-") ->
  (output_of c = L "-" \/ w_creatable w (output_of c) = true) -> w_room w = None ->
  read_plan f reg descs b = Ok p -> o_panics (format reg op p) = [] ->
  run_inner reg descs w c = (w', r) ->
  content w' (output_of c) = Some (base w (output_of c) ++ utf8_encode (o_text (format reg op p))) /\
  (exit_ok r = true <-> o_errs (format reg op p) = []).
Proof.
  intros U F K reg descs w c f op b p w' r Hr Hb Hio Ho Hroom Hp Hpan H.
  assert (Hi : can_open w (input_of c) = true).
  { unfold input_bytes in Hb. unfold can_open, is_std. destruct (streqb (input_of c) (L "-")); [reflexivity|]. now rewrite Hb. }
  assert (Hw : exists w1, open_writer w (output_of c) = Ok w1).
  { unfold open_writer. destruct (is_std (output_of c)) eqn:E; [eauto|]. apply is_std_false in E. destruct Ho as [Ho|Ho]; [contradiction|]. rewrite Ho. eauto. }
  destruct (run_cases _ _ _ _ _ _ _ _ _ H) as [(_ & _ & X)|(w1 & Ho1 & Hi1 & [(-> & _ & X)|(f' & t & op' & ds & Hr' & Hds & -> & ->)])].
  - exfalso. apply X. auto.
  - exfalso. apply X. eauto.
  - destruct (runs_fun _ _ _ _ _ _ _ _ Hr Hr') as (<- & <- & <-).
    destruct (open_spec _ _ _ Ho1) as (Hroom1 & _ & _ & _ & Hd & _). rewrite Hd. rewrite Hroom1, Hroom.
    pose proof (read_all_spec _ _ _ _ Ho1 Hi1) as Hread.
    replace (streqb (input_of c) (output_of c) && negb (is_std (input_of c))) with false in Hread.
    2:{ symmetry. destruct (streqb (input_of c) (output_of c)) eqn:E; [|reflexivity]. apply streqb_eq in E.
        cbn [andb]. apply Hio, is_std_spec in E. now rewrite E. }
    rewrite Hb in Hread. injection Hread as <-. unfold convert_io.
    assert (Hp' : read_plan f reg ds b = Ok p).
    { destruct Hds as [Ec| ->]; [|exact Hp]. rewrite Ec in Hr. inversion Hr; subst. exact Hp. }
    rewrite Hp'. unfold write_plan. rewrite Hpan.
    destruct (write_then None (utf8_encode (o_text (format reg op p))) (match o_errs (format reg op p) with [] => Success | e :: l => HadIssues (e :: l) end)) as [x y] eqn:E.
    destruct (write_then_spec _ _ _ _ _ E) as [G _]. destruct (G eq_refl) as [-> ->]. cbn [fst snd]. split; [reflexivity|].
    destruct (o_errs (format reg op p)); cbn [exit_ok]; split; congruence.
Qed.

(** Whatever the room left, a command that reports success has read its input in full
    and written all of the plan, without any formatting error.  The input is what was
    there before, unless it is the output file: then it is empty. *)
Theorem C41_success_means_complete : forall (U : Unicode) (F : Floats) (K : Codecs) reg descs w c w' r,
  run_inner reg descs w c = (w', r) -> exit_ok r = true ->
  exists f t op ds b p out, runs c f t op /\
    (input_of c <> output_of c \/ input_of c = L "-" -> input_bytes w (input_of c) = Some b) /\
    (input_of c = output_of c -> input_of c <> L "-" -> b = []) /\
    (ds = descs \/ f = FmtText) /\ read_plan f reg ds b = Ok p /\ written t reg op p out /\
    content w' (output_of c) = Some (base w (output_of c) ++ out).
Proof.
  intros U F K reg descs w c w' r H Hx.
  destruct (run_cases _ _ _ _ _ _ _ _ _ H) as [(_ & X & _)|(w1 & Ho1 & Hi1 & [(_ & X & _)|(f & t & op & ds & Hr & Hds & -> & ->)])]; [congruence ..|].
  destruct (open_spec _ _ _ Ho1) as (Hroom1 & _ & _ & _ & Hd & _).
  pose proof (read_all_spec _ _ _ _ Ho1 Hi1) as Hread. rewrite Hd.
  unfold convert_io in *. destruct (read_plan f reg ds (read_all w1 (input_of c))) as [p|e|m] eqn:Ep; [|discriminate ..].
  exists f, t, op, ds, (read_all w1 (input_of c)), p, (fst (write_plan t reg op (w_room w1) p)).
  split; [exact Hr|]. repeat split; auto.
  - intros Hio. destruct (streqb (input_of c) (output_of c) && negb (is_std (input_of c))) eqn:E; [|exact Hread].
    apply andb_prop in E as [E1 E2]. apply streqb_eq in E1. destruct Hio as [Hio|Hio]; [contradiction|]. apply is_std_spec in Hio. rewrite Hio in E2. discriminate.
  - intros E1 E2. rewrite E1, streqb_refl in Hread. rewrite <- E1 in Hread. apply is_std_false in E2. rewrite E2 in Hread. now rewrite E1 in *.
  - destruct Hds as [Ec| ->]; [|auto]. rewrite Ec in Hr. inversion Hr; auto.
  - unfold write_plan in *. destruct t; cbn [written].
    + destruct (o_panics (format reg op p)) as [|m l]; [|discriminate].
      destruct (write_then _ _ _) as [x y] eqn:E in Hx |- *. destruct (write_then_spec _ _ _ _ _ E) as [_ G]. destruct (G Hx) as [-> Go]. cbn [fst].
      destruct (o_errs (format reg op p)); [auto|discriminate].
    + destruct (json_write p) as [s|]; [|discriminate].
      destruct (write_then _ _ _) as [x y] eqn:E in Hx |- *. destruct (write_then_spec _ _ _ _ _ E) as [_ G]. destruct (G Hx) as [-> Go]. eauto.
    + destruct (yaml_write p) as [s|]; [|discriminate].
      destruct (write_then _ _ _) as [x y] eqn:E in Hx |- *. destruct (write_then_spec _ _ _ _ _ E) as [_ G]. destruct (G Hx) as [-> Go]. eauto.
    + destruct (write_then _ _ _) as [x y] eqn:E in Hx |- *. destruct (write_then_spec _ _ _ _ _ E) as [_ G]. destruct (G Hx) as [-> Go]. reflexivity.
Qed.

(** What can be read from a text file are the plans of the strings it can be the UTF-8 of. *)
Theorem C41_text_read : forall (U : Unicode) (F : Floats) (K : Codecs) reg descs b p,
  read_plan FmtText reg descs b = Ok p <->
  exists s, Forall (fun c => scalar c = true) s /\ b = utf8_encode s /\ parse reg s = Ok p.
Proof.
  intros U F K reg descs b p. cbn [read_plan]. unfold read_text. split.
  - destruct (utf8_decode b) as [s|] eqn:E; [|discriminate]. apply utf8_encode_decode in E as [E1 E2]. cbn [rbind].
    destruct (parse reg s) as [q|e|m] eqn:Ep; [|discriminate ..]. intros [= <-]. eauto.
  - intros (s & Hs & -> & Hp). rewrite utf8_decode_encode by exact Hs. cbn [rbind]. now rewrite Hp.
Qed.

(** Validating the text of a clean plan (its characters are Unicode scalar values, as
    those of any [String] are) reproduces it, byte for byte. *)
Theorem C41_validate : forall (U : Unicode) (F : Floats) (K : Codecs) reg descs w i o b p w' r,
  ascii_sane U -> plan_clean reg opts_default p ->
  Forall (fun c => scalar c = true) (o_text (format reg opts_default p)) -> b = utf8_encode (o_text (format reg opts_default p)) ->
  input_bytes w i = Some b -> (i = o -> i = L "-") -> (o = L "-" \/ w_creatable w o = true) -> w_room w = None ->
  run_inner reg descs w (Validate i o) = (w', r) ->
  exit_ok r = true /\ content w' o = Some (base w o ++ b).
Proof.
  intros U F K reg descs w i o b p w' r Hu Hc Hs Hb Hi Hio Ho Hroom H.
  destruct (C01_plan_round_trip U F reg opts_default p Hu) as (E1 & _ & E3 & E4); [repeat split; try reflexivity; discriminate|exact Hc|].
  destruct (C41_text_written U F K reg descs w (Validate i o) FmtText opts_default b p w' r) as [G1 G2]; auto.
  - constructor.
  - cbn [read_plan]. unfold read_text. rewrite Hb, utf8_decode_encode by exact Hs. cbn [rbind]. now rewrite E4.
  - rewrite G2, <- Hb in *. auto.
Qed.

(** ** C42: what a command destroys *)

(** The input survives, unless the output is the same file. *)
Theorem C42_input_kept : forall (U : Unicode) (F : Floats) (K : Codecs) reg descs w c w' r,
  run_inner reg descs w c = (w', r) -> input_of c <> output_of c -> content w' (input_of c) = content w (input_of c).
Proof. intros U F K reg descs w c w' r H Hq. eapply C41_frame; eauto. Qed.

(** If there is no such input nothing changes. *)
Theorem C42_missing_input : forall (U : Unicode) (F : Floats) (K : Codecs) reg descs w c w' r q,
  run_inner reg descs w c = (w', r) -> input_bytes w (input_of c) = None -> exit_ok r = false /\ content w' q = content w q.
Proof.
  intros U F K reg descs w c w' r q H Hn.
  destruct (run_cases _ _ _ _ _ _ _ _ _ H) as [(-> & X & _)|(w1 & _ & Hi & _)]; [auto|]. exfalso.
  unfold can_open, is_std in Hi. unfold input_bytes in Hn. destruct (streqb (input_of c) (L "-")); [discriminate|]. now rewrite Hn in Hi.
Qed.

Definition no_plan : pplan := mk_plan plan_rel None [] [] [].
Lemma parse_empty (U : Unicode) (F : Floats) reg : parse reg [] = Ok no_plan.
Proof. reflexivity. Qed.

(** If the output is the input file, its plan is gone: validating in place always
    replaces it by the text of the empty plan and reports success. *)
Theorem C42_in_place : forall (U : Unicode) (F : Floats) (K : Codecs) reg descs w i b w' r,
  i <> L "-" -> w_files w i = Some b -> w_creatable w i = true -> w_room w = None ->
  run_inner reg descs w (Validate i i) = (w', r) ->
  exit_ok r = true /\ content w' i = Some (utf8_encode (unl [L "=== Plan"; []])).
Proof.
  intros U F K reg descs w i b w' r Hi Hb Hc Hroom H.
  destruct (run_cases _ _ _ _ _ _ _ _ _ H) as [(_ & _ & X)|(w1 & Ho1 & Hi1 & [(_ & _ & X)|(f & t & op & ds & Hr & Hds & -> & ->)])];
    cbn [input_of output_of] in *.
  - exfalso. apply X. unfold can_open, open_writer. rewrite Hb, orb_true_r, Hc. destruct (is_std i); eauto.
  - exfalso. apply X. exists FmtText, FmtText, opts_default. constructor.
  - destruct (open_spec _ _ _ Ho1) as (Hroom1 & _ & _ & _ & G & _). rewrite G, Hroom1, Hroom.
    pose proof (read_all_spec _ _ _ _ Ho1 Hi1) as Hread. rewrite streqb_refl in Hread. apply is_std_false in Hi. rewrite Hi in Hread.
    cbn [andb negb] in Hread. rewrite Hread. inversion Hr; subst. unfold convert_io, read_plan, read_text. cbn [utf8_decode rbind].
    rewrite (parse_empty U F). unfold base. unfold is_std in Hi. rewrite Hi. split; reflexivity.
Qed.

(** ** Examples *)
Section Examples.
  #[local] Existing Instance ascii_tables.
  #[local] Existing Instance toy_floats.
  (** A plan with a function that is not declared. *)
  Definition cx_bad : pplan := mk_plan plan_rel None [] []
    [PRel (RFilter direct (Some px_read) (Some (ex_call 10 [])) None)].
  (** No JSON, no YAML; any bytes are the protobuf of that plan. *)
  #[local] Instance toy_codecs : Codecs := {|
    lower c := [if ((65 <=? c) && (c <=? 90))%N then (c + 32)%N else c];
    json_naive _ := None; json_standard _ _ := None; json_write _ := None; yaml_read _ := None; yaml_write _ := None;
    proto_decode _ := Some cx_bad; proto_encode _ := [];
    fds_decode b := Some [mk_pfile (Some b) []]; pool_accepts _ := true; core_fds := L "core" |}.

  Definition cx_file (n : string) (r : string) : pfile := mk_pfile (Some (L n)) (L r).
  Definition cx_decode (b : list N) : option (list pfile) :=
    match b with
    | [0%N] => Some [cx_file "plan.proto" "core"; cx_file "any.proto" "core"]
    | [1%N] => Some [cx_file "any.proto" "other"; cx_file "mine.proto" "1"; cx_file "mine.proto" "2"]
    | [2%N] => Some [cx_file "mine.proto" "3"; cx_file "yours.proto" "4"]
    | _ => None
    end.
  Example cx_pool : build_descriptor_pool cx_decode (fun _ => true) [0%N] [[1%N]; [2%N]] =
    Ok [cx_file "plan.proto" "core"; cx_file "any.proto" "core"; cx_file "mine.proto" "1"; cx_file "yours.proto" "4"].
  Proof. reflexivity. Qed.
  Example cx_pool_bad : exists e, build_descriptor_pool cx_decode (fun _ => true) [0%N] [[1%N]; [3%N]] = Err e.
  Proof. eexists. reflexivity. Qed.

  Example cx_formats : map (fun s => from_extension (L s))
    ["a/b.JSON"; "x.tar.pb"; "dir.json/plan"; ".json"; "p.Yml//."; "q.txt/.."; "-"; "n."]
    = [Some FmtJson; Some FmtProtobuf; None; None; Some FmtYaml; None; None; None].
  Proof. vm_compute. reflexivity. Qed.

  (** A world with one file, holding a text. *)
  Definition cx_world (n : string) (t : list N) : world :=
    mk_world (fun q => if streqb q (L n) then Some t else None) [] [] (fun _ => true) None.
  Definition cx_text : list N := o_text (format (run_regs ex_history) opts_default px_plan).
  Definition cx_after (c : command) (w : world) (q : string) : option (list N) * bool :=
    let (w', r) := run_inner (run_regs ex_history) [] w c in (content w' (L q), exit_ok r).
  (** The hypotheses of C41_validate hold of a plan that uses everything. *)
  Example cx_validate : plan_clean (run_regs ex_history) opts_default px_plan /\
    Forall (fun c => scalar c = true) cx_text /\
    cx_after (Validate (L "a.txt") (L "b.txt")) (cx_world "a.txt" (utf8_encode cx_text)) "b.txt" = (Some (utf8_encode cx_text), true).
  Proof. split; [exact px_clean|]. split; [|vm_compute; reflexivity]. apply Forall_forall. apply forallb_forall. vm_compute. reflexivity. Qed.
  (** Text that is not ASCII is read as UTF-8, and nothing else is. *)
  Example cx_utf8 : utf8_decode (utf8_encode (65 :: 233 :: 8364 :: 128512 :: nil)%N) = Some (65 :: 233 :: 8364 :: 128512 :: nil)%N /\
    utf8_decode [192; 128]%N = None /\ utf8_decode [237; 160; 128]%N = None /\ utf8_decode [244; 144; 128; 128]%N = None.
  Proof. vm_compute. auto. Qed.
  (** Formatting errors: the text is written and the command fails. *)
  Example cx_errors : o_errs (format (run_regs ex_history) opts_default cx_bad) <> [] /\
    cx_after (Convert (L "-") (L "-") (Some FmtProtobuf) (Some FmtText) false) (cx_world "x" []) "-"
    = (Some (o_text (format (run_regs ex_history) opts_default cx_bad)), false).
  Proof. split; vm_compute; [discriminate|reflexivity]. Qed.

  (** A command run in place loses the plan and says it succeeded. *)
  Theorem C42_in_place_refuted : exists w i p,
    plan_clean (run_regs ex_history) opts_default p /\
    w_files w i = Some (utf8_encode (o_text (format (run_regs ex_history) opts_default p))) /\
    exists w' r, run_inner (run_regs ex_history) [] w (Validate i i) = (w', r) /\ exit_ok r = true /\
      (forall t, content w' i = Some t -> forall t', utf8_decode t = Some t' -> parse (run_regs ex_history) t' <> Ok p).
  Proof.
    exists (cx_world "a.txt" cx_text), (L "a.txt"), px_plan. split; [exact px_clean|]. split; [vm_compute; reflexivity|].
    destruct (run_inner (run_regs ex_history) [] (cx_world "a.txt" cx_text) (Validate (L "a.txt") (L "a.txt"))) as [w' r] eqn:E.
    exists w', r. split; [reflexivity|].
    assert (H : exit_ok r = true /\ content w' (L "a.txt") = Some (utf8_encode (unl [L "=== Plan"; []]))).
    { eapply C42_in_place with (b := cx_text); [| | | |exact E]; [discriminate|reflexivity ..]. }
    destruct H as [H1 H2].
    split; [exact H1|]. intros t Ht t' Ht'. rewrite H2 in Ht. injection Ht as <-. injection Ht' as <-. vm_compute. discriminate.
  Qed.
  (** A conversion that fails has emptied its output: an unreadable input costs the
      previous result. *)
  Theorem C42_failure_keeps_output_refuted : exists w c old w' r,
    input_of c <> output_of c /\ content w (output_of c) = Some old /\ old <> [] /\
    run_inner (run_regs ex_history) [] w c = (w', r) /\ exit_ok r = false /\ content w' (output_of c) = Some [].
  Proof.
    exists (mk_world (fun q => if streqb q (L "a.txt") then Some (L "no plan") else Some cx_text) [] [] (fun _ => true) None),
      (Convert (L "a.txt") (L "b.txt") None None false), cx_text.
    do 2 eexists. split; [discriminate|]. split; [reflexivity|]. split; [vm_compute; discriminate|]. split; [reflexivity|]. split; vm_compute; reflexivity.
  Qed.
End Examples.
