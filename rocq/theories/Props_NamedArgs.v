(** C47: which named argument of an extension counts. *)
From Coq Require Import String List NArith ZArith Bool Lia.
From Verif Require Import Base BaseFacts Peg Names SpecNames SimpleExt Out Types Literals SpecLiterals Exprs ExtArgs Registry
  Rels RelGrammar RelRead RelReadFacts Plan SpecRels Props_Ext SpecRegistry Props_Registry.
Import ListNotations.
Local Open Scope string_scope.
Local Open Scope list_scope.
Local Open Scope nat_scope.

(** The names of a list, each where it occurs first. *)
Fixpoint first_names (l : list (list N)) : list (list N) :=
  match l with
  | [] => []
  | k :: r => k :: filter (fun x => negb (streqb x k)) (first_names r)
  end.
(** The pair is the last one of its name. *)
Definition last_of {V} (l : list (list N * V)) (k : list N) (v : V) : Prop :=
  exists before after, l = before ++ (k, v) :: after /\ ~ In k (map fst after).

Section Inserts.
  Context {V : Type}.
  Implicit Types (l m : list (list N * V)).
  Definition inserts l m : list (list N * V) := fold_left (fun m kv => imap_insert (fst kv) (snd kv) m) l m.

  Lemma insert_keys k (v : V) m : map fst (imap_insert k v m) = if existsb (streqb k) (map fst m) then map fst m else map fst m ++ [k].
  Proof.
    induction m as [|[k' v'] m IH]; cbn [imap_insert map fst existsb app]; [reflexivity|].
    destruct (streqb k k'); cbn [orb map fst]; [reflexivity|]. rewrite IH. now destruct (existsb _ _).
  Qed.
  Lemma filter_filter {A} (f g : A -> bool) (l : list A) : filter f (filter g l) = filter (fun x => f x && g x) l.
  Proof.
    induction l as [|x l IH]; [reflexivity|]. cbn [filter]. destruct (g x); cbn [filter]; rewrite IH; destruct (f x); reflexivity.
  Qed.
  Lemma known_key (ks : list (list N)) k : existsb (streqb k) ks = true <-> In k ks.
  Proof.
    rewrite existsb_exists. split; [intros (x & H & E); apply streqb_eq in E as ->; exact H|].
    intros H. exists k. split; [exact H|apply streqb_refl].
  Qed.
  Lemma inserts_keys l : forall m,
    map fst (inserts l m) = map fst m ++ filter (fun x => negb (existsb (streqb x) (map fst m))) (first_names (map fst l)).
  Proof.
    unfold inserts. induction l as [|[k v] l IH]; intros m; cbn [fold_left map fst snd first_names filter]; [now rewrite app_nil_r|].
    rewrite IH, insert_keys, filter_filter. destruct (existsb (streqb k) (map fst m)) eqn:E; cbn [negb].
    - f_equal. apply filter_ext. intros x. destruct (streqb x k) eqn:Ek; [|now rewrite andb_true_r].
      apply streqb_eq in Ek as ->. now rewrite E.
    - rewrite <- app_assoc. cbn [app]. do 2 f_equal. apply filter_ext. intros x. rewrite existsb_app. cbn [existsb].
      rewrite orb_false_r. now rewrite negb_orb.
  Qed.
  Lemma inserts_nodup l : forall m, NoDup (map fst m) -> NoDup (map fst (inserts l m)).
  Proof.
    unfold inserts. induction l as [|[k v] l IH]; intros m Hm; cbn [fold_left fst snd]; [exact Hm|].
    apply IH. rewrite insert_keys. destruct (existsb (streqb k) (map fst m)) eqn:E; [exact Hm|].
    apply NoDup_rev in Hm. rewrite <- (rev_involutive (map fst m ++ [k])). apply NoDup_rev. rewrite rev_app_distr. cbn [rev app].
    constructor; [|exact Hm]. rewrite <- in_rev. intros H. apply known_key in H. congruence.
  Qed.
  Lemma get_insert k k' (v : V) m : imap_get k (imap_insert k' v m) = if streqb k k' then Some v else imap_get k m.
  Proof.
    induction m as [|[h w] m IH]; cbn [imap_insert imap_get]; [reflexivity|].
    destruct (streqb k' h) eqn:E; cbn [imap_get].
    - apply streqb_eq in E as ->. now destruct (streqb k h).
    - rewrite IH. destruct (streqb k h) eqn:Eh; [|reflexivity]. destruct (streqb k k') eqn:Ek; [|reflexivity].
      apply streqb_eq in Eh as ->. apply streqb_eq in Ek as ->. now rewrite streqb_refl in E.
  Qed.
  Lemma get_inserts_none k l : forall m, ~ In k (map fst l) -> imap_get k (inserts l m) = imap_get k m.
  Proof.
    unfold inserts. induction l as [|[h w] l IH]; intros m Hk; cbn [fold_left fst snd]; [reflexivity|]. cbn [map fst In] in Hk.
    rewrite IH by tauto. rewrite get_insert. destruct (streqb k h) eqn:E; [|reflexivity].
    apply streqb_eq in E as ->. tauto.
  Qed.
  Lemma get_inserts_last k v l m : last_of l k v -> imap_get k (inserts l m) = Some v.
  Proof.
    intros (a & b & -> & Hb). unfold inserts. rewrite fold_left_app. cbn [fold_left fst snd].
    fold (inserts b (imap_insert k v (fold_left (fun m kv => imap_insert (fst kv) (snd kv) m) a m))).
    rewrite get_inserts_none by exact Hb. rewrite get_insert. now rewrite streqb_refl.
  Qed.
  Lemma last_of_in k l : In k (map fst l) -> exists v, last_of l k v.
  Proof.
    induction l as [|[h w] l IH]; cbn [map fst In]; [tauto|]. intros H.
    destruct (existsb (streqb k) (map fst l)) eqn:E.
    - apply known_key in E. destruct (IH E) as (v & a & b & -> & Hb). exists v, ((h, w) :: a), b. auto.
    - assert (Hn : ~ In k (map fst l)) by (intros X; apply known_key in X; congruence).
      destruct H as [<-|H]; [|tauto]. exists w, [], l. auto.
  Qed.
  Lemma get_nodup k (v : V) m : NoDup (map fst m) -> (In (k, v) m <-> imap_get k m = Some v).
  Proof.
    induction m as [|[h w] m IH]; cbn [map fst imap_get In]; intros H; [split; [tauto|discriminate]|].
    inversion H as [|? ? Hn Hm]; subst. destruct (streqb k h) eqn:E.
    - apply streqb_eq in E as ->. split; [|intros [= ->]; now left]. intros [[= ->]|Hi]; [reflexivity|].
      exfalso. apply Hn. apply (in_map fst) in Hi. exact Hi.
    - rewrite <- IH by exact Hm. split; [|tauto]. intros [[= -> _]|Hi]; [now rewrite streqb_refl in E|exact Hi].
  Qed.
  Lemma get_some_in k (v : V) m : imap_get k m = Some v -> In k (map fst m).
  Proof.
    induction m as [|[h w] m IH]; cbn [imap_get map fst In]; [discriminate|]. destruct (streqb k h) eqn:E; [|auto].
    intros _. left. apply streqb_eq in E. congruence.
  Qed.
  Lemma inserts_spec l k v : In (k, v) (inserts l []) <-> last_of l k v.
  Proof.
    rewrite get_nodup by (apply inserts_nodup; constructor). split; [|apply get_inserts_last].
    intros H. destruct (existsb (streqb k) (map fst l)) eqn:E.
    - apply known_key in E. destruct (last_of_in _ _ E) as (v' & Hv). rewrite (get_inserts_last _ _ _ [] Hv) in H. now injection H as <-.
    - rewrite get_inserts_none in H; [discriminate|]. intros X. apply known_key in X. congruence.
  Qed.
  Lemma get_inserts_alike h l : forall (c d : list (list N * V)), imap_get h c = imap_get h d -> imap_get h (inserts l c) = imap_get h (inserts l d).
  Proof.
    unfold inserts. induction l as [|[k v] l IH]; intros c d H; cbn [fold_left fst snd]; [exact H|].
    apply IH. rewrite !get_insert. now rewrite H.
  Qed.
  Lemma pairs_ext (c : list (list N * V)) : forall d, NoDup (map fst c) -> map fst c = map fst d -> (forall h, imap_get h c = imap_get h d) -> c = d.
  Proof.
    induction c as [|[k v] c IH]; intros [|[k' v'] d] Hn Hk Hg; try discriminate; [reflexivity|].
    cbn [map fst] in *. injection Hk as <- Hk. inversion Hn as [|? ? Hn1 Hn2]; subst. f_equal.
    - specialize (Hg k). cbn [imap_get] in Hg. rewrite streqb_refl in Hg. congruence.
    - apply IH; auto. intros h. specialize (Hg h). cbn [imap_get] in Hg. destruct (streqb h k) eqn:E; [|exact Hg].
      apply streqb_eq in E as ->. destruct (imap_get k c) as [w|] eqn:E1; [now apply get_some_in in E1|].
      destruct (imap_get k d) as [w|] eqn:E2; [|reflexivity]. apply get_some_in in E2. rewrite <- Hk in E2. contradiction.
  Qed.
End Inserts.

(** The handler is given each name once, in the order of first mention, with the
    value mentioned last. *)
Theorem C47_named_arguments : forall (F : Floats) e c a,
  lower_xargs e c = Ok a ->
  exists given,
    Forall2 (fun y p => lower_name (E := perr) (fst y) = Ok (fst p) /\ lower_xarg e (snd y) = Ok (snd p)) (snd c) given /\
    map fst (xa_named a) = first_names (map fst given) /\
    forall k v, In (k, v) (xa_named a) <-> last_of given k v.
Proof.
  intros F e c a H. unfold lower_xargs in H. apply rbind_ok in H as (p & _ & H). apply rbind_ok in H as (n & Hn & H).
  injection H as <-. cbn [xa_named]. exists n. split; [|split].
  - apply rlist_ok_inv in Hn. induction Hn as [|y q ys qs Hy _ IH]; constructor; [|exact IH].
    unfold lower_xnamed in Hy. apply rbind_ok in Hy as (k & Hk & Hy). apply rbind_ok in Hy as (v & Hv & Hy).
    injection Hy as <-. auto.
  - fold (inserts n []). rewrite inserts_keys. cbn [map app existsb]. clear.
    induction (first_names (map fst n)) as [|x l IH]; [reflexivity|]. cbn [filter]. cbn [negb]. f_equal. exact IH.
  - intros k v. apply inserts_spec.
Qed.

(** So an argument may be ignored: of two with the same name the first counts for
    nothing, whatever its value. *)
Theorem C47_duplicates_refuted : forall (F : Floats) e pos before between after k k' n v v' w x x' y,
  lower_name (E := perr) k = Ok n -> lower_name (E := perr) k' = Ok n ->
  lower_xarg e v = Ok x -> lower_xarg e v' = Ok x' -> lower_xarg e w = Ok y ->
  lower_xargs e (pos, before ++ (k, v) :: between ++ (k', w) :: after)
  = lower_xargs e (pos, before ++ (k, v') :: between ++ (k', w) :: after).
Proof.
  intros F e pos before between after k k' n v v' w x x' y Hk Hk' Hv Hv' Hw. unfold lower_xargs. cbn [fst snd].
  destruct (rlist (lower_xarg e) pos) as [p| |]; cbn [rbind]; try reflexivity.
  assert (Ha : forall a b, rlist (lower_xnamed e) (a ++ b) =
    let? l := rlist (lower_xnamed e) a in let? r := rlist (lower_xnamed e) b in Ok (l ++ r)).
  { induction a as [|z a IH]; intros b; cbn [app rlist rbind]; [now destruct (rlist _ b)|].
    rewrite IH. destruct (lower_xnamed e z); cbn [rbind]; [|reflexivity|reflexivity].
    destruct (rlist _ a); cbn [rbind]; [|reflexivity|reflexivity]. now destruct (rlist _ b). }
  rewrite !Ha. destruct (rlist _ before) as [b| |]; cbn [rbind]; try reflexivity.
  assert (E1 : lower_xnamed e (k, v) = Ok (n, x)) by (unfold lower_xnamed; cbn [fst snd]; now rewrite Hk, Hv).
  assert (E2 : lower_xnamed e (k, v') = Ok (n, x')) by (unfold lower_xnamed; cbn [fst snd]; now rewrite Hk, Hv').
  assert (E3 : lower_xnamed e (k', w) = Ok (n, y)) by (unfold lower_xnamed; cbn [fst snd]; now rewrite Hk', Hw).
  cbn [rlist]. rewrite E1, E2. cbn [rbind]. rewrite !Ha.
  destruct (rlist _ between) as [m| |]; cbn [rbind]; try reflexivity.
  cbn [rlist]. rewrite E3. cbn [rbind].
  destruct (rlist _ after) as [z| |]; cbn [rbind]; try reflexivity.
  do 2 f_equal. rewrite !fold_left_app. cbn [fold_left fst snd]. rewrite !fold_left_app. cbn [fold_left fst snd]. f_equal.

  assert (Hd : NoDup (map fst (fold_left (fun m kv => imap_insert (fst kv) (snd kv) m) b []))) by (apply (inserts_nodup b); constructor).
  revert Hd. generalize (fold_left (fun m kv => imap_insert (fst kv) (snd kv) m) b []). intros c Hd.
  fold (inserts m (imap_insert n x c)). fold (inserts m (imap_insert n x' c)).
  apply pairs_ext.
  - apply (inserts_nodup [(n, y)]), inserts_nodup, (inserts_nodup [(n, x)]), Hd.
  - rewrite !insert_keys, !inserts_keys, !insert_keys. reflexivity.
  - intros h. rewrite !get_insert. destruct (streqb h n) eqn:E; [reflexivity|].
    apply get_inserts_alike. rewrite !get_insert. now rewrite E.
Qed.

Section Examples.
  #[local] Existing Instance ascii_tables.
  #[local] Existing Instance toy_floats.
  Example na_names : first_names [L "b"; L "a"; L "b"; L "c"; L "a"] = [L "b"; L "a"; L "c"].
  Proof. reflexivity. Qed.
  (** A text in which the first limit is lost. *)
  Definition na_text (args : string) : list N := L "=== Plan" ++ [c_nl] ++ L "ExtensionLeaf:Scan[" ++ L args ++ L "]" ++ [c_nl].
  Example na_duplicates : exists p,
    parse (run_regs ex_history) (na_text "'a/b', limit=1, limit=7") = Ok p /\
    parse (run_regs ex_history) (na_text "'a/b', limit=7") = Ok p.
  Proof. eexists. split; vm_compute; reflexivity. Qed.
End Examples.
