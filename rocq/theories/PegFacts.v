(** Facts about the combinators: successful steps, consumption, extensionality. *)
From Coq Require Import String List NArith Bool Lia.
From Verif Require Import Base BaseFacts Peg.
Import ListNotations.

(** ** Steps *)

Lemma pbind_some {A B} (p : peg A) (f : A -> peg B) s a r x :
  p s = Some (a, r) -> f a r = x -> pbind p f s = x.
Proof. unfold pbind. now intros -> ->. Qed.

Lemma pbind_none {A B} (p : peg A) (f : A -> peg B) s :
  p s = None -> pbind p f s = None.
Proof. unfold pbind. now intros ->. Qed.

Lemma pthen_some {A B} (p : peg A) (q : peg B) s a r x :
  p s = Some (a, r) -> q r = x -> pthen p q s = x.
Proof. unfold pthen, pbind. now intros -> ->. Qed.

Lemma pthen_none {A B} (p : peg A) (q : peg B) s :
  p s = None -> pthen p q s = None.
Proof. apply pbind_none. Qed.

Lemma pmap_some {A B} (f : A -> B) (p : peg A) s a r :
  p s = Some (a, r) -> pmap f p s = Some (f a, r).
Proof. unfold pmap. now intros ->. Qed.

Lemma pmap_none {A B} (f : A -> B) (p : peg A) s : p s = None -> pmap f p s = None.
Proof. unfold pmap. now intros ->. Qed.

Lemma palt_l {A} (p q : peg A) s x : p s = Some x -> palt p q s = Some x.
Proof. unfold palt. now intros ->. Qed.

Lemma palt_r {A} (p q : peg A) s x : p s = None -> q s = x -> palt p q s = x.
Proof. unfold palt. now intros -> ->. Qed.

Lemma popt_some {A} (p : peg A) s a r : p s = Some (a, r) -> popt p s = Some (Some a, r).
Proof. unfold popt. now intros ->. Qed.

Lemma popt_none {A} (p : peg A) s : p s = None -> popt p s = Some (None, s).
Proof. unfold popt. now intros ->. Qed.

Lemma ptok_app t s : ptok t (t ++ s) = Some (tt, s).
Proof. unfold ptok. now rewrite strip_prefix_app. Qed.

Lemma ptok_self t : ptok t t = Some (tt, []).
Proof. rewrite <- (app_nil_r t) at 2. apply ptok_app. Qed.

Lemma ptok_none_hd t c s :
  hd_not (N.eqb c) s = true -> ptok (c :: t) s = None.
Proof.
  unfold ptok. destruct s as [|x s]; cbn; auto. intros H; bool_hyps. now rewrite H.
Qed.

Lemma ptok_spec t s u r : ptok t s = Some (u, r) <-> s = t ++ r.
Proof.
  unfold ptok. destruct (strip_prefix t s) eqn:E.
  - apply strip_prefix_spec in E; subst. split; [now intros [= _ ->]|].
    intros H%app_inv_head. subst. now destruct u.
  - split; [discriminate|]. intros ->. now rewrite strip_prefix_app in E.
Qed.

Lemma pwhile_app f a r :
  forallb f a = true -> hd_not f r = true -> pwhile f (a ++ r) = Some (a, r).
Proof. intros. unfold pwhile. now rewrite span_app. Qed.

Lemma pwhile1_app f a r :
  a <> [] -> forallb f a = true -> hd_not f r = true -> pwhile1 f (a ++ r) = Some (a, r).
Proof. intros Hn ? ?. unfold pwhile1. rewrite span_app; auto. now destruct a. Qed.

Lemma pwhile1_none f s : hd_not f s = true -> pwhile1 f s = None.
Proof.
  destruct s as [|c s]; cbn; auto. unfold pwhile1; cbn. intros H; bool_hyps. now rewrite H.
Qed.

Definition is_sp (c : N) : bool := (c =? c_sp)%N.

Lemma sp_none s : hd_not is_sp s = true -> sp s = Some (tt, s).
Proof.
  intros H. unfold sp, pmap. 
  pose proof (pwhile_app (fun c => (c =? c_sp)%N) [] s eq_refl H) as E.
  cbn [app] in E. now rewrite E.
Qed.

Lemma sp_one s : hd_not is_sp s = true -> sp (c_sp :: s) = Some (tt, s).
Proof.
  intros H. unfold sp, pmap.
  change (c_sp :: s) with ([c_sp] ++ s). rewrite pwhile_app; auto.
Qed.

Lemma sp_total s : exists r, sp s = Some (tt, r) /\ hd_not is_sp r = true /\
                    exists k, s = repeat c_sp k ++ r.
Proof.
  unfold sp, pmap, pwhile. destruct (span _ s) as [a r] eqn:E.
  apply span_spec in E as (-> & Ha & Hr). exists r. split; auto. split; auto.
  exists (length a). f_equal. clear Hr.
  induction a as [|c a IH]; cbn in *; auto. bool_hyps. apply N.eqb_eq in H. subst.
  f_equal; auto.
Qed.

(** ** Consumption *)

(** [shrinks p]: success never lengthens the input; [strict p]: it shortens it. *)
Definition shrinks {A} (p : peg A) := forall s a r, p s = Some (a, r) -> length r <= length s.
Definition strict {A} (p : peg A) := forall s a r, p s = Some (a, r) -> length r < length s.

Create HintDb peg.

Lemma strict_shrinks {A} (p : peg A) : strict p -> shrinks p.
Proof. intros H s a r E. apply H in E. lia. Qed.

Lemma shrinks_ret {A} (a : A) : shrinks (pret a).
Proof. intros s ? ? [= _ <-]. auto. Qed.
Lemma shrinks_fail {A} : shrinks (@pfail A).
Proof. intros s ? ? [=]. Qed.
Lemma strict_fail {A} : strict (@pfail A).
Proof. intros s ? ? [=]. Qed.

Lemma shrinks_bind {A B} (p : peg A) (f : A -> peg B) :
  shrinks p -> (forall a, shrinks (f a)) -> shrinks (pbind p f).
Proof.
  intros Hp Hf s b r. unfold pbind. destruct (p s) as [[a r']|] eqn:E; [|discriminate].
  intros H. apply Hp in E. apply Hf in H. lia.
Qed.
Lemma strict_bind_l {A B} (p : peg A) (f : A -> peg B) :
  strict p -> (forall a, shrinks (f a)) -> strict (pbind p f).
Proof.
  intros Hp Hf s b r. unfold pbind. destruct (p s) as [[a r']|] eqn:E; [|discriminate].
  intros H. apply Hp in E. apply Hf in H. lia.
Qed.
Lemma strict_bind_r {A B} (p : peg A) (f : A -> peg B) :
  shrinks p -> (forall a, strict (f a)) -> strict (pbind p f).
Proof.
  intros Hp Hf s b r. unfold pbind. destruct (p s) as [[a r']|] eqn:E; [|discriminate].
  intros H. apply Hp in E. apply Hf in H. lia.
Qed.
Lemma shrinks_map {A B} (f : A -> B) (p : peg A) : shrinks p -> shrinks (pmap f p).
Proof.
  intros Hp s b r. unfold pmap. destruct (p s) as [[a r']|] eqn:E; [|discriminate].
  intros [= <- <-]. eauto.
Qed.
Lemma strict_map {A B} (f : A -> B) (p : peg A) : strict p -> strict (pmap f p).
Proof.
  intros Hp s b r. unfold pmap. destruct (p s) as [[a r']|] eqn:E; [|discriminate].
  intros [= <- <-]. eauto.
Qed.
Lemma shrinks_alt {A} (p q : peg A) : shrinks p -> shrinks q -> shrinks (palt p q).
Proof.
  intros Hp Hq s a r. unfold palt. destruct (p s) as [[a' r']|] eqn:E; eauto.
  intros [= -> ->]. eauto.
Qed.
Lemma strict_alt {A} (p q : peg A) : strict p -> strict q -> strict (palt p q).
Proof.
  intros Hp Hq s a r. unfold palt. destruct (p s) as [[a' r']|] eqn:E; eauto.
  intros [= -> ->]. eauto.
Qed.
Lemma shrinks_opt {A} (p : peg A) : shrinks p -> shrinks (popt p).
Proof.
  intros Hp s a r. unfold popt. destruct (p s) as [[a' r']|] eqn:E; intros [= <- <-]; eauto.
Qed.
Lemma shrinks_not {A} (p : peg A) : shrinks (pnot p).
Proof. intros s a r. unfold pnot. destruct (p s); [discriminate|]. intros [= _ <-]. auto. Qed.
Lemma shrinks_eoi : shrinks peoi.
Proof. intros [|? ?] a r; cbn; [intros [= _ <-]; auto|discriminate]. Qed.
Lemma shrinks_tok t : shrinks (ptok t).
Proof. intros s a r H. apply ptok_spec in H. subst. rewrite app_length. lia. Qed.
Lemma strict_tok t : (0 < length t) -> strict (ptok t).
Proof. intros Ht s a r H. apply ptok_spec in H. subst. rewrite app_length. lia. Qed.
Lemma strip_prefix_ci_len t s r :
  strip_prefix_ci t s = Some r -> length s = length t + length r.
Proof.
  revert s; induction t as [|x t IH]; intros s; cbn.
  - intros [= ->]. auto.
  - destruct s as [|y s]; [discriminate|]. destruct (x =? to_lower y)%N; [|discriminate].
    intros H. cbn. now rewrite (IH _ H).
Qed.
Lemma shrinks_tok_ci t : shrinks (ptok_ci t).
Proof.
  intros s a r. unfold ptok_ci. destruct (strip_prefix_ci t s) eqn:E; [|discriminate].
  intros [= _ <-]. apply strip_prefix_ci_len in E. lia.
Qed.
Lemma strict_tok_ci t : 0 < length t -> strict (ptok_ci t).
Proof.
  intros Ht s a r. unfold ptok_ci. destruct (strip_prefix_ci t s) eqn:E; [|discriminate].
  intros [= _ <-]. apply strip_prefix_ci_len in E. lia.
Qed.
Lemma strict_char f : strict (pchar f).
Proof. intros [|c s] a r; cbn; [discriminate|]. destruct (f c); intros [= _ <-]. auto. Qed.
Lemma shrinks_while f : shrinks (pwhile f).
Proof.
  intros s a r. unfold pwhile. intros [= E]. apply span_spec in E as (-> & _).
  rewrite app_length. lia.
Qed.
Lemma strict_while1 f : strict (pwhile1 f).
Proof.
  intros s a r. unfold pwhile1. destruct (span f s) as [[|x a'] r'] eqn:E; [discriminate|].
  intros [= <- <-]. apply span_spec in E as (-> & _). cbn. rewrite app_length. lia.
Qed.
Lemma pstar_n_len {A} n (p : peg A) : shrinks p -> forall s l r, pstar_n n p s = (l, r) -> length r <= length s.
Proof.
  intros Hp. induction n as [|n IH]; intros s l r; cbn.
  - intros [= _ <-]; auto.
  - destruct (p s) as [[a r']|] eqn:E; [|intros [= _ <-]; auto].
    destruct (pstar_n n p r') as [l' r''] eqn:E2. intros [= _ <-].
    apply Hp in E. apply IH in E2. lia.
Qed.
Lemma shrinks_star {A} (p : peg A) : shrinks p -> shrinks (pstar p).
Proof.
  intros Hp s l r. unfold pstar. intros [= E]. eapply pstar_n_len; eauto.
Qed.
Lemma shrinks_then {A B} (p : peg A) (q : peg B) : shrinks p -> shrinks q -> shrinks (pthen p q).
Proof. intros. apply shrinks_bind; auto. Qed.
Lemma strict_then_l {A B} (p : peg A) (q : peg B) : strict p -> shrinks q -> strict (pthen p q).
Proof. intros. apply strict_bind_l; auto. Qed.
Lemma strict_then_r {A B} (p : peg A) (q : peg B) : shrinks p -> strict q -> strict (pthen p q).
Proof. intros. apply strict_bind_r; auto. Qed.
Lemma shrinks_plus {A} (p : peg A) : shrinks p -> shrinks (pplus p).
Proof.
  intros. apply shrinks_bind; auto. intros. apply shrinks_bind; [now apply shrinks_star|].
  intros; apply shrinks_ret.
Qed.
Lemma strict_plus {A} (p : peg A) : strict p -> strict (pplus p).
Proof.
  intros. apply strict_bind_l; auto. intros.
  apply shrinks_bind; [now apply shrinks_star, strict_shrinks|].
  intros; apply shrinks_ret.
Qed.
Lemma shrinks_sep1 {A} sep (p : peg A) : shrinks sep -> shrinks p -> shrinks (psep1 sep p).
Proof.
  intros. apply shrinks_bind; auto. intros.
  apply shrinks_bind; [now apply shrinks_star, shrinks_then|]. intros; apply shrinks_ret.
Qed.
Lemma strict_sep1 {A} sep (p : peg A) : shrinks sep -> strict p -> strict (psep1 sep p).
Proof.
  intros. apply strict_bind_l; auto. intros.
  apply shrinks_bind; [apply shrinks_star, shrinks_then; auto using strict_shrinks|].
  intros; apply shrinks_ret.
Qed.
Lemma shrinks_sep0 {A} sep (p : peg A) : shrinks sep -> shrinks p -> shrinks (psep0 sep p).
Proof. intros. apply shrinks_alt; [now apply shrinks_sep1|apply shrinks_ret]. Qed.
Lemma shrinks_sp : shrinks sp.
Proof. apply shrinks_map, shrinks_while. Qed.
Lemma strict_toks l : forallb (fun t => Nat.ltb 0 (length t)) l = true -> strict (ptoks l).
Proof.
  induction l as [|t l IH]; cbn; intros H; [apply strict_fail|]. bool_hyps.
  apply strict_alt; auto. apply strict_map, strict_tok. now apply PeanoNat.Nat.ltb_lt.
Qed.

(** ** Repetition *)

Lemma pstar_n_more {A} (p : peg A) n m s :
  strict p -> length s <= n -> length s <= m -> pstar_n n p s = pstar_n m p s.
Proof.
  intros Hp. revert m s; induction n as [|n IH]; intros m s Hn Hm.
  - destruct s; [|cbn in Hn; lia]. destruct m; auto. cbn.
    destruct (p []) as [[a r]|] eqn:E; auto. apply Hp in E. cbn in E. lia.
  - cbn. destruct m as [|m].
    + destruct s; [|cbn in Hm; lia]. cbn. destruct (p []) as [[a r]|] eqn:E; auto.
      apply Hp in E. cbn in E. lia.
    + cbn. destruct (p s) as [[a r]|] eqn:E; auto. apply Hp in E.
      rewrite (IH m r); auto; lia.
Qed.

Lemma pstar_cons {A} (p : peg A) s a r l r' :
  strict p -> p s = Some (a, r) -> pstar p r = Some (l, r') -> pstar p s = Some (a :: l, r').
Proof.
  intros Hp E. unfold pstar. intros [= Hl].
  pose proof (Hp _ _ _ E) as Hlen. destruct (length s) as [|n] eqn:En; [lia|].
  cbn. rewrite E. rewrite (pstar_n_more p n (length r) r) by (auto; lia). now rewrite Hl.
Qed.

Lemma pstar_nil {A} (p : peg A) s : p s = None -> pstar p s = Some ([], s).
Proof. intros E. unfold pstar. destruct (length s); cbn; auto. now rewrite E. Qed.

(** The defining equation of repetition. *)
Lemma pstar_eq {A} (p : peg A) s : strict p ->
  pstar p s = match p s with
              | None => Some ([], s)
              | Some (a, r) => match pstar p r with
                               | Some (l, r') => Some (a :: l, r')
                               | None => None
                               end
              end.
Proof.
  intros Hp. destruct (p s) as [[a r]|] eqn:E; [|now apply pstar_nil].
  destruct (pstar p r) as [[l r']|] eqn:E2; [|discriminate].
  eapply pstar_cons; eauto.
Qed.

(** A repetition reads back a concatenation of items. *)
Lemma pstar_items {A B} (p : peg A) (txt : B -> list N) (val : B -> A) (ok : list N -> Prop) l rest :
  strict p ->
  (forall x r, In x l -> ok r -> p (txt x ++ r) = Some (val x, r)) ->
  (forall x r, In x l -> ok (txt x ++ r)) ->
  ok rest -> p rest = None ->
  pstar p (concat (map txt l) ++ rest) = Some (map val l, rest).
Proof.
  intros Hp Hitem Hok Hrest Hend. induction l as [|x l IH]; cbn.
  - now apply pstar_nil.
  - rewrite <- app_assoc. eapply pstar_cons; auto.
    + apply Hitem; [now left|]. destruct l as [|y l]; cbn; auto.
      rewrite <- app_assoc. apply Hok. cbn; auto.
    + apply IH; intros; [apply Hitem|apply Hok]; cbn; auto.
Qed.

Lemma join_cons sep x l : join sep (x :: l) = x ++ concat (map (fun y => sep ++ y) l).
Proof.
  revert x; induction l as [|y l IH]; intros x.
  - cbn. now rewrite app_nil_r.
  - cbn [map concat]. change (join sep (x :: y :: l)) with (x ++ sep ++ join sep (y :: l)).
    rewrite IH. now rewrite <- !app_assoc.
Qed.

(** A separated list reads back a join. [ok] is the follow condition of an item. *)
Lemma psep1_items {A B} (sep : peg unit) (p : peg A) (sept : list N) (txt : B -> list N)
      (val : B -> A) (ok : list N -> Prop) x l rest :
  strict p -> shrinks sep ->
  (forall y r, In y (x :: l) -> ok r -> p (txt y ++ r) = Some (val y, r)) ->
  (forall y r, In y (x :: l) -> sep (sept ++ txt y ++ r) = Some (tt, txt y ++ r)) ->
  (forall r, ok (sept ++ r)) ->
  ok rest -> pthen sep p rest = None ->
  psep1 sep p (join sept (map txt (x :: l)) ++ rest) = Some (map val (x :: l), rest).
Proof.
  intros Hp Hs Hitem Hsep Hok Hrest Hend.
  cbn [map]. rewrite join_cons, <- app_assoc. unfold psep1.
  assert (Hokl : forall l', (l' = [] \/ exists y l'', l' = y :: l'') ->
            ok (concat (map (fun y => sept ++ txt y) l') ++ rest)).
  { intros l' _. destruct l' as [|y l']; cbn; auto. rewrite <- !app_assoc. apply Hok. }
  rewrite map_map.
  eapply pbind_some.
  { apply Hitem; [now left|]. apply Hokl. destruct l; eauto. }
  eapply pbind_some; [|reflexivity].
  eapply (pstar_items (pthen sep p) (fun y => sept ++ txt y) val ok).
  - apply strict_then_r; auto.
  - intros y r Hy Hr. rewrite <- app_assoc. eapply pthen_some.
    + apply Hsep. now right.
    + apply Hitem; auto. now right.
  - intros y r Hy. rewrite <- app_assoc. apply Hok.
  - auto.
  - auto.
Qed.

Lemma psep0_items {A B} (sep : peg unit) (p : peg A) (sept : list N) (txt : B -> list N)
      (val : B -> A) (ok : list N -> Prop) l rest :
  strict p -> shrinks sep ->
  (forall y r, In y l -> ok r -> p (txt y ++ r) = Some (val y, r)) ->
  (forall y r, In y l -> sep (sept ++ txt y ++ r) = Some (tt, txt y ++ r)) ->
  (forall r, ok (sept ++ r)) ->
  ok rest -> pthen sep p rest = None ->
  (l = [] -> p rest = None) ->
  psep0 sep p (join sept (map txt l) ++ rest) = Some (map val l, rest).
Proof.
  intros. unfold psep0. destruct l as [|x l].
  - apply palt_r; [|reflexivity]. cbn. apply pbind_none; auto.
  - apply palt_l. eapply psep1_items; eauto.
Qed.

(** ** Extensionality *)

(** Two parsers agree on inputs of length at most [n]. *)
Definition agree {A} (n : nat) (p q : peg A) := forall s, length s <= n -> p s = q s.

Lemma agree_refl {A} n (p : peg A) : agree n p p.
Proof. intros s _. reflexivity. Qed.
Lemma agree_le {A} n m (p q : peg A) : n <= m -> agree m p q -> agree n p q.
Proof. intros H Ha s Hs. apply Ha. lia. Qed.
Lemma agree_bind {A B} n (p q : peg A) (f g : A -> peg B) :
  shrinks p -> agree n p q -> (forall a, agree n (f a) (g a)) -> agree n (pbind p f) (pbind q g).
Proof.
  intros Hp Ha Hf s Hs. unfold pbind. rewrite <- Ha by auto.
  destruct (p s) as [[a r]|] eqn:E; auto. apply Hf. apply Hp in E. lia.
Qed.
Lemma agree_bind_strict {A B} n (p q : peg A) (f g : A -> peg B) :
  strict p -> agree (S n) p q -> (forall a, agree n (f a) (g a)) ->
  agree (S n) (pbind p f) (pbind q g).
Proof.
  intros Hp Ha Hf s Hs. unfold pbind. rewrite <- Ha by auto.
  destruct (p s) as [[a r]|] eqn:E; auto. apply Hf. apply Hp in E. lia.
Qed.
Lemma agree_then {A B} n (p q : peg A) (f g : peg B) :
  shrinks p -> agree n p q -> agree n f g -> agree n (pthen p f) (pthen q g).
Proof. intros. apply agree_bind; auto. Qed.
Lemma agree_then_strict {A B} n (p q : peg A) (f g : peg B) :
  strict p -> agree (S n) p q -> agree n f g -> agree (S n) (pthen p f) (pthen q g).
Proof. intros. apply agree_bind_strict; auto. Qed.
Lemma agree_map {A B} n (f : A -> B) (p q : peg A) : agree n p q -> agree n (pmap f p) (pmap f q).
Proof. intros Ha s Hs. unfold pmap. now rewrite Ha. Qed.
Lemma agree_alt {A} n (p q p' q' : peg A) :
  agree n p p' -> agree n q q' -> agree n (palt p q) (palt p' q').
Proof. intros H1 H2 s Hs. unfold palt. now rewrite H1, H2. Qed.
Lemma agree_opt {A} n (p q : peg A) : agree n p q -> agree n (popt p) (popt q).
Proof. intros Ha s Hs. unfold popt. now rewrite Ha. Qed.
Lemma agree_not {A} n (p q : peg A) : agree n p q -> agree n (pnot p) (pnot q).
Proof. intros Ha s Hs. unfold pnot. now rewrite Ha. Qed.
Lemma agree_star {A} n (p q : peg A) : shrinks p -> agree n p q -> agree n (pstar p) (pstar q).
Proof.
  intros Hp Ha s Hs. unfold pstar. f_equal.
  assert (forall k s, length s <= n -> pstar_n k p s = pstar_n k q s) as H; auto.
  clear s Hs. induction k as [|k IH]; intros s Hs; cbn; auto. rewrite <- Ha by auto.
  destruct (p s) as [[a r]|] eqn:E; auto. apply Hp in E. rewrite IH by lia. reflexivity.
Qed.
Lemma agree_plus {A} n (p q : peg A) : shrinks p -> agree n p q -> agree n (pplus p) (pplus q).
Proof.
  intros. apply agree_bind; auto. intros. apply agree_bind.
  - now apply shrinks_star.
  - now apply agree_star.
  - intros; apply agree_refl.
Qed.
Lemma agree_sep1 {A} n sep (p q : peg A) : shrinks sep -> shrinks p -> agree n p q ->
  agree n (psep1 sep p) (psep1 sep q).
Proof.
  intros. apply agree_bind; auto. intros. apply agree_bind.
  - apply shrinks_star, shrinks_then; auto.
  - apply agree_star; [apply shrinks_then; auto|]. apply agree_then; auto using agree_refl.
  - intros; apply agree_refl.
Qed.
Lemma agree_sep0 {A} n sep (p q : peg A) : shrinks sep -> shrinks p -> agree n p q ->
  agree n (psep0 sep p) (psep0 sep q).
Proof. intros. apply agree_alt; [now apply agree_sep1|apply agree_refl]. Qed.

#[global] Hint Resolve shrinks_ret shrinks_fail strict_fail shrinks_not shrinks_eoi shrinks_tok
  shrinks_tok_ci strict_char shrinks_while strict_while1 shrinks_sp : peg.
#[global] Hint Extern 5 (strict (ptok _)) => (apply strict_tok; cbn; lia) : peg.
#[global] Hint Extern 5 (strict (ptok_ci _)) => (apply strict_tok_ci; cbn; lia) : peg.
#[global] Hint Extern 5 (strict (ptoks _)) => (apply strict_toks; reflexivity) : peg.

(** Prove [shrinks] and [strict] goals by structure. *)
Ltac peg_shrink :=
  intros;
  lazymatch goal with
  | |- shrinks ?p =>
      first [ assumption
            | solve [auto with peg nocore]
            | lazymatch p with
              | pbind _ _ => apply shrinks_bind
              | pthen _ _ => apply shrinks_then
              | pmap _ _ => apply shrinks_map
              | palt _ _ => apply shrinks_alt
              | popt _ => apply shrinks_opt
              | pstar _ => apply shrinks_star
              | pplus _ => apply shrinks_plus
              | psep1 _ _ => apply shrinks_sep1
              | psep0 _ _ => apply shrinks_sep0
              | _ => apply strict_shrinks
              end; peg_shrink ]
  | |- strict ?p =>
      first [ assumption
            | solve [auto with peg nocore]
            | lazymatch p with
              | pbind _ _ => first [ solve [apply strict_bind_l; peg_shrink]
                                   | apply strict_bind_r; peg_shrink ]
              | pthen _ _ => first [ solve [apply strict_then_l; peg_shrink]
                                   | apply strict_then_r; peg_shrink ]
              | pmap _ _ => apply strict_map; peg_shrink
              | palt _ _ => apply strict_alt; peg_shrink
              | pplus _ => apply strict_plus; peg_shrink
              | psep1 _ _ => apply strict_sep1; peg_shrink
              end ]
  | |- _ => idtac
  end.

(** Prove [agree] goals by structure; at the leaves use the hypotheses. *)
Ltac peg_agree :=
  intros;
  lazymatch goal with
  | |- agree ?n ?p ?q =>
      first [ assumption
            | constr_eq p q; apply agree_refl
            | match goal with H : agree ?m p q |- _ => apply (agree_le n m); [lia|exact H] end
            | lazymatch p with
              | pbind _ _ =>
                  first [ (apply agree_bind_strict; [solve [peg_shrink] | solve [peg_agree] | peg_agree])
                        | (apply agree_bind; [solve [peg_shrink] | peg_agree | peg_agree]) ]
              | pthen _ _ =>
                  first [ (apply agree_then_strict; [solve [peg_shrink] | solve [peg_agree] | peg_agree])
                        | (apply agree_then; [solve [peg_shrink] | peg_agree | peg_agree]) ]
              | pmap _ _ => apply agree_map; peg_agree
              | palt _ _ => apply agree_alt; peg_agree
              | popt _ => apply agree_opt; peg_agree
              | pnot _ => apply agree_not; peg_agree
              | pstar _ => apply agree_star; [peg_shrink | peg_agree]
              | pplus _ => apply agree_plus; [peg_shrink | peg_agree]
              | psep1 _ _ => apply agree_sep1; [peg_shrink | peg_shrink | peg_agree]
              | psep0 _ _ => apply agree_sep0; [peg_shrink | peg_shrink | peg_agree]
              end ]
  | |- _ => idtac
  end.

Section Fix.
  Context {A : Type} (F : peg A -> peg A).
  Context (F_shrinks : forall p, shrinks p -> shrinks (F p)).
  Context (F_agree : forall n p q, shrinks p -> shrinks q -> agree n p q -> agree (S n) (F p) (F q)).
  Context (F_agree0 : forall p q, shrinks p -> shrinks q -> agree 0 (F p) (F q)).

  Lemma pfix_shrinks n : shrinks (pfix F n).
  Proof. induction n; cbn; auto. apply shrinks_fail. Qed.

  Lemma pfix_more n m : n <= m -> agree n (pfix F (S n)) (pfix F (S m)).
  Proof.
    revert m; induction n as [|n IH]; intros m Hm.
    - cbn. apply F_agree0; apply (pfix_shrinks m) || apply shrinks_fail.
    - destruct m as [|m]; [lia|]. change (pfix F (S (S n))) with (F (pfix F (S n))).
      change (pfix F (S (S m))) with (F (pfix F (S m))).
      apply F_agree; try apply pfix_shrinks. apply IH. lia.
  Qed.

  Lemma pfix_prun n s : length s < n -> pfix F n s = prun F s.
  Proof.
    intros H. unfold prun. destruct n as [|n]; [lia|].
    symmetry. apply (pfix_more (length s) n); lia.
  Qed.

  Lemma prun_shrinks : shrinks (prun F).
  Proof. intros s a r. unfold prun. apply pfix_shrinks. Qed.

  Lemma prun_eq s : prun F s = F (prun F) s.
  Proof.
    unfold prun at 1. cbn [pfix]. destruct (length s) as [|n] eqn:E.
    - apply F_agree0; [apply (pfix_shrinks 0)|apply prun_shrinks|lia].
    - apply (F_agree n); [apply pfix_shrinks|apply prun_shrinks| |lia].
      intros t Ht. apply pfix_prun. lia.
  Qed.
End Fix.
