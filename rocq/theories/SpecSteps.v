(** How many rules a pest parser enters. *)
From Coq Require Import String List NArith Arith.
From Verif Require Import Base Pest.
Import ListNotations.
Local Open Scope string_scope.
Local Open Scope list_scope.
Local Open Scope nat_scope.

(** ** Counting *)

(** [measured join G w atomic x s o n]: [derives G w atomic x s o], where entering a rule adds
    one and what is done one after the other is put together by [join].
    Every reference to a rule is one call of [ParserState::rule] (or of the function of a
    silent rule); pest remembers no result, so a rule tried again at the same place is
    entered again.  What is spent on the characters themselves is not counted. *)
Inductive measured (join : nat -> nat -> nat) (G : grammar) (w : list N) :
  bool -> qexp -> list N -> option (list tree * list N) -> nat -> Prop :=
| e_tok at_ t s : measured join G w at_ (QTok t) (t ++ s) (Some ([], s)) 0
| e_tok_no at_ t s : (forall r, s <> t ++ r) -> measured join G w at_ (QTok t) s None 0
| e_ci at_ t u s : same_ci u t -> measured join G w at_ (QTokCI t) (u ++ s) (Some ([], s)) 0
| e_ci_no at_ t s : (forall u r, same_ci u t -> s <> u ++ r) -> measured join G w at_ (QTokCI t) s None 0
| e_any at_ c s : measured join G w at_ QAny (c :: s) (Some ([], s)) 0
| e_any_no at_ : measured join G w at_ QAny [] None 0
| e_class at_ l c s : in_class l c = true -> measured join G w at_ (QClass l) (c :: s) (Some ([], s)) 0
| e_class_no at_ l s : (forall c r, s = c :: r -> in_class l c = false) -> measured join G w at_ (QClass l) s None 0
| e_soi at_ s : length s = length w -> measured join G w at_ QSoi s (Some ([], s)) 0
| e_soi_no at_ s : length s <> length w -> measured join G w at_ QSoi s None 0
| e_eoi at_ : measured join G w at_ QEoi [] (Some (wrap at_ QNormal "EOI" [] [], [])) 0
| e_eoi_no at_ c s : measured join G w at_ QEoi (c :: s) None 0
| e_ref at_ n k x s text ts r m :
    lookup G n = Some (k, x) ->
    measured join G w (within at_ k) x s (Some (ts, r)) m ->
    s = text ++ r ->
    measured join G w at_ (QRef n) s (Some (wrap at_ k n text ts, r)) (S m)
| e_ref_no at_ n k x s m :
    lookup G n = Some (k, x) ->
    measured join G w (within at_ k) x s None m ->
    measured join G w at_ (QRef n) s None (S m)
| e_seq at_ a b s ts r us q m m' :
    measured join G w at_ a s (Some (ts, r)) m ->
    measured join G w at_ b r (Some (us, q)) m' ->
    measured join G w at_ (QSeq a b) s (Some (ts ++ us, q)) (join m m')
| e_seq_no1 at_ a b s m : measured join G w at_ a s None m -> measured join G w at_ (QSeq a b) s None m
| e_seq_no2 at_ a b s ts r m m' :
    measured join G w at_ a s (Some (ts, r)) m ->
    measured join G w at_ b r None m' ->
    measured join G w at_ (QSeq a b) s None (join m m')
| e_alt_l at_ a b s x m : measured join G w at_ a s (Some x) m -> measured join G w at_ (QAlt a b) s (Some x) m
| e_alt_r at_ a b s o m m' :
    measured join G w at_ a s None m -> measured join G w at_ b s o m' -> measured join G w at_ (QAlt a b) s o (join m m')
| e_opt at_ a s x m : measured join G w at_ a s (Some x) m -> measured join G w at_ (QOpt a) s (Some x) m
| e_opt_no at_ a s m : measured join G w at_ a s None m -> measured join G w at_ (QOpt a) s (Some ([], s)) m
| e_star at_ a s ts r us q m m' :
    measured join G w at_ a s (Some (ts, r)) m ->
    measured join G w at_ (QStar a) r (Some (us, q)) m' ->
    measured join G w at_ (QStar a) s (Some (ts ++ us, q)) (join m m')
| e_star_no at_ a s m : measured join G w at_ a s None m -> measured join G w at_ (QStar a) s (Some ([], s)) m
| e_plus at_ a s o m : measured join G w at_ (QSeq a (QStar a)) s o m -> measured join G w at_ (QPlus a) s o m
| e_not at_ a s m : measured join G w at_ a s None m -> measured join G w at_ (QNot a) s (Some ([], s)) m
| e_not_no at_ a s x m : measured join G w at_ a s (Some x) m -> measured join G w at_ (QNot a) s None m.

(** How many rules are entered, and how many at most are entered and not yet left. *)
Notation enters := (measured Nat.add).
Notation nests := (measured Nat.max).

(** [Parser::parse(rule, s)] enters [n] rules. *)
Definition rules_entered (G : grammar) (rule : string) (s : list N) (n : nat) : Prop :=
  exists o, enters G s false (QRef rule) s o n.
(** It nests them [n] deep. *)
Definition rules_nested (G : grammar) (rule : string) (s : list N) (n : nat) : Prop :=
  exists o, nests G s false (QRef rule) s o n.

(** ** What pest makes of a grammar first *)

(** Equal expressions. *)
Definition qexp_eq_dec (a b : qexp) : {a = b} + {a <> b}.
Proof.
  decide equality; try apply string_dec; apply list_eq_dec; [apply N.eq_dec| |];
    [apply N.eq_dec|decide equality; apply N.eq_dec].
Defined.

(** One step of [optimizer::factorizer::factor] of pest_meta 2 (the pest_derive dependency in
    Cargo.toml): alternatives that begin alike are tried once.  From memory. *)
Definition factor_top (x : qexp) : qexp :=
  match x with
  | QAlt (QSeq a b) (QSeq c d) => if qexp_eq_dec a c then QSeq a (QAlt b d) else x
  | QAlt (QSeq a b) c => if qexp_eq_dec a c then QSeq a (QOpt b) else x
  | QAlt a (QSeq b c) => if qexp_eq_dec a b then a else x
  | _ => x
  end.
(** [Expr::map_top_down] of it.  [n] bounds the depth. *)
Fixpoint factor_n (n : nat) (x : qexp) : qexp :=
  match n with
  | 0 => x
  | S n' =>
      match factor_top x with
      | QSeq a b => QSeq (factor_n n' a) (factor_n n' b)
      | QAlt a b => QAlt (factor_n n' a) (factor_n n' b)
      | QOpt a => QOpt (factor_n n' a)
      | QStar a => QStar (factor_n n' a)
      | QPlus a => QPlus (factor_n n' a)
      | QNot a => QNot (factor_n n' a)
      | y => y
      end
  end.
Fixpoint size (x : qexp) : nat :=
  match x with
  | QSeq a b | QAlt a b => S (size a + size b)
  | QOpt a | QStar a | QPlus a | QNot a => S (size a)
  | _ => 1
  end.
Definition factor (x : qexp) : qexp := factor_n (size x) x.
Definition factored (G : grammar) : grammar :=
  map (fun r : qrule => (fst r, (fst (snd r), factor (snd (snd r))))) G.

(** ** Texts *)

(** [list<list<list<] and so on, never closed, as the type of a column. *)
Fixpoint open_lists (k : nat) : list N :=
  match k with
  | 0 => []
  | S k' => L "list<" ++ open_lists k'
  end.
Definition lists_line (k : nat) : list N := L "Read[t => a:" ++ open_lists k.

(** [if_then(if_then(1):i64):i64] and so on: calls of a function of that name. *)
Fixpoint calls_text (k : nat) : list N :=
  match k with
  | 0 => L "1"
  | S k' => L "if_then(" ++ calls_text k' ++ L "):i64"
  end.
Definition calls_line (k : nat) : list N := L "Project[" ++ calls_text k ++ L "]".

(** [((1)::i64)::i64] and so on: casts within casts. *)
Fixpoint casts_text (k : nat) : list N :=
  match k with
  | 0 => L "1"
  | S k' => L "(" ++ casts_text k' ++ L ")::i64"
  end.
Definition casts_line (k : nat) : list N := L "Project[" ++ casts_text k ++ L "]".
