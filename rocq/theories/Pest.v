(** pest grammars: their notation and their meaning.

    [read_pest] reads the notation of a .pest file (the pest 2 book, "Grammar syntax");
    [derives] says what an expression of a grammar matches and which pairs it leaves.
    Only the notation that src/parser/expression_grammar.pest uses is known; the file
    has no WHITESPACE or COMMENT rule, so sequences and repetitions are plain. *)
From Coq Require Import String Ascii List NArith Bool.
From Verif Require Import Base Peg Utf8.
Import ListNotations.
Local Open Scope string_scope.
Local Open Scope list_scope.
Local Open Scope peg_scope.

(** ** Grammars *)

(** An expression of a grammar.  [QAny] is any one character, [QClass l] is one character
    within one of the ranges of [l]. *)
Inductive qexp :=
| QTok (t : list N)
| QTokCI (t : list N)
| QAny
| QClass (l : list (N * N))
| QSoi
| QEoi
| QRef (r : string)
| QSeq (a b : qexp)
| QAlt (a b : qexp)
| QOpt (a : qexp)
| QStar (a : qexp)
| QPlus (a : qexp)
| QNot (a : qexp).

(** The modifier of a rule: none, [_] or [@]. *)
Inductive qkind := QNormal | QSilent | QAtomic.

Definition qrule : Type := string * (qkind * qexp).
Definition grammar : Type := list qrule.

Fixpoint lookup (G : grammar) (n : string) : option (qkind * qexp) :=
  match G with
  | [] => None
  | (m, x) :: r => if String.eqb n m then Some x else lookup r n
  end.

(** ** Meaning *)

(** A pair: the rule, the text it covers, the pairs inside. *)
Inductive tree := Node (rule : string) (text : list N) (children : list tree).

Definition in_class (l : list (N * N)) (c : N) : bool :=
  existsb (fun p => (fst p <=? c)%N && (c <=? snd p)%N) l.

(** Equal but for the case of ASCII letters. *)
Definition same_ci (a b : list N) : Prop := map to_lower a = map to_lower b.

(** The pair of a rule that matched: a silent rule leaves its inner pairs only, and inside
    an atomic rule no pair is left. *)
Definition wrap (atomic : bool) (k : qkind) (n : string) (text : list N) (ts : list tree) : list tree :=
  match k with
  | QSilent => ts
  | _ => if atomic then [] else [Node n text ts]
  end.

Definition within (atomic : bool) (k : qkind) : bool :=
  match k with QAtomic => true | _ => atomic end.

(** [derives G w atomic x s o]: matching [x] against [s], the unread part of the input [w],
    fails when [o] is [None] and otherwise leaves the pairs and the unread text of [o].
    Choice is ordered, repetition is greedy, and neither is revised later (the pest 2 book,
    "Parsing expression grammars"); [state.rule], [state.atomic], [state.optional] and
    [state.repeat] of pest's ParserState. *)
Inductive derives (G : grammar) (w : list N) :
  bool -> qexp -> list N -> option (list tree * list N) -> Prop :=
| d_tok at_ t s : derives G w at_ (QTok t) (t ++ s) (Some ([], s))
| d_tok_no at_ t s : (forall r, s <> t ++ r) -> derives G w at_ (QTok t) s None
| d_ci at_ t u s : same_ci u t -> derives G w at_ (QTokCI t) (u ++ s) (Some ([], s))
| d_ci_no at_ t s : (forall u r, same_ci u t -> s <> u ++ r) -> derives G w at_ (QTokCI t) s None
| d_any at_ c s : derives G w at_ QAny (c :: s) (Some ([], s))
| d_any_no at_ : derives G w at_ QAny [] None
| d_class at_ l c s : in_class l c = true -> derives G w at_ (QClass l) (c :: s) (Some ([], s))
| d_class_no at_ l s : (forall c r, s = c :: r -> in_class l c = false) -> derives G w at_ (QClass l) s None
| d_soi at_ s : length s = length w -> derives G w at_ QSoi s (Some ([], s))
| d_soi_no at_ s : length s <> length w -> derives G w at_ QSoi s None
| d_eoi at_ : derives G w at_ QEoi [] (Some (wrap at_ QNormal "EOI" [] [], []))
| d_eoi_no at_ c s : derives G w at_ QEoi (c :: s) None
| d_ref at_ n k x s text ts r :
    lookup G n = Some (k, x) ->
    derives G w (within at_ k) x s (Some (ts, r)) ->
    s = text ++ r ->
    derives G w at_ (QRef n) s (Some (wrap at_ k n text ts, r))
| d_ref_no at_ n k x s :
    lookup G n = Some (k, x) ->
    derives G w (within at_ k) x s None ->
    derives G w at_ (QRef n) s None
| d_seq at_ a b s ts r us q :
    derives G w at_ a s (Some (ts, r)) ->
    derives G w at_ b r (Some (us, q)) ->
    derives G w at_ (QSeq a b) s (Some (ts ++ us, q))
| d_seq_no1 at_ a b s : derives G w at_ a s None -> derives G w at_ (QSeq a b) s None
| d_seq_no2 at_ a b s ts r :
    derives G w at_ a s (Some (ts, r)) ->
    derives G w at_ b r None ->
    derives G w at_ (QSeq a b) s None
| d_alt_l at_ a b s x : derives G w at_ a s (Some x) -> derives G w at_ (QAlt a b) s (Some x)
| d_alt_r at_ a b s o :
    derives G w at_ a s None -> derives G w at_ b s o -> derives G w at_ (QAlt a b) s o
| d_opt at_ a s x : derives G w at_ a s (Some x) -> derives G w at_ (QOpt a) s (Some x)
| d_opt_no at_ a s : derives G w at_ a s None -> derives G w at_ (QOpt a) s (Some ([], s))
| d_star at_ a s ts r us q :
    derives G w at_ a s (Some (ts, r)) ->
    derives G w at_ (QStar a) r (Some (us, q)) ->
    derives G w at_ (QStar a) s (Some (ts ++ us, q))
| d_star_no at_ a s : derives G w at_ a s None -> derives G w at_ (QStar a) s (Some ([], s))
| d_plus at_ a s o : derives G w at_ (QSeq a (QStar a)) s o -> derives G w at_ (QPlus a) s o
| d_not at_ a s : derives G w at_ a s None -> derives G w at_ (QNot a) s (Some ([], s))
| d_not_no at_ a s x : derives G w at_ a s (Some x) -> derives G w at_ (QNot a) s None.

(** [Parser::parse(rule, input)]: one pair and the text left unread, or a failure. *)
Definition matches (G : grammar) (rule : string) (s : list N) (t : tree) (r : list N) : Prop :=
  derives G s false (QRef rule) s (Some ([t], r)).
Definition rejects (G : grammar) (rule : string) (s : list N) : Prop :=
  derives G s false (QRef rule) s None.

(** ** Looking at pairs *)

(** A pair without inner pairs. *)
Definition leaf (n : string) (text : list N) : tree := Node n text [].
(** A pair of rule [n] whose inner pairs are seen as [a]. *)
Definition is_node {A} (n : string) (v : list tree -> A -> Prop) (t : tree) (a : A) : Prop :=
  exists text ch, t = Node n text ch /\ v ch a.
(** One pair, seen as [a]; some pairs or none. *)
Definition one {A} (v : tree -> A -> Prop) (ts : list tree) (a : A) : Prop :=
  exists t, ts = [t] /\ v t a.
Definition maybe {A} (v : list tree -> A -> Prop) (ts : list tree) (o : option A) : Prop :=
  match o with Some a => v ts a | None => ts = [] end.

(** ** Notation *)

(** Spaces, line ends and comments. *)
Definition m_ws : peg unit :=
  pmap (fun _ => tt)
    (pstar (pmap (fun _ => tt) (pchar (fun c => (c =? 32)%N || (c =? 9)%N || (c =? 10)%N || (c =? 13)%N))
            <|> pmap (fun _ => tt) (ptok (L "//") ;;; pwhile (fun c => negb (c =? 10)%N)))).

Definition m_ident : peg string :=
  c <- pchar (fun c => is_alpha c || (c =? 95)%N) ;; r <- pwhile is_idchar ;;
  pret (fold_right (fun c s => String (ascii_of_N c) s) EmptyString (c :: r)).

(** One character of a quoted text. *)
Definition m_char : peg N :=
  (ptok [92%N] ;;; (pchar (fun c => (c =? 34)%N || (c =? 39)%N || (c =? 92)%N)
                   <|> pmap (fun _ => 10%N) (ptok (L "n"))
                   <|> pmap (fun _ => 13%N) (ptok (L "r"))
                   <|> pmap (fun _ => 9%N) (ptok (L "t"))))
  <|> pchar (fun c => negb ((c =? 34)%N || (c =? 92)%N)).
Definition m_quoted : peg (list N) :=
  ptok [34%N] ;;; l <- pstar m_char ;; ptok [34%N] ;;; pret l.

(** The rules that pest provides, and references to the others. *)
Definition named (n : string) : qexp :=
  if String.eqb n "ANY" then QAny
  else if String.eqb n "ASCII_DIGIT" then QClass [(48, 57)%N]
  else if String.eqb n "ASCII_ALPHA" then QClass [(97, 122)%N; (65, 90)%N]
  else if String.eqb n "ASCII_ALPHANUMERIC" then QClass [(97, 122)%N; (65, 90)%N; (48, 57)%N]
  else if String.eqb n "NEWLINE" then QAlt (QTok [10%N]) (QAlt (QTok [13; 10]%N) (QTok [13%N]))
  else if String.eqb n "SOI" then QSoi
  else if String.eqb n "EOI" then QEoi
  else QRef n.

Definition m_node (ex : peg qexp) : peg qexp :=
  (ptok (L "(") ;;; m_ws ;;; x <- ex ;; m_ws ;;; ptok (L ")") ;;; pret x)
  <|> pmap QTokCI (ptok (L "^") ;;; m_quoted)
  <|> pmap QTok m_quoted
  <|> pmap named m_ident.

(** [a?], [a*], [a+]; [!a]. *)
Definition m_post (ex : peg qexp) : peg qexp :=
  x <- m_node ex ;;
  l <- pstar (m_ws ;;; (pmap (fun _ => QOpt) (ptok (L "?"))
                        <|> pmap (fun _ => QStar) (ptok (L "*"))
                        <|> pmap (fun _ => QPlus) (ptok (L "+")))) ;;
  pret (fold_left (fun x f => f x) l x).
Definition m_pre (ex : peg qexp) : peg qexp :=
  l <- pstar (ptok (L "!") ;;; m_ws) ;; x <- m_post ex ;;
  pret (fold_right (fun _ x => QNot x) x l).

(** [a ~ b] binds closer than [a | b]. *)
Fixpoint fold_with (f : qexp -> qexp -> qexp) (l : list qexp) : qexp :=
  match l with
  | [] => QTok []
  | [x] => x
  | x :: r => f x (fold_with f r)
  end.
Definition m_seq (ex : peg qexp) : peg qexp :=
  pmap (fold_with QSeq) (psep1 (m_ws ;;; ptok (L "~") ;;; m_ws) (m_pre ex)).
Definition m_alt (ex : peg qexp) : peg qexp :=
  pmap (fold_with QAlt) (psep1 (m_ws ;;; ptok (L "|") ;;; m_ws) (m_seq ex)).
Definition m_exp : peg qexp := prun m_alt.

(** [name = { expression }], with a modifier before the brace. *)
Definition m_rule : peg qrule :=
  n <- m_ident ;; m_ws ;;; ptok (L "=") ;;; m_ws ;;;
  k <- (pmap (fun _ => QSilent) (ptok (L "_")) <|> pmap (fun _ => QAtomic) (ptok (L "@")) <|> pret QNormal) ;;
  m_ws ;;; ptok (L "{") ;;; m_ws ;;; x <- m_exp ;; m_ws ;;; ptok (L "}") ;;; pret (n, (k, x)).

Definition m_file : peg grammar :=
  m_ws ;;; l <- pstar (x <- m_rule ;; m_ws ;;; pret x) ;; peoi ;;; pret l.

(** A .pest file. *)
Definition read_pest (text : string) : option grammar :=
  match utf8_decode (L text) with
  | Some s => match m_file s with Some (G, _) => Some G | None => None end
  | None => None
  end.

(** Every rule is defined once and every rule that is named is defined. *)
Fixpoint refs (x : qexp) : list string :=
  match x with
  | QRef n => [n]
  | QSeq a b | QAlt a b => refs a ++ refs b
  | QOpt a | QStar a | QPlus a | QNot a => refs a
  | _ => []
  end.
Fixpoint distinct (l : list string) : bool :=
  match l with
  | [] => true
  | x :: r => negb (existsb (String.eqb x) r) && distinct r
  end.
Definition closed_grammar (G : grammar) : bool :=
  distinct (map fst G)
  && forallb (fun d => forallb (fun n => match lookup G n with Some _ => true | None => false end)
                               (refs (snd (snd d)))) G.
