(** Specification vocabulary for expressions. *)
From Coq Require Import String List NArith ZArith Bool.
From Verif Require Import Base Names SpecNames SimpleExt SpecExt Out Types SpecTypes Calendar Literals SpecLiterals Exprs.
Import ListNotations.

(** A declared function that the text format can name. *)
Definition function_ok (e : exts) (r : N) : bool :=
  match decl_get e KFunction r with
  | Some (_, n) => fn_name_ok n && (Z.of_N r <=? u32_max)%Z
  | None => false
  end.

(** The expressions the text format can carry: literals as in [literal_ok];
    references to a column by number; calls of declared functions with value
    arguments, an output type and no options; casts with a known failure
    behaviour; conditionals with at least one condition. *)
Section Ok.
  Context `{U : Unicode} `{F : Floats}.
  Fixpoint expr_ok (e : exts) (x : pexpr) : bool :=
    match x with
    | ELit l => literal_ok e l
    | ESel (mk_fieldref (RefDirect (SegField i None)) RootRef) => in_range i32_min i32_max i
    | EFunc r args [] (Some t) =>
        function_ok e r && type_ok e t
        && forallb (fun a => match a with AValue y => expr_ok e y | _ => false end) args
    | ECast b (Some y) (Some t) => in_range 0 2 b && expr_ok e y && type_ok e t
    | EIf (c :: cs) (Some y) =>
        forallb (fun c => match fst c, snd c with
                          | Some a, Some b => expr_ok e a && expr_ok e b
                          | _, _ => false
                          end) (c :: cs)
        && expr_ok e y
    | _ => false
    end.

  (** Aggregate functions: a call, with the default invocation and phase. *)
  Definition aggfn_ok (e : exts) (a : aggfn) : bool :=
    match af_opts a, af_out a with
    | [], Some t =>
        function_ok e (af_ref a) && type_ok e t
        && forallb (fun a => match a with AValue y => expr_ok e y | _ => false end) (af_args a)
        && (af_invocation a =? 0)%Z && (af_phase a =? 0)%Z
    | _, _ => false
    end.
End Ok.

(** An interval within ten thousand years whose sub-seconds are less than a second. *)
Definition interval_usual (i : interval) : bool :=
  match iv_mode i with
  | Some (IvPrecision p) =>
      in_range (-3650000) 3650000 (iv_days i)
      && in_range (-315360000000) 315360000000 (iv_days i * 86400 + iv_secs i)
      && (Z.abs (iv_sub i) <? 10 ^ p)%Z
  | _ => false
  end.

(** Expressions of which nothing is reported: every type states its nullability
    and every interval is usual. *)
Definition literal_clean (l : literal) : bool :=
  match l_type l with
  | Some (LNull t) => nulls_given t
  | Some (LInterval i) => interval_usual i
  | _ => true
  end.
Definition opt_types (t : option ptype) : bool := match t with Some t => nulls_given t | None => true end.
Fixpoint expr_clean (x : pexpr) : bool :=
  match x with
  | ELit l => literal_clean l
  | EFunc _ args _ t => opt_types t && forallb (fun a => match a with AValue y => expr_clean y | _ => true end) args
  | ECast _ y t => opt_types t && match y with Some y => expr_clean y | None => true end
  | EIf cs y =>
      forallb (fun c : option pexpr * option pexpr =>
                 match fst c with Some a => expr_clean a | None => true end
                 && match snd c with Some b => expr_clean b | None => true end) cs
      && match y with Some y => expr_clean y | None => true end
  | _ => true
  end.
Definition aggfn_clean (a : aggfn) : bool :=
  opt_types (af_out a) && forallb (fun a => match a with AValue y => expr_clean y | _ => true end) (af_args a).

(** Every literal inside an expression has a type the reader knows; always so
    unless literal types are switched off. *)
Definition types_written (op : options) : Prop := op_literal_types op <> VNever.

(** Text that cannot be taken as the argument list of a call: after characters
    that may stand in a function reference there is no parenthesis. *)
Definition fr_char (c : N) : bool :=
  is_idchar c || (c =? 58)%N || (c =? 33)%N || (c =? 32)%N || (c =? 35)%N || (c =? 64)%N || (c =? 45)%N.
Definition no_call (rest : list N) : bool := hd_not (fun c => (c =? 40)%N) (snd (span fr_char rest)).

(** What may follow an expression. *)
Definition expr_follow (rest : list N) : bool := hd_not lit_stop rest && no_call rest.
