(** Specification of what formatting may do: error placeholders and crashes. *)
From Coq Require Import String List NArith ZArith Bool.
From Verif Require Import Base Out Literals ExtArgs Registry SpecRegistry.
Import ListNotations.

(** The messages of the errors reported. *)
Definition messages (o : out) : list string := map ferr_message (o_errs o).

(** The two crashes formatting may run into: a date whose day number is outside
    the calendar, and a panic inside the code of an extension handler. *)
Definition date_crash : string := "NaiveDate + TimeDelta overflowed".
(** A number of days since 1970-01-01 before -262143-01-01 or after 262142-12-31. *)
Definition no_date (days : Z) : Prop := (days < -96465292 \/ 95026236 < days)%Z.
Definition handler_crash {F : Floats} (r : registry) (p : string) : Prop :=
  exists t name h d ctx, hget (t, name) (rg_handlers r) = Some h /\ arguments_of h d ctx = Panic p.
