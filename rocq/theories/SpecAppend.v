(** * SpecAppend: texts that do not touch what is before them. *)

From Coq Require Import Ascii String List NArith Bool.
From Verif Require Import Base Event Prim PrimTable Lex SpecLex SpecNum SpecFormula.
Import ListNotations.
Open Scope N_scope.
Open Scope list_scope.

(** A character that could go on with what is before it: a letter with the name of
    a command, with a unit or with a word such as [plus], a digit, a dot or a comma
    with a number, a script sign with a base, white space with a command or a length. *)
Definition goes_with (c : char) : Prop :=
  letter c \/ numeric c \/ is_ws c = true \/ c = 94 \/ c = 95.

(** A text that cannot go on with what is before it. *)
Definition stands_off (q : str) : Prop :=
  not_next goes_with q /\ forall r, q <> lit "\limits" ++ r /\ q <> lit "\nolimits" ++ r.

(** There is no percent sign on the last line. *)
Definition no_comment_left (s : str) : Prop := forall a t, s = a ++ 37 :: t -> In 10 t.

(** A text that cannot go on with what is before it and a space: after the space,
    letters and digits do not. The words [plus] and [minus] go on with a length. *)
Definition stands_off_spaced (q : str) : Prop :=
  not_next (fun c => is_ws c = true \/ c = 94 \/ c = 95 \/ c = 46 \/ c = 44) q /\
  (forall r, q <> lit "\limits" ++ r /\ q <> lit "\nolimits" ++ r) /\ no_stretch q.
