(** * SpecMessage: the characters that the messages of errors add to what they quote. *)

From Coq Require Import List NArith Bool.
From Verif Require Import Base.
Import ListNotations.
Open Scope N_scope.

(** Printable ASCII without the three characters that open or close markup, the
    newline, the horizontal ellipsis and the lines of the frame. *)
Definition own_char (c : char) : bool :=
  (32 <=? c) && (c <? 127) && negb (existsb (N.eqb c) [60; 62; 38])
  || existsb (N.eqb c) [10; 8230; 9472; 9474; 9500; 9581; 9584; 9658].
