(** * SpecCall: what a text with macros means.

    A use of a macro stands for its expansion and the text that follows it, up
    to the end of the group it is in; the rest is as in SpecFormula. *)

From Coq Require Import List NArith Bool.
From Verif Require Import Base Event SpecLex SpecNum SpecFormula SpecFault SpecMacro Preamble.
Import ListNotations.
Open Scope N_scope.
Open Scope list_scope.

(** The macros have names that mean nothing else. *)
Definition new_names (e : env) : Prop := forall n, find n e <> None -> ~ supported n.

(** [calls e k]: the texts that start with the use of a macro of [e], where no
    more than [k] uses follow each other or are inside each other. *)
Fixpoint calls (e : env) (k : nat) : Known := fun al s es =>
  match k with
  | O => False
  | S k => exists b use n m s2 out r, s = b ++ 92 :: use /\ blank b /\ named use n s2 /\ find n e = Some m /\
      expands m s2 out r /\ @formula (calls e k) al (out ++ r) es
  end.

(** [text_with_macros k d es]: the text [d], definitions followed by a formula where [k]
    uses of the macros follow each other at most, has the meaning [es]. *)
Definition text_with_macros (k : nat) (d : str) (es : list event) : Prop :=
  exists e t, preamble [] e d t /\ new_names e /\ @formula (calls e k) None t es.
