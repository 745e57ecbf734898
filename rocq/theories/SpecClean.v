(** * SpecClean: inputs whose events need no escaping.

    The renderer escapes only running text. The commands and characters whose
    content it should have escaped are listed here. *)

From Coq Require Import Ascii String List NArith Bool.
From Verif Require Import Base PrimFacts.
Import ListNotations.
Open Scope N_scope.

(** Commands that stand for [<] or [&], that may do, or that give a space without a width. *)
Definition unescaped_commands : list str :=
  [lit "\lt"; lit "\&"; lit "\And"; lit "\with"; lit "\char"; lit "\strut"; lit "\mathstrut"].

(** Commands whose argument is written as it stands. *)
Definition raw_commands : list str :=
  [lit "\operatorname"; lit "\mathord"; lit "\mathop"; lit "\mathbin"; lit "\mathrel"; lit "\mathopen"; lit "\mathclose";
   lit "\mathpunct"; lit "\mathinner"].

(** Commands whose output only readers of HTML accept: enlarged delimiters, and
    text, where [&nbsp;] may stand. *)
Definition html_commands : list str :=
  [lit "\big"; lit "\Big"; lit "\middle"; lit "\text"; lit "\colorbox"; lit "\fcolorbox"].

Definition has_none (l : list str) (s : str) : Prop := forall c, In c l -> ~ contains c s.

(** [xml]: also for readers of XML. *)
Definition clean_input (xml : bool) (s : str) : Prop :=
  ~ In 60 s /\ has_none unescaped_commands s /\ (In 38 s -> has_none raw_commands s) /\ (xml = true -> has_none html_commands s).

(** The text has none of the names of environments with a column specification
    or a count. *)
Definition no_array_names (s : str) : Prop := ~ contains (lit "array") s /\ ~ contains (lit "alignat") s /\ ~ contains (lit "alignedat") s.
