(** * SpecInput: inputs on which the documented event grammar is kept.

    The parser leaves the grammar on a few constructions. They are described
    here as pieces of text; the rest of the development shows that they are
    the only ones. *)

From Coq Require Import Ascii String List NArith Bool.
From Verif Require Import Base SpecLex PrimFacts.
Import ListNotations.
Open Scope N_scope.

Definition spaces (w : str) : Prop := Forall (fun c => is_ws c = true) w.

(** Commands that emit nothing, or more than one element, or that read text
    twice. *)
Definition irregular_commands : list str :=
  [lit "\def"; lit "\let"; lit "\futurelet"; lit "\newcommand"; lit "\renewcommand"; lit "\providecommand";
   lit "\relax"; lit "\pmod"; lit "\buildrel"].

(** Commands that set the font of their argument. *)
Definition font_commands : list str :=
  map (fun s => (92 :: s)%list)
  [lit "mathbf"; lit "symbf"; lit "mathbfup"; lit "symbfup"; lit "boldsymbol"; lit "mathcal"; lit "symcal";
   lit "mathit"; lit "symit"; lit "mathrm"; lit "symrm"; lit "mathup"; lit "symup"; lit "mathsf"; lit "symsf";
   lit "mathsfup"; lit "symsfup"; lit "mathtt"; lit "symtt"; lit "mathbb"; lit "symbb"; lit "mathbbit";
   lit "symbbit"; lit "mathfrak"; lit "symfrak"; lit "mathbfcal"; lit "symbfcal"; lit "mathsfit"; lit "symsfit";
   lit "mathbfit"; lit "symbfit"; lit "mathbffrak"; lit "symbffrak"; lit "mathbfsfup"; lit "symbfsfup";
   lit "mathbfsfit"; lit "symbfsfit"; lit "mathnormal"; lit "symnormal"].

Definition line_breaks : list str := [lit "\\"; lit "\cr"].

(** Everything that separates cells or rows. *)
Definition separators : list str := lit "&" :: line_breaks.

(** An index of a root that is one element. *)
Definition one_symbol (i : str) : Prop :=
  (exists c, i = [c] /\ is_alpha c = true) \/ (i <> [] /\ Forall (fun c => is_digit c = true) i).

(** Horizontal lines. *)
Inductive rules : str -> Prop :=
| rules_nil : rules []
| rules_line : forall w l h, spaces w -> In l [lit "\hline"; lit "\hdashline"] -> rules h -> rules (w ++ l ++ h).

(** What may follow a line break and belongs to it. *)
Inductive spacing : str -> Prop :=
| sp_none : spacing []
| sp_open : forall w, spaces w -> spacing (w ++ [91])
| sp_some : forall w a, spaces w -> balanced 91 93 a -> spacing (w ++ 91 :: a ++ [93]).

(** Text that starts with a construction that leaves the grammar. *)
Inductive irregular : str -> Prop :=
| irr_command : forall c r, In c irregular_commands -> irregular (c ++ r)
| irr_root : forall w i r, spaces w -> balanced 91 93 i -> ~ one_symbol i ->
    irregular (lit "\sqrt" ++ w ++ 91 :: i ++ 93 :: r)
| irr_font : forall c w b m r, In c font_commands -> spaces w -> blank b -> In m separators ->
    irregular (c ++ w ++ b ++ m ++ r)
| irr_mark_script : forall w x r, spaces w -> In x [94; 95] -> irregular (38 :: w ++ x :: r)
| irr_line_script : forall m w o h w' x r, In m line_breaks -> spaces w -> spacing o -> rules h -> spaces w' ->
    In x [94; 95] -> irregular (m ++ w ++ o ++ h ++ w' ++ x :: r).

(** No piece of the input is irregular. *)
Definition regular (input : str) : Prop := forall t, contains t input -> ~ irregular t.
