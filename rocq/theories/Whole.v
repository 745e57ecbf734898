(** * Whole: parsing followed by rendering, as a user sees it. *)

From Coq Require Import List NArith ZArith Bool.
From Verif Require Import Base Float32 Event Tables Prim PrimTable Lex Macros Primitives Spans Parser Mathml Api.
Import ListNotations.
Open Scope N_scope.

(** The items of the parser as the renderer takes them: an error is only printed. *)
Definition to_ritem (i : item) : ritem :=
  match i with
  | ItEvent e => RIEvent e
  | ItError e => RIErr (error_display e)
  end.

(** [push_mathml(&mut String::new(), Parser::new(input, &Storage::new()), cfg)] returns [out]. *)
Definition converts (cfg : render_config) (input out : str) : Prop :=
  exists l, parses input l /\ push_mathml cfg [] (map to_ritem l) = Ok out.

(** It panics in the renderer. *)
Definition render_panics (cfg : render_config) (input : str) (x : panic) : Prop :=
  exists l, parses input l /\ push_mathml cfg [] (map to_ritem l) = Panic x.
