(** * SpecShown: what is shown of the items of a stream, whatever their order.

    The contents and the errors of a stream are each shown by an element; this
    is the text of the elements from the end of their opening tags on. *)

From Coq Require Import Ascii String List NArith Bool.
From Verif Require Import Base Event Lex Mathml.
Import ListNotations.
Open Scope N_scope.
Open Scope list_scope.

(** The texts [xs] occur in [t], one after the other. *)
Inductive in_order : list str -> str -> Prop :=
| IO_nil : forall t, in_order [] t
| IO_cons : forall a x xs t, in_order xs t -> in_order (x :: xs) (a ++ x ++ t).

(** The contents and the errors, and whether the item before is a negation. *)
Definition visible (i : ritem) : bool := match i with RIEvent (EvContent _) | RIErr _ => true | _ => false end.
Definition negation_sign (i : ritem) : bool := match i with RIEvent (EvVisual VNegation) => true | _ => false end.
Fixpoint after (b : bool) (l : list ritem) : list (ritem * bool) :=
  match l with [] => [] | i :: l' => (i, b) :: after (negation_sign i) l' end.
Definition visibles (l : list ritem) : list (ritem * bool) := filter (fun p => visible (fst p)) (after false l).

(** The fonts of a stream. *)
Definition font_of (l : list ritem) (f : option font) : Prop :=
  match f with None => True | Some f => In (RIEvent (EvState (SCFont (Some f)))) l end.

(** A character in a font. The symbols of [FBoldSymbol] are those of two fonts. *)
Inductive char_in : option font -> char -> char -> Prop :=
| CI_plain : forall c, char_in None c c
| CI_upright : forall c, char_in (Some FUpRight) c c
| CI_bold : forall g c d, g = FBold \/ g = FBoldItalic -> map_char g c = Ok d -> char_in (Some FBoldSymbol) c d
| CI_font : forall f c d, map_char f c = Ok d -> char_in (Some f) c d.

Definition nbsp (b : bool) : str := if b then lit "&nbsp;" else [].
Definition space_first (s : str) : bool := match s with c :: _ => is_ws c | [] => false end.
Definition markup_free (c : char) : str := if c =? 38 then lit "&amp;" else if c =? 60 then lit "&lt;" else if c =? 62 then lit "&gt;" else [c].

(** A symbol is struck through by a combining character after it. *)
Definition symbols (s : str) (struck : bool) (tag : str) : str := [62] ++ s ++ (if struck then [824] else []) ++ lit "</" ++ tag ++ [62].

Inductive shown (l : list ritem) : ritem * bool -> str -> Prop :=
| SH_error : forall msg n h, ~ In 34 h ->
    shown l (RIErr msg, n) (lit "<merror style=""border-color: #" ++ h ++ lit """><mtext>" ++ msg ++ lit "</mtext></merror>")
| SH_text : forall s n f t, font_of l f -> Forall2 (char_in f) (trim s) t ->
    shown l (RIEvent (EvContent (CText s)), n) ([62] ++ nbsp (space_first s) ++ flat_map markup_free t ++ nbsp (space_first (rev s)) ++ lit "</mtext>")
| SH_number : forall s n f t, font_of l f -> Forall2 (char_in f) s t ->
    shown l (RIEvent (EvContent (CNumber s)), n) (symbols t false (lit "mn"))
| SH_function : forall s n, shown l (RIEvent (EvContent (CFunction s)), n) (symbols s false (lit "mi"))
| SH_stretchy : forall c n, shown l (RIEvent (EvContent (COrdinary c true)), n) (symbols [c] false (lit "mo"))
| SH_ordinary : forall c n f d, font_of l f -> char_in f c d -> shown l (RIEvent (EvContent (COrdinary c false)), n) (symbols [d] n (lit "mi"))
| SH_binary : forall c s n tag, tag = lit "mo" \/ tag = lit "mi" -> shown l (RIEvent (EvContent (CBinaryOp c s)), n) (symbols [c] n tag)
| SH_relation : forall c s n, shown l (RIEvent (EvContent (CRelation c None s)), n) (symbols [c] n (lit "mo"))
| SH_relation2 : forall c d s n, shown l (RIEvent (EvContent (CRelation c (Some d) s)), n) (symbols [c; d] n (lit "mo"))
| SH_large : forall c s n, shown l (RIEvent (EvContent (CLargeOp c s)), n) (symbols [c] n (lit "mo"))
| SH_delimiter : forall c z ty n, shown l (RIEvent (EvContent (CDelimiter c z ty)), n) (symbols [c] n (lit "mo"))
| SH_punctuation : forall c n, shown l (RIEvent (EvContent (CPunctuation c)), n) (symbols [c] n (lit "mo")).
