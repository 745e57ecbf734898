(** * PropShown: nothing is lost on the way from the text to the markup. *)

From Coq Require Import Ascii String List NArith ZArith Bool.
From Verif Require Import Base Float32 Event Tables Prim PrimTable Lex Macros Primitives Spans Parser Mathml PrimFacts Api SpecLex SpecEvent
  SpecShown ShownFacts ShownText Whole XmlFacts SpecClean NoPanic WholeFacts CheckInput SpecFormula FormulaProps FormulaHole SpecFault FormulaFirst SpecBeyond FormulaCore.
Import ListNotations.
Open Scope N_scope.
Open Scope list_scope.

#[local] Existing Instance nothing_known.

(** C78: on every stream, well formed or not, whatever is written, every content
    and every error of the stream is shown in it, in the order of the stream: an
    error by its whole message, a content by its characters in a font of the
    stream, struck through exactly after a negation. *)
Theorem C78_stream : forall cfg string items out, push_mathml cfg string items = Ok out ->
  exists d xs, out = string ++ d /\ in_order xs d /\ Forall2 (shown items) (visibles items) xs.
Proof. exact all_shown. Qed.
Print Assumptions C78_stream.

(** An ill-formed stream. *)
Definition case78 : list ritem :=
  [RIEvent (EvVisual VNegation); RIEvent (EvContent (CRelation 61 None false)); RIEvent EvEnd; RIErr (lit "first"); RIEvent (EvVisual (VFraction None));
   RIEvent (EvState (SCFont (Some FBold))); RIEvent (EvContent (COrdinary 97 false)); RIEvent (EvFlow EFAlignment); RIErr (lit "second"); RIEvent (EvContent (CText (lit " a<b")))].
Example C78_stream_case : exists out, push_mathml default_config [] case78 = Ok out /\ visibles case78 =
  [(RIEvent (EvContent (CRelation 61 None false)), true); (RIErr (lit "first"), false); (RIEvent (EvContent (COrdinary 97 false)), false);
   (RIErr (lit "second"), false); (RIEvent (EvContent (CText (lit " a<b"))), false)].
Proof. eexists. split; vm_compute; reflexivity. Qed.

(** C78 from the text: every error of the text is in the output, with its message. *)
Theorem C78_errors : forall cfg input l pe out, parses input l -> In (ItError pe) l -> converts cfg input out ->
  contains (lit "<mtext>" ++ error_display pe ++ lit "</mtext></merror>") out.
Proof. exact converts_error. Qed.
Print Assumptions C78_errors.

(** C78: of every text without arrays on which the parser does not panic and where
    nothing doubtful occurs (C76), there is an output. Either the text is a formula, and the contents
    of its meaning are shown in order; or it comes to a mistake, and the contents
    before the mistake are shown, and then the mistake. *)
Theorem C78_plain : forall cfg t, valid_str t -> calm t -> no_array_names t -> plain t ->
  exists out, converts cfg t out /\
    ((exists es xs, formula None t es /\ in_order xs out /\ Forall2 (shown (map RIEvent es)) (visibles (map RIEvent es)) xs) \/
     (exists al g pre e pe, SpecBeyond.part g t /\ comes_to t al g pre /\ @fault anything al g e /\ pe_kind pe = e /\
        exists items xs a h b, out = a ++ (lit "<merror style=""border-color: #" ++ h ++ lit """><mtext>" ++ error_display pe ++ lit "</mtext></merror>") ++ b /\
          ~ In 34 h /\ in_order xs a /\ Forall2 (shown (map RIEvent pre ++ items)) (visibles (map RIEvent pre)) xs)).
Proof. exact plain_shown. Qed.
Print Assumptions C78_plain.

Example C78_plain_case : let t := lit "\frac{a_1}{\mathbf{v}} \neq \sqrt{b # c}^2 \foo \left( \text{if } \right]" in
  valid_str t /\ calm t /\ no_array_names t /\ plain t.
Proof.
  split; [apply valid_b_ok; vm_compute; reflexivity|]. split; [apply calm_b_ok; vm_compute; reflexivity|].
  split; [repeat split; apply contains_b_not; vm_compute; reflexivity|apply plain_dec; vm_compute; reflexivity].
Qed.
