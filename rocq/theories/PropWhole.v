(** * PropWhole: properties of the whole conversion, from text to markup. *)

From Coq Require Import Ascii String List NArith ZArith Bool.
From Verif Require Import Base Float32 Event Tables Prim PrimTable Lex Macros Primitives Spans Parser Mathml
  PrimFacts Order Api SpecEvent SpecStream SpecInput CheckInput SpecClean SpecXml XmlFacts ShapeStrict NoPanic
  RenderTree RenderDoc RenderProps SpecDraw RenderDraw DrawTrees RenderDrawn Whole FineInput WholeFacts ErrMarkup SpecMessage OverRun SpecFormula FormulaDerive FormulaCompose FormulaProps.
Import ListNotations.
Open Scope N_scope.
#[local] Existing Instance parsed.

(** ** C39: the conversion does not panic *)

(** C39 for texts without arrays, [alignat] and [alignedat], be they ill-formed
    or not: whatever the configuration, there is an output. The texts are those
    of C14 on which the parser does not panic. *)
Theorem C39_text_partial : forall cfg input, valid_str input -> calm input -> no_array_names input ->
  exists out, converts cfg input out.
Proof. exact calm_converts. Qed.
Print Assumptions C39_text_partial.

Example C39_text_case : valid_str (lit "\frac{a}{b^2}}} \left( \begin{matrix} 1&2\\3 \end{x} \text{" ++ [233; 8721] ++ lit "}^a^b \unknown \color{red} 12 < \&") /\
  calm (lit "\frac{a}{b^2}}} \left( \begin{matrix} 1&2\\3 \end{x} \text{" ++ [233; 8721] ++ lit "}^a^b \unknown \color{red} 12 < \&") /\
  no_array_names (lit "\frac{a}{b^2}}} \left( \begin{matrix} 1&2\\3 \end{x} \text{" ++ [233; 8721] ++ lit "}^a^b \unknown \color{red} 12 < \&").
Proof.
  split; [apply valid_b_ok; vm_compute; reflexivity|]. split; [apply calm_b_ok; vm_compute; reflexivity|].
  repeat split; apply contains_b_not; vm_compute; reflexivity.
Qed.

(** C39 with arrays, for regular texts (see C09) that parse without an error. *)
Theorem C39_regular_partial : forall cfg input l, valid_str input -> regular input -> parses input l -> error_free l ->
  exists out, converts cfg input out.
Proof. exact regular_converts. Qed.
Print Assumptions C39_regular_partial.

Definition sample_array : str := lit "\begin{array}{|l:r|}\hline a & \begin{alignedat}{1}x&<2\end{alignedat} \\ \text{a b} \end{array}_1".
Example C39_regular_case : valid_str sample_array /\ regular sample_array /\ exists l, parses sample_array l /\ error_free l.
Proof.
  split; [apply valid_b_ok; vm_compute; reflexivity|]. split; [apply regular_test; vm_compute; reflexivity|].
  eexists. split; [exists 60%nat; eexists; vm_compute; reflexivity|vm_compute; reflexivity].
Qed.

(** ** C40, C43: the output is markup *)

(** C40 and C43 for regular texts that parse without an error and have neither a
    less-than sign nor one of the few commands listed in [SpecClean]: the output is
    markup for a reader of HTML ([xml = false]), or of XML ([xml = true]). *)
Theorem C40_input_partial : forall xml cfg input l, valid_str input -> regular input -> clean_input xml input ->
  note_clean (Some xml) cfg = true -> parses input l -> error_free l ->
  exists out, converts cfg input out /\ document (mkOpts xml false) out.
Proof. exact clean_converts. Qed.
Print Assumptions C40_input_partial.

(** C58 likewise. *)
Theorem C58_input_partial : forall xml cfg input l, valid_str input -> regular input -> clean_input xml input ->
  note_clean (Some xml) cfg = true -> parses input l -> error_free l -> steady start_frames (Api.events l) = true ->
  exists out, converts cfg input out /\ document (mkOpts xml true) out.
Proof. exact clean_converts_strict. Qed.
Print Assumptions C58_input_partial.

Definition sample_clean : str :=
  lit "\begin{array}{|l:r|}\hline \sqrt[3]{x}^2 & \mathbf{a} \le \frac12 \\ \left( \sum_{i=1}^n \sin i \right] \end{array}".
Example C40_input_case : valid_str sample_clean /\ regular sample_clean /\ clean_input true sample_clean /\
  exists l, parses sample_clean l /\ error_free l /\ steady start_frames (Api.events l) = true.
Proof.
  split; [apply valid_b_ok; vm_compute; reflexivity|]. split; [apply regular_test; vm_compute; reflexivity|].
  split; [apply clean_b_ok; vm_compute; reflexivity|].
  eexists. split; [exists 60%nat; eexists; vm_compute; reflexivity|split; vm_compute; reflexivity].
Qed.

Definition sample_html : str := lit "\text{a or b}^2 \operatorname{rank} \big( A \big) > 2".
Example C40_html_case : valid_str sample_html /\ regular sample_html /\ clean_input false sample_html.
Proof.
  split; [apply valid_b_ok; vm_compute; reflexivity|]. split; [apply regular_test; vm_compute; reflexivity|].
  apply clean_b_ok; vm_compute; reflexivity.
Qed.

(** ** C66: from the text to the markup *)

(** C66: the markup of a regular text that parses without an error is the drawing
    of the trees of its events. *)
Theorem C66_conversion : forall cfg input l, valid_str input -> regular input -> parses input l -> error_free l ->
  exists ts, all_events ts = Api.events l /\ forallb proper ts = true /\ forall out, converts cfg input out <->
    out = print (document_of (block_of cfg) (c_xml cfg) (c_annotation cfg)
      (xmls (draw_all (draw (block_of cfg) (upright_of cfg) glyph_of) in_body 0 ts plain_look None None))).
Proof. exact conversion_drawn. Qed.
Print Assumptions C66_conversion.

(** In particular for each text that has a meaning (C60): the markup is the
    drawing of the meaning. *)
Theorem C66_meaning : forall cfg input es, valid_str input -> regular input -> SpecFormula.formula None input es ->
  exists ts, all_events ts = es /\ forallb proper ts = true /\ forall out, converts cfg input out <->
    out = print (document_of (block_of cfg) (c_xml cfg) (c_annotation cfg)
      (xmls (draw_all (draw (block_of cfg) (upright_of cfg) glyph_of) in_body 0 ts plain_look None None))).
Proof. exact meaning_drawn. Qed.
Print Assumptions C66_meaning.

Example C66_case : let s := lit "\frac{a_1}{\sqrt[3] x}^2 + \left( i \right]% c" in valid_str s /\ regular s /\ SpecFormula.formula None s
  ([EvScript STSup SPRight; EvVisual (VFraction None); EvBegin GNormal; EvScript STSub SPRight; EvContent (COrdinary 97 false);
    EvContent (CNumber (lit "1")); EvEnd; EvBegin GNormal; EvVisual VRoot; EvContent (COrdinary 120 false); EvContent (CNumber (lit "3")); EvEnd;
    EvContent (CNumber (lit "2")); EvContent (CBinaryOp 43 false);
    EvBegin (GLeftRight (Some 40) (Some 93)); EvContent (COrdinary 105 false); EvEnd]).
Proof.
  split; [apply valid_b_ok; vm_compute; reflexivity|]. split; [apply regular_test; vm_compute; reflexivity|]. derive.
Qed.
Example C66_output : converts default_config (lit "\frac{a_1}{\sqrt[3] x}^2 + \left( i \right]% c")
  (lit "<math display=""inline""><msup><mfrac><mrow><msub><mi>a</mi><mn>1</mn></msub></mrow><mrow><mroot><mi>x</mi><mn>3</mn></mroot></mrow></mfrac><mn>2</mn></msup><mo>+</mo><mrow><mo stretchy=""true"">(</mo><mi>i</mi><mo stretchy=""true"">]</mo></mrow></math>").
Proof. eexists. split; [exists 60%nat; eexists; vm_compute; reflexivity|vm_compute; reflexivity]. Qed.

(** ** C41: errors in the stream *)

(** C41 for all streams that are well formed when each error counts as one
    element: the output is markup, with the right numbers of children if [steady]. *)
Theorem C41_errors_partial : forall xml cfg items, well_formed (map as_event items) -> Forall (fine (Some xml)) (map as_event items) ->
  note_clean (Some xml) cfg = true ->
  exists out, push_mathml cfg [] items = Ok out /\ document (mkOpts xml false) out.
Proof. exact push_items_document. Qed.
Print Assumptions C41_errors_partial.

Theorem C41_children_partial : forall xml cfg items, well_formed (map as_event items) -> Forall (fine (Some xml)) (map as_event items) ->
  note_clean (Some xml) cfg = true -> steady start_frames (map as_event items) = true ->
  exists out, push_mathml cfg [] items = Ok out /\ document (mkOpts xml true) out.
Proof. exact push_items_strict. Qed.
Print Assumptions C41_children_partial.

Definition sample_errors : list ritem :=
  [RIEvent (EvBegin (GMatrix CACenter)); RIErr (lit "first"); RIEvent (EvFlow EFAlignment); RIEvent (EvVisual (VFraction None)); RIErr (lit "second");
   RIEvent (EvContent (COrdinary 97 false)); RIEvent EvEnd; RIErr (lit "third")].
Example C41_errors_case : well_formed (map as_event sample_errors) /\ Forall (fine (Some true)) (map as_event sample_errors) /\
  steady start_frames (map as_event sample_errors) = true.
Proof. split; [apply well_formed_test; vm_compute; reflexivity|]. split; [apply fine_test; vm_compute; reflexivity|vm_compute; reflexivity]. Qed.

(** The text of an error brings no markup of its own, whatever the text defines
    and expands: its characters are those of the text and [own_char]. *)
Theorem C41_message_chars : forall input l pe c, yields input l -> In (ItError pe) l -> In c (error_display pe) ->
  In c input \/ own_char c = true.
Proof. exact message_chars. Qed.
Print Assumptions C41_message_chars.

Theorem C41_message : forall input l pe, no_markup input -> yields input l -> In (ItError pe) l -> no_markup (error_display pe).
Proof. exact errors_clean. Qed.
Print Assumptions C41_message.

(** An error in an expansion inside an expansion quotes both. *)
Example C41_message_case : exists l pe, yields (lit "\def\a#1{\b{#1}}\def\b#1{y$#1}\a z") l /\ In (ItError pe) l /\ no_markup (lit "\def\a#1{\b{#1}}\def\b#1{y$#1}\a z") /\
  In 123 (pe_context pe).
Proof. eexists. eexists. split; [exists 40%nat; vm_compute; reflexivity|]. split; [cbn; tauto|]. split; [split; vm_compute; intuition discriminate|]. vm_compute. tauto. Qed.

(** C41 from the text. *)
Theorem C41_input_partial : forall xml cfg input l, valid_str input -> defines_nothing input -> clean_input xml input -> ~ In 38 input ->
  note_clean (Some xml) cfg = true -> parses input l -> well_formed (with_errors l) ->
  exists out, converts cfg input out /\ document (mkOpts xml false) out.
Proof. exact errors_convert. Qed.
Print Assumptions C41_input_partial.

Definition sample_faults : str := lit "a + \foo \sqrt{b # c}^2 \left( $ \right) \frac{1}{}}{x_1_2}".
Example C41_input_case : valid_str sample_faults /\ defines_nothing sample_faults /\ clean_input true sample_faults /\ ~ In 38 sample_faults /\
  exists l, parses sample_faults l /\ well_formed (with_errors l) /\ exists pe, In (ItError pe) l.
Proof.
  split; [apply valid_b_ok; vm_compute; reflexivity|]. split; [apply regular_defines_nothing; apply regular_test; vm_compute; reflexivity|].
  split; [apply clean_b_ok; vm_compute; reflexivity|]. split; [vm_compute; intuition discriminate|].
  eexists. split; [exists 90%nat; eexists; vm_compute; reflexivity|]. split; [apply well_formed_test; vm_compute; reflexivity|].
  eexists. cbn. eauto 20.
Qed.
