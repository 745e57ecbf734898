(** * PropRender: properties of the MathML renderer. *)

From Coq Require Import Ascii String List NArith ZArith Bool Lia.
From Verif Require Append.
From Verif Require Import Base Float32 Event Tables Prim FontTable Spans PrimFacts Parser Mathml Api Whole SpecEvent SpecStream SpecXml SpecFont
  XmlFacts RenderFacts RenderTree RenderDoc RenderPanic RenderMore RenderProps.
Import ListNotations.
Open Scope N_scope.

(** ** Panics *)

(** C38: on every stream of events of the documented shape, with arrays that
    have a column and values in the range of their types, rendering returns. *)
Theorem C38_no_panic : forall cfg string es, well_formed es -> Forall (fine None) es ->
  exists out, push_mathml cfg string (map RIEvent es) = Ok (string ++ out)%list.
Proof. exact push_total. Qed.
Print Assumptions C38_no_panic.

(** A case: an array inside a script inside a fraction. *)
Definition sample : list event :=
  [EvVisual (VFraction None); EvBegin GNormal; EvScript STSubSup SPRight;
   EvBegin (GArray [ACSep LSolid; ACColumn CALeft; ACColumn CARight]); EvFlow (EFStartLines [LSolid]);
   EvContent (CText (lit "a<b")); EvFlow EFAlignment; EvContent (CNumber (lit "12"));
   EvFlow (EFNewLine None [LDashed]); EvState (SCFont (Some FFraktur)); EvContent (COrdinary 97 false); EvEnd;
   EvContent (CFunction (lit "sin")); EvContent (CRelation 60 None false); EvEnd;
   EvContent (CDelimiter 40 (Some DBig) DOpen)].
Example sample_well_formed : well_formed sample.
Proof. apply well_formed_test. vm_compute. reflexivity. Qed.
Example sample_fine : Forall (fine None) sample.
Proof. apply fine_test. vm_compute. reflexivity. Qed.

(** C39 fails: the parser accepts these texts and the renderer panics on the
    streams it yields, because it indexes past the columns of the array. *)
Theorem C39_no_panic_refuted : exists input x, render_panics default_config input x.
Proof.
  exists (lit "\begin{array}{cc}a&b\\^2c&d\end{array}"). eexists. eexists. split.
  - exists 60%nat. eexists. vm_compute. reflexivity.
  - vm_compute. reflexivity.
Qed.
Print Assumptions C39_no_panic_refuted.

Example C39_font : exists x, render_panics default_config (lit "\begin{array}{cc}a&b\mathbf\\c&d\end{array}") x.
Proof.
  eexists. eexists. split.
  - exists 60%nat. eexists. vm_compute. reflexivity.
  - vm_compute. reflexivity.
Qed.

(** C39 for every list of items, errors included and whatever the nesting, without
    arrays and with at most 32766 pairs of columns: rendering returns. *)
Theorem C39_items_partial : forall cfg string items, Forall safe_item items ->
  exists out, push_mathml cfg string items = Ok (string ++ out)%list.
Proof. exact push_safe. Qed.
Print Assumptions C39_items_partial.

(** A case that no parser yields: everything is closed too often. *)
Example C39_items_case : Forall safe_item [RIEvent EvEnd; RIErr (lit "x"); RIEvent (EvFlow EFAlignment); RIEvent (EvVisual VRoot); RIEvent EvEnd; RIEvent (EvBegin (GAlignat 3 true))].
Proof. repeat constructor; cbn; try lia. Qed.

(** ** Markup *)

(** C40 fails: a space without a width is written without the name of its element. *)
Theorem C40_markup_refuted : exists es out, well_formed es
  /\ push_mathml default_config [] (map RIEvent es) = Ok out
  /\ ~ document (mkOpts false false) out.
Proof.
  exists [EvSpace None (Some (mkDim (f32_lit 1 0) UEm)) None]. eexists. split; [apply well_formed_test; vm_compute; reflexivity|].
  split; [vm_compute; reflexivity|]. intro H. apply documentb_spec in H. vm_compute in H. discriminate.
Qed.
Print Assumptions C40_markup_refuted.

(** It happens on an input: *)
Example C40_strut : exists out, converts default_config (lit "a\mathstrut b") out /\ documentb (mkOpts false false) out = false.
Proof.
  eexists. split.
  - eexists. split; [exists 30%nat; eexists; vm_compute; reflexivity|vm_compute; reflexivity].
  - vm_compute. reflexivity.
Qed.

(** C40 for streams whose spaces have a width, as read by a reader of HTML
    ([st = false]), or by a reader of XML ([st = true]), which does not know
    [&nbsp;] and requires a space between attributes: the output is one element
    [math] with the configured attributes, its elements nest, tables contain rows
    and rows contain cells, and text stands in token elements only. *)
Theorem C40_markup_partial : forall st cfg es, well_formed es -> Forall (fine (Some st)) es ->
  note_clean (Some st) cfg = true ->
  exists out, push_mathml cfg [] (map RIEvent es) = Ok out /\ document (mkOpts st false) out.
Proof. exact push_document. Qed.
Print Assumptions C40_markup_partial.

(** A case, with an array in a script and text that must be escaped: *)
Definition clean_sample : list event :=
  [EvVisual (VFraction None); EvBegin GNormal; EvScript STSubSup SPRight;
   EvBegin (GArray [ACSep LSolid; ACColumn CALeft; ACColumn CARight]); EvFlow (EFStartLines [LSolid]);
   EvContent (CText (lit "a<b & c")); EvFlow EFAlignment; EvContent (CNumber (lit "12"));
   EvFlow (EFNewLine None [LDashed]); EvState (SCFont (Some FFraktur)); EvContent (COrdinary 97 false); EvEnd;
   EvBegin GNormal; EvContent (CFunction (lit "sin")); EvEnd; EvContent (CRelation 61 None false); EvEnd;
   EvContent (CDelimiter 40 None DOpen)].
Example clean_sample_well_formed : well_formed clean_sample.
Proof. apply well_formed_test. vm_compute. reflexivity. Qed.
Example clean_sample_fine : Forall (fine (Some true)) clean_sample.
Proof. apply fine_test. vm_compute. reflexivity. Qed.

(** C58 fails: elements with a fixed number of children get more of them. *)
Theorem C58_children_refuted : exists input out, converts default_config input out /\
  document (mkOpts true false) out /\ ~ document (mkOpts true true) out.
Proof.
  exists (lit "2\sin^2 x"). eexists. split; [|split].
  - eexists. split; [exists 30%nat; eexists; vm_compute; reflexivity|vm_compute; reflexivity].
  - apply documentb_spec. vm_compute. reflexivity.
  - intro H. apply documentb_spec in H. vm_compute in H. discriminate.
Qed.
Print Assumptions C58_children_refuted.

Example C58_fraction : exists out, converts default_config (lit "\frac\sin x") out /\ documentb (mkOpts true true) out = false.
Proof.
  eexists. split.
  - eexists. split; [exists 30%nat; eexists; vm_compute; reflexivity|vm_compute; reflexivity].
  - vm_compute. reflexivity.
Qed.

(** C58 for streams in which no function and no state change is itself a child of
    a visual or of a script. *)
Theorem C58_children_partial : forall st cfg es, well_formed es -> Forall (fine (Some st)) es ->
  note_clean (Some st) cfg = true -> steady start_frames es = true ->
  exists out, push_mathml cfg [] (map RIEvent es) = Ok out /\ document (mkOpts st true) out.
Proof. exact push_document_strict. Qed.
Print Assumptions C58_children_partial.

Example clean_sample_steady : steady start_frames clean_sample = true.
Proof. vm_compute. reflexivity. Qed.

(** C41 fails: the argument of the font command cannot be read, and the group
    that was opened for it is not closed. (The text contains no [<] and no [&].) *)
Theorem C41_errors_refuted : exists input out, converts default_config input out /\ ~ document (mkOpts false false) out.
Proof.
  exists (lit "\mathbf$b"). eexists. split.
  - eexists. split; [exists 30%nat; eexists; vm_compute; reflexivity|vm_compute; reflexivity].
  - intro H. apply documentb_spec in H. vm_compute in H. discriminate.
Qed.
Print Assumptions C41_errors_refuted.

(** C43 fails: a relation is written as it is. *)
Theorem C43_markup_refuted : exists input out, converts default_config input out /\ ~ document (mkOpts false false) out.
Proof.
  exists (lit "a<b"). eexists. split.
  - eexists. split; [exists 30%nat; eexists; vm_compute; reflexivity|vm_compute; reflexivity].
  - intro H. apply documentb_spec in H. vm_compute in H. discriminate.
Qed.
Print Assumptions C43_markup_refuted.

(** A name chosen by the user becomes an element: *)
Example C43_injection : exists l out, converts default_config (lit "\operatorname{<script>x</script>}") (l ++ lit "<script>x</script>" ++ out).
Proof.
  exists (lit "<math display=""inline""><mi>"), (lit "</mi></math>"). eexists.
  split; [exists 30%nat; eexists; vm_compute; reflexivity|vm_compute; reflexivity].
Qed.

(** C52: whatever the items, what is written after the given text starts with the
    opening of the document and ends with its end. *)
Theorem C52_wrapper : forall cfg string items out, push_mathml cfg string items = Ok out ->
  exists mid, out = (string
    ++ lit "<math display=""" ++ (match c_display cfg with DMInline => lit "inline" | DMBlock => lit "block" end) ++ lit """"
    ++ (if c_xml cfg then lit " xmlns=""http://www.w3.org/1998/Math/MathML""" else []) ++ lit ">"
    ++ (match c_annotation cfg with Some _ => lit "<semantics><mrow>" | None => [] end)
    ++ mid
    ++ (match c_annotation cfg with
        | Some a => lit "</mrow><annotation encoding=""application/x-tex"">" ++ a ++ lit "</annotation></semantics>"
        | None => []
        end)
    ++ lit "</math>")%list.
Proof. exact push_wrapper. Qed.
Print Assumptions C52_wrapper.

(** ** Looking ahead *)

(** C44: whatever the interleaving of reads and looks, every answer is the one a
    plain list gives, and what is left is what was not read. *)
Theorem C44_peeking : forall A (l : list A) us,
  spec_all A us l 0 = (fst (use_all A us (mkPeek [] l)), stream (snd (use_all A us (mkPeek [] l)))).
Proof. exact peek_all. Qed.
Print Assumptions C44_peeking.

Example C44_case : fst (use_all N [UFirst; UFurther; UFurther; UNth 1; UNext; UFirst; UNth 2; UNext; UNext; UNext] (mkPeek [] [7; 8; 9]))
  = [Some 7; Some 8; Some 9; Some 8; Some 7; Some 8; None; Some 8; Some 9; None].
Proof. reflexivity. Qed.

(** ** Fonts *)

(** C46: every font maps every character to a character. *)
Theorem C46_valid : forall f c, valid_char c = true -> exists d, map_char f c = Ok d /\ valid_char d = true.
Proof. exact map_char_valid. Qed.
Print Assumptions C46_valid.

(** C47 fails: a capital I in Fraktur is the double-struck H. *)
Theorem C47_alphabets_refuted : exists f c d, map_char f c = Ok d /\ d <> styled f c.
Proof. exists FFraktur, 73, 8461. split; [reflexivity|discriminate]. Qed.
Print Assumptions C47_alphabets_refuted.

(** C47: every character is mapped to the one of the alphabet, but for the 29
    characters the definition [wrong] lists: the capital I in Fraktur, the capitals
    in sans-serif italic and the digammas in bold. *)
Theorem C47_alphabets_partial : forall f c, valid_char c = true -> wrong f c = false -> map_char f c = Ok (styled f c).
Proof. exact font_correct. Qed.
Print Assumptions C47_alphabets_partial.

(** None of those is right. *)
Theorem C47_exceptions_partial : forall f c, wrong f c = true -> exists d, map_char f c = Ok d /\ d <> styled f c.
Proof. exact font_wrong. Qed.
Print Assumptions C47_exceptions_partial.

(** C59: with no font, a letter is written upright or italic as the table in the
    documentation of the styles says. A one-letter [mi] is italic by default. The classes of letters are those of [letter], the
    table is [style_table]. *)
Theorem C59_style : forall cfg c k, letter c = Some k -> exists out,
  push_mathml cfg [] [RIEvent (EvContent (COrdinary c false))] = Ok out /\
  contains (if nth k (style_table (c_style cfg)) true then lit "<mi>" ++ [c] ++ lit "</mi>"
            else lit "<mi mathvariant=""normal"">" ++ [c] ++ lit "</mi>")%list out.
Proof. exact style_written. Qed.
Print Assumptions C59_style.

(** The other characters: in the style of TeX all capital letters but those from
    A to Z are upright, in the French style everything but a to z. *)
Theorem C59_every : forall cfg c, exists out, exists b : bool, push_mathml cfg [] [RIEvent (EvContent (COrdinary c false))] = Ok out /\
  contains (if b then lit "<mi>" ++ [c] ++ lit "</mi>" else lit "<mi mathvariant=""normal"">" ++ [c] ++ lit "</mi>")%list out /\
  (b = false <-> stands_upright (c_style cfg) c).
Proof. exact style_every. Qed.
Print Assumptions C59_every.

Example C59_every_case : stands_upright MSTeX 0x411 /\ ~ stands_upright MSTeX 0x431 /\ ~ stands_upright MSTeX 65. (* Cyrillic be *)
Proof.
  split; [|split].
  - split; [|intros []; lia]. apply (proj1 (uppercase_capital 0x411)). vm_compute. reflexivity.
  - intros [H _]. apply uppercase_capital in H. vm_compute in H. discriminate.
  - intros [_ H]. apply H. split; [reflexivity|discriminate].
Qed.

(** ** Colours *)

(** C49: the colour in force is written so that a reader of CSS reads it back
    exactly, under the property of its target. *)
Theorem C49_colour : forall cfg t r g b, r < 256 -> g < 256 -> b < 256 -> exists out pre post,
  push_mathml cfg [] [RIEvent (EvState (SCColor (r, g, b) t)); RIEvent (EvContent (CNumber [49]))] = Ok out /\
  out = (pre ++ lit " style=""" ++ property t ++ post)%list /\ exists rest, read_rgb post = Some ((r, g, b), 34 :: rest).
Proof. exact colour_written. Qed.
Print Assumptions C49_colour.

(** C48 fails: the components are written without padding, so that the colour
    (1, 2, 3) is written [#123], which is (17, 34, 51). *)
Theorem C48_error_colour_refuted : exists cfg msg out pre post,
  c_error_color cfg = (1, 2, 3) /\ push_mathml cfg [] [RIErr msg] = Ok out /\
  out = (pre ++ lit "<merror style=""border-color: #123""" ++ post)%list.
Proof.
  exists (mkConfig DMInline None (1, 2, 3) false MSTeX), (lit "x"). eexists. exists (lit "<math display=""inline"">"), (lit "><mtext>x</mtext></merror></math>").
  split; [reflexivity|]. split; [vm_compute; reflexivity|]. vm_compute. reflexivity.
Qed.
Print Assumptions C48_error_colour_refuted.

(** C48 for colours whose components are at least 16. *)
Theorem C48_error_colour_partial : forall cfg msg r g b, c_error_color cfg = (r, g, b) ->
  16 <= r < 256 -> 16 <= g < 256 -> 16 <= b < 256 ->
  exists out pre post,
  push_mathml cfg [] [RIErr msg] = Ok out /\
  out = (pre ++ lit "<merror style=""border-color: #" ++ post)%list /\
  read_hex post = Some ((r, g, b), lit """><mtext>" ++ msg ++ lit "</mtext></merror>" ++ epilogue cfg)%list.
Proof. exact error_written. Qed.
Print Assumptions C48_error_colour_partial.

Example C48_default : c_error_color default_config = (178, 34, 34).
Proof. reflexivity. Qed.

(** ** Dimensions *)

(** C50 fails: eighteen [mu] are written [1mu], which is no CSS length, and not [1em]. *)
Theorem C50_units_refuted : exists d, dunit d = UMu /\ dvalue d = f32_lit 18 0 /\ dim_display d = lit "1mu".
Proof. exists (mkDim (f32_lit 18 0) UMu). repeat split; vm_compute; reflexivity. Qed.
Print Assumptions C50_units_refuted.

Example C50_space : converts default_config (lit "\mkern 36mu") (lit "<math display=""inline""><mspace width=""2mu"" /></math>").
Proof. eexists. split; [exists 30%nat; eexists; vm_compute; reflexivity|vm_compute; reflexivity]. Qed.

(** C73: on every stream, well formed or not, the string given is only appended
    to, and what is appended does not depend on it. *)
Theorem C73_appends : forall cfg string items,
  push_mathml cfg string items = match push_mathml cfg [] items with Ok out => Ok (string ++ out)%list | x => x end.
Proof. exact Append.push_appends. Qed.
Print Assumptions C73_appends.

Example C73_case : exists out, push_mathml default_config (lit "<p>") [RIEvent (EvVisual VSqrt); RIEvent EvEnd; RIErr (lit "no")] = Ok out /\
  firstn 23 out = lit "<p><math display=""inlin".
Proof. eexists. split; vm_compute; reflexivity. Qed.
