(** * PropDraw: what the MathML renderer writes for a stream. *)

From Coq Require Import Ascii String List NArith ZArith Bool Lia.
From Verif Require Import Base Float32 Event Tables Prim FontTable Spans PrimFacts Parser Mathml Api Whole SpecEvent SpecStream
  XmlFacts RenderFacts RenderProps SpecDraw RenderDraw DrawTrees DrawFacts DrawScope DrawHole RenderDrawn.
Import ListNotations.
Open Scope N_scope.
Open Scope list_scope.

(** ** The whole document *)

(** C64: every stream of the documented shape is the text of trees of events, and
    what is appended to the string is the document whose formula is the drawing of
    these trees: for any way to read the stream as trees. The characters of the
    fonts and the letters that are upright are those of C47 and C59. *)
Theorem C64_drawing : forall cfg string es, well_formed es -> Forall (fine None) es ->
  (exists ts, all_events ts = es /\ forallb proper ts = true) /\
  forall ts, all_events ts = es -> forallb proper ts = true ->
    push_mathml cfg string (map RIEvent es) =
    Ok (string ++ print (document_of (block_of cfg) (c_xml cfg) (c_annotation cfg)
      (xmls (draw_all (draw (block_of cfg) (upright_of cfg) glyph_of) in_body 0 ts plain_look None None)))).
Proof.
  intros cfg string es Hw Hf. split; [exact (stream_trees es Hw)|].
  intros ts E Hp. subst es. exact (push_drawn cfg string ts Hw Hf Hp).
Qed.
Print Assumptions C64_drawing.

(** A case: a binary operator, a function with a script, a coloured group, fences
    and a negated relation. *)
Definition case64 : list tree :=
  [TContent (COrdinary 97 false); TContent (CBinaryOp 43 false);
   TScript STSup SPRight [TContent (CFunction (lit "sin")); TContent (CNumber (lit "2"))];
   TGroup [SCColor (255, 0, 1) CTText; SCFont (Some FBold)] [TContent (COrdinary 98 false); TState (SCStyle SScript); TContent (COrdinary 99 false)];
   TVisual VNegation [TContent (CRelation 60 None false)];
   TFenced (Some 40) None [] [TTable (GArray [ACSep LSolid; ACColumn CALeft; ACSep LDashed; ACSep LSolid; ACColumn CARight]) (Some [LSolid; LDashed])
     [[[TContent (CText (lit " a&b"))]; [TContent (CNumber (lit "1"))]]; [[]]] [(None, [LSolid])]]].
Example case64_meets : well_formed (all_events case64) /\ Forall (fine None) (all_events case64) /\ forallb proper case64 = true.
Proof.
  split; [apply well_formed_test; vm_compute; reflexivity|]. split; [apply fine_test; vm_compute; reflexivity|vm_compute; reflexivity].
Qed.
Example case64_drawing : print (drawing_of default_config case64) =
  lit "<math display=""inline""><mi>a</mi><mo>+</mo><msup><mi>sin</mi><mn>2</mn></msup><mo>" ++
  [8289] ++
  lit "</mo><mspace width=""0.1667em"" /><mrow style=""color: rgb(255 0 1)""><mi>" ++
  [119835] ++
  lit "</mi><mi displaystyle=""false"" scriptlevel=""1"">" ++
  [119836] ++
  lit "</mi></mrow><mo><" ++
  [824] ++
  lit "</mo><mrow><mo stretchy=""true"">(</mo><mtable class=""menv-arraylike""><mtr class=""menv-hline""><mtd class=""menv-nonumber""></mtd></mtr><mtr class=""menv-hdashline""><mtd class=""menv-left-solid cell-left menv-right-dashed""><mtext>&nbsp;a&amp;b</mtext></mtd><mtd class=""menv-right-solid menv-border-only""></mtd><mtd class=""cell-right""><mn>1</mn></mtd></mtr><mtr class=""menv-hline""><mtd class=""menv-left-solid cell-left menv-right-dashed""></mtd><mtd class=""menv-right-solid menv-border-only""></mtd></mtr></mtable></mrow></math>".
Proof. vm_compute. reflexivity. Qed.

(** ** Texts *)

(** C42 fails: different texts are written alike, because blanks at the ends of a
    text become one no-break space. *)
Theorem C42_text_refuted : exists s t out, s <> t /\
  push_mathml default_config [] [RIEvent (EvContent (CText s))] = Ok out /\ push_mathml default_config [] [RIEvent (EvContent (CText t))] = Ok out.
Proof.
  exists (lit " a"), (lit "  a"). eexists. split; [discriminate|]. split; vm_compute; reflexivity.
Qed.
Print Assumptions C42_text_refuted.

(** C42 in the other respects: each text of the stream has its element, whose
    content has no markup, and reads as the text in the font in force, except for
    the blanks at its ends. Without fonts and such blanks it reads as the text. *)
Theorem C42_text_partial : forall cfg string es s, well_formed es -> Forall (fine None) es -> In (EvContent (CText s)) es ->
  exists doc f atts x, push_mathml cfg string (map RIEvent es) = Ok (string ++ print doc) /\
    appears (Elem (lit "mtext") atts [Chars x]) [doc] /\ decodes x (seen glyph_of f s) /\ (no_fonts es -> f = None).
Proof. exact text_drawn. Qed.
Print Assumptions C42_text_partial.

Theorem C42_plain_partial : forall cfg string es s, well_formed es -> Forall (fine None) es -> In (EvContent (CText s)) es ->
  no_fonts es -> starts_blank s = false -> starts_blank (rev s) = false ->
  exists doc atts x, push_mathml cfg string (map RIEvent es) = Ok (string ++ print doc) /\
    appears (Elem (lit "mtext") atts [Chars x]) [doc] /\ decodes x s /\ forall t, decodes x t -> t = s.
Proof. exact text_plain_drawn. Qed.
Print Assumptions C42_plain_partial.

(** A case: [a<b] inside a fraction. *)
Definition case42 : list event := [EvVisual (VFraction None); EvContent (CText (lit "a<b & c")); EvContent (CNumber (lit "2"))].
Example case42_meets : well_formed case42 /\ Forall (fine None) case42 /\ In (EvContent (CText (lit "a<b & c"))) case42 /\ no_fonts case42.
Proof.
  split; [apply well_formed_test; vm_compute; reflexivity|]. split; [apply fine_test; vm_compute; reflexivity|]. split; [right; left; reflexivity|].
  intros f H. cbn in H. repeat destruct H as [H|H]; try discriminate. exact H.
Qed.

(** ** Groups *)

(** C45: whatever is in a group, and in particular whatever font, colours and style
    are set there, what is written before and after the element of the group is the
    same: two streams that differ in the content of one group, at any depth, are
    written alike outside of the element of that group. *)
Theorem C45_scope : forall cfg string pre g b1 b2 post, marks g = None -> well_formed b1 -> well_formed b2 ->
  well_formed (pre ++ EvBegin g :: b1 ++ EvEnd :: post) ->
  Forall (fine None) (pre ++ EvBegin g :: b1 ++ EvEnd :: post) -> Forall (fine None) b2 ->
  exists before behind p k prev after, forall b, b = b1 \/ b = b2 -> exists t, events t = EvBegin g :: b ++ [EvEnd] /\ proper t = true /\
    push_mathml cfg string (map RIEvent (pre ++ EvBegin g :: b ++ EvEnd :: post)) =
    Ok (before ++ prints (xmls (draw (block_of cfg) (upright_of cfg) glyph_of t p k prev after)) ++ behind).
Proof. exact stream_extent. Qed.
Print Assumptions C45_scope.

(** A case: a group with a font and a colour, in a cell of a matrix under a root. *)
Definition case45_pre : list event := [EvVisual VRoot; EvBegin (GMatrix CACenter); EvState (SCFont (Some FItalic)); EvContent (COrdinary 97 false)].
Definition case45_in : list event := [EvState (SCFont (Some FBold)); EvState (SCColor (1, 2, 3) CTBackground); EvContent (COrdinary 98 false)].
Definition case45_post : list event := [EvContent (COrdinary 99 false); EvFlow EFAlignment; EvEnd; EvContent (CNumber (lit "3"))].
Example case45_meets : marks GNormal = None /\ well_formed case45_in /\ well_formed [EvContent (COrdinary 98 false)] /\
  well_formed (case45_pre ++ EvBegin GNormal :: case45_in ++ EvEnd :: case45_post) /\
  Forall (fine None) (case45_pre ++ EvBegin GNormal :: case45_in ++ EvEnd :: case45_post).
Proof.
  split; [reflexivity|]. split; [apply well_formed_test; vm_compute; reflexivity|]. split; [apply well_formed_test; vm_compute; reflexivity|].
  split; [apply well_formed_test; vm_compute; reflexivity|apply fine_test; vm_compute; reflexivity].
Qed.

(** ** Rows of arrays *)

(** C51: in a stream of the documented shape, each row of an array has no more
    cells than the array has columns, and is written as a row of one cell for each
    of its cells, in their order, and of the borders that the lines of the columns
    up to the last cell ask for. *)
Theorem C51_rows : forall cfg ts cols lines rows breaks, well_formed (all_events ts) -> Forall (fine None) (all_events ts) -> forallb proper ts = true ->
  inside (TTable (GArray cols) lines rows breaks) ts ->
  (forall string, push_mathml cfg string (map RIEvent (all_events ts)) = Ok (string ++ print (drawing_of cfg ts))) /\
  exists atts trs, appears (Elem (lit "mtable") atts trs) [drawing_of cfg ts] /\
    forall row, In row rows -> (length row <= length (filter is_col cols))%nat /\
      exists a cells, In (Elem (lit "mtr") a cells) trs /\
        arranged (map (draw_cell (draw (block_of cfg) (upright_of cfg) glyph_of)) row) (extra (S (length cols)) (length row) cols) cells.
Proof.
  intros cfg ts cols lines rows breaks Hw Hf Hp Hi. split; [exact (fun string => push_drawn cfg string ts Hw Hf Hp)|].
  exact (array_drawn cfg ts cols lines rows breaks Hw Hf Hp Hi).
Qed.
Print Assumptions C51_rows.

(** Cases: the array of [case64], and the borders of specifications. *)
Example case51_meets : exists cols lines rows breaks, inside (TTable (GArray cols) lines rows breaks) case64 /\ rows <> [].
Proof. do 4 eexists. split; [eapply inside_child; [do 5 right; left; reflexivity|]; apply inside_here; left; reflexivity|discriminate]. Qed.
Example case51_extra : extra 10 2 [ACSep LSolid; ACSep LSolid; ACColumn CALeft; ACSep LDashed; ACSep LSolid; ACSep LSolid; ACColumn CARight; ACColumn CARight; ACSep LSolid; ACSep LSolid] = 3%nat.
Proof. reflexivity. Qed.
