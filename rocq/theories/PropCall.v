(** * PropCall: the meaning of a text with macros. *)

From Coq Require Import Ascii String List NArith ZArith Bool Lia.
From Verif Require Import Base Float32 Event Tables Prim PrimTable Lex Primitives Macros Spans Parser Mathml RenderDrawn SpecLex SpecNum PrimFacts Keep LexFacts LexMore SpecFormula FormulaLex FormulaNucleus3 FormulaDerive
  SpecFault FormulaFault SpecMacro MacroFacts Api SpecEvent SpecStream NoPanic SimRun MacroRun Preamble SpecCall CallRun RenderTree RenderProps SpecDraw RenderDraw DrawTrees SpecXml Whole WholeFacts CallFacts.
Import ListNotations.
Open Scope N_scope.
Open Scope list_scope.

(** ** C67: what a text with macros means *)

(** A text of definitions and a formula in which their macros are used yields its
    meaning, or the error of a limit after a part of it. *)
Theorem C67_macros_mean : forall k d es v, text_with_macros k d es -> shows (new_parser d) v ->
  v = (es, EndDone) \/ exists es1 es2, es = es1 ++ es2 /\ v = (es1, EndError EMacroRecursionLimit).
Proof. exact macros_mean. Qed.
Print Assumptions C67_macros_mean.

Theorem C67_complete : forall k d es v, text_with_macros k d es -> shows (new_parser d) v -> SimRun.complete v -> v = (es, EndDone).
Proof. exact macros_complete. Qed.
Print Assumptions C67_complete.

(** C37, C54 and C55 for what is inside the limits: no more than 63 uses that follow
    each other or are inside each other, whatever else the text has, and 2^20 bytes
    of expansions in all. *)
Theorem C37_uses_partial : forall k d es, text_with_macros k d es -> (k <= 63)%nat -> ~ bytes_reached d -> parses d (map ItEvent es).
Proof. exact macros_parses. Qed.
Print Assumptions C37_uses_partial.

(** C66: the markup of a text with macros is the drawing of its meaning. *)
Theorem C66_macros : forall cfg k d es, valid_str d -> text_with_macros k d es -> (k <= 63)%nat -> ~ bytes_reached d -> well_formed es ->
  exists ts, all_events ts = es /\ forallb proper ts = true /\ forall out, converts cfg d out <-> out = print (drawing_of cfg ts).
Proof. exact macros_drawn. Qed.
Print Assumptions C66_macros.

(** ** A case *)

Definition case_env : Preamble.env := [(lit "f", ByDef [] [[]] (lit "x^{#1}"))].
Ltac chars := repeat (first [apply Forall_nil | apply Forall_cons; [unfold SpecMacro.letter, SpecMacro.white; (lia || reflexivity)|]]).

Lemma case_call : forall k al a r es, balanced 123 125 a -> @formula (calls case_env k) al (lit "x^{" ++ (123 :: a ++ [125]) ++ 125 :: r) es ->
  calls case_env (S k) al (92 :: 102 :: 123 :: a ++ 125 :: r) es.
Proof.
  intros k al a r es Ha H. cbn [calls]. exists [], (lit "f" ++ [] ++ 123 :: a ++ 125 :: r), (lit "f"), (ByDef [] [[]] (lit "x^{#1}")), (123 :: a ++ 125 :: r),
    (lit "x^{" ++ (123 :: a ++ [125]) ++ [125]), r.
  split; [reflexivity|]. split; [constructor|]. split; [|split; [reflexivity|split]].
  - apply (named_word (lit "f") [] (123 :: a ++ 125 :: r)); [discriminate|change (lit "f") with ([102] : str); chars|apply Forall_nil|cbn; unfold SpecMacro.letter; lia|cbn; unfold SpecMacro.white; discriminate].
  - apply (exp_def [] [[]] (lit "x^{#1}") (123 :: a ++ 125 :: r) [123 :: a ++ [125]]).
    + cbn [map delimiter]. eapply args_plain; [|apply args_nil]. apply (arg_group [] a r); [constructor|exact Ha].
    + change (lit "x^{#1}") with ([120; 94; 123; 35; 49; 125] : str). do 3 (apply sub_char; [discriminate|]).
      apply (sub_param _ 49 1 _ [125] [125]); [reflexivity|lia|reflexivity|]. apply sub_char; [discriminate|]. constructor.
  - rewrite <- !app_assoc. exact H.
Qed.

#[local] Ltac d_known ::= lazymatch goal with |- SpecFormula.known _ (92 :: 102 :: 123 :: ?t) _ =>
  let g := eval vm_compute in (group_content GKNormal t) in
  lazymatch g with (Ok ?a, ?r) =>
    refine (case_call _ _ a r _ _ _); [apply braces_dec; vm_compute; reflexivity|
    match goal with |- @formula ?K ?al ?t _ => let t' := eval vm_compute in t in change t with t' end; d_formula]
  end end.

Definition case67 : str := lit "\def\f#1{x^{#1}}\frac{\f{a}}{b}+\f{\f{2}}".
Definition case67_means : list event :=
  [EvVisual (VFraction None); EvBegin GNormal; EvScript STSup SPRight; EvContent (COrdinary 120 false); EvBegin GNormal; EvBegin GNormal; EvContent (COrdinary 97 false);
   EvEnd; EvEnd; EvEnd; EvBegin GNormal; EvContent (COrdinary 98 false); EvEnd; EvContent (CBinaryOp 43 false);
   EvScript STSup SPRight; EvContent (COrdinary 120 false); EvBegin GNormal; EvBegin GNormal;
   EvScript STSup SPRight; EvContent (COrdinary 120 false); EvBegin GNormal; EvBegin GNormal; EvContent (CNumber (lit "2")); EvEnd; EvEnd; EvEnd; EvEnd].

Example C67_case : text_with_macros 2 case67 case67_means /\ valid_str case67 /\ well_formed case67_means /\ ~ bytes_reached case67.
Proof.
  split; [|split; [apply valid_b_ok; vm_compute; reflexivity|split; [apply well_formed_test; vm_compute; reflexivity|]]].
  - exists case_env, (lit "\frac{\f{a}}{b}+\f{\f{2}}"). split; [|split; [|derive]].
    + eapply pre_def; [| |reflexivity|apply pre_end].
      * apply (def_text_i (lit "f") [] [[]] (lit "x^{#1}") (lit "\frac{\f{a}}{b}+\f{\f{2}}") [] [] (lit "f#1{x^{#1}}\frac{\f{a}}{b}+\f{\f{2}}")); [constructor|constructor|].
        apply (named_word (lit "f") [] (lit "#1{x^{#1}}\frac{\f{a}}{b}+\f{\f{2}}")); [discriminate|change (lit "f") with ([102] : str); chars|apply Forall_nil| |].
        { change (~ SpecFormula.letter 35). intros H. apply letter_alpha in H. discriminate. }
        { change (~ SpecMacro.white 35). unfold SpecMacro.white. discriminate. }
      * split; [constructor|]. split; [intros []|]. split; [|split; [|split; [cbn; lia|split]]].
        { constructor; constructor. }
        { constructor; [intros []|constructor]. }
        { apply braces_dec. vm_compute. reflexivity. }
        { change (lit "x^{#1}") with ([120; 94; 123; 35; 49; 125] : str). do 3 (apply rep_char; [discriminate|]).
          apply (rep_param _ _ 1); [reflexivity|cbn; lia|lia|]. apply rep_char; [discriminate|]. constructor. }
    + intros n Hn. cbn [case_env find] in Hn. destruct (list_eq_dec N.eq_dec (lit "f") n) as [<-|]; [|congruence].
      apply unsupported_dec. vm_compute. reflexivity.
  - apply (bytes_test 100). vm_compute. reflexivity.
Qed.
