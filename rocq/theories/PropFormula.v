(** * PropFormula: properties about the meaning of formulas.

    The spec is SpecFormula: relations between texts and events. Inside a
    formula, [parsed] admits any text that parses without error by itself and
    contains no command that defines a macro. *)

From Coq Require Import Ascii String List NArith ZArith Bool Lia.
From Verif Require Import Base Float32 Event Tables Prim PrimTable Lex Macros Primitives Spans Parser
  SpecLex SpecNum SpecInput LexFacts Keep PrimFacts NoPanic Api SimRun SpecFormula FormulaLex FormulaPrefix FormulaCompose FormulaHole FormulaDerive FormulaProps SpecFault FormulaFault FormulaFirst.
Import ListNotations.
Open Scope N_scope.
Open Scope list_scope.

#[local] Existing Instance parsed.

(** For the examples only: parses a concrete text. *)
Ltac parse_it := exists 200%nat; eexists; vm_compute; reflexivity.
Ltac no_defs := let c := fresh in let H := fresh in intros c H; vm_compute in H;
  repeat (destruct H as [H|H]; [subst c; apply NoPanic.contains_b_not; vm_compute; reflexivity|]); destruct H.
#[local] Ltac d_known ::= solve [right; auto].
Ltac no_starts := apply starts_dec; vm_compute; reflexivity.

(** C60: a text with a meaning parses to exactly the events of its meaning. *)
Theorem C60_meaning_parses : forall s es, formula None s es -> parses s (map ItEvent es).
Proof. exact meaning_parses. Qed.
Print Assumptions C60_meaning_parses.

(** C60: so it does before anything else, be it ill-formed. *)
Theorem C60_meaning_before_anything : forall s es r, begins s es r -> continues s es r.
Proof. exact begins_continues. Qed.
Print Assumptions C60_meaning_before_anything.

Example C60_case : formula None (lit "\frac{a_1}{\sqrt[3] x}^2 + \sum\limits_{i=1}^n \left( i \right]% c") 
  ([EvScript STSup SPRight; EvVisual (VFraction None); EvBegin GNormal; EvScript STSub SPRight; ord 97;
    EvContent (CNumber (lit "1")); EvEnd; EvBegin GNormal; EvVisual VRoot; ord 120; EvContent (CNumber (lit "3")); EvEnd;
    EvContent (CNumber (lit "2")); bin 43; EvScript STSubSup SPAboveBelow; EvContent (CLargeOp 8721 false);
    EvBegin GNormal; ord 105; rel 61; EvContent (CNumber (lit "1")); EvEnd; ord 110;
    EvBegin (GLeftRight (Some 40) (Some 93)); ord 105; EvEnd]).
Proof. derive. Qed.

Example C60_rows : formula None (lit "\begin{bmatrix}\hline a & b \\ 2 & \alpha \\\hline \end{bmatrix}^T")
  [EvScript STSup SPRight; EvBegin (GLeftRight (Some 91) (Some 93)); EvBegin (GMatrix CACenter); EvFlow (EFStartLines [LSolid]);
   ord 97; EvFlow EFAlignment; ord 98; EvFlow (EFNewLine None []); EvContent (CNumber (lit "2")); EvFlow EFAlignment;
   ord 945; EvFlow (EFNewLine None [LSolid]); EvEnd; EvEnd; ord 84].
Proof. derive. Qed.

Example C60_more : formula None (lit "\sideset{_a}b\sum_x\relax y\buildrel{a+b}\over=\xrightarrow[c]d")
  [EvScript STSub SPMovable; EvContent (CLargeOp 8721 false); ord 120; ord 121;
   EvScript STSup SPAboveBelow; rel 61; EvBegin GNormal; ord 97; bin 43; ord 98; EvEnd;
   EvScript STSubSup SPAboveBelow; rel 8594; EvBegin GNormal; ord 99; EvEnd; ord 100].
Proof. derive. Qed.

Example C60_prefix_case : continues (lit "x^2 + $") [EvScript STSup SPRight; ord 120; EvContent (CNumber (lit "2"))] (lit " + $").
Proof.
  apply element_continues. change (lit "x^2 + $") with ([120] ++ 94 :: [50; 32; 43; 32; 36]).
  eapply (I_nucleus _ [ord 120] no_limits); [apply (N_char false [] 120); [constructor|reflexivity]|split; reflexivity|].
  apply (S_sup SPRight [ord 120] [] [50; 32; 43; 32; 36] [EvContent (CNumber [50])]); [reflexivity|apply (N_digit []); [constructor|unfold digit; lia]|].
  vm_compute. intros [H|H]; discriminate.
Qed.

(** C61: the meaning of every printable ASCII character on its own. *)
Theorem C61_ascii_characters : forall c r, 33 <= c < 127 -> special c = false -> ~ starts 94 r -> ~ starts 95 r ->
  continues (c :: r) [match find (fun p => fst p =? c) ascii_meaning with Some p => snd p | None => ord c end] r.
Proof. exact ascii_continues. Qed.
Print Assumptions C61_ascii_characters.

Example C61_case : special 60 = false /\ continues (lit "<a") [rel 60] (lit "a").
Proof. split; [reflexivity|]. apply (C61_ascii_characters 60); [lia|reflexivity|no_starts|no_starts]. Qed.

(** C62: a group is its content, whatever follows it. *)
Theorem C62_group_is_content : forall g es r, balanced 123 125 g -> parses g (map ItEvent es) -> defines_nothing g ->
  ~ starts 94 r -> ~ starts 95 r -> continues (123 :: g ++ 125 :: r) (EvBegin GNormal :: es ++ [EvEnd]) r.
Proof. exact group_continues. Qed.
Print Assumptions C62_group_is_content.

(** C62: a text that parses by itself has its meaning inside any formula; an
    error in a text is reported as in that text alone, after the events of what
    precedes it, however deep it is. *)
Theorem C62_error_inside : forall t al g pre post es e v, has_inside t al g pre post ->
  shows (alone al g) (es, EndError e) -> e <> EMacroRecursionLimit ->
  shows (new_parser t) v -> complete v -> v = (pre ++ es, EndError e).
Proof. exact inside_error. Qed.
Print Assumptions C62_error_inside.

(** C62: the first error decides, whatever the texts after it are: [comes_to t al g pre]
    says that [t] reads as a formula when every part of it may be taken for
    granted, and that [g], after the events [pre], is the first part that is. *)
Theorem C62_first_error : forall t al g pre es e v, comes_to t al g pre -> shows (alone al g) (es, EndError e) ->
  e <> EMacroRecursionLimit -> shows (new_parser t) v -> complete v -> v = (pre ++ es, EndError e).
Proof. exact error_there. Qed.
Print Assumptions C62_first_error.

Example C62_case : continues (lit "{a^{b}c}d") [EvBegin GNormal; EvScript STSup SPRight; ord 97; EvBegin GNormal; ord 98; EvEnd; ord 99; EvEnd] (lit "d").
Proof.
  apply (C62_group_is_content (lit "a^{b}c") [EvScript STSup SPRight; ord 97; EvBegin GNormal; ord 98; EvEnd; ord 99]).
  - apply braces_dec. vm_compute. reflexivity.
  - parse_it.
  - no_defs.
  - no_starts.
  - no_starts.
Qed.

Example C62_error_case : has_inside (lit "a+\frac{b}{c \sqrt{$}}") None [36]
  [ord 97; bin 43; EvVisual (VFraction None); EvBegin GNormal; ord 98; EvEnd; EvBegin GNormal; ord 99; EvVisual VSqrt; EvBegin GNormal]
  [EvEnd; EvEnd] /\ shows (alone None [36]) ([], EndError EMathShift).
Proof.
  split.
  - intros M. set (KN := hole None [36] M). 
    derive.
  - exists 5%nat. do 3 eexists. split; [vm_compute; reflexivity|]. split; [discriminate|reflexivity].
Qed.

(** C10 for groups: the order of the two scripts in the source is immaterial. *)
Theorem C10_groups_partial : forall x es u a v b r,
  balanced 123 125 x -> parses x (map ItEvent es) -> defines_nothing x ->
  balanced 123 125 u -> parses u (map ItEvent a) -> defines_nothing u ->
  balanced 123 125 v -> parses v (map ItEvent b) -> defines_nothing v -> no_script r ->
  let g t := 123 :: t ++ [125] in let e t := EvBegin GNormal :: t ++ [EvEnd] in
  continues (g x ++ 95 :: g u ++ 94 :: g v ++ r) (EvScript STSubSup SPRight :: e es ++ e a ++ e b) r /\
  continues (g x ++ 94 :: g v ++ 95 :: g u ++ r) (EvScript STSubSup SPRight :: e es ++ e a ++ e b) r.
Proof. exact groups_both_orders. Qed.
Print Assumptions C10_groups_partial.

(** C10 for any base and scripts with a meaning, of which the scripts are not
    operators with limits. *)
Theorem C10_both_orders_partial : forall x es l u a v b r, as_base x es l -> as_script u a -> as_script v b ->
  nucleus true (u ++ r) a no_limits r -> nucleus true (v ++ r) b no_limits r -> no_script r ->
  continues (x ++ 95 :: u ++ 94 :: v ++ r) (EvScript STSubSup (default_position l) :: es ++ a ++ b) r /\
  continues (x ++ 94 :: v ++ 95 :: u ++ r) (EvScript STSubSup (default_position l) :: es ++ a ++ b) r.
Proof. exact both_orders. Qed.
Print Assumptions C10_both_orders_partial.

(** C10 is false for scripts that are themselves operators with limits: the last
    of them decides the position. *)
Theorem C10_refuted : exists x u v e1 e2, parses (x ++ 95 :: u ++ 94 :: v) e1 /\ parses (x ++ 94 :: v ++ 95 :: u) e2 /\
  error_free e1 /\ error_free e2 /\ e1 <> e2.
Proof.
  exists (lit "\sum"), (lit "\int"), (lit "\prod"), 
    (map ItEvent [EvScript STSubSup SPMovable; EvContent (CLargeOp 8721 false); EvContent (CLargeOp 8747 false); EvContent (CLargeOp 8719 false)]),
    (map ItEvent [EvScript STSubSup SPRight; EvContent (CLargeOp 8721 false); EvContent (CLargeOp 8747 false); EvContent (CLargeOp 8719 false)]).
  split; [parse_it|]. split; [parse_it|]. split; [reflexivity|]. split; [reflexivity|]. discriminate.
Qed.
Print Assumptions C10_refuted.

Example C10_case : let sum := lit "\sum" in
  as_base sum [EvContent (CLargeOp 8721 false)] movable /\ as_script [110] [ord 110] /\ no_script (lit "+1") /\
  balanced 123 125 (lit "i=\{1") /\ (exists es, parses (lit "i=\{1") (map ItEvent es) /\ length es = 4%nat).
Proof.
  cbv zeta. split; [|split; [|split; [|split]]].
  - apply (command_base (lit "sum") (op 8721 movable)); [|discriminate| |reflexivity].
    + change (lit "sum") with ([115; 117; 109] : str). letters.
    + d_in.
  - apply char_script. reflexivity.
  - vm_compute. intros [H|H]; discriminate.
  - apply braces_dec. vm_compute. reflexivity.
  - exists [ord 105; rel 61; delim 123 DOpen; EvContent (CNumber [49])]. split; [parse_it|reflexivity].
Qed.

(** C12: the last of the modifiers after an operator decides where its scripts
    are; without modifiers it is the position of the operator. *)
Theorem C12_last_modifier : forall cs c ms w u a r, In (cs, c) commands -> c_args c = [] -> fst (c_limits c) = true ->
  Forall (fun m => white (fst m)) ms -> white w -> nucleus true u a no_limits r -> no_script r ->
  continues (92 :: cs ++ modifiers_text ms ++ w ++ 95 :: u)
    (EvScript STSub (last_position (default_position (c_limits c)) ms) :: fill [] (c_body c) ++ a) r.
Proof. exact operator_modifiers. Qed.
Print Assumptions C12_last_modifier.

(** C12 for every base that accepts modifiers, with any scripts. *)
Theorem C12_last_modifier_scripts : forall s es d ms t es' r, nucleus false s es (true, d) (modifiers_text ms ++ t) ->
  Forall (fun m => white (fst m)) ms -> no_modifier t ->
  scripts (last_position (default_position (true, d)) ms) es t es' r -> continues s es' r.
Proof. exact last_modifier. Qed.
Print Assumptions C12_last_modifier_scripts.

Example C12_case :
  let ms := [(lit " ", false); (lit "", true); (lit "  ", false)] in
  92 :: lit "sum" ++ modifiers_text ms ++ lit " " ++ 95 :: lit "i" = lit "\sum \nolimits\limits  \nolimits _i" /\
  continues (lit "\sum \nolimits\limits  \nolimits _i") [EvScript STSub SPRight; EvContent (CLargeOp 8721 false); ord 105] [] /\
  continues (lit "\int\limits_i") [EvScript STSub SPAboveBelow; EvContent (CLargeOp 8747 false); ord 105] [] /\
  continues (lit "\int_i") [EvScript STSub SPRight; EvContent (CLargeOp 8747 false); ord 105] [].
Proof.
  cbv zeta. split; [vm_compute; reflexivity|]. split; [|split].
  - apply (C12_last_modifier (lit "sum") (op 8721 movable) [(lit " ", false); (lit "", true); (lit "  ", false)] (lit " ") [105] [ord 105] []);
      [d_in|reflexivity|reflexivity|repeat constructor|reflexivity|apply (N_char true [] 105); [constructor|reflexivity]|].
    exact I.
  - apply (C12_last_modifier (lit "int") (op 8747 (true, Some SPRight)) [(lit "", true)] [] [105] [ord 105] []);
      [d_in|reflexivity|reflexivity|repeat constructor|reflexivity|apply (N_char true [] 105); [constructor|reflexivity]|].
    exact I.
  - apply (C12_last_modifier (lit "int") (op 8747 (true, Some SPRight)) [] [] [105] [ord 105] []);
      [d_in|reflexivity|reflexivity|repeat constructor|reflexivity|apply (N_char true [] 105); [constructor|reflexivity]|].
    exact I.
Qed.

(** C72: the base and the modifiers after it decide where the scripts are.
    Proved when the arguments of one token are not operators that take limits:
    such an argument is not a [nucleus true] with [no_limits]. *)
Theorem C72_place_partial : forall s es l t p t' es' r, nucleus false s es l t -> placed l t p t' ->
  scripts p es t' es' r -> continues s es' r.
Proof. intros s es l t p t' es' r Hn Hp Hs. apply element_continues. eapply I_nucleus; eassumption. Qed.
Print Assumptions C72_place_partial.

Example C72_case : continues (lit "\sum_i^2+") [EvScript STSubSup SPMovable; EvContent (CLargeOp 8721 false); ord 105; EvContent (CNumber [50])] (lit "+").
Proof.
  apply (C72_place_partial _ [EvContent (CLargeOp 8721 false)] movable (lit "_i^2+") SPMovable (lit "_i^2+")).
  - apply (N_command false [] (lit "sum") (lit "\sum_i^2+") (lit "_i^2+") (op 8721 movable) [] _);
      [constructor|apply (control_dec (lit "sum") [] (lit "_i^2+")); vm_compute; reflexivity|d_in|apply A_nil].
  - apply M_none. intros w r Hw. split; intros E; destruct w as [|c w]; cbn in E; try discriminate;
      injection E as <- _; discriminate Hw.
  - apply (S_sub_sup SPMovable [EvContent (CLargeOp 8721 false)] [] (lit "i^2+") [ord 105] (lit "2+") [EvContent (CNumber [50])]).
    + reflexivity.
    + apply (N_char true [] 105); [constructor|reflexivity].
    + apply (N_digit [] 50); [constructor|unfold digit; lia].
    + cbn. intros [H|H]; discriminate.
Qed.

(** In general a command in a script or in an argument moves the scripts of the
    base: [x^\sum] has its superscript above, [\frac\sum x_a] its subscript
    below. *)
Theorem C72_place_refuted : exists p, p <> SPRight /\
  parses (lit "x^\sum") (map ItEvent [EvScript STSup p; ord 120; EvContent (CLargeOp 8721 false)]) /\
  parses (lit "x^{\sum}") (map ItEvent [EvScript STSup SPRight; ord 120; EvBegin GNormal; EvContent (CLargeOp 8721 false); EvEnd]) /\
  parses (lit "\frac\sum x_a") (map ItEvent [EvScript STSub p; EvVisual (VFraction None); EvContent (CLargeOp 8721 false); ord 120; ord 97]) /\
  parses (lit "\frac{\sum}x_a") (map ItEvent [EvScript STSub SPRight; EvVisual (VFraction None);
    EvBegin GNormal; EvContent (CLargeOp 8721 false); EvEnd; ord 120; ord 97]).
Proof.
  exists SPMovable. split; [discriminate|].
  repeat split; (exists 30%nat; eexists; vm_compute; reflexivity).
Qed.
Print Assumptions C72_place_refuted.

(** C20 for [\left] and [\right] around a content that contains neither. The
    full statement is false. *)
Theorem C20_left_right_partial : forall s0 s o g es s' c r, control (lit "left") s0 s -> delimiter_opt s o (g ++ right_str ++ s') ->
  delimiter_opt s' c r -> balanced 123 125 g -> ~ contains left_str g -> ~ contains right_str g ->
  parses g (map ItEvent es) -> defines_nothing g -> ~ starts 94 r -> ~ starts 95 r ->
  continues s0 (EvBegin (GLeftRight o c) :: es ++ [EvEnd]) r.
Proof. exact left_right. Qed.
Print Assumptions C20_left_right_partial.

Example C20_case : continues (lit "\left( \frac12 \right]+") [EvBegin (GLeftRight (Some 40) (Some 93)); EvVisual (VFraction None);
  EvContent (CNumber [49]); EvContent (CNumber [50]); EvEnd] (lit "+").
Proof.
  apply (C20_left_right_partial _ (lit "( \frac12 \right]+") (Some 40) (lit " \frac12 ")
    [EvVisual (VFraction None); EvContent (CNumber [49]); EvContent (CNumber [50])] (lit "]+") (Some 93)).
  - apply (control_dec (lit "left") [] (lit "( \frac12 \right]+")). vm_compute. reflexivity.
  - apply (DO_some _ 40 DOpen); [vm_compute; discriminate|]. apply (D_char []); [constructor|vm_compute; auto 20].
  - apply (DO_some _ 93 DClose); [vm_compute; discriminate|]. apply (D_char []); [constructor|vm_compute; auto 20].
  - apply braces_dec. vm_compute. reflexivity.
  - apply contains_b_not. vm_compute. reflexivity.
  - apply contains_b_not. vm_compute. reflexivity.
  - parse_it.
  - no_defs.
  - no_starts.
  - no_starts.
Qed.

(** C20 is false: a content that parses by itself and contains a command whose
    name starts with [right] makes the group fail. *)
Theorem C20_left_right_refuted : exists g es, parses g (map ItEvent es) /\ defines_nothing g /\ balanced 123 125 g /\
  exists i l, parses (lit "\left(" ++ g ++ lit "\right)") (ItError i :: l) /\ pe_kind i = EDelimiter.
Proof.
  exists (lit "a\rightarrow b"), [ord 97; EvContent (CRelation 8594 None false); ord 98].
  split; [parse_it|]. split; [no_defs|]. split; [apply braces_dec; vm_compute; reflexivity|].
  do 2 eexists. split; [exists 20%nat; eexists; vm_compute; reflexivity|reflexivity].
Qed.
Print Assumptions C20_left_right_refuted.

(** C20 is false for [\begingroup]: the last letters of [\endgroup] are read as
    part of the formula. *)
Theorem C20_begingroup_refuted : parses (lit "\begingroup a\endgroup b")
  (map ItEvent [EvBegin GNormal; ord 97; EvEnd; ord 103; ord 114; ord 111; ord 117; ord 112; ord 98]).
Proof. parse_it. Qed.
Print Assumptions C20_begingroup_refuted.

(** C23: white space and comments before the input change nothing. *)
Theorem C23_blank_before : forall b s v v', blank b ->
  shows (new_parser (b ++ s)) v -> shows (new_parser s) v' -> complete v -> complete v' -> v = v'.
Proof. exact blank_shows. Qed.
Print Assumptions C23_blank_before.

Example C23_case : let b := [32; 12288; 37; 36; 10; 9] in blank b /\
  exists v, shows (new_parser (b ++ lit "x^{$")) v /\ shows (new_parser (lit "x^{$")) v /\ complete v.
Proof.
  cbv zeta. split.
  - do 2 (apply blank_ws; [reflexivity|]). apply (blank_comment [36]); [cbn; intuition discriminate|]. apply blank_ws; [reflexivity|]. constructor.
  - exists ([], EndError (EUnbalancedGroup (Some GKNormal))). split; [|split; [|split; discriminate]].
    + exists 20%nat. do 3 eexists. split; [vm_compute; reflexivity|]. split; [discriminate|reflexivity].
    + exists 20%nat. do 3 eexists. split; [vm_compute; reflexivity|]. split; [discriminate|reflexivity].
Qed.

(** C24: white space between a base and its first script is insignificant. *)
Theorem C24_space_before_first_script_partial : forall x es l c w u a r, c = 94 \/ c = 95 -> white w -> as_base x es l ->
  nucleus false (x ++ w ++ c :: u) es l (w ++ c :: u) -> nucleus true u a no_limits r -> no_script r ->
  let e := EvScript (if c =? 94 then STSup else STSub) (default_position l) :: es ++ a in
  continues (x ++ c :: u) e r /\ continues (x ++ w ++ c :: u) e r.
Proof. exact space_before_script. Qed.
Print Assumptions C24_space_before_first_script_partial.

Example C24_case : as_base [120] [ord 120] no_limits /\ nucleus false (lit "x _2") [ord 120] no_limits (lit " _2") /\
  nucleus true [50] [EvContent (CNumber [50])] no_limits [] /\ no_script [].
Proof.
  split; [apply char_base; reflexivity|]. split; [apply (N_char false [] 120); [constructor|reflexivity]|].
  split; [apply (N_digit []); [constructor|unfold digit; lia]|]. vm_compute. tauto.
Qed.

(** C24 is false: white space between the two scripts separates them. *)
Theorem C24_refuted : exists e1 e2, parses (lit "x_3^2") e1 /\ parses (lit "x_3 ^2") e2 /\ e1 <> e2 /\
  e1 = map ItEvent [EvScript STSubSup SPRight; ord 120; EvContent (CNumber [51]); EvContent (CNumber [50])] /\
  e2 = map ItEvent [EvScript STSub SPRight; ord 120; EvContent (CNumber [51]); EvScript STSup SPRight; EvBegin GNormal; EvEnd; EvContent (CNumber [50])].
Proof.
  do 2 eexists. split; [parse_it|]. split; [parse_it|]. split; [discriminate|]. split; reflexivity.
Qed.
Print Assumptions C24_refuted.

(** C29 for an argument in braces. *)
Theorem C29_text_partial : forall cs f s0 w x r, control cs s0 (w ++ 123 :: x ++ 125 :: r) -> In (cs, f) text_commands -> white w ->
  balanced 123 125 x -> ~ starts 94 r -> ~ starts 95 r -> continues s0 (text_meaning f x) r.
Proof. exact text_exact. Qed.
Print Assumptions C29_text_partial.

Theorem C29_operatorname_partial : forall s0 w x r, control (lit "operatorname") s0 (w ++ 123 :: x ++ 125 :: r) -> white w ->
  balanced 123 125 x -> no_modifier r -> ~ starts 94 r -> ~ starts 95 r -> continues s0 [EvContent (CFunction x)] r.
Proof. exact operator_exact. Qed.
Print Assumptions C29_operatorname_partial.

Example C29_case : continues (lit "\textbf{a $ {b}\}}$") [EvBegin GNormal; EvState (SCFont (Some FBold)); EvContent (CText (lit "a $ {b}\}")); EvEnd] (lit "$").
Proof.
  apply (C29_text_partial (lit "textbf") (Some FBold) _ [] (lit "a $ {b}\}")).
  - apply (control_dec (lit "textbf") [] (lit "{a $ {b}\}}$")). vm_compute. reflexivity.
  - d_in.
  - reflexivity.
  - apply braces_dec. vm_compute. reflexivity.
  - no_starts.
  - no_starts.
Qed.

(** C29 is false without braces: the text that follows is emitted whole, and
    then parsed again. *)
Theorem C29_refuted : parses (lit "\text ab") (map ItEvent [EvContent (CText (lit "ab")); ord 98]) /\
  parses (lit "\operatorname ab") (map ItEvent [EvContent (CFunction (lit "ab")); ord 98]).
Proof. split; parse_it. Qed.
Print Assumptions C29_refuted.

(** C53: handling a command makes at most as many nested calls as the text that
    follows it has characters, so that it ends. *)
Theorem C53_depth_bounded_by_text_partial : forall cs st, fst (hprim (S (List.length (stxt (i_content st)))) cs st) <> Fuel.
Proof. exact handle_prim_ends. Qed.
Print Assumptions C53_depth_bounded_by_text_partial.

(** C53 is false: no bound on the nested calls suffices for all texts. *)
Theorem C53_refuted : forall n, exists m, forall st, stxt (i_content st) = roots m -> fst (hprim n (lit "sqrt") st) = Fuel.
Proof. intros n. exists n. intros st. apply roots_deep. reflexivity. Qed.
Print Assumptions C53_refuted.

(** C63: wherever in a formula something is wrong, the events before it are
    yielded, and then its own error. *)
Theorem C63_fault_reported : forall t al g pre post e, has_inside t al g pre post -> @fault anything al g e ->
  shows (new_parser t) (pre, EndError e).
Proof. exact fault_inside. Qed.
Print Assumptions C63_fault_reported.

(** C63: so it is for the first of several. *)
Theorem C63_first_fault : forall t al g pre e, comes_to t al g pre -> @fault anything al g e ->
  shows (new_parser t) (pre, EndError e).
Proof. exact fault_there. Qed.
Print Assumptions C63_first_fault.

Example C63_first_case : comes_to (lit "\frac{$}{#}") None (lit "$") [EvVisual (VFraction None); EvBegin GNormal] /\
  @fault anything None (lit "$") EMathShift.
Proof.
  split.
  - intros f. exists [EvEnd; EvBegin GNormal; f None (lit "#"); EvEnd].
    apply (@F_element (marking f) None _ ([EvVisual (VFraction None)] ++ (EvBegin GNormal :: [f None (lit "$")] ++ [EvEnd]) ++ (EvBegin GNormal :: [f None (lit "#")] ++ [EvEnd])) [] []);
      [|apply F_end; constructor].
    eapply (@I_nucleus (marking f) _ _ no_limits [] SPRight []);
      [|split; reflexivity|apply S_none; intros (w & r & _ & E); destruct w; discriminate].
    apply (@N_command (marking f) false [] (lit "frac") _ (lit "{$}{#}") (mkCommand [Whole; Whole] (frac_body None) no_limits)
      [EvBegin GNormal :: [f None (lit "$")] ++ [EvEnd]; EvBegin GNormal :: [f None (lit "#")] ++ [EvEnd]]); [constructor| |d_in|].
    + apply (control_dec (lit "frac") [] (lit "{$}{#}")); vm_compute; reflexivity.
    + eapply A_whole; [apply (@N_group (marking f) true [] (lit "$") _ (lit "{#}")); [d_blank|apply braces_dec; vm_compute; reflexivity|apply F_known; right; reflexivity]|].
      eapply A_whole; [apply (@N_group (marking f) true [] (lit "#") _ []); [d_blank|apply braces_dec; vm_compute; reflexivity|apply F_known; right; reflexivity]|constructor].
  - apply X_nucleus. apply (W_shift None false [] []). constructor.
Qed.

Ltac inside g := let M := fresh in intros M; set (KN := hole None g M); derive.

Ltac is_control cs w r := apply (control_dec (lit cs) (lit w) (lit r)); vm_compute; reflexivity.

Example C63_unknown_case : has_inside (lit "a+\frac{b}{c\foo 2}") None (lit "\foo 2")
  [ord 97; bin 43; EvVisual (VFraction None); EvBegin GNormal; ord 98; EvEnd; EvBegin GNormal; ord 99] [EvEnd] /\
  @fault anything None (lit "\foo 2") EUnknownPrimitive.
Proof.
  split.
  - inside (lit "\foo 2").
  - apply X_nucleus. apply (W_unknown None false [] (lit "foo") (lit "\foo 2") [50]); [constructor| |].
    + is_control "foo"%string " "%string "2"%string.
    + apply unsupported_dec. vm_compute. reflexivity.
Qed.

Example C63_scripts_case : has_inside (lit "\sqrt{b+x^2^3}") None (lit "x^2^3") [EvVisual VSqrt; EvBegin GNormal; ord 98; bin 43] [EvEnd] /\
  @fault anything None (lit "x^2^3") EDoubleSuperscript.
Proof.
  split.
  - inside (lit "x^2^3").
  - eapply (X_scripts _ _ [ord 120] no_limits).
    + apply (N_char false [] 120); [constructor|reflexivity].
    + split; reflexivity.
    + eapply (WS_double None [] 94); [reflexivity|left; reflexivity|apply (N_digit [] 50 [94; 51]); [d_blank|unfold digit; lia]].
Qed.

Example C63_argument_case : has_inside (lit "{\frac a}") None (lit "\frac a") [EvBegin GNormal] [EvEnd] /\
  @fault anything None (lit "\frac a") EToken.
Proof.
  split.
  - inside (lit "\frac a").
  - apply X_nucleus. eapply (W_command None false [] (lit "frac") _ [97]); [constructor|is_control "frac"%string " "%string "a"%string|d_in|].
    eapply WA_later; [apply (N_char true [] 97); [constructor|reflexivity]|]. apply WA_here, W_end, NL_blank. constructor.
Qed.

Lemma three_mu_stretched : glue_text (lit "3mu  plus1mu minus2pt x") (mkDim (f32_signed false 3) UMu) (Some (mkDim (f32_signed false 1) UMu)) (Some (mkDim (f32_signed false 2) UPt)) (lit "x").
Proof.
  apply (Glue_text (lit "3mu") _ (lit "  plus1mu minus2pt x") (lit " plus1mu minus2pt x") _ (lit "minus2pt x")).
  - apply (DT_integer [] (lit "3") [] (lit "mu")); [apply Forall_nil|apply Forall_cons; [split; vm_compute; discriminate|apply Forall_nil]|discriminate|reflexivity|reflexivity|vm_compute; tauto].
  - right. exists 32. split; [reflexivity|split; [lia|reflexivity]].
  - apply (Stretch_some (lit "plus") _ (lit "1mu") _ (lit " minus2pt x")); [exists [32]; split; reflexivity| |right; exists 32; split; [reflexivity|split; [lia|reflexivity]]].
    apply (DT_integer [] (lit "1") [] (lit "mu")); [apply Forall_nil|apply Forall_cons; [split; vm_compute; discriminate|apply Forall_nil]|discriminate|reflexivity|reflexivity|vm_compute; tauto].
  - apply (Stretch_some (lit "minus") _ (lit "2pt") _ (lit " x")); [exists []; split; reflexivity| |right; exists 32; split; [reflexivity|split; [lia|reflexivity]]].
    apply (DT_integer [] (lit "2") [] (lit "pt")); [apply Forall_nil|apply Forall_cons; [split; vm_compute; discriminate|apply Forall_nil]|discriminate|reflexivity|reflexivity|vm_compute; tauto].
Qed.

(** A stretchable length is read to its end by [\hskip], and is an error for
    [\mskip] when one of its parts is in another unit. *)
Example C60_stretch_case : @nucleus anything false (lit "\hskip3mu  plus1mu minus2pt x") [EvSpace (Some (mkDim (f32_signed false 3) UMu)) None None] no_limits (lit "x").
Proof.
  apply (N_glue false [] (lit "hskip") false _ (lit "3mu  plus1mu minus2pt x") _ (Some (mkDim (f32_signed false 1) UMu)) (Some (mkDim (f32_signed false 2) UPt))).
  - constructor.
  - vm_compute; tauto.
  - is_control "hskip"%string ""%string "3mu  plus1mu minus2pt x"%string.
  - exact three_mu_stretched.
  - discriminate.
Qed.

Example C63_parts_case : @fault anything None (lit "\Space{1em}{2}{3em}") EDimensionUnit /\ @fault anything None (lit "\sideset{}") EToken /\
  @fault anything None (lit "\genfrac{(}{)}{0pt}{}{n}{k}") EDelimiter /\ @fault anything None (lit "\genfrac(){}4nk") EArgument.
Proof.
  split; [|split; [|split]]; apply X_nucleus.
  - apply (W_strut None false [] (lit "\Space{1em}{2}{3em}") (lit "{1em}{2}{3em}")); [constructor|apply (control_dec (lit "Space") [] (lit "{1em}{2}{3em}")); vm_compute; reflexivity|].
    apply (SF_next 2 [] (lit "1em") (mkDim (f32_signed false 1) UEm) (lit "{2}{3em}")); [reflexivity| |].
    + apply (DT_integer [] [49] [] (lit "em") UEm); [constructor|repeat constructor; unfold digit; lia|discriminate|reflexivity|reflexivity|left; reflexivity].
    + apply (SF_unit 1 [] (lit "2") (lit "{3em}")); [reflexivity|apply braces_dec; vm_compute; reflexivity|].
      apply (NL_integer [] [50] [] []); [constructor|repeat constructor; unfold digit; lia|reflexivity|discriminate|exact I|split; [exact I|]].
      intros u d H. repeat destruct H as [H|H]; try contradiction; injection H as <- <-; discriminate.
  - apply (W_sides None false [] (lit "\sideset{}") (lit "{}")); [constructor|apply (control_dec (lit "sideset") [] (lit "{}")); vm_compute; reflexivity|].
    apply (SD_second (lit "{}") []); [apply (OA_group [] [] []); [reflexivity|constructor]|apply NA_end, NL_blank; constructor].
  - apply (W_genfrac None false [] (lit "\genfrac{(}{)}{0pt}{}{n}{k}") (lit "{(}{)}{0pt}{}{n}{k}"));
      [constructor|apply (control_dec (lit "genfrac") [] (lit "{(}{)}{0pt}{}{n}{k}")); vm_compute; reflexivity|].
    apply GF_open, (NF_braces [] (lit "(") (lit "{)}{0pt}{}{n}{k}")); [reflexivity|apply braces_dec; vm_compute; reflexivity|discriminate].
  - apply (W_genfrac None false [] (lit "\genfrac(){}4nk") (lit "(){}4nk")); [constructor|apply (control_dec (lit "genfrac") [] (lit "(){}4nk")); vm_compute; reflexivity|].
    assert (Hn : forall c s, c <> 123 -> is_ws c = false -> ~ starts 123 (c :: s)).
    { intros c s Hc Hw ([|x w] & r & Hx & E); [injection E as E _; congruence|]. injection E as <- _. unfold white in Hx. cbn [forallb] in Hx. rewrite Hw in Hx. discriminate. }
    apply (GF_style (lit "(){}4nk") (Some 40) (lit "){}4nk") (Some 41) [] [] None (lit "4nk")).
    + eapply FD_some; [apply Hn; [discriminate|reflexivity]|]. apply (D_char [] 40 DOpen (lit "){}4nk")); [constructor|vm_compute; tauto].
    + eapply FD_some; [apply Hn; [discriminate|reflexivity]|]. apply (D_char [] 41 DClose (lit "{}4nk")); [constructor|vm_compute; tauto].
    + reflexivity.
    + left. split; reflexivity.
    + apply (NS_char [] 52 (lit "nk")); [constructor|reflexivity|discriminate|discriminate|left; discriminate|vm_compute; intuition discriminate].
Qed.

Example C63_unit_case : @fault anything None (lit "\mskip3mu  plus1mu minus2pt x") EMathUnit.
Proof.
  apply X_nucleus. apply (W_glue_unit_bare None false [] (lit "mskip") (lit "\mskip3mu  plus1mu minus2pt x") (lit "3mu  plus1mu minus2pt x")
    (mkDim (f32_signed false 3) UMu) (Some (mkDim (f32_signed false 1) UMu)) (Some (mkDim (f32_signed false 2) UPt)) (lit "x"));
    [constructor|vm_compute; tauto|is_control "mskip"%string ""%string "3mu  plus1mu minus2pt x"%string|exact three_mu_stretched|].
  intros [_ H]. discriminate (H _ (or_intror eq_refl)).
Qed.

(** C21: an environment of each of the names, up to the matching end, means
    the events of that environment around those of its content. *)
Theorem C21_environment_partial : forall t w name s e s1 ls s2 g es r, control (lit "begin") t (w ++ 123 :: name ++ 125 :: s) -> white w ->
  env_args name s e s1 -> lines s1 ls s2 -> enclosed (begin_of name) (end_of name) s2 g r ->
  parses_in (Some (0, v_marks e)) g es -> defines_nothing g -> ~ starts 94 r -> ~ starts 95 r ->
  continues t (env_events e ls es) r.
Proof. exact environment_exact. Qed.
Print Assumptions C21_environment_partial.

(** The names with environments, of which [environments] and the other tables
    give the grouping. *)
Theorem C21_names : forall name, In name environment_names <-> exists s e r, env_args name s e r.
Proof. intros name. split; [apply names_accepted|]. intros (s & e & r & H). exact (accepted_names _ _ _ _ H). Qed.
Print Assumptions C21_names.

(** Any other name is an error. *)
Theorem C21_no_other_name : forall t al g pre post b t' w name s, has_inside t al g pre post -> g = b ++ t' -> blank b ->
  control (lit "begin") t' (w ++ 123 :: name ++ 125 :: s) -> white w -> balanced 123 125 name -> ~ In name environment_names ->
  shows (new_parser t) (pre, EndError EEnvironment).
Proof.
  intros t al g pre post b t' w name s H -> Hb Hc Hw Hn Hi. eapply C63_fault_reported; [exact H|].
  apply X_nucleus. eapply W_environment; eassumption.
Qed.
Print Assumptions C21_no_other_name.

(** An environment without its end is an error. *)
Theorem C21_no_end : forall t al g pre post b t' w name s e s1 ls s2 k, has_inside t al g pre post -> g = b ++ t' -> blank b ->
  control (lit "begin") t' (w ++ 123 :: name ++ 125 :: s) -> white w -> env_args name s e s1 -> lines s1 ls s2 ->
  unclosed (begin_of name) (end_of name) s2 -> In (name, k) kinds ->
  shows (new_parser t) (pre, EndError (EUnbalancedGroup (Some k))).
Proof.
  intros t al g pre post b t' w name s e s1 ls s2 k H -> Hb Hc Hw Ha Hl Hu Hk. eapply C63_fault_reported; [exact H|].
  apply X_nucleus. eapply W_env_open; eassumption.
Qed.
Print Assumptions C21_no_end.

Example C21_case : control (lit "begin") (lit "\begin{pmatrix}a&\begin{pmatrix}b\end{pmatrix}\\c\end{pmatrix}$") (lit "{pmatrix}a&\begin{pmatrix}b\end{pmatrix}\\c\end{pmatrix}$") /\
  env_args (lit "pmatrix") (lit "a&\begin{pmatrix}b\end{pmatrix}\\c\end{pmatrix}$")
    (mkEnvironment (GMatrix CACenter) any_marks None (Some (40, 41))) (lit "a&\begin{pmatrix}b\end{pmatrix}\\c\end{pmatrix}$") /\
  lines (lit "a&\begin{pmatrix}b\end{pmatrix}\\c\end{pmatrix}$") [] (lit "a&\begin{pmatrix}b\end{pmatrix}\\c\end{pmatrix}$") /\
  enclosed (begin_of (lit "pmatrix")) (end_of (lit "pmatrix")) (lit "a&\begin{pmatrix}b\end{pmatrix}\\c\end{pmatrix}$")
    (lit "a&\begin{pmatrix}b\end{pmatrix}\\c") [36] /\
  parses_in (Some (0, any_marks)) (lit "a&\begin{pmatrix}b\end{pmatrix}\\c")
    [ord 97; EvFlow EFAlignment; EvBegin (GLeftRight (Some 40) (Some 41)); EvBegin (GMatrix CACenter); ord 98; EvEnd; EvEnd;
     EvFlow (EFNewLine None []); ord 99] /\
  defines_nothing (lit "a&\begin{pmatrix}b\end{pmatrix}\\c").
Proof.
  split; [is_control "begin"%string ""%string "{pmatrix}a&\begin{pmatrix}b\end{pmatrix}\\c\end{pmatrix}$"%string|].
  split; [apply EA_plain; d_in|]. split; [apply lines_none; vm_compute; reflexivity|].
  split; [apply (group_content_iff (GKMatrix MtParens false)); vm_compute; reflexivity|].
  split; [parse_it|no_defs].
Qed.

(** C21 is false as stated: white space before the name of the end hides it. *)
Theorem C21_refuted : shows (new_parser (lit "\begin {matrix}a\end {matrix}")) ([], EndError (EUnbalancedGroup (Some (GKMatrix MtNormal false)))).
Proof. exists 5%nat. do 3 eexists. split; [vm_compute; reflexivity|]. split; [discriminate|reflexivity]. Qed.
Print Assumptions C21_refuted.
