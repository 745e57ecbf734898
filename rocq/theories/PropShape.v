(** * Properties C03 to C08 and C11: the shape of the event stream. *)

From Coq Require Import List NArith ZArith Bool Lia Arith.
From Verif Require Import Base Float32 Event Lex Primitives Parser Api SpecEvent SpecGrammar SpecRows SpecMarks SpecInput
  SpecOpen PrimFacts CheckInput ShapeRun ShapeStrict MarkRun DepthRun.
Import ListNotations.
Open Scope N_scope.

(** C03: in an error-free stream the Begin and End events are balanced, on
    every input, also with macros. *)
Theorem C03_groups_balanced : forall input l, parses input l -> error_free l ->
  SpecEvent.depth 0 (events l) = Some 0%nat.
Proof. exact ShapeRun.groups_balanced. Qed.
Print Assumptions C03_groups_balanced.

Example C03_nested : exists l, parses (lit "\def\f#1{\left(#1\right)}\frac{\f{a}}{{b}}") l /\ error_free l /\
  length (filter (fun e => match e with EvBegin _ => true | _ => false end) (events l)) = 5%nat.
Proof. eexists. split; [exists 200%nat; eexists; vm_compute; reflexivity|]. split; reflexivity. Qed.

(** C04: at no moment, on no input, is there an End without its Begin; also
    with macros and after errors. *)
Theorem C04_groups_nest : forall input l, yields input l -> SpecEvent.depth 0 (events l) <> None.
Proof. exact DepthRun.nest_always. Qed.
Print Assumptions C04_groups_nest.

(** Two errors, of which the first leaves a group open. *)
Example C04_after_errors : exists l, parses (lit "{a\mathbf$}\def\f#1{{#1}}\f b}c") l /\
  length (filter is_error l) = 2%nat /\
  length (filter (fun e => match e with EvEnd => true | _ => false end) (events l)) = 2%nat /\
  SpecEvent.depth 0 (events l) = Some 1%nat.
Proof. eexists. split; [exists 60%nat; eexists; vm_compute; reflexivity|]. split; [|split]; vm_compute; reflexivity. Qed.

(** C05 fails: a group whose reading fails stays open. *)
Theorem C05_balanced_after_error_refuted : exists input l, parses input l /\
  SpecEvent.depth 0 (events l) = Some 1%nat.
Proof. exists (lit "\mathbf$b"). eexists. split; [exists 50%nat; eexists; vm_compute; reflexivity|reflexivity]. Qed.
Print Assumptions C05_balanced_after_error_refuted.

(** C05 without definitions and without the commands that start a group of
    their own: every group is closed, whatever the errors. *)
Theorem C05_balanced_after_error_partial : forall input l, defines_nothing input -> leaves_none_open input ->
  parses input l -> SpecEvent.depth 0 (events l) = Some 0%nat.
Proof. exact DepthRun.balanced_after_errors. Qed.
Print Assumptions C05_balanced_after_error_partial.

Example C05_errors : exists l, defines_nothing (lit "\frac{a}}{\left(b_1_2\right)^\foo}\begin{matrix}{c&d}\\ &&\end{matrix}\sqrt[}") /\
  leaves_none_open (lit "\frac{a}}{\left(b_1_2\right)^\foo}\begin{matrix}{c&d}\\ &&\end{matrix}\sqrt[}") /\
  parses (lit "\frac{a}}{\left(b_1_2\right)^\foo}\begin{matrix}{c&d}\\ &&\end{matrix}\sqrt[}") l /\
  length (filter is_error l) = 5%nat.
Proof.
  eexists. split; [refine (contains_none definition_commands _ _); vm_compute; reflexivity|].
  split; [refine (contains_none (opening_commands ++ opening_environments) _ _); vm_compute; reflexivity|].
  split; [exists 100%nat; eexists; vm_compute; reflexivity|]. vm_compute. reflexivity.
Qed.

(** None of these commands could be left out. *)
Theorem C05_commands_refuted : forall t, In t (opening_commands ++ opening_environments) ->
  exists input l d, contains t input /\ parses input l /\ SpecEvent.depth 0 (events l) = Some (S d).
Proof. exact DepthRun.opening_needed. Qed.
Print Assumptions C05_commands_refuted.

(** C06 on regular inputs: every error-free stream is a sequence of elements,
    where Visual and Script events have exactly the elements they require. *)
Theorem C06_arities_partial : forall input l, regular input -> parses input l -> error_free l ->
  elements (events l).
Proof. intros input l Hr Hp He. apply well_formed_grammar. exact (regular_well_formed input l Hr Hp He). Qed.
Print Assumptions C06_arities_partial.

(** The same for what has been seen of the stream at any moment: it can be
    continued. *)
Theorem C06_prefix_partial : forall input l, regular input -> yields input l -> error_free l ->
  well_begun (events l).
Proof. exact regular_well_begun. Qed.
Print Assumptions C06_prefix_partial.

Example C06_regular : regular (lit "\frac{a}{b}^2+\sqrt[3]{x_i^2}\begin{matrix}a&b\\ c&\not d\end{matrix}").
Proof. apply regular_test. vm_compute. reflexivity. Qed.
Example C06_regular_stream : exists l,
  parses (lit "\frac{a}{b}^2+\sqrt[3]{x_i^2}\begin{matrix}a&b\\ c&\not d\end{matrix}") l /\ error_free l /\ length l = 28%nat.
Proof. eexists. split; [exists 200%nat; eexists; vm_compute; reflexivity|]. split; reflexivity. Qed.

(** C06 fails in general: [\relax] emits nothing, and still gets a script. *)
Theorem C06_arities_refuted : exists input l, parses input l /\ error_free l /\ ~ elements (events l) /\
  events l = [EvScript STSup SPRight; EvContent (CNumber (lit "2"))].
Proof.
  exists (lit "\relax^2"). eexists. split; [exists 50%nat; eexists; vm_compute; reflexivity|].
  split; [reflexivity|]. split; [|reflexivity].
  intros H. apply well_formed_grammar in H as [b H]. vm_compute in H. discriminate.
Qed.
Print Assumptions C06_arities_refuted.

(** It also fails for an empty index of a root, a definition as an argument,
    and a script after a mark. *)
Theorem C06_more_refuted : forall input,
  In input [lit "\sqrt[]{x}"; lit "\frac\def\a{b}c"; lit "\begin{matrix}a&^2\end{matrix}"] ->
  exists l, parses input l /\ error_free l /\ ~ elements (events l).
Proof.
  intros input [<-|[<-|[<-|[]]]];
    (eexists; split; [exists 50%nat; eexists; vm_compute; reflexivity|]; split; [reflexivity|];
     intros H; apply well_formed_grammar in H as [b H]; vm_compute in H; discriminate).
Qed.
Print Assumptions C06_more_refuted.

(** C07 and C08 on regular inputs: marks and new lines are directly inside an
    environment, at any moment of the stream, and a mark is one that the
    environment still allows in the current row. *)
Theorem C07_flow_placement_partial : forall input l, regular input -> yields input l -> error_free l ->
  flow_placed (events l).
Proof. intros input l Hr Hy He. apply well_begun_placed. exact (regular_well_begun input l Hr Hy He). Qed.
Print Assumptions C07_flow_placement_partial.

Theorem C08_marks_per_row_partial : forall input l a b, regular input -> yields input l -> error_free l ->
  events l = (a ++ EvFlow EFAlignment :: b)%list ->
  exists g k S m, open_groups [] a = (g, k) :: S /\ marks g = Some m /\ k < m.
Proof.
  intros input l a b Hr Hy He E.
  destruct (well_begun_placed _ (regular_well_begun input l Hr Hy He) a _ b E) as (g & k & S & m & H1 & H2 & H3).
  exists g, k, S, m. auto.
Qed.
Print Assumptions C08_marks_per_row_partial.

(** The second mark in a row of [cases] is an error. *)
Example C08_cases : exists e, parses (lit "\begin{cases}a&b\\c&d&f\end{cases}")
  ([ItEvent (EvBegin (GCases true)); ItEvent (EvContent (COrdinary 97 false)); ItEvent (EvFlow EFAlignment);
    ItEvent (EvContent (COrdinary 98 false)); ItEvent (EvFlow (EFNewLine None []));
    ItEvent (EvContent (COrdinary 99 false)); ItEvent (EvFlow EFAlignment);
    ItEvent (EvContent (COrdinary 100 false)); ItError e; ItEvent (EvContent (COrdinary 102 false)); ItEvent EvEnd]).
Proof. eexists. exists 60%nat. eexists. vm_compute. reflexivity. Qed.
Example C08_regular : regular (lit "\begin{cases}a&b\\ c&d&f\end{cases}").
Proof. apply regular_test. vm_compute. reflexivity. Qed.

(** C08 on every input, up to the first error: a mark belongs to the innermost
    environment, and is one that it still allows in the current row; a new line
    is in an environment. *)
Theorem C08_marks_per_row : forall input l, yields input l -> error_free l ->
  marks_allowed (events l) /\ lines_allowed (events l).
Proof. exact MarkRun.marks_everywhere. Qed.
Print Assumptions C08_marks_per_row.

(** An input that is not regular: a macro, and a mark and a new line that are
    taken as the arguments of font commands. *)
Example C08_anywhere : exists l, parses (lit "\def\m{a\mathbf&}\begin{cases}\m b\mathrm\\[1em]\m^2c\end{cases}") l /\
  error_free l /\ filter (fun e => match e with EvFlow _ => true | _ => false end) (events l) =
    [EvFlow EFAlignment; EvFlow (EFNewLine (Some (mkDim (f32_lit 1 0) UEm)) []); EvFlow EFAlignment].
Proof. eexists. split; [exists 200%nat; eexists; vm_compute; reflexivity|]. split; vm_compute; reflexivity. Qed.

(** After an error a group may stay open (C05), and a mark then seems to be in
    an environment that has none. *)
Theorem C08_after_error_refuted : exists input l, parses input l /\ ~ marks_allowed (events l).
Proof.
  exists (lit "\begin{matrix}\begin{gathered}\mathrm\foo x\end{gathered}&b\end{matrix}"). eexists.
  split; [exists 60%nat; eexists; vm_compute; reflexivity|]. intros H.
  destruct (H [EvBegin (GMatrix CACenter); EvBegin GGathered; EvBegin GNormal; EvState (SCFont (Some FUpRight));
      EvContent (COrdinary 120 false); EvEnd]
    [EvContent (COrdinary 98 false); EvEnd] eq_refl) as (g & k & m & H1 & H2 & H3).
  vm_compute in H1. injection H1 as <- <-. vm_compute in H2. injection H2 as <-. vm_compute in H3. discriminate.
Qed.
Print Assumptions C08_after_error_refuted.

(** C07 fails in general: a font command takes a mark, or a new line, as its
    argument and puts it in a group that is not an environment. *)
Theorem C07_flow_placement_refuted : exists input l, parses input l /\ error_free l /\ ~ flow_placed (events l).
Proof.
  exists (lit "\begin{matrix}a\mathbf&b\end{matrix}"). eexists.
  split; [exists 50%nat; eexists; vm_compute; reflexivity|]. split; [reflexivity|]. intros H.
  destruct (H [EvBegin (GMatrix CACenter); EvContent (COrdinary 97 false); EvBegin GNormal; EvState (SCFont (Some FBold))]
    EFAlignment [EvEnd; EvContent (COrdinary 98 false); EvEnd] eq_refl) as (g & k & S & m & H1 & H2 & _).
  cbn in H1. injection H1 as <- <- <-. discriminate.
Qed.
Print Assumptions C07_flow_placement_refuted.

(** C11: in every state of the parser, moving the scripts of an element onto
    the stack (which the code does with an unsafe [set_len]) succeeds: the
    result is exactly the scripts, the subscript first, and what precedes them
    in the buffer is the base. *)
Theorem C11_scripts_moved : forall f q e sub sup q', parse f q = (Ok (Some (e, sub, sup)), q') ->
  exists base s1 s2 l, i_buf (q_ist q') = (base ++ s1 ++ s2)%list /\
    firstn (Nat.min sub sup) (i_buf (q_ist q')) = base /\
    order_scripts sub sup (i_buf (q_ist q')) = Ok l /\
    ((sub <= sup)%nat /\ l = (s1 ++ s2)%list \/ (sup < sub)%nat /\ l = (s2 ++ s1)%list).
Proof. exact ShapeRun.script_order. Qed.
Print Assumptions C11_scripts_moved.

(** The superscript comes first in the source here: *)
Example C11_rotated : exists q' x y,
  parse 3 (of_parser (new_parser (lit "x^2_{ab}")) (mkSlice 0 0 (lit "x^2_{ab}")) None) =
    (Ok (Some (EvScript STSubSup SPRight, x, y)), q') /\ (y < x)%nat /\ length (i_buf (q_ist q')) = 5%nat.
Proof. eexists. eexists. eexists. split; [vm_compute; reflexivity|]. split; [lia|reflexivity]. Qed.
