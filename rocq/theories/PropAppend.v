(** * PropAppend: texts one after the other. *)

From Coq Require Import Ascii String List NArith ZArith Bool Lia.
From Verif Require Import LexFacts Base Float32 Event Tables Prim PrimTable Lex Macros Primitives Spans Parser
  SpecLex SpecNum Api SimRun SpecFormula FormulaProps FormulaHole FormulaDerive SpecFault FormulaFirst SpecBeyond FormulaDecide2 FormulaCore FormulaDecide
  SpecAppend FormulaAppend FormulaSpace FormulaPrefix.
Import ListNotations.
Open Scope N_scope.
Open Scope list_scope.

#[local] Existing Instance nothing_known.

(** ** C80: a text after a formula *)

(** Whatever is written after a formula, the formula keeps its meaning, and then
    comes what the rest yields by itself. *)
Theorem C80_rest : forall s es q, formula None s es -> no_comment_left s -> stands_off q -> continues (s ++ q) es q.
Proof. exact formula_then. Qed.
Print Assumptions C80_rest.

(** Two formulas are a formula, and mean what the one means and then what the
    other means. *)
Theorem C80_both : forall s es q fs, formula None s es -> no_comment_left s -> stands_off q -> formula None q fs ->
  formula None (s ++ q) (es ++ fs) /\ parses (s ++ q) (map ItEvent (es ++ fs)).
Proof.
  intros s es q fs H1 H2 H3 H4. pose proof (formula_both s es q fs H1 H2 H3 H4) as H. split; [exact H|].
  apply meaning_parses. eapply formula_more; [|exact H]. intros al0 s0 es0 [].
Qed.
Print Assumptions C80_both.

(** C80, of what the parser yields for the three texts. *)
Theorem C80_plain : forall s es q fs, plain s -> plain q -> parses s (map ItEvent es) -> parses q (map ItEvent fs) ->
  no_comment_left s -> stands_off q -> parses (s ++ q) (map ItEvent (es ++ fs)).
Proof.
  intros s es q fs P1 P2 H1 H2 Hc Hq. apply plain_parses in H1, H2; [|assumption..]. apply (C80_both s es q fs); assumption.
Qed.
Print Assumptions C80_plain.

(** C80: after a comment and the end of its line any text is read as by itself,
    also one that would go on with the formula. *)
Theorem C80_comment : forall s es t q, formula None s es -> ~ In 10 t -> continues (s ++ 37 :: t ++ 10 :: q) es q.
Proof. exact comment_then. Qed.
Print Assumptions C80_comment.

Theorem C80_lines : forall s es t q fs, plain s -> plain q -> parses s (map ItEvent es) -> parses q (map ItEvent fs) -> ~ In 10 t ->
  parses (s ++ 37 :: t ++ 10 :: q) (map ItEvent (es ++ fs)).
Proof.
  intros s es t q fs P1 P2 H1 H2 Ht. apply plain_parses in H1, H2; [|assumption..].
  apply meaning_parses. eapply (formula_more nothing_known); [|exact (comment_both s es t q fs H1 Ht H2)]. intros al0 s0 es0 [].
Qed.
Print Assumptions C80_lines.

(** A case: the comment keeps the script from the base, and the letter from the
    command. *)
Example C80_comment_case : plain (lit "a\pi") /\ plain (lit "x^2") /\ plain (lit "^2") /\
  parses (lit "a\pi" ++ 37 :: lit "note" ++ 10 :: lit "x^2") (map ItEvent [ord 97; ord 960; EvScript STSup SPRight; ord 120; EvContent (CNumber (lit "2"))]) /\
  parses (lit "a\pi" ++ 37 :: lit "note" ++ 10 :: lit "^2") (map ItEvent [ord 97; ord 960; EvScript STSup SPRight; EvBegin GNormal; EvEnd; EvContent (CNumber (lit "2"))]).
Proof.
  split; [apply plain_dec; vm_compute; reflexivity|]. split; [apply plain_dec; vm_compute; reflexivity|]. split; [apply plain_dec; vm_compute; reflexivity|].
  split; (exists 200%nat; eexists; vm_compute; reflexivity).
Qed.

(** A case: a formula that ends with a command, and one that starts with a sign. *)
Lemma no_percent : forall s, forallb (fun c => negb (c =? 37)) s = true -> no_comment_left s.
Proof.
  intros s H a t ->. rewrite forallb_app in H. apply andb_prop in H as [_ H]. cbn in H. discriminate.
Qed.

Example C80_case : plain (lit "\frac{a}{2} \leq x^2_\alpha \dots") /\ plain (lit "=\sqrt[3]{y}+\begin{matrix}1&2\end{matrix}") /\
  no_comment_left (lit "\frac{a}{2} \leq x^2_\alpha \dots") /\ stands_off (lit "=\sqrt[3]{y}+\begin{matrix}1&2\end{matrix}").
Proof.
  split; [apply plain_dec; vm_compute; reflexivity|]. split; [apply plain_dec; vm_compute; reflexivity|]. split; [apply no_percent; reflexivity|].
  split; [|intros r; split; discriminate]. change (~ goes_with 61). unfold goes_with, letter, numeric, digit. intros H.
  repeat match goal with H : _ \/ _ |- _ => destruct H as [H|H] end; try discriminate; lia.
Qed.

(** The conditions are needed: a digit goes on with a number, a script with its
    base, [\limits] with its operator, and what follows a comment belongs to it. *)
Example C80_needed :
  parses (lit "1" ++ lit "2") (map ItEvent [EvContent (CNumber (lit "12"))]) /\
  parses (lit "a" ++ lit "^2") (map ItEvent [EvScript STSup SPRight; ord 97; EvContent (CNumber (lit "2"))]) /\
  parses (lit "a%" ++ lit "=b") (map ItEvent [ord 97]) /\
  parses (lit "\min" ++ lit "\limits_x") (map ItEvent [EvScript STSub SPAboveBelow; EvContent (CFunction (lit "min")); ord 120]) /\
  parses (lit "\p" ++ lit "i") (map ItEvent [ord 960]).
Proof. repeat split; (exists 200%nat; eexists; vm_compute; reflexivity). Qed.

(** C80: white space keeps apart letters and digits as well. Its first character
    is to be ASCII: after a length the parser panics at others (C14). *)
Theorem C80_space : forall s es c w q, formula None s es -> no_comment_left s -> c < 128 -> white (c :: w) -> stands_off_spaced q ->
  continues (s ++ c :: w ++ q) es q.
Proof. exact space_then. Qed.
Print Assumptions C80_space.

Theorem C80_spaced : forall s es c w q fs, plain s -> plain q -> parses s (map ItEvent es) -> parses q (map ItEvent fs) ->
  no_comment_left s -> c < 128 -> white (c :: w) -> stands_off_spaced q -> parses (s ++ c :: w ++ q) (map ItEvent (es ++ fs)).
Proof.
  intros s es c w q fs P1 P2 H1 H2 Hc Hc0 Hw Hq. apply plain_parses in H1, H2; [|assumption..].
  apply meaning_parses. eapply (formula_more nothing_known); [|exact (space_both s es c w q fs H1 Hc Hc0 Hw Hq H2)]. intros al0 s0 es0 [].
Qed.
Print Assumptions C80_spaced.

(** A case: the letter is not of the command, and the digit not of the number. *)
Example C80_space_case : plain (lit "2\pi") /\ plain (lit "x^2") /\ no_comment_left (lit "2\pi") /\ stands_off_spaced (lit "x^2") /\
  parses (lit "2\pi" ++ 32 :: lit "x^2") (map ItEvent [EvContent (CNumber (lit "2")); ord 960; EvScript STSup SPRight; ord 120; EvContent (CNumber (lit "2"))]) /\
  parses (lit "1" ++ 32 :: lit "2") (map ItEvent [EvContent (CNumber (lit "1")); EvContent (CNumber (lit "2"))]).
Proof.
  split; [apply plain_dec; vm_compute; reflexivity|]. split; [apply plain_dec; vm_compute; reflexivity|]. split; [apply no_percent; reflexivity|].
  split; [|split; (exists 200%nat; eexists; vm_compute; reflexivity)].
  split; [|split; intros r; split; discriminate]. cbn. intros H. repeat match goal with H : _ \/ _ |- _ => destruct H as [H|H] end; discriminate.
Qed.

(** These conditions are needed too: a script goes on with its base also after a
    space, and [plus] with a length. *)
Example C80_space_needed :
  parses (lit "a" ++ 32 :: lit "^2") (map ItEvent [EvScript STSup SPRight; ord 97; EvContent (CNumber (lit "2"))]) /\
  parses (lit "\min" ++ 32 :: lit "\limits_x") (map ItEvent [EvScript STSub SPAboveBelow; EvContent (CFunction (lit "min")); ord 120]) /\
  (exists d, parses (lit "\hskip1em" ++ 32 :: lit "plus1em") (map ItEvent [EvSpace (Some d) None None])) /\
  parses (lit "\dots") (map ItEvent [ord 8943]) /\
  parses (lit "\dots" ++ 32 :: lit ",") (map ItEvent [ord 8230; EvContent (CPunctuation 44)]).
Proof. repeat split; try (exists 200%nat; eexists; vm_compute; reflexivity). eexists. exists 200%nat. eexists. vm_compute. reflexivity. Qed.

(** C80, of any number of formulas, each on lines of its own that end with a
    comment. *)
Theorem C80_document : forall ss ess, Forall2 (fun s es => plain s /\ parses s (map ItEvent es)) ss ess ->
  parses (flat_map (fun s => s ++ [37; 10]) ss) (map ItEvent (concat ess)).
Proof.
  intros ss ess H. apply meaning_parses. apply (formula_more nothing_known); [intros al0 s0 es0 []|].
  induction H as [|s es ss ess [P1 H1] _ IH]; [apply F_end; constructor|]. apply plain_parses in H1; [|assumption].
  cbn [flat_map concat]. rewrite <- app_assoc. exact (comment_both s es [] _ _ H1 (fun H => H) IH).
Qed.
Print Assumptions C80_document.

Example C80_document_case : Forall2 (fun s es => plain s /\ parses s (map ItEvent es)) [lit "\pi"; lit "^2"; lit "x%y"]
  [[ord 960]; [EvScript STSup SPRight; EvBegin GNormal; EvEnd; EvContent (CNumber (lit "2"))]; [ord 120]].
Proof. repeat constructor; first [apply plain_dec; vm_compute; reflexivity|exists 200%nat; eexists; vm_compute; reflexivity]. Qed.

(** So is the condition on the white space. *)
Example C80_ascii_needed : parses (lit "\kern1em") (map ItEvent [space_w (mkDim (f32_signed false 1) UEm)]) /\ white [160] /\
  panics (lit "\kern1em" ++ 160 :: lit "x") [] PBoundary.
Proof. split; [exists 200%nat; eexists; vm_compute; reflexivity|]. split; [reflexivity|]. exists 200%nat. eexists. vm_compute. reflexivity. Qed.

(** C80: a formula in braces is kept apart from any text that does not start with
    a script. *)
Theorem C80_braces : forall s es q, formula None s es -> balanced 123 125 s -> ~ starts 94 q -> ~ starts 95 q ->
  continues (123 :: s ++ 125 :: q) (EvBegin GNormal :: es ++ [EvEnd]) q.
Proof.
  intros s es q H Hb H1 H2. apply begins_continues. rewrite <- (app_nil_r (EvBegin GNormal :: es ++ [EvEnd])). eapply B_cons; [|constructor].
  eapply I_nucleus; [apply (N_group false [] s es q); [constructor|exact Hb|]|split; reflexivity|apply S_none; assumption].
  eapply (formula_more nothing_known); [|exact H]. intros al0 s0 es0 [].
Qed.
Print Assumptions C80_braces.

(** A case: the digits are two numbers. *)
Example C80_braces_case : plain (lit "1") /\ parses (lit "1") (map ItEvent [EvContent (CNumber (lit "1"))]) /\ balanced 123 125 (lit "1") /\
  ~ starts 94 (lit "2") /\ ~ starts 95 (lit "2") /\
  parses (123 :: lit "1" ++ 125 :: lit "2") (map ItEvent [EvBegin GNormal; EvContent (CNumber (lit "1")); EvEnd; EvContent (CNumber (lit "2"))]).
Proof.
  split; [apply plain_dec; vm_compute; reflexivity|]. split; [exists 200%nat; eexists; vm_compute; reflexivity|].
  split; [apply (balanced_dec GKNormal); [left; auto|vm_compute; reflexivity]|].
  split; [|split; [|exists 200%nat; eexists; vm_compute; reflexivity]]; (intros (w & r & Hw & E); destruct w as [|c w]; [discriminate E|injection E as <- _; discriminate Hw]).
Qed.
