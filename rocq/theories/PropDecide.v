(** * PropDecide: every text is decided by the rules of SpecFormula and SpecFault.

    C60 says that what has a meaning is parsed to it, C63 that what is wrong is
    reported. Here is the converse: a text has a meaning, or comes to something
    wrong, or to one of the few things listed in SpecBeyond. *)

From Coq Require Import Ascii String List NArith ZArith Bool Lia.
From Verif Require Import LexFacts Base Float32 Event Tables Prim PrimTable Lex Macros Primitives Spans Parser
  SpecLex SpecNum Api SimRun SpecFormula FormulaProps FormulaHole FormulaDerive SpecFault FormulaFirst SpecBeyond FormulaDecide2 FormulaCore FormulaDecide.
Import ListNotations.
Open Scope N_scope.
Open Scope list_scope.

#[local] Existing Instance nothing_known.

(** C76: of every text. *)
Theorem C76_settled : forall t,
  (exists es, formula None t es /\ parses t (map ItEvent es)) \/
  (exists al g pre e, part g t /\ comes_to t al g pre /\ @fault anything al g e /\ shows (new_parser t) (pre, EndError e)) \/
  (exists al g pre, part g t /\ comes_to t al g pre /\ unsaid g).
Proof. exact settled_all. Qed.
Print Assumptions C76_settled.

(** C76: where nothing doubtful occurs, exactly the formulas parse. *)
Theorem C76_plain_parses : forall t, plain t -> forall es, parses t (map ItEvent es) <-> formula None t es.
Proof. exact plain_parses. Qed.
Print Assumptions C76_plain_parses.

(** C76: there, the errors are exactly the first mistakes. *)
Theorem C76_plain_fails : forall t, plain t -> forall pre e, shows (new_parser t) (pre, EndError e) <->
  exists al g, part g t /\ comes_to t al g pre /\ @fault anything al g e.
Proof. exact plain_fails. Qed.
Print Assumptions C76_plain_fails.

(** C76: there, nothing else can happen. *)
Theorem C76_plain_ends : forall t, plain t ->
  exists es, shows (new_parser t) (es, EndDone) \/ exists e, shows (new_parser t) (es, EndError e).
Proof. exact plain_ends. Qed.
Print Assumptions C76_plain_ends.

(** C76: no text has two meanings. *)
Theorem C76_unique : forall t es es', formula None t es -> formula None t es' -> es = es'.
Proof. exact meaning_unique. Qed.
Print Assumptions C76_unique.

Example C76_plain_case : plain (lit "\frac{a_1}{\sqrt x}\mathbf{v} \left( \begin{matrix} a & -b \\ 0.5 & \pi \end{matrix} \right)^{2} % end") /\
  plain (lit "\sum_{i=1}^n \int\limits_0^\infty f[x] \,\text{if } \displaystyle\lim_{x\to 0} \frac\alpha\beta \color{red} \operatorname{rank} x^\frac12 \textcolor{blue}{y}").
Proof. split; apply plain_dec; vm_compute; reflexivity. Qed.

Example C76_plain_more : plain (lit "a \mathrel{R} b \mathop{lim}_x \mathbin\oplus \mathord7 \colorbox{red}{warm} \substack{a \\ b} \sqrt[3]{x} \xrightarrow[below]{above} \fcolorbox{red}{blue}{c}") /\
  plain (lit "\mathrel").
Proof. split; apply plain_dec; vm_compute; reflexivity. Qed.

Example C76_plain_environments : plain (lit "\begin{array}{c|c} a & b \\ \hline c & d \end{array} \begin{pmatrix*}[r] -1 \\ 10 \end{pmatrix*} \begin{alignat}{2} x & = y \end{alignat}") /\
  plain (lit "\begin{array}{cx} a \end{array}").
Proof. split; apply plain_dec; vm_compute; reflexivity. Qed.

Example C76_plain_parts : plain (lit "\genfrac(){1pt}0ab+\genfrac[]{}{}n{k+1} \genfrac{}{}{2em }2\alpha1 \Space{1em} {2em}{3em} \sideset{a}{b}\sum_x \sideset'*\prod \sideset{}{} c") /\
  plain (lit "\genfrac{(}{)}{0pt}{}{n}{k}") /\ plain (lit "\genfrac(){x}") /\ plain (lit "\Space{1em}{2em}") /\ plain (lit "\Space{}") /\ plain (lit "\sideset{a}") /\
  ~ plain (lit "\genfrac(){1pt}0a\sum") /\ ~ plain (lit "\Space{1em}{2em}{3em x}").
Proof.
  repeat match goal with |- _ /\ _ => split end; try (apply plain_dec; vm_compute; reflexivity).
  - intros [_ H]. apply (H (lit "\genfrac(){1pt}0a\sum")); [exists [], []; split; [reflexivity|exact I]|].
    apply (DC_second_part (lit "(){1pt}0a\sum") (lit "a") [] (lit "sum")); [|vm_compute; intuition discriminate| |apply blank_nil|apply is_in_true; vm_compute; reflexivity].
    + apply (AA_one 3 _ (lit "){1pt}0a\sum")); [apply (OA_char [] 40); [apply blank_nil|reflexivity|discriminate|discriminate|left; discriminate]|].
      apply (AA_one 2 _ (lit "{1pt}0a\sum")); [apply (OA_char [] 41); [apply blank_nil|reflexivity|discriminate|discriminate|left; discriminate]|].
      apply (AA_one 1 _ (lit "0a\sum")); [apply (OA_group [] (lit "1pt")); [reflexivity|apply braces_dec; vm_compute; reflexivity]|].
      apply (AA_one 0 _ (lit "a\sum")); [apply (OA_char [] 48); [apply blank_nil|reflexivity|discriminate|discriminate|left; discriminate]|]. constructor.
    + apply (T_char [] 97); [apply blank_nil|reflexivity|discriminate..].
  - intros [H _]. apply (H (lit "\Space{1em}{2em}{3em ")); [exists [], (lit "x}"); reflexivity|].
    destruct (length_b_sound (lit "3em") eq_refl) as [d Hd].
    apply (DF_strut 2 (lit "{1em}{2em}{3em ") [] (lit "3em ")); [lia| |vm_compute; intuition discriminate|reflexivity|apply (DP_more (lit "3em") d 32 Hd); discriminate].
    apply (AA_one 1 _ (lit "{2em}{3em ")); [apply (OA_group [] (lit "1em")); [reflexivity|apply braces_dec; vm_compute; reflexivity]|].
    apply (AA_one 0 _ (lit "{3em ")); [apply (OA_group [] (lit "2em")); [reflexivity|apply braces_dec; vm_compute; reflexivity]|]. constructor.
Qed.

Example C76_plain_lengths : plain (lit "a \kern-1.5em b\hspace{2 cm }c \mkern 3mu \hskip1pt d \mskip{4mu} \char98 \frac12 \kern{1em}") /\
  plain (lit "\hspace 1em") /\ plain (lit "\mkern{3pt}") /\ plain (lit "\kern 5") /\ plain (lit "\char x") /\ ~ plain (lit "\kern em") /\
  plain (lit "\hskip 1pt plus 1pt  minus2 em a\mskip{ 3mu minus 1mu }\hspace{1pt plus 2pt}") /\ plain (lit "\hskip 1pt plus x") /\ plain (lit "\mskip{3mu plus 1pt}") /\
  plain (lit "\hskip{1pt minus 1pt a}") /\ ~ plain (lit "\hskip 1pt plus pt").
Proof.
  assert (Hk : forall x d, dimension_text x d -> length_b x = true) by exact length_b_complete.
  repeat match goal with |- _ /\ _ => split end; try (apply plain_dec; vm_compute; reflexivity); intros [H _].
  - apply (H (lit "\kern em")); [exists [], []; reflexivity|]. apply (DF_length (lit "kern") [] (lit " em")); [left; split; [reflexivity|discriminate]| |vm_compute; intuition (discriminate || auto)].
    apply DL_length; [right; left; reflexivity|]. apply BL_number; [|intros d Hd; apply Hk in Hd; discriminate]. apply (SL_integer [32] [] [] (lit "em") UEm); [constructor; [right; right; reflexivity|constructor]|constructor|reflexivity|left; reflexivity].
  - apply (H (lit "\hskip 1pt plus pt")); [exists [], []; reflexivity|]. apply (DF_length (lit "hskip") [] (lit " 1pt plus pt")); [left; split; [reflexivity|discriminate]| |vm_compute; intuition (discriminate || auto)].
    destruct (length_b_sound (lit " 1pt") eq_refl) as [d Hd]. apply (DL_stretch (lit "hskip") (lit " 1pt plus") (lit " pt")); [right; left; reflexivity|apply (GS_plus (lit " 1pt") d [32] Hd); reflexivity|].
    apply BL_number; [|intros d' Hd'; apply Hk in Hd'; discriminate]. apply (SL_integer [32] [] [] (lit "pt") UPt); [constructor; [right; right; reflexivity|constructor]|constructor|reflexivity|vm_compute; tauto].
Qed.

Example C76_length_case : @fault anything None (lit "\kern 5 a") EDimensionUnit /\ @fault anything None (lit "\hspace 1em") EDimensionArgument /\
  @fault anything None (lit "\char x") ENumber /\ @fault anything None (lit "\hskip 1pt plus a") EDimensionUnit /\ (exists d, nucleus false (lit "\hspace{2 cm }c") [EvSpace (Some d) None None] no_limits (lit "c")).
Proof.
  split; [|split; [|split; [|split]]]; try apply X_nucleus.
  - eapply (W_no_unit_bare None false [] (lit "kern") false false (lit "\kern 5 a") (lit "5 a")); [apply blank_nil|left; reflexivity|apply (control_dec (lit "kern") [32] (lit "5 a")); vm_compute; reflexivity| |].
    + intros (w & r & Hw & E). destruct w as [|c w]; [discriminate|]. injection E as <- _. discriminate Hw.
    + left. exact (first_or (lit "5 a")).
  - apply (W_hspace None false [] (lit "\hspace 1em") (lit "1em") EArgument); [apply blank_nil|apply (control_dec (lit "hspace") [32] (lit "1em")); vm_compute; reflexivity|].
    apply (NG_char [] 49 (lit "em")); [apply blank_nil|reflexivity|discriminate|discriminate|]. intros (w & r & Hw & E). destruct w as [|c w]; [discriminate|]. injection E as <- _. discriminate Hw.
  - apply (W_char_none None false [] (lit "\char x") (lit "x")); [apply blank_nil|apply (control_dec (lit "char") [32] (lit "x")); vm_compute; reflexivity|].
    vm_compute. intuition (discriminate || auto).
  - apply (W_no_unit_bare None false [] (lit "hskip") true false (lit "\hskip 1pt plus a") (lit "1pt plus a"));
      [apply blank_nil|vm_compute; tauto|apply (control_dec (lit "hskip") [32] (lit "1pt plus a")); vm_compute; reflexivity| |].
    + intros (w & r & Hw & E). destruct w as [|c w]; [discriminate|]. injection E as <- _. discriminate Hw.
    + right. split; [reflexivity|]. destruct (length_b_sound (lit "1pt") eq_refl) as [d Hd].
      apply (SG_plus (lit "1pt") d (lit " plus a") (lit "plus a") (lit " a") Hd); [right; exists 32; split; [reflexivity|split; [lia|reflexivity]]|exists []; split; reflexivity|exact (first_or (lit " a"))].
  - destruct (length_b_sound (lit "2 cm") eq_refl) as [d Hd]. exists d.
    apply (N_hspace false [] (lit "\hspace{2 cm }c") [] (lit "2 cm") [32] d (lit "c")); [apply blank_nil|apply (control_dec (lit "hspace") [] (lit "{2 cm }c")); vm_compute; reflexivity|reflexivity|exact Hd|].
    exists []. split; [right; exists 32; split; [reflexivity|split; [lia|reflexivity]]|reflexivity].
Qed.

(** The four ways to write the number of a character, and what is wrong with some. *)
Example C76_code_case : plain (lit "\char""41\char'102 \char`C\char`\}") /\
  nucleus false (lit "\char""41 x") [ord 65] no_limits [120] /\ nucleus false (lit "\char'101x") [ord 65] no_limits [120] /\
  nucleus false (lit "\char`Ax") [ord 65] no_limits [120] /\ nucleus false (lit "\char`\Ax") [ord 65] no_limits [120] /\
  @fault anything None (lit "\char""FF0") EInvalidCharNumber /\ @fault anything None (lit "\char`") ENumber /\
  @fault anything None (lit "\char`" ++ [233]) ECharacterNumber.
Proof.
  assert (Hc : forall x, control (lit "char") (lit "\char" ++ 34 :: x) (34 :: x)) by (intros x; apply (control_dec (lit "char") [] (34 :: x)); reflexivity).
  assert (Hq : forall x, control (lit "char") (lit "\char" ++ 96 :: x) (96 :: x)) by (intros x; apply (control_dec (lit "char") [] (96 :: x)); reflexivity).
  split; [apply plain_dec; vm_compute; reflexivity|]. split; [|split; [|split; [|split; [|split; [|split]]]]]; try apply X_nucleus.
  - apply (N_char_code false [] _ (34 :: lit "41 x")); [apply blank_nil|apply Hc| |lia].
    apply (CT_figures (34 :: lit "41") 65 (lit " x")); [apply (F_hexadecimal (lit "41")); cbv [lit List.map list_ascii_of_string N_of_ascii N_of_digits N.add N.mul Pos.add Pos.mul Pos.succ]; repeat (apply Forall_cons; [unfold hexadecimal_digit, digit; lia|]); apply Forall_nil| |].
    + vm_compute. intuition (discriminate || auto).
    + right. exists 32. split; [reflexivity|split; [lia|reflexivity]].
  - apply (N_char_code false [] _ (39 :: lit "101x")); [apply blank_nil|apply (control_dec (lit "char") [] (39 :: lit "101x")); reflexivity| |lia].
    apply (CT_figures (39 :: lit "101") 65 (lit "x")); [apply (F_octal (lit "101")); cbv [lit List.map list_ascii_of_string N_of_ascii N_of_digits N.add N.mul Pos.add Pos.mul Pos.succ]; repeat (apply Forall_cons; [unfold octal_digit; lia|]); apply Forall_nil| |].
    + vm_compute. intuition (discriminate || auto).
    + left. split; [reflexivity|]. vm_compute. discriminate.
  - apply (N_char_code false [] _ (96 :: lit "Ax")); [apply blank_nil|apply Hq|apply (CT_character 65); [lia|discriminate]|lia].
  - apply (N_char_code false [] _ (96 :: lit "\Ax")); [apply blank_nil|apply Hq|apply (CT_escaped 65); lia|lia].
  - apply (W_char_code None false [] _ (34 :: lit "FF0") 4080 []); [apply blank_nil|apply Hc| |lia].
    apply (CT_figures (34 :: lit "FF0") 4080 []); [apply (F_hexadecimal (lit "FF0")); cbv [lit List.map list_ascii_of_string N_of_ascii N_of_digits N.add N.mul Pos.add Pos.mul Pos.succ]; repeat (apply Forall_cons; [unfold hexadecimal_digit, digit; lia|]); apply Forall_nil|exact I|].
    left. split; [reflexivity|exact I].
  - apply (W_char_mark None false [] _ [96]); [apply blank_nil|apply Hq|left; reflexivity].
  - apply (W_char_wide None false [] _ [96] 233 []); [apply blank_nil|apply Hq|left; reflexivity|lia].
Qed.

Example C76_environment_case : @fault anything None (lit "\begin{array}{cx} a \end{array}") EArgument /\ @fault anything None (lit "\begin{alignat}{x}") ENumber /\
  @fault anything None (lit "\begin{darray}{||}") EArrayNoColumns /\ @fault anything None (lit "\begin{matrix*}[x]") EArgument.
Proof.
  split; [|split; [|split]]; apply X_nucleus.
  - eapply (W_env_args None false [] (lit "\begin{array}{cx} a \end{array}") [] (lit "array") (lit "{cx} a \end{array}"));
      [apply blank_nil|apply (control_dec (lit "begin") [] (lit "{array}{cx} a \end{array}")); vm_compute; reflexivity|reflexivity|].
    apply (NE_column (lit "array") [] [99] [ACColumn CACenter] 120 [] (lit " a \end{array}")); [left; reflexivity|reflexivity|apply braces_dec; vm_compute; reflexivity| |reflexivity|].
    + constructor; [right; left; reflexivity|constructor].
    + vm_compute. intuition discriminate.
  - eapply (W_env_args None false [] (lit "\begin{alignat}{x}") [] (lit "alignat") (lit "{x}"));
      [apply blank_nil|apply (control_dec (lit "begin") [] (lit "{alignat}{x}")); vm_compute; reflexivity|reflexivity|].
    apply (NE_pairs (lit "alignat") [] (lit "x") []); [left; reflexivity|reflexivity|apply braces_dec; vm_compute; reflexivity|].
    vm_compute. intuition (discriminate || auto).
  - eapply (W_env_args None false [] (lit "\begin{darray}{||}") [] (lit "darray") (lit "{||}"));
      [apply blank_nil|apply (control_dec (lit "begin") [] (lit "{darray}{||}")); vm_compute; reflexivity|reflexivity|].
    apply (NE_no_columns (lit "darray") [] (lit "||") [ACSep LSolid; ACSep LSolid] []); [right; left; reflexivity|reflexivity| |reflexivity].
    repeat (constructor; [vm_compute; tauto|]). constructor.
  - eapply (W_env_args None false [] (lit "\begin{matrix*}[x]") [] (lit "matrix*") (lit "[x]"));
      [apply blank_nil|apply (control_dec (lit "begin") [] (lit "{matrix*}[x]")); vm_compute; reflexivity|reflexivity|].
    apply (NE_option (lit "matrix*") [] (lit "x") []); [left; reflexivity|reflexivity|apply brackets_dec; vm_compute; reflexivity|vm_compute; intuition discriminate].
Qed.

Example C76_class_case : nucleus false (lit "\mathrel R+") [rel 82] no_limits (lit "+") /\
  nucleus true (lit "\mathbin\oplus") [EvBegin GNormal; bin 8853; EvEnd] no_limits [] /\
  @fault anything None (lit "\mathrel") EToken /\ @fault anything None (lit "\sqrt[3") EToken.
Proof.
  split; [|split; [|split]].
  - eapply (N_class_bare false [] (lit "mathrel") (lit "\mathrel R+") _ [] 82 (lit "+")); try discriminate; try apply blank_nil; try reflexivity.
    + apply (control_dec (lit "mathrel") [32] (lit "R+")); vm_compute; reflexivity.
    + d_in.
    + intros (w & r & Hw & E). destruct w as [|c w]; [discriminate|]. injection E as <- _. discriminate Hw.
  - eapply (N_class_command true [] (lit "mathbin") (lit "\mathbin\oplus") _ [] (lit "oplus") (lit "\oplus") [] [bin 8853]); try apply blank_nil.
    + apply (control_dec (lit "mathbin") [] (lit "\oplus")); vm_compute; reflexivity.
    + d_in.
    + apply (control_dec (lit "oplus") [] []); vm_compute; reflexivity.
    + d_nucleus.
  - apply X_nucleus. eapply (W_class None false [] (lit "mathrel") (lit "\mathrel") []); [apply blank_nil|apply (control_dec (lit "mathrel") [] []); vm_compute; reflexivity|apply is_in_true; vm_compute; reflexivity|].
    apply NA_end, NL_blank, blank_nil.
  - apply X_nucleus. eapply (W_option None false [] (lit "sqrt") (lit "\sqrt[3") [] (lit "3")); [apply blank_nil|apply (control_dec (lit "sqrt") [] (lit "[3")); vm_compute; reflexivity|left; reflexivity|reflexivity| |].
    + intros (g & r & H). apply (enclosed_balanced 91 93) in H as [_ H]; [|discriminate]. destruct g as [|c [|d g]]; discriminate H.
    + vm_compute. intros [E|[]]. discriminate E.
Qed.

Example C76_formula_case : formula None (lit "\frac a{b_1}") [EvVisual (VFraction None); ord 97; EvBegin GNormal; EvScript STSub SPRight; ord 98; EvContent (CNumber (lit "1")); EvEnd] /\
  plain (lit "\frac a{b_1}").
Proof. split; [derive|apply plain_dec; vm_compute; reflexivity]. Qed.

Example C76_fault_case : plain (lit "a \frac{b} ^2") /\ @fault anything None (lit "\frac{b} ^2") EScriptAsArgument.
Proof.
  split; [apply plain_dec; vm_compute; reflexivity|]. apply X_nucleus.
  eapply (W_command None false [] (lit "frac") _ (lit "{b} ^2")); [constructor|apply (control_dec (lit "frac") [] (lit "{b} ^2")); vm_compute; reflexivity|d_in|].
  eapply WA_later; [apply (@N_group anything true [] (lit "b") [] (lit " ^2")); [d_blank|apply braces_dec; vm_compute; reflexivity|apply F_known; exact I]|].
  apply WA_here. apply (W_script None [32] 94 [50]); [d_blank|left; reflexivity].
Qed.

Example C76_doubtful_case : unsaid (lit "x^\sum") /\ ~ plain (lit "x^\sum").
Proof.
  assert (Hc : control (lit "sum") (lit "\sum") []) by (apply (control_dec (lit "sum") [] []); vm_compute; reflexivity). split.
  - eapply (U_scripts _ [ord 120] no_limits); [apply (@N_char anything false [] 120 (lit "^\sum")); [constructor|reflexivity]|split; reflexivity|].
    apply (BS_first [] 94 (lit "\sum")); [reflexivity|left; reflexivity|]. eapply (B_limits [] (lit "sum") (lit "\sum")); [constructor|exact Hc|d_in|discriminate].
  - intros [_ H]. apply (H (lit "^\sum")); [exists (lit "x"), []; split; [reflexivity|exact I]|]. apply (DC_shy [94] [] (lit "sum")); [apply Q_script; left; reflexivity|apply blank_nil|apply is_in_true; vm_compute; reflexivity].
Qed.
