(** * PropMacro: properties about macros. *)

From Coq Require Import Ascii String List NArith ZArith Bool Lia.
From Verif Require Import Base Float32 Event Tables Prim PrimTable Lex Macros Primitives Spans Parser
  SpecLex SpecNum SpecMacro Keep Terminate Api MacroFacts Sim SimRun SpanFacts MacroRun Preamble SpanRun SpecDefect MacroErr.
Import ListNotations.
Open Scope N_scope.

(** Small automation for the examples only. *)
Ltac chars := repeat (first [apply Forall_nil | apply Forall_cons; [unfold letter, white, param_char; (lia || reflexivity)|]]).
Ltac no_prefix := let r := fresh in intros [r ?]; discriminate.
Ltac bal := repeat (first [apply bal_nil | apply bal_char; [discriminate|discriminate|discriminate|discriminate|]
  | apply bal_escape]).

(** C30: after a list of definitions, whatever it is, the use of a macro shows what its
    replacement text with the arguments put in shows, followed by the rest of
    the text. The two lists of definitions give the same meanings to all names.
    [complete]: neither ends with a panic or the error of the expansion limit. *)
Theorem C30_expansion_substitutes : forall e1 e2 d1 d2 n m b use s2 out r v v',
  preamble [] e1 d1 (b ++ 92 :: use) -> preamble [] e2 d2 (out ++ r) -> (forall n, find n e1 = find n e2) -> find n e1 = Some m ->
  blank b -> named use n s2 -> expands m s2 out r ->
  shows (new_parser d1) v -> shows (new_parser d2) v' -> complete v -> complete v' -> v = v'.
Proof. exact preamble_use. Qed.
Print Assumptions C30_expansion_substitutes.

(** C30 at any moment before an error, for [\def]: the text being read may be
    that of a group, an argument or an expansion. *)
Theorem C30_expansion_anywhere : forall p c al s n pre sufs rep l b use s2 args r out p' v v',
  p_stack p = ISub c al :: s -> p_buf p = [] ->
  ctx_get (p_macros p) n = Some (MDMacro (delimiter pre) (map delimiter sufs) false l) ->
  parse_replacement rep (N.of_nat (length sufs)) = Ok l ->
  stxt c = (b ++ 92 :: use)%list -> blank b -> named use n (pre ++ s2) -> arguments (map delimiter sufs) s2 args r ->
  substitutes args rep out -> psim (with_text (out ++ r) al p) p' ->
  shows p v -> shows p' v' -> complete v -> complete v' -> v = v'.
Proof. exact use_shows. Qed.
Print Assumptions C30_expansion_anywhere.

Example C30_case : 
  let e := [(lit "f", ByDef [] [lit "+"; []] (lit "#2-#1"))] in
  preamble [] e (lit "\def\f#1+#2{#2-#1}\f ab+{cd}e") (lit "\f ab+{cd}e") /\
  preamble [] e (lit "\def\f#1+#2{#2-#1}{cd}-abe") (lit "{cd}-abe") /\
  named (lit "f ab+{cd}e") (lit "f") (lit "ab+{cd}e") /\
  expands (ByDef [] [lit "+"; []] (lit "#2-#1")) (lit "ab+{cd}e") (lit "{cd}-ab") (lit "e") /\
  exists v, shows (new_parser (lit "\def\f#1+#2{#2-#1}\f ab+{cd}e")) v /\ shows (new_parser (lit "\def\f#1+#2{#2-#1}{cd}-abe")) v /\
    complete v /\ List.length (fst v) = 8%nat.
Proof.
  cbv zeta.
  assert (Hp : forall r, preamble [] [(lit "f", ByDef [] [lit "+"; []] (lit "#2-#1"))] (lit "\def\f#1+#2{#2-#1}" ++ r) r).
  { intros r. eapply pre_def; [| |reflexivity|apply pre_end].
    - apply (def_text_i (lit "f") [] [lit "+"; []] (lit "#2-#1") r [] [] (lit "f#1+#2{#2-#1}" ++ r)); [constructor|constructor|].
      apply (named_word (lit "f") [] (lit "#1+#2{#2-#1}" ++ r)); [discriminate|change (lit "f") with ([102] : str); chars|constructor| |].
      + cbn. unfold letter. lia.
      + cbn. unfold white. discriminate.
    - split; [constructor|]. split; [intros []|]. split; [|split; [|split; [cbn; lia|split]]].
      + constructor; [change (lit "+") with ([43] : str); chars; repeat split; discriminate|]. constructor; [constructor|constructor].
      + constructor; [change (lit "+") with ([43] : str); intros [H|[]]; discriminate|]. constructor; [intros []|constructor].
      + change (lit "#2-#1") with ([35; 50; 45; 35; 49] : str). bal.
      + change (lit "#2-#1") with ([35; 50; 45; 35; 49] : str). apply (rep_param _ _ 2); [reflexivity|cbn; lia|lia|].
        apply rep_char; [discriminate|]. apply (rep_param _ _ 1); [reflexivity|cbn; lia|lia|]. constructor. }
  split; [exact (Hp (lit "\f ab+{cd}e"))|]. split; [exact (Hp (lit "{cd}-abe"))|]. split; [|split].
  - apply (named_word (lit "f") [32] (lit "ab+{cd}e")); [discriminate|change (lit "f") with ([102] : str); chars|chars|cbn; unfold letter; lia|cbn; unfold white; discriminate].
  - apply (exp_def [] [lit "+"; []] (lit "#2-#1") (lit "ab+{cd}e") [lit "ab"; lit "{cd}"]).
    + cbn [map delimiter]. change (delimiter (lit "+")) with (Some (lit "+")). eapply args_delimited; [discriminate| |].
      * apply (del_char (lit "+") 97 (lit "b+{cd}e") (lit "b") (lit "{cd}e")); [discriminate|discriminate|discriminate|no_prefix|].
        apply (del_char (lit "+") 98 (lit "+{cd}e") [] (lit "{cd}e")); [discriminate|discriminate|discriminate|no_prefix|].
        apply (del_found (lit "+") (lit "{cd}e")).
      * eapply args_plain; [|apply args_nil]. apply (arg_group [] (lit "cd") (lit "e")); [constructor|]. change (lit "cd") with ([99; 100] : str). bal.
    + apply (sub_param _ 50 2 (lit "{cd}") (lit "-#1") (lit "-ab")); [reflexivity|lia|reflexivity|].
      apply (sub_char _ 45 (lit "#1") (lit "ab")); [discriminate|]. apply (sub_param _ 49 1 (lit "ab") [] []); [reflexivity|lia|reflexivity|constructor].
  - eexists. split; [exists 60%nat; eexists; eexists; eexists; split; [vm_compute; reflexivity|split; [discriminate|reflexivity]]|].
    split; [exists 60%nat; eexists; eexists; eexists; split; [vm_compute; reflexivity|split; [discriminate|reflexivity]]|].
    split; [split; discriminate|reflexivity].
Qed.

(** C65: an opening brace ends the last argument of a macro whose parameter text
    ends with [#], and is not taken away; here if the last parameter has no
    delimiter and its argument is without escaped braces. *)
Theorem C65_brace_partial : forall e1 e2 d1 d2 n pre sufs rep b use s2 args out r v v',
  preamble [] e1 d1 (b ++ 92 :: use) -> preamble [] e2 d2 (out ++ 123 :: r) -> (forall n, find n e1 = find n e2) ->
  find n e1 = Some (ByBrace pre sufs rep) -> blank b -> named use n (pre ++ s2) ->
  undelimited sufs -> brace_arguments (map delimiter sufs) s2 args (123 :: r) -> substitutes args rep out ->
  shows (new_parser d1) v -> shows (new_parser d2) v' -> complete v -> complete v' -> v = v'.
Proof. exact brace_use. Qed.
Print Assumptions C65_brace_partial.

Lemma brace_preamble : forall suf r, Forall param_char suf -> ~ In 35 suf ->
  preamble [] [(lit "f", ByBrace [] [suf] (lit "(#1)"))] (lit "\def\f#1" ++ suf ++ lit "#{(#1)}" ++ r) r.
Proof.
  intros suf r Hp Hh. eapply pre_brace; [| |reflexivity|apply pre_end].
  - replace (lit "\def\f#1" ++ suf ++ lit "#{(#1)}" ++ r)%list with (lit "\def\f" ++ [] ++ parameters 1 [suf] ++ 35 :: 123 :: lit "(#1)" ++ 125 :: r)%list
      by (cbn [parameters]; rewrite app_nil_r; reflexivity).
    apply (brace_text_i (lit "f") [] [suf] (lit "(#1)") r [] [] (lit "f" ++ [] ++ parameters 1 [suf] ++ 35 :: 123 :: lit "(#1)" ++ 125 :: r)%list); [constructor|constructor|].
    apply (named_word (lit "f") []); [discriminate|change (lit "f") with ([102] : str); chars|constructor| |].
    + cbn. unfold letter. lia.
    + cbn. unfold white. discriminate.
  - split; [constructor|]. split; [intros []|]. split; [constructor; [exact Hp|constructor]|]. split; [constructor; [exact Hh|constructor]|].
    split; [cbn; lia|]. split.
    + change (lit "(#1)") with ([40; 35; 49; 41] : str). bal.
    + change (lit "(#1)") with ([40; 35; 49; 41] : str). apply rep_char; [discriminate|]. apply (rep_param _ _ 1); [reflexivity|cbn; lia|lia|].
      apply rep_char; [discriminate|constructor].
Qed.

Example C65_brace_case :
  let e := [(lit "f", ByBrace [] [[]] (lit "(#1)"))] in
  preamble [] e (lit "\def\f#1#{(#1)}\f ab{c}") (lit "\f ab{c}") /\
  preamble [] e (lit "\def\f#1#{(#1)}(ab){c}") (lit "(ab){c}") /\
  named (lit "f ab{c}") (lit "f") (lit "ab{c}") /\
  expands (ByBrace [] [[]] (lit "(#1)")) (lit "ab{c}") (lit "(ab)") (lit "{c}") /\
  exists v, shows (new_parser (lit "\def\f#1#{(#1)}\f ab{c}")) v /\ shows (new_parser (lit "\def\f#1#{(#1)}(ab){c}")) v /\
    complete v /\ List.length (fst v) = 7%nat.
Proof.
  cbv zeta. split; [exact (brace_preamble [] (lit "\f ab{c}") ltac:(constructor) ltac:(intros []))|].
  split; [exact (brace_preamble [] (lit "(ab){c}") ltac:(constructor) ltac:(intros []))|]. split; [|split].
  - apply (named_word (lit "f") [32] (lit "ab{c}")); [discriminate|change (lit "f") with ([102] : str); chars|chars|cbn; unfold letter; lia|cbn; unfold white; discriminate].
  - apply (exp_brace [] [[]] (lit "(#1)") (lit "ab{c}") [lit "ab"]); [reflexivity| |].
    + apply (brace_plain [] (lit "ab{c}") [] (lit "ab") (lit "c}")); [constructor|].
      change (lit "ab") with ([97; 98] : str). repeat (apply closed_char; [discriminate|discriminate|discriminate|discriminate|]). constructor.
    + change (lit "(#1)") with ([40; 35; 49; 41] : str). change (lit "(ab)") with ([40; 97; 98; 41] : str). apply sub_char; [discriminate|].
      apply (sub_param _ 49 1 (lit "ab") [41] [41]); [reflexivity|lia|reflexivity|]. apply sub_char; [discriminate|constructor].
  - eexists. split; [exists 60%nat; eexists; eexists; eexists; split; [vm_compute; reflexivity|split; [discriminate|reflexivity]]|].
    split; [exists 60%nat; eexists; eexists; eexists; split; [vm_compute; reflexivity|split; [discriminate|reflexivity]]|].
    split; [split; discriminate|reflexivity].
Qed.

(** It is wrong if the last parameter has a delimiter before the brace: the
    delimiter should be taken away, and it is left in the text. *)
Theorem C65_brace_refuted : exists e d1 d2 n pre sufs rep use s2 args r out v v',
  preamble [] e d1 (92 :: use) /\ preamble [] e d2 (out ++ r) /\ find n e = Some (ByBrace pre sufs rep) /\
  named use n (pre ++ s2) /\ brace_arguments (map delimiter sufs) s2 args r /\ substitutes args rep out /\
  shows (new_parser d1) v /\ shows (new_parser d2) v' /\ complete v /\ complete v' /\ v <> v'.
Proof.
  exists [(lit "f", ByBrace [] [lit "x"] (lit "(#1)"))], (lit "\def\f#1x#{(#1)}\f ax{b}"), (lit "\def\f#1x#{(#1)}(a){b}"),
    (lit "f"), [], [lit "x"], (lit "(#1)"), (lit "f ax{b}"), (lit "ax{b}"), [lit "a"], (lit "{b}"), (lit "(a)").
  eexists. eexists.
  assert (Hx : Forall param_char (lit "x")) by (change (lit "x") with ([120] : str); chars; repeat split; discriminate).
  assert (Hh : ~ In 35 (lit "x")) by (change (lit "x") with ([120] : str); intros [H|[]]; discriminate).
  split; [exact (brace_preamble (lit "x") (lit "\f ax{b}") Hx Hh)|]. split; [exact (brace_preamble (lit "x") (lit "(a){b}") Hx Hh)|].
  split; [reflexivity|]. split.
  { apply (named_word (lit "f") [32] (lit "ax{b}")); [discriminate|change (lit "f") with ([102] : str); chars|chars|cbn; unfold letter; lia|cbn; unfold white; discriminate]. }
  split.
  { apply (brace_delimited [] (lit "x") (lit "ax{b}") [] (lit "a") (lit "b}")); [discriminate|constructor| |].
    - change (lit "a") with ([97] : str). apply closed_char; [discriminate|discriminate|discriminate|discriminate|constructor].
    - apply (del_char _ 97 (lit "x{b}") [] (lit "b}")); [discriminate|discriminate|discriminate|no_prefix|]. apply (del_found (lit "x{") (lit "b}")). }
  split.
  { change (lit "(#1)") with ([40; 35; 49; 41] : str). change (lit "(a)") with ([40; 97; 41] : str). apply sub_char; [discriminate|].
    apply (sub_param _ 49 1 (lit "a") [41] [41]); [reflexivity|lia|reflexivity|]. apply sub_char; [discriminate|constructor]. }
  split; [exists 60%nat; eexists; eexists; eexists; split; [vm_compute; reflexivity|split; [discriminate|reflexivity]]|].
  split; [exists 60%nat; eexists; eexists; eexists; split; [vm_compute; reflexivity|split; [discriminate|reflexivity]]|].
  split; [split; discriminate|]. split; [split; discriminate|]. intros H. apply (f_equal (fun v => List.length (fst v))) in H. discriminate.
Qed.
Print Assumptions C65_brace_refuted.

(** C31: a [\def] whose parameters are not [#1] to [#n] in order, with [n] at
    most 9, or whose replacement text does not fit them, is refused with the
    error of what is wrong with it, and no meaning changes. *)
Theorem C31_definition_refused : forall e d b w s n x, preamble [] e d (b ++ 92 :: lit "def" ++ w ++ 92 :: s) -> blank b -> Forall white w ->
  find (lit "def") e = None -> named s n x -> (forall rest, ~ definition_body x rest) ->
  exists k, definition_fault x k /\ shows (new_parser d) ([], EndError k) /\
    exists i pe q, run i (new_parser d) = ([ItError pe], OFuel, q) /\ pe_kind pe = k /\ represents e (p_macros q).
Proof. exact def_refused. Qed.
Print Assumptions C31_definition_refused.

(** And a valid one is accepted. *)
Theorem C31_definition_accepted : forall e d b w s n x rest, preamble [] e d (b ++ 92 :: lit "def" ++ w ++ 92 :: s) -> blank b -> Forall white w ->
  find (lit "def") e = None -> named s n x -> definition_body x rest -> blank rest -> shows (new_parser d) ([], EndDone).
Proof. exact def_accepted. Qed.
Print Assumptions C31_definition_accepted.

Example C31_refused_case : (forall rest, ~ definition_body (lit "#2#1{#1}") rest) /\
  shows (new_parser (lit "\def\f#2#1{#1}x")) ([], EndError (EIncorrectMacroParams 2 1)).
Proof.
  split; [|exists 60%nat; eexists; eexists; eexists; split; [vm_compute; reflexivity|split; [discriminate|reflexivity]]].
  intros rest (brace & pre & sufs & rep & H & H1 & H2 & H3 & H4 & _). unfold parameter_text in H.
  destruct pre as [|c pre].
  - destruct sufs as [|suf sufs]; [destruct brace|];
      first [apply (f_equal (fun l => nth 1 l 0)) in H; vm_compute in H; discriminate | apply (f_equal (fun l => nth 0 l 0)) in H; vm_compute in H; discriminate].
  - apply (f_equal (fun l => nth 0 l 0)) in H. apply H2. left. symmetry. exact H.
Qed.

Example C31_accepted_case : definition_body (lit "a#1b#2#{#2##}%c") (lit "%c") /\
  shows (new_parser (lit "\def\f a#1b#2#{#2##}  ")) ([], EndDone).
Proof.
  split; [|exists 9%nat; eexists; eexists; eexists; split; [vm_compute; reflexivity|split; [discriminate|reflexivity]]].
  exists true, (lit "a"), [lit "b"; []], (lit "#2##"). split; [reflexivity|]. split.
  { change (parameter_text true (lit "a") [lit "b"; []]) with ([97; 35; 49; 98; 35; 50; 35] : str). chars; repeat split; discriminate. }
  split; [change (lit "a") with ([97] : str); intros [H|[]]; discriminate|].
  split; [constructor; [change (lit "b") with ([98] : str); intros [H|[]]; discriminate|constructor; [intros []|constructor]]|].
  split; [cbn; lia|]. split; [change (lit "#2##") with ([35; 50; 35; 35] : str); bal|].
  change (lit "#2##") with ([35; 50; 35; 35] : str). apply (rep_param _ _ 2); [reflexivity|cbn; lia|lia|]. apply rep_hash. constructor.
Qed.

(** C31: so an expansion never refers to a missing argument, at any moment of
    any run: the only failing access is that of a delimited argument looked for
    at the end of a text that ends with a backslash. *)
Theorem C31_no_missing_argument : forall input n k d s, ctx_get (p_macros (parser_of (run n (new_parser input)))) k = Some d ->
  expand_definition d s = Panic PIndex -> s <> [] /\ last s 0 = 92.
Proof. intros input n k d s H. apply expand_index. exact (reached_definitions input n k d H). Qed.
Print Assumptions C31_no_missing_argument.

Example C31_reached : exists d, ctx_get (p_macros (parser_of (run 1 (new_parser (lit "\def\f#1x{#1}y"))))) (lit "f") = Some d /\
  expand_definition d (lit "a\") = Panic PIndex /\ exists k, expand_definition d (lit "abxc") = Ok (lit "abc", k).
Proof. eexists. split; [vm_compute; reflexivity|]. split; [vm_compute; reflexivity|]. eexists. vm_compute. reflexivity. Qed.

(** C32: [\newcommand] of a name with a meaning and [\renewcommand] of a name
    without are errors and change nothing. *)
Theorem C32_command_refused : forall e d s bb n k dflt rep rest, preamble [] e d s -> command_text (Some bb) n k dflt rep rest s ->
  k <= 9 -> replacement k rep -> not_next (fun c => white c \/ c = 94 \/ c = 95) rest -> find (command_name (Some bb)) e = None ->
  (if bb then find n e = None else find n e <> None) ->
  let x := if bb then EMacroNotDefined else EMacroAlreadyDefined in
  shows (new_parser d) ([], EndError x) /\
  exists i pe q, run i (new_parser d) = ([ItError pe], OFuel, q) /\ pe_kind pe = x /\ represents e (p_macros q).
Proof. exact command_refused. Qed.
Print Assumptions C32_command_refused.

(** [\providecommand] of a name with a meaning does nothing: without it the same
    is shown. *)
Theorem C32_provide_keeps : forall e d d2 s n k dflt rep rest v v', preamble [] e d s -> command_text None n k dflt rep rest s ->
  k <= 9 -> replacement k rep -> not_next (fun c => white c \/ c = 94 \/ c = 95) rest -> find (command_name None) e = None ->
  find n e <> None -> preamble [] e d2 rest ->
  shows (new_parser d) v -> shows (new_parser d2) v' -> complete v -> complete v' -> v = v'.
Proof.
  intros e d d2 s n k dflt rep rest v v' H1 Ht Hk Hr Hn Hf Hd H2. eapply preamble_same; [|exact H2|reflexivity].
  eapply preamble_trans; [exact H1|]. eapply pre_provide; try eassumption. destruct (find n e); [apply pre_end|contradiction].
Qed.
Print Assumptions C32_provide_keeps.

Example C32_cases :
  shows (new_parser (lit "\newcommand{\f}[1]{a}\newcommand{\f}[1]{b}x")) ([], EndError EMacroAlreadyDefined) /\
  shows (new_parser (lit "\renewcommand{\f}[1]{b}x")) ([], EndError EMacroNotDefined) /\
  shows (new_parser (lit "\def\f{a}\providecommand{\f}[1]{b#1}\f")) ([EvContent (COrdinary 97 false)], EndDone) /\
  command_text None (lit "f") 1 None (lit "b#1") (lit "\f") (lit "\providecommand{\f}[1]{b#1}\f") /\ replacement 1 (lit "b#1").
Proof.
  do 3 (split; [exists 30%nat; eexists; eexists; eexists; split; [vm_compute; reflexivity|split; [discriminate|reflexivity]]|]). split.
  - apply (command_text_i None (lit "f") 1 None (lit "b#1") (lit "\f") [] [] [] [] [] (lit "f") []); [constructor|constructor|constructor|constructor|constructor| | |discriminate|].
    + apply (named_word (lit "f") [] []); [discriminate|change (lit "f") with ([102] : str); chars|constructor|exact I|exact I].
    + change (92 :: lit "f") with ([92; 102] : str). bal.
    + change (lit "b#1") with ([98; 35; 49] : str). bal.
  - change (lit "b#1") with ([98; 35; 49] : str). apply rep_char; [discriminate|]. apply (rep_param _ _ 1); [reflexivity|lia|lia|constructor].
Qed.

(** C33 fails: [\let] gives the name of the macro, not its meaning. *)
Theorem C33_let_snapshot_refuted : exists l, parses (lit "\def\a{x}\let\b\a\def\a{y}\b") l /\ l = [ItEvent (EvContent (COrdinary 121 false))].
Proof. eexists. split; [exists 10%nat; eexists; vm_compute; reflexivity|reflexivity]. Qed.
Print Assumptions C33_let_snapshot_refuted.

(** C33, what holds: as long as the meaning of the token does not change, [\n] after
    [\let\n] with that token shows what the token shows. The definitions [d2] give the meanings
    of [d1]. *)
Theorem C33_let_partial : forall e1 e2 d1 d2 n t b use s2 v v',
  preamble [] e1 d1 (b ++ 92 :: use) -> preamble [] e2 d2 (written t ++ s2) -> (forall n, find n e1 = find n e2) ->
  find n e1 = Some (ByLet t) -> blank b -> named use n s2 ->
  shows (new_parser d1) v -> shows (new_parser d2) v' -> complete v -> complete v' -> v = v'.
Proof. intros. eapply preamble_use; try eassumption. constructor. Qed.
Print Assumptions C33_let_partial.

Example C33_case : let e := [(lit "b", ByLet (Cs (lit "alpha")))] in
  preamble [] e (lit "\let\b\alpha\b^2") (lit "\b^2") /\ preamble [] e (lit "\let\b=\alpha\alpha^2") (lit "\alpha^2") /\
  exists v, shows (new_parser (lit "\let\b\alpha\b^2")) v /\ shows (new_parser (lit "\let\b=\alpha\alpha^2")) v /\ complete v /\ List.length (fst v) = 3%nat.
Proof.
  cbv zeta.
  assert (Ha : forall r, not_next letter r -> not_next white r -> named (lit "alpha" ++ r) (lit "alpha") r).
  { intros r H1 H2. apply (named_word (lit "alpha") [] r); [discriminate|change (lit "alpha") with ([97; 108; 112; 104; 97] : str); chars|constructor|exact H1|exact H2]. }
  split; [|split].
  - eapply pre_let; [|reflexivity|apply pre_end].
    apply (let_plain (lit "b") (Cs (lit "alpha")) (lit "\b^2") [] [] (lit "b\alpha\b^2") (lit "\alpha\b^2")); [constructor|constructor| | |discriminate].
    + apply (named_word (lit "b") [] (lit "\alpha\b^2")); [discriminate|change (lit "b") with ([98] : str); chars|constructor|cbn; unfold letter; lia|cbn; unfold white; discriminate].
    + apply (tt_cs [] (lit "alpha\b^2")); [constructor|]. apply (Ha (lit "\b^2")); [cbn; unfold letter; lia|cbn; unfold white; discriminate].
  - eapply pre_let; [|reflexivity|apply pre_end].
    apply (let_equals (lit "b") (Cs (lit "alpha")) (lit "\alpha^2") [] [] (lit "b=\alpha\alpha^2") (lit "\alpha\alpha^2")); [constructor|constructor| |].
    + apply (named_word (lit "b") [] (lit "=\alpha\alpha^2")); [discriminate|change (lit "b") with ([98] : str); chars|constructor|cbn; unfold letter; lia|cbn; unfold white; discriminate].
    + apply (tt_cs [] (lit "alpha\alpha^2")); [constructor|]. apply (Ha (lit "\alpha^2")); [cbn; unfold letter; lia|cbn; unfold white; discriminate].
  - eexists. split; [exists 60%nat; eexists; eexists; eexists; split; [vm_compute; reflexivity|split; [discriminate|reflexivity]]|].
    split; [exists 60%nat; eexists; eexists; eexists; split; [vm_compute; reflexivity|split; [discriminate|reflexivity]]|].
    split; [split; discriminate|reflexivity].
Qed.

(** C34: what is shown depends on the definitions only through the newest
    meaning of each name. *)
Theorem C34_newest_meaning : forall e1 e2 d1 d2 r v v', preamble [] e1 d1 r -> preamble [] e2 d2 r ->
  (forall n, find n e1 = find n e2) ->
  shows (new_parser d1) v -> shows (new_parser d2) v' -> complete v -> complete v' -> v = v'.
Proof. exact preamble_same. Qed.
Print Assumptions C34_newest_meaning.

Theorem C34_update : forall (e : env) n m k, find n ((n, m) :: e) = Some m /\ (k <> n -> find k ((n, m) :: e) = find k e).
Proof.
  intros e n m k. cbn [find]. destruct (list_eq_dec N.eq_dec n n) as [_|H]; [|congruence]. split; [reflexivity|].
  intros Hk. destruct (list_eq_dec N.eq_dec n k); [congruence|reflexivity].
Qed.
Print Assumptions C34_update.

Example C34_case : forall n, 
  find n [(lit "a", ByLet (Cs (lit "beta"))); (lit "b", ByLet (Cs (lit "pi"))); (lit "a", ByLet (Cs (lit "alpha")))] =
  find n [(lit "b", ByLet (Cs (lit "pi"))); (lit "a", ByLet (Cs (lit "beta")))].
Proof.
  intros n. cbn [find]. destruct (list_eq_dec N.eq_dec (lit "a") n) as [<-|Ha]; [|reflexivity].
  destruct (list_eq_dec N.eq_dec (lit "b") (lit "a")) as [E|_]; [vm_compute in E; congruence|reflexivity].
Qed.

Example C34_shown : exists v, shows (new_parser (lit "\let\a\alpha\let\b\pi\let\a\beta\a\b")) v /\
  shows (new_parser (lit "\let\a\beta\let\b\pi\a\b")) v /\ complete v /\ List.length (fst v) = 2%nat.
Proof.
  eexists. split; [exists 60%nat; eexists; eexists; eexists; split; [vm_compute; reflexivity|split; [discriminate|reflexivity]]|].
  split; [exists 60%nat; eexists; eexists; eexists; split; [vm_compute; reflexivity|split; [discriminate|reflexivity]]|].
  split; [split; discriminate|reflexivity].
Qed.

(** C71: [\futurelet\n] lets [\n] stand for the second token of the text after it, and that text
    is then read from its first token: it is [\let\n=] with that token before the same text. *)
Theorem C71_futurelet : forall e d1 d2 s1 s2 n t r v v',
  preamble [] e d1 s1 -> futurelet_text n t r s1 -> find (lit "futurelet") e = None ->
  preamble [] e d2 s2 -> let_text n t r s2 -> find (lit "let") e = None ->
  shows (new_parser d1) v -> shows (new_parser d2) v' -> complete v -> complete v' -> v = v'.
Proof.
  intros e d1 d2 s1 s2 n t r v v' H1 F1 N1 H2 F2 N2.
  apply (preamble_same ((n, ByLet t) :: e) ((n, ByLet t) :: e) d1 d2 r).
  - eapply preamble_trans; [exact H1|]. eapply pre_futurelet; [exact F1|exact N1|apply pre_end].
  - eapply preamble_trans; [exact H2|]. eapply pre_let; [exact F2|exact N2|apply pre_end].
  - reflexivity.
Qed.
Print Assumptions C71_futurelet.

Example C71_case : futurelet_text (lit "b") (Ch 43) (lit "x+\b^2") (lit "\futurelet\b x+\b^2") /\
  let_text (lit "b") (Ch 43) (lit "x+\b^2") (lit "\let\b=+x+\b^2") /\
  exists v, shows (new_parser (lit "\futurelet\b x+\b^2")) v /\ shows (new_parser (lit "\let\b=+x+\b^2")) v /\ complete v /\ List.length (fst v) = 5%nat.
Proof.
  split; [|split].
  - apply (futurelet_is (lit "b") (Ch 43) (lit "x+\b^2") [] [] (lit "b x+\b^2") (Ch 120) (lit "+\b^2") (lit "\b^2")); [constructor|constructor| | |].
    + apply (named_word (lit "b") [32] (lit "x+\b^2")); [discriminate|change (lit "b") with ([98] : str); chars|repeat constructor|cbn; unfold letter; lia|cbn; unfold white; discriminate].
    + apply (tt_char [] 120 (lit "+\b^2")); [constructor|unfold white; discriminate|discriminate|discriminate].
    + apply (tt_char [] 43 (lit "\b^2")); [constructor|unfold white; discriminate|discriminate|discriminate].
  - apply (let_equals (lit "b") (Ch 43) (lit "x+\b^2") [] [] (lit "b=+x+\b^2") (lit "+x+\b^2")); [constructor|constructor| |].
    + apply (named_word (lit "b") [] (lit "=+x+\b^2")); [discriminate|change (lit "b") with ([98] : str); chars|constructor|cbn; unfold letter; lia|cbn; unfold white; discriminate].
    + apply (tt_char [] 43 (lit "x+\b^2")); [constructor|unfold white; discriminate|discriminate|discriminate].
  - eexists. split; [exists 60%nat; eexists; eexists; eexists; split; [vm_compute; reflexivity|split; [discriminate|reflexivity]]|].
    split; [exists 60%nat; eexists; eexists; eexists; split; [vm_compute; reflexivity|split; [discriminate|reflexivity]]|].
    split; [split; discriminate|reflexivity].
Qed.

(** C35: never more than 64 expansions are nested, *)
Theorem C35_depth_bounded : forall input n, (List.length (s_exp (p_spans (parser_of (run n (new_parser input))))) <= 64)%nat.
Proof. intros input n. apply (run_spans n (new_parser input)). split; [constructor|cbn; lia]. Qed.
Print Assumptions C35_depth_bounded.

(** nothing is expanded once the total is 1 MiB, *)
Theorem C35_total_bounded : forall p, 2 ^ 20 <= s_total (p_spans p) -> s_total (p_spans (snd (next_step p))) = s_total (p_spans p).
Proof. exact step_limit. Qed.
Print Assumptions C35_total_bounded.

(** and the use of a macro past a limit, before any other error, is an error
    (unless reading its arguments panics). *)
Theorem C35_limit_reported : forall p c al s cs r d, in_place p -> p_stack p = ISub c al :: s -> lex_token (stxt c) = (Ok (TCs cs), r) ->
  ctx_get (p_macros p) cs = Some d -> 64 <= N.of_nat (List.length (s_exp (p_spans p))) \/ 2 ^ 20 <= s_total (p_spans p) ->
  (exists pe p', next_step p = (OItem (ItError pe), p') /\ pe_kind pe = EMacroRecursionLimit) \/
  (exists x p', next_step p = (OPanic x, p') /\ expand_definition d r = Panic x).
Proof. exact limit_reported. Qed.
Print Assumptions C35_limit_reported.

Example C35_case : List.length (s_exp (p_spans (parser_of (run 200 (new_parser (lit "\def\a{b\a}\a")))))) = 64%nat /\
  exists l v, shows (new_parser (lit "\def\a{b\a}\a")) v /\ v = (l, EndError EMacroRecursionLimit) /\ List.length l = 64%nat.
Proof.
  split; [vm_compute; reflexivity|]. eexists. eexists. split; [exists 200%nat; eexists; eexists; eexists; split; [vm_compute; reflexivity|split; [discriminate|reflexivity]]|].
  split; [reflexivity|reflexivity].
Qed.

(** C36 fails: past the limit the expansion is still allocated, and not counted. *)
Theorem C36_storage_counted_refuted : exists input n, let p := parser_of (run n (new_parser input)) in s_total (p_spans p) + 1000 < p_alloc p.
Proof.
  exists (lit "\def\a#1{#1#1#1#1#1#1#1#1#1#1#1#1#1#1#1#1#1#1#1#1#1#1#1#1#1#1#1#1#1#1#1#1}\def\b{\b}\b\a{0123456789012345678901234567890123456789}"), 400%nat.
  vm_compute. reflexivity.
Qed.
Print Assumptions C36_storage_counted_refuted.

(** Before an error everything allocated is counted. *)
Theorem C36_storage_counted_partial : forall input n l o q, run n (new_parser input) = (l, o, q) -> error_free l ->
  match o with OPanic _ => True | _ => p_alloc q = s_total (p_spans q) end.
Proof. intros input n l o q H Hl. eapply run_counted; [exact H|reflexivity|exact Hl]. Qed.
Print Assumptions C36_storage_counted_partial.

Example C36_case : exists l q, run 60 (new_parser (lit "\def\a#1{#1#1}\a{\a x}")) = (l, ODone, q) /\ error_free l /\ p_alloc q = 16.
Proof. eexists. eexists. split; [vm_compute; reflexivity|]. split; reflexivity. Qed.

(** C37 fails: the 65th use of a macro in a row is refused. *)
Definition uses (n : nat) : str := lit "\def\a{x}" ++ List.concat (repeat (lit "\a ") n).

Theorem C37_any_number_refuted : exists l, shows (new_parser (uses 65)) (l, EndError EMacroRecursionLimit) /\ List.length l = 64%nat.
Proof.
  eexists. split; [exists 200%nat; eexists; eexists; eexists; split; [vm_compute; reflexivity|split; [discriminate|reflexivity]]|]. reflexivity.
Qed.
Print Assumptions C37_any_number_refuted.

Example C37_sixty_four : exists l, parses (uses 64) l /\ error_free l.
Proof. eexists. split; [exists 400%nat; eexists; vm_compute; reflexivity|reflexivity]. Qed.

(** C54 fails: an argument that is a macro is not expanded. *)
Theorem C54_macro_argument_refuted : exists l, shows (new_parser (lit "\def\f{x}\frac\f b")) (l, EndError EUnknownPrimitive) /\
  exists v, shows (new_parser (lit "\def\f{x}\frac xb")) v /\ snd v = EndDone.
Proof.
  eexists. split; [exists 200%nat; eexists; eexists; eexists; split; [vm_compute; reflexivity|split; [discriminate|reflexivity]]|].
  eexists. split; [exists 200%nat; eexists; eexists; eexists; split; [vm_compute; reflexivity|split; [discriminate|reflexivity]]|]. reflexivity.
Qed.
Print Assumptions C54_macro_argument_refuted.

(** C55 fails: a control word at the end of a replacement text takes the letters
    that follow the use. *)
Theorem C55_token_boundaries_refuted : shows (new_parser (lit "\def\a{\alpha}\a x")) ([], EndError EUnknownPrimitive) /\
  shows (new_parser (lit "\let\b\alpha\b x")) ([], EndError EUnknownPrimitive) /\
  shows (new_parser (lit "\def\f#1{#1b}\f\alpha")) ([], EndError EUnknownPrimitive).
Proof. repeat split; (exists 20%nat; eexists; eexists; eexists; split; [vm_compute; reflexivity|split; [discriminate|reflexivity]]). Qed.
Print Assumptions C55_token_boundaries_refuted.

(** C57: two parsers whose texts, pending instructions and meanings are the same
    show the same, wherever the texts come from. *)
Theorem C57_only_the_text : forall p p' v v', psim p p' -> shows p v -> shows p' v' -> complete v -> complete v' -> v = v'.
Proof. exact sim_shows. Qed.
Print Assumptions C57_only_the_text.

(** The parser after an expansion, and a new one on the text that is left. *)
Example C57_case : let p := parser_of (run 2 (new_parser (lit "\def\a#1{#1^2y}\a{x}z"))) in
  psim p (mkParser [IEv (EvScript STSup SPRight); IEv (EvBegin GNormal); ISub (mkSlice 0 0 (lit "x")) None; IEv EvEnd; IEv (EvContent (CNumber [50])); ISub (mkSlice 0 0 (lit "yz")) None] [] (p_macros p) (mkSpans [] [] 0) 1 0) /\
  p_stack p <> [] /\ p_spans p <> mkSpans [] [] 0.
Proof.
  vm_compute. split; [|split; discriminate]. split; [|split; [constructor|intros n; reflexivity]].
  repeat (constructor; [first [reflexivity | split; reflexivity]|]). constructor.
Qed.
