(** * PropDefect: properties about the errors of definitions and of uses of macros. *)

From Coq Require Import Ascii String List NArith ZArith Bool Lia.
From Verif Require Import Base Float32 Event Tables Prim PrimTable Lex Macros Primitives Spans Parser
  SpecLex SpecNum SpecMacro Keep Terminate Api MacroFacts Sim SimRun SpanFacts MacroRun Preamble SpanRun SpecDefect MacroErr SpecUse CommandErr UseErr.
Import ListNotations.
Open Scope N_scope.

(** Small automation for the examples only. *)
Ltac chars := repeat (first [apply Forall_nil | apply Forall_cons; [unfold letter, white, param_char; (lia || reflexivity)|]]).
Ltac no_prefix := let r := fresh in intros [r ?]; discriminate.
Ltac bal := repeat (first [apply bal_nil | apply bal_char; [discriminate|discriminate|discriminate|discriminate|]
  | apply bal_escape]).
Ltac shown n := exists n; eexists; eexists; eexists; split; [vm_compute; reflexivity|split; [discriminate|reflexivity]].

(** C74: after a list of definitions, a use of a macro whose text has a fault ends with the
    error of that fault; no event comes before it and the meanings stay as they were. *)
Theorem C74_use_fault : forall e d b use n m s x, preamble [] e d (b ++ 92 :: use) -> blank b -> named use n s ->
  find n e = Some m -> use_fault m s x ->
  shows (new_parser d) ([], EndError x) /\
  exists i pe q, run i (new_parser d) = ([ItError pe], OFuel, q) /\ pe_kind pe = x /\ represents e (p_macros q).
Proof. exact use_fault_reported. Qed.
Print Assumptions C74_use_fault.

(** Every use in a text without comments that does not end with a backslash has
    its arguments or a fault. *)
Theorem C74_use_total : forall e d b use n m s, preamble [] e d (b ++ 92 :: use) -> blank b -> named use n s -> find n e = Some m -> plain_use m s ->
  (exists out r, expands m s out r) \/ exists x, use_fault m s x /\ shows (new_parser d) ([], EndError x).
Proof. exact use_total. Qed.
Print Assumptions C74_use_total.

(** The same for [\newcommand], [\renewcommand] and [\providecommand] *)
Theorem C74_command_fault : forall e d b t sae s x, preamble [] e d (b ++ 92 :: t) -> blank b -> named t (command_name sae) s ->
  find (command_name sae) e = None -> command_fault sae (fun n => find n e <> None) s x ->
  shows (new_parser d) ([], EndError x) /\
  exists i pe q, run i (new_parser d) = ([ItError pe], OFuel, q) /\ pe_kind pe = x /\ represents e (p_macros q).
Proof. exact command_fault_reported. Qed.
Print Assumptions C74_command_fault.

(** and for the names and tokens of [\def], [\let] and [\futurelet]. *)
Theorem C74_assignment_fault : forall e d b t n s x, preamble [] e d (b ++ 92 :: t) -> blank b -> named t n s -> find n e = None ->
  assignment_fault n s x ->
  shows (new_parser d) ([], EndError x) /\
  exists i pe q, run i (new_parser d) = ([ItError pe], OFuel, q) /\ pe_kind pe = x /\ represents e (p_macros q).
Proof. exact assignment_fault_reported. Qed.
Print Assumptions C74_assignment_fault.

Example C74_definition : forall r, preamble [] [(lit "f", ByDef (lit "(") [lit ","; lit ")"] (lit "#2"))] (lit "\def\f(#1,#2){#2}" ++ r) r.
Proof.
  intros r. eapply pre_def; [| |reflexivity|apply pre_end].
  - apply (def_text_i (lit "f") (lit "(") [lit ","; lit ")"] (lit "#2") r [] [] (lit "f(#1,#2){#2}" ++ r)); [constructor|constructor|].
    apply (named_word (lit "f") [] (lit "(#1,#2){#2}" ++ r)); [discriminate|change (lit "f") with ([102] : str); chars|constructor| |].
    + cbn. unfold letter. lia.
    + cbn. unfold white. discriminate.
  - split; [change (lit "(") with ([40] : str); chars; repeat split; discriminate|].
    split; [change (lit "(") with ([40] : str); intros [H|[]]; discriminate|]. split; [|split; [|split; [cbn; lia|split]]].
    + constructor; [change (lit ",") with ([44] : str); chars; repeat split; discriminate|].
      constructor; [change (lit ")") with ([41] : str); chars; repeat split; discriminate|constructor].
    + constructor; [change (lit ",") with ([44] : str); intros [H|[]]; discriminate|].
      constructor; [change (lit ")") with ([41] : str); intros [H|[]]; discriminate|constructor].
    + change (lit "#2") with ([35; 50] : str). bal.
    + change (lit "#2") with ([35; 50] : str). apply (rep_param _ _ 2); [reflexivity|cbn; lia|lia|constructor].
Qed.

Example C74_use_cases : let m := ByDef (lit "(") [lit ","; lit ")"] (lit "#2") in
  (use_fault m (lit "[a,b)") EIncorrectMacroPrefix /\ shows (new_parser (lit "\def\f(#1,#2){#2}\f[a,b)")) ([], EndError EIncorrectMacroPrefix)) /\
  (use_fault m (lit "(a,{b)}") EMacroSuffixNotFound /\ shows (new_parser (lit "\def\f(#1,#2){#2}\f(a,{b)}")) ([], EndError EMacroSuffixNotFound)) /\
  (use_fault m (lit "({a,b)") (EUnbalancedGroup (Some GKNormal)) /\
    shows (new_parser (lit "\def\f(#1,#2){#2}\f({a,b)")) ([], EndError (EUnbalancedGroup (Some GKNormal)))) /\
  (use_fault (ByCommand 2 None (lit "#1#2")) (lit "{a} ") EToken /\ shows (new_parser (lit "\newcommand{\f}[2]{#1#2}\f{a} ")) ([], EndError EToken)).
Proof.
  cbv zeta. split; [|split; [|split]]; (split; [|shown 60%nat]).
  - apply uf_prefix. no_prefix.
  - apply (uf_def (lit "(") [lit ","; lit ")"] (lit "#2") (lit "a,{b)}")). change (map delimiter [lit ","; lit ")"]) with [Some (lit ","); Some (lit ")")].
    eapply sf_after_delimited; [discriminate| |].
    + apply (del_char (lit ",") 97 (lit ",{b)}") [] (lit "{b)}")); [discriminate|discriminate|discriminate|no_prefix|]. apply (del_found (lit ",") (lit "{b)}")).
    + apply sf_delimited; [discriminate|]. apply (lf_short (lit ")") (lit "{b)}") []); [|vm_compute; reflexivity].
      apply (ps_group (lit ")") (lit "b)") [] []); [change (lit "b)") with ([98; 41] : str); bal|no_prefix|apply ps_here].
  - apply (uf_def (lit "(") [lit ","; lit ")"] (lit "#2") (lit "{a,b)")). change (map delimiter [lit ","; lit ")"]) with [Some (lit ","); Some (lit ")")].
    apply sf_delimited; [discriminate|]. apply (lf_open (lit ",") (lit "{a,b)") (lit "a,b)")); [apply ps_here|vm_compute; discriminate|no_prefix|].
    intros g r' _ H. apply (f_equal (fun l => List.existsb (N.eqb 125) l)) in H. rewrite existsb_app in H. cbn [existsb] in H.
    rewrite (N.eqb_refl 125), orb_true_r in H. vm_compute in H. discriminate.
  - apply uf_command. apply (sf_after_plain [None] (lit "{a} ") (lit "{a}") (lit " ")).
    + apply (arg_group [] (lit "a") (lit " ")); [constructor|]. change (lit "a") with ([97] : str). bal.
    + apply sf_plain, af_token, tf_end, no_blank. apply (blank_ws 32 []); [reflexivity|constructor].
Qed.

Example C74_command_cases :
  (command_fault (Some false) (fun _ => False) (lit "{\f}[x]{a}") ENumber /\ shows (new_parser (lit "\newcommand{\f}[x]{a}y")) ([], EndError ENumber)) /\
  (command_fault (Some false) (fun _ => False) (lit "{f}[1]{a}") EControlSequence /\ shows (new_parser (lit "\newcommand{f}[1]{a}y")) ([], EndError EControlSequence)) /\
  (command_fault (Some false) (fun _ => False) (lit "{\f}[1]{#2}") (EIncorrectReplacementParams 2 1) /\
    shows (new_parser (lit "\newcommand{\f}[1]{#2}y")) ([], EndError (EIncorrectReplacementParams 2 1))).
Proof.
  assert (Hn : name_part (lit "\f") (lit "f")).
  { apply (name_part_i _ _ (lit "f") []); [reflexivity| |change (lit "\f") with ([92; 102] : str); bal].
    apply (named_word (lit "f") [] []); [discriminate|change (lit "f") with ([102] : str); chars|constructor|exact I|exact I]. }
  split; [|split]; (split; [|shown 60%nat]).
  - apply (cf_count _ _ (lit "\f") (lit "f") [] (lit "x") (lit "{a}")); [exact Hn|intros []|constructor|change (lit "x") with ([120] : str); bal|].
    intros k H. inversion H as [ds n _ Hd|]; subst. change (lit "x") with ([120] : str) in Hd. inversion Hd as [|? ? Hx]; subst. unfold digit in Hx. lia.
  - apply (cf_name _ _ 102 [] (lit "[1]{a}")); [discriminate|bal].
  - apply (cf_replacement _ _ (lit "\f") (lit "f") [] (lit "1") 1 [] None [] (lit "#2") []); [exact Hn|intros []|discriminate|constructor| | |lia|constructor|discriminate|constructor| |].
    + change (lit "1") with ([49] : str). bal.
    + apply count_digits; [discriminate|change (lit "1") with ([49] : str); constructor; [split; vm_compute; discriminate|constructor]|reflexivity|lia].
    + change (lit "#2") with ([35; 50] : str). bal.
    + apply (rf_number 1 [] 50 2 []); [constructor|reflexivity|lia|right; lia].
Qed.

Example C74_assignment_cases :
  (assignment_fault (lit "let") (lit "x y") EControlSequence /\ shows (new_parser (lit "\let x y")) ([], EndError EControlSequence)) /\
  (assignment_fault (lit "futurelet") (lit "\a x") EToken /\ shows (new_parser (lit "\futurelet\a x")) ([], EndError EToken)).
Proof.
  split; (split; [|shown 60%nat]).
  - apply gf_let, lt_name. apply (nf_other 120 (lit " y")). discriminate.
  - apply gf_futurelet. apply (ft_second (lit "a x") (lit "a") (lit "x") (Ch 120) []).
    + apply (named_word (lit "a") [32] (lit "x")); [discriminate|change (lit "a") with ([97] : str); chars|chars|cbn; unfold letter; lia|cbn; unfold white; discriminate].
    + apply (tt_char [] 120 []); [constructor|unfold white; discriminate|discriminate|discriminate].
    + apply tf_end, no_blank, blank_nil.
Qed.

(** C75: comments before an argument of a macro are skipped. Here for an argument
    of one token; a group after a comment is not read as a group. *)
Theorem C75_comment_partial : forall e1 e2 d1 d2 n pre sufs rep b use c s a r1 l r out v v',
  preamble [] e1 d1 (b ++ 92 :: use) -> preamble [] e2 d2 (out ++ r) -> (forall n, find n e1 = find n e2) ->
  find n e1 = Some (ByDef pre ([] :: sufs) rep) -> blank b -> named use n (pre ++ c ++ s) ->
  blank c -> argument s a r1 -> (forall g, a <> 123 :: g) -> arguments (map delimiter sufs) r1 l r -> substitutes (a :: l) rep out ->
  shows (new_parser d1) v -> shows (new_parser d2) v' -> complete v -> complete v' -> v = v'.
Proof. exact comment_skipped. Qed.
Print Assumptions C75_comment_partial.

Theorem C75_comment_refuted : exists c s v v', blank c /\ argument s s [] /\
  shows (new_parser (lit "\def\f#1{#1^2}\f" ++ s)) v /\ shows (new_parser (lit "\def\f#1{#1^2}\f" ++ c ++ s)) v' /\ complete v /\ complete v' /\ v <> v'.
Proof.
  exists (37 :: [10]), (lit "{ab}"). eexists. eexists. split; [apply (blank_comment [] []); [intros []|constructor]|].
  split; [apply (arg_group [] (lit "ab") []); [constructor|change (lit "ab") with ([97; 98] : str); bal]|].
  split; [shown 60%nat|]. split; [shown 60%nat|]. split; [split; discriminate|]. split; [split; discriminate|].
  intros H. apply (f_equal (fun v => List.length (fst v))) in H. vm_compute in H. discriminate.
Qed.
Print Assumptions C75_comment_refuted.

Example C75_case : exists v, shows (new_parser (lit "\def\f#1{#1^2}\f" ++ 37 :: lit "c" ++ 10 :: lit "xy")) v /\
  shows (new_parser (lit "\def\f#1{#1^2}" ++ lit "x^2" ++ lit "y")) v /\ complete v /\ List.length (fst v) = 4%nat.
Proof. eexists. split; [shown 60%nat|]. split; [shown 60%nat|]. split; [split; discriminate|reflexivity]. Qed.
