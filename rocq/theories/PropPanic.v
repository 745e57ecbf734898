(** * PropPanic: properties about panics and error contexts. *)

From Coq Require Import Ascii String List NArith ZArith Bool Lia.
From Verif Require Import Base Float32 Event Tables Prim PrimTable Lex Macros Primitives Spans Parser
  SpecNum PrimFacts Quiet LexPanic Terminate SpanFacts Api SpanRun NoPanic ErrContext SpecContext ContextFacts OverRun.
Import ListNotations.
Open Scope N_scope.

(** C14 fails: each of these inputs makes the iterator panic. *)
Theorem C14_no_panic_refuted : exists input l x, panics input l x.
Proof. exists (lit "\def\foo#1x{#1}\foo a\"). eexists. exists PIndex. exists 10%nat. eexists. vm_compute. reflexivity. Qed.
Print Assumptions C14_no_panic_refuted.

Example C14_char_boundary : exists n p, run n (new_parser (lit "\char " ++ [233])) = ([], OPanic PBoundary, p).
Proof. exists 10%nat. eexists. vm_compute. reflexivity. Qed.
Example C14_space_boundary : exists n p, run n (new_parser (lit "\kern 1em" ++ [160])) = ([], OPanic PBoundary, p).
Proof. exists 10%nat. eexists. vm_compute. reflexivity. Qed.
Example C14_color_boundary : exists n p, run n (new_parser (lit "\color{#1" ++ [233] ++ lit "123}x")) = ([], OPanic PBoundary, p).
Proof. exists 10%nat. eexists. vm_compute. reflexivity. Qed.
Example C14_pairs_boundary : exists n p, run n (new_parser (lit "\begin{alignat}{" ++ [233] ++ lit "}a\end{alignat}")) = ([], OPanic PBoundary, p).
Proof. exists 10%nat. eexists. vm_compute. reflexivity. Qed.
Example C14_char_overflow : exists n p, run n (new_parser (lit "\char 99999999999999999999999")) = ([], OPanic POverflow, p).
Proof. exists 10%nat. eexists. vm_compute. reflexivity. Qed.
Example C14_pairs_overflow : exists n p, run n (new_parser (lit "\begin{alignat}{40000}a\end{alignat}")) = ([], OPanic POverflow, p).
Proof. exists 10%nat. eexists. vm_compute. reflexivity. Qed.
Example C14_command_overflow : exists n p, run n (new_parser (lit "\newcommand{\f}[0][x]{a}\f")) = ([], OPanic POverflow, p).
Proof. exists 10%nat. eexists. vm_compute. reflexivity. Qed.

(** C14 for the inputs that meet a syntactic condition ([calm]): the iterator
    ends without a panic, whatever errors it reports. *)
Theorem C14_calm_partial : forall input, calm input -> exists l, parses input l.
Proof. exact calm_parses. Qed.
Print Assumptions C14_calm_partial.

(** The condition is met by unbalanced, ill-formed and non-ASCII texts: *)
Example C14_calm_text : calm (lit "\frac{a}{b^2}}} \left( \begin{matrix} 1&2\\3 \end{x} \kern1.5em \text{" ++ [233; 8721] ++ lit "}^a^b \unknown \color{red} 123456789").
Proof. apply calm_b_ok. vm_compute. reflexivity. Qed.

Example C14_calm_numbers : calm (lit "\char 65 \begin{alignat}{2}a&=b\\c&=d\end{alignat} \color{#0a1b2c}x").
Proof. apply calm_b_ok. vm_compute. reflexivity. Qed.

(** C14, for every input: a panic is that of a bounds check, of an overflow check
    or of the assertion on spans. In particular none stands for undefined
    behaviour (an uninitialised element, an unchecked unwrap of [None]). *)
Theorem C14_panic_kinds_partial : forall input l x, panics input l x ->
  x = PIndex \/ x = PBoundary \/ x = POverflow \/ x = PAssert.
Proof. exact panic_kinds. Qed.
Print Assumptions C14_panic_kinds_partial.

(** C14, whatever is defined and expanded: in a text of ASCII characters nothing
    is cut inside a character, and without a hash sign no index is out of range. *)
Theorem C14_ascii_partial : forall input l, ascii input -> ~ panics input l PBoundary.
Proof. exact ascii_panics. Qed.
Print Assumptions C14_ascii_partial.

Theorem C14_no_hash_partial : forall input l, ~ In 35 input -> ~ panics input l PIndex.
Proof. exact plain_panics. Qed.
Print Assumptions C14_no_hash_partial.

(** Such texts can still panic, after macros have been expanded: *)
Definition sample_expanded : str := lit "\newcommand{\f}[0][x]{a}\def\g{b\f}\g".
Example C14_ascii_case : exists l x, ascii sample_expanded /\ ~ In 35 sample_expanded /\ panics sample_expanded l x /\ l <> [].
Proof.
  eexists. exists POverflow. split; [repeat constructor|]. split; [vm_compute; intuition discriminate|].
  split; [exists 40%nat; eexists; vm_compute; reflexivity|discriminate].
Qed.

(** C16: until an error has been reported, whatever the macros expanded, the
    place is always found. *)
Theorem C16_place_found_partial : forall input l x, panics input l x -> error_free l -> x <> PAssert.
Proof. exact assert_holds. Qed.
Print Assumptions C16_place_found_partial.

(** It is met by the panics above, for example after macros have been expanded: *)
Example C16_after_expansion : exists l, panics (lit "\def\a#1{b#1}\def\b#1x{#1}\a{\a{c}}\b a\") l PIndex /\ error_free l /\ l <> [].
Proof. eexists. split; [exists 40%nat; eexists; vm_compute; reflexivity|]. split; [reflexivity|discriminate]. Qed.

(** After an error the assertion may fail: *)
Theorem C16_place_found_refuted : exists input l, panics input l PAssert.
Proof. exists (lit "\def\m{y}\frac{$}$\m z$"). eexists. exists 40%nat. eexists. vm_compute. reflexivity. Qed.
Print Assumptions C16_place_found_refuted.

(** C17: for every stack of spans (recorded start before end) and every place,
    the error is built with its kind, unless the place is in none of the texts. *)
Theorem C17_context_total : forall e place s, Forall (fun x => x_start x <= x_end x) (s_exp s) ->
  (exists pe s', new_error e place s = (Ok pe, s') /\ pe_kind pe = e) \/
  (exists s', new_error e place s = (Panic PAssert, s') /\ fst (reach_original_call_site place s) = Panic PAssert).
Proof. exact new_error_ok. Qed.
Print Assumptions C17_context_total.

(** The spans recorded during a run are in order. *)
Theorem C17_spans_recorded : forall input n, Forall (fun x => x_start x <= x_end x) (s_exp (p_spans (parser_of (run n (new_parser input))))).
Proof. intros input n. apply (run_spans n (new_parser input)). split; [constructor|cbn; lia]. Qed.
Print Assumptions C17_spans_recorded.

(** C56: without definitions, the context of an error quotes the part of the
    input from at most 15 bytes before the place where the parser stopped, that
    place included, to 12 bytes after it (9 at least, when the input goes on).
    It shows the lines of that part in a frame, after an ellipsis if something of
    the input was left out before them. *)
Theorem C56_context_shows_place_partial : forall input n l p pe p', defines_nothing input ->
  run n (new_parser input) = (l, OFuel, p) -> next_step p = (OItem (ItError pe), p') ->
  exists rest al s a q b ls, p_stack p' = ISub rest al :: s /\ contains (stxt rest) input /\ input = (a ++ q ++ b)%list /\
    blen a <= soff rest <= blen a + 15 /\ soff rest <= blen a + blen q <= soff rest + 12 /\
    (b <> [] -> soff rest + 9 <= blen a + blen q) /\
    (exists before, exists after, input = (before ++ stxt rest ++ after)%list /\ blen before = soff rest) /\
    text_lines q ls /\ exists cut, pe_context pe = framed cut ls /\ (cut = true <-> a <> []).
Proof. exact error_framed. Qed.
Print Assumptions C56_context_shows_place_partial.

(** A text has only one division into lines. *)
Theorem C56_lines : forall s ls ls', text_lines s ls -> text_lines s ls' -> ls = ls'.
Proof. exact text_lines_fun. Qed.
Print Assumptions C56_lines.

Example C56_frame : exists pe,
  (exists n l p p1, run n (new_parser (lit "a+b \unknown c")) = (l, OFuel, p) /\ next_step p = (OItem (ItError pe), p1)) /\ text_lines (lit "+b \unknown c") [lit "+b \unknown c"] /\ pe_context pe = framed true [lit "+b \unknown c"].
Proof.
  eexists. split; [exists 6%nat; do 3 eexists; split; [vm_compute; reflexivity|vm_compute; reflexivity]|]. split; [|vm_compute; reflexivity].
  apply TL_last; [discriminate|]. intro H. assert (A : forallb (fun c => negb (c =? 10)) (lit "+b \unknown c") = true) by (vm_compute; reflexivity).
  apply (proj1 (forallb_forall _ _) A) in H. vm_compute in H. discriminate H.
Qed.

Example C56_place : exists p pe p',
  run 6 (new_parser (lit "a+b \unknown c")) = ([ItEvent (EvContent (COrdinary 97 false)); ItEvent (EvContent (CBinaryOp 43 false)); ItEvent (EvContent (COrdinary 98 false))], OFuel, p) /\
  next_step p = (OItem (ItError pe), p') /\ pe_kind pe = EUnknownPrimitive.
Proof. eexists. eexists. eexists. split; [vm_compute; reflexivity|]. split; [vm_compute; reflexivity|reflexivity]. Qed.

(** C56 fails when a macro was expanded before the error: the offset in the
    expansion is added to the place of the call without the length of the
    expansion being taken away, so the quoted text is too far to the right. *)
Theorem C56_context_shows_place_refuted : exists input l pe, parses input (l ++ [ItError pe] ++ repeat (ItEvent (EvContent (COrdinary 121 false))) 60) /\
  error_free l /\ contains (lit "\unknown") input /\ pe_kind pe = EUnknownPrimitive /\ ~ contains (lit "\unknown") (pe_context pe).
Proof.
  exists (lit "\def\a{xxxxxxxxxxxxxxxxxxxxxxxxxxxxxxxxxxxxxxxx}\a zzzzzzzzzzzzzzzzzzzz\unknown yyyyyyyyyyyyyyyyyyyyyyyyyyyyyyyyyyyyyyyyyyyyyyyyyyyyyyyyyyyy").
  exists (repeat (ItEvent (EvContent (COrdinary 120 false))) 40 ++ repeat (ItEvent (EvContent (COrdinary 122 false))) 20)%list. eexists.
  split; [exists 400%nat; eexists; vm_compute; reflexivity|]. split; [reflexivity|].
  split; [exists (lit "\def\a{xxxxxxxxxxxxxxxxxxxxxxxxxxxxxxxxxxxxxxxx}\a zzzzzzzzzzzzzzzzzzzz"), (lit " yyyyyyyyyyyyyyyyyyyyyyyyyyyyyyyyyyyyyyyyyyyyyyyyyyyyyyyyyyyy"); reflexivity|].
  split; [reflexivity|]. apply contains_b_not. vm_compute. reflexivity.
Qed.
Print Assumptions C56_context_shows_place_refuted.

(** C77: what is displayed of two errors is the same only if they are of the
    same kind, with the same numbers and delimiters, and have the same context. *)
Theorem C77_display_kind : forall pe pe', small (pe_kind pe) -> small (pe_kind pe') -> error_display pe = error_display pe' -> pe = pe'.
Proof. exact display_kind. Qed.
Print Assumptions C77_display_kind.

(** The message has the words by which it is told what is wrong. *)
Theorem C77_display_tells : forall pe w, In w (tells (pe_kind pe)) -> contains w (error_display pe).
Proof.
  intros [e c] w H. apply message_tells in H as (a & b & E). unfold error_display. cbn [pe_kind pe_context] in *. rewrite E.
  exists (lit "parsing error: " ++ a)%list, (b ++ [10] ++ c)%list. rewrite <- !app_assoc. reflexivity.
Qed.
Print Assumptions C77_display_tells.

Example C77_case : exists pe pe',
  (exists n l p p1, run n (new_parser (lit "x_1_2")) = (l, OFuel, p) /\ next_step p = (OItem (ItError pe), p1)) /\ (exists n l p p1, run n (new_parser (lit "x^1^2")) = (l, OFuel, p) /\ next_step p = (OItem (ItError pe'), p1)) /\ small (pe_kind pe) /\ small (pe_kind pe') /\
  error_display pe <> error_display pe' /\ contains (lit "subscript twice") (error_display pe).
Proof.
  eexists. eexists. split; [exists 0%nat; do 3 eexists; split; [vm_compute; reflexivity|vm_compute; reflexivity]|].
  split; [exists 0%nat; do 3 eexists; split; [vm_compute; reflexivity|vm_compute; reflexivity]|]. split; [exact I|]. split; [exact I|].
  split; [intro H; vm_compute in H; discriminate H|]. apply C77_display_tells. now left.
Qed.
