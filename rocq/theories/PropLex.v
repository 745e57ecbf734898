(** * Properties C15, C18, C19, C22, C26, C27, C28: what the lexers read. *)

From Coq Require Import String List NArith ZArith Bool Lia Arith Floats.SpecFloat.
From Verif Require Import Base Float32 Event Tables Lex Primitives Spans Parser Api SpecLex LexFacts LexMore
  SpecNum SpecColor FloatFacts LexNum LexColor FloorFacts.
Import ListNotations.
Open Scope N_scope.

(** C15: a token is a control sequence with a name, or a character that can be
    handled; before it only white space and comments are skipped. *)
Theorem C15_token : forall s t r, lex_token s = (Ok t, r) ->
  match t with
  | TCs cs => exists b w, blank b /\ forallb is_ws w = true /\ cs <> [] /\ s = b ++ 92 :: cs ++ w ++ r
  | TChr ctx => exists b c, blank b /\ ctx = c :: r /\ s = b ++ c :: r /\ is_ws c = false /\ c <> 37 /\ c <> 92
  end.
Proof. intros s [cs|ctx] r H; [exact (lex_token_cs s cs r H)|exact (lex_token_chr s ctx r H)]. Qed.
Print Assumptions C15_token.

(** C15: the token lexer does not panic, and consumes a character. *)
Theorem C15_token_total : forall s,
  match lex_token s with
  | (Ok _, r) => (length r < length s)%nat
  | (Err e, _) => e = EToken \/ e = EEmptyControlSequence
  | _ => False
  end.
Proof.
  intros s. pose proof (lex_token_no_panic s) as H. destruct (lex_token s) as [[t|e|p|] r] eqn:E; cbn [fst] in H; try exact H.
  pose proof (C15_token s t r E) as Ht. destruct t as [cs|ctx].
  - destruct Ht as (b & w & _ & _ & Hc & ->). rewrite app_length. cbn [length]. rewrite !app_length.
    destruct cs; [contradiction|]. cbn [length]. lia.
  - destruct Ht as (b & c & _ & _ & -> & _). rewrite app_length. cbn [length]. lia.
Qed.
Print Assumptions C15_token_total.

(** C15: what a token is does not depend on the white space and comments before it. *)
Theorem C15_blank_skipped : forall b s, blank b -> lex_token (b ++ s) = lex_token s.
Proof. exact lex_token_blank. Qed.
Print Assumptions C15_blank_skipped.

Example C15_examples :
  lex_token (lit " % \x" ++ [10] ++ lit " \foo  b") = (Ok (TCs (lit "foo")), lit "b") /\
  lex_token (lit "% a") = (Err EToken, []) /\
  lex_token (lit "\% a") = (Ok (TCs (lit "%")), lit "a").
Proof. repeat split; vm_compute; reflexivity. Qed.

(** C18: the greatest character boundary not above the index, for every string
    and index. *)
Theorem C18_floor : forall s index, exists i, floor_char_boundary s index = Some i /\
  boundary s i /\ i <= index /\ forall j, boundary s j -> j <= index -> j <= i.
Proof. exact floor_greatest. Qed.
Print Assumptions C18_floor.

(** The bytes among which the boundary is looked for are those of UTF-8: a
    decoder reads every character back, and they are as many as a character is
    long. *)
Theorem C18_bytes : forall c, c < 0x110000 -> decoded (utf8_char c) = Some c /\ N.of_nat (List.length (utf8_char c)) = clen c.
Proof. exact (fun c H => conj (utf8_char_decoded c H) (utf8_char_length c)). Qed.
Print Assumptions C18_bytes.

Example C18_bytes_case : utf8_char 0x20AC = [0xE2; 0x82; 0xAC].
Proof. reflexivity. Qed.

Example C18_inside : floor_char_boundary [97; 8364; 98] 3 = Some 1 /\ floor_char_boundary [97; 8364; 98] 9 = Some 5.
Proof. split; vm_compute; reflexivity. Qed.

(** C19: braces and brackets; the content is balanced, and only balanced
    content is read. *)
Theorem C19_group : forall k o c, brace_like k o c -> forall s a r,
  group_content k s = (Ok a, r) <-> s = a ++ c :: r /\ balanced o c a.
Proof. exact group_content_balanced. Qed.
Print Assumptions C19_group.

(** C19: environments, [\left] and [\begingroup] too. *)
Theorem C19_any_group : forall k s a r,
  group_content k s = (Ok a, r) <-> enclosed (opening_str k) (closing_str k) s a r.
Proof. exact group_content_iff. Qed.
Print Assumptions C19_any_group.

Theorem C19_fails : forall k s,
  (exists r, group_content k s = (Err (EUnbalancedGroup (Some k)), r)) <->
  ~ exists a r, enclosed (opening_str k) (closing_str k) s a r.
Proof. exact group_content_fails. Qed.
Print Assumptions C19_fails.

(** C19: a content is not the beginning of another one. *)
Theorem C19_unique : forall o c s a r a' r', (o, c) = (123, 125) \/ (o, c) = (91, 93) ->
  s = a ++ c :: r -> balanced o c a -> s = a' ++ c :: r' -> balanced o c a' -> a = a' /\ r = r'.
Proof.
  intros o c s a r a' r' Ho H1 H2 H3 H4.
  assert (Hk : exists k, brace_like k o c).
  { destruct Ho as [E|E]; injection E as -> ->; [exists GKNormal; left|exists GKOptional; right]; auto. }
  destruct Hk as (k & Hk). assert (Ha : group_content k s = (Ok a, r)) by (apply (group_content_balanced k o c Hk); auto).
  assert (Ha' : group_content k s = (Ok a', r')) by (apply (group_content_balanced k o c Hk); auto).
  rewrite Ha in Ha'. injection Ha' as -> ->. split; reflexivity.
Qed.
Print Assumptions C19_unique.

Example C19_nested : group_content GKNormal (lit "a{b\}}%}" ++ [10] ++ lit "c}d") =
  (Ok (lit "a{b\}}%}" ++ [10] ++ lit "c"), lit "d").
Proof. vm_compute. reflexivity. Qed.

(** C22: a delimited argument is what precedes the first delimiter outside of
    groups, escapes and comments. *)
Theorem C22_delimited : forall suf, suf <> [] -> forall s a r,
  content_with_suffix suf s = (Ok a, r) <-> delimited suf s a r.
Proof. exact content_with_suffix_iff. Qed.
Print Assumptions C22_delimited.

(** C22: otherwise an error, provided the text does not end with a backslash. *)
Theorem C22_fails_partial : forall suf s, suf <> [] -> last s 0 <> 92 -> (~ exists a r, delimited suf s a r) ->
  exists e r, content_with_suffix suf s = (Err e, r).
Proof.
  intros suf s Hs Hl Hn. destruct (content_with_suffix suf s) as [[a|e|p|] r] eqn:E.
  - exfalso. apply Hn. exists a, r. apply content_with_suffix_iff; assumption.
  - eauto.
  - apply content_with_suffix_panic in E; [|assumption]. tauto.
  - exfalso. unfold content_with_suffix in E. destruct (cscan suf CNorm false s); discriminate.
Qed.
Print Assumptions C22_fails_partial.

(** C22: a final backslash makes the parser panic. *)
Theorem C22_fails_refuted : exists input, panics input [] PIndex.
Proof. exists (lit "\def\foo#1x{#1}\foo a\"). exists 10%nat. eexists. vm_compute. reflexivity. Qed.
Print Assumptions C22_fails_refuted.

Example C22_example : content_with_suffix (lit "x") (lit "a{x}\x%x" ++ [10] ++ lit "xb") =
  (Ok (lit "a{x}\x%x" ++ [10]), lit "b").
Proof. vm_compute. reflexivity. Qed.

(** C26: an integral dimension, exactly, below 2^24. *)
Theorem C26_integer_partial : forall sg ds ws u d rest,
  Forall sign sg -> digits ds -> ds <> [] -> (decimal_of ds < 2 ^ 24)%Z ->
  forallb is_ws ws = true -> In (u, d) units -> not_next (fun c => is_ws c = true) rest ->
  lex_dimension (sg ++ ds ++ ws ++ u ++ rest) = (Ok (mkDim (f32_signed (negative sg) (decimal_of ds)) d), rest) /\
  lex_dimension (sg ++ ds ++ ws ++ u ++ 32 :: rest) = (Ok (mkDim (f32_signed (negative sg) (decimal_of ds)) d), rest).
Proof. exact dimension_integer. Qed.
Print Assumptions C26_integer_partial.

(** C26: a decimal fraction with at most seven decimals; its value is computed
    from the exact integers written before and after the point. *)
Theorem C26_fraction_partial : forall sg ds p fs ws u d rest,
  Forall sign sg -> digits ds -> digits fs -> p = 46 \/ p = 44 ->
  (decimal_of ds < 2 ^ 24)%Z -> (decimal_of fs < 2 ^ 24)%Z -> (List.length fs <= 7)%nat ->
  forallb is_ws ws = true -> In (u, d) units -> not_next (fun c => is_ws c = true) rest ->
  lex_dimension (sg ++ ds ++ p :: fs ++ ws ++ u ++ rest) =
  (Ok (mkDim (f32_mul (f32_of_Z (if negative sg then -1 else 1)%Z)
        (f32_add (f32_of_Z (decimal_of ds))
           (f32_div (f32_of_Z (decimal_of fs)) (f32_of_Z (10 ^ Z.of_nat (List.length fs)))))) d), rest).
Proof. exact dimension_fraction. Qed.
Print Assumptions C26_fraction_partial.

(** C26: without one of the twelve units, an error. *)
Theorem C26_unit_required : forall sg ds ws s,
  Forall sign sg -> digits ds -> ds <> [] -> forallb is_ws ws = true -> not_next (fun c => is_ws c = true) s ->
  not_next numeric (ws ++ s) -> (forall u d, In (u, d) units -> firstn 2 s <> u) ->
  lex_dimension (sg ++ ds ++ ws ++ s) = (Err EDimensionUnit, s).
Proof. exact dimension_no_unit. Qed.
Print Assumptions C26_unit_required.

(** C26: digits are accumulated in [f32], so that a longer number need not be
    read as the nearest one: 100000024 is nearer than 100000016. *)
Theorem C26_nearest_refuted : exists d r,
  lex_dimension (lit "100000022pt") = (Ok (mkDim d UPt), r) /\
  d = f32_of_Z 100000016 /\ f32_of_Z (decimal_of (lit "100000022")) = f32_of_Z 100000024 /\
  f32_of_Z 100000016 <> f32_of_Z 100000024.
Proof. do 2 eexists. split; [vm_compute; reflexivity|]. vm_compute. repeat split; congruence. Qed.
Print Assumptions C26_nearest_refuted.

Example C26_example : lex_dimension (lit "- + - - 16777215  pt x") = (Ok (mkDim (f32_of_Z (-16777215)) UPt), lit "x").
Proof. vm_compute. reflexivity. Qed.
Example C26_half : lex_dimension (lit "--2.50emx") = (Ok (mkDim (f32_div (f32_lit 5 0) (f32_lit 2 0)) UEm), lit "x").
Proof. vm_compute. reflexivity. Qed.

(** C27: the six digits are the three bytes, in either case. *)
Theorem C27_hex : forall a1 a2 b1 b2 c1 c2 r1 r2 g1 g2 l1 l2,
  hex_value a1 r1 -> hex_value a2 r2 -> hex_value b1 g1 -> hex_value b2 g2 -> hex_value c1 l1 -> hex_value c2 l2 ->
  lex_color [35; a1; a2; b1; b2; c1; c2] = Ok (Some (16 * r1 + r2, 16 * g1 + g2, 16 * l1 + l2)).
Proof.
  intros. apply hex_color_iff. exists a1, a2, b1, b2, c1, c2. split; [reflexivity|]. split; [|split]; left; eauto 10.
Qed.
Print Assumptions C27_hex.

(** C27: what else starts with [#] is no colour, except that a plus sign may
    stand for a leading zero. *)
Theorem C27_others_partial : forall s c, lex_color (35 :: s) = Ok (Some c) ->
  List.length s = 6%nat /\ Forall (fun x => x = 43 \/ exists v, hex_value x v) s /\ fst (fst c) < 256 /\ snd (fst c) < 256 /\ snd c < 256.
Proof. exact hex_color_shape. Qed.
Print Assumptions C27_others_partial.

Theorem C27_plus_refuted : lex_color (lit "#+1+2+3") = Ok (Some (1, 2, 3)) /\
  parses (lit "\color{#+1+2+3}") [ItEvent (EvState (SCColor (1, 2, 3) CTText))].
Proof. split; [vm_compute; reflexivity|]. exists 20%nat. eexists. vm_compute. reflexivity. Qed.
Print Assumptions C27_plus_refuted.

Theorem C27_panics_refuted : exists s, panics (lit "\color{#" ++ s ++ lit "}") [] PBoundary.
Proof. exists [49; 233; 49; 50; 51]. exists 20%nat. eexists. vm_compute. reflexivity. Qed.
Print Assumptions C27_panics_refuted.

(** C28: the names of CSS, in any case, unless the name is exactly one of dvips. *)
Theorem C28_css : forall s n v, ~ In s dvips_names -> Forall2 lower s n -> In (n, v) css_colors ->
  lex_color s = Ok (Some (bytes_of v)).
Proof. exact css_named. Qed.
Print Assumptions C28_css.

Theorem C28_dvips : forall s v, In (s, v) dvips_colors -> lex_color s = Ok (Some (bytes_of v)).
Proof. exact dvips_named. Qed.
Print Assumptions C28_dvips.

Theorem C28_unknown : forall s, (forall r, s <> 35 :: r) -> ~ In s dvips_names ->
  (forall n, Forall2 lower s n -> ~ In n (map fst css_colors)) -> lex_color s = Ok None.
Proof. exact unknown_named. Qed.
Print Assumptions C28_unknown.

Example C28_case : lex_color (lit "bLuE") = Ok (Some (0, 0, 255)) /\ lex_color (lit "Blue") <> lex_color (lit "blue") /\
  lex_color (lit "blu") = Ok None.
Proof. split; [|split]; vm_compute; congruence. Qed.
