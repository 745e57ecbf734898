(** * PropSymbol: the symbol commands. *)

From Coq Require Import Ascii String List NArith ZArith Bool.
From Verif Require Import Base Float32 Event Tables Prim PrimTable Lex Parser PrimFacts Api SpecLex SpecNum SpecFormula FormulaCompose FormulaProps FormulaDerive
  SpecSymbol SymbolFacts SpecColor.
Import ListNotations.
Open Scope N_scope.
Open Scope list_scope.
#[local] Existing Instance parsed.

(** C68: every standard symbol command of the table yields its character with its
    class, wherever it is and whatever follows. *)
Theorem C68_symbols_partial : forall n e b t r, In (n, e) (standard_symbols ++ two_symbol_events ++ space_events) -> ~ In n (map lit deviating) ->
  blank b -> control n t r -> ~ starts 94 r -> ~ starts 95 r -> continues (b ++ t) [e] r.
Proof. exact symbol_continues. Qed.
Print Assumptions C68_symbols_partial.

(** The same as base, script or argument inside a formula (C60). *)
Theorem C68_inside_partial : forall n e, In (n, e) (standard_symbols ++ two_symbol_events ++ space_events) -> ~ In n (map lit deviating) ->
  forall h b t r, blank b -> control n t r -> nucleus h (b ++ t) [e] no_limits r.
Proof. exact symbol_nucleus. Qed.
Print Assumptions C68_inside_partial.

Example C68_case : In (lit "Longleftrightarrow", EvContent (CRelation 10234 None false)) (standard_symbols ++ two_symbol_events ++ space_events) /\
  ~ In (lit "Longleftrightarrow") (map lit deviating) /\ control (lit "Longleftrightarrow") (lit "\Longleftrightarrow b") (lit "b") /\
  (List.length (standard_symbols ++ two_symbol_events ++ space_events) = 582)%nat.
Proof.
  split; [|split; [|split]].
  - apply assoc_in. vm_compute. reflexivity.
  - vm_compute. intuition discriminate.
  - exact (control_dec (lit "Longleftrightarrow") [32] (lit "b") eq_refl).
  - vm_compute. reflexivity.
Qed.

(** Nineteen commands yield something else: [\mu] the micro sign U+00B5, [\Game] the
    Hebrew letter of [\gimel]; [\colon], [\ldotp] and [\cdotp] are not
    punctuation, [\asymp] is not a relation, [\smallsetminus] (the example of the
    documentation for small operators) and [\smallfrown] are not small; [\Diamond] is the lozenge, [\varnothing] the
    diameter sign, [\barwedge] the projective sign, [\ast] the asterisk of the
    keyboard, [\ncong] the sign for approximately but not actually equal;
    [\dagger], [\ddagger], [\bigtriangleup], [\bigtriangledown] are not binary
    operators, [\vcentcolon] is not a relation; [\|] is the ordinary parallel
    sign, not the delimiter of [\Vert]. *)
Definition shown_instead : list (string * event) :=
  [("mu"%string, ord 181); ("Game"%string, ord 8503); ("colon"%string, ord 58); ("ldotp"%string, bin 46); ("cdotp"%string, bin 183);
   ("asymp"%string, bin 8781); ("smallsetminus"%string, bin 8726); ("smallfrown"%string, rel 8994);
   ("Diamond"%string, ord 9674); ("varnothing"%string, ord 8960); ("dagger"%string, ord 8224); ("ddagger"%string, ord 8225);
   ("bigtriangleup"%string, ord 9651); ("bigtriangledown"%string, ord 9661); ("barwedge"%string, bin 8965); ("ast"%string, bin 42);
   ("vcentcolon"%string, ord 58); ("ncong"%string, rel 8774); ("|"%string, ord 8741)].
Theorem C68_symbols_refuted : map fst shown_instead = deviating /\ forall n e, In (n, e) shown_instead ->
  parses (92 :: lit n) [ItEvent e] /\ exists e', In (lit n, e') standard_symbols /\ e <> e'.
Proof.
  split; [reflexivity|]. intros n e H.
  repeat (destruct H as [E|H]; [injection E as <- <-; split; [exists 9%nat; eexists; vm_compute; reflexivity|]|]); [..|destruct H].
  - exists (ord 956). split; [apply assoc_in; vm_compute; reflexivity|discriminate].
  - exists (ord 8513). split; [apply assoc_in; vm_compute; reflexivity|discriminate].
  - exists (punct 58). split; [apply assoc_in; vm_compute; reflexivity|discriminate].
  - exists (punct 46). split; [apply assoc_in; vm_compute; reflexivity|discriminate].
  - exists (punct 183). split; [apply assoc_in; vm_compute; reflexivity|discriminate].
  - exists (rel 8781). split; [apply assoc_in; vm_compute; reflexivity|discriminate].
  - exists (EvContent (CBinaryOp 8726 true)). split; [apply assoc_in; vm_compute; reflexivity|discriminate].
  - exists (EvContent (CRelation 8994 None true)). split; [apply assoc_in; vm_compute; reflexivity|discriminate].
  - exists (ord 9671). split; [apply assoc_in; vm_compute; reflexivity|discriminate].
  - exists (ord 8709). split; [apply assoc_in; vm_compute; reflexivity|discriminate].
  - exists (bin 8224). split; [apply assoc_in; vm_compute; reflexivity|discriminate].
  - exists (bin 8225). split; [apply assoc_in; vm_compute; reflexivity|discriminate].
  - exists (bin 9651). split; [apply assoc_in; vm_compute; reflexivity|discriminate].
  - exists (bin 9661). split; [apply assoc_in; vm_compute; reflexivity|discriminate].
  - exists (bin 8892). split; [apply assoc_in; vm_compute; reflexivity|discriminate].
  - exists (bin 8727). split; [apply assoc_in; vm_compute; reflexivity|discriminate].
  - exists (rel 58). split; [apply assoc_in; vm_compute; reflexivity|discriminate].
  - exists (rel 8775). split; [apply assoc_in; vm_compute; reflexivity|discriminate].
  - exists (EvContent (CDelimiter 8214 None DFence)). split; [apply assoc_in; vm_compute; reflexivity|discriminate].
Qed.
Print Assumptions C68_symbols_refuted.

(** C69: the character itself, written in the text, is the same as the command. *)
Theorem C69_characters_partial : forall c e b r, In (c, e) written -> special c = false -> ~ In c ambiguous -> blank b ->
  ~ starts 94 r -> ~ starts 95 r -> continues (b ++ c :: r) [e] r.
Proof. exact char_continues. Qed.
Print Assumptions C69_characters_partial.

Example C69_case : In (8804, EvContent (CRelation 8804 None false)) written /\ special 8804 = false /\ ~ In 8804 ambiguous.
Proof.
  split; [|split; [reflexivity|vm_compute; intuition discriminate]].
  assert (E : existsb (fun p => fst p =? 8804) written = true) by (vm_compute; reflexivity).
  apply existsb_exists in E as ([c e] & H1 & H2). cbn in H2. apply N.eqb_eq in H2. subst c.
  rewrite <- (char_standard 8804 e H1) in H1; [exact H1|reflexivity|vm_compute; intuition discriminate].
Qed.

(** The delimiter U+23B0 of [\lmoustache] is a relation when it is written as a
    character, and the three dots U+22EF of [\cdots] too. *)
Theorem C69_refuted : parses (lit "\lmoustache") [ItEvent (EvContent (CDelimiter 9136 None DOpen))] /\ parses [9136] [ItEvent (rel 9136)] /\
  parses (lit "\cdots") [ItEvent (ord 8943)] /\ parses [8943] [ItEvent (rel 8943)].
Proof. repeat split; (exists 9%nat; eexists; vm_compute; reflexivity). Qed.
Print Assumptions C69_refuted.

(** Runs of characters, among them all arrows but the corner arrows. *)
Theorem C69_blocks_partial : forall lo hi k c b r, In (lo, hi, k) blocks -> lo <= c <= hi -> blank b -> ~ starts 94 r -> ~ starts 95 r ->
  continues (b ++ c :: r) [symbol_event k c] r.
Proof. exact block_continues. Qed.
Print Assumptions C69_blocks_partial.

Example C69_blocks_case : In (0x2190, 0x21B3, Rel) blocks /\ 0x2190 <= 0x21A6 <= 0x21B3 /\ blank [32] /\ ~ starts 94 (lit "y").
Proof.
  split; [left; reflexivity|]. split; [split; discriminate|]. split; [constructor; [reflexivity|constructor]|]. intros (w & r & Hw & E).
  destruct w as [|x w]; [discriminate E|]. injection E as <- _. discriminate Hw.
Qed.

(** A character and its negation are of one class. *)
Theorem C69_negations : forall c d b r, In (c, d) negations -> blank b -> ~ starts 94 r -> ~ starts 95 r ->
  exists k, continues (b ++ c :: r) [symbol_event k c] r /\ continues (b ++ d :: r) [symbol_event k d] r.
Proof. exact negation_continues. Qed.
Print Assumptions C69_negations.

(** The large operators and the minus sign, typed as characters, are ordinary. *)
Theorem C69_operators_refuted :
  (forall n c, In (n, c) [("sum", 0x2211); ("prod", 0x220F); ("coprod", 0x2210); ("int", 0x222B); ("oint", 0x222E); ("bigcap", 0x22C2); ("bigcup", 0x22C3)]%string ->
    parses (92 :: lit n) [ItEvent (EvContent (CLargeOp c false))] /\ parses [c] [ItEvent (ord c)]) /\
  parses (lit "-") [ItEvent (bin 0x2212)] /\ parses [0x2212] [ItEvent (ord 0x2212)].
Proof.
  split; [|split; exists 9%nat; eexists; vm_compute; reflexivity].
  intros n c H. repeat (destruct H as [E|H]; [injection E as <- <-; split; exists 9%nat; eexists; vm_compute; reflexivity|]). destruct H.
Qed.
Print Assumptions C69_operators_refuted.

(** C28 as events: whatever follows, a named colour is the colour of its name. *)
Theorem C28_color : forall b t w s v r, color_name s v -> blank b -> control (lit "color") t (w ++ 123 :: s ++ 125 :: r) -> white w ->
  continues (b ++ t) [EvState (SCColor (bytes_of v) CTText)] r.
Proof. exact color_continues. Qed.
Print Assumptions C28_color.

Theorem C28_textcolor : forall b t w s v u es r, color_name s v -> blank b ->
  control (lit "textcolor") t (w ++ 123 :: s ++ 125 :: u) -> white w -> nucleus true u es no_limits r -> ~ starts 94 r -> ~ starts 95 r ->
  continues (b ++ t) (EvBegin GNormal :: EvState (SCColor (bytes_of v) CTText) :: es ++ [EvEnd]) r.
Proof. exact textcolor_continues. Qed.
Print Assumptions C28_textcolor.

Example C28_color_case : color_name (lit "MidnightBlue") 0x006795 /\ color_name (lit "midnightBlue") 0x191970 /\
  control (lit "color") (lit "\color{MidnightBlue}x") (lit "{MidnightBlue}x").
Proof.
  split; [|split].
  - left. apply assoc_in. vm_compute. reflexivity.
  - right. split; [vm_compute; intuition discriminate|]. exists (lit "midnightblue"). split; [|apply assoc_in; vm_compute; reflexivity].
    repeat (constructor; [unfold lower; vm_compute; intuition congruence|]). constructor.
  - exact (control_dec (lit "color") [] (lit "{MidnightBlue}x") eq_refl).
Qed.
