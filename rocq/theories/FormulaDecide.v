(** * FormulaDecide: every text is a formula, or comes to something wrong, or to
    something of which the rules say nothing. *)

From Coq Require Import Ascii String List NArith ZArith Bool Lia Arith.
From Verif Require Import Base Float32 Event Tables Prim PrimTable Lex Macros Primitives
  SpecLex SpecNum LexFacts LexMore LexNum SpecFormula FormulaLex FormulaNucleus4 FormulaCompose FormulaDerive
  SpecFault FormulaFault FormulaFirst SpecBeyond.
Import ListNotations.
Open Scope N_scope.
Open Scope list_scope.

(** ** What is read, and what is wrong with it *)

Definition reading := Known -> list event -> Prop.
Definition mono (D : reading) : Prop := forall K1 K2 : Known, (forall al s es, K1 al s es -> K2 al s es) -> forall es, D K1 es -> D K2 es.

Definition problem (al : option (N * N)) (g : str) : Prop := (exists e, @fault anything al g e) \/ unsaid g.

Lemma part_refl : forall s, part s s.
Proof. intros s. exists [], []. cbn. rewrite app_nil_r. auto. Qed.
Lemma part_trans : forall a b c, part a b -> part b c -> part a c.
Proof.
  intros a b c (x & y & -> & Hy) (x' & y' & -> & Hy'). exists (x' ++ x), (y ++ y'). split; [rewrite <- !app_assoc; reflexivity|].
  destruct y; [exact Hy'|exact Hy].
Qed.
Lemma part_end : forall a s, part s (a ++ s).
Proof. intros a s. exists a, []. rewrite app_nil_r. split; [reflexivity|exact I]. Qed.
Lemma part_mid : forall a g c x s, c = x :: s -> ~ letter x -> part g (a ++ g ++ c).
Proof. intros a g c x s -> H. exists a, (x :: s). auto. Qed.

Definition good (D : reading) : Prop := exists es, D nothing_known es.
Definition bad (s : str) (D : reading) : Prop :=
  exists al g pre, part g s /\ problem al g /\ forall f, exists post, D (marking f) (pre ++ f al g :: post).
Definition outcome (s : str) (D : reading) : Prop := good D \/ bad s D.

Lemma outcome_part : forall s s' D, part s s' -> outcome s D -> outcome s' D.
Proof. intros s s' D H [G|(al & g & pre & Hp & Hq & Hf)]; [left; exact G|right]. exists al, g, pre. split; [eapply part_trans; eassumption|auto]. Qed.

Lemma outcome_imp : forall s (D D' : reading), (forall K es, D K es -> D' K es) -> outcome s D -> outcome s D'.
Proof.
  intros s D D' H [[es G]|(al & g & pre & Hp & Hq & Hf)]; [left; exists es; auto|right]. exists al, g, pre. split; [exact Hp|]. split; [exact Hq|].
  intros f. destruct (Hf f) as [post X]. exists post. auto.
Qed.

Definition wrap (p : list event) (D : reading) (q : list event) : reading := fun K x => exists a, D K a /\ x = p ++ a ++ q.
Definition both (D1 D2 : reading) : reading := fun K x => exists a b, D1 K a /\ D2 K b /\ x = a ++ b.

Lemma outcome_wrap : forall s p D q, outcome s D -> outcome s (wrap p D q).
Proof.
  intros s p D q [[es G]|(al & g & pre & Hp & Hq & Hf)]; [left; exists (p ++ es ++ q); exists es; auto|right].
  exists al, g, (p ++ pre). split; [exact Hp|]. split; [exact Hq|]. intros f. destruct (Hf f) as [post X]. exists (post ++ q). exists (pre ++ f al g :: post).
  split; [exact X|]. rewrite <- !app_assoc. reflexivity.
Qed.

Lemma outcome_some : forall s D f, mono D -> outcome s D -> exists es, D (marking f) es.
Proof.
  intros s D f Hm [[es G]|(al & g & pre & Hp & Hq & Hf)]; [|destruct (Hf f); eauto]. exists es. eapply Hm; [|exact G]. intros al s0 es0 X; exfalso; exact X.
Qed.

Lemma outcome_any : forall s D, mono D -> outcome s D -> exists es, D anything es.
Proof.
  intros s D Hm H. destruct (outcome_some s D (fun _ _ => EvEnd) Hm H) as [es X]. exists es. eapply Hm; [|exact X]. intros; exact I.
Qed.

Lemma mono_both : forall D1 D2, mono D1 -> mono D2 -> mono (both D1 D2).
Proof. intros D1 D2 H1 H2 K1 K2 H es (a & b & Ha & Hb & ->). exists a, b. split; [exact (H1 K1 K2 H a Ha)|]. split; [exact (H2 K1 K2 H b Hb)|reflexivity]. Qed.

Lemma mono_wrap : forall p D q, mono D -> mono (wrap p D q).
Proof. intros p D q Hm K1 K2 H es (a & Ha & ->). exists a. split; [exact (Hm K1 K2 H a Ha)|reflexivity]. Qed.

Lemma outcome_both : forall s D1 D2, mono D1 -> mono D2 -> outcome s D1 -> outcome s D2 -> outcome s (both D1 D2).
Proof.
  intros s D1 D2 M1 M2 H1 H2. destruct H1 as [[es G]|(al & g & pre & Hp & Hq & Hf)].
  - destruct H2 as [[es' G']|(al & g & pre & Hp & Hq & Hf)]; [left; exists (es ++ es'), es, es'; auto|right].
    exists al, g, (es ++ pre). split; [exact Hp|]. split; [exact Hq|]. intros f. destruct (Hf f) as [post X]. exists post.
    exists es, (pre ++ f al g :: post). split; [eapply M1; [|exact G]; intros ? ? ? Z; exfalso; exact Z|]. split; [exact X|]. rewrite app_assoc. reflexivity.
  - right. exists al, g, pre. split; [exact Hp|]. split; [exact Hq|]. intros f. destruct (Hf f) as [post X]. destruct (outcome_some s D2 f M2 H2) as [es Y].
    exists (post ++ es), (pre ++ f al g :: post), es. split; [exact X|]. split; [exact Y|]. rewrite <- app_assoc. reflexivity.
Qed.

Lemma mono_nucleus : forall h s l r, mono (fun K es => @nucleus K h s es l r).
Proof. intros h s l r K1 K2 H es X. eapply (proj1 (meaning_more K1 K2 H)), X. Qed.
Lemma mono_element : forall s r, mono (fun K es => @element K s es r).
Proof. intros s r K1 K2 H es X. eapply (meaning_more K1 K2 H), X. Qed.
Lemma mono_formula : forall al s, mono (fun K es => @formula K al s es).
Proof. intros al s K1 K2 H es X. eapply (meaning_more K1 K2 H), X. Qed.

(** ** Texts *)

Lemma starts_or : forall c s, is_ws c = false -> starts c s \/ ~ starts c s.
Proof.
  intros c s Hc. destruct (trim_start_suffix s) as (w & Ew & Hw). destruct (trim_start s) as [|x t] eqn:E.
  - right. apply starts_dec; [exact Hc|]. rewrite E. reflexivity.
  - destruct (N.eq_dec x c) as [->|Hx]; [left; exists w, t; split; [exact Hw|exact Ew]|].
    right. apply starts_dec; [exact Hc|]. rewrite E. cbn. apply N.eqb_neq. congruence.
Qed.

Lemma closed_or : forall k s, (exists g r, enclosed (opening_str k) (closing_str k) s g r) \/ unclosed (opening_str k) (closing_str k) s.
Proof.
  intros k s. destruct (group_content k s) as [[g| | |] r] eqn:E; [left; exists g, r; apply group_content_iff, E|right..]; apply unclosed_dec; rewrite E; reflexivity.
Qed.

Lemma braces_or : forall s, (exists g r, balanced 123 125 g /\ s = g ++ 125 :: r) \/ unclosed [123] [125] s.
Proof.
  intros s. destruct (closed_or GKNormal s) as [(g & r & H)|H]; [left|right; exact H]. exists g, r.
  apply (enclosed_balanced 123 125) in H; [exact H|discriminate].
Qed.

Lemma brackets_or : forall s, (exists g r, balanced 91 93 g /\ s = g ++ 93 :: r) \/ unclosed [91] [93] s.
Proof.
  intros s. destruct (closed_or GKOptional s) as [(g & r & H)|H]; [left|right; exact H]. exists g, r.
  apply (enclosed_balanced 91 93) in H; [exact H|discriminate].
Qed.

Lemma delimiter_or : forall s, (exists c ty r, delimiter s c ty r) \/ exists e, no_delimiter s e.
Proof.
  intros s. destruct (lex_delimiter s) as [[[c ty]|e|p|] r] eqn:E.
  1:{ left. exists c, ty, r. apply delimiter_back, E. }
  all: right; assert (Hn : forall c ty r, ~ delimiter s c ty r) by (intros c ty r0 H; apply delimiter_read in H as [H _]; congruence);
    pose proof (token_back s) as Hk; destruct (lex_token s) as [[t|e'|p'|] r0] eqn:Et; try contradiction.
  all: try (exists EDelimiter; apply ND_other; [exact Hn|intros X; rewrite (nothing_token' _ X) in Et; discriminate|intros b Hb ->; rewrite lex_token_blank in Et by exact Hb; discriminate]).
  all: destruct e'; try (destruct Hk as [? _]; discriminate); try (exists EToken; apply ND_end; exact Hk).
  all: destruct Hk as (_ & b & Hb & ->); exists EEmptyControlSequence; apply ND_backslash, Hb.
Qed.

Lemma delimiter_opt_or : forall s, (exists o r, delimiter_opt s o r) \/ not_next (eq 46) s /\ exists e, no_delimiter s e.
Proof.
  intros [|c s].
  - right. split; [exact I|]. exists EToken. apply ND_end, NL_blank. constructor.
  - destruct (N.eq_dec 46 c) as [<-|Hc]; [left; exists None, s; constructor|]. destruct (delimiter_or (c :: s)) as [(d & ty & r & H)|H].
    + left. exists (Some d), r. eapply DO_some; [exact Hc|exact H].
    + right. split; [exact Hc|exact H].
Qed.

Lemma lines_total : forall n s, (length s < n)%nat -> exists ls r, lines s ls r.
Proof.
  induction n as [|n IH]; intros s Hn; [lia|].
  assert (Hw : forall p, p <> [] -> is_ws (hd 0 p) = false -> (exists w r, white w /\ s = w ++ p ++ r) \/ forall w r, white w -> s <> w ++ p ++ r).
  { intros p Hp Hh. destruct (begins_b p s) eqn:E; [left|right; intros w r H X; apply (begins_dec p s) with w r; try assumption; destruct p; [contradiction|exact Hh]].
    unfold begins_b in E. destruct (strip_prefix p (trim_start s)) as [r|] eqn:E'; [|discriminate]. apply strip_prefix_some in E'.
    destruct (trim_start_suffix s) as (w & Ew & Hf). exists w, r. split; [exact Hf|]. rewrite <- E'. exact Ew. }
  destruct (Hw hline) as [(w & r & H & E)|H1]; [discriminate|reflexivity|..].
  { destruct (IH r) as (ls & r' & H'); [rewrite E, !app_length in Hn; change (length hline) with 6%nat in Hn; lia|]. exists (LSolid :: ls), r'. rewrite E. apply L_solid; assumption. }
  destruct (Hw hdashline) as [(w & r & H & E)|H2]; [discriminate|reflexivity|..].
  { destruct (IH r) as (ls & r' & H'); [rewrite E, !app_length in Hn; change (length hdashline) with 10%nat in Hn; lia|]. exists (LDashed :: ls), r'. rewrite E. apply L_dashed; assumption. }
  exists [], s. apply L_none. intros w r H. split; [apply H1|apply H2]; exact H.
Qed.

Lemma modifiers_total : forall n p s, (length s < n)%nat -> exists p' r, modifiers p s p' r.
Proof.
  induction n as [|n IH]; intros p s Hn; [lia|].
  assert (Hw : forall q, q <> [] -> is_ws (hd 0 q) = false -> (exists w r, white w /\ s = w ++ q ++ r) \/ forall w r, white w -> s <> w ++ q ++ r).
  { intros q Hp Hh. destruct (begins_b q s) eqn:E; [left|right; intros w r H X; apply (begins_dec q s) with w r; try assumption; destruct q; [contradiction|exact Hh]].
    unfold begins_b in E. destruct (strip_prefix q (trim_start s)) as [r|] eqn:E'; [|discriminate]. apply strip_prefix_some in E'.
    destruct (trim_start_suffix s) as (w & Ew & Hf). exists w, r. split; [exact Hf|]. rewrite <- E'. exact Ew. }
  destruct (Hw (lit "\limits")) as [(w & r & H & E)|H1]; [discriminate|reflexivity|..].
  { destruct (IH SPAboveBelow r) as (p' & r' & H'); [rewrite E, !app_length in Hn; change (length (lit "\limits")) with 7%nat in Hn; lia|]. exists p', r'. rewrite E. apply M_limits; assumption. }
  destruct (Hw (lit "\nolimits")) as [(w & r & H & E)|H2]; [discriminate|reflexivity|..].
  { destruct (IH SPRight r) as (p' & r' & H'); [rewrite E, !app_length in Hn; change (length (lit "\nolimits")) with 9%nat in Hn; lia|]. exists p', r'. rewrite E. apply M_nolimits; assumption. }
  exists p, s. apply M_none. intros w r H. split; [apply H1|apply H2]; exact H.
Qed.

Lemma lines_end : forall s ls r, lines s ls r -> exists a, s = a ++ r.
Proof.
  intros s ls r H. induction H as [s H|w s ls r Hw H (a & ->)|w s ls r Hw H (a & ->)]; [exists []; reflexivity|..]; eexists; rewrite app_assoc, app_assoc; reflexivity.
Qed.

Lemma modifiers_end : forall p s p' r, modifiers p s p' r -> exists a, s = a ++ r.
Proof.
  intros p s p' r H. induction H as [p s H|p w s p' r Hw H (a & ->)|p w s p' r Hw H (a & ->)]; [exists []; reflexivity|..]; eexists; rewrite app_assoc, app_assoc; reflexivity.
Qed.

Lemma placed_total : forall l s, exists p r a, placed l s p r /\ s = a ++ r.
Proof.
  intros [b o] s. unfold placed. cbn [fst snd]. destruct b.
  - destruct (modifiers_total (S (length s)) (match o with Some p => p | None => SPRight end) s) as (p & r & H); [lia|].
    destruct (modifiers_end _ _ _ _ H) as [a ->]. exists p, r, a. auto.
  - eexists _, s, []. auto.
Qed.

Lemma number_total : forall c s, digit c -> exists n r, number n /\ after_number n r /\ c :: s = n ++ r /\ n <> [].
Proof.
  intros c s Hc. destruct (span_while is_numeral s) as [m r] eqn:E. apply span_while_spec in E as (-> & Hm & Hr).
  assert (Hm' : Forall numeric m) by (apply Forall_forall; intros x Hx; apply numeric_is; rewrite forallb_forall in Hm; auto).
  assert (Hr' : not_next numeric r) by (destruct r as [|x r]; [exact I|]; cbn; rewrite numeric_is; congruence).
  destruct m as [|d m] using rev_ind.
  - exists [c], r. split; [split; [constructor; [right; right; exact Hc|constructor]|exists c, []; auto]|]. split; [|split; [reflexivity|discriminate]]. left. split; [exists c, []; auto|exact Hr'].
  - clear IHm. apply Forall_app in Hm' as [Hm1 Hm2]. inversion Hm2 as [|? ? Hd _]; subst. destruct (is_digit d) eqn:Ed.
    + apply digit_is in Ed. exists (c :: m ++ [d]), r. split; [split; [constructor; [right; right; exact Hc|]; apply Forall_app; auto|exists c, (m ++ [d]); auto]|].
      split; [|split; [reflexivity|discriminate]]. left. split; [exists d, (c :: m); auto|exact Hr'].
    + exists (c :: m), (d :: r). split; [split; [constructor; [right; right; exact Hc|exact Hm1]|exists c, m; auto]|].
      split; [|split; [rewrite <- app_assoc; reflexivity|discriminate]]. right. exists d, r. split; [|auto].
      destruct Hd as [->|[->|Hd]]; auto. apply digit_is in Hd. congruence.
Qed.

(** The names of commands. *)
Lemma in_or : forall (cs : str) (l : list str), In cs l \/ ~ In cs l.
Proof.
  intros cs l. destruct (existsb (str_eqb cs) l) eqn:E; [left|right; apply not_in_dec, E]. apply existsb_exists in E as (x & Hx & Ex). apply str_eqb_eq in Ex. congruence.
Qed.

(** ** Lengths *)

Definition sign_b (c : char) : bool := (c =? 45) || (c =? 43) || is_ws c.

Lemma span_is : forall (p : char -> bool) a b, forallb p a = true -> match b with [] => True | c :: _ => p c = false end -> span_while p (a ++ b) = (a, b).
Proof.
  intros p a b Ha Hb. induction a as [|c a IH]; cbn in *.
  - destruct b as [|c b]; [reflexivity|]. cbn. rewrite Hb. reflexivity.
  - apply andb_prop in Ha as [Hc Ha]. rewrite Hc, IH by exact Ha. reflexivity.
Qed.

Definition small_b (ds : str) : bool := (decimal_of ds <? 2 ^ 24)%Z.

Definition length_b (t : str) : bool :=
  let (sg, t1) := span_while sign_b t in
  let (ds, t2) := span_while is_digit t1 in
  match t2 with
  | p :: t3 =>
      if (p =? 46) || (p =? 44) then
        let (fs, t4) := span_while is_digit t3 in
        let (w, u) := span_while is_ws t4 in
        existsb (str_eqb u) (map fst units) && small_b ds && small_b fs && (length fs <=? 7)%nat
      else
        let (w, u) := span_while is_ws t2 in
        existsb (str_eqb u) (map fst units) && small_b ds && negb (is_nil ds)
  | [] => false
  end.

Lemma sign_is : forall c, sign c <-> sign_b c = true.
Proof. intros c. unfold sign, sign_b. rewrite !orb_true_iff, !N.eqb_eq. tauto. Qed.

Lemma signs_b : forall l, Forall sign l -> forallb sign_b l = true.
Proof. intros l H. apply forallb_forall. intros x Hx. apply sign_is. revert x Hx. apply Forall_forall, H. Qed.
Lemma digits_b : forall l, digits l -> forallb is_digit l = true.
Proof. intros l H. apply forallb_forall. intros x Hx. apply digit_is. revert x Hx. apply Forall_forall, H. Qed.

Lemma digit_not_sign : forall c, digit c -> sign_b c = false.
Proof.
  intros c H. destruct (sign_b c) eqn:E; [|reflexivity]. apply sign_is in E. pose proof (digit_no_ws c H). unfold digit in H. destruct E as [->|[->|E]]; [lia|lia|congruence].
Qed.
Lemma ws_not_digit : forall c, is_ws c = true -> is_digit c = false /\ c <> 46 /\ c <> 44.
Proof.
  intros c H. split; [destruct (is_digit c) eqn:E; [apply digit_is, digit_no_ws in E; congruence|reflexivity]|]. split; intros ->; discriminate.
Qed.

Lemma unit_char : forall u d, In (u, d) units -> exists c r, u = c :: r /\ is_digit c = false /\ is_ws c = false /\ c <> 46 /\ c <> 44.
Proof.
  intros u d H. destruct (units_plain u d H) as [Hp Hn]. destruct u as [|c r]; [contradiction|]. inversion Hp; subst. exists c, r. split; [reflexivity|].
  split; [destruct (is_digit c) eqn:E; [apply digit_is in E; unfold digit in E; lia|reflexivity]|].
  split; [destruct (is_ws c) eqn:E; [|reflexivity]; repeat destruct H as [H|H]; try contradiction; injection H as E1 E2; subst c; discriminate|lia].
Qed.

Lemma length_b_complete : forall t d, dimension_text t d -> length_b t = true.
Proof.
  intros t d H. unfold length_b.
  assert (Hu : forall u un, In (u, un) units -> existsb (str_eqb u) (map fst units) = true).
  { intros u un Hin. apply existsb_exists. exists u. split; [exact (in_map fst _ _ Hin)|apply str_eqb_refl]. }
  assert (Hwu : forall w u un, white w -> In (u, un) units -> match w ++ u with [] => True | c :: _ => is_digit c = false end /\ exists c r, w ++ u = c :: r /\ c <> 46 /\ c <> 44).
  { intros w u un Hw Hin. destruct w as [|x w].
    - destruct (unit_char _ _ Hin) as (c & r & -> & H1 & H2 & H3 & H4). cbn. split; [exact H1|]. exists c, r. auto.
    - unfold white in Hw. cbn [forallb] in Hw. apply andb_prop in Hw as [Hx Hw]. destruct (ws_not_digit x Hx) as (A1 & A2 & A3). cbn. split; [exact A1|]. exists x, (w ++ u). auto. }
  destruct H as [sg ds w u un Hsg Hds Hne Hlt Hw Hin|sg ds p fs w u un Hsg Hds Hfs Hp Hlt Hlt' Hlen Hw Hin].
  - rewrite (span_is _ sg) by (first [apply signs_b, Hsg|destruct ds as [|c ds]; [contradiction|inversion Hds; subst; apply digit_not_sign; assumption]]).
    destruct (Hwu w u un Hw Hin) as (H1 & c & r & E & H2 & H3). rewrite (span_is _ ds) by (first [apply digits_b, Hds|exact H1]).
    rewrite E. apply N.eqb_neq in H2, H3. rewrite H2, H3. cbn [orb]. rewrite <- E. destruct (unit_char _ _ Hin) as (c' & r' & Eu & _ & H4 & _).
    rewrite (span_is _ w u) by (first [exact Hw|rewrite Eu; exact H4]). rewrite (Hu _ _ Hin). unfold small_b. apply Z.ltb_lt in Hlt. rewrite Hlt. destruct ds; [contradiction|reflexivity].
  - assert (Hp' : (p =? 46) || (p =? 44) = true) by (destruct Hp as [->| ->]; reflexivity).
    rewrite (span_is _ sg) by (first [apply signs_b, Hsg|destruct ds as [|c ds]; [cbn; destruct Hp as [->| ->]; reflexivity|inversion Hds; subst; apply digit_not_sign; assumption]]).
    rewrite (span_is _ ds) by (first [apply digits_b, Hds|cbn; destruct Hp as [->| ->]; reflexivity]). rewrite Hp'.
    destruct (Hwu w u un Hw Hin) as (H1 & _). rewrite (span_is _ fs) by (first [apply digits_b, Hfs|exact H1]).
    destruct (unit_char _ _ Hin) as (c' & r' & Eu & _ & H4 & _). rewrite (span_is _ w u) by (first [exact Hw|rewrite Eu; exact H4]). rewrite (Hu _ _ Hin). unfold small_b.
    apply Z.ltb_lt in Hlt, Hlt'. apply Nat.leb_le in Hlen. rewrite Hlt, Hlt', Hlen. reflexivity.
Qed.

Lemma length_b_sound : forall t, length_b t = true -> exists d, dimension_text t d.
Proof.
  intros t H. unfold length_b in H.
  assert (Hu : forall u, existsb (str_eqb u) (map fst units) = true -> exists un, In (u, un) units).
  { intros u E. apply existsb_exists in E as (x & Hx & E). apply str_eqb_eq in E. subst x. apply in_map_iff in Hx as ((u' & un) & <- & Hx). exists un. exact Hx. }
  destruct (span_while sign_b t) as [sg t1] eqn:E1. apply span_while_spec in E1 as (-> & H1 & _).
  destruct (span_while is_digit t1) as [ds t2] eqn:E2. apply span_while_spec in E2 as (-> & H2 & _).
  assert (Hsg : Forall sign sg) by (apply Forall_forall; intros x Hx; apply sign_is; rewrite forallb_forall in H1; auto).
  assert (Hds : digits ds) by (apply Forall_forall; intros x Hx; apply digit_is; rewrite forallb_forall in H2; auto).
  destruct t2 as [|p t3]; [discriminate|]. destruct ((p =? 46) || (p =? 44)) eqn:Ep.
  - destruct (span_while is_digit t3) as [fs t4] eqn:E3. apply span_while_spec in E3 as (-> & H3 & _).
    destruct (span_while is_ws t4) as [w u] eqn:E4. apply span_while_spec in E4 as (-> & H4 & _).
    assert (Hfs : digits fs) by (apply Forall_forall; intros x Hx; apply digit_is; rewrite forallb_forall in H3; auto).
    apply andb_prop in H as [H L]. apply andb_prop in H as [H S2]. apply andb_prop in H as [H S1]. destruct (Hu _ H) as [un Hin]. eexists. eapply DT_fraction; try eassumption.
    + apply orb_prop in Ep as [E|E]; apply N.eqb_eq in E; auto.
    + apply Z.ltb_lt, S1.
    + apply Z.ltb_lt, S2.
    + apply Nat.leb_le, L.
  - destruct (span_while is_ws (p :: t3)) as [w u] eqn:E4. apply span_while_spec in E4 as (E4 & H4 & _). rewrite E4 in *.
    apply andb_prop in H as [H L]. apply andb_prop in H as [H S1]. destruct (Hu _ H) as [un Hin]. eexists. eapply DT_integer; try eassumption.
    + destruct ds; [discriminate|discriminate].
    + apply Z.ltb_lt, S1.
Qed.

(** The length at the start of a text. *)
Definition unit_after (a t : str) : option (str * str) :=
  match t with
  | c :: c' :: r => if existsb (str_eqb [c; c']) (map fst units) then Some (a ++ [c; c'], r) else None
  | _ => None
  end.
Definition first_length (t : str) : option (str * str) :=
  let (sg, t1) := span_while sign_b t in
  let (ds, t2) := span_while is_digit t1 in
  match t2 with
  | p :: t3 =>
      if (p =? 46) || (p =? 44) then
        let (fs, t4) := span_while is_digit t3 in
        let (w, t5) := span_while is_ws t4 in unit_after (sg ++ ds ++ p :: fs ++ w) t5
      else let (w, t5) := span_while is_ws t2 in unit_after (sg ++ ds ++ w) t5
  | [] => None
  end.

Lemma unit_known : forall u un, In (u, un) units -> existsb (str_eqb u) (map fst units) = true.
Proof. intros u un Hin. apply existsb_exists. exists u. split; [exact (in_map fst _ _ Hin)|apply str_eqb_refl]. Qed.
Lemma unit_found : forall u, existsb (str_eqb u) (map fst units) = true -> exists un, In (u, un) units.
Proof. intros u E. apply existsb_exists in E as (x & Hx & E). apply str_eqb_eq in E. subst x. apply in_map_iff in Hx as ((u' & un) & <- & Hx). exists un. exact Hx. Qed.

Lemma unit_next : forall u d a q, In (u, d) units -> unit_after a (u ++ q) = Some (a ++ u, q).
Proof.
  intros u d a q H. pose proof (unit_known _ _ H) as Hk. destruct (units_table _ _ H) as (_ & Hl & _). destruct u as [|c [|c' [|? ?]]]; try discriminate. cbn [app unit_after]. rewrite Hk. reflexivity.
Qed.

Lemma sign_char : forall c, sign_b c = false -> is_ws c = false.
Proof. intros c H. unfold sign_b in H. apply orb_false_iff in H as [_ H]. exact H. Qed.

Lemma first_integer : forall sg ds w u d q, Forall sign sg -> digits ds -> (ds = [] -> w = []) -> white w -> In (u, d) units ->
  first_length ((sg ++ ds ++ w ++ u) ++ q) = Some (sg ++ ds ++ w ++ u, q).
Proof.
  intros sg ds w u d q Hsg Hds He Hw Hu. unfold first_length. destruct (unit_char _ _ Hu) as (c & r & Eu & A1 & A2 & A3 & A4). rewrite <- !app_assoc.
  assert (Hs : sign_b c = false). { destruct (sign_b c) eqn:E; [|reflexivity]. exfalso. clear -Hu Eu E. subst u. repeat destruct Hu as [Hu|Hu]; try contradiction; injection Hu as <- <- _; discriminate. }
  rewrite (span_is _ sg); [|apply signs_b, Hsg|].
  2:{ destruct ds as [|x ds]; [rewrite (He eq_refl), Eu; exact Hs|]. inversion Hds; subst. apply digit_not_sign. assumption. }
  assert (Hwu : exists x y, w ++ u ++ q = x :: y /\ is_digit x = false /\ x <> 46 /\ x <> 44).
  { destruct w as [|x w]; [rewrite Eu; cbn; eauto 6|]. unfold white in Hw. cbn [forallb] in Hw. apply andb_prop in Hw as [Hx Hw]. destruct (ws_not_digit x Hx) as (B1 & B2 & B3). cbn. eauto 6. }
  destruct Hwu as (x & y & E & B1 & B2 & B3). rewrite (span_is _ ds) by (first [apply digits_b, Hds|rewrite E; exact B1]).
  rewrite E. apply N.eqb_neq in B2, B3. rewrite B2, B3. cbn [orb]. rewrite <- E. rewrite (span_is _ w) by (first [exact Hw|rewrite Eu; exact A2]).
  rewrite (unit_next _ _ _ _ Hu). rewrite <- !app_assoc. reflexivity.
Qed.

Lemma first_fraction : forall sg ds p fs w u d q, Forall sign sg -> digits ds -> p = 46 \/ p = 44 -> digits fs -> white w -> In (u, d) units ->
  first_length ((sg ++ ds ++ p :: fs ++ w ++ u) ++ q) = Some (sg ++ ds ++ p :: fs ++ w ++ u, q).
Proof.
  intros sg ds p fs w u d q Hsg Hds Hp Hfs Hw Hu. unfold first_length. destruct (unit_char _ _ Hu) as (c & r & Eu & A1 & A2 & A3 & A4).
  repeat (rewrite <- !app_assoc; cbn [app]).
  rewrite (span_is _ sg); [|apply signs_b, Hsg|].
  2:{ destruct ds as [|x ds]; [destruct Hp as [->| ->]; reflexivity|]. inversion Hds; subst. apply digit_not_sign. assumption. }
  rewrite (span_is _ ds) by (first [apply digits_b, Hds|destruct Hp as [->| ->]; reflexivity]).
  replace ((p =? 46) || (p =? 44)) with true by (destruct Hp as [->| ->]; reflexivity).
  rewrite (span_is _ fs); [|apply digits_b, Hfs|].
  2:{ destruct w as [|x w]; [rewrite Eu; exact A1|]. unfold white in Hw. cbn [forallb] in Hw. apply andb_prop in Hw as [Hx Hw]. exact (proj1 (ws_not_digit x Hx)). }
  rewrite (span_is _ w) by (first [exact Hw|rewrite Eu; exact A2]). rewrite (unit_next _ _ _ _ Hu). repeat (rewrite <- !app_assoc; cbn [app]). reflexivity.
Qed.

Lemma first_some : forall x q, some_length x -> first_length (x ++ q) = Some (x, q).
Proof.
  intros x q [sg ds w u d Hsg Hds Hw Hu|sg ds p fs w u d Hsg Hds Hp Hfs Hw Hu].
  - destruct ds as [|c ds]; [|eapply first_integer; try eassumption; discriminate].
    assert (Hw' : Forall sign w) by (apply Forall_forall; intros y Hy; right; right; exact (proj1 (forallb_forall _ _) Hw y Hy)).
    pose proof (first_integer (sg ++ w) [] [] u d q ltac:(apply Forall_app; auto) Hds ltac:(auto) eq_refl Hu) as H. cbn [app] in H |- *. rewrite <- !app_assoc in *. exact H.
  - eapply first_fraction; eassumption.
Qed.

Lemma unit_after_some : forall a t x q, unit_after a t = Some (x, q) -> exists u d, In (u, d) units /\ x = a ++ u /\ t = u ++ q.
Proof.
  intros a t x q H. destruct t as [|c [|c' r]]; try discriminate. cbn [unit_after] in H. destruct (existsb (str_eqb [c; c']) (map fst units)) eqn:E; [|discriminate].
  injection H as <- <-. apply unit_found in E as [d Hd]. exists [c; c'], d. auto.
Qed.
Lemma unit_after_none : forall a t, unit_after a t = None -> forall u d, In (u, d) units -> firstn 2 t <> u.
Proof.
  intros a t H u d Hu E. pose proof (unit_known _ _ Hu) as Hk. destruct (units_table _ _ Hu) as (_ & Hl & _). subst u.
  destruct t as [|c [|c' r]]; try discriminate. cbn [unit_after firstn] in *. rewrite Hk in H. discriminate.
Qed.

Lemma first_or : forall s, match first_length s with Some (x, q) => s = x ++ q /\ some_length x | None => no_length s end.
Proof.
  intros s. unfold first_length.
  destruct (span_while sign_b s) as [sg t1] eqn:E1. apply span_while_spec in E1 as (-> & H1 & N1).
  destruct (span_while is_digit t1) as [ds t2] eqn:E2. apply span_while_spec in E2 as (-> & H2 & N2).
  assert (Hsg : Forall sign sg) by (apply Forall_forall; intros x Hx; apply sign_is; rewrite forallb_forall in H1; auto).
  assert (Hds : digits ds) by (apply Forall_forall; intros x Hx; apply digit_is; rewrite forallb_forall in H2; auto).
  destruct t2 as [|p t3].
  { apply (NL_integer sg ds [] [] Hsg Hds eq_refl (fun _ => I) I). split; [exact I|]. intros u d Hu E. destruct (units_table _ _ Hu) as (_ & Hl & _). subst u. discriminate. }
  destruct ((p =? 46) || (p =? 44)) eqn:Ep.
  - assert (Hp : p = 46 \/ p = 44) by (apply orb_prop in Ep as [E|E]; apply N.eqb_eq in E; auto).
    destruct (span_while is_digit t3) as [fs t4] eqn:E3. apply span_while_spec in E3 as (-> & H3 & N3).
    destruct (span_while is_ws t4) as [w t5] eqn:E4. apply span_while_spec in E4 as (-> & H4 & N4).
    assert (Hfs : digits fs) by (apply Forall_forall; intros x Hx; apply digit_is; rewrite forallb_forall in H3; auto).
    destruct (unit_after _ t5) as [[x q]|] eqn:Eu.
    + apply unit_after_some in Eu as (u & d & Hu & -> & ->). split; [repeat (rewrite <- !app_assoc; cbn [app]); reflexivity|].
      replace ((sg ++ ds ++ p :: fs ++ w) ++ u) with (sg ++ ds ++ p :: fs ++ w ++ u) by (repeat (rewrite <- !app_assoc; cbn [app]); reflexivity).
      eapply SL_fraction; eassumption.
    + apply NL_fraction; try assumption.
      * destruct (w ++ t5); [exact I|]. cbn in N3 |- *. intros X. apply digit_is in X. congruence.
      * split; [destruct t5; [exact I|cbn in N4 |- *; congruence]|]. exact (unit_after_none _ _ Eu).
  - destruct (span_while is_ws (p :: t3)) as [w t5] eqn:E4. apply span_while_spec in E4 as (E4 & H4 & N4). rewrite E4 in *.
    destruct (unit_after _ t5) as [[x q]|] eqn:Eu.
    + apply unit_after_some in Eu as (u & d & Hu & -> & ->). split; [repeat (rewrite <- !app_assoc; cbn [app]); reflexivity|].
      replace ((sg ++ ds ++ w) ++ u) with (sg ++ ds ++ w ++ u) by (rewrite <- !app_assoc; reflexivity).
      eapply SL_integer; eassumption.
    + apply NL_integer; try assumption.
      * intros ->. cbn [app] in N1. destruct (w ++ t5); [exact I|]. cbn in N1 |- *. intros X. apply sign_is in X. congruence.
      * rewrite <- E4 in *. cbn in N2 |- *. apply orb_false_iff in Ep as [B1 B2]. apply N.eqb_neq in B1, B2. intros [X|[X|X]]; [apply digit_is in X; congruence|contradiction|contradiction].
      * split; [destruct t5; [exact I|cbn in N4 |- *; congruence]|]. exact (unit_after_none _ _ Eu).
Qed.

Lemma dimension_length : forall x d, dimension_text x d -> some_length x.
Proof. intros x d [sg ds w u un|sg ds p fs w u un]; [eapply SL_integer|eapply SL_fraction]; eassumption. Qed.

Lemma dimension_or : forall x, (exists d, dimension_text x d) \/ forall d, ~ dimension_text x d.
Proof.
  intros x. destruct (length_b x) eqn:E; [left; apply length_b_sound, E|right]. intros d H. apply length_b_complete in H. congruence.
Qed.

Lemma length_white : forall w x, white w -> length_b (w ++ x) = length_b x.
Proof.
  induction w as [|c w IH]; intros x H; [reflexivity|]. unfold white in H. cbn [forallb] in H. apply andb_prop in H as [Hc Hw]. rewrite <- (IH x Hw).
  unfold length_b. cbn [app span_while]. assert (E : sign_b c = true) by (unfold sign_b; rewrite Hc; apply orb_true_r). rewrite E. destruct (span_while sign_b (w ++ x)). reflexivity.
Qed.

Lemma white_or : forall z, white z \/ exists w c r, white w /\ is_ws c = false /\ z = w ++ c :: r.
Proof.
  intros z. destruct (span_while is_ws z) as [w r] eqn:E. apply span_while_spec in E as (-> & H & N). destruct r as [|c r].
  - left. rewrite app_nil_r. exact H.
  - right. exists w, c, r. auto.
Qed.

Lemma spaced_or : forall y, (exists z, spaced y z) \/ exists c z, is_ws c = true /\ 128 <= c /\ y = c :: z.
Proof.
  intros [|c y]; [left; exists []; left; split; [reflexivity|exact I]|]. destruct (is_ws c) eqn:E.
  - destruct (N.lt_ge_cases c 128); [left; exists y; right; eauto|right; eauto].
  - left. exists (c :: y). left. split; [reflexivity|]. cbn. congruence.
Qed.

Lemma white_join : forall a b, white a -> white b -> white (a ++ b).
Proof. intros a b Ha Hb. unfold white in *. rewrite forallb_app, Ha, Hb. reflexivity. Qed.

(** A length, and what may follow it. *)
Lemma length_or : forall s, (exists x d y z, s = x ++ y /\ dimension_text x d /\ spaced y z) \/ no_length s \/ exists x q, s = x ++ q /\ bad_length x.
Proof.
  intros s. pose proof (first_or s) as Hf. destruct (first_length s) as [[x y]|]; [|right; left; exact Hf]. destruct Hf as [-> Hx].
  destruct (dimension_or x) as [[d Hd]|Hd]; [|right; right; exists x, y; split; [reflexivity|now apply BL_number]].
  destruct (spaced_or y) as [[z Hz]|(c & z & Hc & Hw & ->)]; [left; eauto 8|]. right. right. exists (x ++ [c]), z. split; [rewrite <- app_assoc; reflexivity|eapply BL_wide; eassumption].
Qed.
Lemma goes_or : forall kw s, (exists x, goes_on kw s x) \/ forall x, ~ goes_on kw s x.
Proof.
  intros kw s. assert (H : forall s, {x | s = kw ++ x} + {forall x, s <> kw ++ x}).
  { intros s0. destruct (strip_prefix kw s0) as [x|] eqn:E; [left; exists x; apply strip_prefix_some, E|right]. intros x ->. rewrite strip_prefix_app in E. discriminate. }
  induction s as [|c s IH].
  - destruct (H []) as [[x E]|E]; [left; exists x, []; split; [reflexivity|exact E]|right]. intros x (w & _ & Ew). symmetry in Ew. apply app_eq_nil in Ew as [_ Ew]. apply (E x). auto.
  - destruct (H (c :: s)) as [[x E]|E]; [left; exists x, []; split; [reflexivity|exact E]|].
    destruct (is_ws c) eqn:Ec; [destruct IH as [(x & w & Hw & ->)|IH]; [left; exists x, (c :: w); split; [unfold white; cbn [forallb]; rewrite Ec; exact Hw|reflexivity]|]|];
      right; intros x ([|c' w] & Hw & Ew); try exact (E x Ew); injection Ew as <- Ew; unfold white in Hw; cbn [forallb] in Hw; apply andb_prop in Hw as [Hw1 Hw2].
    + apply (IH x). exists w. auto.
    + congruence.
Qed.
Lemma stretch_or : forall kw s, (exists p r, stretch kw s p r) \/ (exists y, goes_on kw s y /\ no_length y) \/
  exists w x q, white w /\ s = w ++ kw ++ x ++ q /\ bad_length x.
Proof.
  intros kw s. destruct (goes_or kw s) as [[y Hy]|H]; [|left; exists None, s; now constructor].
  destruct (length_or y) as [(x & d & y' & z & -> & Hd & Hz)|[Hn|(x & q & -> & Hx)]].
  - left. exists (Some d), z. econstructor; eassumption.
  - right. left. eauto.
  - right. right. destruct Hy as (w & Hw & ->). exists w, x, q. auto.
Qed.
Lemma glue_or : forall s, (exists d p m r, glue_text s d p m r) \/ no_length s \/ short_glue s \/
  exists x q, s = x ++ q /\ (bad_length x \/ exists a y, x = a ++ y /\ glue_start a /\ bad_length y).
Proof.
  intros s. destruct (length_or s) as [(x & d & y & s1 & -> & Hd & Hs)|[Hn|(x & q & -> & Hx)]]; [|right; left; exact Hn|right; right; right; exists x, q; auto].
  destruct (stretch_or (lit "plus") s1) as [(p & s2 & Hp)|[(y' & Hy & Hn)|(w & x' & q & Hw & -> & Hx)]].
  - destruct (stretch_or (lit "minus") s2) as [(m & r & Hm)|[(y' & Hy & Hn)|(w & x' & q & Hw & -> & Hx)]].
    + left. exists d, p, m, r. econstructor; eassumption.
    + right. right. left. eapply SG_minus; eassumption.
    + right. right. right. apply spaced_white in Hs as (v & Hv & ->). inversion Hp as [s0 H0 E1 E2 E3|s0 x1 d1 y1 r0 (w1 & Hw1 & E) Hd1 Hs1 E1 E2 E3]; subst.
      * exists (x ++ v ++ w ++ lit "minus" ++ x'), q. split; [rewrite <- !app_assoc; reflexivity|]. right. exists (x ++ (v ++ w) ++ lit "minus"), x'. split; [rewrite <- !app_assoc; reflexivity|].
        split; [eapply GS_minus; [exact Hd|now apply white_join]|exact Hx].
      * apply spaced_white in Hs1 as (v1 & Hv1 & ->). exists (x ++ v ++ w1 ++ lit "plus" ++ x1 ++ v1 ++ w ++ lit "minus" ++ x'), q. split; [rewrite <- !app_assoc; reflexivity|]. right.
        exists (x ++ (v ++ w1) ++ lit "plus" ++ x1 ++ (v1 ++ w) ++ lit "minus"), x'. split; [rewrite <- !app_assoc; reflexivity|].
        split; [eapply GS_both; [exact Hd|now apply white_join|exact Hd1|now apply white_join]|exact Hx].
  - right. right. left. eapply SG_plus; eassumption.
  - right. right. right. apply spaced_white in Hs as (v & Hv & ->). exists (x ++ v ++ w ++ lit "plus" ++ x'), q. split; [rewrite <- !app_assoc; reflexivity|]. right.
    exists (x ++ (v ++ w) ++ lit "plus"), x'. split; [rewrite <- !app_assoc; reflexivity|]. split; [eapply GS_plus; [exact Hd|now apply white_join]|exact Hx].
Qed.

Lemma row_space_or : forall s, (exists d r a, row_space s d r /\ s = a ++ r) \/
  exists w s', white w /\ s = w ++ 91 :: s' /\ forall x d r, s' = x ++ 93 :: r -> ~ dimension_text x d.
Proof.
  intros s. destruct (starts_or 91 s eq_refl) as [(w & s' & Hw & ->)|H]; [|left; exists None, s, []; split; [constructor; exact H|reflexivity]].
  destruct (group_content GKOptional s') as [[g| | |] r] eqn:E.
  2-4: right; exists w, s'; split; [exact Hw|]; split; [reflexivity|]; intros x d r' -> Hx;
    rewrite (bracket_group x r' (dimension_text_balanced _ _ Hx)) in E; discriminate.
  destruct (length_b g) eqn:El.
  - left. apply length_b_sound in El as [d Hd]. pose proof (group_content_text _ _ _ _ E) as Et. cbn in Et. exists (Some d), r, (w ++ 91 :: g ++ [93]).
    split; [|rewrite Et; repeat (rewrite <- app_assoc; cbn [app]); reflexivity]. rewrite Et. apply RS_some; assumption.
  - right. exists w, s'. split; [exact Hw|]. split; [reflexivity|]. intros x d r' -> Hx. rewrite (bracket_group x r' (dimension_text_balanced _ _ Hx)) in E.
    injection E as <- _. apply length_b_complete in Hx. congruence.
Qed.
